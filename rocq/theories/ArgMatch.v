(** Argument matchers: crates/mitex-parser/src/arg_match.rs.

    [gm] is [glob_match_prefix]; the parser theorems hold for any such
    function, the API (Api.v) plugs in Glob.glob_match_prefix. *)
From Verif Require Export Spec.
Local Open Scope N_scope.

(** spec/lib.rs:166-173 [argument_kind] *)
Definition ARG_TERM : char := 116.     (* 't' *)
Definition ARG_BRACKET : char := 98.   (* 'b' *)
Definition ARG_PAREN : char := 112.    (* 'p' *)

(** arg_match.rs:9-35 [ArgMatcher] *)
Inductive matcher :=
| AMNone
| AMAtMost (max counter : N)
| AMGreedy
| AMGlob (re prefix : text).

(** arg_match.rs:39-41 [is_greedy] *)
Definition is_greedy (m : matcher) : bool := match m with AMGreedy => true | _ => false end.

Section ArgMatch.
  Variable gm : text -> text -> bool.

  (** arg_match.rs:58-76 [try_match].  [counter] is a [u8] incremented even on
      rejection; it can only overflow when [max] = 255, on the rejecting call
      after which the parser drops the matcher (modelled without overflow). *)
  Definition try_match (m : matcher) (c : char) : bool * matcher :=
    match m with
    | AMNone => (false, m)
    | AMGreedy => (true, m)
    | AMAtMost max counter =>
      if negb (c =? ARG_TERM) then (false, m)
      else (counter <? max, AMAtMost max (counter + 1))
    | AMGlob re prefix => let prefix := prefix ++ [c] in (gm re prefix, AMGlob re prefix)
    end.

  (** arg_match.rs:46-55 [match_as_term] *)
  Definition match_as_term (m : matcher) (c : char) : option bool * matcher :=
    match m with
    | AMNone => (None, m)
    | AMGreedy => (Some (negb (c =? ARG_TERM)), m)
    | AMAtMost _ _ =>
      let '(ok, m) := try_match m ARG_TERM in
      (if ok then Some (negb (c =? ARG_TERM)) else None, m)
    | AMGlob _ _ =>
      let '(ok, m) := try_match m c in (if ok then Some false else None, m)
    end.
End ArgMatch.

(** arg_match.rs:89-108 [start_match] *)
Definition start_match (p : arg_pattern) : matcher :=
  match p with
  | PNone => AMNone
  | PRange _ mx => if mx =? 0 then AMNone else AMAtMost mx 0
  | PFixed mx => if mx =? 0 then AMNone else AMAtMost mx 0
  | PGreedy => AMGreedy
  | PGlob re => AMGlob re []
  end.
