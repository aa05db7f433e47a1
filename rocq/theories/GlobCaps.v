(** Glob matching with captures: crates/mitex-glob/src/lib.rs again, now with
    the capture list ([glob_match_with_captures], lib.rs:42-48).

    [Glob.v] models the same functions without captures; here every function
    carries [captures : option (list (nat * nat))] as in the code ([None]:
    [glob_match] and [glob_match_prefix]).  That dropping the captures gives
    Glob.v is proved in P_Captures.v.  A capture is a range (start, end) of
    bytes of the path. *)
From Verif Require Export Glob.
Local Open Scope N_scope.

(** lib.rs:32 [Capture] *)
Definition capture := (nat * nat)%type.
Definition captures := option (list capture).

(** lib.rs:25-31 [Wildcard], with its capture index *)
Record cwild := mk_cw { k_glob : nat; k_path : nat; k_cap : nat }.
Definition cw0 := mk_cw 0 0 0.
(** lib.rs:10-22 [State], with its capture index *)
Record cstate := mk_cs { s_path : nat; s_glob : nat; s_cap : nat; s_wild : cwild; s_star : cwild }.
(** lib.rs:481-485 [BraceStack] *)
Record cstack := mk_ck { ck_stack : list cstate; ck_longest : option nat }.

(** [captures\[i\] = x] for an index in bounds *)
Fixpoint set_nth (i : nat) (x : capture) (l : list capture) : list capture :=
  match l, i with
  | [], _ => []
  | _ :: r, O => x :: r
  | y :: r, S i => y :: set_nth i x r
  end.
(** write at [i], or push: lib.rs:383-389 [begin_capture] *)
Definition begin_capture (i : nat) (x : capture) (cs : captures) : captures :=
  match cs with
  | None => None
  | Some l => Some (if Nat.ltb i (List.length l) then set_nth i x l else l ++ [x])
  end.
(** lib.rs:392-398 [extend_capture] *)
Definition extend_capture (i e : nat) (cs : captures) : captures :=
  match cs with
  | None => None
  | Some l => Some (match nth_error l i with Some (a, _) => set_nth i (a, e) l | None => l end)
  end.
(** lib.rs:401-407 [end_capture]: the new index *)
Definition end_capture (i : nat) (cs : captures) : nat :=
  match cs with
  | None => i
  | Some l => if Nat.ltb i (List.length l) then S i else i
  end.
(** lib.rs:410-414 [add_char_capture] *)
Definition add_char_capture (p i : nat) (cs : captures) : nat * captures :=
  let i := end_capture i cs in (S i, begin_capture i (p, S p) cs).

(** lib.rs:417-468 [skip_braces]; [p] is the path index, [ci] the next capture
    to write *)
Fixpoint cskip_braces (fuel : nat) (glob : list N) (stop : bool) (p : nat) (i : nat) (braces : nat)
  (in_br : bool) (ci : nat) (cs : captures) : res (brace_state * nat * captures) :=
  if negb (Nat.ltb i (List.length glob)) || Nat.eqb braces 0 then
    Ok (if Nat.eqb braces 0 then BEndBrace else BInvalid, i, cs)
  else
    match fuel with
    | O => Fuel
    | S fuel =>
      let* c := at_ glob i in
      let go i braces in_br ci cs := cskip_braces fuel glob stop p i braces in_br ci cs in
      if (c =? 123) && negb in_br then go (S i) (S braces) in_br ci cs
      else if (c =? 125) && negb in_br then go (S i) (braces - 1)%nat in_br ci cs
      else if (c =? 44) && stop && Nat.eqb braces 1 && negb in_br then Ok (BComma, S i, cs)
      else if ((c =? 42) || (c =? 63) || (c =? 91)) && negb in_br then
        let in_br := if c =? 91 then true else in_br in
        let '(ci, cs) := match cs with None => (ci, cs) | Some _ => (S ci, begin_capture ci (p, p) cs) end in
        if c =? 42 then
          match nth_error glob (S i) with
          | Some 42 =>
            let* j := skip_globstars glob (i + 2) in
            go (S (j - 2 + 1)) braces in_br ci cs
          | _ => go (S i) braces in_br ci cs
          end
        else go (S i) braces in_br ci cs
      else if c =? 93 then go (S i) braces false ci cs
      else if c =? 92 then go (S (S i)) braces in_br ci cs
      else go (S i) braces in_br ci cs
    end.

(** lib.rs:501-511 [push] *)
Definition ck_push (st : cstate) (bs : cstack) : cstate * cstack :=
  (mk_cs (s_path st) (S (s_glob st)) (S (s_cap st)) cw0 cw0, mk_ck (st :: ck_stack bs) (ck_longest bs)).
(** lib.rs:514-533 [pop]: restores the star state and the capture index of the
    group, extends that capture, and goes on after the last capture *)
Definition ck_pop (st : cstate) (bs : cstack) (cs : captures) : res (cstate * cstack * captures) :=
  match ck_stack bs, ck_longest bs with
  | top :: rest, Some l =>
    let cs := extend_capture (s_cap top) l cs in
    let i := match cs with Some l => List.length l | None => s_cap top end in
    Ok (mk_cs l (s_glob st) i (s_wild top) (s_star top),
        mk_ck rest (match rest with [] => None | _ => Some l end), cs)
  | [], _ => Panic "lib.rs:515 stack underflow"
  | _, None => Panic "lib.rs:517 negative index"
  end.
Definition ck_last (bs : cstack) : res cstate :=
  match ck_stack bs with s :: _ => Ok s | [] => Panic "lib.rs:537 stack underflow" end.

Inductive cout :=
| CRet (b : bool) (cs : captures)
| CCont (st : cstate) (bs : cstack) (cs : captures)
| CFail (st : cstate) (bs : cstack) (cs : captures).

Section Match.
  Variables glob path : list N.
  Let glen := List.length glob.
  Let plen := List.length path.

  (** lib.rs:78-160: the [*] arm *)
  Definition carm_star (st : cstate) (bs : cstack) (cs : captures) : res cout :=
    let i := s_glob st in
    let p := s_path st in
    let is_globstar := match nth_error glob (S i) with Some 42 => true | _ => false end in
    let* i := if is_globstar then let* j := skip_globstars glob (i + 2) in Ok (j - 2)%nat else Ok i in
    (* lib.rs:85-95: a star at another place of the pattern starts a capture *)
    let fresh := match cs with
                 | None => false
                 | Some l => Nat.eqb (List.length l) 0 || negb (Nat.eqb i (k_glob (s_wild st)))
                 end in
    let wcap := if fresh then s_cap st else k_cap (s_wild st) in
    let cs := if fresh then begin_capture (s_cap st) (p, p) cs else extend_capture (s_cap st) p cs in
    let wild := mk_cw i (p + 1) wcap in
    let* (i, star, ci) :=
      if is_globstar then
        let i := (i + 2)%nat in
        if Nat.eqb glen i then Ok (i, wild, s_cap st)
        else
          let* c1 := if Nat.ltb i 3 then Ok 47 else at_ glob (i - 3) in
          let* c2 := if c1 =? 47 then at_ glob i else Ok 0 in
          if (c1 =? 47) && (c2 =? 47) then
            let* skip :=
              if Nat.eqb p 0 then Ok true
              else if Nat.ltb p plen then let* c := at_ path (p - 1) in Ok (is_sep c)
              else Ok false in
            Ok ((if skip then S i else i), wild, (if skip then end_capture (s_cap st) cs else s_cap st))
          else Ok (i, s_star st, s_cap st)
      else Ok (S i, s_star st, s_cap st) in
    let* sep :=
      if negb (Nat.eqb (k_path star) (k_path wild)) && Nat.ltb p plen
      then let* c := at_ path p in Ok (is_sep c) else Ok false in
    let '(i, wild, ci) :=
      if sep then
        if Nat.ltb 0 (k_path star) && Nat.ltb (p + 1) plen
        then (k_glob star, mk_cw (k_glob star) (k_path wild) (k_cap star), k_cap star)
        else (i, mk_cw (k_glob wild) 0 (k_cap wild), ci)
      else (i, wild, ci) in
    let special := match ck_stack bs, nth_error glob i with
                   | _ :: _, Some c => (c =? 44) || (c =? 125)
                   | _, _ => false
                   end in
    if special then
      let* (b, i, cs) := cskip_braces (S glen) glob false p i 1 false (S ci) cs in
      match b with
      | BInvalid => Ok (CRet false cs)
      | _ => Ok (CCont (mk_cs p i ci wild star) bs cs)
      end
    else Ok (CCont (mk_cs p i ci wild star) bs cs).

  (** lib.rs:169-223: the [\[] arm *)
  Definition carm_class (st : cstate) (bs : cstack) (cs : captures) : res cout :=
    let i := S (s_glob st) in
    let* c := at_ path (s_path st) in
    let '(neg, i) := match nth_error glob i with
                     | Some x => if (x =? 94) || (x =? 33) then (true, S i) else (false, i)
                     | None => (false, i)
                     end in
    let* r := class_loop glob (S glen) c true false i in
    match r with
    | None => Ok (CRet false cs)
    | Some (i, is_match) =>
      if negb (Nat.ltb i glen) then Ok (CRet false cs)
      else if xorb is_match neg then
        let '(ci, cs) := add_char_capture (s_path st) (s_cap st) cs in
        Ok (CCont (mk_cs (S (s_path st)) (S i) ci (s_wild st) (s_star st)) bs cs)
      else Ok (CFail (mk_cs (s_path st) (S i) (s_cap st) (s_wild st) (s_star st)) bs cs)
    end.

  (** lib.rs:256-285: the literal arm *)
  Definition carm_literal (c : N) (st : cstate) (bs : cstack) (cs : captures) : res cout :=
    match unescape c glob (s_glob st) with
    | None => Ok (CRet false cs)
    | Some (c, i) =>
      let st := mk_cs (s_path st) i (s_cap st) (s_wild st) (s_star st) in
      let* x := at_ path (s_path st) in
      let is_match := if c =? 47 then is_sep x else x =? c in
      if is_match then
        let st := mk_cs (s_path st) i (end_capture (s_cap st) cs) (s_wild st) (s_star st) in
        let* after := match ck_stack bs, i with
                      | _ :: _, S j => let* y := at_ glob j in Ok (y =? 125)
                      | _, _ => Ok false
                      end in
        let* (st, bs, cs) := if after then ck_pop st (mk_ck (ck_stack bs) (Some (s_path st))) cs
                             else Ok (st, bs, cs) in
        let star := if c =? 47 then s_star st else mk_cw (k_glob (s_star st)) 0 (k_cap (s_star st)) in
        Ok (CCont (mk_cs (S (s_path st)) (S (s_glob st)) (s_cap st) (s_wild st) star) bs cs)
      else Ok (CFail st bs cs)
    end.

  (** lib.rs:76-288: the [match] on the pattern byte *)
  Definition carm (st : cstate) (bs : cstack) (cs : captures) : res cout :=
    let more := Nat.ltb (s_path st) plen in
    let inb := match ck_stack bs with [] => false | _ => true end in
    let* c := at_ glob (s_glob st) in
    if c =? 42 then carm_star st bs cs
    else if (c =? 63) && more then
      let* x := at_ path (s_path st) in
      if negb (is_sep x) then
        let '(ci, cs) := add_char_capture (s_path st) (s_cap st) cs in
        Ok (CCont (mk_cs (S (s_path st)) (S (s_glob st)) ci (s_wild st) (s_star st)) bs cs)
      else Ok (CFail st bs cs)
    else if (c =? 91) && more then carm_class st bs cs
    else if (c =? 123) && more then
      if Nat.leb 10 (List.length (ck_stack bs)) then Ok (CRet false cs)
      else
        let ci := end_capture (s_cap st) cs in
        let cs := begin_capture ci (s_path st, s_path st) cs in
        let st := mk_cs (s_path st) (s_glob st) ci (s_wild st) (s_star st) in
        let '(st, bs) := ck_push st bs in Ok (CCont st bs cs)
    else if (c =? 125) && inb then
      let bs := mk_ck (ck_stack bs) (opt_max (ck_longest bs) (s_path st)) in
      let st := mk_cs (s_path st) (S (s_glob st)) (s_cap st) (s_wild st) (s_star st) in
      let* (st, bs, cs) := ck_pop st bs cs in Ok (CCont st bs cs)
    else if (c =? 44) && inb then
      let bs := mk_ck (ck_stack bs) (opt_max (ck_longest bs) (s_path st)) in
      let* top := ck_last bs in
      Ok (CCont (mk_cs (s_path top) (S (s_glob st)) (s_cap st) cw0 cw0) bs cs)
    else if more then carm_literal c st bs cs
    else Ok (CFail st bs cs).

  Definition ccan_backtrack (st : cstate) : bool :=
    Nat.ltb 0 (k_path (s_wild st)) && Nat.leb (k_path (s_wild st)) plen.
  (** lib.rs:374-379 [backtrack] *)
  Definition cbacktrack (st : cstate) : cstate :=
    mk_cs (k_path (s_wild st)) (k_glob (s_wild st)) (k_cap (s_wild st)) (s_wild st) (s_star st).

  Variables is_prefix negated : bool.
  (** lib.rs:327-335 *)
  Definition cgive_up (st : cstate) : bool :=
    if is_prefix then
      if negated then negb (Nat.eqb (s_path st) plen) else Nat.eqb (s_path st) plen
    else negated.

  (** lib.rs:290-335: the code after the [match] *)
  Definition cno_match (st : cstate) (bs : cstack) (cs : captures) : res cout :=
    if ccan_backtrack st then Ok (CCont (cbacktrack st) bs cs)
    else match ck_stack bs with
    | [] => Ok (CRet (cgive_up st) cs)
    | top :: rest =>
      let* (b, i, cs) := cskip_braces (S glen) glob true (s_path st) (s_glob st) 1 false (S (s_cap st)) cs in
      let st := mk_cs (s_path st) i (s_cap st) (s_wild st) (s_star st) in
      match b with
      | BInvalid => Ok (CRet false cs)
      | BComma => Ok (CCont (mk_cs (s_path top) i (s_cap st) (s_wild st) (s_star st)) bs cs)
      | BEndBrace =>
        match ck_longest bs with
        | Some _ => let* (st, bs, cs) := ck_pop st bs cs in Ok (CCont st bs cs)
        | None =>
          (* lib.rs:316-318 [truncate] *)
          let cs := option_map (firstn (s_cap top)) cs in
          if ccan_backtrack top then Ok (CCont (cbacktrack top) (mk_ck rest (ck_longest bs)) cs)
          else Ok (CRet (cgive_up top) cs)
        end
      end
    end.

  (** One iteration of the main loop, lib.rs:75-336, and its exit, 338-343 *)
  Definition cstep (st : cstate) (bs : cstack) (cs : captures) : res cout :=
    if Nat.ltb (s_glob st) glen || Nat.ltb (s_path st) plen then
      let* o := if Nat.ltb (s_glob st) glen then carm st bs cs else Ok (CFail st bs cs) in
      match o with
      | CFail st bs cs => cno_match st bs cs
      | o => Ok o
      end
    else
      let* after := match ck_stack bs, s_glob st with
                    | _ :: _, S j => let* y := at_ glob j in Ok (y =? 125)
                    | _, _ => Ok false
                    end in
      let* cs := if after then let* (_, _, cs) := ck_pop st (mk_ck (ck_stack bs) (Some (s_path st))) cs in Ok cs
                 else Ok cs in
      Ok (CRet (negb negated) cs).
End Match.

Fixpoint citer (k : nat) (f : cstate -> cstack -> captures -> res cout) (st : cstate) (bs : cstack) (cs : captures)
  : res cout :=
  match k with
  | O => f st bs cs
  | S k =>
    let* o := citer k f st bs cs in
    match o with
    | CCont st bs cs => citer k f st bs cs
    | o => Ok o
    end
  end.

(** lib.rs:51-344 [glob_match_internal], within 2^k iterations *)
Definition cglob_run (k : nat) (glob path : list N) (cs : captures) (is_prefix : bool) : res (bool * captures) :=
  let '(i, neg) := leading_bangs glob 0 false in
  let* o := citer k (cstep glob path is_prefix neg) (mk_cs 0 i 0 cw0 cw0) (mk_ck [] None) cs in
  match o with
  | CRet b cs => Ok (b, cs)
  | _ => Fuel
  end.
(** lib.rs:42-48 [glob_match_with_captures] *)
Definition glob_match_with_captures (glob path : text) : option (list capture) :=
  match cglob_run (glob_bits (utf8 glob) (utf8 path)) (utf8 glob) (utf8 path) (Some []) false with
  | Ok (true, cs) => cs
  | _ => None
  end.
