(** Glob matching: crates/mitex-glob/src/lib.rs.

    Patterns and paths are byte strings.  Capture lists are not modelled: they
    are only written, never read by the control flow ([glob_match] and
    [glob_match_prefix] pass [None]).  [usize], [u32], [i32] indices are [nat]
    (lengths below 2^31 assumed).  [is_separator] is the Unix one: '/'.
    Every slice or array access is explicit and yields a panic when out of
    bounds. *)
From Verif Require Export Base.
Local Open Scope N_scope.

(** lib.rs:25-31 [Wildcard] *)
Record wildcard := mk_wc { w_glob : nat; w_path : nat }.
Definition wc0 := mk_wc 0 0.

(** lib.rs:10-22 [State] *)
Record gstate := mk_gst {
  g_path : nat; g_glob : nat; g_wild : wildcard; g_star : wildcard }.

(** lib.rs:481-485 [BraceStack]: stack (head = top) and longest_brace_match
    (-1 is [None]) *)
Record bstack := mk_bs { b_stack : list gstate; b_longest : option nat }.

Definition is_sep (b : N) : bool := b =? 47.

(** lib.rs:471-479 [skip_globstars]; the range [glob_index..] must be in
    bounds *)
Fixpoint skip_globstars_go (rest : list N) (i : nat) : nat :=
  match rest with
  | a :: b :: c :: rest' =>
    if (a =? 47) && (b =? 42) && (c =? 42) then skip_globstars_go rest' (3 + i) else i
  | _ => i
  end.
Definition skip_globstars (glob : list N) (i : nat) : res nat :=
  if Nat.ltb (List.length glob) i then Panic "lib.rs:475 slice"
  else Ok (skip_globstars_go (skipn i glob) i).

Definition at_ (l : list N) (i : nat) : res N :=
  match nth_error l i with Some b => Ok b | None => Panic "index out of bounds" end.

(** lib.rs:346-364 [unescape]: [None] = invalid pattern *)
Definition unescape (c : N) (glob : list N) (i : nat) : option (N * nat) :=
  if c =? 92 then
    match nth_error glob (S i) with
    | None => None
    | Some e =>
      Some ((if e =? 97 then 0x61 else if e =? 98 then 8 else if e =? 110 then 10
             else if e =? 114 then 13 else if e =? 116 then 9 else e), S i)
    end
  else Some (c, i).

(** lib.rs:366-371 [BraceState] *)
Inductive brace_state := BInvalid | BComma | BEndBrace.

(** lib.rs:417-468 [skip_braces], one fuel unit per loop iteration (each
    advances the glob index) *)
Fixpoint skip_braces (fuel : nat) (glob : list N) (stop : bool) (i : nat) (braces : nat)
  (in_br : bool) : res (brace_state * nat) :=
  if negb (Nat.ltb i (List.length glob)) || Nat.eqb braces 0 then
    Ok (if Nat.eqb braces 0 then BEndBrace else BInvalid, i)
  else
    match fuel with
    | O => Fuel
    | S fuel =>
      let* c := at_ glob i in
      let go i braces in_br := skip_braces fuel glob stop i braces in_br in
      if (c =? 123) && negb in_br then go (S i) (S braces) in_br
      else if (c =? 125) && negb in_br then go (S i) (braces - 1)%nat in_br
      else if (c =? 44) && stop && Nat.eqb braces 1 && negb in_br then Ok (BComma, S i)
      else if ((c =? 42) || (c =? 63) || (c =? 91)) && negb in_br then
        let in_br := if c =? 91 then true else in_br in
        if c =? 42 then
          match nth_error glob (S i) with
          | Some 42 =>
            let* j := skip_globstars glob (i + 2) in
            go (S (j - 2 + 1)) braces in_br
          | _ => go (S i) braces in_br
          end
        else go (S i) braces in_br
      else if c =? 93 then go (S i) braces false
      else if c =? 92 then go (S (S i)) braces in_br
      else go (S i) braces in_br
    end.

(** lib.rs:501-511 [push] *)
Definition bs_push (st : gstate) (bs : bstack) : gstate * bstack :=
  (mk_gst (g_path st) (S (g_glob st)) wc0 wc0, mk_bs (st :: b_stack bs) (b_longest bs)).

(** lib.rs:514-533 [pop]; [longest as usize] of -1 would be a huge index: a panic
    of the model (never reached, see GlobFacts) *)
Definition bs_pop (st : gstate) (bs : bstack) : res (gstate * bstack) :=
  match b_stack bs, b_longest bs with
  | top :: rest, Some l =>
    Ok (mk_gst l (g_glob st) (g_wild top) (g_star top),
        mk_bs rest (match rest with [] => None | _ => Some l end))
  | [], _ => Panic "lib.rs:515 stack underflow"
  | _, None => Panic "lib.rs:517 negative index"
  end.

Definition opt_max (o : option nat) (n : nat) : option nat :=
  Some (match o with None => n | Some m => Nat.max m n end).

Definition bs_last (bs : bstack) : res gstate :=
  match b_stack bs with s :: _ => Ok s | [] => Panic "lib.rs:537 stack underflow" end.

(** What one iteration of the main loop does *)
Inductive gout :=
| GRet (b : bool)
| GCont (st : gstate) (bs : bstack)
| GFail (st : gstate) (bs : bstack)  (* fall through to the "didn't match" code *).

Section Match.
  Variables glob path : list N.
  Let glen := List.length glob.
  Let plen := List.length path.

  (** lib.rs:78-160: the [*] arm *)
  Definition arm_star (st : gstate) (bs : bstack) : res gout :=
    let i := g_glob st in
    let p := g_path st in
    let is_globstar := match nth_error glob (S i) with Some 42 => true | _ => false end in
    let* i := if is_globstar then let* j := skip_globstars glob (i + 2) in Ok (j - 2)%nat else Ok i in
    let wild := mk_wc i (p + 1) in
    let* (i, star) :=
      if is_globstar then
        let i := (i + 2)%nat in
        if Nat.eqb glen i then Ok (i, wild)
        else
          let* c1 := if Nat.ltb i 3 then Ok 47 else at_ glob (i - 3) in
          let* c2 := if c1 =? 47 then at_ glob i else Ok 0 in
          if (c1 =? 47) && (c2 =? 47) then
            let* skip :=
              if Nat.eqb p 0 then Ok true
              else if Nat.ltb p plen then let* c := at_ path (p - 1) in Ok (is_sep c)
              else Ok false in
            Ok ((if skip then S i else i), wild)
          else Ok (i, g_star st)
      else Ok (S i, g_star st) in
    let* sep :=
      if negb (Nat.eqb (w_path star) (w_path wild)) && Nat.ltb p plen
      then let* c := at_ path p in Ok (is_sep c) else Ok false in
    let '(i, wild) :=
      if sep then
        if Nat.ltb 0 (w_path star) && Nat.ltb (p + 1) plen
        then (w_glob star, mk_wc (w_glob star) (w_path wild))
        else (i, mk_wc (w_glob wild) 0)
      else (i, wild) in
    let special := match b_stack bs, nth_error glob i with
                   | _ :: _, Some c => (c =? 44) || (c =? 125)
                   | _, _ => false
                   end in
    if special then
      let* (b, i) := skip_braces (S glen) glob false i 1 false in
      match b with
      | BInvalid => Ok (GRet false)
      | _ => Ok (GCont (mk_gst p i wild star) bs)
      end
    else Ok (GCont (mk_gst p i wild star) bs).

  (** lib.rs:181-211: the ranges of a character class.  Result: [None] =
      invalid pattern *)
  Fixpoint class_loop (fuel : nat) (c : N) (first is_match : bool) (i : nat)
    : res (option (nat * bool)) :=
    if Nat.ltb i glen then
      match fuel with
      | O => Fuel
      | S fuel =>
        let* low := at_ glob i in
        if negb first && (low =? 93) then Ok (Some (i, is_match)) else
        match unescape low glob i with
        | None => Ok None
        | Some (low, i) =>
          let i := S i in
          let range := match nth_error glob i, nth_error glob (S i) with
                       | Some a, Some b => (a =? 45) && negb (b =? 93)
                       | _, _ => false
                       end in
          let* r :=
            if range then
              let* h := at_ glob (S i) in
              Ok (match unescape h glob (S i) with
                  | None => None
                  | Some (h, i) => Some (h, S i)
                  end)
            else Ok (Some (low, i)) in
          match r with
          | None => Ok None
          | Some (high, i) =>
            class_loop fuel c false (is_match || ((low <=? c) && (c <=? high))) i
          end
        end
      end
    else Ok (Some (i, is_match)).

  (** lib.rs:169-223: the [\[] arm *)
  Definition arm_class (st : gstate) (bs : bstack) : res gout :=
    let i := S (g_glob st) in
    let* c := at_ path (g_path st) in
    let '(neg, i) := match nth_error glob i with
                     | Some x => if (x =? 94) || (x =? 33) then (true, S i) else (false, i)
                     | None => (false, i)
                     end in
    let* r := class_loop (S glen) c true false i in
    match r with
    | None => Ok (GRet false)
    | Some (i, is_match) =>
      if negb (Nat.ltb i glen) then Ok (GRet false)
      else
        let st' p := mk_gst p (S i) (g_wild st) (g_star st) in
        if xorb is_match neg then Ok (GCont (st' (S (g_path st))) bs)
        else Ok (GFail (st' (g_path st)) bs)
    end.

  (** lib.rs:256-285: the literal arm *)
  Definition arm_literal (c : N) (st : gstate) (bs : bstack) : res gout :=
    match unescape c glob (g_glob st) with
    | None => Ok (GRet false)
    | Some (c, i) =>
      let st := mk_gst (g_path st) i (g_wild st) (g_star st) in
      let* x := at_ path (g_path st) in
      let is_match := if c =? 47 then is_sep x else x =? c in
      if is_match then
        let* after := match b_stack bs, i with
                      | _ :: _, S j => let* y := at_ glob j in Ok (y =? 125)
                      | _, _ => Ok false
                      end in
        let* (st, bs) := if after then bs_pop st (mk_bs (b_stack bs) (Some (g_path st)))
                         else Ok (st, bs) in
        let star := if c =? 47 then g_star st else mk_wc (w_glob (g_star st)) 0 in
        Ok (GCont (mk_gst (S (g_path st)) (S (g_glob st)) (g_wild st) star) bs)
      else Ok (GFail st bs)
    end.

  (** lib.rs:76-288: the [match] on the pattern byte *)
  Definition arm (st : gstate) (bs : bstack) : res gout :=
    let more := Nat.ltb (g_path st) plen in
    let inb := match b_stack bs with [] => false | _ => true end in
    let* c := at_ glob (g_glob st) in
    if c =? 42 then arm_star st bs
    else if (c =? 63) && more then
      let* x := at_ path (g_path st) in
      if negb (is_sep x) then
        Ok (GCont (mk_gst (S (g_path st)) (S (g_glob st)) (g_wild st) (g_star st)) bs)
      else Ok (GFail st bs)
    else if (c =? 91) && more then arm_class st bs
    else if (c =? 123) && more then
      if Nat.leb 10 (List.length (b_stack bs)) then Ok (GRet false)
      else let '(st, bs) := bs_push st bs in Ok (GCont st bs)
    else if (c =? 125) && inb then
      let bs := mk_bs (b_stack bs) (opt_max (b_longest bs) (g_path st)) in
      let st := mk_gst (g_path st) (S (g_glob st)) (g_wild st) (g_star st) in
      let* (st, bs) := bs_pop st bs in Ok (GCont st bs)
    else if (c =? 44) && inb then
      let bs := mk_bs (b_stack bs) (opt_max (b_longest bs) (g_path st)) in
      let* top := bs_last bs in
      Ok (GCont (mk_gst (g_path top) (S (g_glob st)) wc0 wc0) bs)
    else if more then arm_literal c st bs
    else Ok (GFail st bs).

  Definition can_backtrack (st : gstate) : bool :=
    Nat.ltb 0 (w_path (g_wild st)) && Nat.leb (w_path (g_wild st)) plen.
  (** lib.rs:374-379 [backtrack] *)
  Definition backtrack (st : gstate) : gstate :=
    mk_gst (w_path (g_wild st)) (w_glob (g_wild st)) (g_wild st) (g_star st).

  Variables is_prefix negated : bool.

  (** lib.rs:327-335: giving up *)
  Definition give_up (st : gstate) : bool :=
    if is_prefix then
      if negated then negb (Nat.eqb (g_path st) plen) else Nat.eqb (g_path st) plen
    else negated.

  (** lib.rs:290-335: the code after the [match] *)
  Definition no_match (st : gstate) (bs : bstack) : res gout :=
    if can_backtrack st then Ok (GCont (backtrack st) bs)
    else match b_stack bs with
    | [] => Ok (GRet (give_up st))
    | top :: rest =>
      let* (b, i) := skip_braces (S glen) glob true (g_glob st) 1 false in
      let st := mk_gst (g_path st) i (g_wild st) (g_star st) in
      match b with
      | BInvalid => Ok (GRet false)
      | BComma => Ok (GCont (mk_gst (g_path top) i (g_wild st) (g_star st)) bs)
      | BEndBrace =>
        match b_longest bs with
        | Some _ => let* (st, bs) := bs_pop st bs in Ok (GCont st bs)
        | None =>
          if can_backtrack top then Ok (GCont (backtrack top) (mk_bs rest (b_longest bs)))
          else Ok (GRet (give_up top))
        end
      end
    end.

  (** One iteration of the main loop, lib.rs:75-336; [GRet (negb negated)] is
      the normal exit of the loop (338-343: the final [pop] only affects
      captures, but its accesses are kept). *)
  Definition gstep (st : gstate) (bs : bstack) : res gout :=
    if Nat.ltb (g_glob st) glen || Nat.ltb (g_path st) plen then
      let* o := if Nat.ltb (g_glob st) glen then arm st bs else Ok (GFail st bs) in
      match o with
      | GFail st bs => no_match st bs
      | o => Ok o
      end
    else
      let* after := match b_stack bs, g_glob st with
                    | _ :: _, S j => let* y := at_ glob j in Ok (y =? 125)
                    | _, _ => Ok false
                    end in
      let* _ := if after then let* _ := bs_pop st (mk_bs (b_stack bs) (Some (g_path st))) in Ok tt
                else Ok tt in
      Ok (GRet (negb negated)).

  Fixpoint gloop (fuel : nat) (st : gstate) (bs : bstack) : res bool :=
    match fuel with
    | O => Fuel
    | S fuel =>
      let* o := gstep st bs in
      match o with
      | GRet b => Ok b
      | GCont st bs => gloop fuel st bs
      | GFail _ _ => Panic "unreachable"
      end
    end.
End Match.

(** lib.rs:67-73: leading negations *)
Fixpoint leading_bangs (glob : list N) (i : nat) (neg : bool) : nat * bool :=
  match glob with
  | 33 :: r => leading_bangs r (S i) (negb neg)
  | _ => (i, neg)
  end.

(** lib.rs:51-344 [glob_match_internal] *)
Definition glob_internal (fuel : nat) (glob path : list N) (is_prefix : bool) : res bool :=
  let '(i, neg) := leading_bangs glob 0 false in
  gloop glob path is_prefix neg fuel (mk_gst 0 i wc0 wc0) (mk_bs [] None).

(** The number of loop iterations is not polynomial in general, so the fuel is
    organised as 2^k: [iter2 k] runs at most 2^k iterations and stops as soon as
    the loop does. *)
Fixpoint iter2 (k : nat) (f : gstate -> bstack -> res gout) (st : gstate) (bs : bstack)
  : res gout :=
  match k with
  | O => f st bs
  | S k =>
    let* o := iter2 k f st bs in
    match o with
    | GCont st bs => iter2 k f st bs
    | o => Ok o
    end
  end.

(** lib.rs:51-344 with the fuel bound proved sufficient for paths without '/'
    in GlobFacts (for other paths the loop need not end, see P_Glob) *)
Definition glob_bits (glob path : list N) : nat :=
  12 * (8 + (2 * List.length glob + List.length path)).
Definition glob_run (glob path : list N) (is_prefix : bool) : res bool :=
  let '(i, neg) := leading_bangs glob 0 false in
  let* o := iter2 (glob_bits glob path) (gstep glob path is_prefix neg)
                  (mk_gst 0 i wc0 wc0) (mk_bs [] None) in
  match o with
  | GRet b => Ok b
  | _ => Fuel
  end.

(** lib.rs:34-36 [glob_match_prefix], lib.rs:38-40 [glob_match] on strings.  By
    [GlobFacts.glob_run_ends] the other branches are never taken for paths
    without '/', which are the only ones mitex matches (argument kinds). *)
Definition glob_match_prefix (glob path : text) : bool :=
  match glob_run (utf8 glob) (utf8 path) true with Ok b => b | _ => false end.
Definition glob_match (glob path : text) : bool :=
  match glob_run (utf8 glob) (utf8 path) false with Ok b => b | _ => false end.
