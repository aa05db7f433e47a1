(** Captures do not influence matching: dropping them from GlobCaps.v gives
    Glob.v, step by step. *)
From Verif Require Import BaseFacts GlobFacts.
From Verif Require Export GlobCaps.
Local Open Scope nat_scope.

Definition rmap {A B} (f : A -> B) (r : res A) : res B :=
  match r with Ok a => Ok (f a) | Panic s => Panic s | Fuel => Fuel end.
Lemma rmap_bind {A B C} (f : B -> C) (x : res A) (k : A -> res B) :
  rmap f (bind x k) = bind x (fun a => rmap f (k a)).
Proof. now destruct x. Qed.
Lemma bind_ext {A B} (x : res A) (f g : A -> res B) : (forall a, f a = g a) -> bind x f = bind x g.
Proof. intros H. destruct x; cbn; auto. Qed.
Lemma bind_rmap {A B C} (f : A -> B) (x : res A) (k : B -> res C) : bind (rmap f x) k = bind x (fun a => k (f a)).
Proof. now destruct x. Qed.

Definition wild_of (w : cwild) : wildcard := mk_wc (k_glob w) (k_path w).
Definition state_of (st : cstate) : gstate := mk_gst (s_path st) (s_glob st) (wild_of (s_wild st)) (wild_of (s_star st)).
Definition stack_of (bs : cstack) : bstack := mk_bs (map state_of (ck_stack bs)) (ck_longest bs).
Definition out_of (o : cout) : gout :=
  match o with
  | CRet b _ => GRet b
  | CCont st bs _ => GCont (state_of st) (stack_of bs)
  | CFail st bs _ => GFail (state_of st) (stack_of bs)
  end.

Lemma cskip_braces_of fuel glob stop p : forall i br inb ci cs,
  rmap (fun r => (fst (fst r), snd (fst r))) (cskip_braces fuel glob stop p i br inb ci cs) = skip_braces fuel glob stop i br inb.
Proof.
  induction fuel as [|fuel IH]; intros i br inb ci cs; cbn [cskip_braces skip_braces];
    destruct (negb (Nat.ltb i (List.length glob)) || Nat.eqb br 0); try reflexivity.
  rewrite rmap_bind. apply bind_ext. intros c.
  destruct ((c =? 123)%N && negb inb); [apply IH|]. destruct ((c =? 125)%N && negb inb); [apply IH|].
  destruct ((c =? 44)%N && stop && Nat.eqb br 1 && negb inb); [reflexivity|].
  destruct (((c =? 42)%N || (c =? 63)%N || (c =? 91)%N) && negb inb).
  - assert (E : exists ci' cs', (match cs with None => (ci, cs) | Some _ => (S ci, begin_capture ci (p, p) cs) end) = (ci', cs'))
      by (destruct cs; eauto). destruct E as (ci' & cs' & ->).
    destruct (c =? 42)%N; [|apply IH]. destruct (nth_error glob (S i)) as [x|]; [|apply IH].
    destruct (x =? 42)%N eqn:E.
    + apply N.eqb_eq in E. subst x. rewrite rmap_bind. apply bind_ext. intros j. apply IH.
    + assert (F : forall A (a b : A), match x with 42%N => a | _ => b end = b).
      { intros A a b. apply N.eqb_neq in E. destruct x as [|q]; [reflexivity|].
        repeat (destruct q as [q|q|]; try reflexivity). congruence. }
      rewrite !F. apply IH.
  - destruct (c =? 93)%N; [apply IH|]. destruct (c =? 92)%N; apply IH.
Qed.

Lemma ck_pop_of st bs cs : rmap (fun r => (state_of (fst (fst r)), stack_of (snd (fst r)))) (ck_pop st bs cs) = bs_pop (state_of st) (stack_of bs).
Proof.
  unfold ck_pop, bs_pop. destruct bs as [[|top rest] l]; [reflexivity|]. destruct l as [l|]; [|reflexivity].
  cbn. destruct rest; reflexivity.
Qed.

Section Match.
  Variables glob path : list N.

  Lemma carm_star_of st bs cs : rmap out_of (carm_star glob path st bs cs) = arm_star glob path (state_of st) (stack_of bs).
  Proof.
    unfold carm_star, arm_star. cbv zeta. cbn [g_glob g_path g_star state_of].
    set (gs := match nth_error glob (S (s_glob st)) with Some 42%N => true | _ => false end).
    rewrite rmap_bind. apply bind_ext. intros i.
    set (fresh := match cs with None => false | Some l => _ end).
    set (wcap := if fresh then s_cap st else k_cap (s_wild st)).
    set (cs' := if fresh then begin_capture (s_cap st) (s_path st, s_path st) cs else extend_capture (s_cap st) (s_path st) cs).
    clearbody fresh wcap cs'.
    set (X := if gs then _ else Ok (S i, s_star st, s_cap st)).
    assert (EX : (if gs
       then if Nat.eqb (List.length glob) (i + 2) then Ok (i + 2, mk_wc i (s_path st + 1))
            else bind (if Nat.ltb (i + 2) 3 then Ok 47%N else at_ glob (i + 2 - 3)) (fun c1 =>
                 bind (if (c1 =? 47)%N then at_ glob (i + 2) else Ok 0%N) (fun c2 =>
                 if ((c1 =? 47) && (c2 =? 47))%N then
                   bind (if Nat.eqb (s_path st) 0 then Ok true
                         else if Nat.ltb (s_path st) (List.length path) then bind (at_ path (s_path st - 1)) (fun c => Ok (is_sep c)) else Ok false)
                     (fun skip => Ok ((if skip then S (i + 2) else i + 2), mk_wc i (s_path st + 1)))
                 else Ok (i + 2, wild_of (s_star st))))
       else Ok (S i, wild_of (s_star st))) = rmap (fun r => (fst (fst r), wild_of (snd (fst r)))) X).
    { unfold X. destruct gs; [|reflexivity]. destruct (Nat.eqb _ _); [reflexivity|]. rewrite rmap_bind. apply bind_ext. intros c1.
      rewrite rmap_bind. apply bind_ext. intros c2. destruct (_ && _); [|reflexivity]. rewrite rmap_bind. apply bind_ext. intros skip. reflexivity. }
    rewrite EX. clear EX. clearbody X. rewrite rmap_bind, bind_rmap. apply bind_ext. intros [[i1 star] ci]. cbn [fst snd].
    rewrite rmap_bind. apply bind_ext. intros sep.
    assert (K : forall i2 wild2 ci2,
      rmap out_of (if match ck_stack bs, nth_error glob i2 with _ :: _, Some c => ((c =? 44) || (c =? 125))%N | _, _ => false end
        then bind (cskip_braces (S (List.length glob)) glob false (s_path st) i2 1 false (S ci2) cs') (fun '(b, i, cs) =>
             match b with BInvalid => Ok (CRet false cs) | _ => Ok (CCont (mk_cs (s_path st) i ci2 wild2 star) bs cs) end)
        else Ok (CCont (mk_cs (s_path st) i2 ci2 wild2 star) bs cs')) =
      if match b_stack (stack_of bs), nth_error glob i2 with _ :: _, Some c => ((c =? 44) || (c =? 125))%N | _, _ => false end
        then bind (skip_braces (S (List.length glob)) glob false i2 1 false) (fun '(b, i) =>
             match b with BInvalid => Ok (GRet false) | _ => Ok (GCont (mk_gst (s_path st) i (wild_of wild2) (wild_of star)) (stack_of bs)) end)
        else Ok (GCont (mk_gst (s_path st) i2 (wild_of wild2) (wild_of star)) (stack_of bs))).
    { intros i2 wild2 ci2. destruct bs as [[|top rest] lo]; cbn [ck_stack stack_of b_stack map]; [reflexivity|].
      destruct (nth_error glob i2) as [c|]; [|reflexivity]. destruct ((c =? 44) || (c =? 125))%N; [|reflexivity].
      rewrite <- (cskip_braces_of _ _ _ (s_path st) _ _ _ (S ci2) cs'). rewrite rmap_bind, bind_rmap. apply bind_ext.
      intros [[b j] cs2]. cbn [fst snd]. destruct b; reflexivity. }
    destruct sep; [|apply K]. cbn [wild_of w_path w_glob]. destruct (Nat.ltb 0 (k_path star) && Nat.ltb (s_path st + 1) (List.length path)); apply K.
  Qed.

  Lemma carm_class_of st bs cs : rmap out_of (carm_class glob path st bs cs) = arm_class glob path (state_of st) (stack_of bs).
  Proof.
    unfold carm_class, arm_class. cbv zeta. cbn [g_glob g_path g_star g_wild state_of]. rewrite rmap_bind. apply bind_ext. intros c.
    destruct (match nth_error glob (S (s_glob st)) with Some x => _ | None => _ end) as [ng i].
    rewrite rmap_bind. apply bind_ext. intros [[j m]|]; [|reflexivity]. destruct (negb _); [reflexivity|].
    destruct (xorb m ng); reflexivity.
  Qed.
  Lemma carm_literal_of c st bs cs : rmap out_of (carm_literal glob path c st bs cs) = arm_literal glob path c (state_of st) (stack_of bs).
  Proof.
    unfold carm_literal, arm_literal. cbn [g_glob g_path g_star g_wild state_of]. destruct (unescape c glob (s_glob st)) as [[c' i]|]; [|reflexivity].
    cbv zeta. cbn [s_path g_path]. rewrite rmap_bind. apply bind_ext. intros x. destruct (if (c' =? 47)%N then is_sep x else (x =? c')%N); [|reflexivity].
    destruct bs as [[|top rest] lo]; cbn [ck_stack stack_of b_stack map].
    - cbn. destruct (c' =? 47)%N; reflexivity.
    - rewrite rmap_bind. apply bind_ext. intros after. destruct after.
      + cbn [ck_pop ck_stack ck_longest bs_pop b_stack b_longest bind rmap]. destruct (c' =? 47)%N, rest; reflexivity.
      + cbn. destruct (c' =? 47)%N; reflexivity.
  Qed.
  Lemma carm_of st bs cs : rmap out_of (carm glob path st bs cs) = arm glob path (state_of st) (stack_of bs).
  Proof.
    unfold carm, arm. cbv zeta. cbn [g_glob g_path g_star g_wild state_of]. rewrite rmap_bind. apply bind_ext. intros c.
    destruct (c =? 42)%N; [apply carm_star_of|].
    destruct ((c =? 63)%N && _). { rewrite rmap_bind. apply bind_ext. intros x. destruct (negb (is_sep x)); reflexivity. }
    destruct ((c =? 91)%N && _); [apply carm_class_of|].
    destruct ((c =? 123)%N && _).
    { cbn [stack_of b_stack]. rewrite map_length. destruct (Nat.leb 10 _); reflexivity. }
    assert (E : (match b_stack (stack_of bs) with [] => false | _ => true end) = (match ck_stack bs with [] => false | _ => true end)) by (now destruct bs as [[] ?]).
    rewrite E. destruct ((c =? 125)%N && _).
    { rewrite rmap_bind. match goal with |- _ = bind (bs_pop ?a ?b) _ => change (bs_pop a b) with (bs_pop (state_of (mk_cs (s_path st) (S (s_glob st)) (s_cap st) (s_wild st) (s_star st))) (stack_of (mk_ck (ck_stack bs) (opt_max (ck_longest bs) (s_path st))))) end.
      rewrite <- (ck_pop_of _ _ cs), bind_rmap. apply bind_ext. intros [[s' b'] cs']. reflexivity. }
    destruct ((c =? 44)%N && _).
    { rewrite rmap_bind. destruct bs as [[|top rest] lo]; reflexivity. }
    destruct (Nat.ltb _ _); [apply carm_literal_of|reflexivity].
  Qed.
  Lemma can_backtrack_of st : can_backtrack path (state_of st) = ccan_backtrack path st. Proof. reflexivity. Qed.

  Variables is_prefix negated : bool.
  Lemma cno_match_of st bs cs : rmap out_of (cno_match glob path is_prefix negated st bs cs) = no_match glob path is_prefix negated (state_of st) (stack_of bs).
  Proof.
    unfold cno_match, no_match. rewrite can_backtrack_of. destruct (ccan_backtrack path st); [reflexivity|].
    destruct bs as [[|top rest] lo]; cbn [ck_stack stack_of b_stack map]; [reflexivity|]. cbv zeta.
    cbn [g_glob g_path g_star g_wild state_of].
    rewrite <- (cskip_braces_of _ _ _ (s_path st) _ _ _ (S (s_cap st)) cs). rewrite rmap_bind, bind_rmap. apply bind_ext.
    intros [[b j] cs2]. cbn [fst snd]. destruct b; [reflexivity|reflexivity|].
    cbn [ck_longest b_longest]. destruct lo as [lo|].
    - cbn [ck_pop ck_stack ck_longest bs_pop b_stack b_longest bind rmap]. destruct rest; reflexivity.
    - rewrite can_backtrack_of. change (ccan_backtrack path top) with (ccan_backtrack path top). destruct (ccan_backtrack path top); reflexivity.
  Qed.
  Lemma cstep_of st bs cs : rmap out_of (cstep glob path is_prefix negated st bs cs) = gstep glob path is_prefix negated (state_of st) (stack_of bs).
  Proof.
    unfold cstep, gstep. cbn [g_glob g_path state_of]. destruct (Nat.ltb (s_glob st) _ || _).
    - destruct (Nat.ltb (s_glob st) (List.length glob)).
      + rewrite rmap_bind, <- (carm_of st bs cs), bind_rmap. apply bind_ext. intros [b cs'|s' b' cs'|s' b' cs']; [reflexivity|reflexivity|apply cno_match_of].
      + cbn [bind]. apply cno_match_of.
    - destruct bs as [[|top rest] lo]; cbn [ck_stack stack_of b_stack map]; [reflexivity|]. rewrite rmap_bind. apply bind_ext. intros after.
      destruct after; reflexivity.
  Qed.
End Match.

Lemma citer_of glob path ip ng k : forall st bs cs,
  rmap out_of (citer k (cstep glob path ip ng) st bs cs) = iter2 k (gstep glob path ip ng) (state_of st) (stack_of bs).
Proof.
  induction k as [|k IH]; intros st bs cs; cbn [citer iter2]; [apply cstep_of|].
  rewrite rmap_bind, <- (IH st bs cs), bind_rmap. apply bind_ext. intros [b cs'|s' b' cs'|s' b' cs']; [reflexivity|apply IH|reflexivity].
Qed.
Lemma cglob_run_of glob path cs ip : rmap fst (cglob_run (glob_bits glob path) glob path cs ip) = glob_run glob path ip.
Proof.
  unfold cglob_run, glob_run. destruct (leading_bangs glob 0 false) as [i ng]. rewrite rmap_bind.
  pose proof (citer_of glob path ip ng (glob_bits glob path) (mk_cs 0 i 0 cw0 cw0) (mk_ck [] None) cs) as E.
  change (state_of (mk_cs 0 i 0 cw0 cw0)) with (mk_gst 0 i wc0 wc0) in E. change (stack_of (mk_ck [] None)) with (mk_bs [] None) in E.
  rewrite <- E, bind_rmap. apply bind_ext. intros [b cs'|s' b' cs'|s' b' cs']; reflexivity.
Qed.
