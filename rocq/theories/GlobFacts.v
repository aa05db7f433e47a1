(** Facts about glob matching: every access is in bounds, and matching a path
    without separators ends within the fuel of [glob_run]. *)
From Verif Require Import Glob BaseFacts.
Local Open Scope nat_scope.

Definition safe {A} (r : res A) (Q : A -> Prop) : Prop := exists a, r = Ok a /\ Q a.
Lemma safe_ok {A} (a : A) (Q : A -> Prop) : Q a -> safe (Ok a) Q.
Proof. exists a. auto. Qed.
Lemma safe_bind {A B} (x : res A) (f : A -> res B) P Q :
  safe x P -> (forall a, P a -> safe (f a) Q) -> safe (bind x f) Q.
Proof. intros (a & -> & H) Hf. simpl. auto. Qed.
Lemma safe_impl {A} (r : res A) (P Q : A -> Prop) : safe r P -> (forall a, P a -> Q a) -> safe r Q.
Proof. intros (a & -> & H) Hi. exists a. auto. Qed.

Lemma at_safe l i : i < List.length l -> safe (at_ l i) (fun b => nth_error l i = Some b).
Proof.
  intros H. unfold at_. destruct (nth_error l i) eqn:E; [now apply safe_ok|].
  apply nth_error_None in E. lia.
Qed.

(** [skip_globstars] *)
Lemma skip_globstars_go_spec l : forall pre i, i = List.length pre ->
  (2 <= i -> nth_error pre (i - 2) = Some 42%N) ->
  let j := skip_globstars_go l i in
  i <= j <= List.length (pre ++ l) /\ (2 <= i -> nth_error (pre ++ l) (j - 2) = Some 42%N).
Proof.
  induction l as [l IH] using (induction_ltof1 _ (@List.length N)). unfold ltof in IH.
  intros pre i -> Hp. simpl.
  assert (Hsame : List.length pre <= List.length pre <= List.length (pre ++ l) /\
     (2 <= List.length pre -> nth_error (pre ++ l) (List.length pre - 2) = Some 42%N)).
  { rewrite app_length. split; [lia|]. intros H. rewrite nth_error_app1 by lia. auto. }
  destruct l as [|a [|b [|c l]]]; cbn [skip_globstars_go]; auto.
  destruct ((a =? 47) && (b =? 42) && (c =? 42))%N eqn:E; [|exact Hsame].
  apply andb_true_iff in E as [E Ec]. apply andb_true_iff in E as [_ Eb].
  apply N.eqb_eq in Ec, Eb. subst b c.
  specialize (IH l ltac:(simpl; lia) (pre ++ [a; 42; 42]%N) (3 + List.length pre)).
  replace (pre ++ a :: 42%N :: 42%N :: l) with ((pre ++ [a; 42; 42]%N) ++ l) by (rewrite <- app_assoc; reflexivity).
  destruct IH as [H1 H2].
  - rewrite app_length. simpl. lia.
  - intros _. rewrite nth_error_app2 by lia. replace (3 + _ - 2 - _) with 1 by lia. reflexivity.
  - split; [lia|]. intros _. apply H2. lia.
Qed.
Lemma skip_globstars_safe glob i : i <= List.length glob ->
  safe (skip_globstars glob i) (fun j => i <= j <= List.length glob /\
     (2 <= i -> nth_error glob (i - 2) = Some 42%N -> nth_error glob (j - 2) = Some 42%N)).
Proof.
  intros H. unfold skip_globstars. destruct (Nat.ltb_spec (List.length glob) i); [lia|]. apply safe_ok.
  assert (Hl : List.length (firstn i glob) = i) by (rewrite firstn_length; lia).
  pose proof (skip_globstars_go_spec (skipn i glob) (firstn i glob) i) as Hs. rewrite firstn_skipn, Hl in Hs.
  destruct (le_lt_dec 2 i).
  - destruct (nth_error glob (i - 2)) as [x|] eqn:E; [destruct (N.eq_dec x 42) as [->|Hx]|].
    + destruct Hs; auto. intros _. rewrite <- E. rewrite <- (firstn_skipn i glob) at 2. rewrite nth_error_app1 by lia.
      reflexivity.
    + split; [|intros _ [= ->]; congruence].
      clear Hs E Hx x. assert (Hg : forall l k, k <= skip_globstars_go l k <= k + List.length l).
      { clear. induction l as [l IH] using (induction_ltof1 _ (@List.length N)). unfold ltof in IH. intros k.
        destruct l as [|a [|b [|c l]]]; cbn [skip_globstars_go]; try lia.
        destruct (_ && _)%bool; [|lia]. specialize (IH l ltac:(simpl; lia) (3 + k)). simpl in *. lia. }
      specialize (Hg (skipn i glob) i). rewrite skipn_length in Hg. lia.
    + apply nth_error_None in E. lia.
  - destruct Hs as [Hs _]; [reflexivity|lia|]. split; [lia|]. lia.
Qed.

(** [skip_braces] *)
Lemma skip_braces_safe glob stop fuel : forall i braces in_br,
  List.length glob < fuel + i ->
  safe (skip_braces fuel glob stop i braces in_br)
    (fun '(b, j) => b = BInvalid \/ (i <= j /\ j <= Nat.max i (List.length glob) /\ (braces <> 0 -> i < j))).
Proof.
  induction fuel as [|fuel IH]; intros i braces in_br Hf; cbn [skip_braces];
    destruct (Nat.ltb_spec i (List.length glob)) as [Hi|Hi]; cbn [negb orb].
  - lia.
  - apply safe_ok. destruct (Nat.eqb_spec braces 0); [right; lia|auto].
  - destruct (Nat.eqb_spec braces 0) as [->|Hb]; [apply safe_ok; right; lia|].
    eapply safe_bind; [now apply at_safe|]. intros c Hc.
    assert (Hgo : forall j br ib, i < j -> (j <= List.length glob \/ br <> 0) ->
      safe (skip_braces fuel glob stop j br ib)
        (fun '(b, j) => b = BInvalid \/ (i <= j /\ j <= Nat.max i (List.length glob) /\ (braces <> 0 -> i < j)))).
    { intros j br ib Hj Hj2. destruct (le_lt_dec j (List.length glob)) as [Hle|Hgt].
      - eapply safe_impl; [apply IH; lia|]. intros [b k] [H|H]; [auto|right; lia].
      - (* only after a trailing escape *)
        assert (skip_braces fuel glob stop j br ib = Ok (if Nat.eqb br 0 then BEndBrace else BInvalid, j)) as ->.
        { destruct fuel; cbn [skip_braces]; (destruct (Nat.ltb_spec j (List.length glob)); [lia|]); reflexivity. }
        apply safe_ok. left. destruct (Nat.eqb_spec br 0); [lia|reflexivity]. }
    cbv zeta.
    destruct ((c =? 123)%N && negb in_br); [apply Hgo; lia|].
    destruct ((c =? 125)%N && negb in_br); [apply Hgo; lia|].
    destruct ((c =? 44)%N && stop && Nat.eqb braces 1 && negb in_br); [apply safe_ok; right; lia|].
    destruct (((c =? 42) || (c =? 63) || (c =? 91))%N && negb in_br).
    + assert (H1 : forall br, safe (skip_braces fuel glob stop (S i) braces br)
        (fun '(b, j) => b = BInvalid \/ (i <= j /\ j <= Nat.max i (List.length glob) /\ (braces <> 0 -> i < j)))).
      { intros br. apply Hgo; lia. }
      destruct (c =? 42)%N; [|apply H1].
      destruct (nth_error glob (S i)) as [x|] eqn:Ex; [|apply H1].
      assert (S i < List.length glob) as Hi2 by (apply nth_error_Some; congruence).
      assert (H2 : safe (let* j := skip_globstars glob (i + 2) in skip_braces fuel glob stop (S (j - 2 + 1)) braces
                 (if (c =? 91)%N then true else in_br))
         (fun '(b, j) => b = BInvalid \/ (i <= j /\ j <= Nat.max i (List.length glob) /\ (braces <> 0 -> i < j)))).
      { eapply safe_bind; [apply skip_globstars_safe; lia|]. intros j [Hj _]. apply Hgo; lia. }
      destruct x as [|x]; [apply H1|]. repeat (destruct x as [x|x|]; try apply H1). exact H2.
    + destruct (c =? 93)%N; [apply Hgo; lia|]. destruct (c =? 92)%N; [apply Hgo; lia|]. apply Hgo; lia.
  - apply safe_ok. destruct (Nat.eqb_spec braces 0); [right; lia|auto].
Qed.

(** ** Bounds (C45) *)
Section Bounds.
  Variables glob path : list N.
  Variables is_prefix negated : bool.
  Local Notation G := (List.length glob).
  Definition in_range (st : gstate) : Prop :=
    g_glob st <= G /\ w_glob (g_wild st) <= G /\ w_glob (g_star st) <= G.
  Definition out_range (o : gout) : Prop :=
    match o with
    | GRet _ => True
    | GCont st bs | GFail st bs => in_range st /\ Forall in_range (b_stack bs)
    end.

  Lemma unescape_range c i c' j : unescape c glob i = Some (c', j) -> i < G -> i <= j < G.
  Proof.
    unfold unescape. destruct (c =? 92)%N; [|intros [= <- <-]; lia].
    destruct (nth_error glob (S i)) eqn:E; [|discriminate]. intros [= <- <-] H.
    assert (S i < G) by (apply nth_error_Some; congruence). lia.
  Qed.
  Lemma class_loop_safe fuel : forall c first m i, G < fuel + i -> i <= G ->
    safe (class_loop glob fuel c first m i) (fun r => forall j m', r = Some (j, m') -> i <= j <= G).
  Proof.
    induction fuel as [|fuel IH]; intros c first m i Hf Hi; cbn [class_loop];
      (destruct (Nat.ltb_spec i (List.length glob)) as [Hlt|Hge]; [|apply safe_ok; intros j m' [= <- <-]; lia]).
    { lia. }
    eapply safe_bind; [now apply at_safe|]. intros low _.
    destruct (negb first && (low =? 93)%N); [apply safe_ok; intros j m' [= <- <-]; lia|].
    destruct (unescape low glob i) as [[low' k]|] eqn:Eu; [|now apply safe_ok].
    apply unescape_range in Eu; [|assumption]. cbv zeta.
    destruct (nth_error glob (S k)) as [a|] eqn:Ea.
    - destruct (nth_error glob (S (S k))) as [b|] eqn:Eb.
      + destruct ((a =? 45)%N && negb (b =? 93)%N).
        * assert (S (S k) < G) by (apply nth_error_Some; congruence).
          eapply (safe_bind _ _ (fun r => forall h j, r = Some (h, j) -> S k <= j <= G)).
          -- eapply safe_bind; [now apply at_safe|]. intros h _. apply safe_ok.
             destruct (unescape h glob (S (S k))) as [[h' j]|] eqn:E2; [|discriminate].
             apply unescape_range in E2; [|assumption]. intros ? ? [= <- <-]. lia.
          -- intros [[h j]|] Hr; [|now apply safe_ok]. specialize (Hr _ _ eq_refl).
             eapply safe_impl; [apply IH; lia|]. intros r Hr' j' m' E. specialize (Hr' _ _ E). lia.
        * simpl. eapply safe_impl; [apply IH; lia|]. intros r Hr' j' m' E. specialize (Hr' _ _ E). lia.
      + simpl. eapply safe_impl; [apply IH; lia|]. intros r Hr' j' m' E. specialize (Hr' _ _ E). lia.
    - simpl. eapply safe_impl; [apply IH; lia|]. intros r Hr' j' m' E. specialize (Hr' _ _ E). lia.
  Qed.

  Lemma arm_class_safe st bs : in_range st -> Forall in_range (b_stack bs) -> g_glob st < G ->
    g_path st < List.length path -> safe (arm_class glob path st bs) out_range.
  Proof.
    intros (H1 & H2 & H3) Hb Hlt Hp. unfold arm_class. eapply safe_bind; [now apply at_safe|]. intros c _.
    set (x := match nth_error glob (S (g_glob st)) with Some _ => _ | None => _ end).
    assert (snd x <= G).
    { subst x. destruct (nth_error glob (S (g_glob st))) as [y|] eqn:E; [|simpl; lia].
      assert (S (g_glob st) < G) by (apply nth_error_Some; congruence). destruct (_ || _)%bool; simpl; lia. }
    destruct x as [neg i]. simpl in H.
    eapply safe_bind; [apply class_loop_safe;  lia|]. intros [[j m]|] Hr; [|now apply safe_ok].
    specialize (Hr _ _ eq_refl). destruct (Nat.ltb_spec j (List.length glob)); simpl; [|now apply safe_ok].
    destruct (xorb m neg); apply safe_ok; unfold out_range, in_range; simpl; repeat split; auto; lia.
  Qed.
  Lemma bs_pop_safe st bs : b_stack bs <> [] -> b_longest bs <> None ->
    in_range st -> Forall in_range (b_stack bs) ->
    safe (bs_pop st bs) (fun '(st, bs) => in_range st /\ Forall in_range (b_stack bs)).
  Proof.
    intros H1 H2 (H3 & H4 & H5) Hb. unfold bs_pop. destruct (b_stack bs) as [|top rest]; [contradiction|].
    destruct (b_longest bs); [|contradiction]. apply safe_ok. inversion Hb as [|? ? (A & B & C)]; subst.
    unfold in_range. simpl. auto.
  Qed.
  Lemma arm_literal_safe c st bs : in_range st -> Forall in_range (b_stack bs) -> g_glob st < G ->
    g_path st < List.length path -> safe (arm_literal glob path c st bs) out_range.
  Proof.
    intros (H1 & H2 & H3) Hb Hlt Hp. unfold arm_literal.
    destruct (unescape c glob (g_glob st)) as [[c' i]|] eqn:E; [|now apply safe_ok].
    apply unescape_range in E; [|assumption]. simpl g_path. eapply safe_bind; [now apply at_safe|]. intros x _.
    set (st1 := mk_gst (g_path st) i (g_wild st) (g_star st)).
    assert (in_range st1) as Hst1 by (unfold in_range, st1; simpl; repeat split; auto; lia).
    destruct (if (c' =? 47)%N then is_sep x else (x =? c')%N); [|apply safe_ok; simpl; auto].
    eapply (safe_bind _ _ (fun after => after = true -> b_stack bs <> [])).
    { destruct (b_stack bs) as [|top rest]; [now apply safe_ok|]. destruct i as [|j]; [now apply safe_ok|].
      eapply safe_bind; [apply at_safe;  lia|]. intros y _. now apply safe_ok. }
    intros after Ha. 
    eapply (safe_bind _ _ (fun '(st, bs) => g_glob st < G /\ in_range st /\ Forall in_range (b_stack bs))).
    { destruct after; [|apply safe_ok; split; [simpl; lia|split; [exact Hst1|exact Hb]]].
      destruct (bs_pop_safe st1 (mk_bs (b_stack bs) (Some (g_path st1)))) as ([st2 bs2] & E2 & H); simpl; auto; [discriminate|].
      change (g_path st1) with (g_path st) in E2. rewrite E2. apply safe_ok. split; [|exact H]. revert E2. unfold bs_pop. simpl.
      destruct (b_stack bs); [discriminate|]. intros [= <- <-]. simpl. lia. }
    intros [st2 bs2] (Hg & (A & B & C) & Hb2). apply safe_ok. unfold out_range, in_range. simpl.
    destruct (c' =? 47)%N; simpl; repeat split; auto; lia.
  Qed.
  Lemma arm_star_safe st bs : in_range st -> Forall in_range (b_stack bs) -> g_glob st < G ->
    safe (arm_star glob path st bs) out_range.
  Proof.
    intros (H1 & H2 & H3) Hb Hlt. unfold arm_star. cbv zeta.
    set (gs := match nth_error glob (S (g_glob st)) with Some 42%N => true | _ => false end).
    assert (Hgs : gs = true -> S (g_glob st) < G).
    { unfold gs. intros H. apply nth_error_Some. intros E. now rewrite E in H. }
    eapply (safe_bind _ _ (fun i => i < G /\ (gs = true -> i + 2 <= G))).
    { destruct gs; [|apply safe_ok; split; [lia|discriminate]].
      eapply safe_bind; [apply skip_globstars_safe; specialize (Hgs eq_refl);  lia|].
      intros j [Hj _]. apply safe_ok.  lia. }
    intros i [Hi Hi2].
    eapply (safe_bind _ _ (fun '(i, star) => i <= G /\ w_glob star <= G)).
    { destruct gs; [|apply safe_ok; lia]. specialize (Hi2 eq_refl).
      destruct (Nat.eqb_spec (List.length glob) (i + 2)); [apply safe_ok; simpl; lia|].
      eapply (safe_bind _ _ (fun _ => True)).
      { destruct (Nat.ltb_spec (i + 2) 3); [now apply safe_ok|]. eapply safe_impl; [apply at_safe;  lia|auto]. }
      intros c1 _. eapply (safe_bind _ _ (fun _ => True)).
      { destruct (c1 =? 47)%N; [|now apply safe_ok]. eapply safe_impl; [apply at_safe;  lia|auto]. }
      intros c2 _. destruct (_ && _)%bool; [|apply safe_ok; simpl; lia].
      eapply (safe_bind _ _ (fun _ => True)).
      { destruct (Nat.eqb_spec (g_path st) 0); [now apply safe_ok|].
        destruct (Nat.ltb_spec (g_path st) (List.length path)); [|now apply safe_ok].
        eapply safe_bind; [apply at_safe; lia|]. intros; now apply safe_ok. }
      intros skip _. apply safe_ok. destruct skip; simpl; lia. }
    intros [i2 star] [Hi3 Hs].
    eapply (safe_bind _ _ (fun _ => True)).
    { destruct (negb _ && _)%bool eqn:E; [|now apply safe_ok]. apply andb_true_iff in E as [_ E].
      apply Nat.ltb_lt in E. eapply safe_bind; [now apply at_safe|]. intros; now apply safe_ok. }
    intros sep _.
    set (iw := if sep then _ else _).
    assert (fst iw <= G /\ w_glob (snd iw) <= G) as [Hi4 Hw].
    { subst iw. destruct sep; [|simpl; lia]. destruct (_ && _)%bool; simpl; lia. }
    destruct iw as [i4 wild]. simpl in Hi4, Hw.
    assert (Hd : safe (Ok (GCont (mk_gst (g_path st) i4 wild star) bs)) out_range).
    { apply safe_ok. unfold out_range, in_range. simpl. auto. }
    destruct (match b_stack bs with [] => _ | _ => _ end) eqn:Es; [|exact Hd].
    eapply safe_bind; [apply (skip_braces_safe glob false (S (List.length glob)) i4); lia|].
    intros [b j] Hj. destruct b; [now apply safe_ok| |];
      (apply safe_ok; unfold out_range, in_range; simpl; destruct Hj as [Hj|Hj]; [discriminate|];        repeat split; auto; lia).
  Qed.

  Lemma arm_safe st bs : in_range st -> Forall in_range (b_stack bs) -> g_glob st < G ->
    safe (arm glob path st bs) out_range.
  Proof.
    intros Hst Hb Hlt. unfold arm. cbv zeta. eapply safe_bind; [now apply at_safe|]. intros c _.
    assert (Hmore : Nat.ltb (g_path st) (List.length path) = true -> g_path st < List.length path)
      by (intros H; now apply Nat.ltb_lt).
    destruct (c =? 42)%N; [now apply arm_star_safe|].
    destruct ((c =? 63)%N && _) eqn:E1.
    { apply andb_true_iff in E1 as [_ E1]. eapply safe_bind; [apply at_safe; auto|]. intros x _.
      destruct (negb (is_sep x)); apply safe_ok; unfold out_range, in_range in *; simpl; intuition lia. }
    destruct ((c =? 91)%N && _) eqn:E2.
    { apply andb_true_iff in E2 as [_ E2]. apply arm_class_safe; auto. }
    destruct ((c =? 123)%N && _).
    { destruct (Nat.leb 10 _); [now apply safe_ok|]. unfold bs_push. apply safe_ok.
      unfold out_range, in_range in *. simpl. repeat split; auto; try lia. }
    destruct ((c =? 125)%N && _) eqn:E4.
    { apply andb_true_iff in E4 as [_ E4]. eapply safe_bind; [apply bs_pop_safe; simpl; auto|].
      - destruct (b_stack bs); [discriminate E4|congruence].
      - discriminate.
      - unfold in_range in *. simpl. intuition lia.
      - intros [st' bs'] H. apply safe_ok. exact H. }
    destruct ((c =? 44)%N && _) eqn:E5.
    { apply andb_true_iff in E5 as [_ E5]. unfold bs_last. simpl. destruct (b_stack bs) as [|top r] eqn:Eb; [discriminate|].
      simpl. apply safe_ok. unfold out_range, in_range in *. simpl. repeat split; auto; lia. }
    destruct (Nat.ltb_spec (g_path st) (List.length path)); [now apply arm_literal_safe|]. apply safe_ok. simpl; auto.
  Qed.
  Lemma no_match_safe st bs : in_range st -> Forall in_range (b_stack bs) ->
    safe (no_match glob path is_prefix negated st bs) (fun o => out_range o /\ forall a b, o <> GFail a b).
  Proof.
    intros Hst Hb. unfold no_match.
    destruct (can_backtrack path st).
    { apply safe_ok. split; [|discriminate]. unfold out_range, in_range, backtrack in *. simpl. intuition. }
    destruct (b_stack bs) as [|top rest] eqn:Es; [apply safe_ok; split; [exact I|discriminate]|].
    eapply safe_bind; [apply (skip_braces_safe glob true (S (List.length glob)) (g_glob st)); lia|].
    intros [b i] Hi. cbv zeta.
    assert (Hi' : b <> BInvalid -> i <= G) by (intros Hx; destruct Hi as [Hi|Hi]; [contradiction|]; unfold in_range in Hst; lia).
    inversion Hb as [|? ? Htop Hrest]; subst.
    destruct b; [apply safe_ok; split; [exact I|discriminate]| |]; specialize (Hi' ltac:(discriminate)).
    - apply safe_ok. split; [|discriminate]. unfold out_range, in_range in *. simpl. rewrite Es. intuition.
    - destruct (b_longest bs) eqn:El.
      + eapply safe_bind; [apply (bs_pop_safe (mk_gst (g_path st) i (g_wild st) (g_star st)) bs)|].
        * rewrite Es. discriminate.
        * congruence.
        * unfold in_range in *. simpl. intuition.
        * now rewrite Es.
        * intros [st' bs'] H. apply safe_ok. split; [exact H|discriminate].
      + destruct (can_backtrack path top); apply safe_ok; (split; [|discriminate]); [|exact I].
        unfold out_range, in_range, backtrack in *. simpl. intuition.
  Qed.
  Lemma gstep_safe st bs : in_range st -> Forall in_range (b_stack bs) ->
    safe (gstep glob path is_prefix negated st bs) (fun o => out_range o /\ forall a b, o <> GFail a b).
  Proof.
    intros Hst Hb. unfold gstep.
    destruct (_ || _)%bool eqn:E.
    - eapply (safe_bind _ _ out_range).
      + destruct (Nat.ltb_spec (g_glob st) (List.length glob)); [now apply arm_safe|]. apply safe_ok. simpl; auto.
      + intros [b|st' bs'|st' bs'] H; [apply safe_ok; split; [exact I|discriminate]|apply safe_ok; split; [exact H|discriminate]|].
        destruct H. now apply no_match_safe.
    - apply orb_false_iff in E as [E1 E2]. apply Nat.ltb_ge in E1. destruct Hst as (H1 & H2 & H3). 
      eapply (safe_bind _ _ (fun after => after = true -> b_stack bs <> [])).
      { destruct (b_stack bs); [now apply safe_ok|]. destruct (g_glob st) as [|j] eqn:Ej; [now apply safe_ok|].
        eapply safe_bind; [apply at_safe;  lia|]. intros; now apply safe_ok. }
      intros after Ha. eapply (safe_bind _ _ (fun _ => True)).
      { destruct after; [|now apply safe_ok]. eapply safe_bind; [apply bs_pop_safe; simpl; auto|].
        - discriminate.
        - unfold in_range; auto.
        - intros; now apply safe_ok. }
      intros _ _. apply safe_ok. split; [exact I|discriminate].
  Qed.
  Lemma gloop_safe fuel : forall st bs, in_range st -> Forall in_range (b_stack bs) -> forall s,
    gloop glob path is_prefix negated fuel st bs <> Panic s.
  Proof.
    induction fuel as [|fuel IH]; intros st bs Hst Hb s; [discriminate|]. cbn [gloop].
    destruct (gstep_safe st bs Hst Hb) as (o & -> & Ho & Hf). simpl. destruct o as [b|st' bs'|st' bs']; [discriminate| |].
    - destruct Ho. now apply IH.
    - now specialize (Hf st' bs').
  Qed.
End Bounds.
Lemma leading_bangs_range g : forall i b j n, leading_bangs g i b = (j, n) -> i <= j <= i + List.length g.
Proof.
  induction g as [|c g IH]; intros i b j n; [simpl; intros [= <- <-]; lia|].
  assert (H0 : (i, b) = (j, n) -> i <= j <= i + List.length (c :: g)) by (intros [= <- <-]; simpl; lia).
  unfold leading_bangs; fold leading_bangs. destruct c as [|c]; [exact H0|].
  repeat (destruct c as [c|c|]; try exact H0). intros H. apply IH in H. simpl. lia.
Qed.

(** ** Termination without separators (C46) *)
Section Term.
  Variables glob path : list N.
  Variables is_prefix negated : bool.
  Variable H_nosep : ~ In 47%N path.
  Local Notation G := (List.length glob).
  Local Notation P := (List.length path).
  Local Notation bt := (can_backtrack path).
  Local Notation wg st := (w_glob (g_wild st)).
  Local Notation wp st := (w_path (g_wild st)).

  (** how far one level of braces has got: the glob index it can fall back to,
      the path index it would fall back to, the glob index *)
  Definition R (st : gstate) := if bt st then wg st else g_glob st.
  Definition Q (st : gstate) := if bt st then 2 * wp st + (if Nat.eqb (g_glob st) (wg st) then 1 else 0) + 1 else 0.
  Definition mu (st : gstate) := (R st * (2 * P + 5) + Q st) * (G + 1) + g_glob st.
  Definition B := (G + 1) * (2 * P + 5) * (G + 1) + 1.
  Definition wf (f : nat) (st : gstate) : Prop :=
    f <= g_glob st <= G /\
    (bt st = true -> f <= wg st /\ wg st <= g_glob st /\ nth_error glob (wg st) = Some 42%N /\
                     (g_glob st = wg st -> g_path st = wp st)).
  Lemma bt_range st : bt st = true -> 1 <= wp st <= P.
  Proof. unfold can_backtrack. rewrite andb_true_iff, Nat.ltb_lt, Nat.leb_le. lia. Qed.
  Lemma Q_bound st : Q st < 2 * P + 5.
  Proof.
    unfold Q. destruct (bt st) eqn:E; [|lia]. apply bt_range in E. destruct (Nat.eqb _ _); lia.
  Qed.
  Lemma R_bound f st : wf f st -> R st <= G.
  Proof. intros [H1 H2]. unfold R. destruct (bt st); [|lia]. specialize (H2 eq_refl). lia. Qed.
  Lemma mu_bound f st : wf f st -> mu st + 1 < B + 1.
  Proof.
    intros H. unfold mu, B. pose proof (Q_bound st). pose proof (R_bound f st H). destruct H as [H _].
    assert (R st * (2 * P + 5) + Q st + 1 <= (G + 1) * (2 * P + 5)) by nia.
    nia.
  Qed.
  Lemma mu_lt f f' st st' : wf f st -> wf f' st' ->
    (R st < R st' \/ (R st = R st' /\ Q st < Q st') \/ (R st = R st' /\ Q st = Q st' /\ g_glob st < g_glob st')) ->
    mu st < mu st'.
  Proof.
    intros [H1 _] [H2 _] H. unfold mu. pose proof (Q_bound st).
    assert (R st * (2 * P + 5) + Q st < R st' * (2 * P + 5) + Q st' \/
            (R st * (2 * P + 5) + Q st = R st' * (2 * P + 5) + Q st' /\ g_glob st < g_glob st')) as [Hl|[-> Hl]].
    { destruct H as [H|[[-> H]|[-> [-> H]]]]; [left; nia|left; lia|right; lia]. }
    - nia.
    - lia.
  Qed.

  (** the whole state *)
  Definition floor (stack : list gstate) : nat := match stack with [] => 0 | s :: _ => S (g_glob s) end.
  Fixpoint swf (stack : list gstate) : Prop :=
    match stack with
    | [] => True
    | s :: r => wf (floor r) s /\ nth_error glob (g_glob s) = Some 123%N /\ swf r
    end.
  Definition inv (st : gstate) (stack : list gstate) : Prop :=
    List.length stack <= 10 /\ wf (floor stack) st /\ swf stack.
  Fixpoint val (stack : list gstate) : nat :=
    match stack with [] => 0 | s :: r => val r * (B + 1) + (mu s + 1) end.
  Definition V (st : gstate) (stack : list gstate) : nat :=
    (val stack * (B + 1) + mu st + 1) * (B + 1) ^ (10 - List.length stack).
  Lemma val_bound stack : swf stack -> val stack < (B + 1) ^ (List.length stack).
  Proof.
    induction stack as [|s r IH]; simpl; [lia|]. intros (H1 & _ & H2). specialize (IH H2). apply mu_bound in H1. nia.
  Qed.
  Lemma V_bound st stack : inv st stack -> V st stack < (B + 1) ^ 11.
  Proof.
    intros (H1 & H2 & H3). unfold V. apply mu_bound in H2. apply val_bound in H3.
    replace 11 with (List.length stack + 1 + (10 - List.length stack)) by lia. rewrite !Nat.pow_add_r.
    assert (0 < (B + 1) ^ (10 - List.length stack)) by (apply Nat.neq_0_lt_0, Nat.pow_nonzero; lia).
    rewrite Nat.pow_1_r. apply Nat.mul_lt_mono_pos_r; [assumption|]. nia.
  Qed.
  Definition progress (st : gstate) (stack : list gstate) (st' : gstate) (stack' : list gstate) : Prop :=
    inv st' stack' /\ V st stack < V st' stack'.
  Lemma level_up st stack st' : inv st stack -> wf (floor stack) st' -> mu st < mu st' -> progress st stack st' stack.
  Proof.
    intros (H1 & H2 & H3) H4 H5. split; [split; auto|]. unfold V. apply Nat.mul_lt_mono_pos_r.
    - apply Nat.neq_0_lt_0, Nat.pow_nonzero. lia.
    - lia.
  Qed.
  Lemma push_up st stack st' : inv st stack -> List.length stack < 10 -> nth_error glob (g_glob st) = Some 123%N ->
    wf (S (g_glob st)) st' -> progress st stack st' (st :: stack).
  Proof.
    intros (H1 & H2 & H3) Hl Hn H4. split.
    - split; [simpl; lia|]. split; [exact H4|]. simpl. auto.
    - unfold V. simpl val. simpl List.length.
      replace (10 - List.length stack) with (S (10 - S (List.length stack))) by lia. rewrite Nat.pow_succ_r'.
      assert (0 < (B + 1) ^ (10 - S (List.length stack))) by (apply Nat.neq_0_lt_0, Nat.pow_nonzero; lia).
      rewrite Nat.mul_assoc. apply Nat.mul_lt_mono_pos_r; [assumption|]. lia.
  Qed.
  Lemma down_up st s r st' : inv st (s :: r) -> wf (floor r) st' -> mu s < mu st' -> progress st (s :: r) st' r.
  Proof.
    intros (H1 & H2 & H3 & Hn & H4) H5 H6. split.
    - split; [simpl in H1; lia|]. auto.
    - unfold V. simpl val. simpl List.length in *. apply mu_bound in H2.
      replace (10 - List.length r) with (S (10 - S (List.length r))) by lia. rewrite Nat.pow_succ_r'.
      assert (0 < (B + 1) ^ (10 - S (List.length r))) by (apply Nat.neq_0_lt_0, Nat.pow_nonzero; lia).
      rewrite Nat.mul_assoc. apply Nat.mul_lt_mono_pos_r; [assumption|]. nia.
  Qed.
  Lemma bt_wild a b : g_wild a = g_wild b -> bt a = bt b.
  Proof. unfold can_backtrack. now intros ->. Qed.
  (** moving forward with the same fallback *)
  Lemma forward f st st' : wf f st -> nth_error glob (g_glob st) <> Some 42%N ->
    g_wild st' = g_wild st -> g_glob st < g_glob st' <= G -> wf f st' /\ mu st < mu st'.
  Proof.
    intros H Hn Hw Hg. assert (H' : wf f st').
    { destruct H as [H1 H2]. split; [lia|]. rewrite (bt_wild _ _ Hw), Hw. intros E. specialize (H2 E) as (A & C & D & F). repeat split; auto; lia. }
    split; [exact H'|]. eapply mu_lt; [exact H|exact H'|].
    destruct H as [H1 H2]. unfold R, Q. rewrite (bt_wild _ _ Hw), Hw. destruct (bt st) eqn:E; [|left; lia].
    specialize (H2 eq_refl) as (A & C & D & F). right. right. repeat split; [|lia].
    destruct (Nat.eqb_spec (g_glob st) (wg st)) as [e|_]; [rewrite e in Hn; contradiction|].
    destruct (Nat.eqb_spec (g_glob st') (wg st)); lia.
  Qed.
  (** falling back *)
  Lemma fallback f st st' : wf f st -> nth_error glob (g_glob st) <> Some 42%N ->
    g_wild st' = g_wild st -> bt st = true -> wf f (backtrack st') /\ mu st < mu (backtrack st').
  Proof.
    intros H Hn Hw E. destruct (H) as [H1 H2]. specialize (H2 E) as (A & C & D & F).
    assert (H' : wf f (backtrack st')).
    { unfold wf, backtrack. simpl. rewrite Hw. split; [lia|]. intros _. repeat split; auto; lia. }
    split; [exact H'|]. eapply mu_lt; [exact H|exact H'|]. right. left. unfold R, Q.
    assert (bt (backtrack st') = bt st) as -> by (apply bt_wild; exact Hw). rewrite E. unfold backtrack. simpl. rewrite Hw.
    split; [reflexivity|]. rewrite Nat.eqb_refl.
    destruct (Nat.eqb_spec (g_glob st) (wg st)) as [e|_]; [rewrite e in Hn; contradiction|]. lia.
  Qed.

  Lemma pop_progress st st0 bs st' bs' : inv st (b_stack bs) -> g_glob st <= g_glob st0 <= G ->
    bs_pop st0 bs = Ok (st', bs') -> progress st (b_stack bs) st' (b_stack bs') /\ g_glob st' = g_glob st0.
  Proof.
    intros Hi Hg. unfold bs_pop. destruct (b_stack bs) as [|s r]; [discriminate|].
    destruct (b_longest bs); [|discriminate]. intros [= <- <-]. simpl. split; [|reflexivity].
    destruct (Hi) as (H1 & [H2 _] & H3 & Hn & H4). simpl in H2.
    destruct (forward (floor r) s (mk_gst n (g_glob st0) (g_wild s) (g_star s))) as [Hw Hm]; auto.
    - rewrite Hn. discriminate.
    - simpl. lia.
    - now apply down_up.
  Qed.

  (** what an arm may answer *)
  Definition arm_ok (st : gstate) (bs : bstack) (o : gout) : Prop :=
    match o with
    | GRet _ => True
    | GCont st' bs' => progress st (b_stack bs) st' (b_stack bs')
    | GFail st' bs' => bs' = bs /\ g_wild st' = g_wild st /\ g_glob st <= g_glob st' <= G
    end.
  Lemma nosep i c : nth_error path i = Some c -> is_sep c = false.
  Proof.
    intros H. unfold is_sep. apply N.eqb_neq. intros ->. apply H_nosep. eapply nth_error_In; eauto.
  Qed.
  Lemma at_some l i c : at_ l i = Ok c -> nth_error l i = Some c.
  Proof. unfold at_. destruct (nth_error l i); congruence. Qed.

  Lemma arm_class_ok st bs o : inv st (b_stack bs) -> nth_error glob (g_glob st) = Some 91%N ->
    g_path st < P -> arm_class glob path st bs = Ok o -> arm_ok st bs o.
  Proof.
    intros Hi Hn Hp. unfold arm_class. assert (g_glob st < G) as Hlt by (apply nth_error_Some; congruence).
    destruct (at_safe path (g_path st) Hp) as (c & -> & _). cbn [bind].
    set (x := match nth_error glob (S (g_glob st)) with Some _ => _ | None => _ end).
    assert (S (g_glob st) <= snd x <= G).
    { subst x. destruct (nth_error glob (S (g_glob st))) as [y|] eqn:E; [|simpl; lia].
      assert (S (g_glob st) < G) by (apply nth_error_Some; congruence). destruct (_ || _)%bool; simpl; lia. }
    destruct x as [neg i]. simpl in H.
    destruct (class_loop_safe glob (S G) c true false i) as (r & -> & Hr); [lia|lia|]. cbn [bind].
    destruct r as [[j m]|]; [|intros [= <-]; exact I]. specialize (Hr _ _ eq_refl).
    destruct (Nat.ltb_spec j G); cbn [negb]; [|intros [= <-]; exact I].
    destruct (xorb m neg); intros [= <-]; simpl.
    - destruct (forward (floor (b_stack bs)) st (mk_gst (S (g_path st)) (S j) (g_wild st) (g_star st))) as [Hw Hm];
        [apply Hi|rewrite Hn; discriminate|reflexivity|simpl; lia|]. now apply level_up.
    - repeat split; lia.
  Qed.
  Lemma arm_literal_ok c st bs o : inv st (b_stack bs) -> nth_error glob (g_glob st) = Some c -> c <> 42%N ->
    g_path st < P -> arm_literal glob path c st bs = Ok o -> arm_ok st bs o.
  Proof.
    intros Hi Hn Hc Hp. unfold arm_literal. assert (g_glob st < G) as Hlt by (apply nth_error_Some; congruence).
    destruct (unescape c glob (g_glob st)) as [[c' i]|] eqn:E; [|intros [= <-]; exact I].
    apply unescape_range in E; [|assumption]. cbn [g_path]. destruct (at_safe path (g_path st) Hp) as (x & -> & _).
    cbn [bind]. destruct (if (c' =? 47)%N then is_sep x else (x =? c')%N); [|intros [= <-]; simpl; repeat split; lia].
    destruct (match b_stack bs with [] => _ | _ :: _ => _ end) as [after| |]; cbn [bind]; try discriminate.
    set (st1 := mk_gst (g_path st) i (g_wild st) (g_star st)).
    destruct after.
    - (* a pop, then one step forward *)
      cbn [b_stack]. destruct (bs_pop st1 _) as [[st2 bs2]| |] eqn:Epop; cbn [bind]; try discriminate.
      intros [= <-]. simpl. set (bs1 := mk_bs (b_stack bs) (Some (g_path st1))) in Epop.
      unfold bs_pop in Epop. simpl in Epop. destruct (b_stack bs) as [|s r] eqn:Es; [discriminate|].
      injection Epop as <- <-. simpl in *. destruct (Hi) as (H1 & [H2 _] & H3 & Hns & H4). simpl in H2.
      match goal with |- progress _ _ ?x _ => destruct (forward (floor r) s x) as [Hw Hm] end; auto.
      + rewrite Hns. discriminate.
      + simpl. lia.
      + now apply down_up.
    - cbn [bind]. intros [= <-]. simpl.
      match goal with |- progress _ _ ?x _ => destruct (forward (floor (b_stack bs)) st x) as [Hw Hm] end;
        [apply Hi|rewrite Hn; congruence|reflexivity|simpl; lia|]. now apply level_up.
  Qed.
  Lemma arm_star_ok st bs o : inv st (b_stack bs) -> nth_error glob (g_glob st) = Some 42%N ->
    arm_star glob path st bs = Ok o -> arm_ok st bs o.
  Proof.
    intros Hi Hn. unfold arm_star. cbv zeta. assert (g_glob st < G) as Hlt by (apply nth_error_Some; congruence).
    set (gs := match nth_error glob (S (g_glob st)) with Some 42%N => true | _ => false end).
    assert (Hgs : gs = true -> S (g_glob st) < G).
    { unfold gs. intros H. apply nth_error_Some. intros E. now rewrite E in H. }
    set (ci := if gs then _ else Ok (g_glob st)).
    assert (Hci : exists i, ci = Ok i /\ g_glob st <= i < G /\ (gs = true -> i + 2 <= G) /\ nth_error glob i = Some 42%N).
    { subst ci. destruct gs; [|exists (g_glob st); repeat split; auto; lia].
      specialize (Hgs eq_refl). destruct (skip_globstars_safe glob (g_glob st + 2)) as (j & -> & Hj & Hj2); [lia|].
      exists (j - 2). split; [reflexivity|]. split; [lia|]. split; [lia|]. apply Hj2; [lia|].
      now replace (g_glob st + 2 - 2) with (g_glob st) by lia. }
    destruct Hci as (i & -> & Hi1 & Hi2 & Hi3). cbn [bind].
    set (c2 := if gs then _ else Ok (S i, g_star st)).
    assert (Hc2 : forall i2 star, c2 = Ok (i2, star) -> i < i2 <= G).
    { subst c2. destruct gs; [|intros i2 star [= <- <-]; lia]. specialize (Hi2 eq_refl). intros i2 star.
      destruct (Nat.eqb_spec G (i + 2)); [intros [= <- <-]; lia|].
      destruct (if Nat.ltb (i + 2) 3 then Ok 47%N else _) as [c1| |]; cbn [bind]; try discriminate.
      destruct (if (c1 =? 47)%N then _ else Ok 0%N) as [d2| |]; cbn [bind]; try discriminate.
      destruct (_ && _)%bool; [|intros [= <- <-]; lia].
      destruct (if Nat.eqb (g_path st) 0 then _ else _) as [sk| |]; cbn [bind]; try discriminate.
      destruct sk; intros [= <- <-]; lia. }
    destruct c2 as [[i2 star]| |]; cbn [bind]; try discriminate. specialize (Hc2 _ _ eq_refl).
    set (sep := if (negb _ && _)%bool then _ else Ok false).
    assert (Hsep : sep = Ok false).
    { subst sep. destruct (negb _ && _)%bool eqn:E; [|reflexivity]. apply andb_true_iff in E as [_ E].
      apply Nat.ltb_lt in E. destruct (at_safe path (g_path st) E) as (x & -> & Hx). cbn [bind]. now rewrite (nosep _ _ Hx). }
    rewrite Hsep. cbn [bind]. clear Hsep sep Hgs Hi2.
    assert (Hgo : forall j, i < j <= G ->
      arm_ok st bs (GCont (mk_gst (g_path st) j (mk_wc i (g_path st + 1)) star) bs)).
    { intros j Hj. simpl. destruct (Hi) as (_ & H & _).
      set (st' := mk_gst (g_path st) j (mk_wc i (g_path st + 1)) star).
      assert (H' : wf (floor (b_stack bs)) st').
      { destruct H as [H1 H2]. unfold wf. simpl. split; [lia|]. intros _. repeat split; auto; lia. }
      apply level_up; auto. eapply mu_lt; [exact H|exact H'|].
      destruct H as [H1 H2]. unfold R, Q. simpl.
      destruct (bt st') eqn:E'; destruct (bt st) eqn:E; try (left; lia);
        try (specialize (H2 eq_refl) as (A & C & D & F)); try (left; lia).
      - destruct (Nat.eq_dec (wg st) i) as [Ew|Ew]; [|left; lia]. right. left. split; [lia|].
        assert (g_glob st = wg st) as Eg by lia. rewrite (F Eg), Eg, Nat.eqb_refl.
        destruct (Nat.eqb_spec j i); lia.
      - destruct (Nat.eq_dec (g_glob st) i) as [Ew|Ew]; [|left; lia]. right. left. split; [lia|].
        destruct (Nat.eqb_spec j i); lia. }
    destruct (match b_stack bs with [] => _ | _ => _ end).
    - destruct (skip_braces_safe glob false (S G) i2 1 false) as ([b j] & -> & Hj); [lia|]. cbn [bind].
      destruct b; [intros [= <-]; exact I| |]; (destruct Hj as [Hj|Hj]; [discriminate|]; intros [= <-]; apply Hgo; lia).
    - intros [= <-]. apply Hgo. exact Hc2.
  Qed.
  Lemma arm_all_ok st bs o : inv st (b_stack bs) -> g_glob st < G -> arm glob path st bs = Ok o ->
    arm_ok st bs o /\ (nth_error glob (g_glob st) = Some 42%N -> forall a b, o <> GFail a b).
  Proof.
    intros Hi Hlt. unfold arm. cbv zeta. destruct (at_safe glob (g_glob st) Hlt) as (c & -> & Hc). cbn [bind].
    destruct (N.eqb_spec c 42) as [->|H42].
    { intros H. split; [now apply arm_star_ok|]. intros _ a b ->.
      revert H. unfold arm_star. cbv zeta.
      repeat match goal with |- bind ?x _ = _ -> _ => destruct x as [?| |]; cbn [bind]; try discriminate end.
      destruct a1; cbn [bind].
      repeat match goal with |- bind ?x _ = _ -> _ => destruct x as [?| |]; cbn [bind]; try discriminate end.
      destruct (if a1 then _ else _).
      destruct (match b_stack bs with [] => _ | _ => _ end); [|discriminate].
      destruct (skip_braces _ _ _ _ _ _) as [[[] ?]| |]; discriminate. }
    rewrite Hc. intros H. split; [|intros [= ->]; contradiction]. revert H.
    assert (Hf : forall p j star, g_glob st < j <= G -> arm_ok st bs (GCont (mk_gst p j (g_wild st) star) bs)).
    { intros p j star Hj. simpl. destruct (forward (floor (b_stack bs)) st (mk_gst p j (g_wild st) star)) as [Hw Hm];
        [apply Hi|rewrite Hc; congruence|reflexivity|exact Hj|]. now apply level_up. }
    assert (Hfail : arm_ok st bs (GFail st bs)) by (simpl; repeat split; lia).
    destruct ((c =? 63)%N && _) eqn:E1.
    { apply andb_true_iff in E1 as [_ E1]. apply Nat.ltb_lt in E1.
      destruct (at_safe path (g_path st) E1) as (x & -> & Hx). cbn [bind].
      destruct (negb (is_sep x)); intros [= <-]; [apply Hf; lia|exact Hfail]. }
    destruct ((c =? 91)%N && _) eqn:E2.
    { apply andb_true_iff in E2 as [Ec E2]. apply Nat.ltb_lt in E2. apply N.eqb_eq in Ec. subst c. now apply arm_class_ok. }
    destruct ((c =? 123)%N && _) eqn:E3.
    { apply andb_true_iff in E3 as [Ec _]. apply N.eqb_eq in Ec. subst c.
      destruct (Nat.leb_spec 10 (List.length (b_stack bs))); [intros [= <-]; exact I|]. unfold bs_push. intros [= <-]. simpl.
      apply push_up; auto. split; simpl; [lia|]. discriminate. }
    destruct ((c =? 125)%N && _) eqn:E4.
    { destruct (bs_pop _ _) as [[st' bs']| |] eqn:E; cbn [bind]; try discriminate. intros [= <-]. simpl.
      apply (pop_progress st _ (mk_bs (b_stack bs) (opt_max (b_longest bs) (g_path st)))) in E; [apply E|exact Hi|simpl; lia]. }
    destruct ((c =? 44)%N && _) eqn:E5.
    { unfold bs_last. simpl. destruct (b_stack bs) as [|top r] eqn:Eb; [discriminate|]. cbn [bind]. intros [= <-]. simpl.
      match goal with |- progress _ _ ?x _ => set (st' := x) end.
      destruct (Hi) as (_ & H & _).
      assert (wf (floor (top :: r)) st').
      { destruct H as [H1 _]. unfold wf, st'. simpl in *. split; [lia|]. discriminate. }
      rewrite Eb. apply level_up; auto. eapply mu_lt; eauto. left. unfold R. simpl.
      destruct H as [H1 H2]. destruct (bt st); [specialize (H2 eq_refl)|]; lia. }
    destruct (Nat.ltb_spec (g_path st) P); [now apply arm_literal_ok|]. intros [= <-]. exact Hfail.
  Qed.
  Lemma no_match_ok st st0 bs o : inv st (b_stack bs) -> nth_error glob (g_glob st) <> Some 42%N ->
    g_wild st0 = g_wild st -> g_glob st <= g_glob st0 <= G ->
    no_match glob path is_prefix negated st0 bs = Ok o -> arm_ok st bs o.
  Proof.
    intros Hi Hn Hw Hg. unfold no_match. rewrite (bt_wild _ _ Hw). destruct (bt st) eqn:Eb.
    { intros [= <-]. simpl. destruct (fallback (floor (b_stack bs)) st st0) as [H1 H2]; auto; [apply Hi|]. now apply level_up. }
    destruct (b_stack bs) as [|top rest] eqn:Es; [intros [= <-]; exact I|].
    destruct (skip_braces_safe glob true (S G) (g_glob st0) 1 false) as ([b i] & -> & Hj); [lia|]. cbn [bind].
    destruct b; [intros [= <-]; exact I| |]; (destruct Hj as [Hj|Hj]; [discriminate|]).
    - intros [= <-]. simpl. rewrite Es.
      match goal with |- progress _ _ ?x _ => destruct (forward (floor (top :: rest)) st x) as [H1 H2] end;
        [apply Hi|exact Hn|exact Hw|simpl; lia|]. now apply level_up.
    - destruct (b_longest bs) eqn:El.
      + destruct (bs_pop _ _) as [[st' bs']| |] eqn:E; cbn [bind]; try discriminate. intros [= <-]. simpl.
        eapply pop_progress in E; [apply E| |]; [rewrite Es; exact Hi|simpl; lia].
      + destruct (bt top) eqn:Et; [|intros [= <-]; exact I]. intros [= <-]. simpl. rewrite Es.
        destruct (Hi) as (H1 & H2 & H3 & Hns & H4).
        destruct (fallback (floor rest) top top) as [A C]; auto; [rewrite Hns; discriminate|]. now apply down_up.
  Qed.
  Lemma gstep_progress st bs st' bs' : inv st (b_stack bs) ->
    gstep glob path is_prefix negated st bs = Ok (GCont st' bs') -> progress st (b_stack bs) st' (b_stack bs').
  Proof.
    intros Hi. unfold gstep. destruct (_ || _)%bool.
    - destruct (Nat.ltb_spec (g_glob st) G).
      + destruct (arm glob path st bs) as [o| |] eqn:E; cbn [bind]; try discriminate.
        apply arm_all_ok in E as [H1 H2]; auto. destruct o as [b|a c|a c]; [discriminate|intros [= <- <-]; exact H1|].
        destruct H1 as (-> & Hw & Hg). intros E.
        apply (no_match_ok st a bs (GCont st' bs')); auto. intros Hn. now apply (H2 Hn a bs).
      + cbn [bind]. intros E. apply (no_match_ok st st bs (GCont st' bs')); auto.
        * intros Hn. assert (g_glob st < G) by (apply nth_error_Some; congruence). lia.
        * destruct Hi as (_ & [Hg _] & _). lia.
    - repeat match goal with |- bind ?x _ = _ -> _ => destruct x as [?| |]; cbn [bind]; try discriminate end.
  Qed.
End Term.

(** ** Running the loop *)
Section Run.
  Variables glob path : list N.
  Variables is_prefix negated : bool.
  Local Notation step := (gstep glob path is_prefix negated).
  Local Notation loop := (gloop glob path is_prefix negated).
  Lemma iter2_gloop k : forall st bs o, iter2 k step st bs = Ok o ->
    match o with
    | GRet b => forall n, 2 ^ k <= n -> loop n st bs = Ok b
    | GCont st' bs' => forall n, loop (2 ^ k + n) st bs = loop n st' bs'
    | GFail _ _ => True
    end.
  Proof.
    induction k as [|k IH]; intros st bs o; cbn [iter2].
    - intros E. destruct o as [b|st' bs'|st' bs']; [|intros n; cbn [Nat.pow Nat.add gloop]; now rewrite E|exact I].
      intros [|n] Hn; [simpl in Hn; lia|]. cbn [gloop]. now rewrite E.
    - destruct (iter2 k step st bs) as [o1| |] eqn:E1; cbn [bind]; try discriminate.
      pose proof (IH _ _ _ E1) as H1. destruct o1 as [b1|st1 bs1|st1 bs1].
      + intros [= <-]. intros n Hn. apply H1. rewrite Nat.pow_succ_r' in Hn. lia.
      + intros E2. pose proof (IH _ _ _ E2) as H2. rewrite Nat.pow_succ_r'. destruct o as [b|st' bs'|st' bs']; [| |exact I].
        * intros n Hn. replace n with (2 ^ k + (n - 2 ^ k)) by lia. rewrite H1. apply H2. lia.
        * intros n. replace (2 * 2 ^ k + n) with (2 ^ k + (2 ^ k + n)) by lia. now rewrite H1, H2.
      + intros [= <-]. exact I.
  Qed.

  Variable H_nosep : ~ In 47%N path.
  Local Notation B := (B glob path).
  Local Notation inv := (inv glob path).
  Lemma iter2_ends k : forall st bs, inv st (b_stack bs) -> in_range glob st -> Forall (in_range glob) (b_stack bs) ->
    (exists b, iter2 k step st bs = Ok (GRet b)) \/
    (exists st' bs', iter2 k step st bs = Ok (GCont st' bs') /\ inv st' (b_stack bs') /\
       in_range glob st' /\ Forall (in_range glob) (b_stack bs') /\
       V glob path st (b_stack bs) + 2 ^ k <= V glob path st' (b_stack bs')).
  Proof.
    induction k as [|k IH]; intros st bs Hi Hr Hrs; cbn [iter2].
    - destruct (gstep_safe glob path is_prefix negated st bs Hr Hrs) as (o & E & Ho & Hf). rewrite E.
      destruct o as [b|st' bs'|st' bs']; [eauto| |now specialize (Hf st' bs')].
      right. exists st', bs'. destruct Ho as [H1 H2]. destruct (gstep_progress glob path is_prefix negated H_nosep _ _ _ _ Hi E).
      split; [reflexivity|]. split; [exact H|]. split; [exact H1|]. split; [exact H2|]. change (2 ^ 0) with 1. lia.
    - destruct (IH st bs Hi Hr Hrs) as [[b ->]|(st1 & bs1 & -> & H1 & H2 & H3 & H4)]; cbn [bind]; [eauto|].
      destruct (IH st1 bs1 H1 H2 H3) as [[b ->]|(st2 & bs2 & -> & H5 & H6 & H7 & H8)]; [eauto|].
      right. exists st2, bs2. split; [reflexivity|]. split; [exact H5|]. split; [exact H6|]. split; [exact H7|]. rewrite Nat.pow_succ_r'. lia.
  Qed.
End Run.

Lemma succ_le_pow2 n : n + 1 <= 2 ^ n.
Proof. induction n; simpl; lia. Qed.
Lemma glob_bits_enough glob path : (B glob path + 1) ^ 11 <= 2 ^ glob_bits glob path.
Proof.
  unfold glob_bits. set (g := List.length glob). set (p := List.length path).
  assert (B glob path + 1 <= 2 ^ (2 * g + p + 5)).
  { unfold B. fold g. fold p. pose proof (succ_le_pow2 g) as Hg. pose proof (succ_le_pow2 p) as Hp.
    replace (2 * g + p + 5) with (g + g + p + 5) by lia. rewrite !Nat.pow_add_r. change (2 ^ 5) with 32.
    assert ((g + 1) * (g + 1) <= 2 ^ g * 2 ^ g) by nia.
    assert (2 * p + 5 <= 2 ^ p * 8) by lia.
    assert ((g + 1) * (2 * p + 5) * (g + 1) <= 2 ^ g * 2 ^ g * (2 ^ p * 8)).
    { replace ((g + 1) * (2 * p + 5) * (g + 1)) with ((g + 1) * (g + 1) * (2 * p + 5)) by lia. now apply Nat.mul_le_mono. }
    assert (1 <= 2 ^ g * 2 ^ g * 2 ^ p) by nia. nia. }
  etransitivity; [apply Nat.pow_le_mono_l; exact H|]. rewrite <- Nat.pow_mul_r. apply Nat.pow_le_mono_r; lia.
Qed.
Lemma start_in_range glob i n : leading_bangs glob 0 false = (i, n) -> i <= List.length glob.
Proof. intros H. apply leading_bangs_range in H. lia. Qed.
(** [glob_run] answers for every path without separators *)
Lemma glob_run_ends glob path is_prefix : ~ In 47%N path -> exists b, glob_run glob path is_prefix = Ok b.
Proof.
  intros Hn. unfold glob_run. destruct (leading_bangs glob 0 false) as [i neg] eqn:E. apply start_in_range in E.
  destruct (iter2_ends glob path is_prefix neg Hn (glob_bits glob path) (mk_gst 0 i wc0 wc0) (mk_bs [] None))
    as [[b ->]|(st' & bs' & _ & H1 & _ & _ & H2)].
  - split; simpl; [lia|]. split; [|exact I]. split; simpl; [lia|discriminate].
  - unfold in_range. simpl. lia.
  - constructor.
  - simpl. eauto.
  - apply V_bound in H1. pose proof (glob_bits_enough glob path). lia.
Qed.
(** ... with the answer of the loop *)
Lemma glob_run_loop glob path is_prefix b : glob_run glob path is_prefix = Ok b ->
  forall n, 2 ^ glob_bits glob path <= n -> glob_internal n glob path is_prefix = Ok b.
Proof.
  unfold glob_run, glob_internal. destruct (leading_bangs glob 0 false) as [i neg]. intros H.
  destruct (iter2 _ _ _ _) as [o| |] eqn:E; cbn [bind] in H; try discriminate.
  destruct o; try discriminate. injection H as <-. exact (iter2_gloop _ _ _ _ _ _ _ _ E).
Qed.
Lemma gloop_mono glob path p n : forall st bs b k, gloop glob path p n k st bs = Ok b -> forall m, k <= m ->
  gloop glob path p n m st bs = Ok b.
Proof.
  intros st bs b k. revert st bs. induction k as [|k IH]; intros st bs; [discriminate|]. intros H [|m] Hm; [lia|].
  cbn [gloop] in *. destruct (gstep _ _ _ _ st bs) as [o| |]; cbn [bind] in *; try discriminate.
  destruct o as [b'|st' bs'|st' bs']; auto. apply IH; [exact H|lia].
Qed.
(** an answer of the loop, with whatever fuel, is the answer of [glob_run] *)
Lemma glob_internal_run glob path is_prefix n b : ~ In 47%N path ->
  glob_internal n glob path is_prefix = Ok b -> glob_run glob path is_prefix = Ok b.
Proof.
  intros Hn H. destruct (glob_run_ends glob path is_prefix Hn) as [b' E]. rewrite E.
  pose proof (glob_run_loop _ _ _ _ E (n + 2 ^ glob_bits glob path) ltac:(lia)) as H2.
  unfold glob_internal in *. destruct (leading_bangs glob 0 false) as [i neg].
  rewrite (gloop_mono _ _ _ _ _ _ _ _ H) in H2 by lia. congruence.
Qed.
