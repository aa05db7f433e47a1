(** Invariants of token sequences under expansion: no panic (C18), normal form
    (C20), termination (C17). *)
From Verif Require Export MacroDefs.
Local Open Scope N_scope.

(** [r] is a normal result satisfying [Q] *)
Definition total {A} (r : res A) (Q : A -> Prop) : Prop := exists a, r = Ok a /\ Q a.
Lemma total_ok {A} (a : A) (Q : A -> Prop) : Q a -> total (Ok a) Q.
Proof. intros H. now exists a. Qed.
Lemma total_bind {A B} (x : res A) (f : A -> res B) P Q :
  total x P -> (forall a, P a -> total (f a) Q) -> total (bind x f) Q.
Proof. intros (a & -> & Ha) H. simpl. auto. Qed.
Lemma total_impl {A} (r : res A) (P Q : A -> Prop) : total r P -> (forall a, P a -> Q a) -> total r Q.
Proof. intros (a & -> & Ha) H. exists a. auto. Qed.

Notation wf_tok := plausible.

Section Inv.
  Variable P : tok -> Prop.
  Hypothesis P_word : forall s, P (Word, s).
  Hypothesis P_wf : forall t, P t -> wf_tok t.

  Fixpoint clean (s : lstream) : Prop :=
    match s with SNil => True | SPanic _ => False | SCons t r => P t /\ clean r end.
  Definition cclean (c : ictx) : Prop := clean (flat c) /\ cinv c.
  Lemma clean_quiet s : clean s -> quiet s.
  Proof. destruct s; simpl; auto. Qed.
  Lemma clean_push l s : Forall P l -> clean s -> clean (push_front l s).
  Proof. induction 1; simpl; auto. Qed.
  Lemma clean_front s : clean s -> cclean (at_front s).
  Proof. intros H. split; [now rewrite flat_at_front|]. destruct s; simpl in *; auto. contradiction. Qed.
  Lemma cclean_front c : cclean c -> exists s, c = at_front s /\ clean s.
  Proof.
    intros [H Hi]. exists (flat c). split; [|exact H]. destruct c as [[t|] r]; [reflexivity|].
    unfold cinv in Hi. simpl in *. now rewrite Hi.
  Qed.
  Lemma rest_clean c : cclean c -> clean (ic_rest c).
  Proof. intros [H _]. destruct c as [[t|] r]; simpl in *; tauto. Qed.
  Lemma peeked_P c t : cclean c -> ic_peeked c = Some t -> P t.
  Proof. intros [H _] E. unfold flat in H. rewrite E in H. simpl in H. tauto. Qed.

  Lemma next_clean c : clean (ic_rest c) -> total (next_token c) cclean.
  Proof.
    intros H. destruct c as [p r]. simpl in *. rewrite next_token_front by now apply clean_quiet.
    apply total_ok. now apply clean_front.
  Qed.
  Lemma find_clean s : clean s -> total (find_non_trivia s) cclean.
  Proof.
    induction s as [|e|t r IH]; simpl; [intros _; apply total_ok; now split|contradiction|].
    intros [Ht Hr]. destruct (is_trivia (fst t)); [auto|]. apply total_ok. apply (clean_front (SCons t r)). simpl; auto.
  Qed.
  Lemma eat_if_clean k c : cclean c -> total (eat_if k c) cclean.
  Proof.
    intros H. unfold eat_if. destruct (ic_peek c); [|now apply total_ok].
    destruct (token_eqb t k); [|now apply total_ok]. apply next_clean. now apply rest_clean.
  Qed.
  Lemma take_balanced_clean bk s : clean s -> forall lv,
    total (take_balanced bk lv s) (fun '(ts, c) => Forall P ts /\ cclean c).
  Proof.
    induction s as [|e|t r IH]; simpl; [|contradiction|].
    - intros _ lv. apply total_ok. repeat split; auto.
    - intros [Ht Hr] lv. destruct ((lv =? 0)%Z && token_eqb (fst t) (TRight bk)).
      + apply total_ok. split; [constructor|]. apply (clean_front (SCons t r)). simpl; auto.
      + eapply total_bind; [now apply IH|]. intros [ts c] [H1 H2]. apply total_ok. auto.
  Qed.
  Lemma read_until_balanced_clean bk c : cclean c ->
    total (read_until_balanced bk c) (fun '(ts, c) => Forall P ts /\ cclean c).
  Proof.
    intros [H _]. unfold read_until_balanced. eapply total_bind; [now apply take_balanced_clean|].
    intros [ts c'] [H1 H2]. eapply total_bind; [now apply eat_if_clean|]. intros c2 H3. apply total_ok. auto.
  Qed.
  Lemma close_arg_clean {A} bk (r : option A) c : cclean c ->
    total (close_arg bk r c) (fun '(c, r') => cclean c /\ (r' = None \/ r' = r)).
  Proof.
    intros H. unfold close_arg. eapply total_bind; [apply find_clean; now apply rest_clean|].
    intros c' H'. destruct (ic_peek c'); [|apply total_ok; auto].
    eapply total_bind; [now apply eat_if_clean|]. intros c2 H2. apply total_ok. auto.
  Qed.
  Lemma skip_false_clean s : clean s -> forall n, total (skip_false n s) cclean.
  Proof.
    induction s as [|e|t r IH]; simpl; [|contradiction|].
    - intros _ n. apply total_ok. now split.
    - intros [Ht Hr] n. specialize (IH Hr).
      assert (cclean (mk_ictx (Some t) r)) as Hc by (apply (clean_front (SCons t r)); simpl; auto).
      destruct (fst t); auto. destruct c; auto; destruct n; auto; now apply total_ok.
  Qed.
  Lemma skip_false_tokens_clean c : cclean c -> total (skip_false_tokens c) cclean.
  Proof.
    intros H. unfold skip_false_tokens. destruct (ic_peeked c); [|now apply total_ok].
    apply skip_false_clean. apply H.
  Qed.
  Lemma split_word_P n s : Forall (Forall P) (fst (split_word n s)).
  Proof.
    revert s. induction n as [|n IH]; intros [|c s]; simpl; auto.
    specialize (IH s). destruct (split_word n s). simpl in *. auto.
  Qed.
  Lemma split_word_len n s : (n <> 0 -> s <> [] -> List.length (fst (split_word n s)) > 0)%nat.
  Proof.
    destruct n, s; simpl; try congruence. destruct (split_word n s). simpl. lia.
  Qed.
  Lemma read_args_loop_clean fuel : forall lft c, (0 < lft <= fuel)%nat -> cclean c ->
    total (read_args_loop fuel lft c) (fun '(c, args, _) => cclean c /\ Forall (Forall P) args).
  Proof.
    induction fuel as [|f IH]; intros lft c Hl Hc; [lia|]. cbn [read_args_loop].
    eapply total_bind; [apply find_clean; apply Hc|]. intros c1 H1.
    assert (Hgo : forall l c args, (0 < l <= S f)%nat -> cclean c -> Forall (Forall P) args ->
      total (match l - 1 with
            | O => Ok (c, args, O)
            | S n => let* (c, args', lft') := read_args_loop f (S n) c in Ok (c, args ++ args', lft')
            end%nat) (fun '(c, args, _) => cclean c /\ Forall (Forall P) args)).
    { intros l c0 args Hl0 H Ha. destruct (l - 1)%nat as [|n] eqn:E; [apply total_ok; auto|].
      eapply total_bind; [apply IH; auto; lia|]. intros [[? ?] ?] [H2 H3]. apply total_ok.
      split; auto. now apply Forall_app. }
    assert (Htok : forall t, P t -> total (let* c := next_token c1 in
      match lft - 1 with
          | O => Ok (c, [[t]], O)
          | S n => let* (c, args', lft') := read_args_loop f (S n) c in Ok (c, [[t]] ++ args', lft')
          end%nat) (fun '(c, args, _) => cclean c /\ Forall (Forall P) args)).
    { intros t Ht. eapply total_bind; [apply next_clean; now apply rest_clean|]. intros c2 H2.
      apply (Hgo lft c2 [[t]]); auto. }
    destruct (ic_peeked c1) as [[k s]|] eqn:Ep; [|apply total_ok; auto].
    pose proof (peeked_P _ _ H1 Ep) as HP.
    destruct k; try (apply Htok; exact HP).
    - destruct b; try (apply Htok; exact HP).
      eapply total_bind; [apply next_clean; now apply rest_clean|]. intros c2 H2.
      eapply total_bind; [now apply read_until_balanced_clean|]. intros [arg c3] [H3 H4].
      apply (Hgo lft c3 [arg]); auto.
    - pose proof (split_word_P lft s) as Hsp.
      destruct (split_word lft s) as [chars t'] eqn:Es. simpl in Hsp.
      eapply total_bind.
      { instantiate (1 := cclean). destruct t' as [|c' t'].
        - apply next_clean. now apply rest_clean.
        - apply total_ok. apply (clean_front (SCons (Word, c' :: t') (ic_rest c1))). simpl. split; [apply P_word|].
          now apply rest_clean. }
      intros c2 H2. destruct (lft - List.length chars)%nat as [|n] eqn:El; [apply total_ok; auto|].
      specialize (Hgo (S n) c2 chars ltac:(lia) H2 Hsp). simpl in Hgo. rewrite Nat.sub_0_r in Hgo.
      simpl. rewrite Nat.sub_0_r. exact Hgo.
  Qed.
  Lemma read_macro_args_clean c num opt : cclean c -> (forall o, opt = Some o -> Forall P o) ->
    total (read_macro_args c num opt) (fun '(c, out, args) => cclean c /\
      (forall a, args = Some a -> Forall (Forall P) a) /\
      (out = [] \/ out = [(TError, tx "invalid number of arguments")])).
  Proof.
    intros H Ho. unfold read_macro_args. destruct (num =? 0) eqn:En.
    { apply total_ok. split; [auto|]. split; [|auto]. intros a E. injection E as <-. constructor. }
    apply N.eqb_neq in En. eapply total_bind; [apply read_args_loop_clean; [lia|exact H]|].
    intros [[c2 args] lft] [H2 H3].
    destruct lft as [|l]; [apply total_ok; split; auto; split; auto; intros a E; injection E as <-; auto|].
    destruct l, opt; apply total_ok; (split; [auto|]); (split; [|auto]); try discriminate.
    intros a E. injection E as <-. apply Forall_app. split; auto.
  Qed.
  Lemma env_body_clean name s : clean s -> forall bc,
    total (env_body_go name bc s) (fun '(c, out, b) => cclean c /\ (forall l, b = Some l -> Forall P l) /\
      (out = [] \/ out = [(TError, tx "unmatched environment")])).
  Proof.
    induction s as [|e|t r IH]; simpl; [|contradiction|].
    - intros _ bc. apply total_ok. repeat split; auto; discriminate.
    - intros [Ht Hr] bc. specialize (IH Hr).
      assert (Hp : forall bc, total (let* (c, out, b) := env_body_go name bc r in
          Ok (c, out, option_map (cons t) b)) (fun '(c, out, b) => cclean c /\ (forall l, b = Some l -> Forall P l) /\
      (out = [] \/ out = [(TError, tx "unmatched environment")]))).
      { intros b0. eapply total_bind; [apply IH|]. intros [[c out] b] (H1 & H2 & H3). apply total_ok.
        split; [auto|]. split; [|auto]. intros l E. destruct b as [b|]; [|discriminate]. injection E as <-. auto. }
      assert (cclean (mk_ictx (Some t) r)) as Hc by (apply (clean_front (SCons t r)); simpl; auto).
      destruct (fst t); try apply Hp. destruct c; try apply Hp.
      destruct bc; [|apply Hp]. destruct (negb (teqb (snd t) name)).
      + apply total_ok. repeat split; auto; try apply Hc; discriminate.
      + eapply total_bind; [apply next_clean; exact Hr|]. intros c H. apply total_ok.
        split; [auto|]. split; [|auto]. intros l E. injection E as <-. constructor.
  Qed.
  Lemma read_env_body_clean name c : cclean c ->
    total (read_env_body name c) (fun '(c, out, b) => cclean c /\ (forall l, b = Some l -> Forall P l) /\
      (out = [] \/ out = [(TError, tx "unmatched environment")])).
  Proof.
    intros H. unfold read_env_body. destruct (ic_peeked c); [apply env_body_clean; apply H|].
    apply total_ok. repeat split; auto; try apply H; discriminate.
  Qed.
  Lemma expand_go_clean args tokens : Forall (Forall P) args -> Forall P tokens -> forall b bc,
    total (expand_go args b bc tokens) (Forall P).
  Proof.
    intros Ha. induction 1 as [|e r He Hr IH]; intros b bc; [apply total_ok; constructor|].
    cbn [expand_go].
    assert (Hemit : forall b bc, total (let* rest := expand_go args b bc r in Ok (e :: rest)) (Forall P)).
    { intros b' bc'. eapply total_bind; [apply IH|]. intros l Hl. apply total_ok. auto. }
    assert (Harg : forall i, Forall P (match nth_error args i with Some a => a | None => [] end)).
    { intros i. destruct (nth_error args i) eqn:E; [|constructor]. apply nth_error_In in E.
      rewrite Forall_forall in Ha. auto. }
    pose proof (P_wf e He) as Hwf. unfold plausible in Hwf.
    destruct b.
    - destruct (fst e) eqn:E; try (destruct (negb (bc =? 0)%Z); [apply Hemit|destruct (is_trivia _); [apply IH|apply Hemit]]).
      + destruct b; try (destruct (negb (bc =? 0)%Z); [apply Hemit|destruct (is_trivia _); [apply IH|apply Hemit]]).
        destruct (0 <? bc)%Z; [apply Hemit|apply IH].
      + destruct b; try (destruct (negb (bc =? 0)%Z); [apply Hemit|destruct (is_trivia _); [apply IH|apply Hemit]]).
        destruct (bc - 1 =? 0)%Z; [apply IH|apply Hemit].
    - destruct (fst e) eqn:E; try apply Hemit.
      + destruct c; try apply Hemit. destruct Hwf as [name Hn]. rewrite Hn, strip_backslash.
        destruct (teqb name (tx "mitexrecurse")); [apply IH|apply Hemit].
      + destruct (n =? 0) eqn:En; [apply N.eqb_eq in En; lia|].
        eapply total_bind; [apply IH|]. intros l Hl. apply total_ok. apply Forall_app. auto.
  Qed.
  Lemma resume_with_clean ts c : Forall P ts -> cclean c -> total (resume_with ts c) cclean.
  Proof.
    intros Ht Hc. destruct (cclean_front c Hc) as (s & -> & Hs).
    rewrite resume_with_front by now apply clean_quiet. apply total_ok. apply clean_front. now apply clean_push.
  Qed.

  (** ** definitions, when no parameter marker and no environment delimiter occurs *)
  Section Def.
    Hypothesis P_nohash : forall t, P t -> fst t <> Hash.
    Hypothesis P_noenv : forall t, P t -> fst t <> CommandName BeginEnvironment /\ fst t <> CommandName EndEnvironment.
    Lemma process_clean def : Forall P def -> total (process_macro_def def) (Forall P).
    Proof.
      intros H. assert (process_hashes def = Ok (def, false)) as E.
      { induction H as [|t l Ht Hl IH]; [reflexivity|]. cbn [process_hashes]. destruct t as [k w].
        pose proof (P_nohash _ Ht) as Hh. simpl in Hh. destruct k; try congruence; rewrite IH; reflexivity. }
      unfold process_macro_def. rewrite E. simpl. now apply total_ok.
    Qed.
    Lemma match_body_clean c : cclean c ->
      total (match_body c) (fun '(c, b) => cclean c /\ (forall l, b = Some l -> Forall P l)).
    Proof.
      intros H. unfold match_body.
      assert (Ht : forall t, P t -> total (let* c := next_token c in Ok (c, Some [t : tok]))
        (fun '(c, b) => cclean c /\ (forall l, b = Some l -> Forall P l))).
      { intros t HP. eapply total_bind; [apply next_clean; now apply rest_clean|]. intros c2 H2.
        apply total_ok. split; auto. intros l E. injection E as <-. auto. }
      destruct (ic_peeked c) as [[k s]|] eqn:Ep; [|apply total_ok; split; auto; discriminate].
      pose proof (peeked_P _ _ H Ep) as HP.
      destruct k; try (apply Ht; exact HP). destruct b; try (apply Ht; exact HP).
      eapply total_bind; [apply next_clean; now apply rest_clean|]. intros c2 H2.
      eapply total_bind; [now apply read_until_balanced_clean|]. intros [d c3] [H3 H4].
      apply total_ok. split; auto. intros l E. injection E as <-. auto.
    Qed.
    Definition ok_od (r : option (option (list tok) * list tok)) : Prop :=
      forall o d, r = Some (o, d) -> Forall P d /\ (forall l, o = Some l -> Forall P l).
    Lemma match_opt_clean c : cclean c -> total (match_opt c) (fun '(c, r) => cclean c /\ ok_od r).
    Proof.
      intros H. unfold match_opt.
      assert (Hb : forall c (o : option (list tok)), cclean c -> (forall l, o = Some l -> Forall P l) ->
        total (let* (c, def) := match_body c in Ok (c, option_map (fun d => (o, d)) def))
        (fun '(c, r) => cclean c /\ ok_od r)).
      { intros c0 o H0 Ho. eapply total_bind; [now apply match_body_clean|]. intros [c2 d] [H2 H3].
        apply total_ok. split; auto. intros o' d' E. destruct d; [|discriminate]. injection E as <- <-. auto. }
      destruct (ic_peeked c) as [[k s]|]; [|apply Hb; [assumption|discriminate]].
      destruct k; try (apply Hb; [assumption|discriminate]). destruct b; try (apply Hb; [assumption|discriminate]).
      eapply total_bind; [apply next_clean; now apply rest_clean|]. intros c2 H2.
      eapply total_bind; [now apply read_until_balanced_clean|]. intros [o c3] [H3 H4].
      apply Hb; auto. intros l E. injection E as <-. auto.
    Qed.
    Definition ok_nod (r : option (N * option (list tok) * list tok)) : Prop :=
      forall n o d, r = Some (n, o, d) -> Forall P d /\ (forall l, o = Some l -> Forall P l).
    Lemma match_nargs_clean c : cclean c -> total (match_nargs c) (fun '(c, r) => cclean c /\ ok_nod r).
    Proof.
      intros H. unfold match_nargs.
      assert (Hb : total (let* (c, def) := match_body c in
           Ok (c, option_map (fun d => (0, @None (list tok), d)) def)) (fun '(c, r) => cclean c /\ ok_nod r)).
      { eapply total_bind; [now apply match_body_clean|]. intros [c2 d] [H2 H3]. apply total_ok. split; auto.
        intros n o' d' E. destruct d; [|discriminate]. injection E as <- <- <-. split; auto. discriminate. }
      destruct (ic_peeked c) as [[k s]|]; [|exact Hb].
      destruct k; try exact Hb. destruct b; try exact Hb.
      eapply total_bind; [apply find_clean; now apply rest_clean|]. intros c2 H2.
      eapply total_bind; [now apply close_arg_clean|]. intros [c3 n] [H3 _].
      assert (forall c, cclean c -> total (Ok (c, None)) (fun '(c, r) => cclean c /\ ok_nod r)) as Hno.
      { intros c0 H0. apply total_ok. split; auto. intros ? ? ? E. discriminate. }
      destruct n as [n|]; [|now apply Hno]. destruct (n <=? 9); [|now apply Hno].
      eapply total_bind; [now apply match_opt_clean|]. intros [c4 r] [H4 H5]. apply total_ok. split; auto.
      intros n' o d E. destruct r as [[o' d']|]; [|discriminate]. injection E as <- <- <-. now apply H5.
    Qed.
    Lemma read_macro_name_clean d c : cclean c -> total (read_macro_name d c) (fun '(c, _) => cclean c).
    Proof.
      intros H. unfold read_macro_name. eapply total_bind; [apply find_clean; now apply rest_clean|]. intros c2 H2.
      destruct (ic_peek c2) as [k|]; [|now apply total_ok]. destruct k; try now apply total_ok.
      destruct b; try now apply total_ok.
      eapply total_bind; [apply find_clean; now apply rest_clean|]. intros c3 H3.
      destruct (is_new_env d).
      - eapply total_bind; [now apply close_arg_clean|]. intros [c4 t] [H4 _]. now apply total_ok.
      - eapply total_bind; [now apply close_arg_clean|]. intros [c4 t] [H4 H5].
        destruct t as [[k s]|]; [|now apply total_ok]. destruct H5 as [H5|H5]; [discriminate|].
        destruct (ic_peeked c3) as [[k' s']|] eqn:Ep; [|discriminate].
        pose proof (peeked_P _ _ H3 Ep) as HP. pose proof (P_wf _ HP) as Hwf. pose proof (P_noenv _ HP) as [Hne1 Hne2].
        destruct k'; try discriminate. injection H5 as -> ->. unfold plausible in Hwf. simpl in Hwf, Hne1, Hne2.
        assert (exists name, s' = 92 :: name) as [name ->] by (destruct c0; try congruence; exact Hwf).
        rewrite strip_backslash. now apply total_ok.
    Qed.
    Definition ok_macro (m : macro) : Prop :=
      match m with
      | MDeclare _ => True
      | MCmd c => Forall P (cm_def c) /\ (forall o, cm_opt c = Some o -> Forall P o)
      | MEnv v => Forall P (em_begin v) /\ Forall P (em_end v) /\ (forall o, em_opt v = Some o -> Forall P o)
      end.
    Lemma identify_clean d c : cclean c -> total (identify_macro_update d c)
      (fun '(c, u) => cclean c /\ forall nm a m, u = Some (nm, a, m) -> ok_macro m).
    Proof.
      intros H. unfold identify_macro_update. eapply total_bind; [now apply read_macro_name_clean|].
      assert (forall c, cclean c -> total (Ok (c, None)) (fun '(c, u) => cclean c /\
         forall (nm : text) (a : update_action) m, u = Some (nm, a, m) -> ok_macro m)) as Hno.
      { intros c0 H0. apply total_ok. split; auto. intros ? ? ? E. discriminate. }
      intros [c2 name] H2. destruct name as [name|]; [|now apply Hno].
      eapply total_bind; [now apply match_nargs_clean|]. intros [c3 r] [H3 H3'].
      destruct r as [[[num opt] def]|]; [|now apply Hno].
      destruct (H3' _ _ _ eq_refl) as [Hdef Hopt]. destruct (is_new_env d).
      - destruct (ic_peek c3) as [k|]; [|now apply Hno].
        eapply total_bind.
        { instantiate (1 := fun '(c, r) => cclean c /\ forall l, r = Some l -> Forall P l).
          destruct (token_eqb k (TLeft Curly)); [|apply total_ok; split; auto; discriminate].
          eapply total_bind; [apply next_clean; now apply rest_clean|]. intros c4 H4.
          eapply total_bind; [now apply read_until_balanced_clean|]. intros [ed c5] [H5 H6]. apply total_ok.
          split; auto. intros l E. injection E as <-. auto. }
        intros [c4 ed] [H4 H5]. eapply total_bind; [now apply process_clean|]. intros def' Hdef'.
        destruct ed as [ed|]; [|now apply Hno].
        eapply total_bind; [apply process_clean; now apply H5|]. intros ed' Hed'. apply total_ok. split; auto.
        intros nm a m E. injection E as <- <- <-. simpl. auto.
      - eapply total_bind; [now apply process_clean|]. intros def' Hdef'. apply total_ok. split; auto.
        intros nm a m E. injection E as <- <- <-. simpl. auto.
    Qed.
  End Def.
  Definition ok_engine (e : engine) : Prop := forall name m, get_macro name e = Some m -> ok_macro m.
  Lemma stored_ok e : stored e P <-> ok_engine e.
  Proof.
    unfold stored, ok_engine, ok_macro. split; intros H name m E; specialize (H name m E); destruct m as [d|c|v]; simpl in *; auto.
    - apply Forall_app in H as [H1 H2]. split; [auto|]. intros o Eo. now rewrite Eo in H2.
    - apply Forall_app in H as [H1 H2]. apply Forall_app in H2 as [H2 H3]. split; [auto|]. split; [auto|].
      intros o Eo. now rewrite Eo in H3.
    - destruct H as [H1 H2]. apply Forall_app. split; auto. destruct (cm_opt c); auto.
    - destruct H as (H1 & H2 & H3). apply Forall_app. split; auto. apply Forall_app. split; auto.
      destruct (em_opt v); auto.
  Qed.

  Lemma step_clean e c t : cclean c -> ic_peeked c = Some t -> ok_engine e ->
    ((forall t, P t -> fst t <> Hash) /\
     (forall t, P t -> fst t <> CommandName BeginEnvironment /\ fst t <> CommandName EndEnvironment)) \/
    (forall t, P t -> ~ definer e t) ->
    total (step e c t) (fun '(e', c', out) => cclean c' /\ ok_engine e' /\
      ((forall t, P t -> ~ definer e t) -> en_macros e' = en_macros e /\ Forall (fun t => ~ expandable e t) out)).
  Proof.
    intros Hc Hpk He Hd. pose proof (peeked_P _ _ Hc Hpk) as HP. pose proof (P_wf _ HP) as Hwf.
    assert (Hnx : forall k w, match k with CommandName Generic | CommandName BeginEnvironment => False | _ => True end ->
       ~ expandable e (k, w)).
    { intros k w Hk [(nm & cc & E & _)|(nm & v & E & _)]; unfold cmd, begin_ in E; injection E as -> _; exact Hk. }
    assert (Hfw : ~ expandable e t -> total (let* c := next_token c in Ok (e, c, [t]))
       (fun '(e', c', out) => cclean c' /\ ok_engine e' /\
      ((forall t, P t -> ~ definer e t) -> en_macros e' = en_macros e /\ Forall (fun t => ~ expandable e t) out))).
    { intros Hne. eapply total_bind; [apply next_clean; now apply rest_clean|]. intros c2 H2. apply total_ok. auto. }
    assert (Hm : forall name b, (t = cmd name /\ b = false) \/ (t = begin_ name /\ b = true) ->
      total (trapped_by_macro e c t name b)
       (fun '(e', c', out) => cclean c' /\ ok_engine e' /\
      ((forall t, P t -> ~ definer e t) -> en_macros e' = en_macros e /\ Forall (fun t => ~ expandable e t) out))).
    { intros name b Htb. unfold trapped_by_macro.
      assert (Hforms : forall (x : text) cc, t = cmd x -> get_macro name e = Some (MCmd cc) -> b = false).
      { intros x cc Et Eg. destruct Htb as [[-> ->]|[-> ->]]; auto. discriminate. }
      destruct (get_macro name e) as [m|] eqn:Eg.
      2: { apply Hfw. intros [(nm & cc & E & Eg')|(nm & v & E & Eg')]; destruct Htb as [[-> _]|[-> _]];
           unfold cmd, begin_ in E; try discriminate; injection E as <-; congruence. }
      assert (Hother : match m with MCmd _ => b = true | MEnv _ => b = false | MDeclare _ => True end -> ~ expandable e t).
      { intros Hmb [(nm & cc & E & Eg')|(nm & v & E & Eg')]; destruct Htb as [[-> ->]|[-> ->]];
           unfold cmd, begin_ in E; try discriminate; injection E as <-; rewrite Eg in Eg'; injection Eg' as ->; discriminate. }
      destruct (negb (Bool.eqb b _)) eqn:Eb.
      { apply Hfw. apply Hother. destruct m, b; auto; discriminate. }
      pose proof (He name m Eg) as Hok.
      destruct m as [d|cm|env].
      - destruct d; try (apply Hfw; now apply Hother).
        destruct Hd as [[Hd1 Hd2]|Hd].
        + eapply total_bind; [now apply identify_clean|]. intros [c2 u] [H2 H3].
          assert (Hno : (forall t, P t -> ~ definer e t) -> False).
          { intros Hn. destruct b; [discriminate|]. destruct Htb as [[-> _]|[_ ?]]; [|discriminate].
            apply (Hn _ HP). unfold definer. eauto. }
          destruct u as [[[nm a] m]|]; [|apply total_ok; split; [auto|split; [auto|intros Hn; now apply Hno in Hn]]].
          destruct (apply_update e nm a m) as [e' out] eqn:Eu. apply total_ok. split; [auto|].
          split; [|intros Hn; now apply Hno in Hn].
          specialize (H3 _ _ _ eq_refl).
          assert (ok_engine (add_macro nm m e)) as Hadd.
          { intros x mx. rewrite get_add. destruct (teqb x nm); [intros E; injection E as <-; auto|apply He]. }
          unfold apply_update in Eu. destruct (get_macro nm e), a; injection Eu as <- <-; auto.
        + exfalso. destruct b; [discriminate|]. destruct Htb as [[-> _]|[_ ?]]; [|discriminate].
          apply (Hd _ HP). unfold definer. eauto.
      - destruct Hok as [Hdef Hopt]. eapply total_bind; [apply next_clean; now apply rest_clean|]. intros c2 H2.
        eapply total_bind; [now apply read_macro_args_clean|]. intros [[c3 out] args] (H3 & H4 & H5).
        assert (Forall (fun t => ~ expandable e t) out) as Hout.
        { destruct H5 as [-> | ->]; auto. }
        destruct args as [args|]; [|apply total_ok; auto].
        eapply total_bind; [apply expand_go_clean; auto|]. intros ts Hts.
        eapply total_bind; [now apply resume_with_clean|]. intros c4 H6. apply total_ok. auto.
      - destruct Hok as (Hdef & Hend & Hopt). eapply total_bind; [apply next_clean; now apply rest_clean|]. intros c2 H2.
        eapply total_bind; [now apply read_macro_args_clean|]. intros [[c3 out] args] (H3 & H4 & H5).
        assert (Forall (fun t => ~ expandable e t) out) as Hout.
        { destruct H5 as [-> | ->]; auto. }
        destruct args as [args|]; [|apply total_ok; auto].
        eapply total_bind; [now apply read_env_body_clean|]. intros [[c4 out2] body] (H6 & H7 & H8).
        assert (Forall (fun t => ~ expandable e t) (out ++ out2)) as Hout2.
        { apply Forall_app. split; auto. destruct H8 as [-> | ->]; auto. }
        destruct body as [body|]; [|apply total_ok; auto].
        eapply total_bind; [apply expand_go_clean; auto|]. intros b1 Hb1.
        eapply total_bind; [apply expand_go_clean; auto|]. intros b2 Hb2.
        eapply total_bind; [apply resume_with_clean; [|eassumption]|].
        + apply Forall_app. split; auto. apply Forall_app. split; auto.
        + intros c5 H9. apply total_ok. auto. }
    unfold step, plausible in *. destruct t as [k w]. cbn [fst snd] in *.
    destruct k; try (apply Hfw; now apply Hnx). destruct c0; try (apply Hfw; now apply Hnx).
    - destruct Hwf as [name ->]. rewrite split_backslash. apply Hm. left. auto.
    - apply Hm. right. auto.
    - unfold trapped_by_if. eapply total_bind; [apply next_clean; now apply rest_clean|]. intros c2 H2.
      destruct i; apply total_ok; (split; [auto|split; [exact He|intros _; split; [reflexivity|]]]); auto;
        constructor; auto; now apply Hnx.
    - unfold trapped_by_else. eapply total_bind; [apply next_clean; now apply rest_clean|]. intros c2 H2.
      assert (Hfi : Forall (fun t => ~ expandable e t) [fi_tok]) by (constructor; auto; now apply Hnx).
      assert (Hel : Forall (fun t => ~ expandable e t) [(CommandName CElse, w)]) by (constructor; auto; now apply Hnx).
      destruct (en_ifs e) as [|[st|] ifs]; [apply total_ok; auto| |apply total_ok; auto].
      destruct st; try (apply total_ok; auto);
        (eapply total_bind; [now apply skip_false_tokens_clean|]; intros c3 H3; apply total_ok; auto).
    - unfold trapped_by_endif. eapply total_bind; [apply next_clean; now apply rest_clean|]. intros c2 H2.
      assert (Hel : Forall (fun t => ~ expandable e t) [(CommandName CEndIf, w)]) by (constructor; auto; now apply Hnx).
      destruct (en_ifs e) as [|[st|] ifs]; [apply total_ok; auto| |apply total_ok; auto].
      destruct st; apply total_ok; auto.
  Qed.
End Inv.

(** ** No panic *)
Definition stays_clean (P : tok -> Prop) : Prop :=
  ((forall t, P t -> fst t <> Hash) /\
   (forall t, P t -> fst t <> CommandName BeginEnvironment /\ fst t <> CommandName EndEnvironment)).
Lemma run_no_panic (P : tok -> Prop) (Pw : forall s, P (Word, s)) (Pf : forall t, P t -> plausible t) n : forall e s,
  clean P s -> ok_engine P e -> stays_clean P \/ (forall t, P t -> ~ definer e t) ->
  (snd (run n e s) = Done \/ snd (run n e s) = Running) /\
  ((forall t, P t -> ~ definer e t) -> Forall (fun t => ~ expandable e t) (fst (run n e s))).
Proof.
  induction n as [|n IH]; intros e s Hs He Hd; destruct s as [|err|t r]; simpl in Hs; try contradiction; simpl; auto.
  assert (cclean P (mk_ictx (Some t) r)) as Hc by (apply (clean_front P (SCons t r)); exact Hs).
  pose proof (step_clean P Pw Pf e (mk_ictx (Some t) r) t Hc eq_refl He Hd) as (x & -> & Hx).
  destruct x as [[e' c'] out]. destruct Hx as (H1 & H2 & H3). simpl.
  assert (Hd' : stays_clean P \/ (forall t, P t -> ~ definer e' t)).
  { destruct Hd as [Hd|Hd]; [auto|]. right. intros t0 Ht0 (nm & d & E & Eg). destruct (H3 Hd) as [Em _].
    apply (Hd t0 Ht0). exists nm, d. split; auto. unfold get_macro in *. now rewrite <- Em. }
  destruct (IH e' (flat c') (proj1 H1) H2 Hd') as [IH1 IH2]. split; [exact IH1|].
  intros Hn. apply Forall_app. destruct (H3 Hn) as [Em Ho]. split; [exact Ho|].
  assert (forall x, get_macro x e' = get_macro x e) as Eg by (intros x; unfold get_macro; now rewrite Em).
  eapply Forall_impl; [|apply IH2].
  - intros t0 Ht0 Hx. apply Ht0. unfold expandable in *. now setoid_rewrite Eg.
  - intros t0 Ht0 Hx. apply (Hn t0 Ht0). unfold definer in *. now setoid_rewrite <- Eg.
Qed.
