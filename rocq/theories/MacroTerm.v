(** Termination of expansion for acyclic, linear macros (C17). *)
From Verif Require Export MacroInv.
Local Open Scope N_scope.

Local Ltac wl := cbv beta in *; lia.
Section Term.
  Variable W : tok -> nat.
  Hypothesis W_pos : forall t, (1 <= W t)%nat.
  Hypothesis W_word : forall s, W (Word, s) = Nat.max 1 (List.length s).
  Definition sumw (l : list tok) : nat := list_sum (map W l).
  Lemma sumw_app a b : sumw (a ++ b) = (sumw a + sumw b)%nat.
  Proof. unfold sumw. now rewrite map_app, list_sum_app. Qed.
  Lemma sumw_cons t l : sumw (t :: l) = (W t + sumw l)%nat.
  Proof. reflexivity. Qed.
  Fixpoint sw (s : lstream) : nat :=
    match s with SCons t r => (W t + sw r)%nat | _ => 0%nat end.
  Lemma sw_push l s : sw (push_front l s) = (sumw l + sw s)%nat.
  Proof. induction l as [|t l IH]; [reflexivity|]. rewrite push_cons, sumw_cons. simpl. rewrite IH. wl. Qed.
  Definition cw (c : ictx) : nat := sw (flat c).
  Definition argw (args : list (list tok)) : nat := list_sum (map sumw args).
  Lemma argw_app a b : argw (a ++ b) = (argw a + argw b)%nat.
  Proof. unfold argw. now rewrite map_app, list_sum_app. Qed.
  Lemma argw_cons t l : argw (t :: l) = (sumw t + argw l)%nat.
  Proof. reflexivity. Qed.

  Lemma cw_some t r : cw (mk_ictx (Some t) r) = (W t + sw r)%nat.
  Proof. reflexivity. Qed.
  Lemma cw_peeked c t : ic_peeked c = Some t -> cw c = (W t + sw (ic_rest c))%nat.
  Proof. intros E. unfold cw, flat. now rewrite E. Qed.
  Lemma next_w c : post (next_token c) (fun c' => cw c' = sw (ic_rest c)).
  Proof. unfold next_token. destruct (ic_rest c); simpl; auto. Qed.
  Lemma rest_w c : (sw (ic_rest c) <= cw c)%nat.
  Proof. destruct c as [[t|] r]; unfold cw, flat; cbn [ic_peeked ic_rest sw]; wl. Qed.
  Lemma next_w_le c : post (next_token c) (fun c' => (cw c' <= cw c)%nat).
  Proof. eapply post_impl; [apply next_w|]. intros c' E. pose proof (rest_w c). wl. Qed.
  Lemma find_w s : post (find_non_trivia s) (fun c => (cw c <= sw s)%nat).
  Proof.
    induction s as [|e|t r IH]; simpl; auto. destruct (is_trivia (fst t)); [|simpl; auto].
    eapply post_impl; [exact IH|]. intros c H. simpl. wl.
  Qed.
  Lemma eat_if_w k c : post (eat_if k c) (fun c' => (cw c' <= cw c)%nat).
  Proof.
    unfold eat_if. destruct (ic_peek c); [|simpl; wl]. destruct (token_eqb t k); [apply next_w_le|simpl; wl].
  Qed.
  Lemma take_balanced_w bk s : forall lv, post (take_balanced bk lv s) (fun '(ts, c) => (sumw ts + cw c <= sw s)%nat).
  Proof.
    induction s as [|e|t r IH]; intros lv; simpl; auto.
    destruct ((lv =? 0)%Z && token_eqb (fst t) (TRight bk)); [simpl; auto|].
    apply post_bind. eapply post_impl; [apply IH|]. intros [ts c] H. simpl. rewrite sumw_cons. wl.
  Qed.
  Lemma read_until_balanced_w bk c : post (read_until_balanced bk c) (fun '(ts, c') => (sumw ts + cw c' <= cw c)%nat).
  Proof.
    unfold read_until_balanced. apply post_bind. eapply post_impl; [apply take_balanced_w|]. intros [ts c'] H.
    apply post_bind. eapply post_impl; [apply eat_if_w|]. intros c2 H2. simpl. unfold cw in *. wl.
  Qed.
  Lemma skip_false_w s : forall n, post (skip_false n s) (fun c => (cw c <= sw s)%nat).
  Proof.
    induction s as [|e|t r IH]; intros n; simpl; auto.
    assert (H : forall n, post (skip_false n r) (fun c => (cw c <= W t + sw r)%nat)).
    { intros k. eapply post_impl; [apply IH|]. intros c Hc. simpl in Hc. wl. }
    destruct (fst t); try apply H. destruct c; try apply H; destruct n; try apply H; simpl; auto.
  Qed.
  Lemma skip_false_tokens_w c : post (skip_false_tokens c) (fun c' => (cw c' <= cw c)%nat).
  Proof. unfold skip_false_tokens. destruct (ic_peeked c); [apply skip_false_w|simpl; auto]. Qed.
  Lemma split_word_w n : forall s, (argw (fst (split_word n s)) + List.length (snd (split_word n s)) = List.length s)%nat.
  Proof.
    induction n as [|n IH]; intros [|c s]; simpl; auto. specialize (IH s). destruct (split_word n s) as [a r]. simpl in *.
    rewrite argw_cons. unfold sumw. simpl. rewrite W_word. simpl. wl.
  Qed.
  Lemma read_args_loop_w fuel : forall lft c, post (read_args_loop fuel lft c)
    (fun '(c', args, _) => (argw args + cw c' <= cw c)%nat).
  Proof.
    induction fuel as [|f IH]; intros lft c; [exact I|]. cbn [read_args_loop].
    apply post_bind. eapply post_impl; [apply find_w|]. intros c1 H1.
    assert (Hgo : forall l c0 args k, (argw args + cw c0 <= k)%nat -> (k <= cw c)%nat ->
      post (match l - 1 with
            | O => Ok (c0, args, O)
            | S n => let* (c, args', lft') := read_args_loop f (S n) c0 in Ok (c, args ++ args', lft')
            end%nat) (fun '(c', args, _) => (argw args + cw c' <= cw c)%nat)).
    { intros l c0 args k H Hk. destruct (l - 1)%nat as [|n]; [simpl; wl|].
      apply post_bind. eapply post_impl; [apply IH|]. intros [[c' args'] ?] H2. simpl. rewrite argw_app. wl. }
    change (sw (flat c)) with (cw c) in H1.
    assert (Htok : forall t, ic_peeked c1 = Some t -> post (let* c := next_token c1 in
      match lft - 1 with
          | O => Ok (c, [[t]], O)
          | S n => let* (c, args', lft') := read_args_loop f (S n) c in Ok (c, [[t]] ++ args', lft')
          end%nat) (fun '(c', args, _) => (argw args + cw c' <= cw c)%nat)).
    { intros t Ht. apply post_bind. eapply post_impl; [apply next_w|]. intros c2 H2.
      apply (Hgo lft c2 [[t]] (cw c1)); [|exact H1]. rewrite (cw_peeked _ _ Ht). unfold argw, sumw. simpl. wl. }
    destruct (ic_peeked c1) as [[k s]|] eqn:Ep; [|simpl; exact H1].
    destruct k; try (apply Htok; reflexivity).
    - destruct b; try (apply Htok; reflexivity).
      apply post_bind. eapply post_impl; [apply next_w_le|]. intros c2 H2.
      apply post_bind. eapply post_impl; [apply read_until_balanced_w|]. intros [arg c3] H3.
      apply (Hgo lft c3 [arg] (cw c1)); [|exact H1]. unfold argw. simpl. wl.
    - pose proof (split_word_w lft s) as Hsp. destruct (split_word lft s) as [chars t'] eqn:Es. simpl in Hsp.
      apply post_bind. eapply post_impl.
      { instantiate (1 := fun c2 => (argw chars + cw c2 <= cw c1)%nat). rewrite (cw_peeked _ _ Ep), W_word.
        destruct t' as [|c' t'].
        - eapply post_impl; [apply next_w|]. intros c2 E. cbn [List.length] in Hsp. wl.
        - cbn [post]. rewrite cw_some, W_word. cbn [List.length] in *. wl. }
      intros c2 H2. destruct (lft - List.length chars)%nat as [|n] eqn:El; [simpl; wl|].
      apply (Hgo (S n) c2 chars (cw c1)); auto.
  Qed.
  Lemma read_macro_args_w c num opt : post (read_macro_args c num opt) (fun '(c', _, args) =>
    (match args with Some a => argw a | None => 0 end + cw c' <=
       cw c + sumw (match opt with Some o => o | None => [] end))%nat).
  Proof.
    unfold read_macro_args. destruct (num =? 0); [simpl; unfold argw; simpl; wl|].
    apply post_bind. eapply post_impl; [apply read_args_loop_w|]. intros [[c2 args] lft] H.
    destruct lft as [|l]; [simpl; wl|]. destruct l, opt; simpl; try wl.
    rewrite argw_app. unfold argw at 2. simpl. wl.
  Qed.
  Lemma env_body_w name s : forall bc, post (env_body_go name bc s) (fun '(c, _, b) =>
    (match b with Some l => sumw l | None => 0 end + cw c <= sw s)%nat).
  Proof.
    induction s as [|e|t r IH]; intros bc; simpl; auto.
    assert (Hp : forall bc, post (let* (c, out, b) := env_body_go name bc r in Ok (c, out, option_map (cons t) b))
      (fun '(c, _, b) => (match b with Some l => sumw l | None => 0 end + cw c <= W t + sw r)%nat)).
    { intros b0. apply post_bind. eapply post_impl; [apply IH|]. intros [[c out] b] H. simpl.
      destruct b; simpl; [rewrite sumw_cons|]; wl. }
    destruct (fst t); try apply Hp. destruct c; try apply Hp. destruct bc; [|apply Hp].
    destruct (negb (teqb (snd t) name)); [simpl; rewrite cw_some; wl|].
    apply post_bind. eapply post_impl; [apply next_w|]. intros c H. simpl. unfold sumw. simpl in *. wl.
  Qed.
  Lemma read_env_body_w name c : post (read_env_body name c) (fun '(c', _, b) =>
    (match b with Some l => sumw l | None => 0 end + cw c' <= cw c)%nat).
  Proof. unfold read_env_body. destruct (ic_peeked c); [apply env_body_w|simpl; wl]. Qed.

  (** arguments used *)
  Definition used (args : list (list tok)) (l : list N) : nat :=
    list_sum (map (fun i => sumw (nth (N.to_nat (i - 1)) args [])) l).
  Lemma used_cons args i l : used args (i :: l) = (sumw (nth (N.to_nat (i - 1)) args []) + used args l)%nat.
  Proof. reflexivity. Qed.
  Lemma parameters_cons t l : parameters_of (t :: l) =
    match fst t with MacroArg i => i :: parameters_of l | _ => parameters_of l end.
  Proof. unfold parameters_of. cbn [flat_map]. destruct (fst t); reflexivity. Qed.
  Lemma expand_go_w args tokens : forall b bc, post (expand_go args b bc tokens)
    (fun out => (sumw out <= sumw tokens + used args (parameters_of tokens))%nat).
  Proof.
    induction tokens as [|e r IH]; intros b bc; [cbn [expand_go post]; unfold sumw; simpl; wl|]. cbn [expand_go].
    assert (Hu : (used args (parameters_of r) <= used args (parameters_of (e :: r)))%nat).
    { rewrite parameters_cons. destruct (fst e); try wl. rewrite used_cons. wl. }
    assert (Hemit : forall b bc, post (let* rest := expand_go args b bc r in Ok (e :: rest))
      (fun out => (sumw out <= sumw (e :: r) + used args (parameters_of (e :: r)))%nat)).
    { intros b' bc'. apply post_bind. eapply post_impl; [apply IH|]. intros l H. cbn [post]. rewrite !sumw_cons. wl. }
    assert (Hdrop : forall b bc, post (expand_go args b bc r)
      (fun out => (sumw out <= sumw (e :: r) + used args (parameters_of (e :: r)))%nat)).
    { intros b' bc'. eapply post_impl; [apply IH|]. intros l H. rewrite sumw_cons. wl. }
    destruct b.
    - destruct (fst e) eqn:E; try (destruct (negb (bc =? 0)%Z); [apply Hemit|destruct (is_trivia _); [apply Hdrop|apply Hemit]]).
      + destruct b; try (destruct (negb (bc =? 0)%Z); [apply Hemit|destruct (is_trivia _); [apply Hdrop|apply Hemit]]).
        destruct (0 <? bc)%Z; [apply Hemit|apply Hdrop].
      + destruct b; try (destruct (negb (bc =? 0)%Z); [apply Hemit|destruct (is_trivia _); [apply Hdrop|apply Hemit]]).
        destruct (bc - 1 =? 0)%Z; [apply Hdrop|apply Hemit].
    - destruct (fst e) eqn:E; try apply Hemit.
      + destruct c; try apply Hemit. destruct (strip_prefix (tx "\") (snd e)) as [name|]; [|exact I].
        destruct (teqb name (tx "mitexrecurse")); [apply Hdrop|apply Hemit].
      + destruct (n =? 0); [exact I|]. apply post_bind. eapply post_impl; [apply IH|]. intros l H. cbn [post].
        rewrite sumw_app, nth_error_nth_nil, sumw_cons. rewrite parameters_cons, E, used_cons. wl.
  Qed.
  Lemma used_nil l : used [] l = 0%nat.
  Proof. unfold used. induction l as [|i l IH]; simpl; [reflexivity|]. destruct (N.to_nat (i - 1)); exact IH. Qed.
  Definition others (l : list N) : list N := map N.pred (filter (fun i => negb (N.eqb i 1)) l).
  Lemma used_shift a args i : 0 < i -> i <> 1 ->
    nth (N.to_nat (i - 1)) (a :: args) [] = nth (N.to_nat (N.pred i - 1)) args ([] : list tok).
  Proof. intros H1 H2. replace (N.to_nat (i - 1)) with (S (N.to_nat (N.pred i - 1))) by wl. reflexivity. Qed.
  Lemma used_others a args l : ~ In 1 l -> Forall (fun i => 0 < i) l -> used (a :: args) l = used args (others l).
  Proof.
    intros Hi HF. induction HF as [|j l Hj HF IH]; [reflexivity|].
    assert (j <> 1) as Hj1 by (intros ->; apply Hi; now left).
    unfold others in *. cbn [filter]. rewrite (proj2 (N.eqb_neq _ _) Hj1). cbn [negb map].
    rewrite !used_cons, used_shift by assumption. rewrite IH; [reflexivity|]. intros H; apply Hi; now right.
  Qed.
  Lemma used_remove (a : list tok) args l : NoDup l -> Forall (fun i => 0 < i) l ->
    (used (a :: args) l <= sumw a + used args (others l))%nat.
  Proof.
    intros Hn HF. induction Hn as [|i l Hi Hn IH]; [unfold used; simpl; wl|].
    inversion HF as [|? ? Hp HF']; subst. specialize (IH HF').
    destruct (N.eq_dec i 1) as [->|E].
    - rewrite used_cons, (used_others a args l) by assumption. unfold others. simpl. wl.
    - unfold others in *. cbn [filter]. rewrite (proj2 (N.eqb_neq _ _) E). cbn [negb map].
      rewrite !used_cons, used_shift by assumption. wl.
  Qed.
  Lemma used_linear args : forall l, NoDup l -> Forall (fun i => 0 < i) l -> (used args l <= argw args)%nat.
  Proof.
    induction args as [|a args IH]; intros l Hn HF; [rewrite used_nil; wl|].
    pose proof (used_remove a args l Hn HF) as H. rewrite argw_cons.
    assert (NoDup (others l)) as Hn2.
    { unfold others. pose proof (NoDup_filter (fun i => negb (N.eqb i 1%N)) Hn) as Hf.
      assert (Forall (fun i => 0 < i) (filter (fun i => negb (N.eqb i 1%N)) l)) as HF2.
      { rewrite Forall_forall in *. intros x Hx. apply filter_In in Hx. now apply HF. }
      clear -Hf HF2. remember (filter (fun i => negb (N.eqb i 1%N)) l) as l' eqn:El. clear El l.
      induction Hf as [|i l Hi Hn IH]; simpl; [constructor|].
      inversion HF2 as [|? ? Hp HF']; subst. constructor; auto. rewrite in_map_iff. intros (j & Ej & Hj).
      rewrite Forall_forall in HF'. specialize (HF' j Hj). assert (i = j) by wl. congruence. }
    assert (Forall (fun i => 0 < i) (others l)) as HF2.
    { unfold others. rewrite Forall_forall in *. intros x Hx. apply in_map_iff in Hx as (j & <- & Hj). apply filter_In in Hj as [Hj Hj1].
      specialize (HF j Hj). apply negb_true_iff, N.eqb_neq in Hj1. wl. }
    specialize (IH _ Hn2 HF2). wl.
  Qed.

  (** ** The step *)
  Variable e : engine.
  Hypothesis W_called : forall t m, called e t = Some m -> (1 + sumw (code m) <= W t)%nat.
  Hypothesis H_linear : linear e.
  Hypothesis H_plausible : stored e plausible.

  Lemma parameters_pos l : Forall plausible l -> Forall (fun i => 0 < i) (parameters_of l).
  Proof.
    induction 1 as [|t l Ht Hl IH]; [constructor|]. unfold parameters_of. cbn [flat_map].
    apply Forall_app. split; [|exact IH]. unfold plausible in Ht. destruct (fst t); auto.
  Qed.
  Lemma parameters_app a b : parameters_of (a ++ b) = parameters_of a ++ parameters_of b.
  Proof. apply flat_map_app. Qed.
  Lemma used_app args a b : used args (a ++ b) = (used args a + used args b)%nat.
  Proof. unfold used. now rewrite map_app, list_sum_app. Qed.
  Lemma resume_with_w ts c : cinv c -> post (resume_with ts c) (fun c' => cw c' = (sumw ts + cw c)%nat).
  Proof.
    intros Hc. unfold resume_with, extend_inner. destruct c as [[t|] r]; simpl.
    - destruct ts as [|t' ts]; simpl; [reflexivity|]. rewrite cw_some, sw_push. simpl.
      rewrite sumw_cons. rewrite cw_some. wl.
    - unfold cinv in Hc. simpl in Hc. rewrite Hc by reflexivity. 
      eapply post_impl; [apply next_w|]. intros c' ->. simpl. now rewrite sw_push.
  Qed.

  Lemma step_w e0 c t : en_macros e0 = en_macros e -> cinv c -> ic_peeked c = Some t -> plausible t -> ~ definer e t ->
    post (step e0 c t) (fun '(e', c', _) => (cw c' < cw c)%nat).
  Proof.
    intros Em Hc Hp Hpl Hnd.
    assert (forall x, get_macro x e0 = get_macro x e) as Eg by (intros x; unfold get_macro; now rewrite Em).
    pose proof (W_pos t) as Wt. pose proof (cw_peeked _ _ Hp) as Ecw.
    assert (Hfw : post (let* c := next_token c in Ok (e0, c, [t])) (fun '(_, c', _) => (cw c' < cw c)%nat)).
    { apply post_bind. eapply post_impl; [apply next_w|]. intros c2 H2. simpl. wl. }
    assert (Hm : forall name b, (t = cmd name /\ b = false) \/ (t = begin_ name /\ b = true) ->
       post (trapped_by_macro e0 c t name b) (fun '(_, c', _) => (cw c' < cw c)%nat)).
    { intros name b Htb. unfold trapped_by_macro. rewrite Eg. destruct (get_macro name e) as [m|] eqn:Egm; [|exact Hfw].
      destruct (negb (Bool.eqb b _)) eqn:Eb; [exact Hfw|].
      assert (Hst : Forall plausible (code m)) by (eapply H_plausible; eauto).
      destruct m as [d|cm|env].
      - destruct d; try exact Hfw. exfalso. destruct b; [discriminate|]. destruct Htb as [[-> _]|[_ ?]]; [|discriminate].
        apply Hnd. unfold definer. eauto.
      - assert (called e t = Some (MCmd cm)) as Hcall.
        { destruct b; [discriminate|]. destruct Htb as [[-> _]|[_ ?]]; [|discriminate]. simpl. now rewrite Egm. }
        pose proof (W_called _ _ Hcall) as HW. pose proof (H_linear _ _ Hcall) as HL. simpl in HW, HL, Hst.
        apply Forall_app in Hst as [Hst _]. rewrite sumw_app in HW.
        apply post_bind. eapply post_impl.
        { instantiate (1 := fun c2 => cw c2 = sw (ic_rest c) /\ cinv c2). pose proof (next_w c). pose proof (next_token_inv c).
          destruct (next_token c); simpl in *; auto. }
        intros c2 [H2 H2i].
        apply post_bind. eapply post_impl.
        { instantiate (1 := fun '(c3, _, args) => cinv c3 /\ (match args with Some a => argw a | None => 0 end + cw c3 <=
             cw c2 + sumw (match cm_opt cm with Some o => o | None => [] end))%nat).
          pose proof (read_macro_args_w c2 (cm_num cm) (cm_opt cm)) as Ha.
          pose proof (read_macro_args_inv c2 (cm_num cm) (cm_opt cm) H2i) as Hb.
          destruct (read_macro_args c2 (cm_num cm) (cm_opt cm)) as [[[? ?] ?]|?|]; simpl in *; tauto. }
        intros [[c3 out] args] [H3i H3].
        destruct args as [args|]; [|simpl; wl].
        apply post_bind. eapply post_impl; [apply expand_go_w|]. intros ts Hts. simpl in Hts.
        apply post_bind. eapply post_impl; [now apply resume_with_w|]. intros c4 H4. simpl.
        pose proof (used_linear args (parameters_of (cm_def cm)) HL (parameters_pos _ Hst)). wl.
      - assert (called e t = Some (MEnv env)) as Hcall.
        { destruct b; [|discriminate]. destruct Htb as [[_ ?]|[-> _]]; [discriminate|]. simpl. now rewrite Egm. }
        pose proof (W_called _ _ Hcall) as HW. pose proof (H_linear _ _ Hcall) as HL. simpl in HW, HL, Hst.
        rewrite app_assoc in Hst. apply Forall_app in Hst as [Hst _]. rewrite !sumw_app in HW.
        apply post_bind. eapply post_impl.
        { instantiate (1 := fun c2 => cw c2 = sw (ic_rest c) /\ cinv c2). pose proof (next_w c). pose proof (next_token_inv c).
          destruct (next_token c); simpl in *; auto. }
        intros c2 [H2 H2i].
        apply post_bind. eapply post_impl.
        { instantiate (1 := fun '(c3, _, args) => cinv c3 /\ (match args with Some a => argw a | None => 0 end + cw c3 <=
             cw c2 + sumw (match em_opt env with Some o => o | None => [] end))%nat).
          pose proof (read_macro_args_w c2 (em_num env) (em_opt env)) as Ha.
          pose proof (read_macro_args_inv c2 (em_num env) (em_opt env) H2i) as Hb.
          destruct (read_macro_args c2 (em_num env) (em_opt env)) as [[[? ?] ?]|?|]; simpl in *; tauto. }
        intros [[c3 out] args] [H3i H3].
        destruct args as [args|]; [|simpl; wl].
        apply post_bind. eapply post_impl.
        { instantiate (1 := fun '(c4, _, b) => cinv c4 /\ (match b with Some l => sumw l | None => 0 end + cw c4 <= cw c3)%nat).
          pose proof (read_env_body_w (em_name env) c3). pose proof (read_env_body_inv (em_name env) c3 H3i).
          destruct (read_env_body (em_name env) c3) as [[[? ?] ?]|?|]; simpl in *; tauto. }
        intros [[c4 out2] body] [H4i H4]. destruct body as [body|]; [|simpl; wl].
        apply post_bind. eapply post_impl; [apply expand_go_w|]. intros b1 Hb1. simpl in Hb1.
        apply post_bind. eapply post_impl; [apply expand_go_w|]. intros b2 Hb2. simpl in Hb2.
        apply post_bind. eapply post_impl; [now apply resume_with_w|]. intros c5 H5. simpl.
        rewrite !sumw_app in H5.
        pose proof (used_linear args (parameters_of (em_begin env ++ em_end env)) HL (parameters_pos _ Hst)) as Hu.
        rewrite parameters_app, used_app in Hu. wl. }
    unfold step. destruct t as [k w]. cbn [fst snd] in *.
    destruct k; try exact Hfw. destruct c0; try exact Hfw.
    - unfold plausible in Hpl. simpl in Hpl. destruct Hpl as [name ->]. rewrite split_backslash. apply Hm. left. auto.
    - apply Hm. right. auto.
    - unfold trapped_by_if. apply post_bind. eapply post_impl; [apply next_w|]. intros c2 H2. destruct i; simpl; wl.
    - unfold trapped_by_else. apply post_bind. eapply post_impl; [apply next_w|]. intros c2 H2.
      destruct (en_ifs e0) as [|[st|] ifs]; simpl; try wl.
      destruct st; simpl; try wl; (apply post_bind; eapply post_impl; [apply skip_false_tokens_w|]; intros c3 H3; simpl; wl).
    - unfold trapped_by_endif. apply post_bind. eapply post_impl; [apply next_w|]. intros c2 H2.
      destruct (en_ifs e0) as [|[st|] ifs]; simpl; try wl. destruct st; simpl; wl.
  Qed.
End Term.

(** ** The weight of a token from the rank *)
Section Rank.
  Variable e : engine.
  Variable rank : tok -> nat.
  Hypothesis H_rank : forall t m u, called e t = Some m -> In u (code m) -> called e u <> None -> (rank u < rank t)%nat.
  Definition base (t : tok) : nat :=
    match t with (Word, s) => Nat.max 1 (List.length s) | _ => 1%nat end.
  Fixpoint Wn (n : nat) (t : tok) : nat :=
    match n with
    | O => base t
    | S n => match called e t with
             | None => base t
             | Some m => S (list_sum (map (Wn n) (code m)))
             end
    end.
  Lemma Wn_base n t : called e t = None -> Wn n t = base t.
  Proof. intros H. destruct n; simpl; [reflexivity|]. now rewrite H. Qed.
  Lemma Wn_stable n : forall m t, (rank t < n)%nat -> (rank t < m)%nat -> Wn n t = Wn m t.
  Proof.
    induction n as [|n IH]; intros m t Hn Hm; [lia|]. destruct m as [|m]; [lia|]. simpl.
    destruct (called e t) as [mc|] eqn:E; [|reflexivity]. do 2 f_equal. apply map_ext_in. intros u Hu.
    destruct (called e u) eqn:Eu.
    - pose proof (H_rank _ _ _ E Hu ltac:(congruence)). apply IH; lia.
    - now rewrite !Wn_base.
  Qed.
  Definition weight (t : tok) : nat := Wn (S (rank t)) t.
  Lemma weight_pos t : (1 <= weight t)%nat.
  Proof.
    unfold weight. simpl. destruct (called e t); [lia|]. unfold base. destruct t as [k s]. destruct k; lia.
  Qed.
  Lemma weight_word s : weight (Word, s) = Nat.max 1 (List.length s).
  Proof. reflexivity. Qed.
  Lemma weight_called t m : called e t = Some m -> (1 + sumw weight (code m) <= weight t)%nat.
  Proof.
    intros E. unfold weight at 2. simpl. rewrite E. unfold sumw.
    replace (map weight (code m)) with (map (Wn (rank t)) (code m)); [lia|].
    apply map_ext_in. intros u Hu. unfold weight. destruct (called e u) eqn:Eu.
    - pose proof (H_rank _ _ _ E Hu ltac:(congruence)). apply Wn_stable; lia.
    - now rewrite !Wn_base.
  Qed.
End Rank.

Definition tame (e : engine) (t : tok) : Prop := plausible t /\ ~ definer e t.
Lemma tame_word e s : tame e (Word, s).
Proof. split; [exact I|]. intros (nm & d & E & _). discriminate. Qed.

Lemma run_terminates e0 : acyclic e0 -> linear e0 -> stored e0 (tame e0) ->
  exists W : tok -> nat, forall n e s, en_macros e = en_macros e0 -> clean (tame e0) s -> (sw W s <= n)%nat ->
    snd (run n e s) = Done.
Proof.
  intros [rank Hr] Hl Hst. exists (weight e0 rank).
  assert (Hpl : stored e0 plausible).
  { intros name m E. eapply Forall_impl; [|eapply Hst; eauto]. intros t Ht. apply Ht. }
  induction n as [n IH] using lt_wf_ind. intros e s Em Hs Hn.
  destruct s as [|err|t r]; [destruct n; reflexivity|contradiction|].
  pose proof (weight_pos e0 rank t) as Hw. destruct n as [|n]; [simpl in Hn; lia|]. cbn [run].
  assert (Eg : forall x, get_macro x e = get_macro x e0) by (intros x; unfold get_macro; now rewrite Em).
  assert (Hde : forall t, tame e0 t -> ~ definer e t).
  { intros t0 [_ H0] Hx. apply H0. unfold definer in *. now setoid_rewrite <- Eg. }
  assert (cclean (tame e0) (mk_ictx (Some t) r)) as Hc by (apply (clean_front (tame e0) (SCons t r)); exact Hs).
  destruct (step_clean (tame e0) (tame_word e0) (fun t H => proj1 H) e (mk_ictx (Some t) r) t Hc eq_refl)
    as (x & Ex & Hx).
  { apply stored_ok. intros name m E. rewrite Eg in E. eapply Hst; eauto. }
  { right. exact Hde. }
  rewrite Ex. destruct x as [[e' c'] out]. destruct Hx as (H1 & H2 & H3). destruct (H3 Hde) as [Em' _].
  cbn [prepend snd]. apply (IH n); [lia|congruence|apply H1|].
  simpl in Hs. destruct Hs as [[Ht1 Ht2] _].
  pose proof (step_w (weight e0 rank) (weight_pos e0 rank) (weight_word e0 rank) e0
     (weight_called e0 rank Hr) Hl Hpl e (mk_ictx (Some t) r) t Em (cinv_some _ _) eq_refl Ht1 Ht2) as Hs.
  rewrite Ex in Hs. simpl in Hs. unfold cw, flat in Hs. simpl in Hs. simpl in Hn. unfold flat. lia.
Qed.
