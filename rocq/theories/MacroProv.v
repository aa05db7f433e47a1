(** What holds of every token of a text and is not lost by cutting words,
    holds of every token delivered by the expander (used by C22, C23, C27).
    Unlike MacroInv.v this covers definitions with parameters and says nothing
    about panics. *)
From Verif Require Export MacroDefs.
Local Open Scope N_scope.

Definition part {A} (r : res A) (Q : A -> Prop) : Prop := match r with Ok a => Q a | _ => True end.
Lemma part_ok {A} (a : A) (Q : A -> Prop) : Q a -> part (Ok a) Q.
Proof. exact (fun H => H). Qed.
Lemma part_bind {A B} (x : res A) (f : A -> res B) P Q :
  part x P -> (forall a, P a -> part (f a) Q) -> part (bind x f) Q.
Proof. destruct x; simpl; auto. Qed.

Section Prov.
  Variable P : tok -> Prop.
  Hypothesis P_word : forall w c s, P (Word, w) -> incl (c :: s) w -> P (Word, c :: s).
  Hypothesis P_marg : forall h n, P (Hash, h) -> P (MacroArg n, h).
  Hypothesis P_err : forall s, P (TError, s).
  Hypothesis P_fi : P (CommandName CEndIf, tx "\fi").

  Fixpoint pclean (s : lstream) : Prop :=
    match s with SNil => True | SPanic _ => True | SCons t r => P t /\ pclean r end.
  Definition pcc (c : ictx) : Prop := pclean (ic_rest c) /\ forall t, ic_peeked c = Some t -> P t.
  Lemma pcc_flat c : pcc c -> pclean (flat c).
  Proof. intros [H1 H2]. unfold flat. destruct (ic_peeked c); simpl; auto. Qed.
  Lemma pcc_some t r : P t -> pclean r -> pcc (mk_ictx (Some t) r).
  Proof. intros H1 H2. split; [exact H2|]. simpl. intros t' [= <-]. exact H1. Qed.
  Lemma pcc_none r : pclean r -> pcc (mk_ictx None r).
  Proof. intros H. split; [exact H|]. simpl. discriminate. Qed.
  Lemma pclean_push l s : Forall P l -> pclean s -> pclean (push_front l s).
  Proof. induction 1; simpl; auto. Qed.

  Lemma next_p c : pcc c -> part (next_token c) pcc.
  Proof.
    intros [H _]. unfold next_token. destruct (ic_rest c) as [|e|t r]; simpl in *; auto.
    - now apply pcc_none.
    - now apply pcc_some.
  Qed.
  Lemma find_p s : pclean s -> part (find_non_trivia s) pcc.
  Proof.
    induction s as [|e|t r IH]; simpl; auto; [intros _; now apply pcc_none|].
    intros [Ht Hr]. destruct (is_trivia (fst t)); [auto|]. now apply pcc_some.
  Qed.
  Lemma nnt_p c : pcc c -> part (next_not_trivia c) pcc.
  Proof. intros [H _]. now apply find_p. Qed.
  Lemma eat_if_p k c : pcc c -> part (eat_if k c) pcc.
  Proof.
    intros H. unfold eat_if. destruct (ic_peek c); [|exact H]. destruct (token_eqb t k); [now apply next_p|exact H].
  Qed.
  Lemma take_balanced_p bk s : pclean s -> forall lv,
    part (take_balanced bk lv s) (fun '(ts, c) => Forall P ts /\ pcc c).
  Proof.
    induction s as [|e|t r IH]; cbn [take_balanced]; [intros _ lv; split; [constructor|now apply pcc_none]|intros; exact I|].
    intros [Ht Hr] lv. destruct (_ && _); [split; [constructor|now apply pcc_some]|].
    cbv zeta. eapply part_bind; [now apply IH|]. intros [ts c] [H1 H2]. split; auto.
  Qed.
  Lemma read_until_balanced_p bk c : pcc c -> part (read_until_balanced bk c) (fun '(ts, c) => Forall P ts /\ pcc c).
  Proof.
    intros H. unfold read_until_balanced. eapply part_bind; [apply take_balanced_p; now apply pcc_flat|].
    intros [ts c'] [H1 H2]. eapply part_bind; [now apply eat_if_p|]. intros c2 H3. split; auto.
  Qed.
  Lemma close_arg_p {A} bk (r : option A) c : pcc c -> part (close_arg bk r c) (fun '(c, _) => pcc c).
  Proof.
    intros H. unfold close_arg. eapply part_bind; [now apply nnt_p|]. intros c' H'. destruct (ic_peek c'); [|exact H'].
    eapply part_bind; [now apply eat_if_p|]. intros c2 H2. exact H2.
  Qed.
  Lemma skip_false_p s : pclean s -> forall n, part (skip_false n s) pcc.
  Proof.
    induction s as [|e|t r IH]; cbn [skip_false]; [intros _ n; now apply pcc_none|intros; exact I|].
    intros [Ht Hr] n. assert (Hc : pcc (mk_ictx (Some t) r)) by now apply pcc_some.
    destruct (fst t); try now apply IH. destruct c; try (now apply IH).
    all: destruct n; [exact Hc|now apply IH].
  Qed.
  Lemma skip_false_tokens_p c : pcc c -> part (skip_false_tokens c) pcc.
  Proof.
    intros H. unfold skip_false_tokens. destruct (ic_peeked c); [|exact H]. apply skip_false_p. now apply pcc_flat.
  Qed.
  Lemma split_word_p w n : P (Word, w) -> forall s, incl s w -> Forall (Forall P) (fst (split_word n s)) /\ incl (snd (split_word n s)) w.
  Proof.
    intros Hw. induction n as [|n IH]; intros [|c s] Hs; simpl; auto.
    specialize (IH s (fun x Hx => Hs x (or_intror Hx))). destruct (split_word n s). simpl in *. destruct IH as [IH1 IH2]. split; [|exact IH2].
    constructor; [|exact IH1]. constructor; [|constructor]. apply (P_word w); [exact Hw|]. intros x [<- |[]]. apply Hs. now left.
  Qed.
  Lemma read_args_loop_p fuel : forall lft c, pcc c ->
    part (read_args_loop fuel lft c) (fun '(c, args, _) => pcc c /\ Forall (Forall P) args).
  Proof.
    induction fuel as [|f IH]; intros lft c Hc; [exact I|]. cbn [read_args_loop].
    eapply part_bind; [apply find_p; now apply pcc_flat|]. intros c1 H1.
    assert (Hgo : forall l c args, pcc c -> Forall (Forall P) args ->
      part (match l - 1 with
            | O => Ok (c, args, O)
            | S n => let* (c, args', lft') := read_args_loop f (S n) c in Ok (c, args ++ args', lft')
            end%nat) (fun '(c, args, _) => pcc c /\ Forall (Forall P) args)).
    { intros l c0 args H Ha. destruct (l - 1)%nat as [|n] eqn:E; [split; auto|].
      eapply part_bind; [apply IH; auto|]. intros [[? ?] ?] [H2 H3]. split; auto. now apply Forall_app. }
    assert (Htok : forall t, P t -> part (let* c := next_token c1 in
      match lft - 1 with
          | O => Ok (c, [[t]], O)
          | S n => let* (c, args', lft') := read_args_loop f (S n) c in Ok (c, [[t]] ++ args', lft')
          end%nat) (fun '(c, args, _) => pcc c /\ Forall (Forall P) args)).
    { intros t Ht. eapply part_bind; [now apply next_p|]. intros c2 H2. apply (Hgo lft c2 [[t]]); auto. }
    destruct (ic_peeked c1) as [[k s]|] eqn:Ep; [|split; auto].
    pose proof (proj2 H1 _ Ep) as HP.
    destruct k; try (apply Htok; exact HP).
    - destruct b; try (apply Htok; exact HP).
      eapply part_bind; [now apply next_p|]. intros c2 H2.
      eapply part_bind; [now apply read_until_balanced_p|]. intros [arg c3] [H3 H4]. apply (Hgo lft c3 [arg]); auto.
    - destruct (split_word_p s lft HP s (incl_refl _)) as [Hsp Hin].
      destruct (split_word lft s) as [chars t'] eqn:Es. simpl in Hsp, Hin.
      eapply part_bind.
      { instantiate (1 := pcc). destruct t' as [|c' t']; [now apply next_p|]. apply pcc_some; [now apply (P_word s)|apply H1]. }
      intros c2 H2. destruct (lft - List.length chars)%nat as [|n] eqn:El; [split; auto|].
      specialize (Hgo (S n) c2 chars H2 Hsp). simpl in Hgo. rewrite Nat.sub_0_r in Hgo.
      simpl. rewrite Nat.sub_0_r. exact Hgo.
  Qed.
  Lemma read_macro_args_p c num opt : pcc c -> (forall o, opt = Some o -> Forall P o) ->
    part (read_macro_args c num opt) (fun '(c, out, args) => pcc c /\ Forall P out /\
      (forall a, args = Some a -> Forall (Forall P) a)).
  Proof.
    intros H Ho. unfold read_macro_args. destruct (num =? 0).
    { split; [exact H|]. split; [constructor|]. intros a [= <-]. constructor. }
    cbv zeta. eapply part_bind; [now apply read_args_loop_p|]. intros [[c2 args] lft] [H2 H3].
    destruct lft as [|l]; [split; [exact H2|]; split; [constructor|]; intros a [= <-]; exact H3|].
    destruct l, opt; (split; [exact H2|]); (split; [try constructor; auto|]); try discriminate.
    intros a [= <-]. apply Forall_app. split; auto.
  Qed.
  Lemma env_body_p name s : pclean s -> forall bc,
    part (env_body_go name bc s) (fun '(c, out, b) => pcc c /\ Forall P out /\ (forall l, b = Some l -> Forall P l)).
  Proof.
    induction s as [|e|t r IH]; cbn [env_body_go]; [|intros; exact I|].
    - intros _ bc. split; [now apply pcc_none|]. split; [constructor|discriminate].
    - intros [Ht Hr] bc. specialize (IH Hr). cbv zeta.
      assert (Hp : forall bc, part (let* (c, out, b) := env_body_go name bc r in
          Ok (c, out, option_map (cons t) b)) (fun '(c, out, b) => pcc c /\ Forall P out /\ (forall l, b = Some l -> Forall P l))).
      { intros b0. eapply part_bind; [apply IH|]. intros [[c out] b] (H1 & H2 & H3).
        split; [auto|]. split; [auto|]. intros l E. destruct b as [b|]; [|discriminate]. injection E as <-. auto. }
      assert (Hc : pcc (mk_ictx (Some t) r)) by now apply pcc_some.
      destruct (fst t); try apply Hp. destruct c; try apply Hp. destruct bc; [|apply Hp].
      destruct (negb (teqb (snd t) name)).
      + split; [exact Hc|]. split; [auto|discriminate].
      + eapply part_bind; [now apply next_p|]. intros c H. split; [exact H|]. split; [constructor|]. intros l [= <-]. constructor.
  Qed.
  Lemma read_env_body_p name c : pcc c ->
    part (read_env_body name c) (fun '(c, out, b) => pcc c /\ Forall P out /\ (forall l, b = Some l -> Forall P l)).
  Proof.
    intros H. unfold read_env_body. destruct (ic_peeked c); [apply env_body_p; now apply pcc_flat|].
    split; [exact H|]. split; [constructor|discriminate].
  Qed.
  Lemma expand_go_p args tokens : Forall (Forall P) args -> Forall P tokens -> forall b bc,
    part (expand_go args b bc tokens) (Forall P).
  Proof.
    intros Ha. induction 1 as [|e r He Hr IH]; intros b bc; [constructor|].
    cbn [expand_go]. cbv zeta.
    assert (Hemit : forall b bc, part (let* rest := expand_go args b bc r in Ok (e :: rest)) (Forall P)).
    { intros b' bc'. eapply part_bind; [apply IH|]. intros l Hl. constructor; auto. }
    assert (Harg : forall i, Forall P (match nth_error args i with Some a => a | None => [] end)).
    { intros i. destruct (nth_error args i) eqn:E; [|constructor]. apply nth_error_In in E.
      rewrite Forall_forall in Ha. auto. }
    destruct b.
    - destruct (fst e) eqn:E; try (destruct (negb (bc =? 0)%Z); [apply Hemit|destruct (is_trivia _); [apply IH|apply Hemit]]).
      + destruct b; try (destruct (negb (bc =? 0)%Z); [apply Hemit|destruct (is_trivia _); [apply IH|apply Hemit]]).
        destruct (0 <? bc)%Z; [apply Hemit|apply IH].
      + destruct b; try (destruct (negb (bc =? 0)%Z); [apply Hemit|destruct (is_trivia _); [apply IH|apply Hemit]]).
        destruct (bc - 1 =? 0)%Z; [apply IH|apply Hemit].
    - destruct (fst e) eqn:E; try apply Hemit.
      + destruct c; try apply Hemit. destruct (strip_prefix _ _) as [name|]; [|exact I].
        destruct (teqb name (tx "mitexrecurse")); [apply IH|apply Hemit].
      + destruct (n =? 0); [exact I|].
        eapply part_bind; [apply IH|]. intros l Hl. apply Forall_app. auto.
  Qed.
  Lemma extend_p ts c : Forall P ts -> pcc c -> pcc (extend_inner ts c).
  Proof.
    intros Ht H. unfold extend_inner. destruct (ic_peeked c) as [t|] eqn:E.
    - pose proof (pclean_push ts (SCons t (ic_rest c)) Ht (conj (proj2 H _ E) (proj1 H))) as Hp.
      destruct (push_front _ _) as [|s|t' r]; [exact H|exact H|]. destruct Hp. now apply pcc_some.
    - apply pcc_none. apply pclean_push; [exact Ht|apply H].
  Qed.
  Lemma resume_with_p ts c : Forall P ts -> pcc c -> part (resume_with ts c) pcc.
  Proof.
    intros Ht H. unfold resume_with. cbv zeta. pose proof (extend_p ts c Ht H) as He.
    repeat (destruct (ic_peeked _) eqn:?; try (now apply next_p); try exact He).
  Qed.
  Lemma hashes_p l : Forall P l -> part (process_hashes l) (fun '(d, b) => Forall (fun t => P t \/ (b = true /\ t = (Word, []))) d).
  Proof.
    assert (Hor : forall b (d : list tok), Forall (fun t => P t \/ (b = true /\ t = (Word, []))) d ->
       Forall (fun t => P t \/ (true = true /\ t = (Word, []))) d).
    { intros b d. apply Forall_impl. tauto. }
    assert (K : forall n l, (List.length l <= n)%nat -> Forall P l ->
      part (process_hashes l) (fun '(d, b) => Forall (fun t => P t \/ (b = true /\ t = (Word, []))) d)).
    { induction n as [|n IH]; intros l0 Hn H.
      { destruct l0; [constructor|simpl in Hn; lia]. }
      destruct H as [|[k h] l1 Ht Hl]; [constructor|]. simpl in Hn.
      assert (Hkeep : part (let* (r', b) := process_hashes l1 in Ok ((k, h) :: r', b))
         (fun '(d, b) => Forall (fun t => P t \/ (b = true /\ t = (Word, []))) d)).
      { eapply part_bind; [apply IH; [lia|exact Hl]|]. intros [r' b] Hr. constructor; auto. }
      cbn [process_hashes]. destruct k; try exact Hkeep. cbv zeta.
      destruct l1 as [|[k2 [|c w]] r2]; [exact I| |]; (destruct k2; try exact Hkeep).
      destruct (is_ascii_digit c && negb (c =? 48)); [|exact Hkeep].
      inversion Hl as [|? ? Hw Hr2]; subst. simpl in Hn.
      eapply part_bind; [apply IH; [lia|exact Hr2]|]. intros [r' b] Hr. constructor; [left; now apply P_marg|].
      constructor.
      - destruct w as [|c' w']; [right; now rewrite Bool.orb_true_r|left; apply (P_word (c :: c' :: w')); [exact Hw|apply incl_tl, incl_refl]].
      - eapply Forall_impl; [|exact Hr]. intros t [Hp|[-> ->]]; auto. }
    intros H. eapply K; [apply le_n|exact H].
  Qed.
  Lemma process_p def : Forall P def -> part (process_macro_def def) (Forall P).
  Proof.
    intros H. unfold process_macro_def. eapply part_bind; [now apply hashes_p|]. intros [d b] Hd. destruct b; simpl.
    - apply Forall_forall. intros t [Hin Hne]%filter_In. rewrite Forall_forall in Hd. destruct (Hd t Hin) as [Hp|[_ ->]]; [exact Hp|discriminate].
    - eapply Forall_impl; [|exact Hd]. intros t [Hp|[? _]]; [exact Hp|discriminate].
  Qed.
  Lemma match_body_p c : pcc c -> part (match_body c) (fun '(c, b) => pcc c /\ (forall l, b = Some l -> Forall P l)).
  Proof.
    intros H. unfold match_body.
    assert (Ht : forall t, P t -> part (let* c := next_token c in Ok (c, Some [t : tok]))
      (fun '(c, b) => pcc c /\ (forall l, b = Some l -> Forall P l))).
    { intros t HP. eapply part_bind; [now apply next_p|]. intros c2 H2. split; auto. intros l E. injection E as <-. auto. }
    destruct (ic_peeked c) as [[k s]|] eqn:Ep; [|split; auto; discriminate].
    pose proof (proj2 H _ Ep) as HP.
    destruct k; try (apply Ht; exact HP). destruct b; try (apply Ht; exact HP).
    eapply part_bind; [now apply next_p|]. intros c2 H2.
    eapply part_bind; [now apply read_until_balanced_p|]. intros [d c3] [H3 H4].
    split; auto. intros l E. injection E as <-. auto.
  Qed.
  Lemma match_opt_p c : pcc c -> part (match_opt c) (fun '(c, r) => pcc c /\
    forall o d, r = Some (o, d) -> Forall P d /\ (forall l, o = Some l -> Forall P l)).
  Proof.
    intros H. unfold match_opt.
    assert (Hb : forall c (o : option (list tok)), pcc c -> (forall l, o = Some l -> Forall P l) ->
      part (let* (c, def) := match_body c in Ok (c, option_map (fun d => (o, d)) def))
      (fun '(c, r) => pcc c /\ forall o d, r = Some (o, d) -> Forall P d /\ (forall l, o = Some l -> Forall P l))).
    { intros c0 o H0 Ho. eapply part_bind; [now apply match_body_p|]. intros [c2 d] [H2 H3].
      split; auto. intros o' d' E. destruct d; [|discriminate]. injection E as <- <-. auto. }
    destruct (ic_peeked c) as [[k s]|]; [|apply Hb; [assumption|discriminate]].
    destruct k; try (apply Hb; [assumption|discriminate]). destruct b; try (apply Hb; [assumption|discriminate]).
    eapply part_bind; [now apply next_p|]. intros c2 H2.
    eapply part_bind; [now apply read_until_balanced_p|]. intros [o c3] [H3 H4].
    apply Hb; auto. intros l E. injection E as <-. auto.
  Qed.
  Lemma match_nargs_p c : pcc c -> part (match_nargs c) (fun '(c, r) => pcc c /\
    forall n o d, r = Some (n, o, d) -> Forall P d /\ (forall l, o = Some l -> Forall P l)).
  Proof.
    intros H. unfold match_nargs.
    assert (Hb : part (let* (c, def) := match_body c in
         Ok (c, option_map (fun d => (0, @None (list tok), d)) def)) (fun '(c, r) => pcc c /\
    forall n o d, r = Some (n, o, d) -> Forall P d /\ (forall l, o = Some l -> Forall P l))).
    { eapply part_bind; [now apply match_body_p|]. intros [c2 d] [H2 H3]. split; auto.
      intros n o' d' E. destruct d; [|discriminate]. injection E as <- <- <-. split; auto. discriminate. }
    destruct (ic_peeked c) as [[k s]|]; [|exact Hb].
    destruct k; try exact Hb. destruct b; try exact Hb.
    eapply part_bind; [now apply nnt_p|]. intros c2 H2.
    eapply part_bind; [now apply close_arg_p|]. intros [c3 n] H3.
    destruct n as [n|]; [|split; auto; discriminate]. destruct (n <=? 9); [|split; auto; discriminate].
    eapply part_bind; [now apply match_opt_p|]. intros [c4 r] [H4 H5]. split; auto.
    intros n' o d E. destruct r as [[o' d']|]; [|discriminate]. injection E as <- <- <-. now apply H5.
  Qed.
  Lemma read_macro_name_p d c : pcc c -> part (read_macro_name d c) (fun '(c, _) => pcc c).
  Proof.
    intros H. unfold read_macro_name. eapply part_bind; [now apply nnt_p|]. intros c2 H2.
    destruct (ic_peek c2) as [k|]; [|exact H2]. destruct k; try exact H2. destruct b; try exact H2.
    eapply part_bind; [now apply nnt_p|]. intros c3 H3. destruct (is_new_env d).
    - eapply part_bind; [now apply close_arg_p|]. intros [c4 t] H4. exact H4.
    - eapply part_bind; [now apply close_arg_p|]. intros [c4 t] H4. destruct t as [[k s]|]; [|exact H4].
      destruct (strip_prefix _ _); [exact H4|exact I].
  Qed.
  Definition pmacro (m : macro) : Prop :=
    match m with
    | MDeclare _ => True
    | MCmd c => Forall P (cm_def c) /\ (forall o, cm_opt c = Some o -> Forall P o)
    | MEnv v => Forall P (em_begin v) /\ Forall P (em_end v) /\ (forall o, em_opt v = Some o -> Forall P o)
    end.
  Lemma identify_p d c : pcc c -> part (identify_macro_update d c)
    (fun '(c, u) => pcc c /\ forall nm a m, u = Some (nm, a, m) -> pmacro m).
  Proof.
    intros H. unfold identify_macro_update. eapply part_bind; [now apply read_macro_name_p|].
    intros [c2 name] H2. destruct name as [name|]; [|split; [exact H2|discriminate]].
    eapply part_bind; [now apply match_nargs_p|]. intros [c3 r] [H3 H3'].
    destruct r as [[[num opt] def]|]; [|split; [exact H3|discriminate]].
    destruct (H3' _ _ _ eq_refl) as [Hdef Hopt]. destruct (is_new_env d).
    - destruct (ic_peek c3) as [k|]; [|split; [exact H3|discriminate]].
      eapply part_bind.
      { instantiate (1 := fun '(c, r) => pcc c /\ forall l, r = Some l -> Forall P l).
        destruct (token_eqb k (TLeft Curly)); [|split; [exact H3|discriminate]].
        eapply part_bind; [now apply next_p|]. intros c4 H4.
        eapply part_bind; [now apply read_until_balanced_p|]. intros [ed c5] [H5 H6].
        split; auto. intros l E. injection E as <-. auto. }
      intros [c4 ed] [H4 H5]. eapply part_bind; [now apply process_p|]. intros def' Hdef'.
      destruct ed as [ed|]; [|split; [exact H4|discriminate]].
      eapply part_bind; [apply process_p; now apply H5|]. intros ed' Hed'. split; auto.
      intros nm a m E. injection E as <- <- <-. simpl. auto.
    - eapply part_bind; [now apply process_p|]. intros def' Hdef'. split; auto.
      intros nm a m E. injection E as <- <- <-. simpl. auto.
  Qed.
  Definition pengine (e : engine) : Prop := forall name m, get_macro name e = Some m -> pmacro m.
  Lemma step_p e c t : pcc c -> ic_peeked c = Some t -> pengine e ->
    part (step e c t) (fun '(e', c', out) => pcc c' /\ pengine e' /\ Forall P out).
  Proof.
    intros Hc Hpk He. pose proof (proj2 Hc _ Hpk) as HP.
    assert (Hfw : part (let* c := next_token c in Ok (e, c, [t])) (fun '(e', c', out) => pcc c' /\ pengine e' /\ Forall P out)).
    { eapply part_bind; [now apply next_p|]. intros c2 H2. split; auto. }
    assert (Hm : forall name b, part (trapped_by_macro e c t name b) (fun '(e', c', out) => pcc c' /\ pengine e' /\ Forall P out)).
    { intros name b. unfold trapped_by_macro.
      destruct (get_macro name e) as [m|] eqn:Eg; [|exact Hfw].
      pose proof (He name m Eg) as Hok. destruct (negb (Bool.eqb b _)); [exact Hfw|].
      destruct m as [d|cm|env].
      - destruct d; try exact Hfw.
        eapply part_bind; [now apply identify_p|]. intros [c2 u] [H2 H3].
        destruct u as [[[nm a] m]|]; [|repeat split; auto; apply H2].
        destruct (apply_update e nm a m) as [e' out] eqn:Eu. specialize (H3 _ _ _ eq_refl).
        assert (pengine (add_macro nm m e)) as Hadd.
        { intros x mx. rewrite get_add. destruct (teqb x nm); [intros E; injection E as <-; auto|apply He]. }
        unfold apply_update in Eu. destruct (get_macro nm e), a; injection Eu as <- <-; split; auto.
      - destruct Hok as [Hdef Hopt]. eapply part_bind; [now apply next_p|]. intros c2 H2.
        eapply part_bind; [now apply read_macro_args_p|]. intros [[c3 out] args] (H3 & H4 & H5).
        destruct args as [args|]; [|split; auto].
        eapply part_bind; [apply expand_go_p; auto|]. intros ts Hts.
        eapply part_bind; [now apply resume_with_p|]. intros c4 H6. split; auto.
      - destruct Hok as (Hdef & Hend & Hopt). eapply part_bind; [now apply next_p|]. intros c2 H2.
        eapply part_bind; [now apply read_macro_args_p|]. intros [[c3 out] args] (H3 & H4 & H5).
        destruct args as [args|]; [|split; auto].
        eapply part_bind; [now apply read_env_body_p|]. intros [[c4 out2] body] (H6 & H7 & H8).
        destruct body as [body|]; [|split; auto; split; auto; now apply Forall_app].
        eapply part_bind; [apply expand_go_p; auto|]. intros b1 Hb1.
        eapply part_bind; [apply expand_go_p; auto|]. intros b2 Hb2.
        eapply part_bind; [apply resume_with_p; [|eassumption]|].
        + apply Forall_app. split; auto. apply Forall_app. split; auto.
        + intros c5 H9. split; auto. split; auto. now apply Forall_app. }
    unfold step. destruct t as [k w]. cbn [fst snd] in *. destruct k; try exact Hfw. destruct c0; try exact Hfw.
    - destruct (split_bytes 1 w) as [[? name]|]; [apply Hm|exact I].
    - apply Hm.
    - unfold trapped_by_if. eapply part_bind; [now apply next_p|]. intros c2 H2. destruct i; split; auto.
    - unfold trapped_by_else. eapply part_bind; [now apply next_p|]. intros c2 H2.
      destruct (en_ifs e) as [|[st|] ifs]; [split; auto| |split; auto].
      destruct st; cbv zeta; try (split; auto; fail);
        (eapply part_bind; [now apply skip_false_tokens_p|]; intros c3 H3; split; auto).
    - unfold trapped_by_endif. eapply part_bind; [now apply next_p|]. intros c2 H2.
      destruct (en_ifs e) as [|[st|] ifs]; [split; auto| |split; auto]. cbv zeta. destruct st; split; auto.
  Qed.
  Lemma run_p n : forall e s, pclean s -> pengine e -> Forall P (fst (run n e s)).
  Proof.
    induction n as [|n IH]; intros e s Hs He; destruct s as [|err|t r]; simpl; auto.
    pose proof (step_p e (mk_ictx (Some t) r) t (pcc_some _ _ (proj1 Hs) (proj2 Hs)) eq_refl He) as H.
    destruct (step e (mk_ictx (Some t) r) t) as [[[e' c'] out]|err|]; simpl in *; auto.
    destruct H as (H1 & H2 & H3). apply Forall_app. split; auto. apply IH; auto. now apply pcc_flat.
  Qed.
  Lemma expand_p fuel page e s ts : (2 <= page)%nat -> pclean s -> pengine e ->
    expand_stream fuel page e s = Ok ts -> Forall P ts.
  Proof.
    intros Hp Hs He E. destruct (expand_sound fuel page e s Hp) as [n Hn]; [congruence|].
    rewrite E in Hn. unfold result in Hn. pose proof (run_p n e s Hs He) as H.
    destruct (snd (run n e s)); try discriminate. injection Hn as <-. exact H.
  Qed.
End Prov.
