(** A source that the lexer cannot read is never expanded: the panic is not
    skipped. *)
From Verif Require Export MacroSteps StreamFacts.
Local Open Scope N_scope.

Definition bad (c : ictx) : Prop := stream_panics (flat c) = true.
Lemma bad_rest c : bad c <-> stream_panics (ic_rest c) = true.
Proof. unfold bad, flat. destruct (ic_peeked c); reflexivity. Qed.
Lemma bad_some t r : stream_panics r = true -> bad (mk_ictx (Some t) r).
Proof. intros H. now apply bad_rest. Qed.
Lemma next_bad c : bad c -> post (next_token c) bad.
Proof.
  intros H. apply bad_rest in H. unfold next_token. destruct (ic_rest c) as [|e|t r]; cbn in *; [discriminate|exact I|].
  now apply bad_rest.
Qed.
Lemma find_bad s : stream_panics s = true -> post (find_non_trivia s) bad.
Proof.
  induction s as [|e|t r IH]; cbn; [discriminate|auto|]. intros H. destruct (is_trivia (fst t)); [auto|].
  now apply bad_rest.
Qed.
Lemma nnt_bad c : bad c -> post (next_not_trivia c) bad.
Proof. intros H. apply bad_rest in H. now apply find_bad. Qed.
Lemma eat_if_bad k c : bad c -> post (eat_if k c) bad.
Proof. intros H. unfold eat_if. destruct (ic_peek c) as [t|]; [|exact H]. destruct (token_eqb t k); [now apply next_bad|exact H]. Qed.
Lemma take_bad bk s : stream_panics s = true -> forall lv, post (take_balanced bk lv s) (fun '(_, c) => bad c).
Proof.
  induction s as [|e|t r IH]; cbn [take_balanced]; [discriminate|intros; exact I|]. intros H lv.
  destruct (_ && _); [now apply bad_rest|]. cbv zeta. apply post_bind. eapply post_impl; [now apply IH|]. now intros [? ?].
Qed.
Lemma read_bad bk c : bad c -> post (read_until_balanced bk c) (fun '(_, c) => bad c).
Proof.
  intros H. unfold read_until_balanced. apply post_bind. eapply post_impl; [now apply take_bad|]. intros [ts c2] H2.
  apply post_bind. eapply post_impl; [now apply eat_if_bad|]. now intros c3 H3.
Qed.
Lemma close_bad {A} bk (r : option A) c : bad c -> post (close_arg bk r c) (fun '(c, _) => bad c).
Proof.
  intros H. unfold close_arg. apply post_bind. eapply post_impl; [now apply nnt_bad|]. intros c2 H2.
  destruct (ic_peek c2); [|exact H2]. apply post_bind. eapply post_impl; [now apply eat_if_bad|]. now intros c3 H3.
Qed.
Lemma skip_bad s : stream_panics s = true -> forall n, post (skip_false n s) bad.
Proof.
  induction s as [|e|t r IH]; cbn [skip_false]; [discriminate|intros; exact I|]. intros H n.
  cbn in H. destruct (fst t) as [| | | | | | | | | | | | | | | | | | | |[]| |]; try (now apply IH).
  - destruct n; [now apply bad_rest|now apply IH].
  - destruct n; [now apply bad_rest|now apply IH].
Qed.
Lemma skip_tokens_bad c : bad c -> post (skip_false_tokens c) bad.
Proof. intros H. unfold skip_false_tokens. destruct (ic_peeked c); [now apply skip_bad|exact H]. Qed.
Lemma args_bad fuel : forall lft c, bad c -> post (read_args_loop fuel lft c) (fun '(c, _, _) => bad c).
Proof.
  induction fuel as [|f IH]; intros lft c H; cbn [read_args_loop]; [exact I|].
  apply post_bind. eapply post_impl; [apply find_bad; exact H|]. intros c1 H1.
  assert (Hgo : forall lft c args, bad c ->
    post (match lft - 1 with
          | O => Ok (c, args, O)
          | S n => let* (c, args', lft') := read_args_loop f (S n) c in Ok (c, args ++ args', lft')
          end%nat) (fun '(c, _, _) => bad c)).
  { intros l c0 args H0. destruct (l - 1)%nat as [|n]; [exact H0|].
    apply post_bind. eapply post_impl; [now apply IH|]. intros [[? ?] ?] H2. exact H2. }
  assert (Htok : forall t, post (let* c := next_token c1 in
      match lft - 1 with
          | O => Ok (c, [[t]], O)
          | S n => let* (c, args', lft') := read_args_loop f (S n) c in Ok (c, [[t]] ++ args', lft')
          end%nat) (fun '(c, _, _) => bad c)).
  { intros t. apply post_bind. eapply post_impl; [now apply next_bad|]. intros c2 H2.
    now apply (Hgo lft c2 [[t]]). }
  destruct (ic_peeked c1) as [[k s]|] eqn:Ep; [|exact H1].
  destruct k; try apply Htok.
  - destruct b; try apply Htok.
    apply post_bind. eapply post_impl; [now apply next_bad|]. intros c2 H2.
    apply post_bind. eapply post_impl; [now apply read_bad|]. intros [arg c3] H3.
    now apply (Hgo lft c3 [arg]).
  - destruct (split_word lft s) as [chars t'].
    apply post_bind. eapply post_impl.
    { instantiate (1 := bad). destruct t'; [now apply next_bad|]. apply bad_rest in H1. cbn. now apply bad_rest. }
    intros c2 H2. destruct (lft - List.length chars)%nat as [|n] eqn:El; [exact H2|].
    specialize (Hgo (S n) c2 chars H2). exact Hgo.
Qed.
Lemma macro_args_bad c num opt : bad c -> post (read_macro_args c num opt) (fun '(c, _, _) => bad c).
Proof.
  intros H. unfold read_macro_args. destruct (num =? 0); [exact H|].
  apply post_bind. eapply post_impl; [now apply args_bad|]. intros [[c2 args] lft] H2.
  destruct lft as [|[|l]]; [exact H2| |destruct opt; exact H2]. destruct opt; exact H2.
Qed.
Lemma env_body_bad name s : stream_panics s = true -> forall bc, post (env_body_go name bc s) (fun '(c, _, _) => bad c).
Proof.
  induction s as [|e|t r IH]; cbn [env_body_go]; [discriminate|intros; exact I|]. intros H bc. cbn in H.
  assert (Hp : forall bc, post (let* (c, out, b) := env_body_go name bc r in
      Ok (c, out, option_map (cons t) b)) (fun '(c, _, _) => bad c)).
  { intros b0. apply post_bind. eapply post_impl; [now apply IH|]. intros [[c out] b] H1. exact H1. }
  destruct (fst t); try apply Hp. destruct c; try apply Hp.
  destruct bc; [|apply Hp]. destruct (negb (teqb (snd t) name)); [now apply bad_rest|].
  apply post_bind. eapply post_impl; [apply next_bad; now apply bad_rest|]. now intros c H0.
Qed.
Lemma read_env_bad name c : bad c -> post (read_env_body name c) (fun '(c, _, _) => bad c).
Proof. intros H. unfold read_env_body. destruct (ic_peeked c); [now apply env_body_bad|exact H]. Qed.
Lemma match_body_bad c : bad c -> post (match_body c) (fun '(c, _) => bad c).
Proof.
  intros H. unfold match_body. destruct (ic_peeked c) as [[k s]|]; [|exact H].
  assert (Ht : forall t, post (let* c := next_token c in Ok (c, Some [t : tok])) (fun '(c, _) => bad c)).
  { intros t. apply post_bind. eapply post_impl; [now apply next_bad|]. intros c2 H2. exact H2. }
  destruct k; try apply Ht. destruct b; try apply Ht.
  apply post_bind. eapply post_impl; [now apply next_bad|]. intros c2 H2.
  apply post_bind. eapply post_impl; [now apply read_bad|]. intros [d c3] H3. exact H3.
Qed.
Lemma match_opt_bad c : bad c -> post (match_opt c) (fun '(c, _) => bad c).
Proof.
  intros H. unfold match_opt.
  assert (Hb : forall c (o : option (list tok)), bad c ->
     post (let* (c, def) := match_body c in Ok (c, option_map (fun d => (o, d)) def)) (fun '(c, _) => bad c)).
  { intros c0 o H0. apply post_bind. eapply post_impl; [now apply match_body_bad|]. intros [c2 d] H2. exact H2. }
  destruct (ic_peeked c) as [[k s]|]; [|now apply Hb].
  destruct k; try (now apply Hb). destruct b; try (now apply Hb).
  apply post_bind. eapply post_impl; [now apply next_bad|]. intros c2 H2.
  apply post_bind. eapply post_impl; [now apply read_bad|]. intros [o c3] H3. now apply Hb.
Qed.
Lemma match_nargs_bad c : bad c -> post (match_nargs c) (fun '(c, _) => bad c).
Proof.
  intros H. unfold match_nargs.
  assert (Hb : post (let* (c, def) := match_body c in
       Ok (c, option_map (fun d => (0, @None (list tok), d)) def)) (fun '(c, _) => bad c)).
  { apply post_bind. eapply post_impl; [now apply match_body_bad|]. intros [c2 d] H2. exact H2. }
  destruct (ic_peeked c) as [[k s]|]; [|exact Hb].
  destruct k; try exact Hb. destruct b; try exact Hb.
  apply post_bind. eapply post_impl; [now apply nnt_bad|]. intros c2 H2.
  apply post_bind. eapply post_impl; [now apply close_bad|]. intros [c3 n] H3.
  destruct n as [n|]; [|exact H3]. destruct (n <=? 9); [|exact H3].
  apply post_bind. eapply post_impl; [now apply match_opt_bad|]. intros [c4 r] H4. exact H4.
Qed.
Lemma name_bad d c : bad c -> post (read_macro_name d c) (fun '(c, _) => bad c).
Proof.
  intros H. unfold read_macro_name. apply post_bind. eapply post_impl; [now apply nnt_bad|]. intros c2 H2.
  destruct (ic_peek c2) as [k|]; [|exact H2]. destruct k; try exact H2. destruct b; try exact H2.
  apply post_bind. eapply post_impl; [now apply nnt_bad|]. intros c3 H3.
  destruct (is_new_env d).
  - apply post_bind. eapply post_impl; [now apply close_bad|]. intros [c4 t] H4. exact H4.
  - apply post_bind. eapply post_impl; [now apply close_bad|]. intros [c4 t] H4.
    destruct t as [[k s]|]; [|exact H4]. destruct (strip_prefix (tx "\") s); [exact H4|exact I].
Qed.
Lemma post_any {A B} (x : res A) (f : A -> res B) P : (forall a, post (f a) P) -> post (bind x f) P.
Proof. intros H. apply post_bind. eapply post_impl; [apply post_true|]. intros a _. apply H. Qed.
Lemma identify_bad d c : bad c -> post (identify_macro_update d c) (fun '(c, _) => bad c).
Proof.
  intros H. unfold identify_macro_update. apply post_bind. eapply post_impl; [now apply name_bad|].
  intros [c2 name] H2. destruct name as [name|]; [|exact H2].
  apply post_bind. eapply post_impl; [now apply match_nargs_bad|]. intros [c3 r] H3.
  destruct r as [[[num opt] def]|]; [|exact H3]. destruct (is_new_env d).
  - destruct (ic_peek c3) as [k|]; [|exact H3]. apply post_bind.
    assert (Hx : post (if token_eqb k (TLeft Curly)
          then let* c := next_token c3 in let* (e, c) := read_until_balanced Curly c in Ok (c, Some e)
          else Ok (c3, None)) (fun '(c, _) => bad c)).
    { destruct (token_eqb k (TLeft Curly)); [|exact H3].
      apply post_bind. eapply post_impl; [now apply next_bad|]. intros c4 H4.
      apply post_bind. eapply post_impl; [now apply read_bad|]. intros [e c5] H5. exact H5. }
    eapply post_impl; [exact Hx|]. intros [c4 e] H4. apply post_any. intros def'.
    destruct e; [|exact H4]. apply post_any. intros e'. exact H4.
  - apply post_any. intros def'. exact H3.
Qed.
Lemma resume_bad ts c : bad c -> post (resume_with ts c) bad.
Proof.
  intros H. apply bad_rest in H. unfold resume_with, extend_inner.
  assert (Hp : forall ts r, stream_panics (push_front ts r) = stream_panics r).
  { induction ts0 as [|t ts0 IH]; intros r; [reflexivity|]. apply IH. }
  destruct (ic_peeked c) as [t|] eqn:Et.
  - destruct (push_front ts (SCons t (ic_rest c))) as [|e|t' r] eqn:E.
    + destruct (ic_peeked c); [exact (proj2 (bad_rest c) H)|discriminate].
    + destruct (ic_peeked c); [exact (proj2 (bad_rest c) H)|discriminate].
    + apply bad_rest. cbn. specialize (Hp ts (SCons t (ic_rest c))). rewrite E in Hp. cbn in Hp. congruence.
  - cbn [ic_peeked]. apply next_bad. apply bad_rest. cbn. now rewrite Hp.
Qed.
Lemma step_bad e c t : bad c -> post (step e c t) (fun '(_, c', _) => bad c').
Proof.
  intros H.
  assert (Hf : forall (e' : engine) (out : list tok), post (let* c := next_token c in Ok (e', c, out)) (fun '(_, c', _) => bad c')).
  { intros e' out. apply post_bind. eapply post_impl; [now apply next_bad|]. now intros c2 H2. }
  assert (Hm : forall name b, post (trapped_by_macro e c t name b) (fun '(_, c', _) => bad c')).
  { intros name b. unfold trapped_by_macro. destruct (get_macro name e) as [m|]; [|apply Hf].
    destruct (negb _); [apply Hf|]. destruct m as [d|cm|em].
    - destruct d; try apply Hf. apply post_bind. eapply post_impl; [now apply identify_bad|].
      intros [c2 [[[nm a] m]|]] H2; [|exact H2]. destruct (apply_update e nm a m). exact H2.
    - apply post_bind. eapply post_impl; [now apply next_bad|]. intros c2 H2.
      apply post_bind. eapply post_impl; [now apply macro_args_bad|]. intros [[c3 out] args] H3.
      destruct args; [|exact H3]. apply post_any. intros ts.
      apply post_bind. eapply post_impl; [now apply resume_bad|]. now intros c4 H4.
    - apply post_bind. eapply post_impl; [now apply next_bad|]. intros c2 H2.
      apply post_bind. eapply post_impl; [now apply macro_args_bad|]. intros [[c3 out] args] H3.
      destruct args; [|exact H3].
      apply post_bind. eapply post_impl; [now apply read_env_bad|]. intros [[c4 out2] body] H4.
      destruct body; [|exact H4]. apply post_any. intros b1. apply post_any. intros d1.
      apply post_bind. eapply post_impl; [now apply resume_bad|]. now intros c5 H5. }
  unfold step. destruct (fst t) as [| | | | | | | | | | | | | | | | | | | |cn| |]; try apply Hf.
  destruct cn; try apply Hf; try apply Hm.
  - destruct (split_bytes 1 (snd t)) as [[? ?]|]; [apply Hm|exact I].
  - unfold trapped_by_if. destruct i; apply Hf.
  - unfold trapped_by_else. apply post_bind. eapply post_impl; [now apply next_bad|]. intros c2 H2.
    destruct (en_ifs e) as [|[s|] ifs]; try exact H2. destruct s; try exact H2;
      (apply post_bind; eapply post_impl; [now apply skip_tokens_bad|]; now intros c3 H3).
  - unfold trapped_by_endif. apply post_bind. eapply post_impl; [now apply next_bad|]. intros c2 H2.
    destruct (en_ifs e) as [|[[]|] ifs]; exact H2.
Qed.
Lemma run_bad n : forall e s, stream_panics s = true -> snd (run n e s) <> Done.
Proof.
  induction n as [|n IH]; intros e s H; destruct s as [|err|t r]; cbn [run]; try discriminate.
  pose proof (step_bad e (mk_ictx (Some t) r) t (bad_some t r H)) as Hs.
  destruct (step e (mk_ictx (Some t) r) t) as [[[e' c'] out]|s'|]; try discriminate.
  cbn in Hs. cbn [prepend snd]. now apply IH.
Qed.
Lemma feed_toks s : stream_panics s = false -> s = feed (stream_toks s).
Proof. induction s as [|e|t r IH]; cbn; intros H; [reflexivity|discriminate|]. unfold feed in IH. cbn. f_equal. now apply IH. Qed.
Lemma feed_stream l : stream_toks (feed l) = l /\ stream_panics (feed l) = false.
Proof.
  induction l as [|t l [IH1 IH2]]; [split; reflexivity|]. unfold feed in *. rewrite push_cons.
  cbn [stream_toks stream_panics]. now rewrite IH1, IH2.
Qed.
