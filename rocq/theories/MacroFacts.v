(** The macro engine as a transition system on (engine, remaining stream); the
    look-ahead page is invisible. *)
From Verif Require Export StreamFacts Macro.
Local Open Scope N_scope.

(** [post r P]: if [r] is a normal result it satisfies [P] *)
Definition post {A} (r : res A) (P : A -> Prop) : Prop :=
  match r with Ok a => P a | _ => True end.
Lemma post_bind {A B} (x : res A) (f : A -> res B) P :
  post x (fun a => post (f a) P) -> post (bind x f) P.
Proof. destruct x; simpl; auto. Qed.
Lemma post_impl {A} (r : res A) (P Q : A -> Prop) :
  post r P -> (forall a, P a -> Q a) -> post r Q.
Proof. destruct r; simpl; auto. Qed.
Lemma post_true {A} (r : res A) : post r (fun _ => True).
Proof. destruct r; simpl; auto. Qed.

(** between two steps, nothing peeked means that the input is exhausted *)
Definition cinv (c : ictx) : Prop := ic_peeked c = None -> ic_rest c = SNil.
Lemma cinv_some t r : cinv (mk_ictx (Some t) r).
Proof. unfold cinv. simpl. discriminate. Qed.
Lemma cinv_end : cinv (mk_ictx None SNil).
Proof. unfold cinv. reflexivity. Qed.
Global Hint Resolve cinv_some cinv_end : core.

Lemma next_token_inv c : post (next_token c) cinv.
Proof. unfold next_token. destruct (ic_rest c); simpl; auto. Qed.
Lemma find_non_trivia_inv s : post (find_non_trivia s) cinv.
Proof.
  induction s as [|e|t r IH]; simpl; auto. destruct (is_trivia (fst t)); simpl; auto.
Qed.
Lemma eat_if_inv k c : cinv c -> post (eat_if k c) cinv.
Proof.
  intros H. unfold eat_if. destruct (ic_peek c) as [k'|]; simpl; [|auto].
  destruct (token_eqb k' k); simpl; [apply next_token_inv|auto].
Qed.
Lemma take_balanced_inv bk s : forall lv, post (take_balanced bk lv s) (fun '(_, c) => cinv c).
Proof.
  induction s as [|e|t r IH]; intros lv; simpl; auto.
  destruct ((lv =? 0)%Z && token_eqb (fst t) (TRight bk)); simpl; auto.
  apply post_bind. eapply post_impl; [apply IH|]. intros [ts c] H. exact H.
Qed.
Lemma read_until_balanced_inv bk c : post (read_until_balanced bk c) (fun '(_, c) => cinv c).
Proof.
  unfold read_until_balanced. apply post_bind. eapply post_impl; [apply take_balanced_inv|].
  intros [ts c'] H. apply post_bind. eapply post_impl; [now apply eat_if_inv|]. intros c2 H2. exact H2.
Qed.
Lemma close_arg_inv {A} bk (r : option A) c : post (close_arg bk r c) (fun '(c, _) => cinv c).
Proof.
  unfold close_arg. apply post_bind. eapply post_impl; [apply find_non_trivia_inv|].
  intros c' H. destruct (ic_peek c'); simpl; [|exact H].
  apply post_bind. eapply post_impl; [now apply eat_if_inv|]. intros c2 H2. exact H2.
Qed.
Lemma skip_false_inv s : forall n, post (skip_false n s) cinv.
Proof.
  induction s as [|e|t r IH]; intros n; simpl; auto.
  destruct (fst t); try apply IH. destruct c; try apply IH; destruct n; simpl; auto.
Qed.
Lemma skip_false_tokens_inv c : cinv c -> post (skip_false_tokens c) cinv.
Proof.
  intros H. unfold skip_false_tokens. destruct (ic_peeked c); [apply skip_false_inv|exact H].
Qed.
Lemma read_args_loop_inv fuel : forall lft c,
  post (read_args_loop fuel lft c) (fun '(c, _, _) => cinv c).
Proof.
  induction fuel as [|f IH]; intros lft c; simpl; [trivial|].
  apply post_bind. eapply post_impl; [apply find_non_trivia_inv|]. intros c1 H1.
  assert (Hgo : forall lft c args, cinv c ->
    post (match lft - 1 with
          | O => Ok (c, args, O)
          | S n => let* (c, args', lft') := read_args_loop f (S n) c in Ok (c, args ++ args', lft')
          end%nat) (fun '(c, _, _) => cinv c)).
  { intros l c0 args H. destruct (l - 1)%nat as [|n]; simpl; [exact H|].
    apply post_bind. eapply post_impl; [apply IH|]. intros [[? ?] ?] H2. exact H2. }
  assert (Htok : forall t, post (let* c := next_token c1 in
      match lft - 1 with
          | O => Ok (c, [[t]], O)
          | S n => let* (c, args', lft') := read_args_loop f (S n) c in Ok (c, [[t]] ++ args', lft')
          end%nat) (fun '(c, _, _) => cinv c)).
  { intros t. apply post_bind. eapply post_impl; [apply next_token_inv|]. intros c2 H2.
    now apply (Hgo lft c2 [[t]]). }
  destruct (ic_peeked c1) as [[k s]|] eqn:Ep; [|simpl; exact H1].
  destruct k; try apply Htok.
  - destruct b; try apply Htok.
    apply post_bind. eapply post_impl; [apply next_token_inv|]. intros c2 H2.
    apply post_bind. eapply post_impl; [apply read_until_balanced_inv|]. intros [arg c3] H3.
    now apply (Hgo lft c3 [arg]).
  - destruct (split_word lft s) as [chars t'].
    apply post_bind. eapply post_impl.
    { instantiate (1 := cinv). destruct t'; [apply next_token_inv|]. simpl. auto. }
    intros c2 H2. destruct (lft - List.length chars)%nat as [|n] eqn:El; simpl; [exact H2|].
    rewrite Nat.sub_0_r. specialize (Hgo (S n) c2 chars H2). simpl in Hgo. rewrite Nat.sub_0_r in Hgo. exact Hgo.
Qed.
Lemma read_macro_args_inv c num opt : cinv c ->
  post (read_macro_args c num opt) (fun '(c, out, args) => cinv c /\
     match args with Some _ => out = [] | None => (List.length out <= 1)%nat end).
Proof.
  intros H. unfold read_macro_args. destruct (num =? 0); [simpl; auto|].
  apply post_bind. eapply post_impl; [apply read_args_loop_inv|]. intros [[c2 args] lft] H2.
  destruct lft as [|l]; [simpl; auto|]. destruct l, opt; simpl; auto.
Qed.
Lemma env_body_inv name s : forall bc, post (env_body_go name bc s) (fun '(c, out, b) => cinv c /\
     match b with Some _ => out = [] | None => (List.length out <= 1)%nat end).
Proof.
  induction s as [|e|t r IH]; intros bc; simpl; auto.
  assert (Hp : forall bc, post (let* (c, out, b) := env_body_go name bc r in
      Ok (c, out, option_map (cons t) b)) (fun '(c, out, b) => cinv c /\
     match b with Some _ => out = [] | None => (List.length out <= 1)%nat end)).
  { intros b0. apply post_bind. eapply post_impl; [apply IH|]. intros [[c out] b] [H1 H2].
    split; [assumption|]. destruct b; exact H2. }
  destruct (fst t); try apply Hp. destruct c; try apply Hp.
  destruct bc; [|apply Hp]. destruct (negb (teqb (snd t) name)); [simpl; auto|].
  apply post_bind. eapply post_impl; [apply next_token_inv|]. intros c H. simpl. auto.
Qed.
Lemma read_env_body_inv name c : cinv c -> post (read_env_body name c) (fun '(c, out, b) => cinv c /\
     match b with Some _ => out = [] | None => (List.length out <= 1)%nat end).
Proof.
  intros H. unfold read_env_body. destruct (ic_peeked c); [apply env_body_inv|simpl; auto].
Qed.
Lemma match_body_inv c : cinv c -> post (match_body c) (fun '(c, _) => cinv c).
Proof.
  intros H. unfold match_body. destruct (ic_peeked c) as [[k s]|]; [|exact H].
  assert (Ht : forall t, post (let* c := next_token c in Ok (c, Some [t : tok]))
     (fun '(c, _) => cinv c)).
  { intros t. apply post_bind. eapply post_impl; [apply next_token_inv|]. intros c2 H2. exact H2. }
  destruct k; try apply Ht. destruct b; try apply Ht.
  apply post_bind. eapply post_impl; [apply next_token_inv|]. intros c2 H2.
  apply post_bind. eapply post_impl; [apply read_until_balanced_inv|]. intros [d c3] H3. exact H3.
Qed.
Lemma match_opt_inv c : cinv c -> post (match_opt c) (fun '(c, _) => cinv c).
Proof.
  intros H. unfold match_opt.
  assert (Hb : forall c (o : option (list tok)), cinv c ->
     post (let* (c, def) := match_body c in Ok (c, option_map (fun d => (o, d)) def))
     (fun '(c, _) => cinv c)).
  { intros c0 o H0. apply post_bind. eapply post_impl; [now apply match_body_inv|].
    intros [c2 d] H2. exact H2. }
  destruct (ic_peeked c) as [[k s]|]; [|now apply Hb].
  destruct k; try (now apply Hb). destruct b; try (now apply Hb).
  apply post_bind. eapply post_impl; [apply next_token_inv|]. intros c2 H2.
  apply post_bind. eapply post_impl; [apply read_until_balanced_inv|]. intros [o c3] H3.
  now apply Hb.
Qed.
Lemma match_nargs_inv c : cinv c -> post (match_nargs c) (fun '(c, _) => cinv c).
Proof.
  intros H. unfold match_nargs.
  assert (Hb : post (let* (c, def) := match_body c in
       Ok (c, option_map (fun d => (0, @None (list tok), d)) def)) (fun '(c, _) => cinv c)).
  { apply post_bind. eapply post_impl; [now apply match_body_inv|]. intros [c2 d] H2. exact H2. }
  destruct (ic_peeked c) as [[k s]|]; [|exact Hb].
  destruct k; try exact Hb. destruct b; try exact Hb.
  apply post_bind. eapply post_impl; [apply find_non_trivia_inv|]. intros c2 H2.
  apply post_bind. eapply post_impl; [apply close_arg_inv|]. intros [c3 n] H3.
  destruct n as [n|]; [|exact H3]. destruct (n <=? 9); [|exact H3].
  apply post_bind. eapply post_impl; [now apply match_opt_inv|]. intros [c4 r] H4. exact H4.
Qed.
Lemma read_macro_name_inv d c : post (read_macro_name d c) (fun '(c, _) => cinv c).
Proof.
  unfold read_macro_name. apply post_bind. eapply post_impl; [apply find_non_trivia_inv|]. intros c2 H2.
  destruct (ic_peek c2) as [k|]; [|exact H2]. destruct k; try exact H2. destruct b; try exact H2.
  apply post_bind. eapply post_impl; [apply find_non_trivia_inv|]. intros c3 H3.
  destruct (is_new_env d).
  - apply post_bind. eapply post_impl; [apply close_arg_inv|]. intros [c4 t] H4. exact H4.
  - apply post_bind. eapply post_impl; [apply close_arg_inv|]. intros [c4 t] H4.
    destruct t as [[k s]|]; [|exact H4]. destruct (strip_prefix (tx "\") s); [exact H4|exact I].
Qed.
Lemma identify_macro_update_inv d c : post (identify_macro_update d c) (fun '(c, _) => cinv c).
Proof.
  unfold identify_macro_update. apply post_bind. eapply post_impl; [apply read_macro_name_inv|].
  intros [c2 name] H2. destruct name as [name|]; [|exact H2].
  apply post_bind. eapply post_impl; [now apply match_nargs_inv|]. intros [c3 r] H3.
  destruct r as [[[num opt] def]|]; [|exact H3]. destruct (is_new_env d).
  - destruct (ic_peek c3) as [k|]; [|exact H3].
    apply post_bind.
    assert (Hx : post (if token_eqb k (TLeft Curly)
          then let* c := next_token c3 in let* (ed, c) := read_until_balanced Curly c in Ok (c, Some ed)
          else Ok (c3, None)) (fun '(c, _) => cinv c)).
    { destruct (token_eqb k (TLeft Curly)); [|exact H3].
      apply post_bind. eapply post_impl; [apply next_token_inv|]. intros c4 H4.
      apply post_bind. eapply post_impl; [apply read_until_balanced_inv|]. intros [ed c5] H5. exact H5. }
    eapply post_impl; [exact Hx|]. intros [c4 ed] H4.
    apply post_bind. eapply post_impl; [apply post_true|]. intros def' _.
    destruct ed as [ed|]; [|exact H4].
    apply post_bind. eapply post_impl; [apply post_true|]. intros ed' _. exact H4.
  - apply post_bind. eapply post_impl; [apply post_true|]. intros def' _. exact H3.
Qed.
Lemma resume_with_inv ts c : cinv c -> post (resume_with ts c) cinv.
Proof.
  intros H. unfold resume_with, extend_inner. destruct (ic_peeked c) as [t|] eqn:Ep; simpl.
  - destruct (push_front ts (SCons t (ic_rest c))) eqn:E; simpl; auto.
    + rewrite Ep. simpl. exact H.
    + rewrite Ep. simpl. exact H.
  - apply next_token_inv.
Qed.

(** one step keeps the invariant and emits at most one token *)
Lemma step_inv e c t : cinv c -> post (step e c t) (fun '(_, c', out) => cinv c' /\ (List.length out <= 1)%nat).
Proof.
  intros Hc. unfold step.
  assert (Hfw : post (let* c := next_token c in Ok (e, c, [t]))
     (fun '(_, c', out) => cinv c' /\ (List.length out <= 1)%nat)).
  { apply post_bind. eapply post_impl; [apply next_token_inv|]. intros c2 H2. simpl. auto. }
  assert (Hm : forall name b, post (trapped_by_macro e c t name b)
     (fun '(_, c', out) => cinv c' /\ (List.length out <= 1)%nat)).
  { intros name b. unfold trapped_by_macro. destruct (get_macro name e) as [m|]; [|exact Hfw].
    destruct (negb (Bool.eqb b _)); [exact Hfw|].
    destruct m as [d|cmd|env].
    - destruct d; try exact Hfw.
      apply post_bind. eapply post_impl; [apply identify_macro_update_inv|]. intros [c2 u] H2.
      destruct u as [[[nm a] m]|]; [|simpl; auto].
      destruct (apply_update e nm a m) as [e' out] eqn:Eu. simpl. split; [exact H2|].
      unfold apply_update in Eu. destruct (get_macro nm e), a; injection Eu as <- <-; simpl; lia.
    - apply post_bind. eapply post_impl; [apply next_token_inv|]. intros c2 H2.
      apply post_bind. eapply post_impl; [now apply read_macro_args_inv|]. intros [[c3 out] args] [H3 Ho].
      destruct args as [args|]; [|simpl; auto].
      apply post_bind. eapply post_impl; [apply post_true|]. intros ts _.
      apply post_bind. eapply post_impl; [now apply resume_with_inv|]. intros c4 H4. simpl. subst out. auto.
    - apply post_bind. eapply post_impl; [apply next_token_inv|]. intros c2 H2.
      apply post_bind. eapply post_impl; [now apply read_macro_args_inv|]. intros [[c3 out] args] [H3 Ho].
      destruct args as [args|]; [|simpl; auto].
      apply post_bind. eapply post_impl; [now apply read_env_body_inv|]. intros [[c4 out2] body] [H4 Ho2].
      subst out. destruct body as [body|]; [|simpl; auto].
      apply post_bind. eapply post_impl; [apply post_true|]. intros b1 _.
      apply post_bind. eapply post_impl; [apply post_true|]. intros b2 _.
      apply post_bind. eapply post_impl; [now apply resume_with_inv|]. intros c5 H5. simpl. subst out2. auto. }
  destruct (fst t); try exact Hfw. destruct c0; try exact Hfw.
  - destruct (split_bytes 1 (snd t)) as [[? name]|]; [apply Hm|exact I].
  - apply Hm.
  - unfold trapped_by_if. apply post_bind. eapply post_impl; [apply next_token_inv|]. intros c2 H2.
    destruct i; simpl; auto.
  - unfold trapped_by_else. apply post_bind. eapply post_impl; [apply next_token_inv|]. intros c2 H2.
    destruct (en_ifs e) as [|[st|] ifs]; simpl; auto.
    destruct st; simpl; auto; (apply post_bind; eapply post_impl; [now apply skip_false_tokens_inv|];
      intros c3 H3; simpl; auto).
  - unfold trapped_by_endif. apply post_bind. eapply post_impl; [apply next_token_inv|]. intros c2 H2.
    destruct (en_ifs e) as [|[st|] ifs]; simpl; auto. destruct st; simpl; auto.
Qed.

(** ** The unpaged run *)
(** the tokens emitted in at most [n] steps, and how the run ends *)
Inductive ending := Done | Crashed (site : string) | Running.
Definition outcome := (list tok * ending)%type.
Definition prepend (l : list tok) (r : outcome) : outcome := (l ++ fst r, snd r).
Fixpoint run (n : nat) (e : engine) (s : lstream) : outcome :=
  match s with
  | SNil => ([], Done)
  | SPanic err => ([], Crashed err)
  | SCons t r =>
    match n with
    | O => ([], Running)
    | S n =>
      match step e (mk_ictx (Some t) r) t with
      | Ok (e', c', out) => prepend out (run n e' (flat c'))
      | Panic err => ([], Crashed err)
      | Fuel => ([], Running)
      end
    end
  end.
(** the whole result as the caller of the lexer sees it *)
Definition result (o : outcome) : res (list tok) :=
  match snd o with Done => Ok (fst o) | Crashed err => Panic err | Running => Fuel end.

Lemma prepend_nil r : prepend [] r = r.
Proof. now destruct r. Qed.
Lemma prepend_app a b r : prepend (a ++ b) r = prepend a (prepend b r).
Proof. unfold prepend. simpl. now rewrite app_assoc. Qed.

Lemma run_mono n : forall e s m, snd (run n e s) <> Running -> (n <= m)%nat -> run m e s = run n e s.
Proof.
  induction n as [|n IH]; intros e s m H Hm.
  - destruct s; simpl in *; try (destruct m; reflexivity). congruence.
  - destruct s as [|err|t r]; [destruct m; reflexivity..|]. destruct m as [|m]; [lia|]. simpl in *.
    destruct (step e (mk_ictx (Some t) r) t) as [[[e' c'] out]|err|]; simpl in *; try reflexivity.
    rewrite (IH e' (flat c') m); [reflexivity|exact H|lia].
Qed.
Lemma run_running_le n : forall e s m, snd (run n e s) = Running -> (m <= n)%nat -> snd (run m e s) = Running.
Proof.
  intros e s m H Hm. destruct (snd (run m e s)) as [|a|] eqn:E; [..|reflexivity];
    (assert (snd (run m e s) <> Running) as Hne by congruence; rewrite (run_mono m e s n Hne Hm) in H; congruence).
Qed.

Lemma bump_loop_run fuel : forall room e c, cinv c ->
  match bump_loop fuel room e c with
  | Ok (e', c', out) => cinv c' /\ ((List.length out >= room)%nat \/ ic_peeked c' = None) /\
      exists k, forall n, run (k + n) e (flat c) = prepend out (run n e' (flat c'))
  | Panic err => exists k out, forall n, run (k + n) e (flat c) = (out, Crashed err)
  | Fuel => snd (run fuel e (flat c)) = Running
  end.
Proof.
  induction fuel as [|f IH]; intros room e c Hc; destruct room as [|room].
  - simpl. split; [exact Hc|]. split; [left; lia|]. exists O. intros n. now rewrite prepend_nil.
  - simpl. destruct (ic_peeked c) as [t|] eqn:Ep; simpl.
    + unfold flat. rewrite Ep. reflexivity.
    + split; [exact Hc|]. split; [right; exact Ep|]. exists O. intros n. now rewrite prepend_nil.
  - simpl. split; [exact Hc|]. split; [left; lia|]. exists O. intros n. now rewrite prepend_nil.
  - cbn [bump_loop]. destruct (ic_peeked c) as [t|] eqn:Ep.
    2: { split; [exact Hc|]. split; [right; exact Ep|]. exists O. intros n. now rewrite prepend_nil. }
    destruct c as [p r]. simpl in Ep. subst p.
    change (flat (mk_ictx (Some t) r)) with (SCons t r).
    pose proof (step_inv e (mk_ictx (Some t) r) t Hc) as Hs.
    destruct (step e (mk_ictx (Some t) r) t) as [[[e1 c1] out1]|err|] eqn:Est; cbn [bind].
    + simpl in Hs. destruct Hs as [Hc1 Ho1].
      specialize (IH (S room - List.length out1)%nat e1 c1 Hc1).
      destruct (bump_loop f (S room - List.length out1) e1 c1) as [[[e2 c2] out2]|err|]; cbn [bind].
      * destruct IH as (Hc2 & Hend & k & Hrun). split; [exact Hc2|]. split.
        { rewrite app_length. destruct Hend; [left; lia|now right]. }
        exists (S k). intros n. simpl. rewrite Est. simpl. rewrite Hrun. now rewrite prepend_app.
      * destruct IH as (k & out & Hrun). exists (S k), (out1 ++ out).
        intros n. simpl. rewrite Est. simpl. rewrite Hrun. reflexivity.
      * simpl. rewrite Est. simpl. exact IH.
    + exists 1%nat, []. intros n. simpl. rewrite Est. reflexivity.
    + simpl. rewrite Est. reflexivity.
Qed.

(** the bump, on states between steps (or the initial one) *)
Lemma do_bump_run fuel page e c : (2 <= page)%nat -> (cinv c \/ ic_peeked c = None) ->
  match do_bump fuel page (e, c) with
  | Ok (out, (e', c')) => cinv c' /\ (out = [] -> flat c' = SNil) /\
      exists k, forall n, run (k + n) e (flat c) = prepend out (run n e' (flat c'))
  | Panic err => exists k out, forall n, run (k + n) e (flat c) = (out, Crashed err)
  | Fuel => snd (run fuel e (flat c)) = Running
  end.
Proof.
  intros Hp Hc. unfold do_bump.
  assert (exists r, (match ic_peeked c with None => next_token c | Some _ => Ok c end) = r /\
    match r with
    | Ok c1 => cinv c1 /\ flat c1 = flat c
    | Panic err => flat c = SPanic err
    | Fuel => False
    end) as (r & -> & Hr).
  { eexists. split; [reflexivity|]. destruct (ic_peeked c) as [t|] eqn:Ep.
    - split; [|reflexivity]. destruct Hc; [assumption|congruence].
    - unfold next_token, flat. rewrite Ep. destruct (ic_rest c) as [|err|t r]; simpl; auto. }
  destruct r as [c1|err|]; simpl; [|exists O, []; intros n; rewrite Hr; destruct n; reflexivity|contradiction].
  destruct Hr as [Hc1 Hf]. pose proof (bump_loop_run fuel (page - 1) e c1 Hc1) as H. rewrite Hf in H.
  destruct (bump_loop fuel (page - 1) e c1) as [[[e2 c2] out]|err|]; simpl; try exact H.
  destruct H as (Hc2 & Hend & Hk). split; [exact Hc2|]. split; [|exact Hk].
  intros ->. destruct Hend as [Hend|Hend]; [simpl in Hend; lia|].
  unfold flat. rewrite Hend. now apply Hc2.
Qed.

Local Arguments do_bump : simpl never.
Definition mlexer := lexer (engine * ictx).
(** what a lexer state still delivers, given [n] steps *)
Definition mview (n : nat) (l : mlexer) : outcome :=
  match lx_peeked l with
  | Some t => prepend (t :: lx_buf l) (run n (fst (lx_b l)) (flat (snd (lx_b l))))
  | None => ([], Done)
  end.
Definition minv (l : mlexer) : Prop := cinv (snd (lx_b l)).

Lemma mnext_run fuel page p buf b : (2 <= page)%nat -> (cinv (snd b) \/ (buf = [] /\ ic_peeked (snd b) = None)) ->
  match lx_next (do_bump fuel page) (mk_lexer p buf b) with
  | Ok l' => minv l' /\
      exists k, forall n, prepend buf (run (k + n) (fst b) (flat (snd b))) = mview n l'
  | Panic err => exists k out,
      forall n, prepend buf (run (k + n) (fst b) (flat (snd b))) = (out, Crashed err)
  | Fuel => snd (run fuel (fst b) (flat (snd b))) = Running
  end.
Proof.
  intros Hp Hb. unfold lx_next. simpl. destruct buf as [|t buf].
  - destruct b as [e c]. simpl in *.
    assert (cinv c \/ ic_peeked c = None) as Hb' by tauto.
    pose proof (do_bump_run fuel page e c Hp Hb') as H.
    destruct (do_bump fuel page (e, c)) as [[[|t out] [e' c']]|err|]; simpl in *.
    + destruct H as (Hc & Hend & k & Hrun). split; [exact Hc|].
      exists k. intros n. rewrite Hrun, !prepend_nil. unfold mview. simpl.
      rewrite Hend by reflexivity. destruct n; reflexivity.
    + destruct H as (Hc & _ & k & Hrun). split; [exact Hc|].
      exists k. intros n. rewrite Hrun, prepend_nil. reflexivity.
    + destruct H as (k & out & Hrun). exists k, out. intros n. now rewrite Hrun.
    + exact H.
  - destruct Hb as [Hb|[Hb _]]; [|discriminate].
    split; [exact Hb|]. exists O. intros n. reflexivity.
Qed.

(** draining is sound and complete with respect to the unpaged run *)
Lemma mdrain_sound fuel page m : (2 <= page)%nat -> forall l, minv l ->
  lx_drain (do_bump fuel page) m l <> Fuel ->
  exists n, result (mview n l) = lx_drain (do_bump fuel page) m l.
Proof.
  intros Hp. induction m as [|m IH]; intros l Hi; simpl; [congruence|].
  unfold lx_eat. destruct (lx_peeked l) as [t|] eqn:Ep; simpl.
  - pose proof (mnext_run fuel page None (lx_buf l) (lx_b l) Hp (or_introl Hi)) as H.
    destruct (lx_next (do_bump fuel page) (mk_lexer None (lx_buf l) (lx_b l))) as [l'|err|]; simpl.
    + destruct H as (Hi' & k & Hrun). specialize (IH l' Hi'). intros Hne.
      assert (forall n, mview (k + n) l = prepend [t] (mview n l')) as Hv.
      { intros n. unfold mview at 1. rewrite Ep. change (t :: lx_buf l) with ([t] ++ lx_buf l).
        rewrite prepend_app, Hrun. reflexivity. }
      destruct IH as [n Hn]; [intros E; rewrite E in Hne; simpl in Hne; congruence|].
      exists (k + n)%nat. rewrite Hv. unfold result in *. simpl.
      destruct (snd (mview n l')); rewrite <- Hn; reflexivity.
    + intros _. destruct H as (k & out & Hrun). exists (k + 0)%nat. unfold mview. rewrite Ep.
      change (t :: lx_buf l) with ([t] ++ lx_buf l). rewrite prepend_app, Hrun. reflexivity.
    + congruence.
  - intros _. exists O. unfold mview. rewrite Ep. reflexivity.
Qed.
Lemma mdrain_complete fuel page : (2 <= page)%nat -> forall m l n, minv l -> (n <= fuel)%nat ->
  snd (mview n l) <> Running -> (List.length (fst (mview n l)) < m)%nat ->
  lx_drain (do_bump fuel page) m l = result (mview n l).
Proof.
  intros Hp. induction m as [|m IH]; intros l n Hi Hn Hv Hm; [lia|].
  simpl. unfold lx_eat. destruct (lx_peeked l) as [t|] eqn:Ep; simpl.
  2: { unfold mview. rewrite Ep. reflexivity. }
  assert (Hrf : snd (run n (fst (lx_b l)) (flat (snd (lx_b l)))) <> Running).
  { unfold mview in Hv. rewrite Ep in Hv. exact Hv. }
  pose proof (mnext_run fuel page None (lx_buf l) (lx_b l) Hp (or_introl Hi)) as H.
  destruct (lx_next (do_bump fuel page) (mk_lexer None (lx_buf l) (lx_b l))) as [l'|err|]; simpl.
  - destruct H as (Hi' & k & Hrun).
    assert (mview n l = prepend [t] (mview n l')) as Hvl.
    { rewrite <- Hrun. rewrite (run_mono n _ _ (k + n) Hrf ltac:(lia)).
      unfold mview. rewrite Ep. rewrite <- prepend_app. reflexivity. }
    rewrite Hvl in Hv, Hm |- *. unfold prepend in Hv, Hm. simpl in Hv, Hm.
    rewrite (IH l' n Hi' Hn Hv ltac:(lia)). unfold result, prepend. simpl.
    destruct (snd (mview n l')); reflexivity.
  - destruct H as (k & out & Hrun). specialize (Hrun n).
    rewrite (run_mono n _ _ (k + n) Hrf ltac:(lia)) in Hrun.
    unfold mview. rewrite Ep. change (t :: lx_buf l) with ([t] ++ lx_buf l).
    rewrite prepend_app, Hrun. reflexivity.
  - exfalso. apply Hrf. eapply run_running_le; [exact H|exact Hn].
Qed.

(** number of tokens emitted in [n] steps *)
Lemma run_length n : forall e s, (List.length (fst (run n e s)) <= n)%nat.
Proof.
  induction n as [|n IH]; intros e s; destruct s as [|err|t r]; simpl; try lia.
  pose proof (step_inv e (mk_ictx (Some t) r) t (cinv_some _ _)) as H.
  destruct (step e (mk_ictx (Some t) r) t) as [[[e' c'] out]|err|]; simpl in *; try lia.
  rewrite app_length. specialize (IH e' (flat c')). lia.
Qed.

Lemma expand_sound fuel page e s : (2 <= page)%nat ->
  expand_stream fuel page e s <> Fuel ->
  exists n, result (run n e s) = expand_stream fuel page e s.
Proof.
  intros Hp. unfold expand_stream, lx_new.
  pose proof (mnext_run fuel page None [] (e, mk_ictx None s) Hp
                (or_intror (conj eq_refl eq_refl))) as H.
  destruct (lx_next (do_bump fuel page) _) as [l|err|]; simpl in *.
  - destruct H as (Hi & k & Hrun). intros Hne.
    destruct (mdrain_sound fuel page fuel Hp l Hi Hne) as [n Hn].
    exists (k + n)%nat. specialize (Hrun n). rewrite prepend_nil in Hrun. unfold flat in Hrun. simpl in Hrun.
    now rewrite Hrun.
  - intros _. destruct H as (k & out & Hrun). exists (k + 0)%nat. specialize (Hrun O).
    rewrite prepend_nil in Hrun. unfold flat in Hrun. simpl in Hrun. rewrite Hrun. reflexivity.
  - congruence.
Qed.
Lemma expand_complete fuel page e s n : (2 <= page)%nat -> (n < fuel)%nat ->
  snd (run n e s) <> Running ->
  expand_stream fuel page e s = result (run n e s).
Proof.
  intros Hp Hn Hr. unfold expand_stream, lx_new.
  pose proof (mnext_run fuel page None [] (e, mk_ictx None s) Hp
                (or_intror (conj eq_refl eq_refl))) as H.
  destruct (lx_next (do_bump fuel page) _) as [l|err|]; simpl in *.
  - destruct H as (Hi & k & Hrun). specialize (Hrun n). rewrite prepend_nil in Hrun. unfold flat in Hrun.
    simpl in Hrun. rewrite (run_mono n _ _ (k + n) Hr ltac:(lia)) in Hrun.
    rewrite Hrun in Hr |- *. apply mdrain_complete; auto; [lia|].
    rewrite <- Hrun. pose proof (run_length n e s). lia.
  - destruct H as (k & out & Hrun). specialize (Hrun n). rewrite prepend_nil in Hrun. unfold flat in Hrun.
    simpl in Hrun. rewrite (run_mono n _ _ (k + n) Hr ltac:(lia)) in Hrun. rewrite Hrun. reflexivity.
  - exfalso. apply Hr. unfold flat in H. simpl in H. eapply run_running_le; [exact H|lia].
Qed.
