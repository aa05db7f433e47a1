(** From single steps of the engine to what the reader of the lexer sees. *)
From Verif Require Export MacroFacts MacroSpec.
Local Open Scope N_scope.

Lemma push_app a b s : push_front (a ++ b) s = push_front a (push_front b s).
Proof. unfold push_front. apply fold_right_app. Qed.

Lemma push_cons t l s : push_front (t :: l) s = SCons t (push_front l s).
Proof. reflexivity. Qed.
Lemma push_nil s : push_front [] s = s.
Proof. reflexivity. Qed.
(** normalise [push_front] to one application per variable list *)
Ltac pushes := repeat first [rewrite push_app | rewrite push_cons | rewrite push_nil | rewrite <- app_assoc
   | progress cbn [app]].

(** ** The reader's view is the unpaged run *)
Lemma answers_run page e toks r : (2 <= page)%nat ->
  answers page e toks r <-> r <> Fuel /\ exists n, result (run n e (feed toks)) = r.
Proof.
  intros Hp. unfold answers. split; intros [Hne H]; (split; [exact Hne|]).
  - destruct H as [f0 H]. specialize (H f0 (le_n _)).
    destruct (expand_sound f0 page e (feed toks) Hp) as [n Hn]; [congruence|].
    exists n. congruence.
  - destruct H as [n Hn]. exists (S n). intros f Hf. rewrite <- Hn. apply expand_complete; auto.
    intros E. apply Hne. rewrite <- Hn. unfold result. now rewrite E.
Qed.

(** [s] in state [e] behaves as [out] followed by [s'] in state [e'] *)
Definition resumes (e : engine) (s : lstream) (out : list tok) (e' : engine) (s' : lstream) : Prop :=
  exists k, forall n, run (k + n) e s = prepend out (run n e' s').
Lemma resumes_refl e s : resumes e s [] e s.
Proof. exists O. intros n. now rewrite prepend_nil. Qed.
Lemma resumes_trans e s o1 e1 s1 o2 e2 s2 :
  resumes e s o1 e1 s1 -> resumes e1 s1 o2 e2 s2 -> resumes e s (o1 ++ o2) e2 s2.
Proof.
  intros [k1 H1] [k2 H2]. exists (k1 + k2)%nat. intros n.
  rewrite <- Nat.add_assoc, H1, H2. now rewrite prepend_app.
Qed.
Lemma resumes_step e t r e' c' out s' :
  step e (mk_ictx (Some t) r) t = Ok (e', c', out) -> s' = flat c' ->
  resumes e (SCons t r) out e' s'.
Proof. intros H ->. exists 1%nat. intros n. simpl. rewrite H. reflexivity. Qed.

Lemma result_prepend out o : result (prepend out o) = map_ok (app out) (result o).
Proof. unfold result, prepend. simpl. destruct (snd o); reflexivity. Qed.
Lemma run_result_mono n m e s : (n <= m)%nat -> result (run n e s) <> Fuel ->
  result (run m e s) = result (run n e s).
Proof.
  intros Hm H. rewrite (run_mono n e s m); auto. intros E. apply H. unfold result. now rewrite E.
Qed.
Lemma resumes_becomes e a out e' b :
  resumes e (feed a) out e' (feed b) -> becomes e a out e' b.
Proof.
  intros [k Hk] page r Hp. rewrite answers_run by assumption. split.
  - intros [Hne [n Hn]]. exists (result (run n e' (feed b))).
    assert (result (run (k + n) e (feed a)) = r) as Hr.
    { rewrite run_result_mono with (n := n); [exact Hn|lia|congruence]. }
    rewrite Hk, result_prepend in Hr. split; [|now rewrite Hr].
    apply answers_run; [assumption|]. split; [|now exists n].
    intros E. rewrite E in Hr. simpl in Hr. congruence.
  - intros [r' [Ha ->]]. apply answers_run in Ha as [Hne [n Hn]]; [|assumption]. split.
    + destruct r'; simpl; congruence.
    + exists (k + n)%nat. now rewrite Hk, result_prepend, Hn.
Qed.
Lemma resumes_answers page e a out e' : (2 <= page)%nat ->
  resumes e (feed a) out e' SNil -> answers page e a (Ok out).
Proof.
  intros Hp [k H]. apply answers_run; auto. split; [congruence|]. exists (k + 0)%nat.
  rewrite H. unfold result, prepend. simpl. now rewrite app_nil_r.
Qed.

(** an answer does not depend on the page *)
Lemma answers_page p1 p2 e toks r : (2 <= p1)%nat -> (2 <= p2)%nat ->
  answers p1 e toks r -> answers p2 e toks r.
Proof. intros H1 H2. now rewrite !answers_run by assumption. Qed.
Lemma answers_functional page e toks r1 r2 : answers page e toks r1 -> answers page e toks r2 -> r1 = r2.
Proof.
  intros [_ [f1 H1]] [_ [f2 H2]]. rewrite <- (H1 (f1 + f2)%nat), <- (H2 (f1 + f2)%nat); [reflexivity|lia|lia].
Qed.

(** ** Reading groups *)
Lemma is_curly_dec t : {is_curly t} + {~ is_curly t}.
Proof.
  unfold is_curly. destruct (token_eq_dec (fst t) (TLeft Curly)); [left; auto|].
  destruct (token_eq_dec (fst t) (TRight Curly)); [left; auto|right; tauto].
Qed.
Lemma token_eqb_refl k : token_eqb k k = true.
Proof. unfold token_eqb. destruct (token_eq_dec k k); congruence. Qed.
Lemma token_eqb_neq a b : a <> b -> token_eqb a b = false.
Proof. unfold token_eqb. destruct (token_eq_dec a b); congruence. Qed.

(** at a positive level, or for a bracket at level 0 without [ ] ] *)
Lemma take_group bk a : group a -> forall lv s,
  (0 < lv)%Z \/ (lv = 0%Z /\ bk = Curly) ->
  take_balanced bk lv (push_front a s) =
    let* (ts, c) := take_balanced bk lv s in Ok (a ++ ts, c).
Proof.
  induction 1 as [|t l Hc Hl IH|x a y b Hx Hy Ha IHa Hb IHb]; intros lv s Hlv.
  - simpl. destruct (take_balanced bk lv s) as [[? ?]|?|]; reflexivity.
  - simpl. assert (((lv =? 0)%Z && token_eqb (fst t) (TRight bk)) = false) as ->.
    { destruct Hlv as [Hlv|[-> ->]].
      - replace (lv =? 0)%Z with false; [reflexivity|symmetry; apply Z.eqb_neq; lia].
      - rewrite token_eqb_neq; [reflexivity|]. intros E. apply Hc. now right. }
    assert (match fst t with TLeft Curly => (lv + 1)%Z | TRight Curly => (lv - 1)%Z | _ => lv end = lv) as ->.
    { destruct (fst t) eqn:E; try reflexivity; destruct b; try reflexivity;
        exfalso; apply Hc; unfold is_curly; rewrite E; auto. }
    rewrite IH by assumption. destruct (take_balanced bk lv s) as [[? ?]|?|]; reflexivity.
  - simpl. rewrite Hx. rewrite (token_eqb_neq (TLeft Curly)) by congruence. rewrite andb_false_r.
    rewrite push_app, IHa by (left; lia). simpl.
    replace (lv + 1 =? 0)%Z with false by (symmetry; apply Z.eqb_neq; lia). simpl. rewrite Hy.
    replace (lv + 1 - 1)%Z with lv by lia. rewrite IHb by assumption.
    destruct (take_balanced bk lv s) as [[? ?]|?|]; simpl; try reflexivity.
    rewrite <- app_assoc. reflexivity.
Qed.
Lemma take_optional a : optional_group a -> forall s,
  take_balanced Bracket 0 (push_front a s) =
    let* (ts, c) := take_balanced Bracket 0 s in Ok (a ++ ts, c).
Proof.
  induction 1 as [|t l Hc Hb Hl IH|x a y b Hx Hy Ha Hb IHb]; intros s.
  - simpl. destruct (take_balanced Bracket 0 s) as [[? ?]|?|]; reflexivity.
  - simpl. rewrite token_eqb_neq by assumption.
    assert (match fst t with TLeft Curly => 1%Z | TRight Curly => (-1)%Z | _ => 0%Z end = 0%Z) as ->.
    { destruct (fst t) eqn:E; try reflexivity; destruct b; try reflexivity;
        exfalso; apply Hc; unfold is_curly; rewrite E; auto. }
    rewrite IH. destruct (take_balanced Bracket 0 s) as [[? ?]|?|]; reflexivity.
  - simpl. rewrite Hx. rewrite (token_eqb_neq (TLeft Curly)) by congruence.
    rewrite push_app, take_group by (auto; left; lia). simpl. rewrite Hy. simpl. rewrite IHb.
    destruct (take_balanced Bracket 0 s) as [[? ?]|?|]; simpl; try reflexivity.
    rewrite <- app_assoc. reflexivity.
Qed.

(** the inner stream positioned on the first token of [s] *)
Definition at_front (s : lstream) : ictx :=
  match s with SCons t r => mk_ictx (Some t) r | _ => mk_ictx None s end.
Definition quiet (s : lstream) : Prop := match s with SPanic _ => False | _ => True end.
Lemma flat_at_front s : flat (at_front s) = s.
Proof. destruct s; reflexivity. Qed.
Lemma next_token_front p s : quiet s -> next_token (mk_ictx p s) = Ok (at_front s).
Proof. destruct s; simpl; [reflexivity|contradiction|reflexivity]. Qed.
Lemma next_front t s : quiet s -> next_token (at_front (SCons t s)) = Ok (at_front s).
Proof. apply next_token_front. Qed.

Lemma read_group a y s : group a -> fst y = TRight Curly -> quiet s ->
  read_until_balanced Curly (at_front (push_front a (SCons y s))) = Ok (a, at_front s).
Proof.
  intros Ha Hy Hq. unfold read_until_balanced. rewrite flat_at_front, take_group by auto.
  simpl. rewrite Hy, token_eqb_refl. simpl. unfold eat_if, ic_peek. simpl. rewrite Hy, token_eqb_refl.
  rewrite next_token_front by assumption. simpl. now rewrite app_nil_r.
Qed.
Lemma read_optional a y s : optional_group a -> fst y = TRight Bracket -> quiet s ->
  read_until_balanced Bracket (at_front (push_front a (SCons y s))) = Ok (a, at_front s).
Proof.
  intros Ha Hy Hq. unfold read_until_balanced. rewrite flat_at_front, take_optional by auto.
  simpl. rewrite Hy, token_eqb_refl. simpl. unfold eat_if, ic_peek. simpl. rewrite Hy, token_eqb_refl.
  rewrite next_token_front by assumption. simpl. now rewrite app_nil_r.
Qed.
Lemma find_trivia w t s : trivia w -> is_trivia (fst t) = false ->
  find_non_trivia (push_front w (SCons t s)) = Ok (mk_ictx (Some t) s).
Proof.
  intros Hw Ht. induction Hw as [|x w Hx Hw IH]; simpl; [now rewrite Ht|]. now rewrite Hx.
Qed.
Lemma quiet_push a s : quiet s -> quiet (push_front a s).
Proof. destruct a; simpl; auto. Qed.
Lemma quiet_feed l : quiet (feed l).
Proof. destruct l; simpl; auto. Qed.
Lemma quiet_cons t s : quiet (SCons t s).
Proof. exact I. Qed.
Global Hint Resolve quiet_push quiet_feed quiet_cons : core.
