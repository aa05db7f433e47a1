(** Lemmas about the basic vocabulary. *)
From Verif Require Export Base.
Local Open Scope N_scope.

Lemma teqb_eq a b : teqb a b = true <-> a = b.
Proof.
  revert b; induction a as [|x a IH]; intros [|y b]; simpl; split; try easy.
  - rewrite andb_true_iff, N.eqb_eq, IH. intros [-> ->]; reflexivity.
  - intros [= -> ->]. rewrite andb_true_iff, N.eqb_eq, IH. auto.
Qed.
Lemma teqb_refl a : teqb a a = true.
Proof. now apply teqb_eq. Qed.
Lemma teqb_neq a b : teqb a b = false <-> a <> b.
Proof.
  rewrite <- (teqb_eq a b). destruct (teqb a b); split; congruence.
Qed.
Lemma teqb_sym a b : teqb a b = teqb b a.
Proof.
  destruct (teqb b a) eqn:E; [apply teqb_eq in E; subst; apply teqb_refl|].
  apply teqb_neq. apply teqb_neq in E. congruence.
Qed.
Lemma teqbP a b : reflect (a = b) (teqb a b).
Proof.
  destruct (teqb a b) eqn:E; constructor; [now apply teqb_eq | now apply teqb_neq].
Qed.
Definition text_eq_dec (a b : text) : {a = b} + {a <> b}.
Proof. exact (list_eq_dec N.eq_dec a b). Defined.

(** bind *)
Lemma bind_ok {A B} (x : res A) (f : A -> res B) b :
  bind x f = Ok b -> exists a, x = Ok a /\ f a = Ok b.
Proof. destruct x; simpl; try discriminate. eauto. Qed.

Lemma span_app p s : forall a b, span p s = (a, b) -> s = a ++ b.
Proof.
  induction s as [|c r IH]; simpl; intros a b H; [now injection H as <- <-|].
  destruct (p c).
  - destruct (span p r) as [a' b'] eqn:E. injection H as <- <-. simpl. f_equal. auto.
  - injection H as <- <-. reflexivity.
Qed.
Lemma span_all p s : forall a b, span p s = (a, b) -> Forall (fun c => p c = true) a.
Proof.
  induction s as [|c r IH]; simpl; intros a b H; [injection H as <- <-; constructor|].
  destruct (p c) eqn:Ep.
  - destruct (span p r) as [a' b'] eqn:E. injection H as <- <-. constructor; eauto.
  - injection H as <- <-. constructor.
Qed.
Lemma span_stop p s : forall a b, span p s = (a, b) -> match b with [] => True | c :: _ => p c = false end.
Proof.
  induction s as [|c r IH]; simpl; intros a b H; [now injection H as <- <-|].
  destruct (p c) eqn:Ep.
  - destruct (span p r) as [a' b'] eqn:E. injection H as <- <-. exact (IH _ _ eq_refl).
  - injection H as <- <-. exact Ep.
Qed.
(** the split is unique *)
Lemma span_intro p a b :
  Forall (fun c => p c = true) a -> match b with [] => True | c :: _ => p c = false end ->
  span p (a ++ b) = (a, b).
Proof.
  induction 1 as [|c a Hc Ha IH]; simpl; intros Hb.
  - destruct b as [|c b]; simpl; [reflexivity|]. now rewrite Hb.
  - now rewrite Hc, (IH Hb).
Qed.

Lemma utf8_len_pos c : (0 < utf8_len c)%nat.
Proof. unfold utf8_len. repeat destruct (_ <? _); lia. Qed.
Lemma utf8_char_length c : List.length (utf8_char c) = utf8_len c.
Proof. unfold utf8_char, utf8_len. repeat destruct (_ <? _); reflexivity. Qed.
Lemma utf8_app a b : utf8 (a ++ b) = utf8 a ++ utf8 b.
Proof. unfold utf8. now rewrite flat_map_app. Qed.
Lemma blen_utf8 s : List.length (utf8 s) = blen s.
Proof.
  unfold utf8. induction s as [|c s IH]; simpl; [reflexivity|].
  now rewrite app_length, utf8_char_length, IH.
Qed.
Lemma blen_app a b : blen (a ++ b) = (blen a + blen b)%nat.
Proof. induction a as [|c a IH]; simpl; [reflexivity|]. rewrite IH. lia. Qed.
Lemma blen_length s : (List.length s <= blen s)%nat.
Proof. induction s as [|c s IH]; simpl; [lia|]. pose proof (utf8_len_pos c). lia. Qed.

Lemma split_bytes_app s : forall n a b, split_bytes n s = Some (a, b) -> s = a ++ b /\ blen a = n.
Proof.
  induction s as [|c s IH]; intros n a b; simpl.
  - destruct n; [intros [= <- <-]; auto | discriminate].
  - destruct n as [|n]; [intros [= <- <-]; auto|].
    destruct (Nat.leb_spec (utf8_len c) (S n)) as [Hle|Hlt]; [|discriminate].
    destruct (split_bytes (S n - utf8_len c) s) as [[a' b']|] eqn:E; [|discriminate].
    intros [= <- <-]. apply IH in E as [-> E]. split; [reflexivity|]. simpl blen. lia.
Qed.
Lemma split_bytes_intro a b : split_bytes (blen a) (a ++ b) = Some (a, b).
Proof.
  induction a as [|c a IH]; simpl.
  - destruct b; reflexivity.
  - pose proof (utf8_len_pos c).
    destruct (utf8_len c + blen a)%nat eqn:E; [lia|]. rewrite <- E.
    destruct (Nat.leb_spec (utf8_len c) (utf8_len c + blen a)); [|lia].
    replace (utf8_len c + blen a - utf8_len c)%nat with (blen a) by lia. now rewrite IH.
Qed.
Lemma split_bytes_0 s : split_bytes 0 s = Some ([], s).
Proof. now destruct s. Qed.

Lemma strip_prefix_app p s : forall r, strip_prefix p s = Some r -> s = p ++ r.
Proof.
  revert s; induction p as [|x p IH]; intros s r; simpl; [now intros [= ->]|].
  destruct s as [|y s]; [discriminate|].
  destruct (N.eqb_spec x y) as [->|]; [|discriminate]. intros H. f_equal. auto.
Qed.
Lemma strip_prefix_intro p r : strip_prefix p (p ++ r) = Some r.
Proof. induction p as [|x p IH]; simpl; [reflexivity|]. now rewrite N.eqb_refl. Qed.

Lemma tx_inj a b : tx a = tx b -> a = b.
Proof.
  revert b; induction a as [|x a IH]; intros [|y b]; simpl; try easy.
  intros [= H1 H2]. rewrite (IH _ H2). f_equal.
  rewrite <- (ascii_N_embedding x), H1, ascii_N_embedding. reflexivity.
Qed.

Lemma is_crlf_ws c : (c =? 10) || (c =? 13) = true -> is_whitespace c = true.
Proof.
  rewrite orb_true_iff, !N.eqb_eq. intros [-> | ->]; reflexivity.
Qed.

Lemma assoc_app {V} k (l1 l2 : list (text * V)) :
  assoc k (l1 ++ l2) = match assoc k l1 with Some v => Some v | None => assoc k l2 end.
Proof.
  induction l1 as [|[k' v] l1 IH]; simpl; [reflexivity|]. destruct (teqb k k'); auto.
Qed.
