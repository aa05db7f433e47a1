(** Every layout keeps the brackets and dollars nested (C69). *)
From Verif Require Export NestFacts.
From Verif Require Import ConvFacts ConvTerm RenderAll P_Conv4 P_Render NestLeaf RenderSpec NestSpec.
Local Open Scope N_scope.

(** ** Small facts on quiet texts *)
Lemma quiet_app a b : quiet a -> quiet b -> quiet (a ++ b). Proof. intros. apply Forall_app. auto. Qed.
Lemma quiet_incl a b : incl a b -> quiet b -> quiet a.
Proof. unfold quiet. rewrite !Forall_forall. auto. Qed.
Lemma quiet_indent n : quiet (indented n).
Proof. induction n; constructor; [rewrite loud_iff; intuition discriminate|assumption]. Qed.
Lemma quiet_dec n : quiet (dec n).
Proof.
  unfold dec. generalize (S (N.to_nat (N.log2 n))). intros f. assert (H : quiet []) by constructor. revert n H. generalize (@nil char).
  induction f as [|f IH]; intros acc n H; [exact H|]. cbn [dec_fuel].
  assert (A : quiet ((48 + n mod 10) :: acc)).
  { constructor; [|exact H]. pose proof (N.mod_lt n 10 ltac:(discriminate)) as L. rewrite loud_iff. revert L. generalize (n mod 10). clear. intros m L. lia. }
  destruct (n <? 10); [exact A|]. now apply IH.
Qed.
Lemma start_incl (s : text) : incl (trim_start s) s.
Proof. induction s as [|c s IH]; [apply incl_refl|]. cbn [trim_start]. destruct (is_whitespace c); [apply incl_tl; exact IH|apply incl_refl]. Qed.
Lemma trim_incl s : incl (trim s) s.
Proof.
  unfold trim, trim_end. intros x Hx. apply in_rev in Hx. apply start_incl in Hx. apply in_rev in Hx. now apply start_incl in Hx.
Qed.
Lemma joined_in c p parts x : In p parts -> In x p -> In x (joined c parts).
Proof.
  induction parts as [|q parts IH]; [intros []|]. intros Hp Hx. destruct parts as [|q2 parts].
  - destruct Hp as [<- |[]]. exact Hx.
  - change (joined c (q :: q2 :: parts)) with (q ++ c :: joined c (q2 :: parts)). apply in_or_app.
    destruct Hp as [<- |Hp]; [now left|]. right. right. auto.
Qed.

(** ** Roles *)
Inductive role := Plain | Opens | Closes | Symbol.
Definition role_of (t : tree) : role :=
  match t with
  | Node ClauseLR (Leaf _ (_ :: name) :: _) =>
      if teqb name (tx "left") then Opens else if teqb name (tx "right") then Closes else Plain
  | Leaf TokenCommandSym _ => Symbol
  | _ => Plain
  end.
Definition ordinary_child (t : tree) : Prop :=
  match t with Leaf k _ => k <> TokenCommandSym | Node k _ => k <> ClauseLR end.
Lemma ordinary_role t : ordinary_child t -> role_of t = Plain.
Proof. destruct t as [k s|k ch]; cbn; destruct k; congruence. Qed.
Lemma item_ordinary t : item t -> ordinary_child t.
Proof.
  destruct t as [k s|k ch]; cbn [item ordinary_child]; intros H ->; repeat destruct H as [H|H]; try discriminate; contradiction.
Qed.
Lemma argument_ordinary t : is_argument t -> ordinary_child t.
Proof. destruct t as [|[] ?]; cbn; try contradiction. intros _. discriminate. Qed.

Section Roles.
  Variable gm : text -> text -> bool.
  Variable sp : spec.
  Notation ok_tree := (ok_tree gm sp).

  Lemma child_ordinary k ch c : ok_tree (Node k ch) -> ~ opaque_kind k -> k <> ItemLR -> k <> ClauseLR -> In c ch -> ordinary_child c.
  Proof.
    intros [H1 _] Hk N1 N2 Hc. apply every_node in H1 as [H1 _].
    assert (Hi : forall l, Forall item l -> In c l -> ordinary_child c) by (intros l Hl Hin; apply item_ordinary; rewrite Forall_forall in Hl; auto).
    assert (Ht : forall l, Forall trivia_leaf l -> In c l -> ordinary_child c).
    { intros l Hl' Hin. rewrite Forall_forall in Hl'. specialize (Hl' c Hin). destruct c; [|contradiction]. cbn in Hl' |- *. intros ->. intuition discriminate. }
    destruct H1 as [ch H|k o cl s s' body close Ho Hb [-> | ->]|k s rest Hin Hr|k s Hin|name ch H|name args s' body close Hb _ [-> | ->]|name args Hargs|s|c1 body close Hb Hcl|
      s tr sym Htr Hsym|ch H|ch H|g|g|ch H|a s|a k s tr body Hs Hk' Htr Hb|nd Hnd].
    - eauto.
    - rewrite app_nil_r in Hc. destruct Hc as [<- |Hc]; [|eauto]. intros ->. repeat destruct Ho as [Ho|Ho]; try discriminate; contradiction.
    - destruct Hc as [<- |Hc]; [|apply in_app_or in Hc as [Hc|[<- |[]]]; [eauto|]]; intros ->; repeat destruct Ho as [Ho|Ho]; try discriminate; contradiction.
    - destruct Hc as [<- |Hc]; [intros ->; cbn in Hin; intuition discriminate|]. rewrite Forall_forall in Hr. specialize (Hr c Hc). destruct c; [|contradiction].
      intros ->. cbn in Hr. intuition discriminate.
    - exfalso. apply Hk. unfold opaque_kind. cbn. tauto.
    - assert (N : ordinary_child (Leaf ClauseCommandName (92%N :: name))) by discriminate.
      assert (A : forall a, c = Node ClauseArgument a -> ordinary_child c) by (intros a ->; discriminate).
      inversion H as [s E1 E2 E3|p s args Hargs E1 E2 E3|s a Hn E1 E2 E3|s E1 E2 E3|s a E1 E2 E3|s a Hn E1 E2 E3|s l a Hn E1 E2 E3]; subst; cbn in Hc.
      + destruct Hc as [<- |[]]. exact N.
      + destruct Hc as [<- |Hc]; [exact N|]. destruct Hargs as [Hr _]. rewrite Forall_forall in Hr. specialize (Hr c Hc). destruct c as [|[] ?]; try contradiction. eauto.
      + destruct Hc as [<- |[<- |[]]]; [exact N|eauto].
      + destruct Hc as [<- |[]]. exact N.
      + destruct Hc as [<- |[<- |[]]]; [eauto|exact N].
      + destruct Hc as [<- |[<- |[]]]; [exact N|eauto].
      + destruct Hc as [<- |[<- |[<- |[]]]]; [eauto|exact N|eauto].
    - rewrite app_nil_r in Hc. destruct Hc as [<- |Hc]; [discriminate|eauto].
    - destruct Hc as [<- |Hc]; [discriminate|]. apply in_app_or in Hc as [Hc|[<- |[]]]; [eauto|]. discriminate.
    - exfalso. apply Hk. unfold opaque_kind. cbn. tauto.
    - exfalso. apply Hk. unfold opaque_kind. cbn. tauto.
    - congruence.
    - congruence.
    - exfalso. apply Hk. unfold opaque_kind. cbn. tauto.
    - exfalso. apply Hk. unfold opaque_kind. cbn. tauto.
    - destruct Hc as [<- |[]]. discriminate.
    - destruct Hc as [<- |[]]. discriminate.
    - rewrite Forall_forall in H. destruct (H c Hc) as [G|[G|G]]; [now apply item_ordinary|now apply argument_ordinary|].
      destruct c; [|contradiction]. intros ->. cbn in G. intuition discriminate.
    - destruct Hc as [<- |[<- |[]]]; discriminate.
    - apply in_app_or in Hc as [Hc|Hc].
      + destruct Hs as [-> |[c0 ->]]; [contradiction|]. destruct Hc as [<- |[]]. discriminate.
      + destruct Hc as [<- |Hc]; [intros ->; cbn in Hk'; intuition discriminate|]. apply in_app_or in Hc as [Hc|Hc]; eauto.
    - destruct Hc as [<- |[]]. destruct Hnd as [ch [-> | ->]]; discriminate.
  Qed.
  Lemma under_ordinary x t : ok_tree t -> under x t -> tkind t <> ItemLR -> tkind t <> ClauseLR -> ordinary_child x.
  Proof.
    intros H [[Hx Hk]|(c & Hc & Hx & Hk)] N1 N2.
    - destruct t as [|k ch]; [contradiction|]. eapply child_ordinary; eauto.
    - destruct t as [|k ch]; [contradiction|]. cbn in Hk, Hc. destruct Hk as [-> |[-> Hk]]; [|now apply argument_ordinary].
      destruct (command_child gm sp ch c H Hc) as [N|N]; (destruct c as [|k' ch']; [contradiction|]); [discriminate|]. destruct k'; try contradiction.
      eapply child_ordinary; [eapply ok_child; eauto| | | |exact Hx]; try discriminate. intros X. repeat destruct X as [X|X]; try discriminate; contradiction.
  Qed.
  (** the elements of a pair *)
  Lemma pair_middle c1 mid ch2 : ok_tree (Node ItemLR (c1 :: mid ++ [Node ClauseLR ch2])) -> Forall ordinary_child mid.
  Proof.
    intros [H1 _]. apply every_node in H1 as [H1 _]. inversion H1 as [| | | | | | | |c1' body close Hb Hcl E1 E2| | | | | | | | |]; subst.
    { match goal with O : opening _ _ _ |- _ => exfalso; clear -O; repeat destruct O as [O|O]; try discriminate; contradiction end. }
    assert (I : forall l, Forall item l -> Forall ordinary_child l) by (intros l; apply Forall_impl; exact item_ordinary).
    destruct Hcl as [-> |[c2' ->]].
    - rewrite app_nil_r in *. subst body. apply Forall_app in Hb as [_ Hb]. apply Forall_inv in Hb. apply item_ordinary in Hb.
      now destruct Hb.
    - match goal with E : _ ++ [_] = _ ++ [_] |- _ => apply app_inj_tail in E as [-> _] end. now apply I.
  Qed.
End Roles.
