(** Code copied by [\iftypst] comes from a token [\iftypst] (C69). *)
From Verif Require Import ParserSource ParserEnd TreeSpec ParserShape P_Parser.
From Verif Require Import GramSpec GramSound GramComplete.
Local Open Scope nat_scope.

Section Codes.
  Variable gm : text -> text -> bool.
  Variable sp : spec.
  Definition no_typst (t : tok) : Prop := fst t <> CommandName (CIf IfTypst).
  Definition no_code (t : tree) : Prop := every (fun k _ => k <> ItemTypstCode) t.
  Lemma code_lf t : no_code (lf t). Proof. exact I. Qed.
  Lemma code_leaf k s : no_code (Leaf k s). Proof. exact I. Qed.
  Lemma code_lfs ts : Forall no_code (map lf ts). Proof. induction ts; constructor; [exact I|assumption]. Qed.
  Lemma code_node k ch : k <> ItemTypstCode -> Forall no_code ch -> no_code (Node k ch).
  Proof. intros. apply every_node. auto. Qed.
  Definition n_content (l : line) (ts : list tok) (l' : line) (r : list tok) : Prop :=
    Forall no_typst ts -> Forall no_code (all l) -> Forall no_code (all l') /\ Forall no_typst r.
  Definition n_element (l : line) (t : tok) (ts : list tok) (l' : line) (r : list tok) : Prop :=
    no_typst t -> Forall no_typst ts -> Forall no_code (all l) -> Forall no_code (all l') /\ Forall no_typst r.
  Definition n_group (t : tok) (ts : list tok) (x : tree) (r : list tok) : Prop :=
    no_typst t -> Forall no_typst ts -> no_code x /\ Forall no_typst r.
  Definition n_arguments (ts : list tok) (xs : list tree) (r : list tok) : Prop :=
    Forall no_typst ts -> Forall no_code xs /\ Forall no_typst r.
  Lemma code_add xs l : Forall no_code (all l) -> Forall no_code xs -> Forall no_code (all (add xs l)).
  Proof. intros H1 H2. rewrite all_add. now apply Forall_app. Qed.
  Lemma code_add' xs l : Forall no_code (all l) -> Forall no_code xs -> Forall no_code (all (add xs (baseless l))).
  Proof. intros H1 H2. rewrite all_add, all_baseless. now apply Forall_app. Qed.
  Lemma code_based l ys : Forall no_code (all l) -> base l = Some ys -> Forall no_code (before l) /\ Forall no_code ys.
  Proof. destruct l as [b [zs|] f]; unfold all; cbn; [|discriminate]. intros H [= ->]. now apply Forall_app in H. Qed.
  Lemma skipped_code n ts xs r : skipped n ts xs r -> Forall no_typst ts -> Forall no_code xs /\ Forall no_typst r.
  Proof.
    induction 1; intros W; try (apply Forall_cons_iff in W as [W0 W]); auto;
    destruct (IHskipped W); (split; [constructor; auto using code_lf|assumption]).
  Qed.
  Lemma env_end_code ts e r : env_end ts e r -> Forall no_typst ts -> Forall no_code e /\ Forall no_typst r.
  Proof.
    intros H W. destruct H; [apply Forall_cons_iff in W as [_ W]|auto]. split; [|exact W].
    constructor; [|constructor]. apply code_node; [discriminate|]. constructor; [exact I|constructor].
  Qed.
  Lemma delimiter_code ts x r : delimiter ts x r -> Forall no_typst ts -> Forall no_code x /\ Forall no_typst r.
  Proof.
    intros H W. assert (N : Forall no_code []) by apply Forall_nil.
    assert (L : forall k x, Forall no_code [Leaf k x]) by (intros; apply Forall_cons; [exact I|apply Forall_nil]).
    destruct H.
    - auto.
    - auto.
    - apply Forall_cons_iff in W as [_ W]. auto.
    - apply Forall_cons_iff in W as [_ W]. auto.
    - apply Forall_cons_iff in W as [_ W]. split; [auto|]. apply Forall_cons; [discriminate|exact W].
    - apply Forall_cons_iff in W as [_ W]. split; [|exact W]. apply L.
  Qed.
  Lemma clause_code t ts c r : clause t ts c r -> Forall no_typst ts -> no_code c /\ Forall no_typst r.
  Proof.
    intros H W. destruct H as [bs r x r' Hb Hn Hd]. apply Forall_app in W as [_ W]. apply delimiter_code in Hd as [Hx W']; [|exact W].
    split; [|exact W']. apply code_node; [discriminate|]. constructor; [exact I|]. apply Forall_app. split; [apply code_lfs|exact Hx].
  Qed.
  Lemma right_code ts e r : right_side ts e r -> Forall no_typst ts -> Forall no_code e /\ Forall no_typst r.
  Proof.
    intros H W. destruct H as [s r c r' H|r H]; [|auto]. apply Forall_cons_iff in W as [_ W]. apply clause_code in H as [H W']; [|exact W].
    split; [|exact W']. constructor; [exact H|constructor].
  Qed.
  Lemma rest_code s r : Forall no_typst r -> Forall no_typst (rest_word s r).
  Proof. intros H. destruct s; [exact H|constructor; [discriminate|exact H]]. Qed.
  Ltac gd := repeat first [assumption | exact I | apply code_lfs | apply code_add' | apply code_add
    | apply Forall_nil | apply Forall_cons | (apply Forall_app; split) | (apply code_node; [discriminate|])].
  Lemma code_inside l t bs : Forall no_code (all l) -> Forall no_code (all (inside l t bs)).
  Proof.
    intros G. unfold inside. destruct (base l) as [ys|] eqn:E.
    - destruct (code_based _ _ G E) as [G1 G2]. unfold all; cbn. gd.
    - unfold all; cbn. gd.
  Qed.
  Lemma code_outside l i : Forall no_code (all l) -> Forall no_code (all i) -> Forall no_code (all (outside l i)).
  Proof.
    intros G H. assert (B : Forall no_code (before l)) by (destruct l as [b [ys|] f]; unfold all in G; cbn in G; apply Forall_app in G; apply G).
    unfold outside. destruct (base i); unfold all at 1; cbn; gd.
  Qed.
  Lemma group_code q t k xs : brackets q (fst t) k -> Forall no_code xs -> no_code (Node k (lf t :: xs)).
  Proof.
    intros B G. unfold brackets in B. cbn [In] in B. apply code_node; [|constructor; [exact I|exact G]].
    destruct B as [B|[B|[B|[B|[B|[]]]]]]; injection B as _ _ <-; discriminate.
  Qed.
  Ltac forward := repeat match goal with
    | H : no_typst ?t -> _, L : no_typst ?t |- _ => specialize (H L)
    | H : Forall no_typst ?ts -> _, L : Forall no_typst ?ts |- _ => specialize (H L)
    | H : Forall no_code ?xs -> _, L : Forall no_code ?xs |- _ => specialize (H L)
    | H : Forall no_code (all (fresh _)) -> _ |- _ => specialize (H (Forall_nil _))
    | H : _ /\ _ |- _ => destruct H
    end.
  Lemma grammar_code :
    (forall p g l ts l' r, content gm sp p g l ts l' r -> n_content l ts l' r) /\
    (forall p f l t ts b l' r, element gm sp p f l t ts b l' r -> n_element l t ts l' r) /\
    (forall q t ts x r, group gm sp q t ts x r -> n_group t ts x r) /\
    (forall p a w h ts xs h' r, GramSpec.arguments gm sp p a w h ts xs h' r -> n_arguments ts xs r).
  Proof.
    apply (grammar_ind gm sp (fun p g l ts l' r _ => n_content l ts l' r) (fun p f l t ts b l' r _ => n_element l t ts l' r)
      (fun q t ts x r _ => n_group t ts x r) (fun p a w h ts xs h' r _ => n_arguments ts xs r));
      unfold n_content, n_element, n_group, n_arguments; intros;
      repeat match goal with W : Forall no_typst (_ :: _) |- _ => apply Forall_cons_iff in W as [? W] end.
    all: try (split; [apply code_add; [assumption|constructor; [exact I|constructor]]|assumption]).
    all: try (split; [first [assumption|constructor]|first [assumption|constructor; assumption|constructor]]; fail).
    all: repeat match goal with W : Forall no_typst (_ ++ _) |- _ => apply Forall_app in W as [? W] end.
    all: forward.
    all: try (split; [apply code_add; [assumption|constructor; [assumption|constructor]]|assumption]; fail).
    all: try (split; assumption).
    all: try (split; [gd|first [assumption|constructor|now apply rest_code]]; fail).
    - (* base *) apply H0. change (Forall no_code (all l ++ xs)). rewrite <- e0. assumption.
    - (* pairs *) apply clause_code in c as [C W]; [|assumption]. forward. apply right_code in r0 as [C2 W2]; [|assumption].
      split; [|exact W2]. gd.
    - apply env_end_code in e1 as [V2 W2]; [|assumption]. split; [gd|exact W2].
    - apply env_end_code in e2 as [V2 W2]; [|assumption]. split; [gd|exact W2].
    - apply skipped_code in s0 as [V2 W2]; [|assumption]. split; [|exact W2]. apply code_add; [assumption|]. constructor; [|constructor].
      destruct o as [[_ ->]|[-> ->]]; [gd|]. exfalso. match goal with N : no_typst _ |- _ => now apply N end.
    all: try (split; [unfold all at 1; cbn [before base based]; rewrite app_nil_r; gd|assumption]; fail).
    - destruct (code_based _ _ H1 e1) as [G1 G2]. split; [|assumption]. unfold all; cbn. gd.
    - destruct (code_based _ _ H1 e) as [G1 G2]. split; [|assumption]. unfold all; cbn. gd.
    - (* scripts *) match goal with W : Forall no_typst (_ :: _) |- _ => apply Forall_cons_iff in W as [? W] end. forward.
      match goal with G : Forall no_code (all l) |- _ => destruct (H (code_inside _ _ _ G)) as [G' W] end. split; [now apply code_outside|exact W].
    - split; [|constructor]. apply code_outside; [|apply code_inside]; assumption.
    - (* groups *) match goal with W : Forall no_typst (_ :: _) |- _ => apply Forall_cons_iff in W as [? W] end.
      split; [|assumption]. apply (group_code q); auto. gd.
    - split; [|assumption]. apply (group_code q); auto.
    - (* arguments *) forward. match goal with H : Forall no_typst (rest_word _ _) -> _ |- _ => destruct H as [G W]; [now apply rest_code|] end.
      split; [gd|exact W].
  Qed.
  Lemma reading_code ts t : reading gm sp ts t -> Forall no_typst ts -> no_code t.
  Proof.
    intros (l & Hc & ->) Hn. apply (proj1 grammar_code) in Hc. destruct Hc as [G _]; [exact Hn|constructor|].
    apply code_node; [discriminate|exact G].
  Qed.
End Codes.
