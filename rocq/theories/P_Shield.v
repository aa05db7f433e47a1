(** C70: groups and what surrounds them do not influence each other. *)
From Verif Require Import Api ConvFacts ConvTerm ParserTotal ParserSource ParserEnd ParserShape GramSpec GramSound GramComplete P_Parser P_Gram P_Conv3 P_Conv4 RenderAll P_Render.
From Verif Require Import ShieldFacts ShieldSwap GramSpec RenderSpec ShieldSpec.
Local Open Scope nat_scope.

(** ** The group of a source [{x}] *)
Lemma braced_element gm sp x p f l t r b l1 r1 : content_of_group x -> GramSpec.element gm sp p f l t r b l1 r1 -> t = lbrace -> r = x ++ [rbrace] ->
    exists g, b = true /\ l1 = add [g] l /\ r1 = [] /\ forall v, group gm sp Braces lbrace (x ++ rbrace :: v) g v.
Proof.
  intros Hx H Et Hr. assert (T : fst t = TLeft Curly) by now subst.
  destruct H; try (exfalso; subst; cbn in *; congruence).
  all: try (exfalso; match goal with H : mark_base _ |- _ => rewrite T in H; unfold mark_base in H; cbn [In] in H; repeat destruct H as [H|H]; try discriminate; contradiction end).
  all: try (exfalso; match goal with H : mark_plain _ |- _ => rewrite T in H; unfold mark_plain in H; cbn [In] in H; repeat destruct H as [H|H]; try discriminate; contradiction end).
  all: try (exfalso; match goal with H : stray _ |- _ => rewrite T in H; destruct H as [H|[n H]]; [|discriminate H]; cbn [In] in H; repeat destruct H as [H|H]; try discriminate; contradiction end).
  all: try (exfalso; match goal with H : named _ |- _ => rewrite T in H; destruct H as [H|(i & H & _)]; [|discriminate H]; cbn [In] in H; repeat destruct H as [H|H]; try discriminate; contradiction end).
  all: try (exfalso; match goal with H : GramSpec.script_mark _ |- _ => rewrite T in H; destruct H; discriminate end).
  - exfalso. match goal with H : _ \/ _ |- _ => rewrite T in H; destruct H as [H|[H _]]; discriminate end.
  - subst t r. match goal with H : group _ _ _ _ _ _ _ |- _ => destruct (group_alone gm sp rbrace eq_refl lbrace x _ _ [] eq_refl Hx H) as [-> K] end. eauto.
Qed.
Lemma content_nothing gm sp p g l ts l' r : GramSpec.content gm sp p g l ts l' r -> ts = [] -> l' = l.
Proof. intros H E. destruct H; [reflexivity|discriminate E..]. Qed.
Lemma braced_content gm sp x p g l ts l' r : content_of_group x -> GramSpec.content gm sp p g l ts l' r -> p = Top -> g = false ->
  l = GramSpec.fresh Start -> ts = braced x -> exists u, GramSpec.all l' = [u] /\ forall v, group gm sp Braces lbrace (x ++ rbrace :: v) u v.
Proof.
  intros Hx Hc Ep Eg El Et. destruct Hc as [p g l|p g l t r Hs|p g l t r l1 xs r1 l' r' Hs He Ha Hc|p g l t r l1 r1 l' r' Hs He Hc]; subst p g l.
  - discriminate Et.
  - exfalso. destruct Hs as [Hs _]. now apply Hs.
  - injection Et as -> Er. destruct (braced_element _ _ _ _ _ _ _ _ _ _ _ Hx He eq_refl Er) as (u & _ & -> & -> & K). exists u. split; [|exact K].
    rewrite (content_nothing _ _ _ _ _ _ _ _ Hc eq_refl). cbn in Ha |- *. unfold GramSpec.all in Ha |- *. cbn in *. now rewrite Ha.
  - injection Et as -> Er. destruct (braced_element _ _ _ _ _ _ _ _ _ _ _ Hx He eq_refl Er) as (u & X & _). discriminate X.
Qed.
Lemma braced_reading gm sp x t : content_of_group x -> reading gm sp (braced x) t ->
  exists g, t = Node ScopeRoot [g] /\ forall v, group gm sp Braces lbrace (x ++ rbrace :: v) g v.
Proof.
  intros Hx (l & Hc & ->). destruct (braced_content _ _ _ _ _ _ _ _ _ Hx Hc eq_refl eq_refl eq_refl eq_refl) as (g & -> & K). eauto.
Qed.

(* ------------------------------------------------------------------ *)
(** * C70: replacing *)
(** Replacing groups [{x}] by [{y}] replaces, in the tree, elements that are the
    tree of [{x}] by the tree of [{y}], and changes nothing else. *)
Theorem C70_replace : forall macros page sp src src' ts ts' x y sx sy f1 f2 f3 t tx ty, 2 <= page ->
  content_of_group x -> content_of_group y ->
  tokens_of macros page sp sx (braced x) -> parse_source macros f1 page sp sx = Ok tx ->
  tokens_of macros page sp sy (braced y) -> parse_source macros f2 page sp sy = Ok ty ->
  tokens_of macros page sp src ts -> tokens_of macros page sp src' ts' -> replaced x y ts ts' ->
  parse_source macros f3 page sp src = Ok t ->
  exists g h f0 t', tx = Node ScopeRoot [g] /\ ty = Node ScopeRoot [h] /\ exchanged g h t t' /\
    forall fuel, f0 <= fuel -> parse_source macros fuel page sp src' = Ok t'.
Proof.
  intros macros page sp src src' ts ts' x y sx sy f1 f2 f3 t tx ty Hp Hx Hy Tx Px Ty Py Ts Ts' Hr Pt.
  assert (Rd : forall f s z u, tokens_of macros page sp s z -> parse_source macros f page sp s = Ok u -> reading gm_real sp z u).
  { intros f s z u Hz Hu. destruct (parse_source_reads _ _ _ _ _ _ Hp Hu) as (z' & Hz' & Hl).
    assert (z' = z) as -> by (eapply tokens_functional; eauto). eapply complete; [eapply tokens_words; eassumption|exact Hl]. }
  pose proof (Rd _ _ _ _ Tx Px) as Rx. pose proof (Rd _ _ _ _ Ty Py) as Ry. pose proof (Rd _ _ _ _ Ts Pt) as Rt.
  destruct (braced_reading _ _ _ _ Hx Rx) as (g & -> & Kg). destruct (braced_reading _ _ _ _ Hy Ry) as (h & -> & Kh).
  destruct (reading_swap gm_real sp x y g h Hx Kg Kh ts ts' t Rt Hr) as (t' & Rt' & He).
  destruct (C56_source _ _ _ _ _ Hp Ts') as [f0 Hf]. exists g, h, f0, t'. split; [reflexivity|]. split; [reflexivity|]. split; [exact He|].
  intros fuel L. now apply Hf.
Qed.
Print Assumptions C70_replace.

(* ------------------------------------------------------------------ *)
(** * C70: one group after the other *)
Import RenderSpec.
(** ** Without [\label] no label waits *)
Definition keeps_no (a : piece) : bool := match a with Keep _ => false | _ => true end.
Lemma no_puts p l : forallb keeps_no (map (Put p) l) = true. Proof. induction l; auto. Qed.
Lemma no_app a b : forallb keeps_no a = true -> forallb keeps_no b = true -> forallb keeps_no (a ++ b) = true.
Proof. intros H1 H2. rewrite forallb_app, H1, H2. reflexivity. Qed.
Lemma no_flat {A} (f : A -> list piece) l : (forall a, forallb keeps_no (f a) = true) -> forallb keeps_no (flat_map f l) = true.
Proof. intros H. induction l; [reflexivity|]. cbn. now apply no_app. Qed.
Lemma no_commas k p l : forallb keeps_no (commas k p l) = true.
Proof. induction l as [|t l IH]; [reflexivity|]. cbn [commas]. destruct l; [reflexivity|]. cbn [forallb keeps_no andb]. apply no_app; [|exact IH]. now destruct (kind_eqb _ _). Qed.
Lemma no_cells p l : forall b, forallb keeps_no (cells p b l) = true.
Proof.
  induction l as [|t l IH]; intros b; [reflexivity|]. cbn [cells]. destruct (tkind t), b; cbn [forallb keeps_no andb]; try apply IH;
    destruct (rule_of t); cbn [forallb keeps_no andb]; apply IH.
Qed.
Lemma no_arguments q l : forall n, forallb keeps_no (decimal_argument n l (fun a => [Put q a])) = true.
Proof. induction l as [|t l IH]; intros n; [reflexivity|]. cbn [decimal_argument app forallb keeps_no andb]. apply IH. Qed.
Lemma no_labels p : forallb keeps_no (labels p) = true. Proof. unfold labels. now destruct (mode_of p). Qed.
Lemma no_brackets p t : forallb keeps_no (in_brackets p t) = true. Proof. unfold in_brackets. now destruct (kind_eqb _ _). Qed.
Lemma lays_no_keep sp p t ps : lays sp p t ps -> ~ command_named t (tx "label") -> forallb keeps_no ps = true.
Proof.
  intros H N. destruct H; try reflexivity; try (now apply no_puts); try contradiction;
    cbn [forallb keeps_no andb]; repeat (apply no_app || (cbn [forallb keeps_no andb]));
    try reflexivity; try apply no_puts; try apply no_labels; try apply no_commas; try apply no_cells; try apply no_arguments.
  - now destruct (teqb _ _).
  - apply no_flat. intros a. apply no_app; [|reflexivity]. destruct a as [[] s|]; try reflexivity. now destruct (teqb s _).
  - now destruct (teqb _ _).
  - destruct color; reflexivity.
  - destruct (mode_of p); [apply no_app; [apply no_puts|reflexivity]|]. apply no_app; [|reflexivity]. now apply no_flat.
  - apply no_flat, no_brackets.
  - now destruct o.
Qed.
Lemma comes_waiting sp ps : forallb keeps_no ps = true ->
  (forall q x, In (Put q x) ps -> forall c c' o, waiting c = None -> renders sp q c x (Written c' o) -> waiting c' = None) ->
  forall c c' o, waiting c = None -> comes_to sp c ps (Written c' o) -> waiting c' = None.
Proof.
  induction ps as [|a ps IH]; intros K P c c' o Hc H.
  - inversion H; subst; exact Hc.
  - cbn in K. apply andb_prop in K as [K1 K2].
    assert (P2 : forall q x, In (Put q x) ps -> forall c c' o, waiting c = None -> renders sp q c x (Written c' o) -> waiting c' = None).
    { intros q x Hq. apply P. now right. }
    assert (Bf : forall s o0 c1 o1, Written c1 o1 = before s o0 -> exists o2, o0 = Written c1 o2).
    { intros s [c2 o2|e|] c1 o1 E; try discriminate E. injection E as -> _. eauto. }
    remember (Written c' o) as out eqn:Eo. remember (a :: ps) as l eqn:El.
    destruct H as [c|c s l o0 H|c s l o0 H|c s l o0 H|c p t c1 x0 l o0 H1 H2|c p t e l H1|c p t l H1|c x0 l o0 H|c l o0 H|c e l|c l];
      try discriminate El; injection El as <- <-; try discriminate Eo; try discriminate K1.
    all: try (symmetry in Eo; apply Bf in Eo as [o2 ->]).
    + eapply IH; eauto.
    + eapply IH; [exact K2|exact P2| |exact H]. exact Hc.
    + eapply IH; [exact K2|exact P2| |exact H]. exact Hc.
    + eapply IH; [exact K2|exact P2| |exact H2]. eapply P; [left; reflexivity|exact Hc|exact H1].
    + eapply IH; [exact K2|exact P2| |exact H]. reflexivity.
Qed.
Lemma renders_waiting sp n : forall t p c c' o, (height t <= n)%nat -> sane p -> (forall x, seen x t -> ~ command_named x (tx "label")) ->
  waiting c = None -> renders sp p c t (Written c' o) -> waiting c' = None.
Proof.
  induction n as [|n IH]; intros t p c c' o L Hs Hn Hc H; [destruct t; cbn in L; lia|].
  inversion H as [p0 c0 t0 ps o0 Hl Ho]; subst. eapply comes_waiting; [eapply lays_no_keep; [exact Hl|apply Hn; constructor]| | |exact Ho].
  - intros q x Hx c1 c2 o1 Hc1 Hr. destruct (layout_below sp p t ps q x Hs Hl Hx) as [S1 S2]. eapply IH; [| |  |exact Hc1|exact Hr].
    + apply height_under in S2. lia.
    + exact S1.
    + intros z Hz. apply Hn. eapply under_seen; eassumption.
  - unfold at_element. destruct (tkind t); exact Hc.
Qed.
