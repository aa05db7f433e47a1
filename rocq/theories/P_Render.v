(** C59: conversion, exactly: an element is laid out in its place (RenderSpec.v),
    and the output is what the layout comes to. *)
From Verif Require Export RenderAll.
From Verif Require Import Api ParserTotal ParserSource ParserEnd P_Parser P_Conv3 P_Conv4 GramSpec P_Gram DelimSpec P_Delim ExpandSpec P_Expand RenderSpec RenderAll.
Local Open Scope N_scope.

(** ** Trees *)
Theorem C59_tree : forall sp m t, well_shaped t ->
  (forall x, convert_tree sp m t = COk x <-> exists c, converts_to sp m t (Written c x)) /\
  (forall e, convert_tree sp m t = CErr e <-> converts_to sp m t (Failed e)) /\
  ((exists site, convert_tree sp m t = CPanic site) <-> converts_to sp m t Crashed).
Proof.
  intros sp m t Hw. destruct (convert_renders sp m t Hw) as (o & Ho & Hm & Hu).
  destruct (convert_tree sp m t) as [x|e|s|]; destruct o as [c y|e'|]; cbn in Hm; try contradiction; subst;
    (split; [|split]); intros; split; intros H.
  all: try discriminate.
  all: try (exfalso; match type of H with ex _ => destruct H as [? H] | _ => idtac end; first [discriminate|apply Hu in H; discriminate]).
  - injection H as <-. eauto.
  - destruct H as [c' H]. apply Hu in H. congruence.
  - injection H as <-. exact Ho.
  - apply Hu in H. congruence.
  - exact Ho.
  - eauto.
Qed.
Print Assumptions C59_tree.

(** every tree has exactly one rendering *)
Theorem C59_unique : forall sp m t, well_shaped t ->
  exists o, converts_to sp m t o /\ forall o', converts_to sp m t o' -> o' = o.
Proof. intros sp m t Hw. destruct (convert_renders sp m t Hw) as (o & Ho & _ & Hu). eauto. Qed.
Print Assumptions C59_unique.

(** ** Trees made by the parser are well shaped, whatever the specification *)
Lemma ok_shaped gm sp t : ok_tree gm sp t -> ok_leaf t -> shaped t.
Proof.
  intros H1 Hl. pose proof (ok_name gm sp t H1 Hl) as Hn. destruct H1 as [H1 H2]. destruct t as [k s|k ch].
  - destruct Hl as [Hl Hs]. split; [exact Hl|]. intros E. destruct (Hs E) as [r ->]. now exists r.
  - split; [exact Hl|]. apply every_node in H1 as [H1 _]. apply every_node in H2 as [H2 _]. destruct k; try exact I.
    + destruct (H2 eq_refl) as (s & r & -> & _). exists ClauseCommandName, s, r. reflexivity.
    + exact (Hn eq_refl).
    + inversion H1 as [| | | | |name args s' body close Hb Hr Hc| | | | | | | | | | | |]; subst.
      { exfalso. match goal with O : opening _ _ _ |- _ => clear -O; repeat destruct O as [O|O]; try discriminate; contradiction end. }
      exists name. reflexivity.
Qed.
Lemma root_ok gm sp fuel ts t : Forall slashed ts -> parse_list gm sp fuel ts = Ok t -> ok_tree gm sp t /\ ok_leaf t.
Proof.
  intros Hs H. pose proof (parse_clauses gm sp fuel ts t Hs H) as [Hc Hd]. apply parse_shape in H as (H1 & H2 & _).
  split; [split; [exact H1|exact Hc]|]. destruct t as [k s|k ch]; cbn in H2; subst k; unfold ok_leaf; [discriminate Hd|]. unfold node_kind. cbn. tauto.
Qed.
Lemma parsed_shaped gm sp fuel ts t : Forall slashed ts -> parse_list gm sp fuel ts = Ok t -> well_shaped t.
Proof.
  intros Hs H x Hx. destruct (root_ok gm sp fuel ts t Hs H) as [H1 H2]. destruct (seen_ok _ _ _ _ Hx H1 H2). eapply ok_shaped; eauto.
Qed.
Theorem C59_parsed : forall macros fuel page sp src t, (2 <= page)%nat ->
  parse_source macros fuel page sp src = Ok t -> well_shaped t.
Proof.
  intros macros fuel page sp src t Hp H. destruct (parse_source_reads _ _ _ _ _ _ Hp H) as (ts & Ht & Hl).
  eapply parsed_shaped; [eapply tokens_slash; eassumption|exact Hl].
Qed.
Print Assumptions C59_parsed.

(** ** Sources: tokens, macros, reading, rendering *)
Definition reads (macros : bool) (sp : spec) (src : text) (t : tree) : Prop :=
  exists ts toks, lexed sp src ts true /\ (if macros then expands initial ts toks else toks = ts) /\ reading gm_real sp toks t.
Lemma reads_iff macros page sp src t : (2 <= page)%nat ->
  ((exists fuel, parse_source macros fuel page sp src = Ok t) <-> reads macros sp src t).
Proof.
  intros Hp. unfold reads. destruct macros; cbn [parse_source].
  - exact (C58_parse page sp src t Hp).
  - destruct (C57_parse page sp src Hp) as [f0 Hf]. split.
    + intros [fuel H]. destruct (parse_keeps false fuel page sp src t Hp H) as [f1 H1].
      specialize (H1 (Nat.max f0 f1) (Nat.le_max_r _ _)). apply (Hf _ (Nat.le_max_l _ _)) in H1 as (ts & H1 & H2). eauto.
    + intros (ts & toks & H1 & -> & H2). exists f0. apply (Hf f0 (le_n _)). eauto.
Qed.
Definition spec_or_default (sp : option spec) : spec := match sp with Some s => s | None => DEFAULT_SPEC end.
Lemma convert_of_tree macros m fuel page src sp t : parse_source macros fuel page (spec_or_default sp) src = Ok t ->
  convert_source macros m fuel page src sp = convert_tree DEFAULT_SPEC m t.
Proof. intros H. unfold convert_source, convert_inner. fold (spec_or_default sp). now rewrite H. Qed.
Lemma tree_of_convert macros m fuel page src sp r : convert_source macros m fuel page src sp = r ->
  (exists t, parse_source macros fuel page (spec_or_default sp) src = Ok t /\ convert_tree DEFAULT_SPEC m t = r) \/
  (exists s, parse_source macros fuel page (spec_or_default sp) src = Panic s /\ r = CPanic s) \/ r = CFuel.
Proof.
  unfold convert_source, convert_inner. fold (spec_or_default sp). destruct (parse_source macros fuel page (spec_or_default sp) src) as [t|s|]; intros <-; eauto.
Qed.

(** the output *)
Theorem C59_output : forall macros m page src sp x, (2 <= page)%nat ->
  ((exists fuel, convert_source macros m fuel page src sp = COk x) <->
   exists t c, reads macros (spec_or_default sp) src t /\ converts_to DEFAULT_SPEC m t (Written c x)).
Proof.
  intros macros m page src sp x Hp. split.
  - intros [fuel H]. destruct (tree_of_convert _ _ _ _ _ _ _ H) as [(t & Ht & Hc)|[(s & _ & E)|E]]; try discriminate E.
    pose proof (C59_parsed _ _ _ _ _ _ Hp Ht) as Hw. apply C59_tree in Hc as [c Hc]; [|exact Hw]. exists t, c. split; [|exact Hc].
    apply (reads_iff macros page); eauto.
  - intros (t & c & Ht & Hc). apply (reads_iff macros page) in Ht as [fuel Ht]; [|exact Hp]. exists fuel.
    pose proof (C59_parsed _ _ _ _ _ _ Hp Ht) as Hw. rewrite (convert_of_tree _ _ _ _ _ _ _ Ht). apply C59_tree; eauto.
Qed.
Print Assumptions C59_output.
(** the error *)
Theorem C59_error : forall macros m page src sp e, (2 <= page)%nat ->
  ((exists fuel, convert_source macros m fuel page src sp = CErr e) <->
   exists t, reads macros (spec_or_default sp) src t /\ converts_to DEFAULT_SPEC m t (Failed e)).
Proof.
  intros macros m page src sp e Hp. split.
  - intros [fuel H]. destruct (tree_of_convert _ _ _ _ _ _ _ H) as [(t & Ht & Hc)|[(s & _ & E)|E]]; try discriminate E.
    pose proof (C59_parsed _ _ _ _ _ _ Hp Ht) as Hw. apply C59_tree in Hc; [|exact Hw]. exists t. split; [|exact Hc].
    apply (reads_iff macros page); eauto.
  - intros (t & Ht & Hc). apply (reads_iff macros page) in Ht as [fuel Ht]; [|exact Hp]. exists fuel.
    pose proof (C59_parsed _ _ _ _ _ _ Hp Ht) as Hw. rewrite (convert_of_tree _ _ _ _ _ _ _ Ht). apply C59_tree; eauto.
Qed.
Print Assumptions C59_error.

(** a panic, of sources whose tokens can be read and expanded: there is no
    reading (C56), or the rendering ends in a panic *)
Theorem C59_panic : forall (macros : bool) m page src sp ts toks, (2 <= page)%nat ->
  lexed (spec_or_default sp) src ts true -> (if macros then expands initial ts toks else toks = ts) ->
  exists f0, forall fuel, (f0 <= fuel)%nat ->
  ((exists site, convert_source macros m fuel page src sp = CPanic site) <->
   (~ exists t, reading gm_real (spec_or_default sp) toks t) \/
   exists t, reading gm_real (spec_or_default sp) toks t /\ converts_to DEFAULT_SPEC m t Crashed).
Proof.
  intros macros m page src sp ts toks Hp Hl He.
  assert (Ht : tokens_of macros page (spec_or_default sp) src toks).
  { destruct macros; cbn [tokens_of]; [apply expanded_iff; eauto|]. apply C57_stream in Hl as [<- Hl]. auto. }
  destruct (C56_source macros page (spec_or_default sp) src toks Hp Ht) as [f0 Hf]. exists f0. intros fuel L. destruct (Hf fuel L) as [H1 H2]. split.
  - intros [site H]. destruct (tree_of_convert _ _ _ _ _ _ _ H) as [(t & Hpt & Hc)|[(s & Hs & E)|E]]; [|left; apply H2; eauto|discriminate E].
    right. exists t. split; [now apply H1|]. pose proof (C59_parsed _ _ _ _ _ _ Hp Hpt) as Hw. apply C59_tree; eauto.
  - intros [H|(t & H & Hc)].
    + apply H2 in H as [site H]. exists site. unfold convert_source, convert_inner. fold (spec_or_default sp). now rewrite H.
    + apply H1 in H. pose proof (C59_parsed _ _ _ _ _ _ Hp H) as Hw. rewrite (convert_of_tree _ _ _ _ _ _ _ H). now apply C59_tree.
Qed.
Print Assumptions C59_panic.

(** ** The first element that cannot be written.  [reaches p c t q c' x]: when
    [t] is written, everything before [x] has been written when [x] is. *)
Inductive reaches (sp : spec) : place -> carry -> tree -> place -> carry -> tree -> Prop :=
| rc_here p c t : reaches sp p c t p c t
| rc_down p c t l1 q x l2 c1 o q' c' x' : lays sp p t (l1 ++ Put q x :: l2) ->
    comes_to sp (at_element t c) l1 (Written c1 o) -> reaches sp q c1 x q' c' x' -> reaches sp p c t q' c' x'.
Lemma before_failed s o e : before s o = Failed e -> o = Failed e. Proof. destruct o; cbn; congruence. Qed.
Lemma before_crashed s o : before s o = Crashed -> o = Crashed. Proof. destruct o; cbn; congruence. Qed.
Definition stops (piece_ : piece) (o : outcome) : Prop :=
  match piece_, o with Fail e, Failed e' => e = e' | Crash, Crashed => True | _, _ => False end.
Definition bad (o : outcome) : Prop := match o with Written _ _ => False | _ => True end.
Lemma before_bad s o : bad (before s o) -> before s o = o. Proof. now destruct o. Qed.
Lemma stopped sp ps : forall c o, comes_to sp c ps o -> bad o ->
  exists l1 a l2 c1 x, ps = l1 ++ a :: l2 /\ comes_to sp c l1 (Written c1 x) /\
    (stops a o \/ exists q t, a = Put q t /\ renders sp q c1 t o).
Proof.
  induction ps as [|a ps IH]; intros c o Ho Hb; [inversion Ho; subst; contradiction|].
  assert (K : forall c' o', comes_to sp c' ps o' -> bad o' ->
      (forall l c1 x, comes_to sp c' l (Written c1 x) -> exists x', comes_to sp c (a :: l) (Written c1 x')) ->
      exists l1 b l2 c1 x, a :: ps = l1 ++ b :: l2 /\ comes_to sp c l1 (Written c1 x) /\
        (stops b o' \/ exists q t, b = Put q t /\ renders sp q c1 t o')).
  { intros c' o' H1 H2 H3. destruct (IH c' o' H1 H2) as (l1 & b & l2 & c1 & x & -> & H4 & H5). destruct (H3 _ _ _ H4) as [x' H6].
    exists (a :: l1), b, l2, c1, x'. auto. }
  inversion Ho; subst; try (pose proof (before_bad _ _ Hb) as Eb; rewrite Eb in Hb |- *); 
    try (eapply K; [eassumption|exact Hb|]; intros l c2 y Hl; first [eexists; econstructor; eassumption | eexists; econstructor; exact Hl]; fail).
  - eapply K; [eassumption|exact Hb|]. intros l' c2 y Hl. eexists. exact (ct_txt sp c s l' _ Hl).
  - eapply K; [eassumption|exact Hb|]. intros l' c2 y Hl. eexists. exact (ct_space sp c s l' _ Hl).
  - eapply K; [eassumption|exact Hb|]. intros l' c2 y Hl. eexists. exact (ct_line sp c s l' _ Hl).
  - eapply K; [eassumption|exact Hb|]. intros l' c2 y Hl. eexists. match goal with R : renders _ _ _ _ _ |- _ => exact (ct_put sp c p t _ _ l' _ R Hl) end.
  - exists [], (Put p t), ps, c, []. split; [reflexivity|]. split; [constructor|]. right. eauto.
  - exists [], (Put p t), ps, c, []. split; [reflexivity|]. split; [constructor|]. right. eauto.
  - eapply K; [eassumption|exact Hb|]. intros l' c2 y Hl. eexists. exact (ct_labels sp c l' _ Hl).
  - exists [], (Fail e), ps, c, []. split; [reflexivity|]. split; [constructor|]. left. reflexivity.
  - exists [], Crash, ps, c, []. split; [reflexivity|]. split; [constructor|]. left. exact I.
Qed.

(** [Fail] and [Crash] are never beside other pieces *)
Definition ordinary (a : piece) : Prop := match a with Fail _ | Crash => False | _ => True end.
Lemma ordinary_puts p l : Forall ordinary (map (Put p) l).
Proof. induction l; constructor; [exact I|assumption]. Qed.
Lemma ordinary_commas k p l : Forall ordinary (commas k p l).
Proof.
  induction l as [|t l IH]; [constructor|]. destruct l as [|t2 l]; [repeat constructor|].
  change (commas k p (t :: t2 :: l)) with (Put p t :: (if kind_eqb (tkind t) k then [Txt (tx ",")] else []) ++ commas k p (t2 :: l)).
  constructor; [exact I|]. apply Forall_app. split; [destruct (kind_eqb _ _); repeat constructor|exact IH].
Qed.
Lemma ordinary_flat {A} (f : A -> list piece) l : (forall a, Forall ordinary (f a)) -> Forall ordinary (flat_map f l).
Proof. intros H. induction l; cbn; [constructor|]. apply Forall_app. auto. Qed.
Lemma ordinary_cells p l : forall b, Forall ordinary (cells p b l).
Proof.
  induction l as [|t l IH]; intros b; [constructor|]. cbn [cells].
  destruct (tkind t), b; try destruct (rule_of t); repeat (constructor; [exact I|]); apply IH.
Qed.
Lemma ordinary_arguments p l : forall n, Forall ordinary (decimal_argument n l (fun a => [Put p a])).
Proof. induction l as [|a l IH]; intros n; [constructor|]. cbn. repeat (constructor; [exact I|]). apply IH. Qed.
Lemma ordinary_labels p : Forall ordinary (labels p).
Proof. unfold labels. destruct (mode_of p); repeat constructor. Qed.
Ltac ord := repeat first
  [ constructor; [exact I|] | apply Forall_nil | apply ordinary_puts | apply ordinary_commas | apply ordinary_cells | apply ordinary_arguments
  | apply ordinary_labels | apply Forall_app; split ].
Definition hopeless (sp : spec) (x : tree) : Prop :=
  (command_named x (tx "label") /\ forall l, ~ label_of x l) \/
  (command_named x (tx "includegraphics") /\ forall o, ~ graphics x o) \/
  (command_named x (tx "color") /\ arguments x = []) \/
  (exists name, command_named x name /\ ~ In name special_names /\ option_map cs_args (get_cmd sp name) = Some (SRight PGreedy) /\
     forall k ch r, operands x <> Node k ch :: r) \/
  (environment_is sp x FFigure /\ exists y, In y (children x) /\ is_command (tx "caption") y = true /\ arguments y = []) \/
  (environment_is sp x FTable /\ forall s, ~ column_text x s).
Lemma lays_pieces_hopeless sp p t ps : lays sp p t ps -> Forall ordinary ps \/ (exists e, ps = [Fail e]) \/ ps = [Crash] /\ hopeless sp t.
Proof.
  intros H. destruct H; try (right; left; eexists; reflexivity); try (right; right; split; [reflexivity|unfold hopeless; tauto]); try (left; ord; fail).
  - left. apply Forall_app. split; [destruct (teqb name (tx "left")); ord|]. apply Forall_app. split; [|destruct (teqb name (tx "right")); ord].
    apply ordinary_flat. intros a. ord. destruct a as [k' s|k' c']; [destruct k'; try destruct (teqb s (tx "."))|]; ord.
  - left. unfold label_pieces. destruct (env_of p), (mode_of p); ord.
  - left. unfold color_pieces. ord; [destruct color; ord|]. destruct (mode_of p); ord. apply ordinary_flat. intros b. ord.
  - right. right. split; [reflexivity|]. do 3 right. left. exists name. rewrite H1. cbn. rewrite H2. auto.
  - left. ord. apply ordinary_flat. intros a. unfold in_brackets. destruct (kind_eqb _ _); ord.
  - left. ord. destruct o; ord.
  - right. right. split; [reflexivity|]. do 4 right. left. split; [|eauto]. exists name. rewrite H0. cbn. rewrite H1. auto.
  - right. right. split; [reflexivity|]. do 5 right. split; [|auto]. exists name. rewrite H0. cbn. rewrite H1. auto.
Qed.
Lemma lays_pieces sp p t ps : lays sp p t ps -> Forall ordinary ps \/ (exists e, ps = [Fail e]) \/ ps = [Crash].
Proof. intros H. destruct (lays_pieces_hopeless _ _ _ _ H) as [G|[G|[G _]]]; auto. Qed.
Lemma crash_hopeless sp p t : lays sp p t [Crash] <-> hopeless sp t.
Proof.
  split.
  - intros H. destruct (lays_pieces_hopeless _ _ _ _ H) as [G|[[e G]|[_ G]]]; [inversion G; contradiction|discriminate|exact G].
  - intros [[H1 H2]|[[H1 H2]|[[H1 H2]|[(name & H1 & H2 & H3 & H4)|[[(n & H1 & H2) (y & H3 & H4 & H5)]|[(n & H1 & H2) H3]]]]]].
    + now apply la_no_label.
    + now apply la_no_graphics.
    + now apply la_no_color.
    + destruct (get_cmd sp name) as [sh|] eqn:E; [|discriminate]. injection H3 as H3. eapply la_greedy_nothing; eauto.
    + destruct (get_env sp n) as [sh|] eqn:E; [|discriminate]. injection H2 as H2. eapply la_bad_figure; eauto.
    + destruct (get_env sp n) as [sh|] eqn:E; [|discriminate]. injection H2 as H2. eapply la_no_columns; eauto.
Qed.
Lemma ordinary_out l1 a l2 : Forall ordinary (l1 ++ a :: l2) -> ordinary a.
Proof. intros H. apply Forall_app in H as [_ H]. now inversion H. Qed.
Lemma alone {A} (x : A) l1 a l2 : l1 ++ a :: l2 = [x] -> l1 = [] /\ a = x /\ l2 = [].
Proof. destruct l1 as [|b l1]; cbn; [intros [= -> ->]; auto|]. intros [= _ H]. now destruct l1. Qed.
Lemma stopping sp p t l1 a l2 o : lays sp p t (l1 ++ a :: l2) -> stops a o -> l1 = [] /\ l2 = [].
Proof.
  intros H Hs. destruct (lays_pieces _ _ _ _ H) as [G|[[e G]|G]]; [|apply alone in G; tauto..].
  apply ordinary_out in G. destruct a; contradiction.
Qed.

(** the layout that ends a conversion with [o] *)
Definition ends_with (sp : spec) (q : place) (x : tree) (o : outcome) : Prop :=
  match o with Failed e => lays sp q x [Fail e] | Crashed => lays sp q x [Crash] | Written _ _ => False end.
Lemma renders_reaches sp n : forall t p c o, (height t <= n)%nat -> sane p -> well_shaped t -> bad o ->
  renders sp p c t o -> exists q c' x, reaches sp p c t q c' x /\ ends_with sp q x o.
Proof.
  induction n as [|n IH]; intros t p c o Hh Hp Hw Hb Ho; [destruct t; cbn in Hh; lia|].
  inversion Ho as [p0 c0 t0 ps o0 Hl Hc]; subst. destruct (stopped _ _ _ _ Hc Hb) as (l1 & a & l2 & c1 & x & -> & H1 & [H2|(q & u & -> & H2)]).
  - destruct (stopping _ _ _ _ _ _ _ Hl H2) as [-> ->]. exists p, c, t. split; [constructor|]. destruct a, o; try contradiction; cbn in *; congruence.
  - destruct (layout_below sp p t _ q u Hp Hl) as [Hq Hu]; [apply in_or_app; right; now left|].
    destruct (IH u q c1 o) as (q' & c' & x' & R & E); auto.
    + apply ConvTerm.height_under in Hu. lia.
    + eapply well_under; eauto.
    + exists q', c', x'. split; [|exact E]. eapply rc_down; eauto.
Qed.
Lemma comes_app sp l1 l2 : forall c c1 x o, comes_to sp c l1 (Written c1 x) -> comes_to sp c1 l2 o -> comes_to sp c (l1 ++ l2) (before x o).
Proof.
  induction l1 as [|a l1 IH]; intros c c1 x o H1 H2; [inversion H1; subst; cbn; now rewrite before_nil|].
  inversion H1 as [|? s ? o1 G|? s ? o1 G|? s ? o1 G|? p t c2 y ? o1 R G| | |? y ? o1 G|? ? o1 G| |]; subst.
  all: try (destruct o1 as [c3 z|e|]; try discriminate; match goal with E : before _ _ = Written _ _ |- _ => injection E as <- <- end; rewrite <- before_app; cbn [app]).
  - apply ct_txt. eapply IH; eauto.
  - apply ct_space. eapply IH; eauto.
  - apply ct_line. eapply IH; eauto.
  - eapply ct_put; [exact R|]. eapply IH; eauto.
  - apply ct_keep. eapply IH; eauto.
  - apply ct_labels. eapply IH; eauto.
Qed.
Lemma reaches_renders sp p c t q c' x o : reaches sp p c t q c' x -> bad o -> ends_with sp q x o -> renders sp p c t o.
Proof.
  intros H Hb E. induction H as [p c t|p c t l1 q u l2 c1 y q' c' x' Hl Hc R IH].
  - destruct o as [|e|]; [contradiction|..]; econstructor; [exact E|constructor|exact E|constructor].
  - specialize (IH E). econstructor; [exact Hl|].
    assert (Eo : o = before y o) by (destruct o; [contradiction|reflexivity..]). rewrite Eo. eapply comes_app; [exact Hc|].
    destruct o as [|e|]; [contradiction|..]; constructor; exact IH.
Qed.

Definition start : carry := mk_carry true None.
(** an error, a panic: the first element, in the order of writing, that cannot be written *)
Theorem C59_first : forall sp m t, well_shaped t ->
  (forall e, convert_tree sp m t = CErr e <->
     exists q c x, reaches sp (outermost m) start t q c x /\ lays sp q x [Fail e]) /\
  ((exists site, convert_tree sp m t = CPanic site) <->
     exists q c x, reaches sp (outermost m) start t q c x /\ lays sp q x [Crash]).
Proof.
  intros sp m t Hw. destruct (C59_tree sp m t Hw) as (_ & He & Hc).
  assert (Hs : sane (outermost m)) by (intros [X|X]; discriminate).
  split; [intros e; rewrite He|rewrite Hc]; split.
  - intros H. exact (renders_reaches sp (height t) t _ _ (Failed e) (le_n _) Hs Hw I H).
  - intros (q & c & x & R & E). exact (reaches_renders sp _ _ _ _ _ _ (Failed e) R I E).
  - intros H. exact (renders_reaches sp (height t) t _ _ Crashed (le_n _) Hs Hw I H).
  - intros (q & c & x & R & E). exact (reaches_renders sp _ _ _ _ _ _ Crashed R I E).
Qed.
Print Assumptions C59_first.

(** ** C34, exactly *)
Definition unfit (x : tree) : Prop :=
  (command_named x (tx "label") /\ forall l, ~ label_of x l) \/
  (command_named x (tx "includegraphics") /\ forall o, ~ graphics x o) \/
  (environment_is DEFAULT_SPEC x FFigure /\ exists y, In y (children x) /\ is_command (tx "caption") y = true /\ arguments y = []) \/
  (environment_is DEFAULT_SPEC x FTable /\ forall s, ~ column_text x s).
Lemma reaches_seen sp p c t q c' x : reaches sp p c t q c' x -> sane p -> seen x t.
Proof.
  intros H. induction H as [|p c t l1 q u l2 c1 y q' c' x' Hl Hc R IH]; intros Hp; [constructor|].
  destruct (layout_below sp p t _ q u Hp Hl) as [Hq Hu]; [apply in_or_app; right; now left|]. eapply under_seen; [exact Hu|]. auto.
Qed.
Lemma default_hopeless gm x : ok_tree gm DEFAULT_SPEC x -> ok_leaf x -> (hopeless DEFAULT_SPEC x <-> unfit x).
Proof.
  intros Hok Hle. split.
  2: { unfold hopeless, unfit. tauto. }
  assert (G : forall name, command_named x name -> option_map cs_args (get_cmd DEFAULT_SPEC name) = Some (SRight PGreedy) ->
    exists ch s, children x = [Leaf ClauseCommandName s; Node ClauseArgument ch]).
  { intros name Hn Hg. destruct (ok_name _ _ _ Hok Hle (proj1 Hn)) as [n En]. destruct Hn as [Hk [c Hc]].
    rewrite Hc in En. injection En as -> ->. destruct Hok as [H1 _].
    destruct x as [k s|k ch]; cbn in Hk; subst k; [exfalso; destruct Hle as [Hl _]; clear -Hl; repeat destruct Hl as [Hl|Hl]; try discriminate; contradiction|].
    apply every_node in H1 as [H1 _]. inversion H1 as [| | | |name' ch' H| | | | | | | | | | | | |]; subst.
    { exfalso. match goal with O : opening _ _ _ |- _ => clear -O; repeat destruct O as [O|O]; try discriminate; contradiction end. }
    assert (En : cmd_name_tok (Node ItemCmd ch) = Some (92%N :: name')) by (inversion H; reflexivity).
    rewrite Hc in En. injection En as ->. rewrite Hg in H.
    inversion H as [|p s args [_ Hargs] E1 E2 E3|s a Hn' E1 E2 E3| | | |]; subst; [contradiction|]. eexists _, _. reflexivity. }
  intros [H|[H|[[H1 H2]|[(name & H1 & H2 & H3 & H4)|[H|H]]]]]; [unfold unfit; tauto..| | |unfold unfit; tauto|unfold unfit; tauto].
  - exfalso. destruct (G _ H1 default_color) as (ch & s & E). unfold arguments, nodes_of in H2. rewrite E in H2. discriminate.
  - exfalso. destruct (G _ H1 H3) as (ch & s & E). eapply H4. unfold operands. rewrite E. reflexivity.
Qed.
Theorem C34_exact : forall macros m fuel page src t, (2 <= page)%nat ->
  parse_source macros fuel page DEFAULT_SPEC src = Ok t ->
  ((exists site, convert_source macros m fuel page src None = CPanic site) <->
   exists q c x, reaches DEFAULT_SPEC (outermost m) start t q c x /\ unfit x).
Proof.
  intros macros m fuel page src t Hp H. pose proof (C59_parsed _ _ _ _ _ _ Hp H) as Hw.
  rewrite (convert_of_tree macros m fuel page src None t H). rewrite (proj2 (C59_first DEFAULT_SPEC m t Hw)).
  destruct (parse_source_reads _ _ _ _ _ _ Hp H) as (ts & Ht & Hl). apply tokens_slash in Ht; [|exact Hp].
  destruct (root_ok _ _ _ _ _ Ht Hl) as [R1 R2].
  assert (Hs : sane (outermost m)) by (intros [X|X]; discriminate).
  assert (K : forall q c x, reaches DEFAULT_SPEC (outermost m) start t q c x -> (lays DEFAULT_SPEC q x [Crash] <-> unfit x)).
  { intros q c x R. apply reaches_seen in R; [|exact Hs]. destruct (seen_ok _ _ _ _ R R1 R2) as [X1 X2].
    rewrite crash_hopeless. eapply default_hopeless; eauto. }
  split; intros (q & c & x & R & E); exists q, c, x; (split; [exact R|]); eapply K; eauto.
Qed.
Print Assumptions C34_exact.

(** ** Cases *)
(** a label waits for the end of its environment, the caption goes in front,
    blanks at the beginning of a line are dropped: *)
Definition C59_source : text := tx "\begin{figure}\label{l} \caption{C}x^2 \end{figure}$\frac{a}{b}_1$".
Example C59_example : exists t c, reads true DEFAULT_SPEC C59_source t /\
  converts_to DEFAULT_SPEC MText t
    (Written c (tx "#figure(caption: [C],)[ x\^2 ];<l>#math.equation(block: false, $frac(a ,b )_(1 )$);")).
Proof.
  apply (proj1 (C59_output true MText 2 C59_source None _ (le_n _))). exists 300%nat. vm_compute. reflexivity.
Qed.
(** of two unknown commands the first is reported; what is not written is not looked at *)
Example C59_example_error : exists t, reads false DEFAULT_SPEC (tx "\label{\one}\begin{itemize}\two\three") t /\
  converts_to DEFAULT_SPEC MMath t (Failed (EUnknownCommand (tx "two"))).
Proof.
  apply (proj1 (C59_error false MMath 2 (tx "\label{\one}\begin{itemize}\two\three") None _ (le_n _))). exists 300%nat. vm_compute. reflexivity.
Qed.
(** the error comes before the missing argument *)
Example C34_exact_example : exists t, parse_source true 300 2 DEFAULT_SPEC (tx "a\label") = Ok t /\
  exists q c x, reaches DEFAULT_SPEC (outermost MText) start t q c x /\ unfit x.
Proof.
  eexists. split; [vm_compute; reflexivity|]. apply (C34_exact true MText 300 2 (tx "a\label")); [apply le_n|vm_compute; reflexivity|].
  eexists. vm_compute. reflexivity.
Qed.
