(** Layouts exist for all elements; the converter writes them, and nothing else. *)
From Verif Require Export RenderMain.
From Verif Require Import ConvTerm.
Local Open Scope N_scope.

(** ** Places stay sane, and layouts go down *)
Lemma sane_mode m p : sane p -> sane (in_mode m p). Proof. exact (fun H => H). Qed.
Lemma sane_within e p : sane (within e p).
Proof. unfold sane, is_list, within. cbn. intros [-> | ->]; lia. Qed.
Lemma sane_group p : sane p -> sane (group_place p).
Proof. intros H. unfold group_place. destruct (mode_of p), (env_of p) eqn:E; auto using sane_within. Qed.
Lemma sane_command p tn : sane p -> sane (command_place p tn).
Proof. intros H. unfold command_place. destruct (teqb tn _); auto using sane_within. Qed.

Lemma in_puts q x p l : In (Put q x) (map (Put p) l) -> q = p /\ In x l.
Proof. intros H. apply in_map_iff in H as (y & E & Hy). injection E as <- <-. auto. Qed.
Lemma in_commas q x k p l : In (Put q x) (commas k p l) -> q = p /\ In x l.
Proof.
  induction l as [|t l IH]; [intros []|]. destruct l as [|t2 l].
  - intros [E|[]]. injection E as <- <-. cbn. auto.
  - change (commas k p (t :: t2 :: l)) with (Put p t :: (if kind_eqb (tkind t) k then [Txt (tx ",")] else []) ++ commas k p (t2 :: l)).
    intros [E|H]; [injection E as <- <-; cbn; auto|]. apply in_app_or in H as [H|H].
    + destruct (kind_eqb _ _); [destruct H as [H|[]]; discriminate|destruct H].
    + apply IH in H as [-> H]. split; [reflexivity|now right].
Qed.
Lemma in_bracketed q x p l : In (Put q x) (flat_map (in_brackets p) l) -> q = in_mode MText p /\ In x l.
Proof.
  intros H. apply in_flat_map in H as (t & Ht & H). unfold in_brackets in H. destruct (kind_eqb _ _); [|destruct H].
  repeat destruct H as [H|H]; try discriminate; try contradiction. injection H as <- <-. auto.
Qed.
Lemma in_arguments q x p l : forall n, In (Put q x) (decimal_argument n l (fun a => [Put p a])) -> q = p /\ In x l.
Proof.
  induction l as [|a l IH]; intros n; [intros []|]. cbn [decimal_argument app]. intros [H|[H|[H|H]]]; try discriminate.
  - injection H as <- <-. cbn. auto.
  - apply IH in H as [-> H]. split; [reflexivity|now right].
Qed.
Lemma in_cells q x p l : forall b, In (Put q x) (cells p b l) -> q = p /\ In x l.
Proof.
  induction l as [|t l IH]; intros b; [intros []|].
  assert (T : forall o b', In (Put q x) (Txt o :: cells p b' l) -> q = p /\ In x (t :: l)).
  { intros o b' [H|H]; [discriminate|]. apply IH in H as [-> H]. split; [reflexivity|now right]. }
  assert (U : forall b', In (Put q x) (Put p t :: cells p b' l) -> q = p /\ In x (t :: l)).
  { intros b' [H|H]; [injection H as <- <-; cbn; auto|]. apply IH in H as [-> H]. split; [reflexivity|now right]. }
  assert (V : In (Put q x) (cells p false l) -> q = p /\ In x (t :: l)) by (intros H; apply IH in H as [-> H]; split; [reflexivity|now right]).
  assert (W : In (Put q x) (match rule_of t with Some o => Txt o :: cells p false l | None => Txt (tx "[") :: Put p t :: cells p true l end) -> q = p /\ In x (t :: l)).
  { destruct (rule_of t); [apply T|]. intros [H|H]; [discriminate|]. exact (U _ H). }
  cbn [cells]. destruct (tkind t), b; solve [apply T|apply U|apply V|apply W].
Qed.
Lemma in_operands t x : In x (operands t) -> In x (children t).
Proof. intros H. now apply filter_In in H. Qed.
Lemma in_inside t x : In x (inside t) -> In x (children t).
Proof. intros H. now apply filter_In in H. Qed.
Lemma in_figure t x : In x (figure_body t) -> In x (children t).
Proof. intros H. apply filter_In in H as [H _]. now apply in_inside. Qed.
Lemma in_args t x : In x (arguments t) -> In x (children t) /\ is_argument x.
Proof.
  unfold arguments, nodes_of. intros H. apply filter_In in H as [H Hk]. split; [exact H|]. apply andb_prop in Hk as [Hn Hk].
  apply has_kind_iff in Hk. destruct x as [k s|k ch]; [discriminate|]. cbn in Hk. now subst k.
Qed.
Lemma in_env_args t x : In x (env_arguments t) -> exists c, In c (children t) /\ In x (children c) /\ is_argument x.
Proof.
  unfold env_arguments. destruct (env_begin t) as [b|] eqn:E; [|intros []]. intros H. apply in_args in H as [H1 H2]. exists b. split; [|auto].
  unfold env_begin, nodes_of in E. destruct (filter _ (children t)) as [|y l] eqn:F; [discriminate|]. injection E as ->.
  assert (G : In b (b :: l)) by now left. rewrite <- F in G. now apply filter_In in G.
Qed.
Lemma solid_in l r x : solid l r -> In x r -> In x l.
Proof. intros (w & _ & -> & _) H. apply in_or_app. now right. Qed.
Lemma model_in l m r x : color_model l m r -> In x r -> In x l.
Proof.
  intros [l' H|y a z r' H1 H2 H3|y a H1 H2] Hx; [assumption| |destruct Hx]. right. apply in_or_app. right. now right.
Qed.
Lemma hd_in {A} (l : list A) x : hd_error l = Some x -> In x l.
Proof. destruct l; [discriminate|]. intros [= ->]. now left. Qed.
Lemma tl_in {A} (l : list A) x : In x (tl l) -> In x l.
Proof. destruct l; [intros []|]. now right. Qed.
Lemma color_below t name model color body x : tkind t = ItemCmd -> color_parts t name model color body -> color = Some x \/ In x body -> under x t.
Proof.
  intros Hk H Hx. assert (NO : ~ opaque_kind (tkind t)) by (rewrite Hk; intros X; repeat destruct X as [X|X]; try discriminate; contradiction).
  assert (A : forall a r y, arguments t = a :: r -> In y (a :: r) -> under y t).
  { intros a r y E Hy. rewrite <- E in Hy. apply in_args in Hy as [Hy _]. left. auto. }
  destruct H as [root r l model l1 l2 Ha Hs Hm Hs2|name Hn Ha|name a m r Hn Ha Et|name a r Hn Ha Et].
  - right. exists root. split; [apply (in_args t root); rewrite Ha; now left|]. split; [|left; exact Hk].
    eapply solid_in; [exact Hs|]. eapply model_in; [exact Hm|]. eapply solid_in; [exact Hs2|].
    destruct Hx as [Hx|Hx]; [now apply hd_in|now apply tl_in].
  - destruct Hx as [Hx|Hx]; [discriminate|destruct Hx].
  - eapply A; [exact Ha|]. right. destruct Hx as [Hx|Hx]; [now apply hd_in|now apply tl_in].
  - eapply A; [exact Ha|]. destruct Hx as [Hx|Hx]; [injection Hx as ->; now left|now right].
Qed.
Lemma color_puts q x p al model color body : In (Put q x) (color_pieces p al model color body) ->
  (q = p \/ q = in_mode MText p) /\ (color = Some x \/ In x body).
Proof.
  unfold color_pieces. intros H. apply in_app_or in H as [[H|[]]|H]; [discriminate|]. apply in_app_or in H as [H|H].
  - destruct color as [c|]; destruct H as [H|[]]; [|discriminate]. injection H as <- <-. auto.
  - apply in_app_or in H as [[H|[]]|H]; [discriminate|]. destruct (mode_of p).
    + apply in_app_or in H as [H|[H|[]]]; [|discriminate]. apply in_puts in H as [-> H]. auto.
    + apply in_app_or in H as [H|[H|[]]]; [|discriminate]. apply in_flat_map in H as (b & Hb & H).
      repeat destruct H as [H|H]; try discriminate; try contradiction. injection H as <- <-. auto.
Qed.

Ltac dig H := repeat (first [apply in_app_or in H as [H|H] | destruct H as [H|H]]); try discriminate; try contradiction.
Lemma layout_below sp p t ps q x : sane p -> lays sp p t ps -> In (Put q x) ps -> sane q /\ under x t.
Proof.
  intros Hsane Hl Hin.
  assert (Child : forall k ch q, ~ opaque_kind k -> sane q -> In x ch -> sane q /\ under x (Node k ch)).
  { intros k ch q0 Hk Hq Hx. split; [exact Hq|]. left. auto. }
  assert (NO : forall k, In k [ItemLR; ClauseArgument; ScopeRoot; ItemText; ItemBracket; ItemParen; ItemFormula; ItemCurly; ClauseLR; ItemAttachComponent; ItemCmd; ItemEnv] -> ~ opaque_kind k).
  { intros k Hk X. repeat destruct X as [<- |X]; try contradiction; repeat destruct Hk as [Hk|Hk]; try discriminate; contradiction. }
  assert (Cmd : forall t name q, command_named t name -> sane q -> In x (children t) -> sane q /\ under x t).
  { intros t0 name q0 [Hk _] Hq Hx. split; [exact Hq|]. left. split; [exact Hx|]. rewrite Hk. apply NO. cbn. tauto. }
  assert (Env : forall t name q, environment_named t name -> sane q -> In x (children t) -> sane q /\ under x t).
  { intros t0 name q0 [Hk _] Hq Hx. split; [exact Hq|]. left. split; [exact Hx|]. rewrite Hk. apply NO. cbn. tauto. }
  destruct Hl as [s|s|s|k s o Ho|k s o Ho|y name sh Hg|y name Hg|s|t Hk|k ch Hk|ch|ch|k ch Hk|ch i Hd|ch Hd|ch Hh|ch Hm Hh|k y name ch
    |ch Hm|ch Hm Hf|l1 k m l2 Hm Hf Hb Hk|l1 k m l2 Hm Hb Hk
    |t Hn Hi|t Hn Hi|t l Hn Hla|t Hn Hla|t o Hn Hgr|t Hn Hgr|t name model color body Hn Hc Hcp|t Hn Ha
    |t name Hn Hsp Hg|t name sh Hn Hsp Hg Hc|t name sh tn k ch r Hn Hsp Hg Hc Ho Et|t name sh Hn Hsp Hg Hc Ho|t name sh tn Hn Hsp Hg Hc1 Hc2 Et Hm Hh|t name sh tn Hn Hsp Hg Hc1 Hc2 Et Hm
    |t name Hn Hg|t name sh Hn Hg Hf|t name sh r Hn Hg Hf Hq|t name sh Hn Hg Hf|t name sh o Hn Hg Hf Hc|t name sh y Hn Hg Hf Hx Hxc Hxa
    |t name sh cols Hn Hg Hf Hc Hgood|t name sh good y rest Hn Hg Hf Hc Hgood Hx|t name sh Hn Hg Hf Hc].
  all: try (exfalso; cbn in Hin; repeat destruct Hin as [Hin|Hin]; try discriminate; contradiction).
  - apply in_puts in Hin as [-> Hin]. apply Child; [|assumption..]. apply NO. unfold container_kind in Hk. cbn in Hk |- *. tauto.
  - destruct Hin as [Hin|Hin]; [discriminate|]. apply in_app_or in Hin as [Hin|[Hin|[]]]; [|discriminate]. apply in_puts in Hin as [-> Hin].
    apply Child; [|assumption..]. apply NO. cbn. tauto.
  - apply in_puts in Hin as [-> Hin]. apply Child; [|now apply sane_group|assumption]. apply NO. cbn. tauto.
  - apply in_app_or in Hin as [Hin|[Hin|[]]]; [|discriminate]. apply in_puts in Hin as [-> Hin]. apply Child; [|now apply sane_group|assumption]. apply NO. cbn. tauto.
  - apply in_app_or in Hin as [Hin|Hin]; [destruct (teqb name _); [destruct Hin as [Hin|[]]; discriminate|destruct Hin]|].
    apply in_app_or in Hin as [Hin|Hin]; [|destruct (teqb name _); [destruct Hin as [Hin|[]]; discriminate|destruct Hin]].
    apply in_flat_map in Hin as (a & Ha & Hin). apply in_app_or in Hin as [Hin|[Hin|[]]]; [|discriminate].
    assert (E : In (Put q x) [Put p a]).
    { destruct a as [k' s|k' c]; [|exact Hin]. destruct k'; try exact Hin. destruct (teqb s _); [destruct Hin|exact Hin]. }
    destruct E as [E|[]]. injection E as <- <-. apply Child; [apply NO; cbn; tauto|assumption|now right].
  - apply in_puts in Hin as [-> Hin]. apply Child; [apply NO; cbn; tauto|assumption..].
  - apply in_puts in Hin as [-> Hin]. apply Child; [apply NO; cbn; tauto|assumption..].
  - apply in_app_or in Hin as [Hin|[Hin|Hin]]; [|discriminate|].
    + apply in_puts in Hin as [-> Hin]. apply Child; [apply NO; cbn; tauto|assumption|]. apply in_or_app. auto.
    + apply in_app_or in Hin as [Hin|[Hin|[]]]; [|discriminate]. apply in_puts in Hin as [-> Hin]. apply Child; [apply NO; cbn; tauto|assumption|]. apply in_or_app. cbn. auto.
  - apply in_app_or in Hin as [Hin|[Hin|Hin]]; [|discriminate|].
    + apply in_puts in Hin as [-> Hin]. apply Child; [apply NO; cbn; tauto|assumption|]. apply in_or_app. auto.
    + apply in_app_or in Hin as [Hin|[Hin|[]]]; [|discriminate]. apply in_puts in Hin as [-> Hin]. apply Child; [apply NO; cbn; tauto|assumption|]. apply in_or_app. cbn. auto.
  - unfold label_pieces in Hin. exfalso. destruct (env_of p), (mode_of p); cbn in Hin; repeat destruct Hin as [Hin|Hin]; try discriminate; contradiction.
  - apply color_puts in Hin as [Hq Hin]. split; [destruct Hq as [-> | ->]; assumption|]. eapply color_below; [exact (proj1 Hn)|exact Hcp|exact Hin].
  - destruct Hin as [Hin|Hin]; [discriminate|]. apply in_app_or in Hin as [Hin|[Hin|[]]]; [|discriminate]. apply in_commas in Hin as [-> Hin].
    split; [now apply sane_command|]. right. exists (Node k ch). split; [apply in_operands; rewrite Ho; now left|]. split; [exact Hin|]. left. exact (proj1 Hn).
  - destruct Hin as [Hin|Hin]; [discriminate|]. apply in_app_or in Hin as [Hin|[Hin|[]]]; [|discriminate]. apply in_commas in Hin as [-> Hin].
    eapply Cmd; [exact Hn|now apply sane_command|now apply in_operands].
  - destruct Hin as [Hin|Hin]; [discriminate|]. apply in_app_or in Hin as [Hin|[Hin|[]]]; [|discriminate]. apply in_bracketed in Hin as [-> Hin].
    eapply Cmd; [exact Hn|apply sane_mode; now apply sane_command|now apply in_operands].
  - apply in_puts in Hin as [-> Hin]. eapply Env; [exact Hn|apply sane_within|now apply in_inside].
  - destruct Hin as [Hin|Hin]; [discriminate|]. apply in_app_or in Hin as [Hin|Hin].
    + apply in_arguments in Hin as [-> Hin]. subst r. split; [apply sane_mode, sane_within|]. apply in_env_args in Hin as (c & H1 & H2 & H3).
      right. exists c. split; [exact H1|]. split; [exact H2|]. right. split; [exact (proj1 Hn)|exact H3].
    + apply in_app_or in Hin as [Hin|[Hin|Hin]]; [|discriminate|unfold labels in Hin; destruct (mode_of p); [destruct Hin as [Hin|[]]; discriminate|destruct Hin]].
      apply in_puts in Hin as [-> Hin]. subst r. eapply Env; [exact Hn|apply sane_mode, sane_within|now apply in_inside].
  - destruct Hin as [Hin|Hin]; [discriminate|]. apply in_app_or in Hin as [Hin|[Hin|Hin]]; [|discriminate|unfold labels in Hin; destruct (mode_of p); [destruct Hin as [Hin|[]]; discriminate|destruct Hin]].
    apply in_puts in Hin as [-> Hin]. eapply Env; [exact Hn|apply sane_within|now apply in_inside].
  - destruct Hin as [Hin|Hin]; [discriminate|]. apply in_app_or in Hin as [Hin|[Hin|Hin]]; [|discriminate|].
    + destruct o as [a|]; [|destruct Hin]. repeat destruct Hin as [Hin|Hin]; try discriminate; try contradiction. injection Hin as <- <-.
      split; [apply sane_within|]. right.
      inversion Hc as [|l1 y a' r l2 H1 H2 H3 H4 E1 E2]. subst a'. exists y. split; [apply in_or_app; right; now left|].
      assert (Ha : In a (arguments y)) by (rewrite H2; now left). apply in_args in Ha as [Ha1 Ha2]. split; [exact Ha1|]. right. split; [exact (proj1 Hn)|exact Ha2].
    + apply in_app_or in Hin as [Hin|[Hin|Hin]]; [|discriminate|unfold labels in Hin; destruct (mode_of p); [destruct Hin as [Hin|[]]; discriminate|destruct Hin]].
      apply in_puts in Hin as [-> Hin]. eapply Env; [exact Hn|apply sane_within|now apply in_figure].
  - destruct Hin as [Hin|Hin]; [discriminate|]. apply in_app_or in Hin as [Hin|[Hin|Hin]]; [|discriminate|unfold labels in Hin; destruct (mode_of p); [destruct Hin as [Hin|[]]; discriminate|destruct Hin]].
    apply in_cells in Hin as [-> Hin]. eapply Env; [exact Hn|apply sane_within|now apply in_inside].
Qed.

(** ** Every element has a layout *)
Lemma marks_or l : Forall (fun t => ~ script_mark t) l \/
  exists l1 k m l2, l = l1 ++ Leaf k m :: l2 /\ Forall (fun t => ~ script_mark t) l1 /\ script_mark (Leaf k m).
Proof.
  induction l as [|t l IH]; [left; constructor|]. destruct (mark_dec t) as [H|H].
  - right. destruct t as [k s|k ch]; [|contradiction]. exists [], k, s, l. repeat split; [constructor|exact H].
  - destruct IH as [IH|(l1 & k & m & l2 & -> & H1 & H2)]; [left; now constructor|]. right. exists (t :: l1), k, m, l2. repeat split; [now constructor|exact H2].
Qed.
Lemma blanks_or l : Forall blank_leaf l \/ ~ Forall blank_leaf l.
Proof.
  rewrite <- blanks_spec. destruct (forallb _ l); [now left|right]. discriminate.
Qed.
Lemma delimited_or t : (exists i, delimited t i) \/ forall i, ~ delimited t i.
Proof.
  destruct (formula_is_valid t) eqn:E; [left; eexists; now apply delimited_valid|]. right. intros i H. apply valid_delimited in H as [H _]. congruence.
Qed.
Lemma label_or t : (exists l, label_of t l) \/ forall l, ~ label_of t l.
Proof.
  destruct (arguments t) as [|a r] eqn:E; [right; intros l (a & r & m & Ha & _); congruence|].
  destruct (strip_ends_or "" (tree_text a)) as [(m & _ & Hm)|[_ Hm]].
  - left. exists (trim m), a, r, m. auto.
  - right. intros l (a' & r' & m & Ha & Hc & _). assert (a' = a) as -> by congruence. now apply Hm in Hc.
Qed.
Lemma graphics_or t : (exists o, graphics t o) \/ forall o, ~ graphics t o.
Proof.
  destruct (graphics_total t (st (outermost MText) (mk_carry true None))) as [[o H]|[e H]].
  - left. exists o. eapply graphics_iff, H.
  - right. intros o Ho. eapply graphics_iff in Ho. rewrite H in Ho. discriminate.
Qed.
Lemma color_or t name : In name colored -> (exists m c b, color_parts t name m c b) \/ name = tx "color" /\ arguments t = [].
Proof.
  intros Hn. destruct (color_args_total t name Hn) as [(m & c & b & H)|(_ & H)]; [left|now right].
  exists m, c, b. now apply color_args_ok.
Qed.
Lemma columns_text_or t : (exists s, column_text t s) \/ forall s, ~ column_text t s.
Proof.
  destruct (env_arguments t) as [|a r] eqn:E; [right; intros l (a & r & m & Ha & _); congruence|].
  destruct (strip_ends_or "" (tree_text a)) as [(m & _ & Hm)|[_ Hm]].
  - left. exists (trim m), a, r, m. auto.
  - right. intros l (a' & r' & m & Ha & Hc & _). assert (a' = a) as -> by congruence. now apply Hm in Hc.
Qed.
Lemma special_or name : name = tx "item" \/ name = tx "label" \/ name = tx "includegraphics" \/ In name colored \/ ~ In name special_names.
Proof.
  destruct (in_dec (list_eq_dec N.eq_dec) name special_names) as [H|H]; [|auto].
  repeat destruct H as [<- |H]; try contradiction; auto; do 3 right; left; cbn; auto.
Qed.
Lemma first_node_or l : (exists k ch r, l = Node k ch :: r) \/ forall k ch r, l <> Node k ch :: r.
Proof.
  destruct l as [|[k s|k ch] r]; [right; discriminate|right; discriminate|left; eauto].
Qed.

Lemma lays_cmd sp p t name : command_named t name -> exists ps, lays sp p t ps.
Proof.
  intros Hn. destruct (special_or name) as [-> |[-> |[-> |[Hc|Hs]]]].
  - destruct (env_of p) eqn:E; try (eexists; apply la_stray_item; [exact Hn|]; rewrite E; intros [X|X]; discriminate).
    all: eexists; apply la_item; [exact Hn|rewrite E; unfold is_list; auto].
  - destruct (label_or t) as [[l H]|H]; [eexists; eapply la_label; eauto|eexists; eapply la_no_label; eauto].
  - destruct (graphics_or t) as [[l H]|H]; [eexists; eapply la_graphics; eauto|eexists; eapply la_no_graphics; eauto].
  - destruct (color_or t name Hc) as [(m & c & b & H)|[-> H]]; [eexists; eapply la_color; eauto|eexists; eapply la_no_color; eauto].
  - destruct (get_cmd sp name) as [sh|] eqn:Hg; [|eexists; eapply la_unknown; eauto].
    assert (K : cs_args sh <> SRight PNone -> cs_args sh <> SRight PGreedy -> exists ps, lays sp p t ps).
    { intros N1 N2. destruct (mode_of p) eqn:Em; [eexists; eapply la_text_call; eauto|].
      destruct (hd_error (typst_name p name (cs_alias sh))) as [h|] eqn:Eh; [|eexists; eapply la_math_call; eauto; rewrite Eh; discriminate].
      destruct (N.eq_dec h 35) as [-> |N3]; [eexists; eapply la_text_call; eauto|eexists; eapply la_math_call; eauto; rewrite Eh; congruence]. }
    destruct (cs_args sh) as [pt| |] eqn:Ea; [|apply K; discriminate..]. destruct pt; try (apply K; discriminate).
    + eexists; eapply la_bare; eauto.
    + destruct (first_node_or (operands t)) as [(k & ch & r & H)|H]; [eexists; eapply la_greedy; eauto|eexists; eapply la_greedy_nothing; eauto].
Qed.
Lemma lays_env sp p t name : well_shaped t -> environment_named t name -> exists ps, lays sp p t ps.
Proof.
  intros Hw Hn. destruct (get_env sp name) as [sh|] eqn:Hg; [|eexists; eapply la_unknown_env; eauto].
  destruct (en_feature sh) eqn:Ef.
  - eexists; eapply la_plain_env; eauto.
  - eexists; eapply la_math_env; eauto. rewrite Ef. cbn; auto.
  - eexists; eapply la_math_env; eauto. rewrite Ef. cbn; auto.
  - eexists; eapply la_math_env; eauto. rewrite Ef. cbn; auto.
  - destruct (shaped_env _ _ (well_shaped_self _ Hw) Hn) as (ch & n & -> & _ & _).
    destruct (caption_ok ch (children_named _ Hw) None) as [(y & Hy & H1 & H2 & _)|(o & _ & Hcap)].
    + eexists; eapply la_bad_figure; eauto.
    + eexists; eapply la_figure; eauto.
  - destruct (columns_text_or t) as [[s H]|H]; [|eexists; eapply la_no_columns; eauto].
    destruct (columns_or s) as [G|(good & c & rest & -> & G1 & G2)]; [eexists; eapply la_table; eauto|eexists; eapply la_bad_column; eauto].
  - eexists; eapply la_list; eauto. rewrite Ef. cbn. unfold is_list. auto.
  - eexists; eapply la_list; eauto. rewrite Ef. cbn. unfold is_list. auto.
Qed.
Theorem lays_total sp p t : well_shaped t -> exists ps, lays sp p t ps.
Proof.
  intros Hw. pose proof (well_shaped_self _ Hw) as Hs. destruct t as [k s|k ch].
  - destruct Hs as [Hk Hs].
    destruct k; try (exfalso; clear -Hk; repeat destruct Hk as [Hk|Hk]; try discriminate; contradiction);
      try (eexists; eapply la_punctuation; reflexivity); try (eexists; eapply la_placed; reflexivity);
      try (eexists; constructor; fail).
    + eexists; apply la_error; reflexivity.
    + destruct (Hs eq_refl) as [name ->]. destruct (get_cmd sp name) as [sh|] eqn:E; [eexists; eapply la_symbol; exact E|eexists; eapply la_unknown_symbol; exact E].
  - destruct Hs as [Hk Hs].
    destruct k; try (exfalso; clear -Hk; repeat destruct Hk as [Hk|Hk]; try discriminate; contradiction);
      try (eexists; apply la_container; unfold container_kind; cbn; tauto).
    + eexists; apply la_error; reflexivity.
    + destruct Hs as (k' & name & r & ->). eexists; apply la_delimiter.
    + destruct (mode_of p) eqn:Em; [eexists; apply la_group; auto|]. destruct (forallb is_brace_or_space ch) eqn:E.
      * eexists; apply la_hollow_group; [exact Em|now apply hollow_spec].
      * eexists; apply la_group. right. intros X. apply hollow_spec in X. congruence.
    + destruct Hs as [name Hn]. eapply lays_cmd. split; [reflexivity|]. eexists; exact Hn.
    + destruct Hs as [name Hn]. eapply lays_env; [exact Hw|]. split; [reflexivity|]. eexists; split; [exact Hn|reflexivity].
    + eexists; apply la_clause; auto.
    + eexists; apply la_clause; auto.
    + eexists; apply la_comment.
    + eexists; apply la_code.
    + destruct (mode_of p) eqn:Em; [eexists; now apply la_script_text|]. destruct (marks_or ch) as [H|(l1 & k & m & l2 & -> & H1 & H2)]; [eexists; now apply la_no_script|].
      destruct (blanks_or l1) as [H|H]; [eexists; now apply la_script_alone|eexists; now apply la_script].
    + destruct (delimited_or (Node ItemFormula ch)) as [[i H]|H]; [eexists; eapply la_formula; eauto|eexists; now apply la_bad_formula].
Qed.

(** ** The converter *)
Section Conv.
Variable sp : spec.
Definition out_of (r : cout) : outcome :=
  match r with COk (s, x) => Written (mk_carry (c_skip s) (c_label s)) x | CErr e => Failed e | _ => Crashed end.
Definition out (n : nat) (p : place) (c : carry) (t : tree) : outcome := out_of (convert sp n t (st p c)).
Lemma shows_out p r o : shows p r o -> out_of r = o.
Proof.
  destruct r as [[s x]|e|e|], o as [[f w] y|e'|]; cbn [shows]; try contradiction; [|now intros ->|reflexivity].
  intros [-> ->]. reflexivity.
Qed.
Lemma comes_interp F ps : (forall q x, In (Put q x) ps -> forall c, renders sp q c x (F q c x)) ->
  forall c, comes_to sp c ps (interp F ps c).
Proof.
  induction ps as [|a ps IH]; intros H c; [constructor|].
  assert (G := IH (fun q x Hx => H q x (or_intror Hx))). destruct a; cbn [interp]; try (constructor; apply G).
  specialize (H p t (or_introl eq_refl) c). destruct (F p c t) as [c1 x|e|]; cbn [then_]; econstructor; eauto.
Qed.
Lemma interp_comes F ps : (forall q x, In (Put q x) ps -> forall c o, renders sp q c x o -> o = F q c x) ->
  forall c o, comes_to sp c ps o -> o = interp F ps c.
Proof.
  induction ps as [|a ps IH]; intros H c o Ho; [now inversion Ho|].
  assert (G := IH (fun q x Hx => H q x (or_intror Hx))).
  inversion Ho; subst; cbn [interp]; try reflexivity; try (f_equal; now apply G); try now apply G.
  all: match goal with R : renders _ _ _ _ _ |- _ => apply (H _ _ (or_introl eq_refl)) in R; rewrite <- R end; cbn [then_]; try reflexivity.
  f_equal. now apply G.
Qed.
Lemma well_under t x : well_shaped t -> under x t -> well_shaped x.
Proof. intros H Hu y Hy. apply H. eapply under_seen; eauto. Qed.

Lemma convert_shows n : forall t p c, (height t <= n)%nat -> sane p -> well_shaped t ->
  shows p (convert sp n t (st p c)) (out n p c t) /\ renders sp p c t (out n p c t).
Proof.
  induction n as [|n IH]; intros t p c Hh Hp Hw; [destruct t; cbn in Hh; lia|].
  destruct (lays_total sp p t Hw) as [ps Hl].
  assert (P : forall q x, In (Put q x) ps -> forall c, shows q (convert sp n x (st q c)) (out n q c x) /\ renders sp q c x (out n q c x)).
  { intros q x Hx c'. destruct (layout_below sp p t ps q x Hp Hl Hx) as [Hq Hu]. apply IH; [|exact Hq|eapply well_under; eauto].
    apply height_under in Hu. lia. }
  assert (S := step_shows sp (convert sp n) (out n) p t ps c Hp Hw Hl (fun q x Hx c' => proj1 (P q x Hx c'))).
  assert (E : out (Datatypes.S n) p c t = interp (out n) ps (at_element t c)) by (unfold out at 1; cbn [convert]; now apply shows_out in S).
  rewrite E. split; [exact S|]. econstructor; [exact Hl|]. apply comes_interp. intros q x Hx c'. apply (P q x Hx).
Qed.
Lemma renders_convert n : forall t p c o, (height t <= n)%nat -> sane p -> well_shaped t -> renders sp p c t o -> o = out n p c t.
Proof.
  induction n as [|n IH]; intros t p c o Hh Hp Hw Ho; [destruct t; cbn in Hh; lia|].
  inversion Ho as [p0 c0 t0 ps o0 Hl Hc]; subst.
  assert (B : forall q x, In (Put q x) ps -> (height x <= n)%nat /\ sane q /\ well_shaped x).
  { intros q x Hx. destruct (layout_below sp p t ps q x Hp Hl Hx) as [Hq Hu]. split; [|split; [exact Hq|eapply well_under; eauto]].
    apply height_under in Hu. lia. }
  assert (S := step_shows sp (convert sp n) (out n) p t ps c Hp Hw Hl).
  assert (E : out (Datatypes.S n) p c t = interp (out n) ps (at_element t c)).
  { unfold out at 1; cbn [convert]. apply (shows_out p). apply S. intros q x Hx c'. destruct (B q x Hx) as (H1 & H2 & H3). now apply convert_shows. }
  rewrite E. apply interp_comes; [|exact Hc]. intros q x Hx c' o' Ho'. destruct (B q x Hx) as (H1 & H2 & H3). eapply IH; eauto.
Qed.
End Conv.

(** what a conversion answers, and what it means *)
Definition means (r : cres text) (o : outcome) : Prop :=
  match r, o with
  | COk x, Written _ y => x = y
  | CErr e, Failed e' => e = e'
  | CPanic _, Crashed => True
  | _, _ => False
  end.
Theorem convert_renders sp m t : well_shaped t ->
  exists o, converts_to sp m t o /\ means (convert_tree sp m t) o /\ forall o', converts_to sp m t o' -> o' = o.
Proof.
  intros Hw. set (c0 := mk_carry true None). exists (out sp (S (height t)) (outermost m) c0 t).
  assert (Hs : sane (outermost m)) by (intros [X|X]; discriminate).
  destruct (convert_shows sp (S (height t)) t (outermost m) c0 (Nat.le_succ_diag_r _) Hs Hw) as [G R].
  split; [exact R|]. split.
  - unfold convert_tree. change (cst_new m) with (st (outermost m) c0).
    destruct (convert sp (S (height t)) t (st (outermost m) c0)) as [[s x]|e|e|]; destruct (out sp (S (height t)) (outermost m) c0 t) as [c' y|e'|]; cbn in *; try contradiction; auto.
    now destruct G.
  - intros o' Ho. apply (renders_convert sp (S (height t)) t (outermost m) c0 o'); auto.
Qed.
