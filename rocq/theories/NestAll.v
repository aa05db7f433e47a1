(** All elements keep the brackets and dollars nested (C69). *)
From Verif Require Export NestStep.
From Verif Require Import ConvFacts ConvTerm RenderAll P_Conv4 P_Render NestLeaf RenderSpec NestSpec.
Local Open Scope N_scope.

Section All.
  Variable gm : text -> text -> bool.
  Variables sp' sp : spec.
  Hypothesis Hnames : names_even sp.
  Variable b0 : bool.
  Notation moves := (NestFacts.moves b0).
  Notation good := (NestStep.good gm sp' sp).
  Notation fits := (NestStep.fits b0).
  Notation goes := (NestStep.goes b0).
  Notation calm := (NestStep.calm b0).

  Lemma one_txt st s st' : moves st s st' -> goes st [Txt s] st'.
  Proof. intros H. eapply go_txt; [exact H|constructor]. Qed.
  Lemma quiet_one st s : quiet s -> goes st [Txt s] st.
  Proof. intros H. apply one_txt. now apply moves_quiet. Qed.
  Ltac noisy := rewrite loud_iff; intuition discriminate.
  Ltac q := repeat (constructor; [noisy|]); constructor.

  Lemma lays_goes p t ps st st' : good t -> fits p t st st' -> lays sp p t ps -> goes st ps st'.
  Proof.
    intros Hg Hf Hl. pose proof (proj1 Hf) as Hc.
    assert (Hself : forall k s, t = Leaf k s -> copied k -> quiet s).
    { intros k s -> Hk. eapply quiet_seen; [exact Hg|constructor|exact Hk]. }
    assert (Ht : tidy sp t) by (apply (proj2 Hg); constructor). destruct Ht as (T1 & T2 & T3 & T4 & T5 & T6).
    assert (P : role_of t = Plain -> goes st ps st -> goes st ps st').
    { intros E H. rewrite (fits_plain b0 p t st st' Hf E). exact H. }
    assert (NO : forall k, In k [ItemLR; ClauseArgument; ScopeRoot; ItemText; ItemBracket; ItemParen; ItemFormula; ItemCurly; ClauseLR; ItemAttachComponent; ItemCmd; ItemEnv] -> ~ opaque_kind k).
    { intros k Hk X. repeat destruct X as [<- |X]; try contradiction; repeat destruct Hk as [Hk|Hk]; try discriminate; contradiction. }
    assert (CH : forall k ch, t = Node k ch -> In k [ClauseArgument; ScopeRoot; ItemText; ItemBracket; ItemParen; ItemFormula; ItemCurly; ItemAttachComponent] ->
        role_of t = Plain /\ Forall (fun x => role_of x = Plain) ch).
    { intros k ch -> Hk. assert (K1 : k <> ItemLR /\ k <> ClauseLR) by (split; intros ->; repeat destruct Hk as [Hk|Hk]; try discriminate; contradiction).
      destruct K1 as [K1 K2]. split; [apply ordinary_role; exact K2|]. apply (roles_children gm sp' sp (Node k ch)); auto. apply NO. cbn in Hk |- *. tauto. }
    assert (Cmd : forall name, command_named t name -> role_of t = Plain /\ forall l, (forall x, In x l -> under x t) -> Forall (fun x => role_of x = Plain) l).
    { intros name [Hk _]. split; [apply ordinary_role; destruct t; cbn in *; subst; discriminate|]. intros l Hl'.
      apply (roles_under gm sp' sp t); auto; rewrite Hk; discriminate. }
    assert (CmdCh : forall name x, command_named t name -> In x (children t) -> under x t).
    { intros name x [Hk _] Hx. left. split; [exact Hx|]. rewrite Hk. apply NO. cbn. tauto. }
    assert (Env : forall name, environment_named t name -> role_of t = Plain /\ forall l, (forall x, In x l -> under x t) -> Forall (fun x => role_of x = Plain) l).
    { intros name [Hk _]. split; [apply ordinary_role; destruct t; cbn in *; subst; discriminate|]. intros l Hl'.
      apply (roles_under gm sp' sp t); auto; rewrite Hk; discriminate. }
    assert (EnvCh : forall name x, environment_named t name -> In x (children t) -> under x t).
    { intros name x [Hk _] Hx. left. split; [exact Hx|]. rewrite Hk. apply NO. cbn. tauto. }
    destruct Hl as [s|s|s|k s o Ho|k s o Ho|y name sh Hgc|y name Hgc|s|t Hk|k ch Hk|ch|ch|k ch Hk|ch i Hd|ch Hd|ch Hh|ch Hm Hh|k y name ch
    |ch Hm|ch Hm Hfo|l1 k m l2 Hm Hfo Hb Hk|l1 k m l2 Hm Hb Hk
    |t Hn Hi|t Hn Hi|t l Hn Hla|t Hn Hla|t o Hn Hgr|t Hn Hgr|t name model color body Hn Hco Hcp|t Hn Ha
    |t name Hn Hsp Hgc|t name sh Hn Hsp Hgc Hca|t name sh tn k ch r Hn Hsp Hgc Hca Ho Et|t name sh Hn Hsp Hgc Hca Ho|t name sh tn Hn Hsp Hgc Hc1 Hc2 Et Hm Hh|t name sh tn Hn Hsp Hgc Hc1 Hc2 Et Hm
    |t name Hn Hge|t name sh Hn Hge Hfe|t name sh r Hn Hge Hfe Hq|t name sh Hn Hge Hfe|t name sh o Hn Hge Hfe Hca|t name sh y Hn Hge Hfe Hx Hxc Hxa
    |t name sh cols Hn Hge Hfe Hco Hgood|t name sh good' y rest Hn Hge Hfe Hco Hgood Hx|t name sh Hn Hge Hfe Hco].
    all: try (apply go_fail); try (apply go_crash).
    - (* word *) apply P; [reflexivity|]. assert (Q : quiet s) by (eapply Hself; [reflexivity|unfold copied; cbn; tauto]).
      apply quiet_one. destruct (mode_of p); [exact Q|]. clear -Q. induction Q as [|c s Hc _ IH]; [constructor|]. cbn [flat_map app].
      constructor; [exact Hc|]. constructor; [noisy|exact IH].
    - (* blank *) apply P; [reflexivity|]. apply go_blank; [|constructor]. eapply Hself; [reflexivity|unfold copied; cbn; tauto].
    - (* line *) apply P; [reflexivity|]. apply go_line; [|constructor]. apply quiet_app; [|apply quiet_indent]. eapply Hself; [reflexivity|unfold copied; cbn; tauto].
    - (* punctuation *) apply P; [destruct k; try reflexivity; discriminate|]. apply one_txt.
      destruct k; cbn [punctuation] in Ho; try discriminate; injection Ho as <-; reflexivity.
    - (* marks *) apply P; [destruct k; try reflexivity; discriminate|]. apply one_txt.
      destruct k; cbn [placed] in Ho; try discriminate; injection Ho as <-; [destruct (mode_of p)|destruct (env_of p)|destruct (env_of p)]; reflexivity.
    - (* symbol *) destruct Hf as [_ []].
    - (* comment *) apply P; [reflexivity|constructor].
    - (* code *) apply P; [reflexivity|]. apply one_txt. eapply nested_nest; [apply T6; reflexivity|reflexivity].
    - (* container *) assert (E : k = ItemLR \/ k <> ItemLR) by (destruct k; try (right; discriminate); left; reflexivity). destruct E as [-> |E].
      + apply P; [reflexivity|]. destruct (T1 eq_refl) as (c1 & mid & c2 & Ech & Hc1 & Hc2). cbn [children] in Ech. subst ch.
        destruct Hc1 as (k1 & r1 & ->). destruct Hc2 as (k2 & r2 & ->).
        cbn [map]. apply (go_put b0 p _ st (41 :: st)); [split; [exact Hc|reflexivity]|]. rewrite map_app. apply (goes_app b0 _ _ (41 :: st)).
        * apply goes_puts; [exact Hc|]. eapply Forall_impl; [|eapply pair_middle; exact (proj1 (proj1 Hg))]. intros x. apply ordinary_role.
        * apply (go_put b0 p _ _ st); [split; [exact Hc|reflexivity]|constructor].
      + destruct (CH k ch eq_refl) as [C1 C2].
        { unfold container_kind in Hk. cbn in Hk |- *. destruct Hk as [<- |Hk]; [congruence|tauto]. }
        apply P; [exact C1|]. now apply goes_puts.
    - (* formula *) destruct (CH _ ch eq_refl) as [C1 C2]; [cbn; tauto|]. apply P; [exact C1|]. unfold around_formula. destruct (mode_of p) eqn:Em.
      + assert (F : NestFacts.formula b0 st = false) by auto. destruct i; cbn [fst snd].
        * apply (go_txt b0 _ _ (36 :: 41 :: st)).
          { apply (moves_app b0 (tx "#math.equation(block: false, ") _ (41 :: st)); [reflexivity|]. now apply moves_dollar. }
          apply (goes_app b0 _ _ (36 :: 41 :: st)); [apply goes_puts; [now apply calm_math|exact C2]|]. now apply one_txt.
        * apply (go_txt b0 _ _ (36 :: st)). { apply (moves_app b0 (tx "$") _ (36 :: st)); [now apply moves_dollar|reflexivity]. }
          apply (goes_app b0 _ _ (36 :: st)); [apply goes_puts; [now apply calm_math|exact C2]|]. now apply one_txt.
      + cbn [fst snd]. apply (go_txt b0 _ _ st); [reflexivity|]. apply (goes_app b0 _ _ st); [apply goes_puts; [now apply calm_math|exact C2]|]. now apply one_txt.
    - (* group *) destruct (CH _ ch eq_refl) as [C1 C2]; [cbn; tauto|]. apply P; [exact C1|]. apply goes_puts; [now apply calm_group|exact C2].
    - destruct (CH _ ch eq_refl) as [C1 C2]; [cbn; tauto|]. apply P; [exact C1|]. apply (goes_app b0 _ _ st); [apply goes_puts; [now apply calm_group|exact C2]|].
      now apply one_txt.
    - (* delimiters *)
      assert (M : forall st0, calm p st0 -> goes st0 (flat_map (fun t => (match t with
                        | Leaf TokenWord s => if teqb s (tx ".") then [] else [Put p t]
                        | _ => [Put p t]
                        end) ++ [Txt (tx " ")]) ch) st0).
      { intros st0 H0. destruct Hg as [[[_ H2] _] _]. apply every_node in H2 as [H2 _]. destruct (H2 eq_refl) as (s1 & r & E & Hr). injection E as _ _ _ ->.
        clear -Hr H0. induction Hr as [|x r (kx & s & -> & _) _ IH]; [constructor|]. cbn [flat_map]. apply (goes_app b0 _ _ st0); [|exact IH].
        assert (S : goes st0 [Txt (tx " ")] st0) by now apply one_txt.
        destruct kx; try (apply go_symbol; constructor; fail); try (apply (go_put b0 p _ st0 st0); [split; [exact H0|reflexivity]|exact S]).
        destruct (teqb s _); [exact S|]. apply (go_put b0 p _ st0 st0); [split; [exact H0|reflexivity]|exact S]. }
      destruct Hf as [_ Hf]. cbn [role_of] in Hf. destruct (teqb name (tx "left")) eqn:El.
      + subst st'. apply teqb_eq in El as ->. cbn [app]. apply (go_txt b0 _ _ (41 :: st)); [reflexivity|]. rewrite app_nil_r. now apply M.
      + cbn [app]. destruct (teqb name (tx "right")).
        * subst st. apply (goes_app b0 _ _ (41 :: st')); [now apply M|]. now apply one_txt.
        * subst st'. rewrite app_nil_r. now apply M.
    - (* scripts *) destruct (CH _ ch eq_refl) as [C1 C2]; [cbn; tauto|]. apply P; [exact C1|]. now apply goes_puts.
    - destruct (CH _ ch eq_refl) as [C1 C2]; [cbn; tauto|]. apply P; [exact C1|]. now apply goes_puts.
    - destruct (CH _ _ eq_refl) as [C1 C2]; [cbn; tauto|]. apply P; [exact C1|]. apply Forall_app in C2 as [C2 C3]. apply Forall_cons_iff in C3 as [_ C3].
      assert (Q : quiet m).
      { eapply quiet_seen; [exact Hg| |]; [eapply under_seen; [|apply seen_self]; left; split; [apply in_or_app; right; left; reflexivity|apply NO; cbn; tauto]|].
        destruct k; try contradiction; unfold copied; cbn; tauto. }
      apply (goes_app b0 _ _ st); [now apply goes_puts|]. apply (go_txt b0 _ _ (41 :: st)); [apply (moves_app b0 m _ st); [now apply moves_quiet|reflexivity]|].
      apply (goes_app b0 _ _ (41 :: st)); [now apply goes_puts|now apply one_txt].
    - destruct (CH _ _ eq_refl) as [C1 C2]; [cbn; tauto|]. apply P; [exact C1|]. apply Forall_app in C2 as [C2 C3]. apply Forall_cons_iff in C3 as [_ C3].
      assert (Q : quiet m).
      { eapply quiet_seen; [exact Hg| |]; [eapply under_seen; [|apply seen_self]; left; split; [apply in_or_app; right; left; reflexivity|apply NO; cbn; tauto]|].
        destruct k; try contradiction; unfold copied; cbn; tauto. }
      apply (goes_app b0 _ _ st); [now apply goes_puts|]. apply (go_txt b0 _ _ (41 :: st)).
      { apply (moves_app b0 (tx "zws") _ st); [reflexivity|]. apply (moves_app b0 m _ st); [now apply moves_quiet|reflexivity]. }
      apply (goes_app b0 _ _ (41 :: st)); [now apply goes_puts|now apply one_txt].
    - (* \item *) destruct (Cmd _ Hn) as [C1 _]. apply P; [exact C1|]. apply quiet_one. constructor; [noisy|]. apply quiet_app; [apply quiet_indent|].
      destruct (env_of p); q.
    - (* \label *) destruct (Cmd _ Hn) as [C1 _]. apply P; [exact C1|]. pose proof (T3 l Hn Hla) as Q. unfold label_pieces.
      assert (K : goes st [Keep l] st) by (apply go_keep; [exact Q|constructor]).
      assert (L : goes st [Txt (tx "<" ++ l ++ tx ">")] st) by (apply quiet_one; constructor; [noisy|]; apply quiet_app; [exact Q|q]).
      destruct (env_of p), (mode_of p); first [exact K|exact L|constructor].
    - (* \includegraphics *) destruct (Cmd _ Hn) as [C1 _]. apply P; [exact C1|]. apply one_txt. eapply graphics_moves; eauto.
    - (* colours *) destruct (Cmd _ Hn) as [C1 C2]. apply P; [exact C1|].
      assert (CB : forall x, color = Some x \/ In x body -> under x t) by (intros x; eapply color_below; [exact (proj1 Hn)|exact Hcp]).
      apply goes_color; [exact Hc|now apply (proj2 (proj2 Hnames))| | |].
      + destruct model as [md|]; [|exact I]. eapply T5; [exact Hn|exact Hco|exact Hcp].
      + apply C2. auto.
      + destruct color as [x|]; [|exact I]. assert (F : Forall (fun x => role_of x = Plain) [x]) by (apply C2; intros y [<- |[]]; auto). now apply Forall_inv in F.
    - (* bare *) destruct (Cmd _ Hn) as [C1 _]. apply P; [exact C1|]. apply one_txt. eapply typst_even_blank; eauto.
    - (* greedy *) destruct (Cmd _ Hn) as [C1 C2]. apply P; [exact C1|]. assert (E : even 0 tn = true).
      { subst tn. eapply typst_even; eauto. rewrite Hca. discriminate. }
      apply (go_txt b0 _ _ (41 :: st)); [apply (moves_app b0 tn _ st); [now apply moves_even|reflexivity]|].
      apply (goes_app b0 _ _ (41 :: st)); [|now apply one_txt]. apply goes_commas; [apply calm_command; exact Hc|]. apply C2.
      intros x Hx. right. exists (Node k ch). split; [apply in_operands; rewrite Ho; now left|]. split; [exact Hx|]. left. exact (proj1 Hn).
    - (* call in a formula *) destruct (Cmd _ Hn) as [C1 C2]. apply P; [exact C1|]. assert (E : even 0 tn = true) by (subst tn; eapply typst_even; eauto).
      apply (go_txt b0 _ _ (41 :: st)); [apply (moves_app b0 tn _ st); [now apply moves_even|reflexivity]|].
      apply (goes_app b0 _ _ (41 :: st)); [|now apply one_txt]. apply goes_commas; [apply calm_command; exact Hc|]. apply C2.
      intros x Hx. eapply CmdCh; [exact Hn|now apply in_operands].
    - (* call in a text *) destruct (Cmd _ Hn) as [C1 C2]. apply P; [exact C1|]. assert (E : even 0 tn = true) by (subst tn; eapply typst_even; eauto).
      apply (go_txt b0 _ _ st); [now apply moves_even|]. apply (goes_app b0 _ _ st); [|now apply one_txt]. apply goes_brackets. apply C2.
      intros x Hx. eapply CmdCh; [exact Hn|now apply in_operands].
    - (* lists *) destruct (Env _ Hn) as [C1 C2]. apply P; [exact C1|]. apply goes_puts; [exact Hc|]. apply C2. intros x Hx. eapply EnvCh; [exact Hn|now apply in_inside].
    - (* math environments *) destruct (Env _ Hn) as [C1 C2]. apply P; [exact C1|]. assert (E : even 0 (or_default (en_alias sh) name) = true) by (eapply (proj1 (proj2 Hnames)); eauto).
      assert (D : exists st1, moves st (fst (dollars p)) st1 /\ moves st1 (snd (dollars p)) st).
      { unfold dollars. destruct (mode_of p) eqn:Em; cbn [fst snd]; [|exists st; split; reflexivity]. exists (36 :: st). split; [|reflexivity].
        apply (moves_app b0 (tx "$") _ (36 :: st)); [apply moves_dollar; auto|reflexivity]. }
      destruct D as (st1 & D1 & D2).
      assert (CM : forall x, calm r x) by (intros x X; rewrite Hq in X; discriminate X).
      apply (go_txt b0 _ _ (41 :: st1)); [apply (moves_app b0 _ _ st1); [exact D1|]; apply (moves_app b0 _ _ st1); [now apply moves_even|reflexivity]|].
      apply (goes_app b0 _ _ (41 :: st1)).
      { apply (goes_arguments gm b0 r (41 :: st1)); [apply CM|]. apply C2. intros x Hx. apply in_env_args in Hx as (c & H1 & H2 & H3).
        right. exists c. split; [exact H1|]. split; [exact H2|]. right. split; [exact (proj1 Hn)|exact H3]. }
      apply (goes_app b0 _ _ (41 :: st1)).
      { apply (goes_puts b0 r (41 :: st1)); [apply CM|]. apply C2. intros x Hx. eapply EnvCh; [exact Hn|now apply in_inside]. }
      apply (go_txt b0 _ _ st); [apply (moves_app b0 (tx ")") _ st1); [reflexivity|exact D2]|]. apply goes_labels.
    - (* other environments *) destruct (Env _ Hn) as [C1 C2]. apply P; [exact C1|]. assert (E : even 0 (or_default (en_alias sh) name) = true) by (eapply (proj1 (proj2 Hnames)); eauto).
      apply (go_txt b0 _ _ (93 :: st)); [apply (moves_app b0 (tx "#") _ st); [reflexivity|]; apply (moves_app b0 _ _ st); [now apply moves_even|reflexivity]|].
      apply (goes_app b0 _ _ (93 :: st)).
      { apply goes_puts; [apply calm_square|]. apply C2. intros x Hx. eapply EnvCh; [exact Hn|now apply in_inside]. }
      apply (go_txt b0 _ _ st); [reflexivity|]. apply goes_labels.
    - (* figures *) destruct (Env _ Hn) as [C1 C2]. apply P; [exact C1|]. assert (E : even 0 (or_default (en_alias sh) name) = true) by (eapply (proj1 (proj2 Hnames)); eauto).
      apply (go_txt b0 _ _ (41 :: st)); [apply (moves_app b0 (tx "#") _ st); [reflexivity|]; apply (moves_app b0 _ _ st); [now apply moves_even|reflexivity]|].
      apply (goes_app b0 _ _ (41 :: st)).
      { destruct o as [a|]; [|constructor].
        assert (F : Forall (fun x => role_of x = Plain) [a]).
        { apply C2. intros x [<- |[]]. right. inversion Hca as [|l1 y a' r l2 H1 H2 H3 H4 E1 E2]. subst a'. exists y. split; [apply in_or_app; right; now left|].
          assert (Ha : In a (arguments y)) by (rewrite H2; now left). apply in_args in Ha as [Ha1 Ha2]. split; [exact Ha1|]. right. split; [exact (proj1 Hn)|exact Ha2]. }
        apply Forall_inv in F. apply (go_txt b0 _ _ (93 :: 41 :: st)); [reflexivity|].
        apply (go_put b0 _ a _ (93 :: 41 :: st)); [split; [apply calm_square|now rewrite F]|]. now apply one_txt. }
      apply (go_txt b0 _ _ (93 :: st)); [reflexivity|]. apply (goes_app b0 _ _ (93 :: st)).
      { apply goes_puts; [apply calm_square|]. apply C2. intros x Hx. eapply EnvCh; [exact Hn|now apply in_figure]. }
      apply (go_txt b0 _ _ st); [reflexivity|]. apply goes_labels.
    - (* tables *) destruct (Env _ Hn) as [C1 C2]. apply P; [exact C1|]. assert (E : even 0 (or_default (en_alias sh) name) = true) by (eapply (proj1 (proj2 Hnames)); eauto).
      apply (go_txt b0 _ _ (41 :: st)); [now apply table_moves|].
      apply (goes_app b0 _ _ (41 :: st)).
      { pose proof (goes_cells b0 (within ETable p) (41 :: st) (inside t)) as G.
        assert (E2 : fold_left after_cell (inside t) false = false) by (apply cells_end; eapply T2; eauto).
        assert (G2 : goes (level false (41 :: st)) (cells (within ETable p) false (inside t)) (level (fold_left after_cell (inside t) false) (41 :: st))).
        { apply G; [exact Hc|]. apply C2. intros x Hx. eapply EnvCh; [exact Hn|now apply in_inside]. }
        rewrite E2 in G2. exact G2. }
      apply (go_txt b0 _ _ st); [reflexivity|]. apply goes_labels.
  Qed.

  Theorem keeps_all t : keeps_nested gm sp' sp b0 t.
  Proof.
    remember (height t) as n eqn:En. assert (L : (height t <= n)%nat) by lia. clear En. revert t L.
    induction n as [|n IH]; intros t L p c c' o st st' Hg Hf Hc Hs Hr.
    - destruct t; cbn in L; lia.
    - inversion Hr as [p0 c0 t0 ps o0 Hl Ho]; subst.
      eapply (goes_comes gm sp' sp Hnames b0 ps); [eapply lays_goes; eauto|exact Ho| |].
      + unfold at_element. destruct (tkind t); exact Hc.
      + intros q x Hx. destruct (layout_below sp p t ps q x Hs Hl Hx) as [S1 S2]. split; [exact S1|]. split; [eapply good_under; eauto|].
        apply IH. apply height_under in S2. lia.
  Qed.
End All.
