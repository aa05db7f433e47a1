(** Every layout hides what it should (C71). *)
From Verif Require Export HideFacts.
From Verif Require Import ConvFacts ConvTerm RenderAll P_Conv4 P_Render NestLeaf NestMain NestStep P_Shield RenderSpec HideSpec.
Local Open Scope N_scope.

Section Step.
  Variable bad : char -> Prop.
  Hypothesis Hbad : forall c, bad c -> In c openers.
  Notation hides := (HideSpec.hides bad).
  Notation plain := (HideFacts.plain bad).
  (** what is needed of the names in a specification *)
  Definition names_hide (sp : spec) : Prop :=
    (forall name sh, get_cmd sp name = Some sh -> hides (or_default (cs_alias sh) name ++ [32]) /\
       (cs_args sh <> SRight PNone -> hides (or_default (cs_alias sh) name))) /\
    (forall name sh, get_env sp name = Some sh -> hides (or_default (en_alias sh) name)).
  Variable gm : text -> text -> bool.
  Variables sp' sp : spec.
  Hypothesis Hnames : names_hide sp.

  Definition copying : list text := map tx ["label"; "includegraphics"; "color"; "textcolor"; "colorbox"]%string.
  Definition modest (t : tree) : Prop := tkind t <> ItemTypstCode /\ forall name, In name copying -> ~ command_named t name.
  Definition good (t : tree) : Prop := (ok_tree gm sp' t /\ ok_leaf t) /\
    forall x, seen x t -> modest x /\ forall k s, x = Leaf k s -> copied k -> Forall plain s.
  Lemma good_under x t : good t -> under x t -> good x.
  Proof.
    intros [[H1 H2] H3] Hu. split; [|intros y Hy; apply H3; eapply under_seen; eauto].
    eapply seen_ok; [eapply under_seen; [exact Hu|constructor]|exact H1|exact H2].
  Qed.
  Definition no_symbol (t : tree) : Prop := match t with Leaf TokenCommandSym _ => False | _ => True end.
  Lemma ordinary_no_symbol t : ordinary_child t -> no_symbol t.
  Proof. destruct t as [[] s|k ch]; cbn; auto. Qed.
  Lemma sides_no_symbol ch : ok_tree gm sp' (Node ItemLR ch) -> Forall no_symbol ch.
  Proof.
    intros [H1 _]. apply every_node in H1 as [H1 _]. inversion H1 as [| | | | | | | |c1' body close Hb Hcl E1 E2| | | | | | | | |]; subst.
    { match goal with O : opening _ _ _ |- _ => exfalso; clear -O; repeat destruct O as [O|O]; try discriminate; contradiction end. }
    constructor; [exact I|]. apply Forall_app. split.
    - eapply Forall_impl; [|exact Hb]. intros x Hx. now apply ordinary_no_symbol, item_ordinary.
    - destruct Hcl as [-> |[c2' ->]]; [constructor|]. constructor; [exact I|constructor].
  Qed.
  Lemma below_no_symbol t l : good t -> tkind t <> ItemLR -> tkind t <> ClauseLR -> (forall x, In x l -> under x t) -> Forall no_symbol l.
  Proof. intros [[H _] _] N1 N2 Hl. apply Forall_forall. intros x Hx. apply ordinary_no_symbol. eapply under_ordinary; eauto. Qed.

  (** ** Pieces *)
  Inductive clear : list piece -> Prop :=
  | cl_end : clear []
  | cl_txt s l : hides s -> clear l -> clear (Txt s :: l)
  | cl_blank s l : Forall plain s -> clear l -> clear (Blank s :: l)
  | cl_line s l : Forall plain s -> clear l -> clear (Line s :: l)
  | cl_put p t l : no_symbol t -> clear l -> clear (Put p t :: l)
  | cl_symbol p s l : clear l -> clear (Put p (Leaf TokenCommandSym s) :: Txt [32] :: l)
  | cl_labels l : clear l -> clear (Labels :: l)
  | cl_fail e l : clear (Fail e :: l)
  | cl_crash l : clear (Crash :: l).
  Lemma clear_app a b : clear a -> clear b -> clear (a ++ b).
  Proof. intros H Hb. induction H; cbn [app]; try (constructor; auto; fail). exact Hb. Qed.
  Lemma clear_puts p l : Forall no_symbol l -> clear (map (Put p) l).
  Proof. induction 1; constructor; auto. Qed.
  Lemma by_hand s : hides_b s = true -> hides s. Proof. now apply hides_by. Qed.
  Lemma clear_commas k p l : Forall no_symbol l -> clear (commas k p l).
  Proof.
    induction 1 as [|t l Ht Hl IH]; [constructor|]. destruct l as [|t2 l]; [constructor; [exact Ht|constructor]|].
    change (commas k p (t :: t2 :: l)) with (Put p t :: (if kind_eqb (tkind t) k then [Txt (tx ",")] else []) ++ commas k p (t2 :: l)).
    constructor; [exact Ht|]. destruct (kind_eqb _ _); [|exact IH]. constructor; [now apply by_hand|exact IH].
  Qed.
  Lemma clear_brackets p l : Forall no_symbol l -> clear (flat_map (in_brackets p) l).
  Proof.
    induction 1 as [|t l Ht Hl IH]; [constructor|]. cbn [flat_map]. apply clear_app; [|exact IH]. unfold in_brackets. destruct (kind_eqb _ _); [|constructor].
    constructor; [now apply by_hand|]. constructor; [exact Ht|]. constructor; [now apply by_hand|constructor].
  Qed.
  Lemma clear_arguments q l : Forall no_symbol l -> forall n, clear (decimal_argument n l (fun a => [Put q a])).
  Proof.
    induction 1 as [|t l Ht Hl IH]; intros n; [constructor|]. cbn [decimal_argument app]. constructor.
    - apply hides_app; [now apply by_hand|]. apply hides_app; [apply hides_plain; now apply plain_dec|now apply by_hand].
    - constructor; [exact Ht|]. constructor; [now apply by_hand|apply IH].
  Qed.
  Lemma clear_cells p l : Forall no_symbol l -> forall b, clear (cells p b l).
  Proof.
    assert (R : forall t o, rule_of t = Some o -> hides o).
    { intros t o. unfold rule_of. destruct (_ || _); [intros [= <-]; now apply by_hand|]. destruct (_ || _); [intros [= <-]; now apply by_hand|discriminate]. }
    induction 1 as [|t l Ht Hl IH]; intros b; [constructor|]. cbn [cells].
    destruct (tkind t), b; try apply IH; try (constructor; [now apply by_hand|apply IH]); try (constructor; [exact Ht|apply IH]);
      destruct (rule_of t) eqn:E; try (constructor; [now apply (R t)|apply IH]);
      (constructor; [now apply by_hand|]; constructor; [exact Ht|apply IH]).
  Qed.
  Lemma clear_labels p : clear (labels p). Proof. unfold labels. destruct (mode_of p); repeat constructor. Qed.
  Lemma table_hides al cols : hides al -> hides (table_front al cols).
  Proof.
    intros Ha. unfold table_front. repeat (apply hides_app; [first [exact Ha|now apply by_hand|apply hides_plain; now apply plain_dec|idtac]|]); [| |now apply by_hand].
    - induction (filter letter cols) as [|c l IH]; [constructor|]. cbn [flat_map]. apply hides_app; [|exact IH].
      unfold alignment. destruct (c =? 108); [now apply by_hand|]. destruct (c =? 99); now apply by_hand.
    - induction (bars 0 cols) as [|v l IH]; [constructor|]. cbn [flat_map]. apply hides_app; [|exact IH].
      apply hides_app; [now apply by_hand|]. apply hides_app; [apply hides_plain; now apply plain_dec|now apply by_hand].
  Qed.
  Lemma name_hides p name sh : get_cmd sp name = Some sh -> cs_args sh <> SRight PNone -> hides (typst_name p name (cs_alias sh)).
  Proof.
    intros Hg Hn. apply (proj1 Hnames) in Hg as [_ Hg]. unfold typst_name.
    destruct (mode_of p); [|auto]. destruct (teqb name _); [now apply by_hand|]. destruct (teqb name _); [now apply by_hand|auto].
  Qed.
  Lemma name_hides_blank p name sh : get_cmd sp name = Some sh -> hides (typst_name p name (cs_alias sh) ++ tx " ").
  Proof.
    intros Hg. apply (proj1 Hnames) in Hg as [Hg _]. unfold typst_name.
    destruct (mode_of p); [|exact Hg]. destruct (teqb name _); [now apply by_hand|]. destruct (teqb name _); [now apply by_hand|exact Hg].
  Qed.

  (** ** Layouts *)
  Lemma lays_clear p t ps : good t -> no_symbol t -> lays sp p t ps -> clear ps.
  Proof.
    intros Hg Hns Hl.
    assert (Hself : forall k s, t = Leaf k s -> copied k -> Forall plain s).
    { intros k s -> Hk. destruct Hg as [_ Hg]. destruct (Hg (Leaf k s) (seen_self _)) as [_ Q]. now apply (Q k s). }
    assert (Ht : modest t) by (apply (proj2 Hg); constructor). destruct Ht as [T1 T2].
    assert (NO : forall k, In k [ItemLR; ClauseArgument; ScopeRoot; ItemText; ItemBracket; ItemParen; ItemFormula; ItemCurly; ClauseLR; ItemAttachComponent; ItemCmd; ItemEnv] -> ~ opaque_kind k).
    { intros k Hk X. repeat destruct X as [<- |X]; try contradiction; repeat destruct Hk as [Hk|Hk]; try discriminate; contradiction. }
    assert (CH : forall k ch, t = Node k ch -> In k [ClauseArgument; ScopeRoot; ItemText; ItemBracket; ItemParen; ItemFormula; ItemCurly; ItemAttachComponent] -> Forall no_symbol ch).
    { intros k ch -> Hk. apply (below_no_symbol (Node k ch)); [exact Hg| | |].
      - intros X. cbn in X. subst k. repeat destruct Hk as [Hk|Hk]; try discriminate; contradiction.
      - intros X. cbn in X. subst k. repeat destruct Hk as [Hk|Hk]; try discriminate; contradiction.
      - intros x Hx. left. split; [exact Hx|]. apply NO. cbn in Hk |- *. tauto. }
    assert (Cmd : forall name, command_named t name -> forall l, (forall x, In x l -> under x t) -> Forall no_symbol l).
    { intros name [Hk _] l Hl'. apply (below_no_symbol t); auto; rewrite Hk; discriminate. }
    assert (CmdCh : forall name x, command_named t name -> In x (children t) -> under x t).
    { intros name x [Hk _] Hx. left. split; [exact Hx|]. rewrite Hk. apply NO. cbn. tauto. }
    assert (Env : forall name, environment_named t name -> forall l, (forall x, In x l -> under x t) -> Forall no_symbol l).
    { intros name [Hk _] l Hl'. apply (below_no_symbol t); auto; rewrite Hk; discriminate. }
    assert (EnvCh : forall name x, environment_named t name -> In x (children t) -> under x t).
    { intros name x [Hk _] Hx. left. split; [exact Hx|]. rewrite Hk. apply NO. cbn. tauto. }
    assert (One : forall s, hides s -> clear [Txt s]) by (intros s H; constructor; [exact H|constructor]).
    destruct Hl as [s|s|s|k s o Ho|k s o Ho|y name sh Hgc|y name Hgc|s|t Hk|k ch Hk|ch|ch|k ch Hk|ch i Hd|ch Hd|ch Hh|ch Hm Hh|k y name ch
    |ch Hm|ch Hm Hfo|l1 k m l2 Hm Hfo Hb Hk|l1 k m l2 Hm Hb Hk
    |t Hn Hi|t Hn Hi|t l Hn Hla|t Hn Hla|t o Hn Hgr|t Hn Hgr|t name model color body Hn Hco Hcp|t Hn Ha
    |t name Hn Hsp Hgc|t name sh Hn Hsp Hgc Hca|t name sh tn k ch r Hn Hsp Hgc Hca Ho Et|t name sh Hn Hsp Hgc Hca Ho|t name sh tn Hn Hsp Hgc Hc1 Hc2 Et Hm Hh|t name sh tn Hn Hsp Hgc Hc1 Hc2 Et Hm
    |t name Hn Hge|t name sh Hn Hge Hfe|t name sh r Hn Hge Hfe Hq|t name sh Hn Hge Hfe|t name sh o Hn Hge Hfe Hca|t name sh y Hn Hge Hfe Hx Hxc Hxa
    |t name sh cols Hn Hge Hfe Hco Hgood|t name sh good' y rest Hn Hge Hfe Hco Hgood Hx|t name sh Hn Hge Hfe Hco].
    all: try (apply cl_fail); try (apply cl_crash).
    - (* word *) assert (Q : Forall plain s) by (eapply Hself; [reflexivity|unfold copied; cbn; tauto]).
      apply One. apply hides_plain. destruct (mode_of p); [exact Q|]. clear -Q Hbad. induction Q as [|c s Hc _ IH]; [constructor|]. cbn [flat_map app].
      constructor; [exact Hc|]. constructor; [now apply safe_plain|exact IH].
    - (* blank *) apply cl_blank; [|constructor]. eapply Hself; [reflexivity|unfold copied; cbn; tauto].
    - (* line *) apply cl_line; [|constructor]. apply Forall_app. split; [|now apply plain_indent]. eapply Hself; [reflexivity|unfold copied; cbn; tauto].
    - (* punctuation *) apply One. destruct k; cbn [punctuation] in Ho; try discriminate; injection Ho as <-; now apply by_hand.
    - (* marks *) apply One. destruct k; cbn [placed] in Ho; try discriminate; injection Ho as <-; [destruct (mode_of p)|destruct (env_of p)|destruct (env_of p)]; now apply by_hand.
    - (* symbol *) destruct Hns.
    - (* comment *) constructor.
    - (* code *) elim (T1 eq_refl).
    - (* container *) assert (E : k = ItemLR \/ k <> ItemLR) by (destruct k; try (right; discriminate); left; reflexivity). destruct E as [-> |E].
      + apply clear_puts. apply sides_no_symbol. exact (proj1 (proj1 Hg)).
      + apply clear_puts. apply (CH k ch eq_refl). unfold container_kind in Hk. cbn in Hk |- *. destruct Hk as [<- |Hk]; [congruence|tauto].
    - (* formula *) pose proof (CH _ ch eq_refl ltac:(cbn; tauto)) as C2. unfold around_formula.
      constructor; [destruct (mode_of p), i; now apply by_hand|]. apply clear_app; [now apply clear_puts|]. apply One. destruct (mode_of p), i; now apply by_hand.
    - (* group *) apply clear_puts. apply (CH _ ch eq_refl). cbn. tauto.
    - apply clear_app; [apply clear_puts; apply (CH _ ch eq_refl); cbn; tauto|]. apply One. now apply by_hand.
    - (* delimiters *)
      apply clear_app; [destruct (teqb _ _); [apply One; now apply by_hand|constructor]|].
      apply clear_app; [|destruct (teqb _ _); [apply One; now apply by_hand|constructor]].
      destruct Hg as [[[_ H2] _] _]. apply every_node in H2 as [H2 _]. destruct (H2 eq_refl) as (s1 & r & E & Hr). injection E as _ _ _ ->.
      clear -Hr Hbad. induction Hr as [|x r (kx & s & -> & _) _ IH]; [constructor|]. cbn [flat_map]. apply clear_app; [|exact IH].
      assert (S : clear [Txt (tx " ")]) by (constructor; [now apply by_hand|constructor]).
      destruct kx; try (apply cl_symbol; constructor; fail); try (apply cl_put; [exact I|exact S]).
      destruct (teqb s _); [exact S|]. apply cl_put; [exact I|exact S].
    - (* scripts *) apply clear_puts. apply (CH _ ch eq_refl). cbn. tauto.
    - apply clear_puts. apply (CH _ ch eq_refl). cbn. tauto.
    - pose proof (CH _ _ eq_refl ltac:(cbn; tauto)) as C2. apply Forall_app in C2 as [C2 C3]. apply Forall_cons_iff in C3 as [_ C3].
      assert (Q : Forall plain m).
      { destruct Hg as [_ Hg]. eapply Hg; [eapply under_seen; [|apply seen_self]; left; split; [apply in_or_app; right; left; reflexivity|apply NO; cbn; tauto]|reflexivity|].
        destruct k; try contradiction; unfold copied; cbn; tauto. }
      apply clear_app; [now apply clear_puts|]. constructor; [apply hides_app; [now apply hides_plain|now apply by_hand]|].
      apply clear_app; [now apply clear_puts|apply One; now apply by_hand].
    - pose proof (CH _ _ eq_refl ltac:(cbn; tauto)) as C2. apply Forall_app in C2 as [C2 C3]. apply Forall_cons_iff in C3 as [_ C3].
      assert (Q : Forall plain m).
      { destruct Hg as [_ Hg]. eapply Hg; [eapply under_seen; [|apply seen_self]; left; split; [apply in_or_app; right; left; reflexivity|apply NO; cbn; tauto]|reflexivity|].
        destruct k; try contradiction; unfold copied; cbn; tauto. }
      apply clear_app; [now apply clear_puts|]. constructor; [apply hides_app; [now apply by_hand|]; apply hides_app; [now apply hides_plain|now apply by_hand]|].
      apply clear_app; [now apply clear_puts|apply One; now apply by_hand].
    - (* \item *) apply One. apply hides_app; [now apply by_hand|]. apply hides_app; [apply hides_plain; now apply plain_indent|]. destruct (env_of p); now apply by_hand.
    - (* \label *) elim (T2 (tx "label")); [now left|exact Hn].
    - (* \includegraphics *) elim (T2 (tx "includegraphics")); [right; now left|exact Hn].
    - (* colours *) elim (T2 name); [|exact Hn]. destruct Hco as [<- |[<- |[<- |[]]]]; unfold copying; cbn [map In]; tauto.
    - (* bare *) apply One. eapply name_hides_blank; eauto.
    - (* greedy *) assert (E : hides tn) by (subst tn; eapply name_hides; eauto; rewrite Hca; discriminate).
      constructor; [apply hides_app; [exact E|now apply by_hand]|]. apply clear_app; [|apply One; now apply by_hand]. apply clear_commas. apply (Cmd _ Hn).
      intros x Hx. right. exists (Node k ch). split; [apply in_operands; rewrite Ho; now left|]. split; [exact Hx|]. left. exact (proj1 Hn).
    - (* call in a formula *) assert (E : hides tn) by (subst tn; eapply name_hides; eauto).
      constructor; [apply hides_app; [exact E|now apply by_hand]|]. apply clear_app; [|apply One; now apply by_hand]. apply clear_commas. apply (Cmd _ Hn).
      intros x Hx. eapply CmdCh; [exact Hn|now apply in_operands].
    - (* call in a text *) assert (E : hides tn) by (subst tn; eapply name_hides; eauto).
      constructor; [exact E|]. apply clear_app; [|apply One; now apply by_hand]. apply clear_brackets. apply (Cmd _ Hn).
      intros x Hx. eapply CmdCh; [exact Hn|now apply in_operands].
    - (* lists *) apply clear_puts. apply (Env _ Hn). intros x Hx. eapply EnvCh; [exact Hn|now apply in_inside].
    - (* math environments *) assert (E : hides (or_default (en_alias sh) name)) by (eapply (proj2 Hnames); eauto).
      constructor; [apply hides_app; [unfold dollars; destruct (mode_of p); now apply by_hand|]; apply hides_app; [exact E|now apply by_hand]|].
      apply clear_app. { apply clear_arguments. apply (Env _ Hn). intros x Hx. apply in_env_args in Hx as (c & H1 & H2 & H3).
        right. exists c. split; [exact H1|]. split; [exact H2|]. right. split; [exact (proj1 Hn)|exact H3]. }
      apply clear_app; [apply clear_puts; apply (Env _ Hn); intros x Hx; eapply EnvCh; [exact Hn|now apply in_inside]|].
      constructor; [|apply clear_labels]. unfold dollars; destruct (mode_of p); now apply by_hand.
    - (* other environments *) assert (E : hides (or_default (en_alias sh) name)) by (eapply (proj2 Hnames); eauto).
      constructor; [apply hides_app; [now apply by_hand|]; apply hides_app; [exact E|now apply by_hand]|].
      apply clear_app; [apply clear_puts; apply (Env _ Hn); intros x Hx; eapply EnvCh; [exact Hn|now apply in_inside]|].
      constructor; [now apply by_hand|apply clear_labels].
    - (* figures *) assert (E : hides (or_default (en_alias sh) name)) by (eapply (proj2 Hnames); eauto).
      constructor; [apply hides_app; [now apply by_hand|]; apply hides_app; [exact E|now apply by_hand]|].
      apply clear_app.
      { destruct o as [a|]; [|constructor].
        assert (F : Forall no_symbol [a]).
        { apply (Env _ Hn). intros x [<- |[]]. right. inversion Hca as [|l1 y a' r l2 H1 H2 H3 H4 E1 E2]. subst a'. exists y. split; [apply in_or_app; right; now left|].
          assert (Ha : In a (arguments y)) by (rewrite H2; now left). apply in_args in Ha as [Ha1 Ha2]. split; [exact Ha1|]. right. split; [exact (proj1 Hn)|exact Ha2]. }
        apply Forall_inv in F. constructor; [now apply by_hand|]. constructor; [exact F|]. apply One. now apply by_hand. }
      constructor; [now apply by_hand|]. apply clear_app.
      { apply clear_puts. apply (Env _ Hn). intros x Hx. eapply EnvCh; [exact Hn|now apply in_figure]. }
      constructor; [now apply by_hand|apply clear_labels].
    - (* tables *) assert (E : hides (or_default (en_alias sh) name)) by (eapply (proj2 Hnames); eauto).
      constructor; [now apply table_hides|]. apply clear_app.
      { apply clear_cells. apply (Env _ Hn). intros x Hx. eapply EnvCh; [exact Hn|now apply in_inside]. }
      constructor; [now apply by_hand|apply clear_labels].
  Qed.

  (** ** Elements *)
  Definition quiet_label (t : tree) : Prop := forall x, seen x t -> ~ command_named x (tx "label").
  Lemma good_label t : good t -> quiet_label t.
  Proof. intros [_ H] x Hx. destruct (H x Hx) as [[_ M] _]. apply M. now left. Qed.
  Definition shows_hidden (p : place) (t : tree) : Prop := forall c c' o, waiting c = None -> sane p -> renders sp p c t (Written c' o) -> hides o.
  Lemma before_out s o c x : Written c x = before s o -> exists y, o = Written c y /\ x = s ++ y.
  Proof. destruct o; cbn; try discriminate. intros [= <- ->]. eauto. Qed.
  Lemma symbol_hides p s c c' o : renders sp p c (Leaf TokenCommandSym s) (Written c' o) -> hides (o ++ [32]).
  Proof.
    intros H. inversion H as [p0 c0 t0 ps o0 Hl Ho]; subst. inversion Hl; subst; try discriminate.
    all: try (match goal with H : command_named _ _ |- _ => destruct H as [X _]; discriminate X end).
    all: try (match goal with H : environment_named _ _ |- _ => destruct H as [X _]; discriminate X end).
    - inversion Ho; subst. match goal with E : before _ _ = Written _ _ |- _ => symmetry in E; apply before_out in E as (z & Ez & ->) end. subst.
      match goal with H : comes_to _ _ [] _ |- _ => inversion H; subst end.
      rewrite app_nil_r. eapply (proj1 Hnames). eassumption.
    - inversion Ho.
  Qed.
  Lemma comes_hides ps : clear ps ->
    (forall q x, In (Put q x) ps -> no_symbol x -> shows_hidden q x) ->
    (forall q x, In (Put q x) ps -> sane q /\ quiet_label x) ->
    forall c c' o, waiting c = None -> comes_to sp c ps (Written c' o) -> hides o.
  Proof.
    intros H. induction H as [|s l Hs Hl IH|s l Hs Hl IH|s l Hs Hl IH|p t l Ht Hl IH|p s l Hl IH|l Hl IH|e l|l]; intros P S c c' o Hc H.
    - inversion H; subst. constructor.
    - inversion H; subst. match goal with E : before _ _ = Written _ _ |- _ => symmetry in E; apply before_out in E as (z & -> & ->) end.
      apply hides_app; [exact Hs|]. eapply IH; [| |exact Hc|eassumption]; intros; first [apply P|apply S]; try right; assumption.
    - inversion H; subst. match goal with E : before _ _ = Written _ _ |- _ => symmetry in E; apply before_out in E as (z & -> & ->) end.
      apply hides_app; [destruct (fresh c); [constructor|now apply hides_plain]|].
      eapply IH; [| |exact (Hc : waiting (mk_carry false (waiting c)) = None)|eassumption]; intros; first [apply P|apply S]; try right; assumption.
    - inversion H; subst. match goal with E : before _ _ = Written _ _ |- _ => symmetry in E; apply before_out in E as (z & -> & ->) end.
      apply hides_app; [now apply hides_plain|].
      eapply IH; [| |exact (Hc : waiting (mk_carry true (waiting c)) = None)|eassumption]; intros; first [apply P|apply S]; try right; assumption.
    - inversion H as [| | | |c1 p1 t1 c2 y l1 o1 Hr Ho E1 E2 E3| | | | | |]; subst. symmetry in E3. apply before_out in E3 as (z & -> & ->).
      destruct (S p t (or_introl eq_refl)) as [S1 S2].
      apply hides_app; [eapply P; [now left|exact Ht|exact Hc|exact S1|exact Hr]|].
      eapply IH; [| | |exact Ho]; [intros; apply P; try right; assumption|intros; apply S; right; assumption|].
      eapply renders_waiting; [apply le_n|exact S1|exact S2|exact Hc|exact Hr].
    - inversion H as [| | | |c1 p1 t1 c2 y l1 o1 Hr Ho E1 E2 E3| | | | | |]; subst. symmetry in E3. apply before_out in E3 as (z & -> & ->).
      destruct (S p _ (or_introl eq_refl)) as [S1 S2].
      inversion Ho as [|c3 s3 l3 o3 Ho3 E1 E2 E3| | | | | | | | |]; subst. symmetry in E3. apply before_out in E3 as (z' & -> & ->).
      rewrite app_assoc. apply hides_app; [eapply symbol_hides; exact Hr|].
      eapply IH; [| | |exact Ho3]; [intros; apply P; try (right; right); assumption|intros; apply S; right; right; assumption|].
      eapply renders_waiting; [apply le_n|exact S1|exact S2|exact Hc|exact Hr].
    - inversion H; subst. match goal with E : before _ _ = Written _ _ |- _ => symmetry in E; apply before_out in E as (z & -> & ->) end.
      rewrite Hc. cbn [app]. eapply IH; [| |exact (eq_refl : waiting (mk_carry (fresh c) None) = None)|eassumption]; intros; first [apply P|apply S]; try right; assumption.
    - inversion H.
    - inversion H.
  Qed.
  Theorem all_hides t : good t -> no_symbol t -> forall p, shows_hidden p t.
  Proof.
    remember (height t) as n eqn:En. assert (L : (height t <= n)%nat) by lia. clear En. revert t L.
    induction n as [|n IH]; intros t L Hg Hs p c c' o Hc Hsn Hr.
    - destruct t; cbn in L; lia.
    - inversion Hr as [p0 c0 t0 ps o0 Hl Ho]; subst.
      apply (comes_hides ps) with (c := at_element t c) (c' := c'); [eapply lays_clear; eauto| | |destruct c as [cf cw]; unfold at_element; destruct (tkind t); exact Hc|exact Ho].
      + intros q x Hx Hx'. destruct (layout_below sp p t ps q x Hsn Hl Hx) as [S1 S2]. apply IH; [apply height_under in S2; lia|eapply good_under; eauto|exact Hx'].
      + intros q x Hx. destruct (layout_below sp p t ps q x Hsn Hl Hx) as [S1 S2]. split; [exact S1|]. apply good_label. eapply good_under; eauto.
  Qed.
End Step.
