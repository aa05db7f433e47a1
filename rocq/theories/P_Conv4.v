(** C34: converting does not panic, as long as the few commands that read the
    text of their arguments are given arguments. *)
From Verif Require Export ParserDelim ConvFacts P_Conv P_Conv3.
Local Open Scope nat_scope.

(* ------------------------------------------------------------------ *)
(** What [\label], [\includegraphics], [\caption] and tables insist
    on.  [quoted]: the text starts and ends with a one-byte character, as any
    argument in braces or brackets does. *)
Definition given (sp : spec) (t : tree) : Prop :=
  (command_named t (tx "label") -> exists a r, arguments t = a :: r /\ quoted (tree_text a)) /\
  (command_named t (tx "includegraphics") ->
     Forall (fun a => quoted (tree_text a) /\ first_child a <> None) (arguments t) /\
     exists a, In a (arguments t) /\ option_map tkind (first_child a) = Some ItemCurly) /\
  (command_named t (tx "caption") -> arguments t <> []) /\
  (environment_is sp t FTable -> exists a r, env_arguments t = a :: r /\ quoted (tree_text a)).

(** ** From the shape of parsed trees *)
Section Shape.
  Variable gm : text -> text -> bool.
  Variables sp sp' : spec.
  (* the two specifications agree on the greedy commands *)
  Hypothesis Hgreedy : forall name, option_map cs_args (get_cmd sp' name) = Some (SRight PGreedy) ->
    option_map cs_args (get_cmd sp name) = Some (SRight PGreedy).
  (* ... to which [\color] belongs *)
  Hypothesis Hcolor : option_map cs_args (get_cmd sp (tx "color")) = Some (SRight PGreedy).

  Definition ok_tree (t : tree) : Prop :=
    every (node_ok gm sp) t /\ every clause_ok t.
  Definition ok_leaf (t : tree) : Prop :=
    match t with Leaf k s => leaf_kind k /\ (k = TokenCommandSym -> exists r, s = 92%N :: r) | Node k _ => node_kind k end.
  Lemma ok_child k ch c : ok_tree (Node k ch) -> In c ch -> ok_tree c.
  Proof.
    intros [H1 H2] Hc. apply every_node in H1 as [_ H1]. apply every_node in H2 as [_ H2]. rewrite Forall_forall in *. split; auto.
  Qed.
  Ltac kin := unfold item_leaf, item_node, leaf_kind, node_kind, opaque_kind in *; cbn in *; intuition (subst; try discriminate; auto 40).
  Lemma item_leaf_ok c : item c -> ok_leaf c.
  Proof.
    destruct c as [k s|k ch]; cbn [item ok_leaf].
    - intros H. split; [|intros ->]; repeat destruct H as [<- |H]; try contradiction; try (unfold leaf_kind; cbn; tauto).
      all: repeat destruct H as [H|H]; try discriminate; contradiction.
    - intros H. repeat destruct H as [<- |H]; try contradiction; unfold node_kind; cbn; tauto.
  Qed.

  Lemma child_ok k ch c : ok_tree (Node k ch) -> ~ opaque_kind k -> In c ch -> ok_leaf c.
  Proof.
    intros [H1 H2] Hk Hc. apply every_node in H1 as [H1 _]. apply every_node in H2 as [H2 _].
    assert (Hi : forall l, Forall item l -> In c l -> ok_leaf c) by (intros l Hl Hin; apply item_leaf_ok; rewrite Forall_forall in Hl; auto).
    assert (Hl : forall k s, In k [TokenLBrace; TokenRBrace; TokenLBracket; TokenRBracket; TokenLParen; TokenRParen; TokenDollar; TokenBeginMath; TokenEndMath;
        TokenLineBreak; TokenWhiteSpace; TokenComment; TokenWord; TokenComma; ClauseCommandName; TokenApostrophe; TokenUnderscore; TokenCaret] -> ok_leaf (Leaf k s)).
    { intros k0 s Hin. split; [|intros ->]; repeat destruct Hin as [<- |Hin]; try contradiction; try (unfold leaf_kind; cbn; tauto).
      all: repeat destruct Hin as [Hin|Hin]; try discriminate; contradiction. }
    assert (Ht : forall l, Forall trivia_leaf l -> In c l -> ok_leaf c).
    { intros l Hl' Hin. rewrite Forall_forall in Hl'. specialize (Hl' c Hin). destruct c; [|contradiction]. apply Hl. cbn in Hl' |- *. tauto. }
    assert (Ha : forall l, Forall is_argument l -> In c l -> ok_leaf c).
    { intros l Hl' Hin. rewrite Forall_forall in Hl'. specialize (Hl' c Hin). destruct c as [|[] ?]; try contradiction. unfold ok_leaf, node_kind. cbn. tauto. }
    destruct H1 as [ch H|k o cl s s' body close Ho Hb [-> | ->]|k s rest Hin Hr|k s Hin|name ch H|name args s' body close Hb _ [-> | ->]|name args Hargs|s|c1 body close Hb Hcl|
      s tr sym Htr Hsym|ch H|ch H|g|g|ch H|a s|a k s tr body Hs Hk' Htr Hb|nd Hnd].
    - eauto.
    - (* group *) rewrite app_nil_r in Hc. destruct Hc as [<- |Hc]; [|eauto]. apply Hl. clear -Ho. repeat destruct Ho as [[= <- <- <-]|Ho]; try contradiction; cbn; tauto.
    - destruct Hc as [<- |Hc]; [|apply in_app_or in Hc as [Hc|[<- |[]]]; [eauto|]]; apply Hl; clear -Ho; repeat destruct Ho as [[= <- <- <-]|Ho]; try contradiction; cbn; tauto.
    - destruct Hc as [<- |Hc]; [apply Hl; clear -Hin; cbn in *; tauto|]. rewrite Forall_forall in Hr. specialize (Hr c Hc). destruct c; [|contradiction]. apply Hl. clear -Hr. cbn in *. tauto.
    - exfalso. apply Hk. unfold opaque_kind. cbn. tauto.
    - (* commands *) assert (N : ok_leaf (Leaf ClauseCommandName (92%N :: name))) by (apply Hl; cbn; tauto).
      assert (A : forall a, c = Node ClauseArgument a -> ok_leaf c) by (intros a ->; unfold ok_leaf, node_kind; cbn; tauto).
      inversion H as [s E1 E2 E3|p s args Hargs E1 E2 E3|s a Hn E1 E2 E3|s E1 E2 E3|s a E1 E2 E3|s a Hn E1 E2 E3|s l a Hn E1 E2 E3]; subst; cbn in Hc.
      + destruct Hc as [<- |[]]. exact N.
      + destruct Hc as [<- |Hc]; [exact N|]. destruct Hargs as [Hr _]. rewrite Forall_forall in Hr. specialize (Hr c Hc). destruct c as [|[] ?]; try contradiction. eauto.
      + destruct Hc as [<- |[<- |[]]]; [exact N|eauto].
      + destruct Hc as [<- |[]]. exact N.
      + destruct Hc as [<- |[<- |[]]]; [eauto|exact N].
      + destruct Hc as [<- |[<- |[]]]; [exact N|eauto].
      + destruct Hc as [<- |[<- |[<- |[]]]]; [eauto|exact N|eauto].
    - (* environments *) rewrite app_nil_r in Hc. destruct Hc as [<- |Hc]; [unfold ok_leaf, node_kind; cbn; tauto|eauto].
    - destruct Hc as [<- |Hc]; [unfold ok_leaf, node_kind; cbn; tauto|]. apply in_app_or in Hc as [Hc|[<- |[]]]; [eauto|]. unfold ok_leaf, node_kind; cbn; tauto.
    - exfalso. apply Hk. unfold opaque_kind. cbn. tauto.
    - exfalso. apply Hk. unfold opaque_kind. cbn. tauto.
    - (* left-right *) destruct Hc as [<- |Hc]; [unfold ok_leaf, node_kind; cbn; tauto|]. apply in_app_or in Hc as [Hc|Hc]; [eauto|].
      destruct Hcl as [-> |[c2 ->]]; [contradiction|]. destruct Hc as [<- |[]]. unfold ok_leaf, node_kind; cbn; tauto.
    - (* clauses *) destruct (H2 eq_refl) as (s0 & r & E & Hr). injection E as -> E. rewrite E in Hc. destruct Hc as [<- |Hc]; [apply Hl; cbn; tauto|].
      rewrite Forall_forall in Hr. destruct (Hr c Hc) as (k & s & -> & G1 & G2). now split.
    - exfalso. apply Hk. unfold opaque_kind. cbn. tauto.
    - exfalso. apply Hk. unfold opaque_kind. cbn. tauto.
    - destruct Hc as [<- |[]]. unfold ok_leaf, node_kind; cbn; tauto.
    - destruct Hc as [<- |[]]. unfold ok_leaf, node_kind; cbn; tauto.
    - (* arguments *) rewrite Forall_forall in H. destruct (H c Hc) as [G|[G|G]]; [now apply item_leaf_ok| |].
      + apply (Ha [c]); [now constructor|now left].
      + destruct c; [|contradiction]. apply Hl. cbn in G |- *. tauto.
    - destruct Hc as [<- |[<- |[]]]; [unfold ok_leaf, node_kind; cbn; tauto|apply Hl; cbn; tauto].
    - (* scripts *) apply in_app_or in Hc as [Hc|Hc].
      + destruct Hs as [-> |[c0 ->]]; [contradiction|]. destruct Hc as [<- |[]]. unfold ok_leaf, node_kind; cbn; tauto.
      + destruct Hc as [<- |Hc]; [apply Hl; cbn in *; tauto|]. apply in_app_or in Hc as [Hc|Hc]; eauto.
    - destruct Hc as [<- |[]]. destruct Hnd as [ch [-> | ->]]; unfold ok_leaf, node_kind; cbn; tauto.
  Qed.
  Lemma command_child ch c : ok_tree (Node ItemCmd ch) -> In c ch -> is_node c = false \/ is_argument c.
  Proof.
    intros [H1 _] Hc. apply every_node in H1 as [H1 _]. inversion H1 as [| | | |name ch' H| | | | | | | | | | | | |]; subst.
    { exfalso. match goal with O : opening _ _ _ |- _ => clear -O; repeat destruct O as [O|O]; try discriminate; contradiction end. }
    inversion H as [s E1 E2 E3|p s args Hargs E1 E2 E3|s a Hn E1 E2 E3|s E1 E2 E3|s a E1 E2 E3|s a Hn E1 E2 E3|s l a Hn E1 E2 E3]; subst; cbn in Hc.
    all: repeat destruct Hc as [<- |Hc]; try contradiction; cbn; auto.
    destruct Hargs as [Hr _]. rewrite Forall_forall in Hr. specialize (Hr c Hc). destruct c as [|[] ?]; try contradiction. cbn. auto.
  Qed.
  Lemma seen_ok x t : seen x t -> ok_tree t -> ok_leaf t -> ok_tree x /\ ok_leaf x.
  Proof.
    intros H. induction H as [|k ch c Hk Hc Hb IH|ch c c' Hc Hc' Hb IH|ch c c' Hc Hc' Hk Hb IH]; intros H1 H2; [auto|..].
    - apply IH; [eapply ok_child; eauto|eapply child_ok; eauto].
    - pose proof (ok_child _ _ _ H1 Hc) as G. destruct (command_child _ _ H1 Hc) as [N|N]; (destruct c as [|k' ch']; [contradiction|]); [discriminate|].
      destruct k'; try contradiction. apply IH; [eapply ok_child; eauto|eapply child_ok; [exact G| |exact Hc']]. clear. intros X. repeat destruct X as [X|X]; try discriminate; contradiction.
    - pose proof (ok_child _ _ _ H1 Hc) as G. destruct c as [|k' ch']; [contradiction|]. apply IH; [eapply ok_child; eauto|].
      destruct c' as [|[] ?]; try contradiction. unfold ok_leaf, node_kind. cbn. tauto.
  Qed.
  Lemma ok_name t : ok_tree t -> ok_leaf t -> tkind t = ItemCmd -> exists name, cmd_name_tok t = Some (92%N :: name).
  Proof.
    intros [H1 _] Hl Ek. destruct t as [k s|k ch]; cbn in Ek; subst k; [exfalso; destruct Hl as [Hl _]; clear -Hl; repeat destruct Hl as [Hl|Hl]; try discriminate; contradiction|].
    apply every_node in H1 as [H1 _]. inversion H1 as [| | | |name ch' H| | | | | | | | | | | | |]; subst.
    { exfalso. match goal with O : opening _ _ _ |- _ => clear -O; repeat destruct O as [O|O]; try discriminate; contradiction end. }
    exists name. inversion H; reflexivity.
  Qed.
  Lemma ok_fine t : ok_tree t -> ok_leaf t -> given sp' t -> fine sp' t.
  Proof.
    intros [H1 H2] Hl (G1 & G2 & G4 & G5). destruct t as [k s|k ch].
    - destruct Hl as [Hl Hs]. split; [exact Hl|]. intros E. destruct (Hs E) as [r ->]. exists 92%N, r. split; [reflexivity|]. reflexivity.
    - split; [exact Hl|]. apply every_node in H1 as [H1 _]. apply every_node in H2 as [H2 _]. destruct k; try exact I.
      + destruct (H2 eq_refl) as (s & r & -> & _). exists ClauseCommandName, 92%N, s, r. split; reflexivity.
      + inversion H1 as [| | | |name ch' H| | | | | | | | | | | | |]; subst.
        { exfalso. match goal with O : opening _ _ _ |- _ => clear -O; repeat destruct O as [O|O]; try discriminate; contradiction end. }
        assert (En : cmd_name_tok (Node ItemCmd ch) = Some (92%N :: name)) by (inversion H; reflexivity).
        exists 92%N, name. split; [exact En|]. split; [reflexivity|].
        assert (Hn : command_named (Node ItemCmd ch) name) by (split; [reflexivity|eauto]).
        unfold command_fine.
        split; [intros ->; auto|]. split; [intros ->; auto|]. split.
        { intros ->. rewrite Hcolor in H. inversion H as [|p s args [_ Hargs] E1 E2 E3|s a Hn' E1 E2 E3| | | |]; subst; [contradiction|]. discriminate. }
        split; [intros ->; auto|].
        { intros Eg _. apply Hgreedy in Eg. rewrite Eg in H. inversion H as [|p s args [_ Hargs] E1 E2 E3|s a Hn' E1 E2 E3| | | |]; subst; [contradiction|].
          eexists _, _, _. reflexivity. }
      + inversion H1 as [| | | | |name args s' body close Hb Hr Hc| | | | | | | | | | | |]; subst.
        { exfalso. match goal with O : opening _ _ _ |- _ => clear -O; repeat destruct O as [O|O]; try discriminate; contradiction end. }
        split; [|exact G5]. exists name. reflexivity.
  Qed.
  Lemma shape_convertible t : ok_tree t -> ok_leaf t -> (forall x, seen x t -> given sp' x) -> convertible sp' t.
  Proof. intros H1 H2 H x Hx. destruct (seen_ok _ _ Hx H1 H2). apply ok_fine; auto. Qed.
End Shape.

(* ------------------------------------------------------------------ *)
(** ** Trees made by the parser *)
Lemma parsed_convertible gm sp sp' fuel ts t :
  (forall name, option_map cs_args (get_cmd sp' name) = Some (SRight PGreedy) ->
    option_map cs_args (get_cmd sp name) = Some (SRight PGreedy)) ->
  option_map cs_args (get_cmd sp (tx "color")) = Some (SRight PGreedy) ->
  Forall slashed ts -> parse_list gm sp fuel ts = Ok t ->
  (forall x, seen x t -> given sp' x) -> convertible sp' t.
Proof.
  intros Hg Hcol Hs H G. pose proof (parse_clauses gm sp fuel ts t Hs H) as [Hc Hd]. apply parse_shape in H as (H1 & H2 & _).
  eapply shape_convertible; [exact Hg|exact Hcol|split; [exact H1|exact Hc]| |exact G]. destruct t as [k s|k ch]; cbn in H2; subst k; unfold ok_leaf.
  - discriminate Hd.
  - unfold node_kind. cbn. tauto.
Qed.

(** ** Without those commands *)
Lemma leaf_occurs k s t : occurs_in (Leaf k s) t -> In (k, s) (leaves t).
Proof.
  intros H. remember (Leaf k s) as l eqn:El. induction H as [|k' ch c Hc H IH]; [subst; cbn; now left|].
  cbn [leaves]. apply in_flat_map. eauto.
Qed.
Lemma spells_token T ts ls k s : spells T ts ls -> In (k, s) ls -> k = ClauseCommandName \/ k = TokenCommandSym ->
  exists c, In (CommandName c, s) ts.
Proof.
  intros H. induction H as [|[k' s'] ts ls H IH|s' ts ls H IH|a b ts ls Ha H IH|[k' s'] ts ls Hd H IH]; intros Hin Hk; [contradiction|..].
  - destruct Hin as [[= <- <-]|Hin]; [|destruct (IH Hin Hk) as [c Hc]; exists c; now right].
    cbn [fst snd] in *. assert (exists c, k' = CommandName c) as [c ->].
    { destruct k'; try (destruct Hk; discriminate); eauto; destruct b; destruct Hk; discriminate. }
    exists c. now left.
  - destruct Hin as [[= <- <-]|Hin]; [exists Generic; now left|]. destruct (IH Hin Hk) as [c Hc]. exists c. now right.
  - destruct Hin as [[= <- <-]|Hin]; [destruct Hk; discriminate|]. destruct (IH Hin Hk) as [c [Hc|Hc]]; [discriminate|]. exists c. now right.
  - destruct (IH Hin Hk) as [c Hc]. exists c. now right.
Qed.
(** a token that calls for an argument which the converter insists on *)
Definition insisting (sp : spec) (t : tok) : Prop :=
  exists c, fst t = CommandName c /\
  (In (snd t) [tx "\label"; tx "\includegraphics"; tx "\caption"] \/
   exists e, get_env sp (trim (snd t)) = Some e /\ en_feature e = FTable).
Lemma in_leaf_child k t s : leaf_child_of k t = Some s -> exists k', In (Leaf k' s) (children t) /\ k' = k.
Proof.
  unfold leaf_child_of. destruct (find _ (children t)) as [[k' s'|]|] eqn:E; try discriminate. intros [= ->].
  apply find_some in E as [E1 E2]. exists k'. split; [exact E1|]. unfold kind_eqb in E2. cbn in E2. now destruct (kind_eq_dec _ _).
Qed.

Lemma default_color : option_map cs_args (get_cmd DEFAULT_SPEC (tx "color")) = Some (SRight PGreedy).
Proof. vm_compute. reflexivity. Qed.
Lemma first_token_leaf t k s : first_token t = Some (k, s) -> occurs_in (Leaf k s) t.
Proof.
  induction t as [k' s'|k' ch IH] using tree_ind2; cbn [first_token]; [intros [= -> ->]; constructor|].
  destruct ch as [|c ch]; [discriminate|]. intros H. inversion IH. eapply occurs_below; [now left|auto].
Qed.
Lemma not_insisting sp T ts t : spells T ts (leaves t) -> Forall (fun u => ~ insisting sp u) ts ->
  forall x, seen x t -> (forall n c, tkind x = ItemCmd -> cmd_name_tok x = Some (c :: n) -> c = 92%N) -> given sp x.
Proof.
  intros Hs Hn x Hx Hb. apply seen_occurs in Hx. rewrite Forall_forall in Hn.
  assert (C : forall n, command_named x n -> exists c, In (CommandName c, 92%N :: n) ts).
  { intros n [Hk [c Hc]]. rewrite (Hb _ _ Hk Hc) in Hc. apply in_leaf_child in Hc as (k' & Hc & ->). apply child_occurs in Hc.
    pose proof (occurs_trans _ _ _ Hc Hx) as Ho. apply leaf_occurs in Ho. eapply spells_token; eauto. }
  assert (D : forall n, In (92%N :: n) [tx "\label"; tx "\includegraphics"; tx "\caption"] -> ~ command_named x n).
  { intros n Hin H. destruct (C n H) as [c Hc]. apply (Hn _ Hc). exists c. split; [reflexivity|]. now left. }
  unfold given. split; [|split; [|split]].
  - intros H. elim (D _ ltac:(left; reflexivity) H).
  - intros H. elim (D _ ltac:(right; left; reflexivity) H).
  - intros H. elim (D _ ltac:(right; right; left; reflexivity) H).
  - intros (n & (_ & n' & H & ->) & E). unfold env_name_tok in H. destruct (env_begin x) as [b|] eqn:Eb; [|discriminate].
    apply env_begin_child, child_occurs in Eb. unfold clause_name in H. destruct (first_token b) as [[k s]|] eqn:Ef; [|discriminate].
    destruct k; try discriminate. injection H as ->. apply first_token_leaf in Ef.
    pose proof (occurs_trans _ _ _ Ef (occurs_trans _ _ _ Eb Hx)) as Ho. apply leaf_occurs in Ho.
    destruct (spells_token _ _ _ _ _ Hs Ho ltac:(now right)) as [c Hc]. exfalso. apply (Hn _ Hc). exists c. split; [reflexivity|]. right.
    cbn [snd]. destruct (get_env sp (trim n')) as [e|]; [|discriminate]. injection E as E. eauto.
Qed.

(** Converting a parsed source (with the built-in specification) never panics,
    if the commands and tables above are given what they insist on.  What is
    missing: the parser itself may panic (C23), and without those arguments the
    conversion does. *)
Theorem C34_source_partial : forall macros m fuel page src t, 2 <= page ->
  parse_source macros fuel page DEFAULT_SPEC src = Ok t ->
  (forall x, seen x t -> given DEFAULT_SPEC x) ->
  (exists o, convert_source macros m fuel page src None = COk o) \/
  (exists e, convert_source macros m fuel page src None = CErr e).
Proof.
  intros macros m fuel page src t Hp H G. pose proof (parse_source_reads macros fuel page DEFAULT_SPEC src t Hp H) as (ts & Ht & Hl).
  apply tokens_slash in Ht; [|exact Hp].
  pose proof (parsed_convertible _ _ DEFAULT_SPEC _ _ _ (fun _ E => E) default_color Ht Hl G) as Hc.
  unfold convert_source, convert_inner. rewrite H. destruct (convert_tree DEFAULT_SPEC m t) as [o|e|p|] eqn:E; eauto.
  - exfalso. exact (fine_no_panic _ m _ Hc p E).
  - exfalso. now apply C33_tree in E.
Qed.
Print Assumptions C34_source_partial.

(** ... in particular if no token of it calls for them. *)
Theorem C34_plain_partial : forall macros m fuel page src t ts, 2 <= page ->
  parse_source macros fuel page DEFAULT_SPEC src = Ok t -> tokens_of macros page DEFAULT_SPEC src ts ->
  Forall (fun u => ~ insisting DEFAULT_SPEC u) ts ->
  (exists o, convert_source macros m fuel page src None = COk o) \/
  (exists e, convert_source macros m fuel page src None = CErr e).
Proof.
  intros macros m fuel page src t ts Hp H Ht Hn. apply C34_source_partial with (t := t); [exact Hp|exact H|].
  pose proof (parse_source_reads macros fuel page DEFAULT_SPEC src t Hp H) as (ts' & Ht' & Hl).
  assert (ts' = ts) as -> by (eapply tokens_functional; eauto).
  apply tokens_slash in Ht; [|exact Hp].
  pose proof (parse_clauses _ _ _ _ _ Ht Hl) as [Hc Hd]. apply parse_shape in Hl as (H1 & H2 & H3).
  intros x Hx. eapply not_insisting; [exact H3|exact Hn|exact Hx|]. intros n c Ek En.
  destruct (seen_ok gm_real DEFAULT_SPEC x t Hx) as [G1 G2]; [now split| |].
  - destruct t as [k s|k ch]; cbn in H2; subst k; [discriminate Hd|]. unfold ok_leaf, node_kind. cbn. tauto.
  - destruct (ok_name _ _ _ G1 G2 Ek) as [n' En']. rewrite En in En'. now injection En' as -> _.
Qed.
Print Assumptions C34_plain_partial.

(** Without the arguments it panics: in these sources, which parse, [\label],
    [\includegraphics] and [\caption] in a figure have no argument or one
    without braces, and [tabular] has none. *)
Theorem C34_refuted : Forall (fun src => forall macros, exists f0, forall fuel, f0 <= fuel ->
    exists p, convert_source macros MText fuel PAGE src None = CPanic p)
  [tx "\label x"; tx "\label"; tx "\includegraphics x"; tx "\includegraphics";
   tx "\begin{figure}\caption\end{figure}"; tx "\begin{tabular}"].
Proof.
  assert (K : forall src, (forall macros, exists t, parse_source macros 300 PAGE DEFAULT_SPEC src = Ok t /\
      exists p, convert_tree DEFAULT_SPEC MText t = CPanic p) ->
    forall macros, exists f0, forall fuel, f0 <= fuel -> exists p, convert_source macros MText fuel PAGE src None = CPanic p).
  { intros src H macros. destruct (H macros) as (t & P & p & E). apply parse_keeps in P as [f0 P]; [|unfold PAGE; lia].
    exists f0. intros fuel L. exists p. unfold convert_source, convert_inner. rewrite (P _ L). exact E. }
  repeat constructor; apply K; intros macros; destruct macros; (eexists; split; [vm_compute; reflexivity|eexists; vm_compute; reflexivity]).
Qed.
Print Assumptions C34_refuted.

(** ** Errors are reported (C32), from sources on *)
Theorem C32_source : forall macros m fuel page src t t', 2 <= page ->
  parse_source macros fuel page DEFAULT_SPEC src = Ok t ->
  (forall x, seen x t -> given DEFAULT_SPEC x) -> converted DEFAULT_SPEC t t' ->
  (exists name, command_named t' name /\ ~ In name special_names /\ get_cmd DEFAULT_SPEC name = None) \/
  (exists c name, t' = Leaf TokenCommandSym (c :: name) /\ get_cmd DEFAULT_SPEC name = None) \/
  (exists name, environment_named t' name /\ get_env DEFAULT_SPEC name = None) ->
  exists e t'', convert_source macros m fuel page src None = CErr e /\ seen t'' t /\ error_cause DEFAULT_SPEC e t''.
Proof.
  intros macros m fuel page src t t' Hp H G Hc Hu.
  pose proof (parse_source_reads macros fuel page DEFAULT_SPEC src t Hp H) as (ts & Ht & Hl). apply tokens_slash in Ht; [|exact Hp].
  pose proof (parsed_convertible _ _ DEFAULT_SPEC _ _ _ (fun _ E => E) default_color Ht Hl G) as Hf.
  destruct (C32_reported DEFAULT_SPEC m t t' Hf Hc Hu) as (e & t'' & E & H1 & H2). exists e, t''.
  split; [|auto]. unfold convert_source, convert_inner. now rewrite H.
Qed.
Print Assumptions C32_source.

(** Checking [given] on a tree *)
Definition quotedb (s : text) : bool :=
  match s with
  | b :: r => match rev r with e :: _ => (b <? 128)%N && (e <? 128)%N | [] => false end
  | [] => false
  end.
Lemma quotedb_ok s : quotedb s = true -> quoted s.
Proof.
  destruct s as [|b r]; [discriminate|]. cbn. destruct (rev r) as [|e r'] eqn:E; [discriminate|]. intros H. apply andb_prop in H as [H1 H2].
  apply N.ltb_lt in H1. apply N.ltb_lt in H2. exists b, (rev r'), e. split; [|auto]. f_equal. now rewrite <- (rev_involutive r), E.
Qed.
Definition nonempty {A} (l : list A) : bool := match l with [] => false | _ => true end.
Definition is_kind (k : kind) (o : option kind) : bool := match o with Some k' => kind_eqb k' k | None => false end.
Definition given_check (sp : spec) (t : tree) : bool :=
  match tkind t with
  | ItemCmd =>
    match cmd_name_tok t with
    | Some (_ :: n) =>
      if teqb n (tx "label") then match arguments t with a :: _ => quotedb (tree_text a) | [] => false end
      else if teqb n (tx "includegraphics") then
        forallb (fun a => quotedb (tree_text a) && match first_child a with Some _ => true | None => false end) (arguments t)
        && existsb (fun a => is_kind ItemCurly (option_map tkind (first_child a))) (arguments t)
      else if teqb n (tx "caption") then nonempty (arguments t) else true
    | _ => true
    end
  | ItemEnv => match env_arguments t with a :: _ => quotedb (tree_text a) | [] =>
      match env_name_tok t with
      | Some n => match get_env sp (trim n) with Some e => match en_feature e with FTable => false | _ => true end | None => true end
      | None => true
      end end
  | _ => true
  end.
Lemma given_check_ok sp t : given_check sp t = true -> given sp t.
Proof.
  unfold given_check, given. intros H.
  assert (C : forall n, command_named t n -> (if teqb n (tx "label") then match arguments t with a :: _ => quotedb (tree_text a) | [] => false end
      else if teqb n (tx "includegraphics") then
        forallb (fun a => quotedb (tree_text a) && match first_child a with Some _ => true | None => false end) (arguments t)
        && existsb (fun a => is_kind ItemCurly (option_map tkind (first_child a))) (arguments t)
      else if teqb n (tx "caption") then nonempty (arguments t) else true) = true).
  { intros n [E [c Hc]]. rewrite E, Hc in H. exact H. }
  split; [|split; [|split]].
  - intros Hn. specialize (C _ Hn). cbn in C. destruct (arguments t) as [|a r]; [discriminate|]. eauto using quotedb_ok.
  - intros Hn. specialize (C _ Hn). change (forallb (fun a => quotedb (tree_text a) && match first_child a with Some _ => true | None => false end) (arguments t)
        && existsb (fun a => is_kind ItemCurly (option_map tkind (first_child a))) (arguments t) = true) in C.
    apply andb_prop in C as [C1 C2]. split.
    + apply Forall_forall. intros a Ha. rewrite forallb_forall in C1. specialize (C1 a Ha). apply andb_prop in C1 as [C1 C3]. split; [now apply quotedb_ok|].
      destruct (first_child a); [discriminate|discriminate C3].
    + apply existsb_exists in C2 as (a & Ha & C2). exists a. split; [exact Ha|]. destruct (option_map tkind (first_child a)) as [k|]; [|discriminate C2].
      unfold is_kind, kind_eqb in C2. destruct (kind_eq_dec _ _) as [-> |]; [reflexivity|discriminate].
  - intros Hn. specialize (C _ Hn). change (nonempty (arguments t) = true) in C. destruct (arguments t); [discriminate|discriminate].
  - intros (n & (E & n' & Hn & ->) & Hf). rewrite E, Hn in H. destruct (get_env sp (trim n')) as [e|]; [|discriminate]. injection Hf as Hf. rewrite Hf in H.
    destruct (env_arguments t) as [|a r]; [discriminate|]. eauto using quotedb_ok.
Qed.
Fixpoint every_tree (f : tree -> bool) (t : tree) : bool :=
  f t && match t with Leaf _ _ => true | Node _ ch => (fix go l := match l with [] => true | t :: r => every_tree f t && go r end) ch end.
Lemma every_tree_ok f t : every_tree f t = true -> forall x, occurs_in x t -> f x = true.
Proof.
  induction t as [k s|k ch IH] using tree_ind2; cbn [every_tree]; intros G x Hx; apply andb_prop in G as [G1 G2].
  - inversion Hx. now subst.
  - inversion Hx as [|k0 ch0 c Hc Hx' E]; subst; [exact G1|]. clear G1 Hx.
    induction ch as [|d ch IHch]; [contradiction|]. inversion IH. subst. apply andb_prop in G2 as [G1 G2]. destruct Hc as [-> |Hc]; auto.
Qed.

(** Sources that use these commands properly meet the hypotheses: *)
Example C34_example : let src := tx "\begin{figure}\includegraphics[width=1]{a}\caption{b}\label{c}\end{figure}\begin{tabular}{l|c}a&b\\\hline c&d\end{tabular}" in
  exists t, parse_source true 600 PAGE DEFAULT_SPEC src = Ok t /\
  (forall x, seen x t -> given DEFAULT_SPEC x) /\
  exists o, convert_source true MText 600 PAGE src None = COk o.
Proof.
  cbv zeta. eexists. split; [vm_compute; reflexivity|]. split; [|eexists; vm_compute; reflexivity].
  intros x Hx. apply given_check_ok. revert x Hx.
  match goal with |- forall x, seen x ?t -> _ => enough (E : every_tree (given_check DEFAULT_SPEC) t = true) end.
  - intros x Hx. apply seen_occurs in Hx. exact (every_tree_ok _ _ E _ Hx).
  - vm_compute. reflexivity.
Qed.
(** ... and so does one that uses none of them *)
Example C34_plain_example : exists t ts, parse_source false 300 PAGE DEFAULT_SPEC (tx "\frac 1 \foo") = Ok t /\
  tokens_of false PAGE DEFAULT_SPEC (tx "\frac 1 \foo") ts /\ Forall (fun u => ~ insisting DEFAULT_SPEC u) ts /\
  convert_source false MMath 300 PAGE (tx "\frac 1 \foo") None = CErr (EUnknownCommand (tx "foo")).
Proof.
  eexists _, _. split; [vm_compute; reflexivity|]. split; [split; [vm_compute; reflexivity|reflexivity]|]. split; [|vm_compute; reflexivity].
  match goal with |- Forall _ ?l => let l' := eval vm_compute in l in change l with l' end.
  repeat constructor; intros (c & E & [H|(e & H & _)]); try discriminate E; 
    try (repeat destruct H as [H|H]; try discriminate H; contradiction); vm_compute in H; discriminate H.
Qed.
