(** The converter writes the layout: one step, then all of them. *)
From Verif Require Export RenderStep.
From Verif Require Import ConvTerm.
Local Open Scope N_scope.

Lemma leaf_kind_no k : ~ leaf_kind k -> forall s, ~ shaped (Leaf k s).
Proof. intros H s [G _]. contradiction. Qed.
Lemma shaped_cmd t name : shaped t -> command_named t name ->
  exists ch, t = Node ItemCmd ch /\ cmd_name_tok t = Some (92 :: name).
Proof.
  intros Hs [Hk [c Hc]]. destruct t as [k s|k ch]; cbn in Hk; subst k.
  - discriminate Hc.
  - exists ch. split; [reflexivity|]. destruct Hs as [_ [n Hn]]. rewrite Hn in Hc. injection Hc as <- <-. exact Hn.
Qed.
Lemma shaped_env t name : shaped t -> environment_named t name ->
  exists ch n, t = Node ItemEnv ch /\ env_name_tok t = Some n /\ name = trim n.
Proof.
  intros Hs (Hk & n & Hn & ->). destruct t as [k s|k ch]; cbn in Hk; subst k.
  - discriminate Hn.
  - exists ch, n. auto.
Qed.
Lemma well_shaped_self t : well_shaped t -> shaped t. Proof. intros H. apply H. constructor. Qed.
Lemma shaped_named t : shaped t -> named_ok t.
Proof.
  intros Hs Ek. destruct t as [k s|k ch]; cbn in Ek; subst k.
  - exfalso. destruct Hs as [Hs _]. clear -Hs. repeat destruct Hs as [Hs|Hs]; try discriminate; contradiction.
  - destruct Hs as [_ Hs]. split; [reflexivity|exact Hs].
Qed.
Lemma children_named ch : well_shaped (Node ItemEnv ch) -> Forall named_ok ch.
Proof.
  intros H. apply Forall_forall. intros t Ht. apply shaped_named, H. eapply seen_child; [|exact Ht|constructor].
  clear. intros X. repeat destruct X as [X|X]; try discriminate; contradiction.
Qed.

Section Main.
Variable sp : spec.
Variable rec : tree -> cst -> cout.
Variable F : place -> carry -> tree -> outcome.

Lemma cmd_dispatch p ch name c : cmd_name_tok (Node ItemCmd ch) = Some (92 :: name) ->
  convert_step sp rec (Node ItemCmd ch) (st p c) =
    let s := st p (at_element (Node ItemCmd ch) c) in
    if teqb name (tx "item") then convert_command_item s
    else if teqb name (tx "label") then convert_command_label (Node ItemCmd ch) s
    else if teqb name (tx "includegraphics") then convert_command_includegraphics (Node ItemCmd ch) s
    else if teqb name (tx "color") || teqb name (tx "textcolor") || teqb name (tx "colorbox")
    then convert_command_color sp rec (Node ItemCmd ch) s
    else convert_normal_command sp rec (Node ItemCmd ch) s.
Proof.
  intros Hn. transitivity (convert_cmd sp rec (Node ItemCmd ch) (st p (at_element (Node ItemCmd ch) c))); [reflexivity|].
  unfold convert_cmd, cmd_name. rewrite Hn. cbn [unwrap cbind]. rewrite tail1_small by reflexivity. reflexivity.
Qed.
Lemma normal_dispatch p ch name c : cmd_name_tok (Node ItemCmd ch) = Some (92 :: name) -> ~ In name special_names ->
  convert_step sp rec (Node ItemCmd ch) (st p c) = convert_normal_command sp rec (Node ItemCmd ch) (st p (at_element (Node ItemCmd ch) c)).
Proof.
  intros Hn Hs. rewrite (cmd_dispatch p ch name c Hn). cbv zeta.
  assert (N : forall x, In x special_names -> teqb name x = false) by (intros x Hx; apply teqb_neq; intros ->; contradiction).
  rewrite (N (tx "item")), (N (tx "label")), (N (tx "includegraphics")), (N (tx "color")), (N (tx "textcolor")), (N (tx "colorbox"))
    by (unfold special_names; cbn [map In]; tauto).
  reflexivity.
Qed.
Lemma env_dispatch p ch n c : env_name_tok (Node ItemEnv ch) = Some n ->
  convert_step sp rec (Node ItemEnv ch) (st p c) =
   let t := Node ItemEnv ch in let s := st p (at_element t c) in
    match get_env sp (trim n) with
    | None => CErr (EUnknownEnv (trim n))
    | Some shape =>
      let tn := or_default (en_alias shape) (trim n) in
      let k := env_for (en_feature shape) in
      if is_list_env k then
        let! (s, o) := each rec (inside t) (enter_env k s) in
        let! s := exit_env (env_of p) s in COk (s, o)
      else
        let! (s, o) :=
          if is_math_env k then
            let with_dollar := negb (is_math s) in
            let! (s, o1) := named_args rec 0 (env_arguments t) (set_mode MMath (enter_env k s)) in
            let! (s, o2) := each rec (inside t) s in
            let! s := exit_env (env_of p) s in
            let s := if with_dollar then set_mode (mode_of p) s else s in
            COk (s, (if with_dollar then tx "$ " else []) ++ tn ++ tx "(" ++ o1 ++ o2 ++ tx ")"
                    ++ (if with_dollar then tx " $" else []))
          else
            match k with
            | EFigure => convert_env_figure rec t k tn s
            | ETable => convert_env_table rec t k tn s
            | _ =>
              let! (s, o) := each rec (inside t) (enter_env k s) in
              let! s := exit_env (env_of p) s in
              COk (s, tx "#" ++ tn ++ tx "[" ++ o ++ tx "];")
            end in
        let '(s, ol) := flush_label s in
        COk (s, o ++ ol)
    end.
Proof.
  intros Hn. transitivity (convert_env sp rec (Node ItemEnv ch) (st p (at_element (Node ItemEnv ch) c))); [reflexivity|].
  unfold convert_env. rewrite Hn. reflexivity.
Qed.

Lemma math_env_shows p t tn k c : is_math_env k = true ->
  puts rec F (decimal_argument 0 (env_arguments t) (fun a => [Put (in_mode MMath (within k p)) a])) ->
  puts rec F (map (Put (in_mode MMath (within k p))) (inside t)) ->
  shows p
    (let! (s, o1) := named_args rec 0 (env_arguments t) (set_mode MMath (enter_env k (st p c))) in
     let! (s, o2) := each rec (inside t) s in
     let! s := exit_env (env_of p) s in
     let s := if negb (is_math (st p c)) then set_mode (mode_of p) s else s in
     COk (s, (if negb (is_math (st p c)) then tx "$ " else []) ++ tn ++ tx "(" ++ o1 ++ o2 ++ tx ")"
             ++ (if negb (is_math (st p c)) then tx " $" else [])))
    (interp F (Txt (fst (dollars p) ++ tn ++ tx "(") :: decimal_argument 0 (env_arguments t) (fun a => [Put (in_mode MMath (within k p)) a])
       ++ map (Put (in_mode MMath (within k p))) (inside t) ++ [Txt (tx ")" ++ snd (dollars p))]) c).
Proof.
  intros Hk H1 H2. rewrite st_enter, st_mode. set (q := in_mode MMath (within k p)) in *.
  rewrite interp_txt, interp_app. assert (G1 := arguments_shows rec F q (env_arguments t) 0 c H1).
  destruct (named_args rec 0 (env_arguments t) (st q c)) as [[s y]|e|e|];
    destruct (interp F (decimal_argument 0 (env_arguments t) (fun a => [Put q a])) c) as [c1 z|e'|]; cbn [shows cbind then_ before] in *; try contradiction; auto.
  destruct G1 as [-> ->]. rewrite interp_app. assert (G2 := each_rec rec F q (inside t) c1 H2).
  destruct (each rec (inside t) (st q c1)) as [[s y2]|e|e|];
    destruct (interp F (map (Put q) (inside t)) c1) as [c2 z2|e'|]; cbn [shows cbind then_ before] in *; try contradiction; auto.
  destruct G2 as [-> ->]. unfold q. rewrite st_exit_as. cbn [cbind interp before]. unfold is_math, dollars. cbn [c_mode st].
  destruct (mode_of p) eqn:Em; cbn [negb fst snd shows]; (split; [|rewrite ?app_nil_r; cbn [app]; rewrite <- ?app_assoc; reflexivity]).
  - rewrite <- Em. apply st_mode_back; reflexivity.
  - unfold st, in_mode. cbn. now rewrite Em.
Qed.
Lemma plain_env_shows p l tn k c : puts rec F (map (Put (within k p)) l) ->
  shows p (let! (s, o) := each rec l (enter_env k (st p c)) in
     let! s := exit_env (env_of p) s in COk (s, tx "#" ++ tn ++ tx "[" ++ o ++ tx "];"))
    (interp F (Txt (tx "#" ++ tn ++ tx "[") :: map (Put (within k p)) l ++ [Txt (tx "];")]) c).
Proof.
  intros H. rewrite st_enter, interp_txt, interp_app. assert (G := each_rec rec F (within k p) l c H).
  destruct (each rec l (st (within k p) c)) as [[s y]|e|e|];
    destruct (interp F (map (Put (within k p)) l) c) as [c1 z|e'|]; cbn [shows cbind then_ before] in *; try contradiction; auto.
  destruct G as [-> ->]. rewrite st_exit. cbn [cbind interp before shows]. split; [reflexivity|]. now rewrite <- !app_assoc.
Qed.
Lemma figure_env_shows p ch tn o c : Forall named_ok ch -> caption ch o ->
  puts rec F (match o with Some a => [Txt (tx "caption: ["); Put (within EFigure p) a; Txt (tx "],")] | None => [] end) ->
  puts rec F (map (Put (within EFigure p)) (figure_body (Node ItemEnv ch))) ->
  shows p (convert_env_figure rec (Node ItemEnv ch) EFigure tn (st p c))
    (interp F (Txt (tx "#" ++ tn ++ tx "(")
       :: match o with Some a => [Txt (tx "caption: ["); Put (within EFigure p) a; Txt (tx "],")] | None => [] end
       ++ Txt (tx ")[") :: map (Put (within EFigure p)) (figure_body (Node ItemEnv ch)) ++ [Txt (tx "];")]) c).
Proof.
  intros Hn Hc H1 H2. unfold convert_env_figure. cbn [children]. rewrite (caption_unique ch o Hc Hn None). cbn [cbind]. rewrite st_enter.
  assert (E : match o with Some a => Some a | None => None end = o) by now destruct o. rewrite E. clear E. cbn [c_env st].
  set (q := within EFigure p) in *. rewrite interp_txt, interp_app.
  match goal with |- shows p (cbind ?X _) _ => assert (G1 : shows q X
    (interp F (match o with Some a => [Txt (tx "caption: ["); Put q a; Txt (tx "],")] | None => [] end) c)) end.
  { destruct o as [a|]; [|apply shows_ok]. cbn [interp]. assert (G := H1 q a (or_intror (or_introl eq_refl)) c).
    destruct (rec a (st q c)) as [[s y]|e|e|]; destruct (F q c a) as [c1 z|e'|]; cbn [shows cbind then_ before] in *; try contradiction; auto.
    destruct G as [-> ->]. split; [reflexivity|]. now rewrite app_nil_r. }
  match goal with |- shows p (cbind ?X _) _ => destruct X as [[s y]|e|e|] end;
    destruct (interp F (match o with Some a => _ | None => [] end) c) as [c1 z|e'|]; cbn [shows cbind then_ before] in *; try contradiction; auto.
  destruct G1 as [-> ->]. rewrite interp_txt, interp_app. assert (G2 := figure_shows rec F q ch Hn c1 H2). unfold figure_body, inside. cbn [children].
  destruct (each (figure_child rec) ch (st q c1)) as [[s y2]|e|e|]; destruct (interp F _ c1) as [c2 z2|e'|]; cbn [shows cbind then_ before] in *; try contradiction; auto.
  destruct G2 as [-> ->]. unfold q. rewrite st_exit. cbn [cbind interp before shows]. split; [reflexivity|].
  rewrite ?app_nil_r, <- !app_assoc. reflexivity.
Qed.
Lemma table_env_shows p ch tn cols c : Forall named_ok ch -> column_text (Node ItemEnv ch) cols -> Forall (fun x => In x (tx "lcr|")) cols ->
  puts rec F (cells (within ETable p) false (inside (Node ItemEnv ch))) ->
  shows p (convert_env_table rec (Node ItemEnv ch) ETable tn (st p c))
    (interp F (Txt (table_front tn cols) :: cells (within ETable p) false (inside (Node ItemEnv ch)) ++ [Txt (tx ");")]) c).
Proof.
  intros Hn (a & r & m & Ha & Hm & ->) Hc Hp. unfold convert_env_table. rewrite Ha. cbn [hd_error unwrap cbind].
  rewrite (proj2 (strip_ends_cut _ _ _) Hm). cbn [cbind]. rewrite (columns_good _ 0 Hc). cbn [cbind]. cbv zeta. rewrite st_enter. cbn [c_env st children].
  rewrite interp_txt, interp_app. assert (G := cells_shows rec F (within ETable p) ch Hn false c Hp). cbn [negb] in G. unfold inside. cbn [children].
  destruct (table_cells rec true ch (st (within ETable p) c)) as [[s y]|e|e|]; destruct (interp F _ c) as [c2 z|e'|]; cbn [shows cbind then_ before] in *; try contradiction; auto.
  destruct G as [-> ->]. rewrite st_exit. cbn [cbind interp before shows]. split; [reflexivity|]. unfold table_front.
  rewrite align_alignment by (apply Forall_forall; intros x Hx; now apply filter_In in Hx). rewrite ?app_nil_r, <- !app_assoc. reflexivity.
Qed.

Lemma color_name name : In name colored -> teqb name (tx "item") = false /\ teqb name (tx "label") = false /\ teqb name (tx "includegraphics") = false /\
  teqb name (tx "color") || teqb name (tx "textcolor") || teqb name (tx "colorbox") = true.
Proof. intros H. repeat destruct H as [<- |H]; try contradiction; vm_compute; auto. Qed.
Lemma shows_flush p X a b c : shows p X (interp F a c) -> b = labels p ->
  shows p (let! (s, x) := X in let '(s, ol) := flush_label s in COk (s, x ++ ol)) (interp F (a ++ b) c).
Proof. intros H ->. now apply flush_shows. Qed.

Theorem step_shows p t ps c : sane p -> well_shaped t -> lays sp p t ps -> puts rec F ps ->
  shows p (convert_step sp rec t (st p c)) (interp F ps (at_element t c)).
Proof.
  intros Hsane Hw Hl Hp. pose proof (well_shaped_self _ Hw) as Hs.
  destruct Hl as [s|s|s|k s o Ho|k s o Ho|x name sh Hg|x name Hg|s|t Hk|k ch Hk|ch|ch|k ch Hk|ch i Hd|ch Hd|ch Hh|ch Hm Hh|k x name ch
    |ch Hm|ch Hm Hf|l1 k m l2 Hm Hf Hb Hk|l1 k m l2 Hm Hb Hk
    |t Hn Hi|t Hn Hi|t l Hn Hla|t Hn Hla|t o Hn Hgr|t Hn Hgr|t name model color body Hn Hc Hcp|t Hn Ha
    |t name Hn Hsp Hg|t name sh Hn Hsp Hg Hc|t name sh tn k ch r Hn Hsp Hg Hc Ho Et|t name sh Hn Hsp Hg Hc Ho|t name sh tn Hn Hsp Hg Hc1 Hc2 Et Hm Hh|t name sh tn Hn Hsp Hg Hc1 Hc2 Et Hm
    |t name Hn Hg|t name sh Hn Hg Hf|t name sh q Hn Hg Hf Hq|t name sh Hn Hg Hf|t name sh o Hn Hg Hf Hc|t name sh x Hn Hg Hf Hx Hxc Hxa
    |t name sh cols Hn Hg Hf Hc Hgood|t name sh good x rest Hn Hg Hf Hc Hgood Hx|t name sh Hn Hg Hf Hc].
  - (* word *) rewrite interp_txt1. unfold convert_step. cbn [tkind token_text cbind]. unfold is_math. cbn [c_mode set_skip st].
    destruct (mode_of p) eqn:Em; split; try reflexivity; unfold st, set_skip; cbn; now rewrite ?Em.
  - (* blank *) unfold convert_step. cbn [tkind at_element interp c_skip st token_text cbind before].
    destruct (fresh c) eqn:Ef; cbn [app shows]; rewrite ?app_nil_r; split; try reflexivity; unfold st, set_skip; cbn; now rewrite ?Ef.
  - (* line *) unfold convert_step. cbn [tkind at_element interp before token_text cbind]. split; [reflexivity|]. now rewrite app_nil_r.
  - (* punctuation *) rewrite interp_txt1. destruct k; try discriminate Ho; injection Ho as <-; split; reflexivity.
  - rewrite interp_txt1. unfold convert_step. destruct k; try discriminate Ho; injection Ho as <-; cbn [tkind at_element]; unfold is_math; cbn [c_mode c_env set_skip st].
    + destruct (mode_of p) eqn:Em; split; try reflexivity; unfold st, set_skip; cbn; now rewrite ?Em.
    + destruct (env_of p) eqn:Em; split; try reflexivity; unfold st, set_skip; cbn; now rewrite ?Em.
    + destruct (env_of p) eqn:Em; split; try reflexivity; unfold st, set_skip; cbn; now rewrite ?Em.
  - (* symbol *) destruct Hs as [_ Hs]. destruct (Hs eq_refl) as [n E]. injection E as -> ->. rewrite interp_txt1.
    unfold convert_step. cbn [tkind convert_command_sym]. rewrite tail1_small by reflexivity. cbn [cbind]. rewrite Hg. split; reflexivity.
  - destruct Hs as [_ Hs]. destruct (Hs eq_refl) as [n E]. injection E as -> ->.
    unfold convert_step. cbn [tkind convert_command_sym]. rewrite tail1_small by reflexivity. cbn [cbind]. rewrite Hg. reflexivity.
  - reflexivity.
  - unfold convert_step. rewrite Hk. reflexivity.
  - destruct Hk as [-> | ->]; reflexivity.
  - split; reflexivity.
  - rewrite interp_txt1. split; reflexivity.
  - (* containers *) assert (E : convert_step sp rec (Node k ch) (st p c) = each rec ch (st p (at_element (Node k ch) c))).
    { repeat destruct Hk as [<- |Hk]; try contradiction; reflexivity. }
    rewrite E. now apply each_rec.
  - (* formulas *) change (convert_step sp rec (Node ItemFormula ch) (st p c)) with (convert_formula rec (Node ItemFormula ch) (st p (at_element (Node ItemFormula ch) c))).
    apply formula_shows; [exact Hd|]. apply puts_cons in Hp. now apply puts_app in Hp.
  - change (convert_step sp rec (Node ItemFormula ch) (st p c)) with (convert_formula rec (Node ItemFormula ch) (st p (at_element (Node ItemFormula ch) c))).
    unfold convert_formula. cbn [node_children cbind]. destruct (formula_is_valid (Node ItemFormula ch)) eqn:Ev; [|reflexivity].
    apply delimited_valid in Ev. now apply Hd in Ev.
  - (* groups *) change (convert_step sp rec (Node ItemCurly ch) (st p c)) with (convert_curly_group rec (Node ItemCurly ch) (st p (at_element (Node ItemCurly ch) c))).
    eapply shows_eq; [apply (group_shows rec F); exact Hp|]. rewrite interp_app.
    assert (E : match mode_of p with MMath => if forallb is_brace_or_space ch then [Txt (tx "zws ")] else [] | MText => [] end = []).
    { destruct (mode_of p); [reflexivity|]. destruct Hh as [Hh|Hh]; [discriminate|]. destruct (forallb is_brace_or_space ch) eqn:E; [|reflexivity].
      apply hollow_spec in E. contradiction. }
    rewrite E. apply then_nil.
  - change (convert_step sp rec (Node ItemCurly ch) (st p c)) with (convert_curly_group rec (Node ItemCurly ch) (st p (at_element (Node ItemCurly ch) c))).
    apply puts_app in Hp as [Hp _]. eapply shows_eq; [apply (group_shows rec F); exact Hp|]. rewrite Hm. apply hollow_spec in Hh. now rewrite Hh.
  - (* delimiters *) destruct Hs as [_ (k' & n & r & E)]. injection E as _ -> -> _.
    change (convert_step sp rec (Node ClauseLR (Leaf k (92 :: n) :: ch)) (st p c)) with (convert_clause_lr rec (Node ClauseLR (Leaf k (92 :: n) :: ch)) (st p (at_element (Node ClauseLR (Leaf k (92 :: n) :: ch)) c))).
    apply clause_shows. apply puts_app in Hp as [_ Hp]. now apply puts_app in Hp.
  - (* scripts *) change (convert_step sp rec (Node ItemAttachComponent ch) (st p c)) with (convert_attach_component rec (Node ItemAttachComponent ch) (st p (at_element (Node ItemAttachComponent ch) c))).
    unfold convert_attach_component. cbn [node_children cbind]. unfold is_math. cbn [c_mode st]. rewrite Hm. now apply each_rec.
  - change (convert_step sp rec (Node ItemAttachComponent ch) (st p c)) with (convert_attach_component rec (Node ItemAttachComponent ch) (st p (at_element (Node ItemAttachComponent ch) c))).
    unfold convert_attach_component. cbn [node_children cbind]. unfold is_math. cbn [c_mode st]. rewrite Hm. now apply attach_none.
  - change (convert_step sp rec (Node ItemAttachComponent (l1 ++ Leaf k m :: l2)) (st p c)) with
      (convert_attach_component rec (Node ItemAttachComponent (l1 ++ Leaf k m :: l2)) (st p (at_element (Node ItemAttachComponent (l1 ++ Leaf k m :: l2)) c))).
    unfold convert_attach_component. cbn [node_children cbind]. unfold is_math. cbn [c_mode st]. rewrite Hm.
    apply puts_app in Hp as [Hp1 Hp]. apply puts_cons in Hp. apply puts_app in Hp as [Hp2 _].
    eapply shows_eq; [apply (attach_mark rec F); assumption|].
    destruct (forallb _ l1) eqn:E; [apply blanks_spec in E; contradiction|]. reflexivity.
  - change (convert_step sp rec (Node ItemAttachComponent (l1 ++ Leaf k m :: l2)) (st p c)) with
      (convert_attach_component rec (Node ItemAttachComponent (l1 ++ Leaf k m :: l2)) (st p (at_element (Node ItemAttachComponent (l1 ++ Leaf k m :: l2)) c))).
    unfold convert_attach_component. cbn [node_children cbind]. unfold is_math. cbn [c_mode st]. rewrite Hm.
    apply puts_app in Hp as [Hp1 Hp]. apply puts_cons in Hp. apply puts_app in Hp as [Hp2 _].
    assert (Hf : Forall (fun t => ~ script_mark t) l1) by (eapply Forall_impl; [|exact Hb]; intros t [s ->]; exact (fun x => x)).
    eapply shows_eq; [apply (attach_mark rec F); assumption|].
    apply blanks_spec in Hb. rewrite Hb. reflexivity.
  - (* items *) destruct (shaped_cmd _ _ Hs Hn) as (ch & -> & En). rewrite (cmd_dispatch p ch _ c En). cbn [teqb]. rewrite teqb_refl.
    eapply shows_eq; [apply (item_shows F); exact Hsane|]. destruct Hi as [-> | ->]; reflexivity.
  - destruct (shaped_cmd _ _ Hs Hn) as (ch & -> & En). rewrite (cmd_dispatch p ch _ c En). rewrite teqb_refl.
    eapply shows_eq; [apply (item_shows F); exact Hsane|]. destruct (env_of p) eqn:E; try reflexivity; exfalso; apply Hi; [left|right]; reflexivity.
  - destruct (shaped_cmd _ _ Hs Hn) as (ch & -> & En). rewrite (cmd_dispatch p ch _ c En). rewrite teqb_refl.
    change (teqb (tx "label") (tx "item")) with false. cbv zeta iota. now apply label_shows.
  - destruct (shaped_cmd _ _ Hs Hn) as (ch & -> & En). rewrite (cmd_dispatch p ch _ c En). rewrite teqb_refl.
    change (teqb (tx "label") (tx "item")) with false. cbv zeta iota. now apply no_label_shows.
  - destruct (shaped_cmd _ _ Hs Hn) as (ch & -> & En). rewrite (cmd_dispatch p ch _ c En). rewrite teqb_refl.
    change (teqb (tx "includegraphics") (tx "item")) with false. change (teqb (tx "includegraphics") (tx "label")) with false. cbv zeta iota.
    apply (graphics_iff _ (st p (at_element (Node ItemCmd ch) c))) in Hgr. rewrite Hgr, interp_txt1. apply shows_ok.
  - destruct (shaped_cmd _ _ Hs Hn) as (ch & -> & En). rewrite (cmd_dispatch p ch _ c En). rewrite teqb_refl.
    change (teqb (tx "includegraphics") (tx "item")) with false. change (teqb (tx "includegraphics") (tx "label")) with false. cbv zeta iota.
    destruct (graphics_total (Node ItemCmd ch) (st p (at_element (Node ItemCmd ch) c))) as [[o Ho]|[x ->]]; [|exact I].
    apply graphics_iff in Ho. now apply Hgr in Ho.
  - (* colours *) destruct (shaped_cmd _ _ Hs Hn) as (ch & -> & En). rewrite (cmd_dispatch p ch _ c En).
    destruct (color_name name Hc) as (E1 & E2 & E3 & E4). cbv zeta. rewrite E1, E2, E3, E4. now apply color_shows.
  - destruct (shaped_cmd _ _ Hs Hn) as (ch & -> & En). rewrite (cmd_dispatch p ch _ c En).
    assert (Hc : In (tx "color") colored) by now left. destruct (color_name _ Hc) as (E1 & E2 & E3 & E4). cbv zeta. rewrite E1, E2, E3, E4.
    unfold convert_command_color. rewrite En. unfold color_args. rewrite Ha. exact I.
  - (* other commands *) destruct (shaped_cmd _ _ Hs Hn) as (ch & -> & En). rewrite (normal_dispatch p ch name c En Hsp).
    unfold convert_normal_command, cmd_name. rewrite En. cbn [unwrap cbind]. rewrite tail1_small by reflexivity. cbn [cbind]. rewrite Hg. reflexivity.
  - destruct (shaped_cmd _ _ Hs Hn) as (ch & -> & En). rewrite (normal_dispatch p ch name c En Hsp). rewrite interp_merge.
    apply normal_shows; [exact En|exact Hg|]. unfold normal_inner. rewrite Hc, interp_txt1. apply shows_ok.
  - destruct (shaped_cmd _ _ Hs Hn) as (c0 & -> & En). rewrite (normal_dispatch p c0 name c En Hsp). subst tn. rewrite interp_merge.
    apply normal_shows; [exact En|exact Hg|]. unfold normal_inner. rewrite Hc, Ho. apply parens_shows, commas_shows.
    apply puts_cons in Hp. now apply puts_app in Hp.
  - destruct (shaped_cmd _ _ Hs Hn) as (c0 & -> & En). rewrite (normal_dispatch p c0 name c En Hsp).
    rewrite (normal_unfold sp rec p _ name sh _ En Hg). cbv zeta. unfold normal_inner. rewrite Hc.
    destruct (operands (Node ItemCmd c0)) as [|[k s|k ch'] r]; [exact I|exact I|]. exfalso. eapply Ho. reflexivity.
  - destruct (shaped_cmd _ _ Hs Hn) as (c0 & -> & En). rewrite (normal_dispatch p c0 name c En Hsp). subst tn. rewrite interp_merge.
    apply normal_shows; [exact En|exact Hg|]. set (tn := typst_name p name (cs_alias sh)) in *.
    assert (E : normal_inner rec (Node ItemCmd c0) sh tn (st (command_place p tn) (at_element (Node ItemCmd c0) c)) =
      (let! (s, o) := comma_args rec ClauseArgument (operands (Node ItemCmd c0)) (st (command_place p tn) (at_element (Node ItemCmd c0) c)) in COk (s, tx "(" ++ o ++ tx ")"))).
    { unfold normal_inner, is_math. cbn [c_mode st]. rewrite place_mode, Hm.
      destruct (starts_with (tx "#") tn) eqn:Eh; [apply starts_hash in Eh; contradiction|].
      destruct (cs_args sh) as [pt| |]; try reflexivity. destruct pt; try reflexivity; contradiction. }
    rewrite E. apply parens_shows, commas_shows. apply puts_cons in Hp. now apply puts_app in Hp.
  - destruct (shaped_cmd _ _ Hs Hn) as (c0 & -> & En). rewrite (normal_dispatch p c0 name c En Hsp). subst tn.
    apply normal_shows; [exact En|exact Hg|]. set (tn := typst_name p name (cs_alias sh)) in *.
    assert (E : normal_inner rec (Node ItemCmd c0) sh tn (st (command_place p tn) (at_element (Node ItemCmd c0) c)) =
      (let! (s, o) := each (text_arg rec) (operands (Node ItemCmd c0)) (st (command_place p tn) (at_element (Node ItemCmd c0) c)) in COk (s, o ++ tx ";"))).
    { unfold normal_inner, is_math. cbn [c_mode st]. rewrite place_mode.
      assert (Eb : match mode_of p with MMath => true | MText => false end && negb (starts_with (tx "#") tn) = false).
      { destruct Hm as [-> |Hm]; [reflexivity|]. apply starts_hash in Hm. rewrite Hm. apply andb_false_r. }
      rewrite Eb. destruct (cs_args sh) as [pt| |]; try reflexivity. destruct pt; try reflexivity; contradiction. }
    rewrite E. rewrite interp_app. apply puts_cons in Hp. apply puts_app in Hp as [Hp _].
    eapply shows_eq; [apply shows_after; apply (brackets_shows rec F); exact Hp|]. apply then_ext. intros c1. now rewrite interp_txt1.
  - (* environments *) destruct (shaped_env _ _ Hs Hn) as (ch & n & -> & En & ->). rewrite (env_dispatch p ch n c En). cbv zeta. rewrite Hg. reflexivity.
  - destruct (shaped_env _ _ Hs Hn) as (ch & n & -> & En & ->). rewrite (env_dispatch p ch n c En). cbv zeta. rewrite Hg.
    set (k := env_for (en_feature sh)) in *. assert (El : is_list_env k = true) by (destruct Hf as [-> | ->]; reflexivity). rewrite El, st_enter.
    assert (G := each_rec rec F (within k p) (inside (Node ItemEnv ch)) (at_element (Node ItemEnv ch) c) Hp).
    destruct (each rec (inside (Node ItemEnv ch)) _) as [[s y]|e|e|]; destruct (interp F _ _) as [c1 z|e'|]; cbn [shows cbind] in *; try contradiction; auto.
    destruct G as [-> ->]. rewrite st_exit. apply shows_ok.
  - destruct (shaped_env _ _ Hs Hn) as (ch & n & -> & En & ->). rewrite (env_dispatch p ch n c En). cbv zeta. rewrite Hg.
    set (k := env_for (en_feature sh)) in *.
    assert (El : is_list_env k = false /\ is_math_env k = true) by (unfold k; repeat destruct Hf as [<- |Hf]; try contradiction; split; reflexivity).
    destruct El as [El Em]. rewrite El, Em. subst q.
    match goal with |- shows p _ (interp F (?a :: ?b ++ ?l ++ ?x :: ?y) _) => change (a :: b ++ l ++ x :: y) with (a :: b ++ l ++ [x] ++ y);
      replace (a :: b ++ l ++ [x] ++ y) with ((a :: b ++ l ++ [x]) ++ y) by (cbn [app]; now rewrite <- !app_assoc) end.
    apply flush_shows. apply puts_cons in Hp. apply puts_app in Hp as [Hp1 Hp]. apply puts_app in Hp as [Hp2 _]. now apply math_env_shows.
  - destruct (shaped_env _ _ Hs Hn) as (ch & n & -> & En & ->). rewrite (env_dispatch p ch n c En). cbv zeta. rewrite Hg, Hf.
    cbn [env_for is_list_env is_math_env].
    match goal with |- shows p _ (interp F (?a :: ?l ++ ?x :: ?y) _) => change (a :: l ++ x :: y) with (a :: l ++ [x] ++ y);
      replace (a :: l ++ [x] ++ y) with ((a :: l ++ [x]) ++ y) by (cbn [app]; now rewrite <- !app_assoc) end.
    apply flush_shows. apply puts_cons in Hp. apply puts_app in Hp as [Hp1 _]. now apply plain_env_shows.
  - destruct (shaped_env _ _ Hs Hn) as (ch & n & -> & En & ->). rewrite (env_dispatch p ch n c En). cbv zeta. rewrite Hg, Hf.
    cbn [env_for is_list_env is_math_env].
    match goal with |- shows p _ (interp F (?a :: ?b ++ ?u :: ?l ++ ?x :: ?y) _) => change (a :: b ++ u :: l ++ x :: y) with (a :: b ++ u :: l ++ [x] ++ y);
      replace (a :: b ++ u :: l ++ [x] ++ y) with ((a :: b ++ u :: l ++ [x]) ++ y) by (cbn [app]; rewrite <- !app_assoc; cbn [app]; now rewrite <- !app_assoc) end.
    apply flush_shows. apply puts_cons in Hp. apply puts_app in Hp as [Hp1 Hp]. apply puts_cons in Hp. apply puts_app in Hp as [Hp2 _].
    apply figure_env_shows; try assumption. now apply children_named.
  - destruct (shaped_env _ _ Hs Hn) as (ch & n & -> & En & ->). rewrite (env_dispatch p ch n c En). cbv zeta. rewrite Hg, Hf.
    cbn [env_for is_list_env is_math_env]. unfold convert_env_figure. cbn [children] in *.
    destruct (caption_ok ch (children_named _ Hw) None) as [(y & Hy & _ & _ & e & ->)|(o & Ho & Hcap)]; [exact I|]. exfalso.
    destruct Hcap as [l Hf'|l1 z a r l2 H1 H2 H3 H4].
    + rewrite Forall_forall in Hf'. specialize (Hf' x Hx). congruence.
    + rewrite Forall_forall in H3, H4. apply in_app_or in Hx as [Hx|[<- |Hx]]; [exact (H3 x Hx Hxc Hxa)|congruence|]. specialize (H4 x Hx). congruence.
  - destruct (shaped_env _ _ Hs Hn) as (ch & n & -> & En & ->). rewrite (env_dispatch p ch n c En). cbv zeta. rewrite Hg, Hf.
    cbn [env_for is_list_env is_math_env].
    match goal with |- shows p _ (interp F (?a :: ?l ++ ?x :: ?y) _) => change (a :: l ++ x :: y) with (a :: l ++ [x] ++ y);
      replace (a :: l ++ [x] ++ y) with ((a :: l ++ [x]) ++ y) by (cbn [app]; now rewrite <- !app_assoc) end.
    apply flush_shows. apply puts_cons in Hp. apply puts_app in Hp as [Hp1 _]. apply table_env_shows; try assumption. now apply children_named.
  - destruct (shaped_env _ _ Hs Hn) as (ch & n & -> & En & ->). rewrite (env_dispatch p ch n c En). cbv zeta. rewrite Hg, Hf.
    cbn [env_for is_list_env is_math_env]. destruct Hc as (a & r & m & Ha & Hm & Et). unfold convert_env_table. rewrite Ha. cbn [hd_error unwrap cbind].
    rewrite (proj2 (strip_ends_cut _ _ _) Hm). cbn [cbind]. rewrite <- Et, (columns_wrong _ _ _ 0 Hgood Hx). reflexivity.
  - destruct (shaped_env _ _ Hs Hn) as (ch & n & -> & En & ->). rewrite (env_dispatch p ch n c En). cbv zeta. rewrite Hg, Hf.
    cbn [env_for is_list_env is_math_env]. unfold convert_env_table.
    destruct (env_arguments (Node ItemEnv ch)) as [|a r] eqn:Ea; [exact I|]. cbn [hd_error unwrap cbind].
    destruct (strip_ends_or "converter.rs:1059 str slice" (tree_text a)) as [(m & _ & Hm)|[[x ->] _]]; [|exact I].
    exfalso. apply (Hc (trim m)). exists a, r, m. auto.
Qed.
End Main.
