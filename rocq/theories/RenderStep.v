(** Each kind of element: the converter's routine writes the pieces of its layout. *)
From Verif Require Export RenderText.
Local Open Scope N_scope.

Section Step.
Variable sp : spec.
Variable rec : tree -> cst -> cout.
Variable F : place -> carry -> tree -> outcome.
Definition puts (ps : list piece) : Prop :=
  forall q x, In (Put q x) ps -> forall c, shows q (rec x (st q c)) (F q c x).

Lemma then_ext o k h : (forall c, k c = h c) -> then_ o k = then_ o h.
Proof. intros H. destruct o; cbn; [now rewrite H|reflexivity..]. Qed.
Lemma puts_app a b : puts (a ++ b) -> puts a /\ puts b.
Proof. intros H. split; intros q x Hx; apply H; apply in_or_app; auto. Qed.
Lemma puts_cons a b : puts (a :: b) -> puts b.
Proof. intros H q x Hx. apply H. now right. Qed.
Lemma puts_all p l : puts (map (Put p) l) -> forall t, In t l -> forall c, shows p (rec t (st p c)) (F p c t).
Proof. intros H t Ht. apply H. now apply in_map. Qed.
Lemma each_rec p l c : puts (map (Put p) l) -> shows p (each rec l (st p c)) (interp F (map (Put p) l) c).
Proof. intros H. apply each_puts. now apply puts_all. Qed.

(** ** formulas *)
Lemma delimited_valid t : formula_is_valid t = true -> delimited t (formula_is_inline t).
Proof. clear rec.
  unfold formula_is_valid, delimited, formula_is_inline. destruct (first_token t) as [[k1 s1]|]; [|discriminate].
  destruct (last_token t) as [[k2 s2]|]; [|discriminate]. intros H. exists (k1, s1), (k2, s2).
  split; [reflexivity|]. split; [reflexivity|]. unfold kind_eqb in H.
  destruct (kind_eq_dec k1 TokenDollar) as [-> |N1]; [destruct (kind_eq_dec k2 TokenDollar) as [-> |N2]|]; cbn [andb] in H.
  - apply orb_true_iff in H as [H|H]; apply andb_true_iff in H as [H1 H2]; apply teqb_eq in H1, H2; subst; vm_compute; tauto.
  - destruct (kind_eq_dec TokenDollar TokenBeginMath) as [E|_]; [discriminate|discriminate].
  - destruct (kind_eq_dec k1 TokenBeginMath) as [-> |N3]; [|discriminate].
    destruct (kind_eq_dec k2 TokenEndMath) as [-> |N4]; cbn [andb] in H; [|discriminate].
    apply orb_true_iff in H as [H|H]; apply andb_true_iff in H as [H1 H2]; apply teqb_eq in H1, H2; subst; vm_compute; tauto.
Qed.
Lemma valid_delimited t i : delimited t i -> formula_is_valid t = true /\ formula_is_inline t = i.
Proof.
  intros (a & b & Ha & Hb & H). unfold formula_is_valid, formula_is_inline. rewrite Ha, Hb.
  repeat destruct H as [H|H]; try contradiction; injection H as <- <- <-; split; reflexivity.
Qed.
Lemma formula_shows p ch i c : delimited (Node ItemFormula ch) i -> puts (map (Put (in_mode MMath p)) ch) ->
  shows p (convert_formula rec (Node ItemFormula ch) (st p c))
    (interp F (Txt (fst (around_formula p i)) :: map (Put (in_mode MMath p)) ch ++ [Txt (snd (around_formula p i))]) c).
Proof.
  intros Hd Hp. apply valid_delimited in Hd as [Hv Hi]. unfold convert_formula. cbn [node_children cbind].
  rewrite Hv, Hi. cbn [negb]. cbv zeta. rewrite interp_txt, interp_app. rewrite <- then_before.
  rewrite then_before. rewrite st_mode.
  assert (G : shows p (let! (s, o2) := each rec ch (st (in_mode MMath p) c) in
    COk (set_mode (c_mode (st p c)) s, o2 ++ snd (around_formula p i)))
    (then_ (interp F (map (Put (in_mode MMath p)) ch) c) (interp F [Txt (snd (around_formula p i))]))).
  { eapply shows_bind; [now apply each_rec|]. intros c1 y. cbn beta iota. rewrite interp_txt1. cbn [before].
    split; [|reflexivity]. apply st_mode_back; reflexivity. }
  revert G. destruct (each rec ch (st (in_mode MMath p) c)) as [[s y]|e|e|]; cbn [cbind];
    destruct (then_ _ _) as [c' z|e'|]; cbn [shows before]; try tauto.
  intros [E1 E2]. assert (Hm : c_mode (set_mode (c_mode (st p c)) s) = mode_of p) by reflexivity. split; [exact E1|].
  subst z. unfold around_formula. cbn [c_mode st set_mode]. destruct (mode_of p); cbn [fst snd]; [destruct i; reflexivity|].
  reflexivity.
Qed.

(** ** groups *)
Lemma hollow_spec ch : forallb is_brace_or_space ch = true <-> hollow ch.
Proof. clear rec.
  unfold hollow. rewrite forallb_forall, Forall_forall. split; intros H t Ht; specialize (H t Ht).
  - unfold is_brace_or_space in H. destruct (tkind t); try discriminate; cbn; tauto.
  - unfold is_brace_or_space. repeat destruct H as [<- |H]; try contradiction; reflexivity.
Qed.
Lemma group_shows p ch c : puts (map (Put (group_place p)) ch) ->
  shows p (convert_curly_group rec (Node ItemCurly ch) (st p c))
    (interp F (map (Put (group_place p)) ch ++
       match mode_of p with MMath => if forallb is_brace_or_space ch then [Txt (tx "zws ")] else [] | MText => [] end) c).
Proof.
  intros Hp. unfold convert_curly_group. cbv zeta. cbn [node_children cbind].
  assert (Hs : (if is_math (st p c) && match c_env (st p c) with ESubStack => false | _ => true end
     then enter_env EMathCurlyGroup (st p c) else st p c) = st (group_place p) c).
  { rewrite st_enter. unfold is_math, group_place. cbn [c_mode c_env st]. destruct (mode_of p), (env_of p); reflexivity. }
  rewrite Hs, interp_app. eapply shows_bind; [now apply each_rec|]. intros c1 y. cbn beta iota.
  assert (Em : is_math (st (group_place p) c1) = is_math (st p c)).
  { unfold is_math, group_place. cbn [c_mode st]. destruct (mode_of p) eqn:E, (env_of p); cbn; rewrite ?E; reflexivity. }
  rewrite Em.
  assert (Ex : is_math (st p c) = true -> (if is_math (st p c) && match c_env (st p c) with ESubStack => false | _ => true end
     then exit_env (c_env (st p c)) (st (group_place p) c1) else COk (st (group_place p) c1)) = COk (st p c1)).
  { unfold is_math, group_place. cbn [c_mode c_env st]. destruct (mode_of p) eqn:E; [discriminate|]. intros _. cbn [andb].
    destruct (env_of p) eqn:E2; try reflexivity; rewrite <- E2; apply st_exit. }
  destruct (is_math (st p c)) eqn:Ec.
  - rewrite (Ex eq_refl). cbn [cbind]. unfold is_math in Ec. cbn in Ec. destruct (mode_of p); [discriminate|].
    destruct (forallb _ ch).
    + rewrite interp_txt1. apply shows_ok.
    + apply shows_ok.
  - unfold is_math in Ec. cbn in Ec. destruct (mode_of p) eqn:E; [|discriminate]. cbn [interp before]. rewrite app_nil_r.
    split; [|reflexivity]. unfold group_place. rewrite E. reflexivity.
Qed.

(** ** \left and \right *)
Lemma clause_shows p k name ch c :
  puts (flat_map (fun t => (match t with Leaf TokenWord s => if teqb s (tx ".") then [] else [Put p t] | _ => [Put p t] end)
                           ++ [Txt (tx " ")]) ch) ->
  shows p (convert_clause_lr rec (Node ClauseLR (Leaf k (92 :: name) :: ch)) (st p c))
    (interp F ((if teqb name (tx "left") then [Txt (tx "lr(")] else [])
     ++ flat_map (fun t => (match t with Leaf TokenWord s => if teqb s (tx ".") then [] else [Put p t] | _ => [Put p t] end)
                           ++ [Txt (tx " ")]) ch
     ++ (if teqb name (tx "right") then [Txt (tx ")")] else [])) c).
Proof.
  intros Hp. unfold convert_clause_lr. cbn [node_children cbind]. rewrite tail1_small by reflexivity. cbn [cbind]. cbv zeta.
  set (g := fun t => _ ++ [Txt (tx " ")]) in *. rewrite interp_app.
  assert (E1 : interp F (if teqb name (tx "left") then [Txt (tx "lr(")] else []) c =
    Written c (if teqb name (tx "left") then tx "lr(" else [])) by (destruct (teqb name (tx "left")); reflexivity).
  rewrite E1. cbn [then_]. rewrite interp_app.
  set (one := fun a s => _).
  assert (G : shows p (each one ch (st p c)) (interp F (flat_map g ch) c)).
  { apply each_shows. intros t Ht c1. unfold one, g. rewrite interp_app.
    eapply shows_bind.
    2:{ intros c2 y. cbn beta iota. rewrite interp_txt1. apply shows_ok. }
    assert (Hr : In (Put p t) (g t) -> forall c, shows p (rec t (st p c)) (F p c t)).
    { intros Hin. apply Hp. apply in_flat_map. eauto. }
    unfold g in Hr. destruct t as [k' s|k' ch']; [destruct k'|]; try (rewrite interp_put; apply Hr; now left).
    destruct (teqb s (tx ".")); [apply shows_ok|rewrite interp_put; apply Hr; now left]. }
  destruct (each one ch (st p c)) as [[s y]|e|e|]; destruct (interp F (flat_map g ch) c) as [c' z|e'|]; cbn [shows] in G; try contradiction;
    cbn [cbind then_ before]; auto.
  destruct G as [-> ->]. destruct (teqb name (tx "right")); cbn [interp before shows]; rewrite ?app_nil_r; split; reflexivity.
Qed.

(** ** scripts *)
Lemma attach_after p l : forall c, puts (map (Put p) l) ->
  shows p (attach_loop rec false true l (st p c)) (interp F (map (Put p) l ++ [Txt (tx ")")]) c) /\
  shows p (attach_loop rec false false l (st p c)) (interp F (map (Put p) l ++ [Txt (tx ")")]) c).
Proof.
  induction l as [|t l IH]; intros c Hp; [split; apply shows_ok|]. cbn [attach_loop map app interp].
  split; (eapply shows_bind; [apply Hp; now left|]; intros c1 y; cbn beta iota; apply shows_before; apply IH; now apply puts_cons in Hp).
Qed.
Lemma mark_dec t : {script_mark t} + {~ script_mark t}.
Proof. destruct t as [k s|k ch]; [destruct k|]; cbn; auto. Qed.
Lemma blank_dec t : {blank_leaf t} + {~ blank_leaf t}.
Proof. destruct t as [k s|k ch]; [destruct k|]; try (right; intros [s' E]; discriminate). left. now exists s. Qed.
Lemma attach_skip p t l c based : ~ script_mark t -> 
  attach_loop rec true based (t :: l) (st p c) =
  (let! (s, o1) := rec t (st p c) in
   let! (s, o2) := attach_loop rec true (if blank_dec t then based else true) l s in COk (s, o1 ++ o2)).
Proof.
  intros Hm. cbn [attach_loop]. destruct (blank_dec t) as [[s ->]|N]; [reflexivity|].
  destruct t as [k s|k ch]; [|reflexivity]. destruct k; try reflexivity; try (exfalso; apply Hm; exact I).
  exfalso. apply N. now exists s.
Qed.
Lemma attach_none p l : forall c based, Forall (fun t => ~ script_mark t) l -> puts (map (Put p) l) ->
  shows p (attach_loop rec true based l (st p c)) (interp F (map (Put p) l) c).
Proof.
  induction l as [|t l IH]; intros c based Hm Hp; [apply shows_ok|]. inversion_clear Hm as [|? ? Ht Hl]. rewrite attach_skip by assumption.
  cbn [map interp]. eapply shows_bind; [apply Hp; now left|]. intros c1 y. cbn beta iota. apply shows_before. apply IH; [assumption|].
  now apply puts_cons in Hp.
Qed.
Lemma attach_mark p l1 k m l2 : forall c based, Forall (fun t => ~ script_mark t) l1 -> script_mark (Leaf k m) ->
  puts (map (Put p) l1) -> puts (map (Put p) l2) ->
  shows p (attach_loop rec true based (l1 ++ Leaf k m :: l2) (st p c))
   (interp F (map (Put p) l1 ++ Txt ((if based || negb (forallb (fun t => if blank_dec t then true else false) l1)
      then [] else tx "zws") ++ m ++ tx "(") :: map (Put p) l2 ++ [Txt (tx ")")]) c).
Proof.
  induction l1 as [|t l1 IH]; intros c based Hm Hk H1 H2.
  - cbn [app map forallb negb]. rewrite orb_false_r. rewrite interp_txt.
    assert (E : attach_loop rec true based (Leaf k m :: l2) (st p c) =
      (let! (s, o) := attach_loop rec false based l2 (st p c) in COk (s, (if based then [] else tx "zws") ++ m ++ tx "(" ++ o))).
    { destruct k; try contradiction; reflexivity. }
    rewrite E. destruct (attach_after p l2 c H2) as [G1 G2].
    assert (G : shows p (attach_loop rec false based l2 (st p c)) (interp F (map (Put p) l2 ++ [Txt (tx ")")]) c)) by (destruct based; assumption).
    apply (shows_before _ _ _ ((if based then [] else tx "zws") ++ m ++ tx "(")) in G.
    destruct (attach_loop rec false based l2 (st p c)) as [[s y]|e|e|]; cbn [cbind] in *; try exact G.
    rewrite <- !app_assoc in G. exact G.
  - inversion_clear Hm as [|? ? Ht Hl]. cbn [app map]. rewrite attach_skip by assumption. cbn [interp].
    eapply shows_bind; [apply H1; now left|]. intros c1 y. cbn beta iota. apply shows_before.
    eapply shows_eq; [apply IH; try assumption; now apply puts_cons in H1|]. cbn [forallb].
    destruct (blank_dec t); [reflexivity|]. cbn [negb orb andb]. now rewrite orb_true_r.
Qed.
Lemma blanks_spec l : forallb (fun t => if blank_dec t then true else false) l = true <-> Forall blank_leaf l.
Proof.
  rewrite forallb_forall, Forall_forall. split; intros H t Ht; specialize (H t Ht); destruct (blank_dec t); auto; discriminate.
Qed.

(** ** commands treated by name *)
Lemma item_shows p c : sane p ->
  shows p (convert_command_item (st p c))
    (interp F (match env_of p with
               | EItemize => [Txt ([10] ++ indented (indent_of p - 2) ++ tx "- ")]
               | EEnumerate => [Txt ([10] ++ indented (indent_of p - 2) ++ tx "+ ")]
               | _ => [Fail EItem]
               end) c).
Proof.
  intros Hs. unfold convert_command_item. cbn [c_env c_indent st]. unfold sane, is_list in Hs.
  destruct (env_of p); try reflexivity; (destruct (Nat.ltb_spec (indent_of p) 2); [exfalso; specialize (Hs ltac:(tauto)); lia|]);
    rewrite interp_txt1; split; reflexivity.
Qed.
Lemma label_shows p t c l : label_of t l ->
  shows p (convert_command_label t (st p c)) (interp F (label_pieces p l) c).
Proof.
  intros (a & r & m & Ha & Hc & ->). unfold convert_command_label. rewrite Ha. cbn [hd_error unwrap cbind].
  rewrite (proj2 (strip_ends_cut _ _ _) Hc). cbn [cbind]. cbv zeta. unfold label_pieces. cbn [c_env c_mode st].
  destruct (env_of p) eqn:E1, (mode_of p) eqn:E2; cbn [interp before]; rewrite ?app_nil_r; split; try reflexivity.
Qed.
Lemma no_label_shows p t c : (forall l, ~ label_of t l) -> shows p (convert_command_label t (st p c)) Crashed.
Proof.
  intros H. unfold convert_command_label. destruct (Syntax.arguments t) as [|a r] eqn:Ea; [exact I|]. cbn [hd_error unwrap cbind].
  destruct (strip_ends_or "converter.rs:502 str slice" (tree_text a)) as [(m & _ & Hc)|[[x ->] _]]; [|exact I].
  exfalso. apply (H (trim m)). exists a, r, m. auto.
Qed.
Lemma color_shows p t name c model color body : In name colored -> cmd_name_tok t = Some (92 :: name) ->
  color_parts t name model color body ->
  puts (color_pieces p (color_alias sp name) model color body) ->
  shows p (convert_command_color sp rec t (st p c)) (interp F (color_pieces p (color_alias sp name) model color body) c).
Proof.
  intros Hn Hc Hp Hr. unfold convert_command_color. rewrite Hc. cbv zeta. apply color_args_ok in Hp; [|exact Hn].
  change (strip_prefix (tx "\") (92 :: name)) with (strip_prefix (tx "\") (tx "\" ++ name)). rewrite strip_prefix_intro.
  change (match get_cmd sp name with Some c0 => alias_or (cs_alias c0) (tx "mitexcolor") | None => tx "mitexcolor" end) with (color_alias sp name).
  set (al := color_alias sp name) in *. rewrite Hp. cbn [cbind].
  unfold color_pieces in *. set (o1 := al ++ tx "(" ++ _) in *. rewrite interp_app, interp_txt1. cbn [then_]. rewrite interp_app.
  apply puts_app in Hr as [_ Hr]. apply puts_app in Hr as [Hr1 Hr]. apply puts_app in Hr as [_ Hr].
  (* the colour *)
  assert (G1 : shows p (match color with
      | Some c0 => let! (s, o) := rec c0 (set_mode MText (st p c)) in COk (set_mode (c_mode (st p c)) s, o)
      | None => COk (st p c, tx "black") end)
    (interp F (match color with Some c0 => [Put (in_mode MText p) c0] | None => [Txt (tx "black")] end) c)).
  { destruct color as [c0|]; [|apply shows_ok]. rewrite interp_put, st_mode.
    assert (H := Hr1 _ _ (or_introl eq_refl) c). destruct (rec c0 (st (in_mode MText p) c)) as [[s y]|e|e|];
      destruct (F (in_mode MText p) c c0) as [c' z|e'|]; cbn [shows cbind] in *; try contradiction; auto.
    destruct H as [-> ->]. split; [apply st_mode_back; reflexivity|reflexivity]. }
  (* what is coloured *)
  assert (G2 : forall c1, shows p (each (fun b s => if is_math s then let! (s, o) := rec b s in COk (s, tx "$" ++ o ++ tx "$") else rec b s) body (st p c1))
    (interp F (match mode_of p with MMath => flat_map (fun b => [Txt (tx "$"); Put p b; Txt (tx "$")]) body | MText => map (Put p) body end) c1)).
  { intros c1. destruct (mode_of p) eqn:Em.
    - apply puts_app in Hr as [Hr _]. apply each_puts. intros b Hb c2. unfold is_math. cbn [c_mode st]. rewrite Em. now apply (puts_all p body).
    - apply puts_app in Hr as [Hr _]. apply each_shows. intros b Hb c2. unfold is_math. cbn [c_mode st]. rewrite Em.
      assert (H : shows p (rec b (st p c2)) (F p c2 b)).
      { apply Hr. apply in_flat_map. exists b. split; [exact Hb|]. right. now left. }
      cbn [interp]. destruct (rec b (st p c2)) as [[s y]|e|e|]; destruct (F p c2 b) as [c' z|e'|]; cbn [shows cbind then_ before] in *; try contradiction; auto.
      destruct H as [-> ->]. split; [reflexivity|]. now rewrite app_nil_r. }
  match type of G1 with shows _ ?X _ => set (first := X) in * end.
  rewrite (then_ext _ _ _ (interp_app F _ _)).
  assert (G3 : shows p (let! (s, o2) := first in
      let! (s, o3) := each (fun b s => if is_math s then let! (s, o) := rec b s in COk (s, tx "$" ++ o ++ tx "$") else rec b s) body s in
      COk (s, o2 ++ tx "])[" ++ o3 ++ tx "]" ++ if is_math s then [] else tx ";"))
    (then_ (interp F (match color with Some c0 => [Put (in_mode MText p) c0] | None => [Txt (tx "black")] end) c)
       (fun c1 => then_ (interp F [Txt (tx "])[")] c1)
         (interp F (match mode_of p with
            | MMath => flat_map (fun b => [Txt (tx "$"); Put p b; Txt (tx "$")]) body ++ [Txt (tx "]")]
            | MText => map (Put p) body ++ [Txt (tx "];")] end))))).
  { eapply shows_bind; [exact G1|]. intros c1 y. cbn beta iota. rewrite interp_txt1. cbn [then_]. rewrite before_app.
    specialize (G2 c1). revert G2. set (X := each _ body (st p c1)).
    assert (Ei : interp F (match mode_of p with
            | MMath => flat_map (fun b => [Txt (tx "$"); Put p b; Txt (tx "$")]) body ++ [Txt (tx "]")]
            | MText => map (Put p) body ++ [Txt (tx "];")] end) c1 =
       then_ (interp F (match mode_of p with MMath => flat_map (fun b => [Txt (tx "$"); Put p b; Txt (tx "$")]) body | MText => map (Put p) body end) c1)
         (fun c2 => Written c2 (tx "]" ++ match mode_of p with MMath => [] | MText => tx ";" end))).
    { destruct (mode_of p); rewrite interp_app; reflexivity. }
    rewrite Ei. set (Y := interp F _ c1). intros G2. destruct X as [[s z]|e|e|]; destruct Y as [c2 z'|e'|]; cbn [shows cbind then_ before] in *; try contradiction; auto.
    destruct G2 as [-> ->]. split; [reflexivity|]. unfold is_math. cbn [c_mode st]. rewrite <- !app_assoc. destruct (mode_of p); reflexivity. }
  eapply (shows_before _ _ _ o1) in G3.
  clear G1. subst first. destruct color as [c0|].
  - destruct (rec c0 (set_mode MText (st p c))) as [[s y]|e|e|]; cbn [cbind] in *; try exact G3.
    destruct (each _ body _) as [[s2 y2]|e|e|]; cbn [cbind] in *; try exact G3; rewrite <- ?app_assoc in *; exact G3.
  - cbn [cbind] in *. destruct (each _ body _) as [[s2 y2]|e|e|]; cbn [cbind] in *; try exact G3; rewrite <- ?app_assoc in *; exact G3.
Qed.

(** ** other commands *)
Lemma commas_shows k q l : forall c, puts (commas k q l) ->
  shows q (comma_args rec k l (st q c)) (interp F (commas k q l) c).
Proof.
  induction l as [|t l IH]; intros c Hp; [apply shows_ok|]. destruct l as [|t2 l].
  - cbn [comma_args commas] in *. cbn [interp]. eapply shows_bind; [apply Hp; now left|]. intros c1 y. cbn beta iota. cbn [cbind].
    cbn [interp before]. split; reflexivity.
  - change (commas k q (t :: t2 :: l)) with
      (Put q t :: (if kind_eqb (tkind t) k then [Txt (tx ",")] else []) ++ commas k q (t2 :: l)) in *.
    cbn [interp].
    change (comma_args rec k (t :: t2 :: l) (st q c)) with
      (let! (s, o1) := rec t (st q c) in
       let! (s, o2) := comma_args rec k (t2 :: l) s in
       COk (s, o1 ++ (if has_kind k t then tx "," else []) ++ o2)).
    eapply shows_bind; [apply Hp; now left|]. intros c1 y. cbn beta iota. apply puts_cons in Hp. apply puts_app in Hp as [_ Hp].
    specialize (IH c1 Hp). rewrite interp_app. unfold has_kind.
    destruct (comma_args rec k (t2 :: l) (st q c1)) as [[s2 y2]|e|e|]; destruct (interp F (commas k q (t2 :: l)) c1) as [c2 z|e'|] eqn:E;
      cbn [shows] in IH; try contradiction; destruct (kind_eqb (tkind t) k); cbn [interp before then_ cbind shows]; rewrite ?E; cbn [before]; auto.
    all: destruct IH as [-> ->]; split; reflexivity.
Qed.
Lemma brackets_shows q l c : puts (flat_map (in_brackets q) l) ->
  shows q (each (text_arg rec) l (st q c)) (interp F (flat_map (in_brackets q) l) c).
Proof.
  intros Hp. apply each_shows. intros t Ht c1. unfold text_arg, in_brackets, has_kind.
  assert (H : forall x, In x (in_brackets q t) -> In x (flat_map (in_brackets q) l)) by (intros x Hx; apply in_flat_map; eauto).
  unfold in_brackets in H. destruct (kind_eqb (tkind t) ClauseArgument); [|apply shows_ok].
  assert (G : shows (in_mode MText q) (rec t (st (in_mode MText q) c1)) (F (in_mode MText q) c1 t)) by (apply Hp, H; cbn; auto).
  cbv zeta. rewrite st_mode. cbn [interp].
  destruct (rec t (st (in_mode MText q) c1)) as [[s y]|e|e|]; destruct (F (in_mode MText q) c1 t) as [c2 z|e'|]; cbn [shows cbind then_ before] in *; try contradiction; auto.
  destruct G as [-> ->]. split; [apply st_mode_back; reflexivity|]. now rewrite app_nil_r.
Qed.
Lemma wrapped_shows p tn X ps c : shows (command_place p tn) X (interp F ps c) ->
  shows p (let! (s, o) := X in
           let! s := if teqb tn (tx "substack") then exit_env (env_of p) s else COk s in COk (s, tn ++ o))
    (interp F (Txt tn :: ps) c).
Proof.
  intros H. rewrite interp_txt. destruct X as [[s y]|e|e|]; destruct (interp F ps c) as [c' z|e'|]; cbn [shows cbind before] in *; try contradiction; auto.
  destruct H as [-> ->]. unfold command_place. destruct (teqb tn (tx "substack")).
  - rewrite st_exit. apply shows_ok.
  - apply shows_ok.
Qed.
Lemma interp_merge a b l c : interp F (Txt (a ++ b) :: l) c = interp F (Txt a :: Txt b :: l) c.
Proof. rewrite !interp_txt, before_app. reflexivity. Qed.
Lemma parens_shows q X ps c : shows q X (interp F ps c) ->
  shows q (let! (s, o) := X in COk (s, tx "(" ++ o ++ tx ")")) (interp F (Txt (tx "(") :: ps ++ [Txt (tx ")")]) c).
Proof.
  intros H. rewrite interp_txt, interp_app. destruct X as [[s y]|e|e|]; destruct (interp F ps c) as [c' z|e'|]; cbn [shows cbind then_ interp before] in *; try contradiction; auto.
  destruct H as [-> ->]. split; reflexivity.
Qed.
Lemma starts_hash tn : starts_with (tx "#") tn = true <-> hd_error tn = Some 35.
Proof.
  unfold starts_with. change (tx "#") with [35]. destruct tn as [|a tn]; cbn [strip_prefix hd_error]; [split; discriminate|].
  destruct (N.eqb_spec 35 a) as [<- |N]; split; congruence.
Qed.
Definition normal_inner (t : tree) (sh : cmd_shape) (tn : text) (s : cst) : cout :=
  match cs_args sh with
  | SRight PNone => COk (s, tx " ")
  | SRight PGreedy =>
    match operands t with
    | Node _ ch :: _ => let! (s, o) := comma_args rec ItemCurly ch s in COk (s, tx "(" ++ o ++ tx ")")
    | _ => CPanic "converter.rs:781 unwrap"
    end
  | _ =>
    if is_math s && negb (starts_with (tx "#") tn) then
      let! (s, o) := comma_args rec ClauseArgument (operands t) s in COk (s, tx "(" ++ o ++ tx ")")
    else
      let! (s, o) := each (text_arg rec) (operands t) s in COk (s, o ++ tx ";")
  end.
Lemma normal_unfold p t name sh c : cmd_name_tok t = Some (92 :: name) -> get_cmd sp name = Some sh ->
  convert_normal_command sp rec t (st p c) =
    let tn := typst_name p name (cs_alias sh) in
    let! (s, o) := normal_inner t sh tn (st (command_place p tn) c) in
    let! s := if teqb tn (tx "substack") then exit_env (env_of p) s else COk s in COk (s, tn ++ o).
Proof.
  intros Hn Hg. unfold convert_normal_command, cmd_name. rewrite Hn. cbn [unwrap cbind]. rewrite tail1_small by reflexivity. cbn [cbind].
  rewrite Hg. cbv zeta.
  assert (Et : typst_name_of name sh (st p c) = typst_name p name (cs_alias sh)).
  { unfold typst_name_of, typst_name, is_math. cbn [c_mode st]. now destruct (mode_of p). }
  rewrite Et. set (tn := typst_name p name (cs_alias sh)). cbn [c_env st].
  assert (Es : (if teqb tn (tx "substack") then enter_env ESubStack (st p c) else st p c) = st (command_place p tn) c).
  { unfold command_place. destruct (teqb tn (tx "substack")); [apply st_enter|reflexivity]. }
  rewrite Es. reflexivity.
Qed.
Lemma place_mode p tn : mode_of (command_place p tn) = mode_of p.
Proof. unfold command_place. now destruct (teqb tn (tx "substack")). Qed.
Lemma normal_shows p t name sh c ps : cmd_name_tok t = Some (92 :: name) -> get_cmd sp name = Some sh ->
  shows (command_place p (typst_name p name (cs_alias sh)))
    (normal_inner t sh (typst_name p name (cs_alias sh)) (st (command_place p (typst_name p name (cs_alias sh))) c)) (interp F ps c) ->
  shows p (convert_normal_command sp rec t (st p c)) (interp F (Txt (typst_name p name (cs_alias sh)) :: ps) c).
Proof. intros Hn Hg H. rewrite (normal_unfold p t name sh c Hn Hg). cbv zeta. now apply wrapped_shows. Qed.

(** ** environments *)
Lemma delimiter_same x : delimiter x = is_begin_end x. Proof. reflexivity. Qed.
Lemma arguments_shows q l : forall n c, puts (decimal_argument n l (fun a => [Put q a])) ->
  shows q (named_args rec n l (st q c)) (interp F (decimal_argument n l (fun a => [Put q a])) c).
Proof.
  induction l as [|a l IH]; intros n c Hp; [apply shows_ok|]. cbn [named_args decimal_argument app interp] in *.
  assert (G := Hp q a (or_intror (or_introl eq_refl)) c).
  do 3 apply puts_cons in Hp.
  destruct (rec a (st q c)) as [[s y]|e|e|]; destruct (F q c a) as [c' z|e'|]; cbn [shows cbind then_ before] in *; try contradiction; auto.
  destruct G as [-> ->]. specialize (IH (S n) c' Hp).
  destruct (named_args rec (S n) l (st q c')) as [[s2 y2]|e|e|]; destruct (interp F (decimal_argument (S n) l (fun a => [Put q a])) c') as [c2 z2|e'|];
    cbn [shows cbind then_ before] in *; try contradiction; auto.
  destruct IH as [-> ->]. split; [reflexivity|]. now rewrite <- !app_assoc.
Qed.
Lemma flush_shows p X o c0 : shows p X (interp F c0 o) ->
  shows p (let! (s, x) := X in let '(s, ol) := flush_label s in COk (s, x ++ ol)) (interp F (c0 ++ labels p) o).
Proof.
  intros H. rewrite interp_app. destruct X as [[s y]|e|e|]; destruct (interp F c0 o) as [c' z|e'|]; cbn [shows cbind then_] in *; try contradiction; auto.
  destruct H as [-> ->]. unfold flush_label, labels. cbn [c_mode c_label st]. destruct (mode_of p) eqn:Em; cbn [interp before].
  - unfold label_text. destruct (waiting c') as [l|] eqn:El; cbn [shows].
    + rewrite app_nil_r. split; [|reflexivity]. unfold set_label, st. cbn. reflexivity.
    + rewrite !app_nil_r. split; [|reflexivity]. unfold st. cbn. now rewrite El.
  - split; [reflexivity|]. now rewrite app_nil_r.
Qed.
(** figures *)
Lemma is_command_name t name n : tkind t = ItemCmd -> cmd_name_tok t = Some (92 :: n) -> is_command name t = teqb n name.
Proof.
  intros Hk Hn. destruct t as [k s|k ch]; [discriminate|]. cbn in Hk. subst k. unfold is_command. rewrite Hn. reflexivity.
Qed.
Lemma not_command t name : tkind t <> ItemCmd -> is_command name t = false.
Proof. intros H. destruct t as [k s|k ch]; [reflexivity|]. destruct k; try reflexivity. now elim H. Qed.
Definition named_ok (t : tree) : Prop := (tkind t = ItemCmd -> is_node t = true /\ exists n, cmd_name_tok t = Some (92 :: n)).
Lemma named_arg t : named_ok t ->
  is_named_arg t = COk (is_command (tx "caption") t || is_command (tx "centering") t).
Proof.
  intros H. destruct (kind_eq_dec (tkind t) ItemCmd) as [E|N].
  - destruct (H E) as [Hn [n Hc]]. rewrite !(is_command_name _ _ n) by assumption.
    destruct t as [k s|k ch]; [discriminate|]. cbn in E. subst k. unfold is_named_arg, cmd_name. rewrite Hc. reflexivity.
  - rewrite !not_command by assumption. unfold is_named_arg. destruct t as [[] s|[] ch]; try reflexivity; now elim N.
Qed.
Lemma caption_ok l : Forall named_ok l -> forall acc, 
  (exists x, In x l /\ is_command (tx "caption") x = true /\ Syntax.arguments x = [] /\ exists e, find_caption l acc = CPanic e) \/
  (exists o, find_caption l acc = COk (match o with Some a => Some a | None => acc end) /\ caption l o).
Proof.
  intros H. induction H as [|t l Ht Hl IH]; intros acc; [right; exists None; split; [reflexivity|constructor; constructor]|].
  cbn [find_caption]. rewrite (named_arg t Ht). cbn [cbind].
  assert (Skip : is_command (tx "caption") t = false ->
    (exists x, In x (t :: l) /\ is_command (tx "caption") x = true /\ Syntax.arguments x = [] /\ exists e, find_caption l acc = CPanic e) \/
    (exists o, find_caption l acc = COk (match o with Some a => Some a | None => acc end) /\ caption (t :: l) o)).
  { intros Hc. destruct (IH acc) as [(x & Hx & G)|(o & Ho & Hca)]; [left; exists x; split; [now right|exact G]|].
    right. exists o. split; [exact Ho|]. destruct Hca as [l Hf|l1 x a r l2 H1 H2 H3 H4].
    - apply ca_none. now constructor.
    - apply (ca_last (t :: l1) x a r l2); try assumption. constructor; [|assumption]. intros E. congruence. }
  destruct (is_command (tx "caption") t) eqn:Ec; cbn [orb].
  - assert (Ek : tkind t = ItemCmd) by (destruct (kind_eq_dec (tkind t) ItemCmd) as [E|N]; [exact E|rewrite not_command in Ec by assumption; discriminate]).
    destruct (Ht Ek) as [_ [n Hn]]. unfold cmd_name. rewrite Hn. cbn [unwrap cbind]. rewrite tail1_small by reflexivity. cbn [cbind].
    rewrite (is_command_name _ _ n Ek Hn) in Ec. rewrite Ec.
    destruct (Syntax.arguments t) as [|a r] eqn:Ea; cbn [hd_error unwrap cbind].
    + left. exists t. split; [now left|]. rewrite (is_command_name _ _ n Ek Hn). split; [exact Ec|]. split; [exact Ea|]. eauto.
    + destruct (IH (Some a)) as [(x & Hx & G)|(o & Ho & Hca)]; [left; exists x; split; [now right|exact G]|].
      right. destruct Hca as [l Hf|l1 x b r' l2 H1 H2 H3 H4].
      * exists (Some a). split; [exact Ho|]. apply (ca_last [] t a r l); [now rewrite (is_command_name _ _ n)|exact Ea|constructor|exact Hf].
      * exists (Some b). split; [exact Ho|]. apply (ca_last (t :: l1) x b r' l2); try assumption. constructor; [|assumption]. intros _. congruence.
  - specialize (Skip eq_refl). destruct (is_command (tx "centering") t) eqn:Ec2; [|exact Skip].
    assert (Ek : tkind t = ItemCmd) by (destruct (kind_eq_dec (tkind t) ItemCmd) as [E|N]; [exact E|rewrite not_command in Ec2 by assumption; discriminate]).
    destruct (Ht Ek) as [_ [n Hn]]. unfold cmd_name. rewrite Hn. cbn [unwrap cbind]. rewrite tail1_small by reflexivity. cbn [cbind].
    rewrite (is_command_name _ _ n Ek Hn) in Ec. rewrite Ec. exact Skip.
Qed.
Lemma caption_unique l o : caption l o -> Forall named_ok l -> forall acc,
  find_caption l acc = COk (match o with Some a => Some a | None => acc end).
Proof.
  intros H Hn acc. 
  assert (S : forall t l acc, named_ok t -> is_command (tx "caption") t = false -> find_caption (t :: l) acc = find_caption l acc).
  { intros t l' acc' Ht Hc. cbn [find_caption]. rewrite (named_arg t Ht), Hc. cbn [orb cbind].
    destruct (is_command (tx "centering") t) eqn:Ec2; [|reflexivity].
    assert (Ek : tkind t = ItemCmd) by (destruct (kind_eq_dec (tkind t) ItemCmd) as [E|N]; [exact E|rewrite not_command in Ec2 by assumption; discriminate]).
    destruct (Ht Ek) as [_ [n Hn']]. unfold cmd_name. rewrite Hn'. cbn [unwrap cbind]. rewrite tail1_small by reflexivity. cbn [cbind].
    rewrite (is_command_name _ _ n Ek Hn') in Hc. now rewrite Hc. }
  assert (T : forall t l acc a r, named_ok t -> is_command (tx "caption") t = true -> Syntax.arguments t = a :: r ->
    find_caption (t :: l) acc = find_caption l (Some a)).
  { intros t l' acc' a r Ht Hc Ha. cbn [find_caption]. rewrite (named_arg t Ht), Hc. cbn [orb cbind].
    assert (Ek : tkind t = ItemCmd) by (destruct (kind_eq_dec (tkind t) ItemCmd) as [E|N]; [exact E|rewrite not_command in Hc by assumption; discriminate]).
    destruct (Ht Ek) as [_ [n Hn']]. unfold cmd_name. rewrite Hn'. cbn [unwrap cbind]. rewrite tail1_small by reflexivity. cbn [cbind].
    rewrite (is_command_name _ _ n Ek Hn') in Hc. rewrite Hc, Ha. reflexivity. }
  assert (N : forall l acc, Forall named_ok l -> Forall (fun y => is_command (tx "caption") y = false) l -> find_caption l acc = COk acc).
  { intros l' acc' H1 H2. revert acc'. induction H1 as [|t l' Ht H1 IH]; intros acc'; [reflexivity|]. inversion_clear H2 as [|? ? Hc H2'].
    rewrite S by assumption. auto. }
  destruct H as [l Hf|l1 x a r l2 H1 H2 H3 H4]; [now apply N|].
  apply Forall_app in Hn as [Hn1 Hn2]. inversion_clear Hn2 as [|? ? Hx Hn3]. revert acc.
  induction Hn1 as [|t l1 Ht _ IH]; intros acc; cbn [app].
  - rewrite (T _ _ _ a r) by assumption. now apply N.
  - inversion_clear H3 as [|? ? Hta H3']. destruct (is_command (tx "caption") t) eqn:Ec; [|rewrite S by assumption; now apply IH].
    destruct (Syntax.arguments t) as [|b r'] eqn:Eb; [now elim Hta|]. rewrite (T _ _ _ b r') by assumption. now apply IH.
Qed.

(** tables *)
Lemma rule_same t n : tkind t = ItemCmd -> cmd_name_tok t = Some (92 :: n) -> rule_of t = rule_text n.
Proof.
  intros Hk Hn. unfold rule_of, rule_text. rewrite !(is_command_name _ _ n) by assumption.
  destruct (teqbP n (tx "hline")) as [-> |N1]; [reflexivity|]. destruct (teqbP n (tx "toprule")) as [-> |N2]; [reflexivity|].
  destruct (teqbP n (tx "midrule")) as [-> |N3]; [reflexivity|]. destruct (teqbP n (tx "bottomrule")) as [-> |N4]; reflexivity.
Qed.
Lemma no_rule t : tkind t <> ItemCmd -> rule_of t = None.
Proof. intros H. unfold rule_of. now rewrite !not_command. Qed.
Lemma cells_shows q l : Forall named_ok l -> forall b c, puts (cells q b (filter (fun x => negb (delimiter x)) l)) ->
  shows q (table_cells rec (negb b) l (st q c)) (interp F (cells q b (filter (fun x => negb (delimiter x)) l)) c).
Proof.
  intros H. induction H as [|t l Ht Hl IH]; intros b c Hp; [apply shows_ok|]. cbn [filter table_cells] in *.
  change (is_begin_end t) with (delimiter t). destruct (delimiter t) eqn:Ed; cbn [negb] in *; [now apply IH|].
  assert (Lit : forall o b' c', puts (cells q b' (filter (fun x => negb (delimiter x)) l)) ->
    shows q (let! (s, o2) := table_cells rec (negb b') l (st q c') in COk (s, o ++ o2)) (interp F (Txt o :: cells q b' (filter (fun x => negb (delimiter x)) l)) c')).
  { intros o b' c' Hp'. rewrite interp_txt. apply shows_before. now apply IH. }
  assert (El : forall b' c' o, puts (Put q t :: cells q b' (filter (fun x => negb (delimiter x)) l)) ->
    shows q (let! (e, s, o1) := (let! (s, o) := rec t (st q c') in COk (false, s, o)) in
             let! (s, o2) := table_cells rec (negb b') l s in COk (s, o ++ o1 ++ o2))
      (interp F (Txt o :: Put q t :: cells q b' (filter (fun x => negb (delimiter x)) l)) c')).
  { intros b' c' o Hp'. cbn [interp]. assert (G := Hp' _ _ (or_introl eq_refl) c'). apply puts_cons in Hp'.
    destruct (rec t (st q c')) as [[s y]|e|e|]; destruct (F q c' t) as [c2 z|e'|]; cbn [shows cbind then_ before] in *; try contradiction; auto.
    destruct G as [-> ->]. specialize (IH b' c2 Hp').
    destruct (table_cells rec (negb b') l (st q c2)) as [[s2 y2]|e|e|]; destruct (interp F (cells q b' (filter (fun x => negb (delimiter x)) l)) c2) as [c3 z3|e'|];
      cbn [shows cbind then_ before] in *; try contradiction; auto.
    destruct IH as [-> ->]. split; reflexivity. }
  destruct (kind_eq_dec (tkind t) TokenAmpersand) as [K1|N1].
  { cbn [cells] in Hp |- *. unfold preprocess_exterior. rewrite K1 in *. destruct b; cbn [negb cbind] in *; apply puts_cons in Hp; now apply (Lit _ false). }
  destruct (kind_eq_dec (tkind t) ItemNewLine) as [K2|N2].
  { cbn [cells] in Hp |- *. unfold preprocess_exterior. rewrite K2 in *. destruct b; cbn [negb cbind] in *; apply puts_cons in Hp; now apply (Lit _ false). }
  destruct b; cbn [negb] in *.
  - (* in a cell *)
    assert (Ec : cells q true (t :: filter (fun x => negb (delimiter x)) l) = Put q t :: cells q true (filter (fun x => negb (delimiter x)) l)).
    { cbn [cells]. destruct (tkind t); try reflexivity; contradiction. }
    rewrite Ec in *. specialize (El true c [] Hp). rewrite interp_txt, before_nil in El. cbn [cbind].
    assert (Em : match tkind t with
        | TokenAmpersand => COk (true, st q c, tx "], ")
        | ItemNewLine => COk (true, st q c, tx "]," ++ [10])
        | _ => let! (s, o) := rec t (st q c) in COk (false, s, o) end = let! (s, o) := rec t (st q c) in COk (false, s, o)).
    { destruct (tkind t); try reflexivity; contradiction. }
    rewrite Em. destruct (rec t (st q c)) as [[s y]|e|e|]; cbn [cbind app] in *; exact El.
  - (* between cells *)
    destruct (kind_eq_dec (tkind t) TokenWhiteSpace) as [K3|N3].
    { cbn [cells] in Hp |- *. unfold preprocess_exterior. rewrite K3 in *. cbn [cbind app]. specialize (IH false c Hp). cbn [negb] in IH.
      destruct (table_cells rec true l (st q c)) as [[]|e|e|]; exact IH. }
    destruct (kind_eq_dec (tkind t) TokenLineBreak) as [K4|N4].
    { cbn [cells] in Hp |- *. unfold preprocess_exterior. rewrite K4 in *. cbn [cbind app]. specialize (IH false c Hp). cbn [negb] in IH.
      destruct (table_cells rec true l (st q c)) as [[]|e|e|]; exact IH. }
    assert (Ec : cells q false (t :: filter (fun x => negb (delimiter x)) l) =
      match rule_of t with Some o => Txt o :: cells q false (filter (fun x => negb (delimiter x)) l)
      | None => Txt (tx "[") :: Put q t :: cells q true (filter (fun x => negb (delimiter x)) l) end).
    { cbn [cells]. destruct (tkind t); try reflexivity; contradiction. }
    rewrite Ec in *.
    assert (Em : forall (s : cst) (o : cres (bool * cst * text)), match tkind t with
        | TokenAmpersand => COk (true, s, tx "], ")
        | ItemNewLine => COk (true, s, tx "]," ++ [10])
        | _ => o end = o).
    { intros s0 o. destruct (tkind t); try reflexivity; contradiction. }
    destruct (kind_eq_dec (tkind t) ItemCmd) as [Ek|Nk].
    + destruct (Ht Ek) as [_ [n Hn]].
      assert (Ee : preprocess_exterior t = match rule_of t with Some o => COk (true, o) | None => COk (false, tx "[") end).
      { unfold preprocess_exterior. rewrite Ek. unfold cmd_name. rewrite Hn. cbn [unwrap cbind]. rewrite tail1_small by reflexivity. cbn [cbind].
        now rewrite (rule_same _ n Ek Hn). }
      rewrite Ee. destruct (rule_of t) as [o|]; cbn [cbind].
      * apply puts_cons in Hp. now apply (Lit o false).
      * rewrite Em. apply puts_cons in Hp. specialize (El true c (tx "[") Hp). destruct (rec t (st q c)) as [[s y]|e|e|]; cbn [cbind] in *; exact El.
    + assert (Ee : preprocess_exterior t = COk (false, tx "[")).
      { unfold preprocess_exterior. destruct (tkind t); try reflexivity; contradiction. }
      rewrite Ee. rewrite (no_rule t Nk) in *. cbn [cbind]. rewrite Em. apply puts_cons in Hp. specialize (El true c (tx "[") Hp). destruct (rec t (st q c)) as [[s y]|e|e|]; cbn [cbind] in *; exact El.
Qed.
(** figure bodies *)
Lemma figure_shows q l : Forall named_ok l -> forall c,
  puts (map (Put q) (filter (fun x => negb (is_command (tx "caption") x || is_command (tx "centering") x)) (filter (fun x => negb (delimiter x)) l))) ->
  shows q (each (figure_child rec) l (st q c))
    (interp F (map (Put q) (filter (fun x => negb (is_command (tx "caption") x || is_command (tx "centering") x)) (filter (fun x => negb (delimiter x)) l))) c).
Proof.
  intros H. induction H as [|t l Ht Hl IH]; intros c Hp; [apply shows_ok|].
  assert (Sk : forall c', shows q (each (figure_child rec) l (st q c')) (interp F (map (Put q) (filter (fun x => negb (is_command (tx "caption") x || is_command (tx "centering") x)) (filter (fun x => negb (delimiter x)) l))) c') ->
     shows q (let! (s, o1) := COk (st q c', []) in let! (s, o2) := each (figure_child rec) l s in COk (s, o1 ++ o2))
      (interp F (map (Put q) (filter (fun x => negb (is_command (tx "caption") x || is_command (tx "centering") x)) (filter (fun x => negb (delimiter x)) l))) c')).
  { intros c' G. cbn [cbind app]. destruct (each (figure_child rec) l (st q c')) as [[]|e|e|]; exact G. }
  cbn [each filter] in *. unfold figure_child at 1. change (is_begin_end t) with (delimiter t). destruct (delimiter t) eqn:Ed; cbn [negb] in *; [now apply Sk, IH|].
  rewrite (named_arg t Ht). cbn [cbind filter] in *.
  destruct (is_command (tx "caption") t || is_command (tx "centering") t) eqn:Ec; cbn [negb map] in *; [now apply Sk, IH|].
  cbn [interp]. eapply shows_bind; [apply Hp; now left|]. intros c1 y. cbn beta iota. apply shows_before. apply IH. now apply puts_cons in Hp.
Qed.
End Step.
