(** C69: the brackets and dollars of the generated Typst code are nested. *)
From Verif Require Import Api ConvFacts ParserTotal ParserSource ParserEnd GramSpec GramSound GramComplete P_Parser P_Conv3 P_Conv4 P_Render NestLeaf NestStep NestAll P_Views NestCode RenderSpec NestSpec.
Local Open Scope N_scope.

(** ** The names in the built-in specification *)
Definition item_even (p : text * spec_item) : bool :=
  match snd p with
  | SICmd c => even 0 (or_default (cs_alias c) (fst p) ++ [32]) &&
      match cs_args c with SRight PNone => true | _ => even 0 (or_default (cs_alias c) (fst p)) end
  | SIEnv e => even 0 (or_default (en_alias e) (fst p))
  end.
Lemma items_even (l : list (text * spec_item)) : forallb item_even l = true ->
  forallb (fun name => even 0 (color_alias (spec_of l) name)) colored = true -> names_even (spec_of l).
Proof.
  intros A C.
  assert (F : forall name it, assoc name l = Some it -> item_even (name, it) = true).
  { clear C. intros name it. revert A. induction l as [|[k v] r IH]; [discriminate|]. cbn [forallb assoc]. intros A. apply andb_prop in A as [A1 A2].
    destruct (teqbP name k) as [-> |]; [intros [= ->]; exact A1|auto]. }
  split; [|split].
  - intros name sh H. unfold get_cmd, spec_of in H. destruct (assoc name l) as [[c|e]|] eqn:E; try discriminate. injection H as ->.
    apply F in E. unfold item_even in E. cbn [fst snd] in E. apply andb_prop in E as [E1 E2]. split; [exact E1|]. intros N.
    destruct (cs_args sh) as [[]| |]; try exact E2. congruence.
  - intros name sh H. unfold get_env, spec_of in H. destruct (assoc name l) as [[c|e]|] eqn:E; try discriminate. injection H as ->.
    apply F in E. exact E.
  - intros name Hn. rewrite forallb_forall in C. auto.
Qed.
Lemma default_even : names_even DEFAULT_SPEC.
Proof. apply items_even; vm_compute; reflexivity. Qed.

(* ------------------------------------------------------------------ *)
(** * C69 *)
Lemma written_nested gm sp' sp m t c o : names_even sp -> NestStep.good gm sp' sp t -> ordinary_child t ->
  converts_to sp m t (Written c o) -> nested (as_formula m) o.
Proof.
  intros Hn Hg Ho H. destruct (keeps_all gm sp' sp Hn (as_formula m) t (outermost m) (mk_carry true None) c o [] []) as [_ M].
  - exact Hg.
  - split; [unfold calm; destruct m; [reflexivity|discriminate]|now rewrite (ordinary_role t Ho)].
  - exact I.
  - intros [X|X]; discriminate X.
  - exact H.
  - exact (nest_closes (as_formula m) o [] M).
Qed.
Theorem C69_nested : forall macros m fuel page src sp t o, (2 <= page)%nat ->
  parse_source macros fuel page (spec_or_default sp) src = Ok t ->
  (forall x, seen x t -> tidy DEFAULT_SPEC x) ->
  convert_source macros m fuel page src sp = COk o ->
  nested (as_formula m) o.
Proof.
  intros macros m fuel page src sp t o Hp Ht Hx Ho. rewrite (convert_of_tree _ _ _ _ _ _ _ Ht) in Ho.
  apply C59_tree in Ho as [c Ho]; [|eapply C59_parsed; eassumption].
  pose proof (parsed_quiet _ _ _ _ _ _ Hp Ht) as Q.
  destruct (parse_source_reads _ _ _ _ _ _ Hp Ht) as (ts & Hts & Hl).
  destruct (root_ok _ _ _ _ _ (tokens_slash _ _ _ _ _ Hp Hts) Hl) as [R1 R2].
  apply (written_nested gm_real (spec_or_default sp) DEFAULT_SPEC m t c); [apply default_even| | |exact Ho].
  - split; [split; assumption|]. intros x Hs. split; [auto|]. intros k s ->. now apply Q.
  - apply parse_shape in Hl as (_ & H2 & _). destruct t; cbn in H2; subst; discriminate.
Qed.
Print Assumptions C69_nested.

(** ** Sources without the few delicate commands *)
(** [\left], labels, pictures, colours, copied code, tables *)
Definition delicate (sp : spec) (u : tok) : Prop :=
  fst u = CommandName (CIf IfTypst) \/
  (exists c, fst u = CommandName c) /\
    (In (snd u) (map tx ["\left"; "\label"; "\includegraphics"; "\color"; "\textcolor"; "\colorbox"]%string) \/
     exists sh, get_env sp (trim (snd u)) = Some sh /\ en_feature sh = FTable).
Lemma every_seen (P : kind -> list tree -> Prop) k ch t : every P t -> occurs_in (Node k ch) t -> P k ch.
Proof.
  intros H Ho. remember (Node k ch) as x. induction Ho as [|k' ch' c Hc Hs IH]; subst; apply every_node in H as [H1 H2].
  - exact H1.
  - rewrite Forall_forall in H2. auto.
Qed.
Theorem C69_plain : forall macros m fuel page src sp ts o, (2 <= page)%nat ->
  tokens_of macros page (spec_or_default sp) src ts ->
  Forall (fun u => ~ delicate DEFAULT_SPEC u) ts ->
  convert_source macros m fuel page src sp = COk o ->
  nested (as_formula m) o.
Proof.
  intros macros m fuel page src sp ts o Hp Hts Hd Ho.
  destruct (tree_of_convert _ _ _ _ _ _ _ Ho) as [(t & Ht & _)|[(s & _ & E)|E]]; try discriminate E.
  eapply C69_nested; [exact Hp|exact Ht| |exact Ho].
  destruct (parse_source_reads _ _ _ _ _ _ Hp Ht) as (ts' & Hts' & Hl).
  assert (ts' = ts) as -> by (eapply tokens_functional; eauto).
  pose proof (source_views _ _ _ _ _ _ Hp Ht) as V.
  assert (NC : no_code t).
  { eapply reading_code; [eapply complete; [eapply tokens_words; eassumption|exact Hl]|]. eapply Forall_impl; [|exact Hd].
    intros u Hu E. apply Hu. now left. }
  pose proof (tokens_slash _ _ _ _ _ Hp Hts) as Sl. destruct (root_ok _ _ _ _ _ Sl Hl) as [R1 R2].
  apply parse_shape in Hl as (_ & _ & H3). revert Hd. generalize DEFAULT_SPEC. intros d Hd. rewrite Forall_forall in Hd.
  intros x Hx. destruct (seen_ok _ _ _ _ Hx R1 R2) as [G1 G2]. pose proof (seen_occurs _ _ Hx) as Hoc.
  assert (L : forall k s, occurs_in (Leaf k s) t -> k = ClauseCommandName \/ k = TokenCommandSym -> exists c, In (CommandName c, s) ts).
  { intros k s Hs. apply leaf_occurs in Hs. eapply spells_token; eauto. }
  assert (C : forall n, In (92 :: n) (map tx ["\left"; "\label"; "\includegraphics"; "\color"; "\textcolor"; "\colorbox"]%string) -> ~ command_named x n).
  { intros n Hin [Hk [c Hc]]. destruct (ok_name _ _ _ G1 G2 Hk) as [n' En]. rewrite Hc in En. injection En as -> ->.
    apply in_leaf_child in Hc as (k' & Hc & ->). apply child_occurs in Hc.
    destruct (L _ _ (occurs_trans _ _ _ Hc Hoc) (or_introl eq_refl)) as [cn Hcn]. apply (Hd _ Hcn). right. split; [now exists cn|]. now left. }
  split; [|split; [|split; [|split; [|split]]]].
  - intros Hk. exfalso. destruct x as [k s|k ch]; cbn in Hk; subst k.
    + destruct G2 as [G2 _]. clear -G2. repeat destruct G2 as [G2|G2]; try discriminate; contradiction.
    + destruct (every_seen _ _ _ _ V Hoc) as [_ P]. destruct (P eq_refl) as (c1 & b1 & d1 & body & e & -> & (_ & Hc1) & _).
      assert (E : exists r, c1 = Node ClauseLR (Leaf ClauseCommandName (tx "\left") :: r)) by (destruct d1 as [[k s]|]; [destruct Hc1 as (_ & _ & ->)|subst c1]; eauto).
      destruct E as [r ->].
      assert (O : occurs_in (Leaf ClauseCommandName (tx "\left")) t).
      { eapply occurs_trans; [|exact Hoc]. eapply occurs_below; [left; reflexivity|]. eapply occurs_below; [left; reflexivity|constructor]. }
      destruct (L _ _ O (or_introl eq_refl)) as [cn Hcn]. apply (Hd _ Hcn). right. split; [now exists cn|]. left. now left.
  - intros name sh (_ & n' & H & ->) Hg Hf. exfalso. unfold env_name_tok in H. destruct (env_begin x) as [b|] eqn:Eb; [|discriminate].
    apply env_begin_child, child_occurs in Eb. unfold clause_name in H. destruct (first_token b) as [[k s]|] eqn:Ef; [|discriminate].
    destruct k; try discriminate. injection H as ->. apply first_token_leaf in Ef.
    destruct (L _ _ (occurs_trans _ _ _ Ef (occurs_trans _ _ _ Eb Hoc)) (or_intror eq_refl)) as [cn Hcn].
    apply (Hd _ Hcn). right. split; [now exists cn|]. right. cbn [snd]. eauto.
  - intros l H. elim (C _ ltac:(right; left; reflexivity) H).
  - intros H. elim (C _ ltac:(do 2 right; left; reflexivity) H).
  - intros name model color body H Hin _. exfalso. repeat destruct Hin as [<- |Hin]; try contradiction.
    + exact (C (tx "color") ltac:(do 3 right; left; reflexivity) H).
    + exact (C (tx "textcolor") ltac:(do 4 right; left; reflexivity) H).
    + exact (C (tx "colorbox") ltac:(do 5 right; left; reflexivity) H).
  - intros Hk. exfalso. destruct x as [k s|k ch]; cbn in Hk; subst k.
    + destruct G2 as [G2 _]. clear -G2. repeat destruct G2 as [G2|G2]; try discriminate; contradiction.
    + exact (every_seen _ _ _ _ NC Hoc eq_refl).
Qed.
Print Assumptions C69_plain.

(** ** The conditions are needed: in each of these sources one of them fails, and
    the output is not nested *)
Lemma nested_iff b s : nested b s <-> nest b [] s = Some [].
Proof. split; [intros H; exact (nested_nest b b s H [] eq_refl)|intros H; exact (nest_closes b s [] H)]. Qed.
Definition not_nested (m : mode) (src : text) : Prop := forall macros, exists f0, forall fuel, (f0 <= fuel)%nat ->
  exists o, convert_source macros m fuel PAGE src None = COk o /\ ~ nested (as_formula m) o.
Lemma not_nested_by m src n o : (forall macros, match parse_source macros n PAGE DEFAULT_SPEC src with Ok t => convert_tree DEFAULT_SPEC m t = COk o | _ => False end) ->
  match nest (as_formula m) [] o with Some [] => False | _ => True end -> not_nested m src.
Proof.
  intros H Ho macros. specialize (H macros). destruct (parse_source macros n PAGE DEFAULT_SPEC src) as [t| |] eqn:P; try contradiction.
  apply parse_keeps in P as [f0 P]; [|unfold PAGE; lia]. exists f0. intros fuel L. exists o. split.
  - unfold convert_source, convert_inner. rewrite (P _ L). exact H.
  - intros X. apply nested_iff in X. now rewrite X in Ho.
Qed.
Theorem C69_refuted :
  Forall (not_nested MText) (map tx ["$\left( x$"; "\label{(}"; "\includegraphics{(}"; "\textcolor[(]{red}{x}"; "\iftypst ( \fi";
    "\begin{tabular}{l} x \end{tabular}"]%string) /\
  Forall (not_nested MMath) (map tx ["\left( x"; "\textcolor[(]{red}{x}"; "\iftypst ( \fi"]%string).
Proof.
  split; repeat apply Forall_cons; try apply Forall_nil;
    (eapply (not_nested_by _ _ 300); [intros []; vm_compute; reflexivity|vm_compute; exact I]).
Qed.
Print Assumptions C69_refuted.

(** ** Examples *)
Definition delicate_b (sp : spec) (u : tok) : bool :=
  match fst u with
  | CommandName (CIf IfTypst) => true
  | CommandName _ =>
      existsb (teqb (snd u)) (map tx ["\left"; "\label"; "\includegraphics"; "\color"; "\textcolor"; "\colorbox"]%string) ||
      match get_env sp (trim (snd u)) with Some sh => match en_feature sh with FTable => true | _ => false end | None => false end
  | _ => false
  end.
Lemma delicate_b_spec sp ts : forallb (fun u => negb (delicate_b sp u)) ts = true -> Forall (fun u => ~ delicate sp u) ts.
Proof.
  intros H. apply Forall_forall. intros u Hu D. rewrite forallb_forall in H. specialize (H u Hu). apply negb_true_iff in H.
  unfold delicate_b in H. destruct D as [D|([c D] & D2)]; rewrite D in H; [discriminate|].
  assert (O : existsb (teqb (snd u)) (map tx ["\left"; "\label"; "\includegraphics"; "\color"; "\textcolor"; "\colorbox"]%string) ||
      match get_env sp (trim (snd u)) with Some sh => match en_feature sh with FTable => true | _ => false end | None => false end = true).
  { apply orb_true_iff. destruct D2 as [D2|(sh & E1 & E2)]; [left|right; now rewrite E1, E2].
    apply existsb_exists. exists (snd u). split; [exact D2|]. now apply teqb_eq. }
  destruct c; try (rewrite O in H; discriminate). destruct i; try (rewrite O in H; discriminate). discriminate.
Qed.
Definition tidy_source : text :=
  tx "a (b [$f(x_1)$, $$\frac{1}{[2} y]$$ \begin{itemize}\item \textbf{c)} \end{itemize} \begin{equation} \sqrt[3]{x} \\ \text{if $x$ )} \end{equation}".
Example C69_plain_example : exists ts o,
  tokens_of false PAGE DEFAULT_SPEC tidy_source ts /\ Forall (fun u => ~ delicate DEFAULT_SPEC u) ts /\
  convert_source false MText 400 PAGE tidy_source None = COk o /\ (150 <= List.length o)%nat.
Proof.
  exists (stream_toks (lex_stream DEFAULT_SPEC tidy_source)). eexists. split; [split; [vm_compute; reflexivity|reflexivity]|].
  split; [apply delicate_b_spec; vm_compute; reflexivity|]. split; [vm_compute; reflexivity|]. apply Nat.leb_le. vm_compute. reflexivity.
Qed.
(** ... and with pairs and tables *)
Definition no_cell_b (t : tree) : bool :=
  match tkind t with TokenWhiteSpace | TokenLineBreak => true | _ => match rule_of t with Some _ => true | None => false end end.
Fixpoint closed_b (l : list tree) : bool :=
  match l with
  | [] => true
  | t :: r => if no_cell_b t then closed_b r else match tkind t with TokenAmpersand | ItemNewLine => true | _ => false end
  end.
Definition named_b (name : text) (t : tree) : bool :=
  match t with Node ClauseLR (Leaf _ (c :: n) :: _) => (c =? 92) && teqb n name | _ => false end.
Definition tidy_b (sp : spec) (t : tree) : bool :=
  match t with
  | Leaf k _ => match k with ItemLR | ItemTypstCode => false | _ => true end
  | Node ItemLR ch => match ch with c1 :: r => named_b (tx "left") c1 && match rev r with c2 :: _ => named_b (tx "right") c2 | [] => false end | [] => false end
  | Node ItemEnv _ => match env_name_tok t with
      | Some n => match get_env sp (trim n) with Some sh => match en_feature sh with FTable => closed_b (rev (inside t)) | _ => true end | None => true end
      | None => true end
  | Node ItemCmd _ => match cmd_name_tok t with
      | Some (_ :: n) => negb (existsb (teqb n) (map tx ["label"; "includegraphics"; "color"; "textcolor"; "colorbox"]%string))
      | _ => true end
  | Node ItemTypstCode _ => false
  | _ => true
  end.
Lemma no_cell_b_spec t : no_cell_b t = true -> no_cell t.
Proof.
  unfold no_cell_b, no_cell. intros H. assert (R : match rule_of t with Some _ => true | None => false end = true -> rule_of t <> None) by (destruct (rule_of t); discriminate).
  destruct (tkind t); auto; left; cbn; auto.
Qed.
Lemma closed_b_spec l : closed_b l = true -> cells_closed (rev l).
Proof.
  induction l as [|t l IH]; [left; constructor|]. cbn [closed_b rev]. destruct (no_cell_b t) eqn:E.
  - apply no_cell_b_spec in E. intros H. destruct (IH H) as [F|(a & s & b & E2 & Hs & F)].
    + left. apply Forall_app. split; [exact F|]. now constructor.
    + right. exists a, s, (b ++ [t]). split; [rewrite E2; now rewrite <- app_assoc|]. split; [exact Hs|]. apply Forall_app. split; [exact F|]. now constructor.
  - intros H. right. exists (rev l), t, []. split; [reflexivity|]. split; [|constructor]. unfold separator. destruct (tkind t); try discriminate; auto.
Qed.
Lemma named_b_spec name t : named_b name t = true -> clause_named name t.
Proof.
  destruct t as [|k ch]; [discriminate|]. cbn. destruct k; try discriminate. destruct ch as [|[k s|] r]; try discriminate. destruct s as [|c n]; [discriminate|].
  intros H. apply andb_prop in H as [H1 H2]. apply N.eqb_eq in H1 as ->. apply teqb_eq in H2 as ->. now exists k, r.
Qed.
Lemma tidy_b_spec sp t : tidy_b sp t = true -> tidy sp t.
Proof.
  intros H.
  assert (NC : forall n, In n (map tx ["label"; "includegraphics"; "color"; "textcolor"; "colorbox"]%string) -> ~ command_named t n).
  { intros n Hn [Hk [c Hc]]. destruct t as [|k ch]; [discriminate Hc|]. cbn [tkind] in Hk. subst k. cbn [tidy_b] in H. rewrite Hc in H.
    apply negb_true_iff in H. assert (E : existsb (teqb n) (map tx ["label"; "includegraphics"; "color"; "textcolor"; "colorbox"]%string) = true); [|congruence].
    apply existsb_exists. exists n. split; [exact Hn|now apply teqb_eq]. }
  split; [|split; [|split; [|split; [|split]]]].
  - intros Hk. destruct t as [k s|k ch]; cbn [tkind] in Hk; subst k; cbn [tidy_b] in H; [discriminate|].
    destruct ch as [|c1 r]; [discriminate|]. apply andb_prop in H as [H1 H2]. apply named_b_spec in H1.
    destruct (rev r) as [|c2 r2] eqn:E; [discriminate|]. apply named_b_spec in H2.
    assert (Er : r = rev r2 ++ [c2]) by (rewrite <- (rev_involutive r), E; reflexivity).
    exists c1, (rev r2), c2. cbn [children]. rewrite <- Er. auto.
  - intros name sh [Hk (n & Hn & ->)] Hg Hf. destruct t as [|k ch]; [discriminate Hn|]. cbn [tkind] in Hk. subst k. cbn [tidy_b] in H.
    rewrite Hn, Hg, Hf in H. apply closed_b_spec in H. now rewrite rev_involutive in H.
  - intros l Hn. elim (NC _ ltac:(left; reflexivity) Hn).
  - intros Hn. elim (NC _ ltac:(right; left; reflexivity) Hn).
  - intros name model color body Hn Hc _. elim (NC name); [|exact Hn]. cbn in Hc |- *. tauto.
  - intros Hk. destruct t as [k s|k ch]; cbn [tkind] in Hk; subst k; discriminate H.
Qed.
Fixpoint tidy_all (sp : spec) (t : tree) : bool :=
  tidy_b sp t && match t with Leaf _ _ => true | Node _ ch => (fix go l := match l with [] => true | x :: r => tidy_all sp x && go r end) ch end.
Lemma tidy_all_spec sp t : tidy_all sp t = true -> forall x, seen x t -> tidy sp x.
Proof.
  intros H x Hx. apply seen_occurs in Hx. induction Hx as [|k ch c Hc Hs IH].
  - apply tidy_b_spec. destruct x; cbn [tidy_all] in H; now apply andb_prop in H.
  - apply IH. cbn [tidy_all] in H. apply andb_prop in H as [_ H]. clear Hs IH. revert H. induction ch as [|y ch IH2]; [destruct Hc|].
    intros H. apply andb_prop in H as [H1 H2]. destruct Hc as [<- |Hc]; [exact H1|auto].
Qed.
Definition paired_source : text :=
  tx "\begin{tabular}{l|c} $\left( \frac{x}{2} \right]$ & y \\ \hline [ & \textbf{z} \\ \end{tabular} $\left. a \middle| b \right\rangle$".
Example C69_nested_example : exists t o,
  parse_source false 400 PAGE DEFAULT_SPEC paired_source = Ok t /\ (forall x, seen x t -> tidy DEFAULT_SPEC x) /\
  convert_source false MText 400 PAGE paired_source None = COk o /\ (200 <= List.length o)%nat.
Proof.
  eexists _, _. split; [vm_compute; reflexivity|]. split; [apply tidy_all_spec; vm_compute; reflexivity|].
  split; [vm_compute; reflexivity|]. apply Nat.leb_le. vm_compute. reflexivity.
Qed.
(** [nested] is not satisfied by everything *)
Example nested_examples : nested false (tx "#f(a[$x (y)$])") /\ ~ nested false (tx "(]") /\ ~ nested true (tx "$x$") /\ nested true (tx "[$x$]").
Proof. rewrite !nested_iff. repeat split; try discriminate. Qed.
