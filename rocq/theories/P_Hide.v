(** C71: nothing of the generated Typst code is swallowed by a comment, a string or a reference. *)
From Verif Require Import Api ConvFacts ParserTotal ParserSource ParserEnd GramSpec GramSound GramComplete P_Parser P_Conv3 P_Conv4 P_Render NestLeaf NestStep NestAll P_Views NestCode P_Nest RenderSpec NestSpec HideFacts HideStep HideSpec.
Local Open Scope N_scope.

(** ** The names in the built-in specification *)
Definition item_hides (p : text * spec_item) : bool :=
  match snd p with
  | SICmd c => hides_b (or_default (cs_alias c) (fst p) ++ [32]) &&
      match cs_args c with SRight PNone => true | _ => hides_b (or_default (cs_alias c) (fst p)) end
  | SIEnv e => hides_b (or_default (en_alias e) (fst p))
  end.
Section Names.
  Variable bad : char -> Prop.
  Hypothesis Hbad : forall c, bad c -> In c openers.
  Lemma items_hide (l : list (text * spec_item)) : forallb item_hides l = true -> names_hide bad (spec_of l).
  Proof.
    intros A.
    assert (F : forall name it, assoc name l = Some it -> item_hides (name, it) = true).
    { intros name it. revert A. induction l as [|[k v] r IH]; [discriminate|]. cbn [forallb assoc]. intros A. apply andb_prop in A as [A1 A2].
      destruct (teqbP name k) as [-> |]; [intros [= ->]; exact A1|auto]. }
    split.
    - intros name sh H. unfold get_cmd, spec_of in H. destruct (assoc name l) as [[c|e]|] eqn:E; try discriminate. injection H as ->.
      apply F in E. unfold item_hides in E. cbn [fst snd] in E. apply andb_prop in E as [E1 E2]. split; [now apply (hides_by bad Hbad)|]. intros N.
      apply (hides_by bad Hbad). destruct (cs_args sh) as [[]| |]; try exact E2. congruence.
    - intros name sh H. unfold get_env, spec_of in H. destruct (assoc name l) as [[c|e]|] eqn:E; try discriminate. injection H as ->.
      apply F in E. now apply (hides_by bad Hbad).
  Qed.
  Lemma default_hides : names_hide bad DEFAULT_SPEC.
  Proof. apply items_hide. vm_compute. reflexivity. Qed.
End Names.
Lemma swallows_openers src c : swallows src c -> In c openers.
Proof. intros [H|[-> _]]; [cbn in H; cbn; tauto|cbn; tauto]. Qed.
Lemma swallows_words src : words_plain (swallows src) src.
Proof.
  intros c Hc W. split; [intros ->; discriminate W|]. intros [H|[-> H]]; [|contradiction].
  cbn in H. repeat destruct H as [<- |H]; try discriminate W; contradiction.
Qed.

(* ------------------------------------------------------------------ *)
(** * C71 *)
Lemma written_hides (bad : char -> Prop) gm sp' sp m t c o : (forall c, bad c -> In c openers) -> names_hide bad sp -> HideStep.good bad gm sp' t -> no_symbol t ->
  converts_to sp m t (Written c o) -> hides bad o.
Proof.
  intros Hb Hn Hg Ho H. eapply (all_hides bad Hb gm sp' sp Hn t Hg Ho (outermost m)); [| |exact H]; [reflexivity|].
  unfold sane, is_list. destruct m; cbn; intros X; repeat destruct X as [X|X]; try discriminate X; try contradiction.
Qed.
Theorem C71_hidden : forall macros m fuel page src sp ts o, (2 <= page)%nat ->
  tokens_of macros page (spec_or_default sp) src ts ->
  Forall (fun u => ~ copies u) ts ->
  convert_source macros m fuel page src sp = COk o ->
  hides (swallows src) o.
Proof.
  intros macros m fuel page src sp ts o Hp Hts Hd Ho.
  destruct (tree_of_convert _ _ _ _ _ _ _ Ho) as [(t & Ht & _)|[(s & _ & E)|E]]; try discriminate E.
  rewrite (convert_of_tree _ _ _ _ _ _ _ Ht) in Ho.
  apply C59_tree in Ho as [c Ho]; [|eapply C59_parsed; eassumption].
  pose proof (parsed_plain _ (swallows_openers src) _ _ _ _ _ _ Hp (swallows_words src) Ht) as Q.
  destruct (parse_source_reads _ _ _ _ _ _ Hp Ht) as (ts' & Hts' & Hl).
  assert (ts' = ts) as -> by (eapply tokens_functional; eauto).
  assert (NC : no_code t).
  { eapply reading_code; [eapply complete; [eapply tokens_words; eassumption|exact Hl]|]. eapply Forall_impl; [|exact Hd].
    intros u Hu E. apply Hu. now left. }
  pose proof (tokens_slash _ _ _ _ _ Hp Hts) as Sl. destruct (root_ok _ _ _ _ _ Sl Hl) as [R1 R2].
  pose proof (default_hides _ (swallows_openers src)) as N0.
  apply parse_shape in Hl as (_ & H2 & H3). revert Hd N0 Ho. generalize DEFAULT_SPEC. intros d Hd N0 Ho. rewrite Forall_forall in Hd.
  apply (written_hides _ gm_real (spec_or_default sp) d m t c); [apply swallows_openers|exact N0| | |exact Ho].
  - split; [split; assumption|]. intros x Hx. destruct (seen_ok _ _ _ _ Hx R1 R2) as [G1 G2]. pose proof (seen_occurs _ _ Hx) as Hoc.
    split; [split|].
    + intros Hk. destruct x as [k s|k ch]; cbn in Hk; subst k.
      * destruct G2 as [G2 _]. clear -G2. repeat destruct G2 as [G2|G2]; try discriminate; contradiction.
      * exact (every_seen _ _ _ _ NC Hoc eq_refl).
    + intros n Hin [Hk [cc Hc]]. destruct (ok_name _ _ _ G1 G2 Hk) as [n' En]. rewrite Hc in En. injection En as -> ->.
      apply in_leaf_child in Hc as (k' & Hc & ->). apply child_occurs in Hc.
      assert (O : occurs_in (Leaf ClauseCommandName (92 :: n')) t) by (eapply occurs_trans; eassumption).
      apply leaf_occurs in O.
      assert (L : exists cn, In (CommandName cn, 92 :: n') ts) by (eapply spells_token; eauto).
      destruct L as [cn Hcn]. apply (Hd _ Hcn). right. split; [now exists cn|]. cbn [snd].
      clear -Hin. unfold copying in Hin. cbn [map In] in Hin |- *.
      repeat destruct Hin as [<- |Hin]; try contradiction; tauto.
    + intros k s ->. now apply Q.
  - unfold no_symbol. destruct t as [[]|]; try exact I; discriminate H2.
Qed.
Print Assumptions C71_hidden.

(** mitex.typ:25-29 [mimath] evaluates the answer between dollars: that is one
    formula, which ends with the last dollar. *)
Theorem C71_formula : forall macros fuel page src sp ts o, (2 <= page)%nat ->
  tokens_of macros page (spec_or_default sp) src ts ->
  Forall (fun u => ~ delicate DEFAULT_SPEC u) ts ->
  convert_source macros MMath fuel page src sp = COk o ->
  nested true o /\ hides (swallows src) o /\ nested false (tx "$" ++ o ++ tx "$") /\ hides (swallows src) (tx "$" ++ o ++ tx "$").
Proof.
  intros macros fuel page src sp ts o Hp Hts Hd Ho.
  assert (A : nested true o) by exact (C69_plain _ MMath _ _ _ _ _ _ Hp Hts Hd Ho).
  assert (Hc : Forall (fun u => ~ copies u) ts).
  { clear - Hd. revert Hd. generalize DEFAULT_SPEC. intros d Hd. eapply Forall_impl; [|exact Hd]. intros u Hu [C|[C1 C2]]; apply Hu; [now left|]. right. split; [exact C1|]. left.
    cbn [map In] in C2 |- *. tauto. }
  pose proof (C71_hidden _ _ _ _ _ _ _ _ Hp Hts Hc Ho) as B.
  split; [exact A|]. split; [exact B|]. clear - A B. split; [exact (ne_formula o [] A (ne_end false))|].
  assert (D : hides (swallows src) (tx "$")) by (apply hi_char; [discriminate| |constructor]; intros [H|[H _]]; [|discriminate H]; repeat destruct H as [H|H]; try discriminate H; contradiction).
  apply hides_app; [exact D|]. now apply hides_app.
Qed.
Print Assumptions C71_formula.

(** ** The condition is needed: each of these commands copies a part of the
    source as it stands, and with it the beginning of a comment, of a reference
    or of a string *)
Lemma hides_down (bad : char -> Prop) s : hides bad s -> forall badb : char -> bool, (forall c, badb c = true -> bad c) ->
  (fix go (s : text) := match s with [] => true | c :: r => if c =? 92 then match r with [] => false | _ :: r' => go r' end else negb (badb c) && go r end) s = true.
Proof.
  intros H badb Hb. induction H as [|c s N B _ IH|c s _ IH]; [reflexivity| |exact IH].
  cbv fix beta iota in IH |- *. destruct (N.eqb_spec c 92) as [E|_]; [contradiction|]. rewrite IH. destruct (badb c) eqn:E; [|reflexivity]. now apply Hb in E.
Qed.
Definition swallows_b (src : text) (c : char) : bool :=
  existsb (N.eqb c) (34 :: tx "/@*") || (c =? 96) && negb (existsb (N.eqb 96) src).
Lemma swallows_b_spec src c : swallows_b src c = true -> swallows src c.
Proof.
  unfold swallows_b, swallows. intros H. apply orb_prop in H as [H|H].
  - left. apply existsb_exists in H as (x & Hx & E). apply N.eqb_eq in E as ->. exact Hx.
  - right. apply andb_prop in H as [H1 H2]. split; [now apply N.eqb_eq|]. intros X. apply negb_true_iff in H2.
    assert (E : existsb (N.eqb 96) src = true) by (apply existsb_exists; exists 96; split; [exact X|reflexivity]). congruence.
Qed.
Definition not_hidden (m : mode) (src : text) : Prop := forall macros, exists f0, forall fuel, (f0 <= fuel)%nat ->
  exists o, convert_source macros m fuel PAGE src None = COk o /\ ~ hides (swallows src) o.
Lemma not_hidden_by m src n o : (forall macros, match parse_source macros n PAGE DEFAULT_SPEC src with Ok t => convert_tree DEFAULT_SPEC m t = COk o | _ => False end) ->
  (fix go (s : text) := match s with [] => true | c :: r => if c =? 92 then match r with [] => false | _ :: r' => go r' end else negb (swallows_b src c) && go r end) o = false ->
  not_hidden m src.
Proof.
  intros H Ho macros. specialize (H macros). destruct (parse_source macros n PAGE DEFAULT_SPEC src) as [t| |] eqn:P; try contradiction.
  apply parse_keeps in P as [f0 P]; [|unfold PAGE; lia]. exists f0. intros fuel L. exists o. split.
  - unfold convert_source, convert_inner. rewrite (P _ L). exact H.
  - intros X. pose proof (hides_down _ _ X (swallows_b src) (swallows_b_spec src)) as E. congruence.
Qed.
Theorem C71_refuted :
  Forall (not_hidden MText) (map tx ["\label{a//b}"; "\includegraphics{x}"; "\textcolor[/]{red}{x}"; "\colorbox[//]{red}{x}"; "\color[/]{red}x"; "\iftypst // \fi"; "\iftypst @ \fi"; "\iftypst * \fi"]%string) /\
  Forall (not_hidden MMath) (map tx ["\textcolor[//]{red}{x}"; "\iftypst // \fi"]%string).
Proof.
  split; repeat apply Forall_cons; try apply Forall_nil;
    (eapply (not_hidden_by _ _ 300); [intros []; vm_compute; reflexivity|vm_compute; reflexivity]).
Qed.
Print Assumptions C71_refuted.

(** ** Example: punctuation everywhere, words, formulas, calls and tables *)
Definition copies_b (u : tok) : bool :=
  match fst u with
  | CommandName (CIf IfTypst) => true
  | CommandName _ => existsb (teqb (snd u)) (map tx ["\label"; "\includegraphics"; "\color"; "\textcolor"; "\colorbox"]%string)
  | _ => false
  end.
Lemma copies_b_spec ts : forallb (fun u => negb (copies_b u)) ts = true -> Forall (fun u => ~ copies u) ts.
Proof.
  intros H. apply Forall_forall. intros u Hu D. rewrite forallb_forall in H. specialize (H u Hu). apply negb_true_iff in H.
  unfold copies_b in H. destruct D as [D|([c D] & D2)]; rewrite D in H; [discriminate|].
  assert (O : existsb (teqb (snd u)) (map tx ["\label"; "\includegraphics"; "\color"; "\textcolor"; "\colorbox"]%string) = true).
  { apply existsb_exists. exists (snd u). split; [exact D2|now apply teqb_eq]. }
  destruct c; try (rewrite O in H; discriminate). destruct i; try (rewrite O in H; discriminate). discriminate.
Qed.
Definition hiding_source : text := tx "see https://a.b/c*d*e /* @x ""y"" $\frac{a//b}{""c""} * @z$ \textbf{/* w} \begin{tabular}{l|c} a//b & $*$ \\ \hline @ \\ \end{tabular} \begin{equation} \text{//} \sqrt[*]{/} \left/ x \right/ \end{equation}".
Example C71_example : exists ts o,
  tokens_of false PAGE DEFAULT_SPEC hiding_source ts /\ Forall (fun u => ~ copies u) ts /\
  convert_source false MText 400 PAGE hiding_source None = COk o /\ (200 <= List.length o)%nat /\
  forallb (fun c => existsb (N.eqb c) o) (34 :: tx "/@*") = true.
Proof.
  exists (stream_toks (lex_stream DEFAULT_SPEC hiding_source)). eexists. split; [split; [vm_compute; reflexivity|reflexivity]|].
  split; [apply copies_b_spec; vm_compute; reflexivity|]. split; [vm_compute; reflexivity|].
  split; [apply Nat.leb_le; vm_compute; reflexivity|vm_compute; reflexivity].
Qed.
Example hides_examples : hides (swallows []) (tx "a\/\/b\""\*\\c") /\ ~ hides (swallows []) (tx "a\\/b") /\ ~ hides (swallows []) (tx "a\") /\
  ~ hides (swallows []) (tx "`a`") /\ hides (swallows (tx "`")) (tx "`a`").
Proof.
  repeat split; try (intros X; pose proof (hides_down _ _ X (swallows_b []) (swallows_b_spec [])) as E; discriminate E).
  - repeat first [apply hi_hidden|apply hi_end|apply hi_char; [discriminate|intros [H|[H _]]; [|discriminate H]; cbn in H; repeat destruct H as [H|H]; try discriminate H; contradiction|]].
  - repeat first [apply hi_hidden|apply hi_end|apply hi_char; [discriminate|intros [H|[_ H]]; [|apply H; now left]; cbn in H; repeat destruct H as [H|H]; try discriminate H; contradiction|]].
Qed.
