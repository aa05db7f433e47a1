(** Property C39, from the source on: comments do not reach the output. *)
From Verif Require Import Api ParserEnd P_Parser ConvTerm ConvAlike P_Conv P_Conv2 P_Conv3 MacroComment.
Local Open Scope nat_scope.

(** ** Specification *)
(** the same tokens, except for the text of line comments *)
Definition same_but_comments (ts1 ts2 : list tok) : Prop :=
  Forall2 (fun t1 t2 => t1 = t2 \/ (fst t1 = LineComment /\ fst t2 = LineComment)) ts1 ts2.

(** The comments of a tree are outside of the elements whose source text is
    copied to the output or inspected: Typst code, errors, the arguments of
    [\begin], [\label], [\includegraphics] and [\color], the colour of
    [\textcolor] and [\colorbox], formulas that are not closed. *)
Fixpoint no_comments (t : tree) : bool :=
  match t with
  | Leaf k _ => negb (kind_eqb k TokenComment)
  | Node _ ch => forallb no_comments ch
  end.
Definition is_leaf (t : option tree) : bool := match t with Some (Leaf _ _) => true | _ => false end.
Definition named_in (names : list text) (k : kind) (ch : list tree) : bool :=
  kind_eqb k ItemCmd && match cmd_name_tok (Node k ch) with Some (c :: name) => existsb (teqb name) names | _ => false end.
Definition copied (k : kind) (ch : list tree) : bool :=
  match k with
  | TokenError | ItemTypstCode | ItemBegin => true
  | ItemCmd => named_in (map tx ["label"; "includegraphics"; "color"]%string) k ch
               || existsb (fun c => is_node c && has_kind ItemBlockComment c) ch
  | ClauseLR => match ch with Leaf TokenComment _ :: _ => true | _ => false end
  | ItemFormula => negb (is_leaf (hd_error ch) && is_leaf (hd_error (rev ch)))
  | _ => false
  end.
Fixpoint comments_outside (t : tree) : bool :=
  match t with
  | Leaf _ _ => true
  | Node k ch =>
    (negb (copied k ch) || forallb no_comments ch) &&
    (negb (named_in (map tx ["textcolor"; "colorbox"]%string) k ch) ||
       match hd_error (arguments (Node k ch)) with Some a => no_comments a | None => true end) &&
    forallb comments_outside ch
  end.

(** ** Proof *)
Lemma named_in_true names k ch name : command_named (Node k ch) name -> In name names -> named_in names k ch = true.
Proof.
  intros [Hk [c Hc]] Hn. cbn in Hk. subst k. unfold named_in. rewrite Hc. cbn. apply existsb_exists. exists name. split; [exact Hn|apply teqb_refl].
Qed.
Lemma verbatim_copied k ch : verbatim k ch -> copied k ch = true.
Proof.
  unfold verbatim, copied. destruct k; try contradiction; try reflexivity.
  - intros (s & r & ->). reflexivity.
  - intros [(name & H1 & H2)|(c & H)].
    + now rewrite (named_in_true _ _ _ _ H1 H2).
    + apply orb_true_iff. right. apply existsb_exists. eexists. split; [exact H|reflexivity].
  - intros H. destruct (is_leaf (hd_error ch)) eqn:E1; [|reflexivity]. destruct (is_leaf (hd_error (rev ch))) eqn:E2; [|reflexivity]. exfalso.
    destruct H as [H|H]; apply H.
    + destruct ch as [|[k s|] r]; try discriminate. eauto.
    + destruct (rev ch) as [|[k s|] r] eqn:E; try discriminate. exists (rev r), k, s.
      rewrite <- (rev_involutive ch), E. reflexivity.
Qed.
Section Phi.
  Variable phi : text -> text.
  Lemma no_comments_eq t : no_comments t = true -> forall t', map_tree phi t = map_tree phi t' -> t = t'.
  Proof.
    induction t as [k s|k ch IH] using tree_ind2; intros Hn t' E.
    - destruct t' as [k' s'|]; [|discriminate]. cbn in E, Hn. injection E as <- E. f_equal.
      destruct k; try exact E. discriminate.
    - destruct t' as [|k' ch']; [discriminate|]. cbn in E, Hn. injection E as <- E. f_equal.
      revert ch' E Hn. induction IH as [|t ch Ht _ IHc]; intros [|t' ch'] E Hn; try discriminate; [reflexivity|].
      cbn in E, Hn. injection E as E1 E2. apply andb_prop in Hn as [N1 N2]. f_equal; auto.
  Qed.
  Lemma no_comments_all ch : forallb no_comments ch = true -> forall ch', map (map_tree phi) ch = map (map_tree phi) ch' -> ch = ch'.
  Proof.
    induction ch as [|t ch IH]; intros Hn [|t' ch'] E; try discriminate; [reflexivity|].
    cbn in E, Hn. injection E as E1 E2. apply andb_prop in Hn as [N1 N2]. f_equal; [now apply no_comments_eq|auto].
  Qed.
  Lemma args_map k ch : arguments (map_tree phi (Node k ch)) = map (map_tree phi) (arguments (Node k ch)).
  Proof.
    unfold arguments, nodes_of. cbn [map_tree children]. induction ch as [|t ch IH]; [reflexivity|]. cbn [map filter].
    assert (E : is_node (map_tree phi t) = is_node t /\ tkind (map_tree phi t) = tkind t) by now destruct t.
    destruct E as [E1 E2]. rewrite E1, E2. destruct (is_node t && _); cbn [map]; now rewrite IH.
  Qed.
  Lemma comments_alike t : comments_outside t = true -> forall t', map_tree phi t = map_tree phi t' -> alike t t'.
  Proof.
    induction t as [k s|k ch IH] using tree_ind2; intros Hn t' E.
    - destruct t' as [k' s'|]; [|discriminate]. cbn in E. injection E as <- E. unfold map_leaf in E.
      destruct k; try (rewrite E; constructor). apply al_comment.
    - destruct t' as [|k' ch']; [discriminate|]. cbn [comments_outside] in Hn.
      apply andb_prop in Hn as [Hn H3]. apply andb_prop in Hn as [H1 H2].
      assert (Ea : map (map_tree phi) (arguments (Node k ch)) = map (map_tree phi) (arguments (Node k' ch'))).
      { now rewrite <- !args_map, E. }
      cbn [map_tree] in E. injection E as <- E. constructor.
      + clear H1 H2 Ea. revert ch' E H3. induction IH as [|t ch Ht _ IHc]; intros [|t' ch'] E Hn; try discriminate; [constructor|].
        cbn in E, Hn. injection E as E1 E2. apply andb_prop in Hn as [N1 N2]. constructor; auto.
      + intros Hv. rewrite (verbatim_copied _ _ Hv) in H1. cbn in H1. now apply no_comments_all.
      + intros (name & Hc & Hi). rewrite (named_in_true _ _ _ _ Hc Hi) in H2. cbn [negb orb] in H2.
        destruct (arguments (Node k ch)) as [|a r], (arguments (Node k ch')) as [|a' r']; try discriminate; [reflexivity|].
        cbn in H2, Ea |- *. injection Ea as Ea _. now rewrite (no_comments_eq _ H2 _ Ea).
  Qed.
End Phi.
Definition blank : text -> text := fun _ => [].
Lemma same_map ts1 ts2 : same_but_comments ts1 ts2 -> map (map_tok blank) ts1 = map (map_tok blank) ts2.
Proof.
  induction 1 as [|[k1 s1] [k2 s2] l1 l2 H _ IH]; [reflexivity|]. cbn [map]. rewrite IH. f_equal. cbn in H.
  destruct H as [H|[H1 H2]]; [now rewrite H|]. cbn in *. subst. reflexivity.
Qed.
Lemma parse_rel gm sp f ts1 ts2 : same_but_comments ts1 ts2 ->
  rres False (fun t1 t2 => map_tree blank t1 = map_tree blank t2) (parse_list gm sp f ts1) (parse_list gm sp f ts2).
Proof.
  intros H. apply same_map in H. pose proof (parse_comments blank gm sp f ts1) as H1. pose proof (parse_comments blank gm sp f ts2) as H2.
  rewrite <- H in H2. destruct (parse_list gm sp f ts1), (parse_list gm sp f ts2), (parse_list gm sp f (map (map_tok blank) ts1)); cbn in *; try contradiction; congruence.
Qed.

(** Parsing: sources whose tokens differ in comments only *)
Lemma mstream_same s1 s2 : stream_panics s1 = false -> stream_panics s2 = false -> same_but_comments (stream_toks s1) (stream_toks s2) ->
  mstream blank s1 = mstream blank s2.
Proof.
  revert s2. induction s1 as [| |t r IH]; intros [| |t' r'] P1 P2 H; try discriminate; try reflexivity; try (inversion H; fail).
  cbn in *. inversion_clear H as [|? ? ? ? H1 H2]. f_equal; [|auto].
  destruct t as [k s], t' as [k' s']. destruct H1 as [->|[H1 H3]]; [reflexivity|]. cbn in *. subst. reflexivity.
Qed.
Lemma tokens_rel macros page sp src1 src2 ts1 : 2 <= page ->
  stream_panics (lex_stream sp src2) = false ->
  same_but_comments (stream_toks (lex_stream sp src1)) (stream_toks (lex_stream sp src2)) ->
  stream_panics (lex_stream sp src1) = false ->
  tokens_of macros page sp src1 ts1 ->
  exists ts2, tokens_of macros page sp src2 ts2 /\ map (map_tok blank) ts1 = map (map_tok blank) ts2.
Proof.
  intros Hp P2 H P1 Ht. unfold tokens_of in *. destruct macros.
  - destruct Ht as [f0 Ht]. specialize (Ht f0 (le_n _)). unfold expand_all in Ht.
    pose proof (expand_stream_m blank f0 page (lex_stream sp src1)) as E1. pose proof (expand_stream_m blank f0 page (lex_stream sp src2)) as E2.
    rewrite (mstream_same _ _ P1 P2 H) in E1. rewrite Ht, E2 in E1. cbn [rmap] in E1. clear E2. rename E1 into E2.
    destruct (expand_stream f0 page engine_new (lex_stream sp src2)) as [ts2| |] eqn:Ex; try discriminate. cbn [rmap] in E2. injection E2 as E2.
    exists ts2. split; [|now symmetry]. eapply expand_expanded; eauto.
  - destruct Ht as [_ ->]. eexists. split; [split; [exact P2|reflexivity]|]. now apply same_map.
Qed.
Lemma parse_rel2 gm sp f ts1 ts2 t1 : map (map_tok blank) ts1 = map (map_tok blank) ts2 -> parse_list gm sp f ts1 = Ok t1 ->
  exists t2, parse_list gm sp f ts2 = Ok t2 /\ map_tree blank t1 = map_tree blank t2.
Proof.
  intros H E. pose proof (parse_comments blank gm sp f ts1) as H1. pose proof (parse_comments blank gm sp f ts2) as H2.
  rewrite <- H, E in *. destruct (parse_list gm sp f (map (map_tok blank) ts1)), (parse_list gm sp f ts2); cbn in *; try contradiction.
  eexists. split; [reflexivity|congruence].
Qed.

(** * C39 *)
(** The trees of two sources with the same tokens, except for comments, differ
    in comments only ... *)
Theorem C39_parse : forall macros fuel page sp src1 src2 t1, 2 <= page ->
  stream_panics (lex_stream sp src1) = false -> stream_panics (lex_stream sp src2) = false ->
  same_but_comments (stream_toks (lex_stream sp src1)) (stream_toks (lex_stream sp src2)) ->
  parse_source macros fuel page sp src1 = Ok t1 ->
  exists t2, map_tree blank t1 = map_tree blank t2 /\
    exists f0, forall f, f0 <= f -> parse_source macros f page sp src2 = Ok t2.
Proof.
  intros macros fuel page sp src1 src2 t1 Hp P1 P2 H E. apply parse_source_reads in E as (ts1 & Ht & E); [|exact Hp].
  destruct (tokens_rel macros page sp src1 src2 ts1 Hp P2 H P1 Ht) as (ts2 & Ht2 & Em).
  destruct (parse_rel2 _ _ _ _ ts2 _ Em E) as (t2 & E2 & Em2). exists t2. split; [exact Em2|].
  destruct (parse_source_enough _ _ _ _ _ Hp Ht2) as [f0 Hf]. exists f0. intros f L. rewrite (Hf f L).
  pose proof (tokens_words _ _ _ _ _ Hp Ht2) as Hw.
  destruct (le_ge_dec fuel (parse_fuel ts2)) as [G|G].
  - eapply parse_fuel_mono; [exact E2|discriminate|exact G].
  - rewrite <- E2. symmetry. now apply parse_enough.
Qed.
Print Assumptions C39_parse.
(** ... and so their conversions are the same, output or error, if the
    comments are outside of the elements whose source is copied. *)
Theorem C39_source : forall macros m fuel page sp src1 src2 t1, 2 <= page ->
  let sp' := match sp with Some s => s | None => DEFAULT_SPEC end in
  stream_panics (lex_stream sp' src1) = false -> stream_panics (lex_stream sp' src2) = false ->
  same_but_comments (stream_toks (lex_stream sp' src1)) (stream_toks (lex_stream sp' src2)) ->
  parse_source macros fuel page sp' src1 = Ok t1 -> comments_outside t1 = true ->
  exists f0, forall f, f0 <= f -> convert_source macros m f page src2 sp = convert_source macros m fuel page src1 sp.
Proof.
  intros macros m fuel page sp src1 src2 t1 Hp sp' P1 P2 H E Hc.
  destruct (C39_parse macros fuel page sp' src1 src2 t1 Hp P1 P2 H E) as (t2 & Em & f0 & Hf). exists f0. intros f L.
  unfold convert_source, convert_inner. fold sp'. rewrite E, (Hf f L). symmetry. apply C39_tree. now apply comments_alike with (phi := blank).
Qed.
Print Assumptions C39_source.
(** comments in a macro body, in an argument, between arguments and in a script *)
Example C39_example :
  let src c := tx "\newcommand{\f}[1]{#1%" ++ c ++ [10%N] ++ tx "x}\frac{\f{a%" ++ c ++ [10%N] ++ tx "}}%" ++ c ++ [10%N] ++ tx "b_%" ++ c ++ [10%N] ++ tx "2" in
  let c1 := tx "hidden" in let c2 := tx " \textbf{ $" in
  stream_panics (lex_stream DEFAULT_SPEC (src c1)) = false /\ stream_panics (lex_stream DEFAULT_SPEC (src c2)) = false /\
  same_but_comments (stream_toks (lex_stream DEFAULT_SPEC (src c1))) (stream_toks (lex_stream DEFAULT_SPEC (src c2))) /\
  (exists t, parse_macro 300 PAGE DEFAULT_SPEC (src c1) = Ok t /\ comments_outside t = true) /\
  convert_math 300 PAGE (src c1) None = convert_math 300 PAGE (src c2) None /\
  (exists o, convert_math 300 PAGE (src c1) None = COk o).
Proof.
  cbv zeta. split; [vm_compute; reflexivity|]. split; [vm_compute; reflexivity|]. split.
  - vm_compute. repeat (constructor; [solve [now left|right; now split]|]). constructor.
  - split; [eexists; split; [vm_compute; reflexivity|vm_compute; reflexivity]|]. split; [vm_compute; reflexivity|].
    eexists. vm_compute. reflexivity.
Qed.
