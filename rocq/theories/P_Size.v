(** C73: the tree of a source is at most linear in the source (in the tokens
    after expansion, if macros are expanded); C74: the output is at most
    quadratic.

    Specification used: SizeSpec.v ([nodes], [levels]) and the length of texts. *)
From Verif Require Import Api DefaultSpec P_Lex LexFacts ParserTotal ParserSource ParserEnd GramSound GramComplete P_Gram P_Parser P_Conv3 P_Conv4 P_Render SizeAll RenderSpec SizeSpec.
Local Open Scope nat_scope.

(** one for every token, and the length of its text *)
Fixpoint weight (ts : list tok) : nat := match ts with [] => 0 | t :: r => 1 + List.length (snd t) + weight r end.
Lemma weight_heft ts : weight ts = heft ts. Proof. reflexivity. Qed.

Lemma list_max_sum l : list_max l <= list_sum l.
Proof. induction l as [|n l IH]; [apply le_n|]. cbn. fold (list_max l) (list_sum l). lia. Qed.
Lemma levels_nodes t : levels t <= nodes t.
Proof.
  induction t as [k s|k ch IH] using TreeSpec.tree_ind2; [apply le_n|]. cbn [levels nodes]. apply le_n_S.
  transitivity (list_max (map nodes ch)); [|apply list_max_sum]. apply list_max_le. apply Forall_map. rewrite Forall_forall in IH |- *. intros x Hx.
  transitivity (nodes x); [now apply IH|]. assert (G : Forall (fun m => m <= list_max (map nodes ch)) (map nodes ch)) by now apply list_max_le.
  rewrite Forall_forall in G. apply G. now apply in_map.
Qed.

(** ** C73 *)
Theorem C73_tree : forall macros fuel page sp src ts t, 2 <= page -> tokens_of macros page sp src ts ->
  parse_source macros fuel page sp src = Ok t ->
  nodes t <= 1 + 6 * weight ts /\ levels t <= 1 + 6 * weight ts.
Proof.
  intros m f page sp src ts t Hp T P. apply parse_source_reads in P as (ts' & T' & P); [|exact Hp].
  rewrite <- (tokens_functional _ _ _ _ _ _ T T') in P. apply complete in P; [|exact (tokens_words _ _ _ _ _ Hp T)].
  apply reading_vol in P. rewrite vol_nodes in P. rewrite weight_heft. pose proof (levels_nodes t). lia.
Qed.
Print Assumptions C73_tree.
Lemma lexed_weight sp src : weight (stream_toks (lex_stream sp src)) <= 2 * List.length src.
Proof.
  destruct (C01_lossless sp src) as (raws & rest & E & F & _). apply (f_equal (@List.length N)) in E. rewrite app_length in E.
  assert (G : weight (stream_toks (lex_stream sp src)) <= 2 * List.length (List.concat raws)); [|lia]. clear E.
  induction F as [|t raw ts raws H _ IH]; [apply Nat.le_0_l|]. cbn [weight List.concat]. rewrite app_length.
  assert (1 + List.length (snd t) <= 2 * List.length raw); [|lia]. destruct H as [Hne H].
  assert (1 <= List.length raw) by (destruct raw; [contradiction|cbn; lia]).
  destruct (fst t) as [| | | | | | | | | | | | | | | | | | | |c| |]; try (subst raw; lia).
  destruct c; try (subst raw; lia); destruct H as (a & b & ->); rewrite !app_length; try change (List.length (tx "\begin")) with 6; try change (List.length (tx "\end")) with 4; cbn [List.length]; lia.
Qed.
Theorem C73_source : forall fuel page sp src t, 2 <= page -> parse_source false fuel page sp src = Ok t ->
  nodes t <= 1 + 12 * List.length src /\ levels t <= 1 + 12 * List.length src.
Proof.
  intros f page sp src t Hp P. destruct (parse_source_reads _ _ _ _ _ _ Hp P) as (ts & T & _).
  pose proof (C73_tree _ _ _ _ _ _ _ Hp T P). destruct T as [_ ->]. pose proof (lexed_weight sp src). lia.
Qed.
Print Assumptions C73_source.

(** ** C74 *)
Definition alias_ok (p : text * spec_item) : bool :=
  match (match snd p with SICmd c => cs_alias c | SIEnv e => en_alias e end) with Some a => Nat.leb (List.length a) 24 | None => true end.
Lemma items_short (l : list (text * spec_item)) : forallb alias_ok l = true ->
  (forall name sh, get_cmd (spec_of l) name = Some sh -> alias_short 24 (cs_alias sh)) /\
  (forall name sh, get_env (spec_of l) name = Some sh -> alias_short 24 (en_alias sh)).
Proof.
  intros A.
  assert (F : forall name it, assoc name l = Some it -> alias_ok (name, it) = true).
  { intros name it. revert A. induction l as [|[k v] r IH]; [discriminate|]. cbn [forallb assoc]. intros A. apply andb_prop in A as [A1 A2].
    destruct (teqbP name k) as [-> |]; [intros [= ->]; exact A1|auto]. }
  split; intros name sh H; unfold get_cmd, get_env, spec_of in H; destruct (assoc name l) as [[c|e]|] eqn:E; try discriminate; injection H as ->;
    apply F in E; unfold alias_ok in E; cbn [snd] in E; unfold alias_short.
  - destruct (cs_alias sh); [now apply Nat.leb_le|exact I].
  - destruct (en_alias sh); [now apply Nat.leb_le|exact I].
Qed.
Lemma default_short : (forall name sh, get_cmd DEFAULT_SPEC name = Some sh -> alias_short 24 (cs_alias sh)) /\
  (forall name sh, get_env DEFAULT_SPEC name = Some sh -> alias_short 24 (en_alias sh)).
Proof. apply items_short. vm_compute. reflexivity. Qed.
Theorem C74_output : forall macros m fuel page src sp ts o, 2 <= page ->
  tokens_of macros page (spec_or_default sp) src ts ->
  convert_source macros m fuel page src sp = COk o ->
  List.length o <= 12 * 720 * (1 + weight ts) * (1 + weight ts).
Proof.
  intros macros m fuel page src sp ts o Hp T H.
  destruct (tree_of_convert _ _ _ _ _ _ _ H) as [(t & P & _)|[(s & _ & E)|E]]; try discriminate E.
  rewrite (convert_of_tree _ _ _ _ _ _ _ P) in H.
  apply C59_tree in H as [c H]; [|eapply C59_parsed; eassumption].
  apply parse_source_reads in P as (ts' & T' & P); [|exact Hp].
  rewrite <- (tokens_functional _ _ _ _ _ _ T T') in P. apply complete in P; [|exact (tokens_words _ _ _ _ _ Hp T)].
  apply reading_vol in P. rewrite weight_heft. set (h := heft ts) in *. clearbody h. destruct default_short as [S1 S2].
  assert (B := all_bounded DEFAULT_SPEC 24 (2 + 12 * h) (24 + 100 + 60 * (2 + 12 * h)) (le_n _) S1 S2 (vol t) t (outermost m) (le_n _) ltac:(cbn [outermost indent_of]; lia)).
  specialize (B ltac:(unfold sane, is_list; destruct m; cbn; intros X; repeat destruct X as [X|X]; try discriminate X; try contradiction) _ _ _ H).
  cbn [waits waiting] in B. clear -B P. set (v := vol t) in *. clearbody v.
  assert ((24 + 100 + 60 * (2 + 12 * h)) * (v - 1) <= 720 * (1 + h) * (12 * (1 + h))) by (apply Nat.mul_le_mono; lia). lia.
Qed.
Print Assumptions C74_output.
Theorem C74_source : forall m fuel page src sp o, 2 <= page ->
  convert_source false m fuel page src sp = COk o ->
  List.length o <= 48 * 720 * (1 + List.length src) * (1 + List.length src).
Proof.
  intros m fuel page src sp o Hp H.
  destruct (tree_of_convert _ _ _ _ _ _ _ H) as [(t & P & _)|[(s & _ & E)|E]]; try discriminate E.
  destruct (parse_source_reads _ _ _ _ _ _ Hp P) as (ts & T & _).
  pose proof (C74_output _ _ _ _ _ _ _ _ Hp T H) as B. destruct T as [_ E]. pose proof (lexed_weight (spec_or_default sp) src) as W. rewrite <- E in W.
  set (w := weight ts) in *. set (n := List.length src) in *. clearbody w n. clear -B W.
  assert ((1 + w) * (1 + w) <= (2 * (1 + n)) * (2 * (1 + n))) by (apply Nat.mul_le_mono; lia). lia.
Qed.
Print Assumptions C74_source.

(** ** The hypotheses are met *)
Local Notation C73_src := (tx "\sqrt[n]{\frac{a_1}{b^{c_d}}}").
Example C73_case : exists t, parse_source false 400 2 DEFAULT_SPEC C73_src = Ok t /\
  nodes t = 43 /\ levels t = 13 /\ List.length C73_src = 29 /\ nodes t <= 1 + 12 * List.length C73_src.
Proof.
  assert (D : match parse_source false 400 2 DEFAULT_SPEC C73_src with Ok t => nodes t = 43 /\ levels t = 13 | _ => False end) by (vm_compute; auto).
  destruct (parse_source false 400 2 DEFAULT_SPEC C73_src) as [t| |] eqn:E; try contradiction.
  exists t. destruct D as [D1 D2]. split; [reflexivity|]. split; [exact D1|]. split; [exact D2|]. split; [vm_compute; reflexivity|].
  exact (proj1 (C73_source _ _ _ _ _ (le_n 2) E)).
Qed.
Lemma C74_run m f page src ts o : 2 <= page -> expand_all f page engine_new DEFAULT_SPEC src = Ok ts ->
  convert_source true m f page src None = COk o ->
  tokens_of true page DEFAULT_SPEC src ts /\ List.length o <= 12 * 720 * (1 + weight ts) * (1 + weight ts).
Proof.
  intros Hp T H. apply expand_expanded in T; [|exact Hp]. split; [exact T|]. exact (C74_output true _ _ _ _ None _ _ Hp T H).
Qed.
(** with macros the output is to be compared with the expanded tokens: one call
    in another doubles the length *)
Definition C74_src := tx "\newcommand{\f}[1]{#1 #1}\f{\f{\f{x}}}".
Example C74_case : exists ts o, tokens_of true 2 DEFAULT_SPEC C74_src ts /\ weight ts = 30 /\
  convert_source true MMath 400 2 C74_src None = COk o /\ List.length o = 23 /\
  List.length o <= 12 * 720 * (1 + weight ts) * (1 + weight ts).
Proof.
  assert (D : match convert_source true MMath 400 2 C74_src None with COk o => List.length o = 23 | _ => False end) by (vm_compute; reflexivity).
  assert (G : match expand_all 400 2 engine_new DEFAULT_SPEC C74_src with Ok ts => weight ts = 30 | _ => False end) by (vm_compute; reflexivity).
  generalize C74_src, D, G; clear D G; intros src D G.
  destruct (convert_source true MMath 400 2 src None) as [o| | |] eqn:E; try contradiction.
  destruct (expand_all 400 2 engine_new DEFAULT_SPEC src) as [ts| |] eqn:T; try contradiction.
  destruct (C74_run _ _ _ _ _ _ (le_n 2) T E) as [T' B].
  exists ts, o. split; [exact T'|]. split; [exact G|]. split; [reflexivity|]. split; [exact D|]. exact B.
Qed.
