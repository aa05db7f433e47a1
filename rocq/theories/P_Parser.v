(** Properties C21-C28: the parser.  Vocabulary: [spells] (ParserText.v),
    [scripts_ok], [token_ok], [word_ok] (ParserTotal.v), the tree shapes of
    TreeSpec.v, [expanded] (ParserEnd.v). *)
From Verif Require Import P_Macro ParserEnd.
Local Open Scope nat_scope.

(** The parser of a source, with or without macro expansion, and the tokens it
    is given. *)
Definition parse_source (macros : bool) (fuel page : nat) (sp : spec) (src : text) : res tree :=
  if macros then parse_macro fuel page sp src else parse_without_macro fuel page sp src.
Definition tokens_of (macros : bool) (page : nat) (sp : spec) (src : text) (ts : list tok) : Prop :=
  if macros then expanded page sp src ts
  else stream_panics (lex_stream sp src) = false /\ ts = stream_toks (lex_stream sp src).

Lemma parse_source_reads m f page sp src t : 2 <= page -> parse_source m f page sp src = Ok t ->
  exists ts, tokens_of m page sp src ts /\ parse_list gm_real sp f ts = Ok t.
Proof.
  intros Hp H. destruct m; simpl in *; [now apply parse_macro_reads in H|].
  apply parse_plain_reads in H as [H1 H2]; [|lia]. eauto.
Qed.
Lemma tokens_words m page sp src ts : 2 <= page -> tokens_of m page sp src ts -> Forall word_ok ts.
Proof.
  intros Hp H. destruct m; [now apply expanded_words in H|]. destruct H as [_ ->]. apply lex_words.
Qed.
Lemma tokens_functional m page sp src t1 t2 : tokens_of m page sp src t1 -> tokens_of m page sp src t2 -> t1 = t2.
Proof. destruct m; [apply expanded_functional|]. intros [_ ->] [_ ->]. reflexivity. Qed.
Lemma tokens_page m p1 p2 sp src ts : 2 <= p1 -> 2 <= p2 -> tokens_of m p1 sp src ts -> tokens_of m p2 sp src ts.
Proof. intros H1 H2. destruct m; [now apply expanded_page|auto]. Qed.
Lemma parse_source_enough m page sp src ts : 2 <= page -> tokens_of m page sp src ts ->
  exists f0, forall f, f0 <= f -> parse_source m f page sp src = parse_list gm_real sp (parse_fuel ts) ts.
Proof.
  intros Hp H. destruct m; [now apply parse_macro_enough|]. destruct H as [H ->]. exists (parse_fuel (stream_toks (lex_stream sp src))).
  intros f Hf. simpl. rewrite parse_plain by (auto; lia). apply parse_enough; auto using lex_words.
Qed.

(* ------------------------------------------------------------------ *)
(** * C21  Parsing keeps all text in order *)

(** The leaves of the tree are the tokens, in order; what may be missing are
    the marks of skipped blocks, and blanks and comments before an argument. *)
Theorem C21_leaves : forall gm sp fuel ts t, parse_list gm sp fuel ts = Ok t ->
  spells (Exists (takes_right sp) ts) ts (leaves t).
Proof. intros gm sp fuel ts t H. apply (parse_shape _ _ _ _ _ H). Qed.
Print Assumptions C21_leaves.

(** the text of what is not a blank or a comment *)
Definition significant_toks (ts : list tok) : text :=
  flat_map (fun t => if is_trivia (fst t) then [] else snd t) ts.
Definition trivia_kind (k : kind) : bool :=
  match k with TokenLineBreak | TokenWhiteSpace | TokenComment => true | _ => false end.
Definition significant_leaves (ls : list (kind * text)) : text :=
  flat_map (fun l => if trivia_kind (fst l) then [] else snd l) ls.
Lemma trivia_kind_of k : trivia_kind (kind_of_token k) = is_trivia k.
Proof. destruct k; try reflexivity; try (destruct b; reflexivity); destruct c; reflexivity. Qed.

(** Without skipped blocks nothing but blanks and comments is lost ... *)
Theorem C21_significant_text : forall gm sp fuel ts t, parse_list gm sp fuel ts = Ok t ->
  Forall (fun t => ~ block_mark (fst t)) ts ->
  significant_leaves (leaves t) = significant_toks ts.
Proof.
  intros gm sp fuel ts t H. apply C21_leaves in H. revert H. generalize (leaves t). intros ls H.
  induction H as [|u us ls H IH|s us ls H IH|a b us ls Ha H IH|u us ls Hd H IH]; intros F; simpl; auto;
    try (inversion_clear F as [|? ? F1 F2]).
  - rewrite trivia_kind_of. now rewrite IH.
  - now rewrite IH.
  - rewrite IH by (constructor; auto; intros [X|[X|X]]; discriminate). simpl. now rewrite app_assoc.
  - destruct Hd as [Hd|[Hd _]]; [contradiction|]. rewrite Hd. simpl. auto.
Qed.
Print Assumptions C21_significant_text.
(** ... and if moreover no command or environment takes arguments, or there
    are no blanks and comments, the whole text is kept. *)
Theorem C21_exact_text : forall gm sp fuel ts t, parse_list gm sp fuel ts = Ok t ->
  Forall (fun t => ~ block_mark (fst t)) ts ->
  Forall (fun t => ~ takes_right sp t) ts \/ Forall (fun t => is_trivia (fst t) = false) ts ->
  leaves_text (leaves t) = toks_text ts.
Proof.
  intros gm sp fuel ts t H Fb Hor. apply C21_leaves in H. revert H Hor.
  assert (G : forall T ls us, spells T us ls -> Forall (fun t => ~ block_mark (fst t)) us ->
    ~ T \/ Forall (fun t => is_trivia (fst t) = false) us -> leaves_text ls = toks_text us).
  { intros T ls us H. induction H as [|u us ls H IH|s us ls H IH|a b us ls Ha H IH|u us ls Hd H IH]; intros F Hor; simpl; auto;
    inversion_clear F as [|? ? F1 F2];
    assert (Hor' : ~ T \/ Forall (fun t => is_trivia (fst t) = false) us)
      by (destruct Hor as [Hor|Hor]; [now left|right; now inversion_clear Hor]).
    - now rewrite IH.
    - now rewrite IH.
    - rewrite IH; [simpl; now rewrite app_assoc|constructor; auto; intros [X|[X|X]]; discriminate|].
      destruct Hor as [Hor|Hor]; [now left|right]. inversion_clear Hor. constructor; auto.
    - destruct Hd as [Hd|(Hd & HT & _)]; [contradiction|]. destruct Hor as [Hor|Hor]; [contradiction|].
      inversion_clear Hor as [|? ? Hk _]. congruence. }
  intros H Hor. apply (G _ _ _ H Fb). destruct Hor as [Hor|Hor]; [left|now right].
  intros X. apply Exists_exists in X as (x & Hx & Hx'). rewrite Forall_forall in Hor. exact (Hor x Hx Hx').
Qed.
Print Assumptions C21_exact_text.

(** For sources: the tokens are those of the source (C01), or of its expansion. *)
Theorem C21_source : forall macros fuel page sp src t, 2 <= page -> parse_source macros fuel page sp src = Ok t ->
  exists ts, tokens_of macros page sp src ts /\ spells (Exists (takes_right sp) ts) ts (leaves t).
Proof.
  intros m fuel page sp src t Hp H. apply parse_source_reads in H as (ts & H1 & H2); [|exact Hp].
  eauto using C21_leaves.
Qed.
Print Assumptions C21_source.
(** ... without environments, commands with arguments or skipped blocks, every
    character of the source is in the tree. *)
Theorem C21_source_text : forall fuel page sp src t, 2 <= page -> parse_without_macro fuel page sp src = Ok t ->
  Forall (fun t => ~ block_mark (fst t) /\ ~ takes_right sp t /\
    fst t <> CommandName BeginEnvironment /\ fst t <> CommandName EndEnvironment) (stream_toks (lex_stream sp src)) ->
  leaves_text (leaves t) = src.
Proof.
  intros fuel page sp src t Hp H F. apply parse_plain_reads in H as [H1 H2]; [|lia].
  rewrite (C21_exact_text _ _ _ _ _ H2).
  - destruct (lex_lossless sp src) as (raws & rest & E & H3 & H4). rewrite (H4 H1), app_nil_r in E. rewrite E at 2. clear -H3 F.
    induction H3 as [|u raw ts raws H3 _ IH]; simpl; [reflexivity|].
    inversion_clear F as [|? ? (_ & _ & Fb & Fe) F2]. rewrite IH by assumption. f_equal.
    destruct H3 as [_ H3]. destruct (fst u); auto. destruct c; auto; contradiction.
  - eapply Forall_impl; [|exact F]; intros x Hx; cbn beta in Hx; tauto.
  - left. eapply Forall_impl; [|exact F]; intros x Hx; cbn beta in Hx; tauto.
Qed.
Print Assumptions C21_source_text.
Example C21_example :
  (exists t, parse_without_macro 300 PAGE DEFAULT_SPEC (tx "a_b^{\alpha +1} & $x'$ \\ %c") = Ok t /\
     leaves_text (leaves t) = tx "a_b^{\alpha +1} & $x'$ \\ %c") /\
  (exists t, parse_without_macro 300 PAGE DEFAULT_SPEC (tx "\frac x {y} &") = Ok t /\ leaves_text (leaves t) = tx "\fracx{y} &").
Proof. split; (eexists; split; [vm_compute; reflexivity|reflexivity]). Qed.

(* ------------------------------------------------------------------ *)
(** * C22  Parsing terminates *)

(** The fuel bounds the depth of calls and loop iterations; an amount linear in
    the number of tokens and characters always suffices. *)
Theorem C22_tokens : forall gm sp fuel ts, Forall word_ok ts ->
  2 * fold_right (fun t n => 1 + List.length (snd t) + n) 0 ts + 4 <= fuel -> parse_list gm sp fuel ts <> Fuel.
Proof. intros gm sp fuel ts H F. now apply parse_stops. Qed.
Print Assumptions C22_tokens.
(** more fuel never changes the answer *)
Theorem C22_stable : forall gm sp f1 f2 ts, Forall word_ok ts ->
  2 * fold_right (fun t n => 1 + List.length (snd t) + n) 0 ts + 4 <= f1 -> f1 <= f2 ->
  parse_list gm sp f2 ts = parse_list gm sp f1 ts.
Proof. intros gm sp f1 f2 ts H F L. eapply parse_fuel_mono; [reflexivity|now apply parse_stops|exact L]. Qed.
Print Assumptions C22_stable.
Lemma lexed_size sp src : toks_size (stream_toks (lex_stream sp src)) <= 2 * List.length src.
Proof.
  destruct (lex_lossless sp src) as (raws & rest & E & H & _). rewrite E at 2. rewrite app_length. clear E.
  set (ts := stream_toks _) in *. clearbody ts.
  assert (toks_size ts <= 2 * List.length (List.concat raws)); [|lia].
  induction H as [|u raw ts raws H _ IH]; simpl; [lia|]. rewrite app_length.
  destruct H as [Hne H]. destruct raw as [|c raw]; [contradiction|].
  assert (L : List.length (snd u) <= List.length (c :: raw)); [|simpl in *; lia].
  destruct (fst u); try (rewrite H; lia).
  destruct c0; try (rewrite H; lia); destruct H as (p & q & ->); rewrite !app_length; lia.
Qed.
(** For a source text: linear in its length; with macros, whenever the expansion stops (see C17). *)
Theorem C22_source : forall fuel page sp src, 0 < page -> stream_panics (lex_stream sp src) = false ->
  4 * List.length src + 4 <= fuel -> parse_without_macro fuel page sp src <> Fuel.
Proof.
  intros fuel page sp src Hp Hs F. rewrite parse_plain by assumption. apply parse_stops; [apply lex_words|].
  pose proof (lexed_size sp src). unfold parse_fuel. lia.
Qed.
Print Assumptions C22_source.
Theorem C22_source_macros : forall page sp src ts, 2 <= page -> expanded page sp src ts ->
  exists f0, forall f, f0 <= f -> parse_macro f page sp src <> Fuel.
Proof.
  intros page sp src ts Hp H. destruct (parse_macro_enough _ _ _ _ Hp H) as [f0 Hf]. exists f0. intros f L.
  rewrite (Hf f L). apply parse_stops; [now apply expanded_words in H|lia].
Qed.
Print Assumptions C22_source_macros.
Example C22_example : exists t, parse_without_macro (4 * 24 + 4) PAGE DEFAULT_SPEC (tx "\left( \sum_{i=1}^n x \} ") = Ok t.
Proof. eexists. vm_compute. reflexivity. Qed.

(* ------------------------------------------------------------------ *)
(** * C23  Parsing never panics *)

(** It does: ... *)
Theorem C23_refuted :
  (exists site, parse_without_macro 300 PAGE DEFAULT_SPEC (tx "{x}{a}_\over b") = Panic site) /\
  (exists site, parse_without_macro 300 PAGE DEFAULT_SPEC (tx " _\limits") = Panic site).
Proof. split; eexists; vm_compute; reflexivity. Qed.
Print Assumptions C23_refuted.
(** ... but only if a postfix or infix command directly follows a script
    marker (or an environment is specified to take greedy arguments). *)
Theorem C23_tokens_partial : forall gm sp fuel ts,
  Forall word_ok ts -> Forall (token_ok sp) ts -> scripts_ok sp ts -> parse_fuel ts <= fuel ->
  exists t, parse_list gm sp fuel ts = Ok t.
Proof. exact parse_total. Qed.
Print Assumptions C23_tokens_partial.

Definition slashed (t : tok) : Prop :=
  kind_of_token (fst t) = ClauseCommandName -> exists name, snd t = 92%N :: name.
Lemma lex_command_slash sp start t raw rest : lex_command_name sp start = LTok t raw rest -> slashed t.
Proof.
  intros H. apply lex_command_name_tok in H as [E [Hne H]]. intros Hk.
  destruct (kind_command _ Hk) as [c Ec]. rewrite Ec in *.
  assert (R : raw = snd t) by (destruct c; try exact H; discriminate).
  destruct raw as [|x raw]; [contradiction|]. injection E as <- _. eauto.
Qed.
Lemma lex_slash sp src : Forall slashed (stream_toks (lex_stream sp src)).
Proof.
  induction src as [src IH] using (lex_stream_ind sp). rewrite lex_stream_eq.
  destruct (lex_one sp src) as [|s|t raw rest] eqn:E; simpl; constructor.
  - destruct src as [|c r]; [discriminate|]. unfold lex_one in E.
    destruct (is_crlf c). { destruct (span is_crlf (c :: r)). injection E as <- _ _. discriminate. }
    destruct (is_whitespace c). { destruct (span is_blank (c :: r)). injection E as <- _ _. discriminate. }
    destruct (c =? 37)%N. { destruct (span _ (c :: r)). injection E as <- _ _. discriminate. }
    destruct (c =? 36)%N. { destruct r as [|c' r']; [|destruct (c' =? 36)%N]; injection E as <- _ _; discriminate. }
    destruct (c =? 92)%N.
    { destruct r as [|c' r']; [|destruct (c' =? 92)%N]; try (exact (lex_command_slash _ _ _ _ _ E)). injection E as <- _ _. discriminate. }
    destruct (punct_token c) as [k|] eqn:Ep.
    + injection E as <- _ _. intros Hk. exfalso. destruct (kind_command _ Hk) as [x Ex]. exact (punct_not_cmd _ _ Ep x Ex).
    + destruct (span is_word_char (c :: r)). injection E as <- _ _. discriminate.
  - apply lex_one_tok in E as [-> [Hne _]]. apply IH. rewrite app_length. destruct raw; [contradiction|]. simpl. lia.
Qed.
Lemma tokens_slash m page sp src ts : 2 <= page -> tokens_of m page sp src ts -> Forall slashed ts.
Proof.
  intros Hp H. destruct m; [|destruct H as [_ ->]; apply lex_slash].
  destruct H as [f H]. eapply (expand_keeps slashed); [exact Hp| | | | | |exact (H f (le_n _))]; try (intros; intros Hk; simpl in *; discriminate).
  - intros _. eexists. reflexivity.
  - apply lex_slash.
Qed.
(** no environment of the specification takes greedy arguments *)
Definition no_greedy_environments (sp : spec) : Prop :=
  forall name, option_map en_args (get_env sp name) <> Some PGreedy.
(** For sources *)
Theorem C23_source_partial : forall macros page sp src ts, 2 <= page -> tokens_of macros page sp src ts ->
  no_greedy_environments sp -> scripts_ok sp ts ->
  exists t f0, forall f, f0 <= f -> parse_source macros f page sp src = Ok t.
Proof.
  intros m page sp src ts Hp Ht Hg Hs.
  destruct (parse_total gm_real sp (parse_fuel ts) ts) as [t E]; [now apply tokens_words in Ht| |exact Hs|lia|].
  - apply tokens_slash in Ht; [|exact Hp]. eapply Forall_impl; [|exact Ht]. intros u Hu. split; [exact Hu|]. intros _. apply Hg.
  - destruct (parse_source_enough _ _ _ _ _ Hp Ht) as [f0 Hf]. exists t, f0. intros f L. now rewrite (Hf f L).
Qed.
Print Assumptions C23_source_partial.
(** The built-in specification has no such environment. *)
Theorem C23_default_spec : no_greedy_environments DEFAULT_SPEC.
Proof.
  assert (A : forallb (fun p => match snd p with SIEnv e => match en_args e with PGreedy => false | _ => true end | SICmd _ => true end)
    default_items = true) by (vm_compute; reflexivity).
  intros name. unfold get_env, DEFAULT_SPEC, spec_of. revert A. generalize default_items. intros l A.
  induction l as [|[k v] l IH]; [discriminate|]. cbn [forallb snd] in A. apply andb_prop in A as [A1 A2].
  cbn [assoc]. destruct (teqb name k); [|now apply IH]. destruct v as [c|e]; [discriminate|]. simpl.
  destruct (en_args e); discriminate.
Qed.
Print Assumptions C23_default_spec.
(** A decidable form of the condition, for examples *)
Definition takes_left_b (sp : spec) (t : tok) : bool :=
  match fst t, snd t with
  | CommandName _, 92%N :: name =>
    match get_cmd sp name with
    | Some c => match cs_args c with SLeft1 | SInfixGreedy => true | SRight _ => false end
    | None => false
    end
  | _, _ => false
  end.
Fixpoint scripts_ok_b (sp : spec) (ts : list tok) : bool :=
  match ts with
  | [] => true
  | t :: r => (negb (is_script (fst t)) || match skip_trivia r with u :: _ => negb (takes_left_b sp u) | [] => true end) && scripts_ok_b sp r
  end.
Lemma scripts_ok_b_spec sp ts : scripts_ok_b sp ts = true -> scripts_ok sp ts.
Proof.
  induction ts as [|t r IH]; simpl; [auto|]. intros H. apply andb_prop in H as [H1 H2]. split; [|auto].
  intros Hs. rewrite Hs in H1. simpl in H1. destruct (skip_trivia r) as [|u r']; [exact I|].
  intros (Hk & name & En & Hc). destruct (kind_command _ Hk) as [c Ec]. unfold takes_left_b in H1. rewrite Ec, En in H1.
  destruct (get_cmd sp name) as [x|]; simpl in Hc; [|destruct Hc; discriminate].
  destruct (cs_args x); simpl in *; destruct Hc; discriminate.
Qed.
Example C23_example : scripts_ok DEFAULT_SPEC
  (stream_toks (lex_stream DEFAULT_SPEC (tx "\sum\limits_{i=1}^\infty {a \over b_ \frac12}"))).
Proof. apply scripts_ok_b_spec. vm_compute. reflexivity. Qed.

(* ------------------------------------------------------------------ *)
(** * C24  Command nodes respect the specification *)

Lemma every_impl (P Q : kind -> list tree -> Prop) t : (forall k ch, P k ch -> Q k ch) -> every P t -> every Q t.
Proof.
  intros H. induction t as [k s|k ch IH] using tree_ind2; [auto|]. rewrite !every_node. intros [H1 H2]. split; [auto|].
  revert IH H2. clear. induction ch as [|t ch IHc]; intros F1 F2; constructor; inversion_clear F1; inversion_clear F2; auto.
Qed.
Theorem C24_commands : forall gm sp fuel ts t, parse_list gm sp fuel ts = Ok t ->
  every (fun k ch => k = ItemCmd -> exists name,
    command_ok gm (option_map cs_args (get_cmd sp name)) (92%N :: name) ch) t.
Proof.
  intros gm sp fuel ts t H. apply parse_shape in H as [H _]. eapply every_impl; [|exact H].
  intros k ch Hn Hk. destruct Hn; try discriminate; eauto; subst k.
  destruct H0 as [H0|[H0|[H0|[H0|[H0|[]]]]]]; discriminate.
Qed.
Print Assumptions C24_commands.
(** the same for the arguments of environments *)
Theorem C24_environments : forall gm sp fuel ts t, parse_list gm sp fuel ts = Ok t ->
  every (fun k ch => k = ItemBegin -> exists name args, ch = Leaf TokenCommandSym name :: args /\
    match option_map en_args (get_env sp name) with None => args = [] | Some p => arguments_ok gm p args end) t.
Proof.
  intros gm sp fuel ts t H. apply parse_shape in H as [H _]. eapply every_impl; [|exact H].
  intros k ch Hn Hk. destruct Hn; try discriminate; eauto; subst k.
  destruct H0 as [H0|[H0|[H0|[H0|[H0|[]]]]]]; discriminate.
Qed.
Print Assumptions C24_environments.
(** In numbers: at most [n] arguments for an [n]-ary command, each once in the
    tree as a child after the name. *)
Theorem C24_arity : forall gm sp fuel ts t, parse_list gm sp fuel ts = Ok t ->
  every (fun k ch => k = ItemCmd -> exists name, In (Leaf ClauseCommandName (92%N :: name)) ch /\
    match option_map cs_args (get_cmd sp name) with
    | None | Some (SRight PNone) => List.length ch = 1
    | Some (SRight (PFixed n)) | Some (SRight (PRange _ n)) => (N.of_nat (List.length ch) <= n + 1)%N
    | Some (SRight PGreedy) => List.length ch = 2
    | Some (SRight (PGlob re)) => List.length ch = 1 \/ gm re (map argument_kind (tl ch)) = true
    | Some SLeft1 => List.length ch <= 2
    | Some SInfixGreedy => 2 <= List.length ch <= 3
    end) t.
Proof.
  intros gm sp fuel ts t H. apply C24_commands in H. eapply every_impl; [|exact H].
  intros k ch Hc Hk. destruct (Hc Hk) as [name Hn]. exists name. clear - Hn.
  remember (option_map cs_args (get_cmd sp name)) as o. clear Heqo.
  destruct Hn as [s|p s args Ha|s a Ha|s|s a|s a Ha|s l a Ha]; (split; [simpl; auto|]); simpl; try lia; try reflexivity.
  destruct Ha as [_ Ha]. destruct p; simpl in Ha.
  - apply map_eq_nil in Ha. now subst.
  - destruct Ha as [_ Ha]. rewrite map_length in Ha. lia.
  - destruct Ha as [_ Ha]. rewrite map_length in Ha. lia.
  - contradiction.
  - destruct args as [|a args]; [now left|right]. apply (Ha _ []); [symmetry; apply app_nil_r|discriminate].
Qed.
Print Assumptions C24_arity.
Theorem C24_source : forall macros fuel page sp src t, 2 <= page -> parse_source macros fuel page sp src = Ok t ->
  every (fun k ch => k = ItemCmd -> exists name,
    command_ok gm_real (option_map cs_args (get_cmd sp name)) (92%N :: name) ch) t.
Proof. intros m fuel page sp src t Hp H. apply parse_source_reads in H as (ts & _ & H); eauto using C24_commands. Qed.
Print Assumptions C24_source.
Example C24_example : exists x, parse_without_macro 300 PAGE DEFAULT_SPEC (tx "\frac a {b} c") = Ok
  (Node ScopeRoot [Node ItemCmd [Leaf ClauseCommandName (tx "\frac"); Node ClauseArgument [Leaf TokenWord (tx "a")];
     Node ClauseArgument x]; Leaf TokenWhiteSpace (tx " "); Node ItemText [Leaf TokenWord (tx "c")]]).
Proof. eexists. vm_compute. reflexivity. Qed.

(* ------------------------------------------------------------------ *)
(** * C25  Nodes are well formed *)

Theorem C25_well_formed : forall gm sp fuel ts t, parse_list gm sp fuel ts = Ok t ->
  wf_tree gm sp t /\ tkind t = ScopeRoot.
Proof. intros gm sp fuel ts t H. apply parse_shape in H. tauto. Qed.
Print Assumptions C25_well_formed.
(** In particular: *)
Definition opener (k : kind) (t : tree) : Prop :=
  exists s, match k with
  | ItemCurly => t = Leaf TokenLBrace s
  | ItemBracket => t = Leaf TokenLBracket s
  | ItemParen => t = Leaf TokenLParen s
  | ItemFormula => t = Leaf TokenDollar s \/ t = Leaf TokenBeginMath s
  | ItemEnv => exists args, t = Node ItemBegin (Leaf TokenCommandSym s :: args)
  | ItemLR => exists c, t = Node ClauseLR (Leaf ClauseCommandName s :: c)
  | _ => True
  end.
Definition closer (k : kind) (t : tree) : Prop :=
  exists s, match k with
  | ItemCurly => t = Leaf TokenRBrace s
  | ItemBracket => t = Leaf TokenRBracket s
  | ItemParen => t = Leaf TokenRParen s
  | ItemFormula => t = Leaf TokenDollar s \/ t = Leaf TokenEndMath s
  | ItemEnv => t = Node ItemEnd [Leaf TokenCommandSym s]
  | ItemLR => exists c, t = Node ClauseLR (Leaf ClauseCommandName s :: c)
  | _ => False
  end.
Definition bracketed (k : kind) : Prop := In k [ItemCurly; ItemBracket; ItemParen; ItemFormula; ItemEnv; ItemLR].
(** every group, formula, environment or left-right pair is its opening
    delimiter, items, and then nothing or its closing delimiter; the items are
    no delimiters, names or arguments of their own ([item]) *)
Theorem C25_delimited : forall gm sp fuel ts t, parse_list gm sp fuel ts = Ok t ->
  every (fun k ch => bracketed k -> exists o body close, ch = o :: body ++ close /\ opener k o /\
    Forall item body /\ (close = [] \/ exists c, close = [c] /\ closer k c)) t.
Proof.
  intros gm sp fuel ts t H. apply parse_shape in H as (H & _).
  assert (G : forall k ch, node_ok gm sp k ch -> Forall (wf_tree gm sp) ch -> bracketed k -> exists o body close, ch = o :: body ++ close /\ opener k o /\
    Forall item body /\ (close = [] \/ exists c, close = [c] /\ closer k c)).
  { intros k ch Hn Hw Hk.
    destruct Hn; try (exfalso; cbn in Hk; intuition discriminate).
    - exists (Leaf o s), body, close. split; [reflexivity|].
      destruct H0 as [E|[E|[E|[E|[E|[]]]]]]; injection E as <- <- <-;
        (split; [exists s; auto|]); (split; [assumption|]);
        (destruct H2 as [-> | ->]; [now left|right; eexists; split; [reflexivity|]; exists s'; auto]).
    - eexists _, body, close. split; [reflexivity|]. split; [exists name; eexists; reflexivity|]. split; [assumption|].
      destruct H2 as [-> | ->]; [now left|right]. eexists. split; [reflexivity|]. now exists s'.
    - assert (C : forall c, wf_tree gm sp (Node ClauseLR c) -> exists s c', c = Leaf ClauseCommandName s :: c').
      { intros c Hc. apply every_node in Hc as [Hc _]. remember ClauseLR as k0. destruct Hc; try discriminate; eauto; subst k.
        destruct H2 as [E|[E|[E|[E|[E|[]]]]]]; discriminate. }
      inversion_clear Hw as [|? ? W1 W2]. destruct (C _ W1) as (s & c' & ->).
      eexists _, body, close. split; [reflexivity|]. split; [exists s; eauto|]. split; [assumption|].
      destruct H1 as [-> |[c2 ->]]; [now left|right]. apply Forall_app in W2 as [_ W2]. inversion_clear W2 as [|? ? W3 _].
      destruct (C _ W3) as (s2 & c2' & ->). eexists. split; [reflexivity|]. exists s2. eauto. }
  clear ts fuel. induction t as [k s|k ch IH] using tree_ind2; [exact I|]. unfold wf_tree in H. apply every_node in H as [H1 H2].
  apply every_node. split; [now apply G|]. revert IH H2. clear. induction ch as [|t ch IHc]; intros F1 F2; constructor; inversion_clear F1; inversion_clear F2; auto.
Qed.
Print Assumptions C25_delimited.
(** every script node contains its marker, directly or in the script or
    left-taking command it consists of *)
Theorem C25_scripts : forall gm sp fuel ts t, parse_list gm sp fuel ts = Ok t ->
  every (fun k ch => k = ItemAttachComponent ->
    (exists a s, ch = [Node ClauseArgument a; Leaf TokenApostrophe s]) \/
    (exists a k s tr body, ch = a ++ Leaf k s :: tr ++ body /\ (a = [] \/ exists c, a = [Node ClauseArgument c]) /\
       (k = TokenUnderscore \/ k = TokenCaret) /\ Forall trivia_leaf tr /\ Forall item body) \/
    (exists k' c, ch = [Node k' c] /\ (k' = ItemAttachComponent \/ k' = ItemCmd))) t.
Proof.
  intros gm sp fuel ts t H. apply parse_shape in H as [H _]. eapply every_impl; [|exact H].
  intros k ch Hn Hk. destruct Hn; try discriminate.
  - subst k. destruct H0 as [E|[E|[E|[E|[E|[]]]]]]; discriminate.
  - left. eauto.
  - right. left. exists a, k, s, tr, body. repeat split; auto. destruct H1 as [<-|[<-|[]]]; auto.
  - right. right. destruct H0 as (ch & [-> | ->]); eauto.
Qed.
Print Assumptions C25_scripts.
Example C25_example : exists a b, parse_without_macro 300 PAGE DEFAULT_SPEC (tx "\begin{matrix}\left(a\right)_b\end{matrix}") = Ok
  (Node ScopeRoot [Node ItemEnv [Node ItemBegin [Leaf TokenCommandSym (tx "matrix")];
     Node ItemAttachComponent [Node ClauseArgument a; Leaf TokenUnderscore (tx "_"); Leaf TokenWord b];
     Node ItemEnd [Leaf TokenCommandSym (tx "matrix")]]]).
Proof. eexists _, _. vm_compute. reflexivity. Qed.

(* ------------------------------------------------------------------ *)
(** * C26  Parsing depends only on the token sequence *)

Theorem C26_tokens : forall macros fuel page sp src t, 2 <= page -> parse_source macros fuel page sp src = Ok t ->
  exists ts, tokens_of macros page sp src ts /\ parse_list gm_real sp fuel ts = Ok t.
Proof. exact parse_source_reads. Qed.
Print Assumptions C26_tokens.
Theorem C26_plain : forall fuel page sp src, 0 < page -> stream_panics (lex_stream sp src) = false ->
  parse_without_macro fuel page sp src = parse_list gm_real sp fuel (stream_toks (lex_stream sp src)).
Proof. exact parse_plain. Qed.
Print Assumptions C26_plain.
Theorem C26_macros : forall page sp src ts, 2 <= page -> expanded page sp src ts ->
  exists f0, forall f, f0 <= f -> parse_macro f page sp src = parse_list gm_real sp (parse_fuel ts) ts.
Proof. exact parse_macro_enough. Qed.
Print Assumptions C26_macros.
(** hence the size of the look-ahead buffer does not matter *)
Theorem C26_page : forall macros f1 p1 p2 sp src t, 2 <= p1 -> 2 <= p2 -> parse_source macros f1 p1 sp src = Ok t ->
  exists f0, forall f, f0 <= f -> parse_source macros f p2 sp src = Ok t.
Proof.
  intros m f1 p1 p2 sp src t H1 H2 H. apply parse_source_reads in H as (ts & Ht & H); [|exact H1].
  pose proof (tokens_page _ _ _ _ _ _ H1 H2 Ht) as Ht2. destruct (parse_source_enough _ _ _ _ _ H2 Ht2) as [f0 Hf].
  exists f0. intros f L. rewrite (Hf f L). pose proof (tokens_words _ _ _ _ _ H1 Ht) as Hw.
  destruct (le_ge_dec f1 (parse_fuel ts)) as [G|G].
  - eapply parse_fuel_mono; [exact H|discriminate|exact G].
  - rewrite <- H. symmetry. now apply parse_enough.
Qed.
Print Assumptions C26_page.
(** ... and a source without macros and conditionals gives the same tree with
    and without macro expansion (C08, end to end) *)
Theorem C08_parse : forall page sp src, 2 <= page ->
  stream_panics (lex_stream sp src) = false ->
  Forall (inert engine_new) (stream_toks (lex_stream sp src)) ->
  exists f0, forall f, f0 <= f -> parse_macro f page sp src = parse_without_macro f page sp src.
Proof.
  intros page sp src Hp Hs Hi. destruct (C08_source page sp src Hp Hs Hi) as [f0 Hf]. exists f0. intros f L.
  rewrite (parse_expanded _ _ _ _ _ (Hf f L)), parse_plain by (auto; lia). reflexivity.
Qed.
Print Assumptions C08_parse.
Example C26_example : exists ts, expanded 2 DEFAULT_SPEC (tx "\newcommand{\f}[1]{#1^2}\f{x}") ts /\ expanded 170 DEFAULT_SPEC (tx "\newcommand{\f}[1]{#1^2}\f{x}") ts
  /\ toks_text ts = tx "x^2".
Proof.
  assert (E : exists ts, expand_all 100 2 engine_new DEFAULT_SPEC (tx "\newcommand{\f}[1]{#1^2}\f{x}") = Ok ts /\ toks_text ts = tx "x^2").
  { eexists. split; [vm_compute; reflexivity|reflexivity]. }
  destruct E as (ts & E & Et). exists ts. apply expand_expanded in E; [|lia]. split; [exact E|].
  split; [|exact Et]. eapply expanded_page; [| |exact E]; lia.
Qed.

(* ------------------------------------------------------------------ *)
(** * C27  Only names that occur matter *)

Theorem C27_tokens : forall gm sp1 sp2 fuel ts,
  (forall t name, In t ts -> names t name -> same_args sp1 sp2 name) ->
  parse_list gm sp1 fuel ts = parse_list gm sp2 fuel ts.
Proof. exact parse_agree. Qed.
Print Assumptions C27_tokens.
(** For sources: the specifications need agree only on the parts of the text
    (and on [fi], which the expansion of conditionals may insert). *)
Theorem C27_source : forall macros fuel page sp1 sp2 src t, 2 <= page ->
  (forall name, occurs name src -> same_known sp1 sp2 name /\ same_args sp1 sp2 name) ->
  (macros = true -> same_args sp1 sp2 (tx "fi")) ->
  parse_source macros fuel page sp1 src = Ok t ->
  exists f0, forall f, f0 <= f -> parse_source macros f page sp2 src = Ok t.
Proof.
  intros m fuel page sp1 sp2 src t Hp Hn Hfi H. apply parse_source_reads in H as (ts & Ht & H); [|exact Hp].
  pose proof (lex_agree sp1 sp2 src (fun n Hx => proj1 (Hn n Hx))) as El.
  assert (Ht2 : tokens_of m page sp2 src ts).
  { destruct m; simpl in *; [|now rewrite <- El]. destruct Ht as [f0 Ht]. exists f0. intros f L. specialize (Ht f L).
    unfold expand_all in *. now rewrite <- El. }
  assert (A : forall u name, In u ts -> names u name -> same_args sp1 sp2 name).
  { assert (P : Forall (fun u => forall name, names u name -> same_args sp1 sp2 name) (stream_toks (lex_stream sp1 src))).
    { apply Forall_forall. intros u Hu name Hx. apply Hn. eapply lex_names; eassumption. }
    assert (Q : Forall (fun u => forall name, names u name -> same_args sp1 sp2 name) ts).
    { destruct m; simpl in *.
      - destruct Ht as [f0 Ht]. specialize (Ht f0 (le_n _)).
        eapply (expand_keeps (fun u => forall name, names u name -> same_args sp1 sp2 name));
          [exact Hp| | | | |exact P|exact Ht].
        + intros c s name [[k E]|E]; discriminate.
        + intros h n _ name [[k E]|E]; discriminate.
        + intros s name [[k E]|E]; discriminate.
        + intros name [[k E]|E]; [|discriminate]. injection E as _ E. rewrite <- E. now apply Hfi.
      - destruct Ht as [_ ->]. exact P. }
    intros u name Hu. rewrite Forall_forall in Q. now apply Q. }
  rewrite (parse_agree _ sp1 sp2 _ _ A) in H.
  destruct (parse_source_enough _ _ _ _ _ Hp Ht2) as [f0 Hf]. exists f0. intros f L. rewrite (Hf f L).
  pose proof (tokens_words _ _ _ _ _ Hp Ht2) as Hw.
  destruct (le_ge_dec fuel (parse_fuel ts)) as [G|G].
  - eapply parse_fuel_mono; [exact H|discriminate|exact G].
  - rewrite <- H. symmetry. now apply parse_enough.
Qed.
Print Assumptions C27_source.
Example C27_example : let sp2 := fun n => if teqb n (tx "frac") then None else DEFAULT_SPEC n in
  forall name, occurs name (tx "a_b") -> same_known DEFAULT_SPEC sp2 name /\ same_args DEFAULT_SPEC sp2 name.
Proof.
  intros sp2 name (a & b & E).
  assert (N : teqb name (tx "frac") = false).
  { destruct (teqb name (tx "frac")) eqn:Ef; [|reflexivity]. apply teqb_eq in Ef. subst name.
    apply (f_equal (@List.length N)) in E. rewrite !app_length in E. simpl in E. lia. }
  unfold same_known, same_args, get_cmd, get_env, sp2. rewrite N. split; [reflexivity|split; reflexivity].
Qed.

(* ------------------------------------------------------------------ *)
(** * C28  Alignment marks and row separators end arguments *)

(** An argument to the right of a command name, or of [\begin], contains no
    alignment mark at its own level. *)
Theorem C28_alignment : forall gm sp fuel ts t, parse_list gm sp fuel ts = Ok t ->
  every (fun k ch =>
    (k = ItemCmd -> forall pre s post, ch = pre ++ Leaf ClauseCommandName s :: post -> Forall right_argument post) /\
    (k = ItemBegin -> Forall right_argument (tl ch))) t.
Proof.
  intros gm sp fuel ts t H. pose proof (C24_commands _ _ _ _ _ H) as Hc. pose proof (C24_environments _ _ _ _ _ H) as He.
  clear H. induction t as [k s|k ch IH] using tree_ind2; [exact I|].
  apply every_node in Hc as [Hc Fc]. apply every_node in He as [He Fe]. apply every_node. split.
  - split.
    + intros Hk pre s post E. destruct (Hc Hk) as [name Hn]. clear - Hn E.
      remember (option_map cs_args (get_cmd sp name)) as o. clear Heqo.
      assert (R : forall l : list tree, (forall k s, ~ In (Leaf k s) l) -> forall pre0 s0 post0 x, Leaf ClauseCommandName s0 :: l = pre0 ++ Leaf ClauseCommandName x :: post0 -> post0 = l).
      { intros l Hl pre0 s0 post0 x E0. destruct pre0 as [|y pre0]; injection E0; [auto|]. intros E1 _. exfalso.
        apply (Hl ClauseCommandName x). rewrite E1. apply in_or_app. right. now left. }
      destruct Hn as [s1|p s1 args [Ha _]|s1 a Ha|s1|s1 a|s1 a Ha|s1 l a Ha].
      * rewrite (R [] (fun _ _ x => x) _ _ _ _ E). constructor.
      * assert (Hl : forall (k : kind) (s : text), ~ In (Leaf k s) args).
        { intros k0 s0 Hi. rewrite Forall_forall in Ha. exact (Ha _ Hi). }
        rewrite (R args Hl _ _ _ _ E). exact Ha.
      * rewrite (R [Node ClauseArgument a] ltac:(intros k0 s0 [X|[]]; discriminate) _ _ _ _ E). constructor; [exact Ha|constructor].
      * rewrite (R [] (fun _ _ x => x) _ _ _ _ E). constructor.
      * destruct pre as [|y pre]; [discriminate|]. injection E as _ E.
        rewrite (R [] (fun _ _ x => x) _ _ _ _ E). constructor.
      * rewrite (R [Node ClauseArgument a] ltac:(intros k0 s0 [X|[]]; discriminate) _ _ _ _ E). constructor; [exact Ha|constructor].
      * destruct pre as [|y pre]; [discriminate|]. injection E as _ E.
        rewrite (R [Node ClauseArgument a] ltac:(intros k0 s0 [X|[]]; discriminate) _ _ _ _ E). constructor; [exact Ha|constructor].
    + intros Hk. destruct (He Hk) as (name & args & -> & Ha). simpl.
      destruct (option_map en_args (get_env sp name)); [apply Ha|subst; constructor].
  - revert IH Fc Fe. clear. induction ch as [|t ch IHc]; intros F1 F2 F3; constructor; inversion_clear F1; inversion_clear F2; inversion_clear F3; auto.
Qed.
Print Assumptions C28_alignment.
(** Inside an environment, the argument to the right of a greedy command
    contains no row separator at its own level. *)
Theorem C28_rows : forall gm sp fuel ts t, parse_list gm sp fuel ts = Ok t ->
  every (fun k ch => k = ItemEnv -> Forall (rows_ok sp) (tl ch)) t.
Proof.
  intros gm sp fuel ts t H. apply parse_shape in H as [H _]. eapply every_impl; [|exact H].
  intros k ch Hn Hk. destruct Hn; try discriminate.
  - subst k. destruct H0 as [E|[E|[E|[E|[E|[]]]]]]; discriminate.
  - simpl. apply Forall_app. split; [assumption|]. destruct H2 as [-> | ->]; [constructor|]. constructor; [exact I|constructor].
Qed.
Print Assumptions C28_rows.
Example C28_example : exists a b c, parse_without_macro 300 PAGE DEFAULT_SPEC (tx "\begin{matrix}\displaystyle a & b \\ c\end{matrix}") = Ok
  (Node ScopeRoot [Node ItemEnv ([Node ItemBegin [Leaf TokenCommandSym (tx "matrix")];
     Node ItemCmd [Leaf ClauseCommandName (tx "\displaystyle"); Node ClauseArgument a];
     Leaf TokenAmpersand (tx "&")] ++ b ++ Leaf ItemNewLine (tx "\\") :: c)]) /\ a <> [].
Proof.
  eexists _, [_; _], _. split; [vm_compute; reflexivity|discriminate].
Qed.
