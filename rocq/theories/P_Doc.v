(** C54: what documents are translated to, end to end. *)
From Verif Require Import Api P_Lex P_Macro P_Macro2 ParserSource ParserEnd P_Parser P_Conv3 DocParse.
Local Open Scope nat_scope.

Lemma document_parse gm sp l : wf_document sp gm l = true ->
  exists D, ev (fun n => parse_list gm sp n (document_tokens l) = Ok (Node ScopeRoot D)) /\ meansl sp D (list_den sp (parts sp l)).
Proof.
  intros Hw.
  destruct (list_ev gm sp l Free Root [] [(ScopeRoot, 0)] [] None None Root) as (D & Hev & HD); try assumption; try exact I.
  - apply (lists_ok gm sp (S (lsize l))). lia.
  - cbn. tauto.
  - cbn. lia.
  - exists D. split; [|now apply pieces_means]. unfold parse_list, parse.
    eapply ev_bind; [exact Hev|]. apply ev_all. intros n. cbn [app].
    exact (f_equal (fun r => bind r (fun st => b_finish (p_b st))) (finish_step ScopeRoot D ([] : list tok) [] [] [] None None Root)).
Qed.

(** * C54  Documents are converted to their translation *)
(** For every document of the grammar (of any length and depth) that is
    well-formed for the command specification: converting a source that has its
    tokens (once macros are expanded) gives its translation -- or the error that
    the translation says.  In text mode and in math mode, with and without
    macros. *)
Theorem C54_document : forall macros m page src l, 2 <= page ->
  wf_document DEFAULT_SPEC gm_real l = true -> tokens_of macros page DEFAULT_SPEC src (document_tokens l) ->
  exists f0, forall fuel, f0 <= fuel -> convert_source macros m fuel page src None = translation DEFAULT_SPEC m l.
Proof.
  intros macros m page src l Hp Hw Ht. destruct (document_parse gm_real DEFAULT_SPEC l Hw) as (D & [N Hev] & Hm).
  destruct (parse_source_enough _ _ _ _ _ Hp Ht) as [f0 Hf]. exists f0. intros f L.
  unfold convert_source, convert_inner. rewrite (Hf f L).
  assert (E : parse_list gm_real DEFAULT_SPEC (parse_fuel (document_tokens l)) (document_tokens l) = Ok (Node ScopeRoot D)).
  { rewrite <- (parse_enough gm_real DEFAULT_SPEC (Nat.max N (parse_fuel (document_tokens l)))); [apply Hev; lia| |lia].
    now apply tokens_words in Ht. }
  rewrite E. unfold convert_tree, translation.
  pose proof (plain_node DEFAULT_SPEC ScopeRoot D _ ltac:(cbn; tauto) Hm) as Hr.
  assert (Hc : okc (Ctx m ENone 0)) by (intros H; discriminate).
  specialize (Hr (S (height (Node ScopeRoot D))) (Ctx m ENone 0) (true, None) Hc ltac:(lia)).
  change (cs (Ctx m ENone 0) (true, None)) with (cst_new m) in Hr. rewrite Hr.
  change (fresh (true, None)) with (false, @None text).
  destruct (list_den DEFAULT_SPEC (parts DEFAULT_SPEC l) (Ctx m ENone 0) (false, None)) as [[s o]| | |]; reflexivity.
Qed.
Print Assumptions C54_document.

(** With the tokens taken from the lexical specification (C03): a source
    without macro definitions, whose lexemes are those of the document. *)
Definition defining : list text :=
  flat_map (fun n => [n; n ++ tx "*"])
    [tx "newcommand"; tx "renewcommand"; tx "providecommand"; tx "DeclareRobustCommand"; tx "newenvironment"; tx "renewenvironment"].

(** the conditionals: with macros, these are the business of the macro engine (C15, C16) *)
Definition conditional (t : tok) : Prop :=
  match fst t with CommandName (CIf _) | CommandName CElse | CommandName CEndIf => True | _ => False end.
Lemma tokens_generic sp src ts : tokens sp src ts -> Forall (fun t : tok => fst t = CommandName Generic -> exists name, snd t = 92%N :: name) ts.
Proof.
  induction 1 as [|kind txt raw rest l Hc _ IH]; constructor; [|exact IH]. cbn [fst snd]. intros E.
  destruct Hc; try discriminate E; try (eexists; reflexivity).
  assert (A : Forall (fun p : char * token => snd p <> CommandName Generic) marks) by (repeat constructor; discriminate).
  rewrite Forall_forall in A. now elim (A _ H).
Qed.

Lemma engine_new_defining name mc : get_macro name engine_new = Some mc ->
  In name defining \/ match mc with MCmd _ | MDeclare (CmdOrEnv _) => False | _ => True end.
Proof.
  assert (A : forallb (fun x => existsb (teqb (fst x)) defining || match snd x with MCmd _ | MDeclare (CmdOrEnv _) => false | _ => true end) (sm_map (en_macros engine_new)) = true) by (vm_compute; reflexivity).
  unfold get_macro, sm_get. revert A. generalize (sm_map (en_macros engine_new)). intros ml. induction ml as [|[k v] ml IH]; intros A E; [discriminate|]. cbn [forallb existsb fst snd] in A; cbn in E. apply andb_true_iff in A as [A1 A2].
  destruct (teqbP name k) as [->|_]; [|auto]. injection E as ->. apply orb_true_iff in A1 as [A1|A1].
  - left. apply existsb_exists in A1 as (y & Hy & A1). apply teqb_eq in A1 as ->. exact Hy.
  - right. destruct mc as [[]| |]; try discriminate; exact I.
Qed.
Theorem C54_source : forall macros m page src l, 2 <= page ->
  wf_document DEFAULT_SPEC gm_real l = true -> tokens DEFAULT_SPEC src (document_tokens l) ->
  (macros = true -> Forall (fun t => ~ conditional t) (document_tokens l) /\
                    forall name, In name defining -> ~ In (CommandName Generic, 92%N :: name) (document_tokens l)) ->
  exists f0, forall fuel, f0 <= fuel -> convert_source macros m fuel page src None = translation DEFAULT_SPEC m l.
Proof.
  intros macros m page src l Hp Hw Ht Hd. apply C54_document; [exact Hp|exact Hw|].
  pose proof (tokens_generic _ _ _ Ht) as Hg.
  apply class_tokens in Ht as [Et Hs]. destruct macros; [|split; [exact Hs|symmetry; exact Et]]. change (expanded page DEFAULT_SPEC src (document_tokens l)).
  destruct (Hd eq_refl) as [Hc Hd']. clear Hd.
  destruct (C08_source page DEFAULT_SPEC src Hp Hs) as [f0 Hf].
  - rewrite Et. apply Forall_forall. intros t Hin. rewrite Forall_forall in Hg, Hc. specialize (Hg t Hin). specialize (Hc t Hin).
    unfold conditional in Hc. unfold inert. destruct t as [k s]. cbn [fst snd] in *. destruct k; try exact I. destruct c; [| |exact I|exact I|exact I|exact I|exact I|exact (Hc I)|exact (Hc I)|exact (Hc I)|exact I|exact I].
    + destruct (Hg eq_refl) as [name ->]. exists name. split; [reflexivity|]. specialize (Hd' name).
      destruct (get_macro name engine_new) as [mc|] eqn:E; [|exact I].
      pose proof (engine_new_defining _ _ E) as Hn.
      destruct Hn as [Hn|Hn]; [elim (Hd' Hn); exact Hin|exact Hn].
    + destruct (get_macro s engine_new) as [mc|] eqn:E; [|exact I]. apply engine_new_macros in E as [d ->]. exact I.
  - apply (expand_expanded f0 page DEFAULT_SPEC src); [exact Hp|]. rewrite <- Et. apply Hf. lia.
Qed.
Print Assumptions C54_source.

(** A document that uses every form, its translation, and a source for it *)
Definition sample_doc : list item :=
  [ICmd (tx "textbf") [([], IGroup [IWord (tx "Let")])]; ISpace (SBlank (tx " ")); IWord (tx "x");
   IFormula FInline [ICmd (tx "frac") [([SBlank (tx " ")], IWord (tx "a")); ([SBlank (tx " ")], IGroup [IWord (tx "bc")])]; IScript true [] (IWord (tx "2")); IPrime;
                     IScript false [] (IGroup [IWord (tx "i"); IMark 44; IScript true [] (ICmd (tx "alpha") [])])];
   IMark 59; INewline;
   IEnv (tx "itemize") []
     [ICmd (tx "item") []; ISpace (SBlank (tx " "));
      IFormula FSquare [ILR [] (DMark 40) [ICmd (tx "sqrt") [([], IBracket [IWord (tx "3")]); ([], IGroup [IWord (tx "y")])]] [] (DChar 46)];
      IEnv (tx "equation") [] [ICmd (tx "label") [([], IGroup [IWord (tx "eq")])];
        IEnv (tx "matrix") [] [IWord (tx "1"); IMark 38; IWord (tx "2"); INewline; ICmd (tx "text") [([], IGroup [IFormula FInline [IWord (tx "z")]])]] (tx "matrix")] (tx "equation")] (tx "itemize");
   IGroup []]%N.
Definition sample_src : text :=
  tx "\textbf{Let} x$\frac a {bc}^2'_{i,^\alpha}$;\\\begin{itemize}\item \[\left(\sqrt[3]{y}\right.\]\begin{equation}\label{eq}\begin{matrix}1&2\\\text{$z$}\end{matrix}\end{equation}\end{itemize}{}".
Definition sample_out : text :=
  tx "#strong[Let]; x#math.equation(block: false, $frac(a ,b c )^(2 )'_(i \,^(alpha ))$);\;\ " ++ 10%N ::
  tx "-  $ lr(\( mitexsqrt(\[3 \],y ) ) $$ aligned(matrix(1 zws ,2 zws ;#textmath[#math.equation(block: false, $z $);];)) $<eq>".
Example sample_translation : translation DEFAULT_SPEC MText sample_doc = COk sample_out.
Proof. vm_compute. reflexivity. Qed.
Example sample_tokens : tokens DEFAULT_SPEC sample_src (document_tokens sample_doc).
Proof.
  apply C03_tokens; [|vm_compute; reflexivity]. apply no_percent_ncd. intros H.
  assert (E : existsb (N.eqb 37%N) sample_src = false) by (vm_compute; reflexivity).
  assert (E' : existsb (N.eqb 37%N) sample_src = true) by (apply existsb_exists; exists 37%N; auto). rewrite E in E'. discriminate.
Qed.
Example sample_wf : wf_document DEFAULT_SPEC gm_real sample_doc = true.
Proof. vm_compute. reflexivity. Qed.
Lemma no_conditional l : forallb (fun t : tok => match fst t with CommandName (CIf _) | CommandName CElse | CommandName CEndIf => false | _ => true end) (document_tokens l) = true ->
  Forall (fun t => ~ conditional t) (document_tokens l).
Proof.
  intros H. rewrite forallb_forall in H. apply Forall_forall. intros t Ht. specialize (H t Ht). unfold conditional. destruct (fst t); try (intros []). destruct c; try (intros []); discriminate H.
Qed.
Lemma no_defining l : forallb (fun t => negb (existsb (fun n => teqb (snd t) (92%N :: n)) defining)) (document_tokens l) = true ->
  forall name, In name defining -> ~ In (CommandName Generic, 92%N :: name) (document_tokens l).
Proof.
  intros E name Hn Hin. rewrite forallb_forall in E. specialize (E _ Hin). apply negb_true_iff in E. cbn [snd] in E.
  assert (E' : existsb (fun n => teqb (92%N :: name) (92%N :: n)) defining = true) by (apply existsb_exists; exists name; split; [exact Hn|apply teqb_refl]). congruence.
Qed.
Example C54_example : exists f0, forall fuel, f0 <= fuel -> convert_source true MText fuel PAGE sample_src None = COk sample_out.
Proof.
  rewrite <- sample_translation. apply C54_source; [vm_compute; lia|exact sample_wf|exact sample_tokens|].
  intros _. split; [apply no_conditional|apply no_defining]; vm_compute; reflexivity.
Qed.
(** the other forms: figures, pictures, captions, tables, colours, postfix,
    infix and greedy commands, Typst code *)
Definition sample2_doc : list item :=
  [IEnv (tx "figure") [([], IBracket [IWord (tx "ht")])]
     [ICmd (tx "includegraphics") [([], IBracket [IWord (tx "width=2cm")]); ([], IGroup [IWord (tx "a.png")])];
      ICmd (tx "caption") [([], IGroup [IWord (tx "A")])]; ICmd (tx "label") [([], IGroup [IWord (tx "f")])]] (tx "figure");
   IEnv (tx "tabular") [([], IGroup [IWord (tx "l|r")])]
     [ICmd (tx "hline") []; ISpace (SBlank (tx " ")); IWord (tx "u"); IMark 38; IWord (tx "v"); INewline; ICmd (tx "bottomrule") []] (tx "tabular");
   ICmd (tx "textcolor") [([], IGroup [IWord (tx "red")]); ([], IGroup [IWord (tx "R")])];
   IFormula FParen
     [IInfix [ICmd (tx "sum") []; IPost (tx "limits"); IScript false [] (IWord (tx "i"))] (tx "over") [ISpace (SBlank (tx " ")); IGreedy (tx "displaystyle") [IGroup [IWord (tx "y")]; IMark 42]]];
   ICode true [(Hash, tx "#"); (Word, tx "t")];
   IGreedy (tx "color") [IGroup [IWord (tx "blue")]; ISpace (SBlank (tx " ")); IWord (tx "end")]]%N.
Definition sample2_src : text :=
  tx "\begin{figure}[ht]\includegraphics[width=2cm]{a.png}\caption{A}\label{f}\end{figure}\begin{tabular}{l|r}\hline u&v\\\bottomrule\end{tabular}\textcolor{red}{R}\(\sum\limits_i\over \displaystyle{y}*\)\iftypst#t\fi\color{blue} end".
Definition sample2_out : text :=
  tx "#figure(caption: [A],)[#image(width: 2cm, ""a.png"")];<f>#table(stroke: none," ++ 10%N ::
  tx "columns: 2," ++ 10%N ::
  tx "align: (left, right, )," ++ 10%N ::
  tx "table.vline(stroke: .5pt, x: 1), " ++ 10%N ::
  tx "table.hline(stroke: .5pt)," ++ 10%N ::
  tx "[u], [v]," ++ 10%N ::
  tx "table.hline(stroke: 1pt)," ++ 10%N ::
  tx ");#colortext(none, [red])[R];#math.equation(block: false, $frac(limits(sum )_(i ), mitexdisplay(y ,\*))$);#t#mitexcolor(none, [blue])[ end];".
Example sample2_translation : translation DEFAULT_SPEC MText sample2_doc = COk sample2_out.
Proof. vm_compute. reflexivity. Qed.
Example sample2_tokens : tokens DEFAULT_SPEC sample2_src (document_tokens sample2_doc).
Proof.
  apply C03_tokens; [|vm_compute; reflexivity]. apply no_percent_ncd. intros H.
  assert (E : existsb (N.eqb 37%N) sample2_src = false) by (vm_compute; reflexivity).
  assert (E' : existsb (N.eqb 37%N) sample2_src = true) by (apply existsb_exists; exists 37%N; auto). rewrite E in E'. discriminate.
Qed.
Example C54_example2 : exists f0, forall fuel, f0 <= fuel -> convert_source false MText fuel PAGE sample2_src None = COk sample2_out.
Proof.
  rewrite <- sample2_translation. apply C54_source; [vm_compute; lia|vm_compute; reflexivity|exact sample2_tokens|discriminate].
Qed.
(** with a macro: what counts are the tokens after expansion *)
Example C54_macro_example : exists f0, forall fuel, f0 <= fuel ->
  convert_source true MMath fuel PAGE (tx "\newcommand{\f}[1]{#1^2}\f{x}") None = COk (tx "x ^(2 )").
Proof.
  assert (E : translation DEFAULT_SPEC MMath [IWord (tx "x"); IScript true [] (IWord (tx "2"))] = COk (tx "x ^(2 )")) by (vm_compute; reflexivity).
  rewrite <- E. apply C54_document; [vm_compute; lia|vm_compute; reflexivity|].
  apply (expand_expanded 100); [vm_compute; lia|]. vm_compute. reflexivity.
Qed.
(** an unknown command is reported *)
Example C54_unknown_example : translation DEFAULT_SPEC MText [IWord (tx "a"); IFormula FInline [ICmd (tx "nosuch") []]] = CErr (EUnknownCommand (tx "nosuch")).
Proof. vm_compute. reflexivity. Qed.
