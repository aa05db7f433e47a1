(** Properties C08-C16: macro expansion as seen by the reader of the lexer.
    Vocabulary: MacroSpec.v. *)
From Verif Require Import MacroDefs DefaultSpec.
Local Open Scope N_scope.

Lemma feed_app a b : feed (a ++ b) = push_front a (feed b).
Proof. apply push_app. Qed.

(** C08.  Tokens with which the engine has nothing to do come out unchanged. *)
Theorem C08_transparent : forall page e toks, (2 <= page)%nat ->
  Forall (inert e) toks -> answers page e toks (Ok toks).
Proof.
  intros page e toks Hp H. eapply resumes_answers; [exact Hp|]. apply inert_all; [exact H|exact I].
Qed.
Print Assumptions C08_transparent.
(** ... in particular for a source text, with the initial engine: the expanding
    lexer delivers the plain tokens of the source (with enough fuel, which
    bounds nothing but the model's loop). *)
Theorem C08_source : forall page sp src, (2 <= page)%nat ->
  stream_panics (lex_stream sp src) = false ->
  Forall (inert engine_new) (stream_toks (lex_stream sp src)) ->
  exists f0, forall f, (f0 <= f)%nat ->
    expand_all f page engine_new sp src = Ok (stream_toks (lex_stream sp src)).
Proof.
  intros page sp src Hp Hs H. destruct (C08_transparent page engine_new _ Hp H) as [_ [f0 Hf]].
  exists f0. intros f Hle. unfold expand_all. rewrite <- (Hf f Hle). f_equal.
  clear -Hs. unfold feed. induction (lex_stream sp src) as [|e|t r IH]; simpl in *;
    [reflexivity|discriminate|]. f_equal. now apply IH.
Qed.
Print Assumptions C08_source.
Example C08_example : Forall (inert engine_new) (stream_toks (lex_stream DEFAULT_SPEC (tx "\frac{a}{b}\begin{x}&\end{x}"))).
Proof.
  vm_compute. repeat constructor; (eexists; split; [reflexivity|]; exact I).
Qed.

(** C09.  What is read does not depend on the page size, for every outcome
    (tokens, panic, or no end). *)
Theorem C09_page_independence : forall p1 p2 e toks r, (2 <= p1)%nat -> (2 <= p2)%nat ->
  (answers p1 e toks r <-> answers p2 e toks r).
Proof. intros p1 p2 e toks r H1 H2. split; now apply answers_page. Qed.
Print Assumptions C09_page_independence.
Theorem C09_functional : forall page e toks r1 r2,
  answers page e toks r1 -> answers page e toks r2 -> r1 = r2.
Proof. exact answers_functional. Qed.
Print Assumptions C09_functional.

(** C10.  [\newcommand], [\renewcommand], [\providecommand] and their variants *)
Theorem C10_commands : forall e dn how src name n o body def rest,
  In (dn, how) command_definers -> not_redefined e (tx dn) ->
  command_def src name n o body -> Forall has_word body -> marked body def ->
  exists e' errors, defines how name (MCmd (mk_cmdm name n o def)) e e' errors /\
    becomes e (cmd (tx dn) :: src ++ rest) errors e' rest.
Proof.
  intros e dn how src name n o body def rest Hin Hnr Hc HF Hm.
  destruct (definer_binding dn how e Hin Hnr) as (d & Hg & Hd & Ha).
  eexists _, _. split; [apply (update_defines d name _ e how Ha)|].
  apply resumes_becomes. change (feed (cmd (tx dn) :: src ++ rest)) with (SCons (cmd (tx dn)) (feed (src ++ rest))).
  rewrite feed_app. apply define_resumes; [exact Hg|]. intros p. eapply identify_command; eauto.
Qed.
Print Assumptions C10_commands.
Theorem C10_environments : forall e dn how src name n o b d bdef ddef rest,
  In (dn, how) environment_definers -> not_redefined e (tx dn) ->
  environment_def src name n o b d ->
  Forall has_word b -> marked b bdef -> Forall has_word d -> marked d ddef ->
  exists e' errors, defines how name (MEnv (mk_envm name n o bdef ddef)) e e' errors /\
    becomes e (cmd (tx dn) :: src ++ rest) errors e' rest.
Proof.
  intros e dn how src name n o b d bdef ddef rest Hin Hnr Hc HF Hm HF2 Hm2.
  destruct (env_definer_binding dn how e Hin Hnr) as (dd & Hg & Hd & Ha).
  eexists _, _. split; [apply (update_defines dd name _ e how Ha)|].
  apply resumes_becomes. change (feed (cmd (tx dn) :: src ++ rest)) with (SCons (cmd (tx dn)) (feed (src ++ rest))).
  rewrite feed_app. apply define_resumes; [exact Hg|]. intros p. eapply identify_environment; eauto.
Qed.
Print Assumptions C10_environments.
(** the hypotheses are met by the tokens of a real definition *)
Example C10_example_def :
  command_def (tl (stream_toks (lex_stream DEFAULT_SPEC (tx "\newcommand{\f}[2][x]{a#1}")))) (tx "f") 2
    (Some [(Word, tx "x")]) [(Word, tx "a"); (Hash, tx "#"); (Word, tx "1")] /\
  marked [(Word, tx "a"); (Hash, tx "#"); (Word, tx "1")] [(Word, tx "a"); (MacroArg 1, tx "#")].
Proof.
  split.
  - apply (cd [] lbrace [] _ Generic (tx "f") [] rbrace
       (lbracket :: [] ++ (Word, tx "2") :: [] ++ [rbracket] ++ lbracket :: [(Word, tx "x")] ++ [rbracket]) 2
       (Some [(Word, tx "x")]) lbrace [(Word, tx "a"); (Hash, tx "#"); (Word, tx "1")] rbrace);
      try reflexivity; try apply Forall_nil.
    + apply (p_default lbracket [] 50 [] rbracket lbracket [(Word, tx "x")] rbracket);
        try reflexivity; try apply Forall_nil; [lia|].
      constructor; [unfold is_curly; simpl; intuition congruence|simpl; congruence|constructor].
    + repeat constructor; unfold is_curly; simpl; intuition congruence.
  - apply m_tok; [simpl; congruence|]. apply (m_param (tx "#") 49 [] [] []); [unfold parameter_digit; lia|constructor].
Qed.

(** C11.  A call becomes the body with its arguments substituted; expansion goes
    on at the front of the result. *)
Theorem C11_call : forall e name def n o body src args leftover rest,
  get_macro name e = Some (MCmd (mk_cmdm def n o body)) -> Forall simple_body_tok body ->
  call_args src args leftover -> n = N.of_nat (List.length args) ->
  becomes e (cmd name :: src ++ rest) [] e (subst args body ++ leftover ++ rest).
Proof.
  intros e name def n o body src args lo rest Hg Hb Hc Hn. apply resumes_becomes.
  change (feed (cmd name :: src ++ rest)) with (SCons (cmd name) (feed (src ++ rest))).
  rewrite app_assoc, !feed_app. eapply call_resumes; eauto.
Qed.
Print Assumptions C11_call.

(** Definition and call together, from the definition's text. *)
Theorem C11_define_and_call : forall e src name n o body def rest csrc args leftover,
  not_redefined e (tx "newcommand") -> get_macro name e = None ->
  command_def src name n o body -> Forall has_word body -> marked body def -> Forall simple_body_tok def ->
  call_args csrc args leftover -> n = N.of_nat (List.length args) ->
  exists e', get_macro name e' = Some (MCmd (mk_cmdm name n o def)) /\
    becomes e (cmd (tx "newcommand") :: src ++ cmd name :: csrc ++ rest) [] e' (subst args def ++ leftover ++ rest).
Proof.
  intros e src name n o body def rest csrc args lo Hnr Hfresh Hc HF Hm Hs Ha Hn.
  destruct (C10_commands e "newcommand" New src name n o body def (cmd name :: csrc ++ rest)) as (e' & err & Hd & Hb); auto.
  { simpl. auto. }
  unfold defines in Hd. rewrite Hfresh in Hd. destruct Hd as [[Hbind _] ->].
  exists e'. split; [exact Hbind|].
  pose proof (C11_call e' name name n o def csrc args lo rest Hbind Hs Ha Hn) as H2.
  intros page r Hp. rewrite (Hb page r Hp). split.
  - intros (r' & H & ->). apply (H2 page r' Hp) in H as (r2 & H & ->). exists r2. split; [exact H|]. now destruct r2.
  - intros (r' & H & ->). exists r'. split; [|now destruct r']. apply (H2 page r' Hp). exists r'.
    split; [exact H|]. now destruct r'.
Qed.
Print Assumptions C11_define_and_call.
(** a reading that ends can be computed *)
Ltac reads n := apply answers_run; [lia|]; split; [congruence|]; exists n; vm_compute; reflexivity.
Example C11_example : answers 170 engine_new
   (stream_toks (lex_stream DEFAULT_SPEC (tx "\newcommand{\f}[2]{#2+#1}\f{a}{bc}d")))
   (Ok [(Word, tx "bc"); (Word, tx "+"); (Word, tx "a"); (Word, tx "d")]).
Proof. reads 50%nat. Qed.
Example C11_example_args : call_args (stream_toks (lex_stream DEFAULT_SPEC (tx " {a} xy")))
    [[(Word, tx "a")]; [(Word, tx "x")]] [(Word, tx "y")].
Proof.
  vm_compute.
  apply (ca_braced [(Whitespace, tx " ")] lbrace [(Word, tx "a")] rbrace [(Whitespace, tx " "); (Word, tx "xy")]).
  - repeat constructor.
  - reflexivity.
  - reflexivity.
  - repeat constructor; unfold is_curly; simpl; intuition congruence.
  - apply (ca_word [(Whitespace, tx " ")] 120 [] [121]). repeat constructor.
Qed.

(** C12.  With unbraced word arguments the number of arguments bound is wrong:
    [\f] of two arguments takes only [x] from [x y] and expands with an empty
    second argument. *)
Theorem C12_refuted :
  let src := tx "\newcommand{\f}[2]{(#1;#2)}\f x yz" in
  answers 170 engine_new (stream_toks (lex_stream DEFAULT_SPEC src))
    (Ok [(TLeft Paren, tx "("); (Word, tx "x"); (Semicolon, tx ";"); (TRight Paren, tx ")");
         (Whitespace, tx " "); (Word, tx "yz")]).
Proof. reads 50%nat. Qed.
Print Assumptions C12_refuted.
(** It is right whenever every argument is braced or a single non-word token and
    the last ones are the leading characters of one word ([call_args]): exactly
    [n] arguments are bound, each visible in the result.  Missing: arguments of
    which an earlier one is a word (refuted above). *)
Theorem C12_arity_partial : forall e name def n o src args leftover rest body,
  get_macro name e = Some (MCmd (mk_cmdm def n o body)) -> Forall simple_body_tok body ->
  call_args src args leftover -> n = N.of_nat (List.length args) ->
  becomes e (cmd name :: src ++ rest) [] e (subst args body ++ leftover ++ rest) /\
  (forall i, (i < List.length args)%nat ->
     subst args [(MacroArg (N.of_nat (S i)), tx "#")] = nth i args []).
Proof.
  intros e name def n o src args lo rest body Hg Hb Hc Hn. split; [eapply C11_call; eauto|].
  intros i Hi. unfold subst. cbn [flat_map fst]. rewrite app_nil_r. f_equal. lia.
Qed.
Print Assumptions C12_arity_partial.

(** C13.  Macro environments *)
Theorem C13_environment : forall e name n o b d src args leftover body rest,
  get_macro name e = Some (MEnv (mk_envm name n o b d)) ->
  Forall simple_body_tok b -> Forall simple_body_tok d ->
  call_args src args leftover -> n = N.of_nat (List.length args) -> nested_envs (leftover ++ body) ->
  becomes e (begin_ name :: src ++ body ++ end_ name :: rest) []
          e (subst args b ++ leftover ++ body ++ subst args d ++ rest).
Proof.
  intros e name n o b d src args lo body rest Hg Hb Hd Hc Hn Hbody. apply resumes_becomes.
  replace (begin_ name :: src ++ body ++ end_ name :: rest) with
    ([begin_ name] ++ (src ++ body ++ [end_ name]) ++ rest) by (rewrite <- !app_assoc; reflexivity).
  replace (subst args b ++ lo ++ body ++ subst args d ++ rest) with
    ((subst args b ++ lo ++ body ++ subst args d) ++ rest) by (rewrite <- !app_assoc; reflexivity).
  rewrite !feed_app. eapply env_resumes; eauto.
Qed.
Print Assumptions C13_environment.
Example C13_example : answers 170 engine_new
   (stream_toks (lex_stream DEFAULT_SPEC (tx "\newenvironment{e}[1]{<#1}{>}\begin{e}{x}a\begin{y}b\end{y}\end{e}c")))
   (Ok [(Word, tx "<"); (Word, tx "x"); (Word, tx "a"); begin_ (tx "y"); (Word, tx "b"); end_ (tx "y");
        (Word, tx ">"); (Word, tx "c")]).
Proof. reads 50%nat. Qed.

(** C14.  Reading the markers of a body: [process_macro_def] is what definitions
    apply to the body. *)
Theorem C14_markers : forall body, Forall has_word body ->
  (forall h l, body <> l ++ [(Hash, h)]) ->
  exists def, process_macro_def body = Ok def /\ marked body def /\ (forall d, marked body d -> d = def).
Proof.
  intros body HF Hl. pose proof (process_macro_def_spec body HF) as H.
  destruct (process_macro_def body) as [d|?|]; [|exfalso|contradiction].
  - exists d. destruct H as [H _]. repeat split; auto. intros d' Hd. eapply marked_functional; eauto.
  - destruct H as (h & l & ->). eapply Hl. reflexivity.
Qed.
Print Assumptions C14_markers.
Theorem C14_refuted : forall page, (2 <= page)%nat -> exists site,
  answers page engine_new (stream_toks (lex_stream DEFAULT_SPEC (tx "\newcommand{\a}{b#}"))) (Panic site).
Proof. intros page Hp. eexists. apply answers_run; [exact Hp|]. split; [congruence|]. exists 9%nat. vm_compute. reflexivity. Qed.
Print Assumptions C14_refuted.

(** C15.  Conditionals select their branch; the state is as before. *)
Theorem C15_conditionals : forall e text selected rest, selects e text selected ->
  becomes e (text ++ rest) selected e rest.
Proof.
  intros e a a' rest H. apply resumes_becomes. rewrite feed_app.
  pose proof (selects_resumes e a a' H (en_ifs e) (feed rest) (quiet_feed rest)) as Hr.
  now rewrite with_ifs_same in Hr.
Qed.
Print Assumptions C15_conditionals.
Theorem C15_whole : forall page e text selected, (2 <= page)%nat -> selects e text selected ->
  answers page e text (Ok selected).
Proof.
  intros page e a a' Hp H. eapply resumes_answers; [exact Hp|].
  pose proof (selects_resumes e a a' H (en_ifs e) SNil I) as Hr. rewrite with_ifs_same in Hr. exact Hr.
Qed.
Print Assumptions C15_whole.
(** Several [\else] between one [\iftrue] and its [\fi] (an error in TeX): the
    branches take turns, the first one counts. *)
Inductive alternates (e : engine) : list tok -> list tok -> Prop :=
| alt_kept a a' : selects e a a' -> alternates e a a'
| alt_skipped a a' y b : selects e a a' -> else_ y -> skippable b -> alternates e (a ++ y :: b) a'
| alt_turn a a' y b y2 c c' : selects e a a' -> else_ y -> skippable b -> else_ y2 -> alternates e c c' ->
    alternates e (a ++ y :: b ++ y2 :: c) (a' ++ c').
Lemma else_to_else e y b y2 s l : else_ y -> else_ y2 -> skippable b -> quiet s -> en_ifs e = Some StTrue :: l ->
  resumes e (SCons y (push_front (b ++ [y2]) s)) [] (with_ifs e (Some StTrue :: l)) s.
Proof.
  intros Hy Hy2 Hb Hq He.
  refine (resumes_trans _ _ [] (with_ifs e (Some StFalse :: l)) (SCons y2 s) [] _ _ _ _).
  - eapply resumes_step with (c' := mk_ictx (Some y2) s); [|reflexivity].
    unfold step. rewrite Hy. unfold trapped_by_else. rewrite next_token_front by (apply quiet_push; exact Hq). cbn [bind]. rewrite He.
    rewrite skip_to by (auto; now left). reflexivity.
  - eapply resumes_step with (c' := at_front s); [|symmetry; apply flat_at_front].
    unfold step. rewrite Hy2. unfold trapped_by_else. rewrite next_token_front by exact Hq. reflexivity.
Qed.
Theorem C15_alternating : forall e x m kept z rest, if_ IfTrue x -> fi_ z -> alternates e m kept ->
  becomes e (x :: m ++ z :: rest) kept e rest.
Proof.
  intros e x m kept z rest Hx Hz Hm. apply resumes_becomes. change (x :: m ++ z :: rest) with ([x] ++ m ++ [z] ++ rest). rewrite !feed_app. cbn [push_front].
  set (s := feed rest). assert (Hq : quiet s) by apply quiet_feed. clearbody s.
  assert (A : forall l, resumes (with_ifs e (Some StTrue :: l)) (push_front m (SCons z s)) kept (with_ifs e l) s).
  { clear x Hx rest. intros l. induction Hm as [a a' Ha|a a' y b Ha Hy Hb|a a' y b y2 c c' Ha Hy Hb Hy2 Hc IH].
    - rewrite <- (app_nil_r a'). eapply resumes_trans; [apply (selects_resumes _ _ _ Ha); exact I|].
      exact (fi_step (with_ifs e (Some StTrue :: l)) z s (Some StTrue) l Hz Hq eq_refl).
    - rewrite push_app. change (push_front (y :: b) (SCons z s)) with (SCons y (push_front b (SCons z s))). rewrite <- (app_nil_r a'). eapply resumes_trans; [apply (selects_resumes _ _ _ Ha); exact I|].
      replace (push_front b (SCons z s)) with (push_front (b ++ [z]) s) by (rewrite push_app; reflexivity).
      refine (resumes_trans _ _ [] (with_ifs e (Some StFalse :: l)) (SCons z s) [] _ _ _ _); [apply (else_step_skip (with_ifs e (Some StTrue :: l)) y b z s StTrue l); auto|].
      exact (fi_step (with_ifs e (Some StFalse :: l)) z s (Some StFalse) l Hz Hq eq_refl).
    - assert (Hq2 : quiet (push_front c (SCons z s))) by (apply quiet_push; exact I).
      replace (push_front (a ++ y :: b ++ y2 :: c) (SCons z s)) with (push_front a (SCons y (push_front (b ++ [y2]) (push_front c (SCons z s)))))
        by (change (y :: b ++ y2 :: c) with ([y] ++ b ++ [y2] ++ c); rewrite !push_app; reflexivity).
      eapply resumes_trans; [apply (selects_resumes _ _ _ Ha); exact I|].
      change c' with ([] ++ c'). eapply resumes_trans; [apply (else_to_else _ y b y2 _ l); auto|]. rewrite with_ifs_twice. exact IH. }
  specialize (A (en_ifs e)). rewrite with_ifs_same in A. change kept with ([] ++ kept).
  eapply resumes_trans; [|exact A]. apply (if_step e x _ IfTrue Hx). apply quiet_push. exact I.
Qed.
Print Assumptions C15_alternating.
Example C15_alternating_example : forall page, (2 <= page)%nat ->
  answers page engine_new (stream_toks (lex_stream DEFAULT_SPEC (tx "\iftrue a\else b\else c\else d\fi")))
    (Ok [(Whitespace, tx " "); (Word, tx "a"); (Whitespace, tx " "); (Word, tx "c")]).
Proof. intros page Hp. apply answers_run; [exact Hp|]. split; [congruence|]. exists 50%nat. vm_compute. reflexivity. Qed.
Example C15_example : selects engine_new
  (stream_toks (lex_stream DEFAULT_SPEC (tx "a\iftrue b\else c\ifx d\fi\fi e")))
  [(Word, tx "a"); (Whitespace, tx " "); (Word, tx "b"); (Whitespace, tx " "); (Word, tx "e")].
Proof.
  vm_compute. apply v_tok; [exact I|].
  apply (v_true_else engine_new _ [(Whitespace, tx " "); (Word, tx "b")] [(Whitespace, tx " "); (Word, tx "b")] _
     [(Whitespace, tx " "); (Word, tx "c"); (CommandName (CIf IfX), tx "\ifx"); (Whitespace, tx " "); (Word, tx "d");
      (CommandName CEndIf, tx "\fi")] _ [(Whitespace, tx " "); (Word, tx "e")]); try reflexivity.
  - repeat constructor.
  - assert (Hn : forall k w, match k with CommandName (CIf _) | CommandName CElse | CommandName CEndIf => False
        | _ => True end -> ~ conditional (k, w)).
    { intros k w Hk [[i H]|[H|H]]; unfold if_, else_, fi_ in H; simpl in H; subst k; exact Hk. }
    apply s_tok; [apply Hn; exact I|]. apply s_tok; [apply Hn; exact I|].
    apply (s_if IfX _ [(Whitespace, tx " "); (Word, tx "d")] _ []); try reflexivity; repeat constructor; apply Hn; exact I.
  - repeat constructor.
Qed.

(** C16.  A skipped branch with a nested conditional that has an [\else] leaks:
    here [d], which belongs to the branch not taken, is delivered. *)
Theorem C16_refuted : forall page, (2 <= page)%nat ->
  answers page engine_new
    (stream_toks (lex_stream DEFAULT_SPEC (tx "\iftrue a\else\ifx b\else c\fi d\fi")))
    (Ok [(Whitespace, tx " "); (Word, tx "a"); (Whitespace, tx " "); (Word, tx "d"); (CommandName CEndIf, tx "\fi")]).
Proof. intros page Hp. apply answers_run; [exact Hp|]. split; [congruence|]. exists 50%nat. vm_compute. reflexivity. Qed.
Print Assumptions C16_refuted.
(** It holds for branches whose nested conditionals have no [\else].  Missing:
    nested conditionals with [\else] (refuted). *)
Theorem C16_skipped_partial : forall e x a a' y b b2 z rest, if_ IfTrue x \/ if_ IfTypst x -> else_ y -> fi_ z ->
  selects e a a' -> skippable b -> skippable b2 ->
  forall page r, (2 <= page)%nat ->
  (answers page e (x :: a ++ y :: b ++ z :: rest) r <-> answers page e (x :: a ++ y :: b2 ++ z :: rest) r).
Proof.
  assert (Hone : forall e x a a' y b z rest, if_ IfTrue x \/ if_ IfTypst x -> else_ y -> fi_ z ->
    selects e a a' -> skippable b -> becomes e (x :: a ++ y :: b ++ z :: rest)
       (if token_eqb (fst x) (CommandName (CIf IfTrue)) then a' else x :: a' ++ [z]) e rest).
  { intros e x a a' y b z rest Hx Hy Hz Ha Hb.
    replace (x :: a ++ y :: b ++ z :: rest) with ((x :: a ++ y :: b ++ z :: []) ++ rest)
      by (simpl; rewrite <- app_assoc; simpl; rewrite <- app_assoc; reflexivity).
    apply C15_conditionals. destruct Hx as [Hx|Hx].
    - rewrite Hx. simpl. rewrite <- (app_nil_r a'). eapply v_true_else; eauto. constructor.
    - rewrite Hx. simpl. eapply v_typst_else; eauto. constructor. }
  intros e x a a' y b b2 z rest Hx Hy Hz Ha Hb Hb2 page r Hp.
  rewrite (Hone e x a a' y b z rest Hx Hy Hz Ha Hb page r Hp).
  rewrite (Hone e x a a' y b2 z rest Hx Hy Hz Ha Hb2 page r Hp). reflexivity.
Qed.
Print Assumptions C16_skipped_partial.
