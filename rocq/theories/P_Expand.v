(** C58: macro expansion, exactly.  The rewriting system of ExpandSpec.v is
    what the expanding lexer computes: the output where it ends, a panic where
    the system gets stuck, no answer where it goes on for ever. *)
From Verif Require Import Api P_Parser ParserTotal ParserSource ParserEnd GramSpec P_Gram LexDelim DefaultSpec P_Delim.
From Verif Require Export ExpandStuck MacroPanic.
From Verif Require Import P_Macro2.
Local Open Scope N_scope.

(** ** From one step to runs *)
Lemma run_step e t l n :
  run (S n) e (feed (t :: l)) =
    match step e (mk_ictx (Some t) (feed l)) t with
    | Ok (e', c', out) => prepend out (run n e' (flat c'))
    | Panic err => ([], Crashed err)
    | Fuel => ([], Running)
    end.
Proof. reflexivity. Qed.
Lemma run_cons e st t l (n : nat) out st' l' : agrees e st -> rewrites st (t :: l) out st' l' ->
  exists e', agrees e' st' /\ forall n, run (S n) e (feed (t :: l)) = prepend out (run n e' (feed l')).
Proof.
  intros Ha H. destruct (step_complete _ _ _ _ _ _ _ Ha H) as (e' & E & Ha').
  exists e'. split; [exact Ha'|]. intros m. rewrite run_step, E. now rewrite flat_F.
Qed.
Lemma rewrites_cons st l out st' l' : rewrites st l out st' l' -> exists t r, l = t :: r.
Proof. intros H. destruct H; eauto. Qed.
Lemma steps_run st l out st' l' : steps st l out st' l' -> forall e, agrees e st ->
  exists e' k, agrees e' st' /\ forall n, run (k + n) e (feed l) = prepend out (run n e' (feed l')).
Proof.
  induction 1 as [st l|st l out st1 l1 out' st2 l2 H Hs IH]; intros e Ha.
  - exists e, O. split; [exact Ha|]. intros n. now rewrite prepend_nil.
  - destruct (rewrites_cons _ _ _ _ _ H) as (t & r & ->).
    destruct (run_cons _ _ _ _ 0%nat _ _ _ Ha H) as (e1 & Ha1 & Hr).
    destruct (IH e1 Ha1) as (e2 & k & Ha2 & Hk). exists e2, (S k). split; [exact Ha2|].
    intros n. cbn [Nat.add]. rewrite Hr, Hk. now rewrite prepend_app.
Qed.
Lemma run_steps n : forall e st l, agrees e st ->
  match snd (run n e (feed l)) with
  | Done => expands st l (fst (run n e (feed l)))
  | Crashed _ => gets_stuck st l
  | Running => exists out st' l' e', steps st l out st' l' /\ agrees e' st' /\ l' <> [] /\
      run n e (feed l) = (out, Running)
  end.
Proof.
  induction n as [|n IH]; intros e st l Ha.
  - destruct l as [|t l]; cbn.
    + exists st. constructor.
    + exists [], st, (t :: l), e. split; [constructor|]. split; [exact Ha|]. split; [discriminate|reflexivity].
  - destruct l as [|t l].
    { cbn. exists st. constructor. }
    destruct (step_progress e st t l Ha) as [(out & st' & l' & H)|[s H]].
    + destruct (run_cons _ _ _ _ 0%nat _ _ _ Ha H) as (e1 & Ha1 & Hr). rewrite Hr. cbn [prepend fst snd].
      specialize (IH e1 st' l' Ha1). destruct (snd (run n e1 (feed l'))) as [|s|].
      * destruct IH as [st2 Hs]. exists st2. eapply st_step; eassumption.
      * destruct IH as (o2 & st2 & l2 & Hs & H2). exists (out ++ o2), st2, l2. split; [eapply st_step; eassumption|exact H2].
      * destruct IH as (o2 & st2 & l2 & e2 & Hs & Ha2 & Hl & E). exists (out ++ o2), st2, l2, e2.
        split; [eapply st_step; eassumption|]. split; [exact Ha2|]. split; [exact Hl|]. rewrite E. reflexivity.
    + rewrite run_step, H. cbn [snd]. exists [], st, (t :: l). split; [constructor|]. split; [discriminate|].
      intros o2 st2 l2 Hr. destruct (step_complete _ _ _ _ _ _ _ Ha Hr) as (e' & E & _). congruence.
Qed.

(** ** The theorems *)
(** the output *)
Theorem C58_output : forall page e st toks out, (2 <= page)%nat -> agrees e st ->
  (answers page e toks (Ok out) <-> expands st toks out).
Proof.
  intros page e st toks out Hp Ha. rewrite answers_run by assumption. split.
  - intros [_ [n Hn]]. pose proof (run_steps n e st toks Ha) as H. unfold result in Hn.
    destruct (snd (run n e (feed toks))); try discriminate. now injection Hn as <-.
  - intros [st' H]. split; [discriminate|]. destruct (steps_run _ _ _ _ _ H e Ha) as (e' & k & _ & Hk).
    exists (k + 0)%nat. rewrite Hk. unfold result. cbn. now rewrite app_nil_r.
Qed.
Print Assumptions C58_output.

(** a panic *)
Theorem C58_panic : forall page e st toks, (2 <= page)%nat -> agrees e st ->
  ((exists site, answers page e toks (Panic site)) <-> gets_stuck st toks).
Proof.
  intros page e st toks Hp Ha. split.
  - intros [site H]. apply answers_run in H as [_ [n Hn]]; [|assumption].
    pose proof (run_steps n e st toks Ha) as H. unfold result in Hn.
    destruct (snd (run n e (feed toks))); try discriminate. exact H.
  - intros (out & st' & l' & Hs & Hl & Hn). destruct (steps_run _ _ _ _ _ Hs e Ha) as (e' & k & Ha' & Hk).
    destruct l' as [|t l']; [congruence|].
    destruct (step_progress e' st' t l' Ha') as [(o & s2 & l2 & H)|[s H]]; [destruct (Hn _ _ _ H)|].
    exists s. apply answers_run; [assumption|]. split; [discriminate|]. exists (k + 1)%nat.
    rewrite Hk, run_step, H. reflexivity.
Qed.
Print Assumptions C58_panic.

(** no answer *)
Lemma goes_on_running n : forall e st l, agrees e st -> goes_on st l -> snd (run n e (feed l)) = Running.
Proof.
  induction n as [|n IH]; intros e st l Ha Hg; inversion Hg as [s0 l0 out st' l' H Hg' E1 E2]; subst s0 l0;
    destruct (rewrites_cons _ _ _ _ _ H) as (t & r & ->); [reflexivity|].
  destruct (run_cons _ _ _ _ 0%nat _ _ _ Ha H) as (e1 & Ha1 & Hr). rewrite Hr. cbn [prepend snd]. eauto.
Qed.
Lemma running_goes_on : forall e st l, agrees e st -> (forall n, snd (run n e (feed l)) = Running) -> goes_on st l.
Proof.
  cofix CIH. intros e st l Ha Hn. destruct l as [|t l].
  { exfalso. specialize (Hn O). discriminate. }
  destruct (step_progress e st t l Ha) as [(out & st' & l' & H)|[s H]].
  - destruct (run_cons _ _ _ _ 0%nat _ _ _ Ha H) as (e1 & Ha1 & Hr).
    apply (go_step _ _ _ _ _ H). apply (CIH e1); [exact Ha1|].
    intros n. specialize (Hn (S n)). rewrite Hr in Hn. exact Hn.
  - exfalso. specialize (Hn 1%nat). rewrite run_step, H in Hn. discriminate.
Qed.
Theorem C58_endless : forall page e st toks, (2 <= page)%nat -> agrees e st ->
  ((forall r, ~ answers page e toks r) <-> goes_on st toks).
Proof.
  intros page e st toks Hp Ha. split.
  - intros H. apply (running_goes_on e); [exact Ha|]. intros n.
    destruct (snd (run n e (feed toks))) as [|s|] eqn:E; [exfalso|exfalso|reflexivity].
    + apply (H (Ok (fst (run n e (feed toks))))). apply answers_run; [assumption|]. split; [discriminate|].
      exists n. unfold result. now rewrite E.
    + apply (H (Panic s)). apply answers_run; [assumption|]. split; [discriminate|].
      exists n. unfold result. now rewrite E.
  - intros Hg r Hr. apply answers_run in Hr as [Hne [n Hn]]; [|assumption].
    apply Hne. rewrite <- Hn. unfold result. now rewrite (goes_on_running n e st toks Ha Hg).
Qed.
Print Assumptions C58_endless.

(** one step *)
Theorem C58_step : forall e st toks out st' toks', agrees e st -> rewrites st toks out st' toks' ->
  exists e', agrees e' st' /\ becomes e toks out e' toks'.
Proof.
  intros e st toks out st' toks' Ha H. destruct (rewrites_cons _ _ _ _ _ H) as (t & r & ->).
  destruct (run_cons _ _ _ _ 0%nat _ _ _ Ha H) as (e1 & Ha1 & Hr). exists e1. split; [exact Ha1|].
  apply resumes_becomes. exists 1%nat. exact Hr.
Qed.
Print Assumptions C58_step.

(** the steps are determined *)
Theorem C58_one_way : forall e st toks out1 st1 toks1 out2 st2 toks2, agrees e st ->
  rewrites st toks out1 st1 toks1 -> rewrites st toks out2 st2 toks2 ->
  out1 = out2 /\ toks1 = toks2 /\ conds st1 = conds st2 /\ forall name, names st1 name = names st2 name.
Proof.
  intros e st toks o1 s1 l1 o2 s2 l2 Ha H1 H2. destruct (rewrites_cons _ _ _ _ _ H1) as (t & r & ->).
  destruct (step_complete _ _ _ _ _ _ _ Ha H1) as (e1 & E1 & A1).
  destruct (step_complete _ _ _ _ _ _ _ Ha H2) as (e2 & E2 & A2).
  rewrite E1 in E2. injection E2 as <- El <-. apply F_inj in El. split; [reflexivity|]. split; [exact El|].
  split; [now rewrite (ag_conds _ _ A1), (ag_conds _ _ A2)|].
  intros name. now rewrite (ag_names _ _ A1), (ag_names _ _ A2).
Qed.
Print Assumptions C58_one_way.

(** a new engine *)
Theorem C58_initial : agrees engine_new initial.
Proof. exact agrees_new. Qed.
Print Assumptions C58_initial.

(** source texts: what [parse] with macros answers *)
Lemma expanded_iff page sp src out : (2 <= page)%nat ->
  (expanded page sp src out <-> exists ts, lexed sp src ts true /\ expands initial ts out).
Proof.
  intros Hp. split.
  - intros [f0 H]. specialize (H f0 (le_n _)). unfold expand_all in H.
    destruct (expand_sound f0 page engine_new (lex_stream sp src) Hp) as [n Hn]; [congruence|].
    destruct (stream_panics (lex_stream sp src)) eqn:Es.
    { exfalso. rewrite H in Hn. apply (run_bad n engine_new _ Es). unfold result in Hn.
      destruct (snd (run n engine_new (lex_stream sp src))); congruence. }
    exists (stream_toks (lex_stream sp src)). split; [apply C57_stream; auto|].
    apply (C58_output page engine_new initial _ _ Hp agrees_new). apply answers_run; [assumption|].
    split; [discriminate|]. exists n. rewrite <- feed_toks by assumption. congruence.
  - intros (ts & Hl & He). apply C57_stream in Hl as [<- Hs]. change (negb true) with false in Hs.
    apply (C58_output page engine_new initial _ _ Hp agrees_new) in He as [_ [f0 H]]. exists f0.
    intros f Hf. unfold expand_all. rewrite (feed_toks _ Hs). now apply H.
Qed.
Theorem C58_parse : forall page sp src t, (2 <= page)%nat ->
  ((exists fuel, parse_macro fuel page sp src = Ok t) <->
   exists ts out, lexed sp src ts true /\ expands initial ts out /\ reading gm_real sp out t).
Proof.
  intros page sp src t Hp. split.
  - intros [fuel H]. apply parse_macro_reads in H as (out & Ho & H); [|assumption].
    pose proof (expanded_words _ _ _ _ Hp Ho) as Hw.
    apply expanded_iff in Ho as (ts & Hl & He); [|assumption]. exists ts, out. split; [exact Hl|]. split; [exact He|].
    apply (C56_grammar gm_real sp (fuel + parse_fuel out) out t Hw ltac:(lia)).
    eapply parse_fuel_mono; [exact H|discriminate|lia].
  - intros (ts & out & Hl & He & Hr).
    assert (expanded page sp src out) as Ho by (apply expanded_iff; eauto).
    destruct (C56_source true page sp src out Hp Ho) as [f0 Hf]. exists f0. now apply (Hf f0 (le_n _)).
Qed.
Print Assumptions C58_parse.

(** C18, exactly: the expansion of a source panics iff it comes to a definition
    whose name has no backslash or whose body ends in [#] *)
Theorem C18_exact : forall page sp src ts, (2 <= page)%nat -> lexed sp src ts true ->
  ((exists site, answers page engine_new ts (Panic site)) <->
   exists out st dn env how l, steps initial ts out st (cmd dn :: l) /\
     names st dn = Some (Definer env how) /\ refuses env l).
Proof.
  intros page sp src ts Hp Hl. rewrite (C58_panic page engine_new initial ts Hp agrees_new).
  apply stuck_iff; [exact initial_good|]. apply C57_stream in Hl as [<- _]. apply lex_plausible.
Qed.
Print Assumptions C18_exact.

(** C17, exactly: a source has no answer iff its rewriting goes on for ever *)
Theorem C17_exact : forall page sp src ts, (2 <= page)%nat -> lexed sp src ts true ->
  ((forall r, ~ answers page engine_new ts r) <-> goes_on initial ts).
Proof. intros page sp src ts Hp Hl. exact (C58_endless page engine_new initial ts Hp agrees_new). Qed.
Print Assumptions C17_exact.

(** ** Cases *)
Definition C58_toks (s : string) : list tok := stream_toks (lex_stream DEFAULT_SPEC (tx s)).
Lemma C58_by_running n s out : result (run n engine_new (feed (C58_toks s))) = Ok out ->
  expands initial (C58_toks s) out.
Proof.
  intros H. apply (C58_output 2 engine_new initial _ _ (le_n _) agrees_new). apply answers_run; [apply le_n|].
  split; [discriminate|eauto].
Qed.
(** definitions, a default at the end, an environment and a conditional: the
    letters come out as single-letter words *)
Definition letters (s : string) : list tok := map (fun c => (Word, [c])) (tx s).
Definition blank : tok := (Whitespace, [32%N]).
Example C58_example : expands initial (C58_toks
  "\newcommand{\f}[2][d]{#2#1}\newenvironment{v}[1]{+(#1}{)+}\f{a}{b}=\begin{v}{x}b\end{v}-\iffalse u\else v\fi\f{c}")
  (letters "ba=+" ++ [(TLeft Paren, tx "(")] ++ letters "xb" ++ [(TRight Paren, tx ")")] ++ letters "+-" ++
   [(CommandName (CIf IfFalse), tx "\iffalse"); blank] ++ letters "u" ++ [fi_tok; blank] ++ letters "vdc").
Proof.
  apply (C58_by_running 60). vm_compute. reflexivity.
Qed.
(** expansions that get stuck, and that go on for ever *)
Example C58_stuck_example : gets_stuck initial (C58_toks "\newcommand{\a}{b#}").
Proof. apply (C58_panic 2 engine_new initial _ (le_n _) agrees_new). apply (C18_refuted 2 (le_n _)). Qed.
Example C58_endless_example : goes_on initial (C58_toks "\newcommand{\f}[1]{#1#1}\f\f").
Proof. apply (C58_endless 2 engine_new initial _ (le_n _) agrees_new). intros r. apply (C17_refuted 2 r (le_n _)). Qed.
(** a call, by the rules: two arguments of three letters, swapped *)
Example C58_call_example : forall tb, tb (tx "f") = Some (Command 2 None [(MacroArg 2, tx "#"); (MacroArg 1, tx "#")]) ->
  rewrites (mk_state tb []) [cmd (tx "f"); (Word, tx "abc")] [] (mk_state tb [])
    [(Word, tx "b"); (Word, tx "a"); (Word, tx "c")].
Proof.
  intros tb H.
  eapply (rw_call (mk_state tb []) _ (tx "f") _ 2 None _ [[(Word, tx "a")]; [(Word, tx "b")]] 0 [[(Word, tx "a")]; [(Word, tx "b")]]
    [(Word, tx "c")] [(Word, tx "b"); (Word, tx "a")]); [reflexivity|exact H| | |].
  - apply (ar_long_word 1 _ (tx "ab") (tx "c") []); [|reflexivity].
    exists []. split; [constructor|]. split; reflexivity.
  - apply su_all.
  - change [(Word, tx "b"); (Word, tx "a")] with
      (nth (N.to_nat (2 - 1)) [[(Word, tx "a")]; [(Word, tx "b")]] [] ++
       nth (N.to_nat (1 - 1)) [[(Word, tx "a")]; [(Word, tx "b")]] [] ++ []).
    apply in_param; [reflexivity|]. apply in_param; [reflexivity|]. constructor.
Qed.
