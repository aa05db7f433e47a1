(** C17 (termination of expansion), C18 (no panic of the expander), C20 (what is
    delivered has nothing left to expand).  Vocabulary: [MacroSpec.v]. *)
From Verif Require Import Spec DefaultSpec LexClass MacroFacts MacroSteps MacroUse MacroInv MacroTerm P_Macro.
Local Open Scope N_scope.

(** ** Tokens of the lexer *)
Lemma lex_one_cmd sp src k w raw rest : lex_one sp src = LTok (CommandName k, w) raw rest -> exists l, src = 92 :: l.
Proof.
  destruct src as [|c r]; [discriminate|]. unfold lex_one.
  destruct (is_crlf c); [destruct (span _ _); discriminate|].
  destruct (is_whitespace c); [destruct (span _ _); discriminate|].
  destruct (c =? 37); [destruct (span _ _); discriminate|].
  destruct (c =? 36); [destruct r as [|c' r']; [|destruct (c' =? 36)]; discriminate|].
  destruct (N.eqb_spec c 92) as [->|Hc]; [eauto|].
  destruct (punct_token c) as [k'|] eqn:Ep.
  - intros [= E _ _ _]. now apply (punct_not_cmd c k' Ep) in E.
  - destruct (span _ _); discriminate.
Qed.
Lemma lex_one_plausible sp src t raw rest : lex_one sp src = LTok t raw rest -> plausible t.
Proof.
  intros H. destruct (lex_one_kind sp src t raw rest H) as [_ Hm].
  unfold plausible. destruct t as [k w]. simpl in *. destruct k; try exact I; [|exfalso; eapply Hm; reflexivity].
  destruct (lex_one_cmd _ _ _ _ _ _ H) as [l ->]. destruct (lex_one_tok _ _ _ _ _ H) as [E [Hne Hl]].
  assert (exists l', raw = 92 :: l') as [l' ->].
  { destruct raw as [|x raw]; [contradiction|]. injection E as <- _. eauto. }
  simpl in Hl. destruct c; try exact I; eauto.
Qed.
Lemma lex_plausible sp src : Forall plausible (stream_toks (lex_stream sp src)).
Proof.
  induction src as [src IH] using (lex_stream_ind sp). rewrite lex_stream_eq.
  destruct (lex_one sp src) as [|s|t raw rest] eqn:E; simpl; constructor.
  - now apply lex_one_plausible in E.
  - apply IH. apply lex_one_tok in E as [-> [Hne _]]. rewrite app_length. destruct raw; [contradiction|]. simpl. lia.
Qed.
Lemma clean_feed (P : tok -> Prop) l : Forall P l -> clean P (feed l).
Proof. intros H. apply clean_push; [exact H|exact I]. Qed.

(** ** C17 *)
Lemma loops_forever e s e1 t r c out : resumes e s out e1 (SCons t r) ->
  step e1 (mk_ictx (Some t) r) t = Ok (e1, c, []) -> flat c = SCons t r ->
  forall n, result (run n e s) = Fuel.
Proof.
  intros [k Hk] Hstep Hc n. unfold result. set (s1 := SCons t r).
  assert (H0 : run 0 e1 s1 = ([], Running)) by reflexivity.
  assert (H1 : forall n, run (S n) e1 s1 = prepend [] (run n e1 s1)).
  { intros m. unfold s1 at 1. cbn [run]. rewrite Hstep, Hc. reflexivity. }
  assert (Hr : forall m, snd (run m e1 s1) = Running).
  { induction m as [|m IH]; [now rewrite H0|]. rewrite H1. exact IH. }
  assert (snd (run n e s) = Running) as ->; [|reflexivity].
  eapply (run_running_le (k + n)); [|lia]. rewrite Hk. apply Hr.
Qed.
(** Expansion need not terminate: a macro that calls itself, and a macro that
    calls nothing but uses its parameter twice. *)
Definition self_call : text := tx "\newcommand{\a}{\a}\a".
Definition self_apply : text := tx "\newcommand{\f}[1]{#1#1}\f\f".
Definition state_after (n : nat) (src : text) : engine :=
  (fix go n e s := match n with
     | O => e
     | S n => match s with SCons t r => match step e (mk_ictx (Some t) r) t with
                | Ok (e', c', _) => go n e' (flat c') | _ => e end | _ => e end
     end) n engine_new (lex_stream DEFAULT_SPEC src).
Theorem C17_refuted : forall page r, (2 <= page)%nat ->
  ~ answers page engine_new (stream_toks (lex_stream DEFAULT_SPEC self_call)) r /\
  ~ answers page engine_new (stream_toks (lex_stream DEFAULT_SPEC self_apply)) r.
Proof.
  intros page r Hp. split; intros [Hne [n Hn]]%answers_run; auto; apply Hne; rewrite <- Hn.
  - eapply (loops_forever _ _ (state_after 1 self_call) (cmd (tx "a")) SNil _ []);
      [eapply resumes_step| |]; vm_compute; reflexivity.
  - eapply (loops_forever _ _ (state_after 1 self_apply) (cmd (tx "f")) (feed [cmd (tx "f")]) _ []);
      [eapply resumes_step| |]; vm_compute; reflexivity.
Qed.
Print Assumptions C17_refuted.
(** It terminates for texts without definition commands when no macro leads back
    to itself and none uses a parameter twice.  Missing: texts with definition
    commands, macros that use a parameter twice (false in general, see above). *)
Theorem C17_terminates_partial : forall page e toks, (2 <= page)%nat ->
  acyclic e -> linear e ->
  stored e (fun t => plausible t /\ ~ definer e t) -> Forall (fun t => plausible t /\ ~ definer e t) toks ->
  exists out, answers page e toks (Ok out).
Proof.
  intros page e toks Hp Ha Hl Hs Ht. destruct (run_terminates e Ha Hl Hs) as [W HW].
  specialize (HW _ e (feed toks) eq_refl (clean_feed _ _ Ht) (le_n _)).
  eexists. apply answers_run; [exact Hp|]. split; [|eexists; unfold result; rewrite HW; reflexivity]. congruence.
Qed.
Print Assumptions C17_terminates_partial.
Lemma engine_new_macros name m : get_macro name engine_new = Some m -> exists d, m = MDeclare d.
Proof.
  unfold get_macro, sm_get. intros H.
  assert (Hall : Forall (fun x => exists d, snd x = MDeclare d) (sm_map (en_macros engine_new))).
  { vm_compute. repeat constructor; eexists; reflexivity. }
  revert H. induction Hall as [|[k v] l [d Hd] _ IH]; simpl; [discriminate|].
  destruct (teqb name k); [intros [= <-]; simpl in Hd; eauto|exact IH].
Qed.
Lemma engine_new_called t : called engine_new t = None.
Proof.
  unfold called. destruct t as [[] w]; try reflexivity.
  assert (Hc : forall name, match get_macro name engine_new with Some (MCmd c) => Some (MCmd c) | _ => None end = None).
  { intros name. destruct (get_macro name engine_new) eqn:E; [|reflexivity]. apply engine_new_macros in E as [d ->]. reflexivity. }
  assert (He : forall name, match get_macro name engine_new with Some (MEnv c) => Some (MEnv c) | _ => None end = None).
  { intros name. destruct (get_macro name engine_new) eqn:E; [|reflexivity]. apply engine_new_macros in E as [d ->]. reflexivity. }
  destruct c; try reflexivity; auto. destruct w as [|x w]; [reflexivity|].
  destruct x as [|p]; [reflexivity|]. repeat (destruct p as [p|p|]; try reflexivity). apply Hc.
Qed.
(** For a source text without definition commands nothing else is needed. *)
Theorem C17_source : forall page sp src, (2 <= page)%nat ->
  Forall (fun t => ~ definer engine_new t) (stream_toks (lex_stream sp src)) ->
  exists out, answers page engine_new (stream_toks (lex_stream sp src)) (Ok out).
Proof.
  intros page sp src Hp H. apply C17_terminates_partial; auto.
  - exists (fun _ => O). intros t m u E. rewrite engine_new_called in E. discriminate.
  - intros t m E. rewrite engine_new_called in E. discriminate.
  - intros name m E. apply engine_new_macros in E as [d ->]. constructor.
  - pose proof (lex_plausible sp src) as Hl. rewrite Forall_forall in *. auto.
Qed.
Print Assumptions C17_source.

(** ** C18 *)
Theorem C18_refuted : forall page, (2 <= page)%nat ->
  (exists site, answers page engine_new (stream_toks (lex_stream DEFAULT_SPEC (tx "\newcommand{\a}{b#}"))) (Panic site)) /\
  (exists site, answers page engine_new (stream_toks (lex_stream DEFAULT_SPEC (tx "\newcommand{\begin{a}}{b}"))) (Panic site)).
Proof.
  intros page Hp; split; eexists; apply answers_run; try exact Hp; (split; [congruence|]); exists 9%nat; vm_compute; reflexivity.
Qed.
Print Assumptions C18_refuted.
Lemma never_panics (P : tok -> Prop) e toks fuel page site : (2 <= page)%nat ->
  (forall w, P (Word, w)) -> (forall t, P t -> plausible t) ->
  stays_clean P \/ (forall t, P t -> ~ definer e t) ->
  stored e P -> Forall P toks -> expand_stream fuel page e (feed toks) <> Panic site.
Proof.
  intros Hp Hw Hpl Hd Hs Ht E. destruct (expand_sound fuel page e (feed toks) Hp) as [n Hn]; [congruence|].
  rewrite E in Hn. apply stored_ok in Hs.
  destruct (run_no_panic P Hw Hpl n e (feed toks) (clean_feed _ _ Ht) Hs Hd) as [[H|H] _];
    unfold result in Hn; rewrite H in Hn; discriminate.
Qed.
(** The expander never panics, however long it runs, on
    - texts without the parameter character and without environment delimiters
      (definitions and recursion included);
    - texts without definition commands.
    Missing: definitions with parameters (a trailing [#] panics), definitions
    whose name is an environment delimiter (panics). *)
Definition unmarked (t : tok) : Prop :=
  plausible t /\ fst t <> Hash /\ fst t <> CommandName BeginEnvironment /\ fst t <> CommandName EndEnvironment.
Theorem C18_definitions_partial : forall fuel page e toks site, (2 <= page)%nat ->
  stored e unmarked -> Forall unmarked toks -> expand_stream fuel page e (feed toks) <> Panic site.
Proof.
  intros fuel page e toks site Hp Hs Ht. apply (never_panics unmarked); auto.
  - intros w. repeat split; discriminate.
  - intros t H. apply H.
  - left. split; intros t H; repeat split; apply H.
Qed.
Print Assumptions C18_definitions_partial.
Theorem C18_uses_partial : forall fuel page e toks site, (2 <= page)%nat ->
  stored e (fun t => plausible t /\ ~ definer e t) -> Forall (fun t => plausible t /\ ~ definer e t) toks ->
  expand_stream fuel page e (feed toks) <> Panic site.
Proof.
  intros fuel page e toks site Hp Hs Ht. apply (never_panics (tame e)); auto.
  - intros w. apply tame_word.
  - intros t H. apply H.
  - right. intros t H. apply H.
Qed.
Print Assumptions C18_uses_partial.
(** For sources: no [#], no [\begin], no [\end]. *)
Theorem C18_source_partial : forall fuel page sp src site, (2 <= page)%nat ->
  Forall (fun t => fst t <> Hash /\ fst t <> CommandName BeginEnvironment /\ fst t <> CommandName EndEnvironment)
    (stream_toks (lex_stream sp src)) ->
  expand_stream fuel page engine_new (feed (stream_toks (lex_stream sp src))) <> Panic site.
Proof.
  intros fuel page sp src site Hp H. apply C18_definitions_partial; auto.
  - intros name m E. apply engine_new_macros in E as [d ->]. constructor.
  - pose proof (lex_plausible sp src) as Hl. rewrite Forall_forall in *. split; auto.
Qed.
Print Assumptions C18_source_partial.

(** ** C20.  What is delivered has nothing left to expand. *)
Theorem C20_normal_form : forall page e toks out, (2 <= page)%nat ->
  stored e (fun t => plausible t /\ ~ definer e t) -> Forall (fun t => plausible t /\ ~ definer e t) toks ->
  answers page e toks (Ok out) -> Forall (fun t => ~ expandable e t) out.
Proof.
  intros page e toks out Hp Hs Ht H. apply answers_run in H as [_ [n Hn]]; [|exact Hp].
  apply stored_ok in Hs.
  destruct (run_no_panic (tame e) (tame_word e) (fun t H => proj1 H) n e (feed toks) (clean_feed _ _ Ht) Hs)
    as [_ H2]; [right; intros t H; apply H|].
  unfold result in Hn. destruct (snd (run n e (feed toks))); try discriminate. injection Hn as <-.
  apply H2. intros t H. apply H.
Qed.
Print Assumptions C20_normal_form.

(** ** The hypotheses hold for a state reached by two definitions *)
Definition two_macros : engine :=
  state_after 2 (tx "\newcommand{\f}[2]{#2-#1}\newcommand{\g}[1]{\f{#1}{z}}").
Lemma table_all (Q : text -> macro -> Prop) e :
  Forall (fun x => Q (fst x) (snd x)) (sm_map (en_macros e)) -> forall name m, get_macro name e = Some m -> Q name m.
Proof.
  unfold get_macro, sm_get. intros H name m. induction H as [|[k v] l Hx _ IH]; simpl; [discriminate|].
  destruct (teqb name k) eqn:E; [apply teqb_eq in E; intros [= <-]; subst k; exact Hx|exact IH].
Qed.
Lemma called_get e t m : called e t = Some m -> exists name, get_macro name e = Some m /\
  ((t = cmd name /\ exists c, m = MCmd c) \/ (t = begin_ name /\ exists v, m = MEnv v)).
Proof.
  unfold called. destruct t as [k w]. destruct k; try discriminate. destruct c; try discriminate.
  - destruct w as [|x w]; [discriminate|]. destruct (N.eqb_spec x 92) as [->|Hx].
    + destruct (get_macro w e) as [[]|] eqn:E; try discriminate. intros [= <-]. exists w. eauto 6.
    + intros H. exfalso. destruct x as [|p]; [discriminate|]. repeat (destruct p as [p|p|]; try discriminate). congruence.
  - destruct (get_macro w e) as [[]|] eqn:E; try discriminate. intros [= <-]. exists w. eauto 6.
Qed.
Lemma tame_check e k w : (match k with
    | CommandName Generic => match w with
        | 92 :: w => match get_macro w e with Some (MDeclare _) => False | _ => True end
        | _ => False
        end
    | CommandName _ => False
    | MacroArg n => 0 < n
    | _ => True
    end) -> plausible (k, w) /\ ~ definer e (k, w).
Proof.
  intros H. split.
  - unfold plausible. simpl. destruct k; auto. destruct c; try contradiction. destruct w as [|x w]; [contradiction|].
    destruct x as [|p]; [contradiction|]. repeat (destruct p as [p|p|]; try contradiction). eauto.
  - intros (n & d & [= -> ->] & E). rewrite E in H. exact H.
Qed.
Ltac all_tame :=
  match goal with |- Forall ?P ?l => let l' := eval vm_compute in l in
    let H := fresh in assert (H : l = l') by (vm_compute; reflexivity); rewrite H; clear H end;
  repeat (apply Forall_cons; [apply tame_check; vm_compute; first [exact I|reflexivity]|]); apply Forall_nil.
Example C17_example : acyclic two_macros /\ linear two_macros /\
  stored two_macros (fun t => plausible t /\ ~ definer two_macros t) /\
  Forall (fun t => plausible t /\ ~ definer two_macros t) (stream_toks (lex_stream DEFAULT_SPEC (tx "\g{\g{x}}y"))) /\
  answers 170 two_macros (stream_toks (lex_stream DEFAULT_SPEC (tx "\g{\g{x}}y")))
    (Ok [(Word, tx "z"); (Word, tx "-"); (Word, tx "z"); (Word, tx "-"); (Word, tx "x"); (Word, tx "y")]).
Proof.
  assert (Hm : forall name m, get_macro name two_macros = Some m ->
     (name = tx "f" /\ m = match get_macro (tx "f") two_macros with Some m => m | None => MDeclare AtEndOfClass end) \/
     (name = tx "g" /\ m = match get_macro (tx "g") two_macros with Some m => m | None => MDeclare AtEndOfClass end) \/
     exists d, m = MDeclare d).
  { apply (table_all (fun name m => _ \/ _ \/ _)). vm_compute.
    repeat (apply Forall_cons; [first [left; split; reflexivity|right; left; split; reflexivity|right; right; eexists; reflexivity]|]). apply Forall_nil. }
  refine (conj _ (conj _ (conj _ (conj _ _)))).
  - exists (fun t => if teqb (snd t) (tx "\g") then 1%nat else 0%nat).
    intros t m u E Hu Hc. apply called_get in E as (name & Eg & Et).
    destruct (Hm _ _ Eg) as [[-> ->]|[[-> ->]|[d ->]]]; [| |contradiction].
    + exfalso. vm_compute in Hu. decompose [or] Hu; subst; vm_compute in Hc; try congruence; contradiction.
    + assert (t = cmd (tx "g")) as ->.
      { destruct Et as [[-> _]|[_ [v Ev]]]; [reflexivity|]. vm_compute in Ev. discriminate. }
      vm_compute in Hu. decompose [or] Hu; subst; vm_compute in Hc; try congruence; try contradiction; vm_compute; lia.
  - intros t m E. apply called_get in E as (name & Eg & _).
    destruct (Hm _ _ Eg) as [[-> ->]|[[-> ->]|[d ->]]]; vm_compute; repeat constructor; simpl; intuition congruence.
  - intros name m Eg. destruct (Hm _ _ Eg) as [[-> ->]|[[-> ->]|[d ->]]]; [| |constructor];
      all_tame.
  - all_tame.
  - reads 60%nat.
Qed.
(** ... and C18 for a text with definitions and a call *)
Example C18_example : Forall (fun t => fst t <> Hash /\ fst t <> CommandName BeginEnvironment /\ fst t <> CommandName EndEnvironment)
    (stream_toks (lex_stream DEFAULT_SPEC (tx "\newcommand{\a}{\a}\iftrue\a\fi"))).
Proof. vm_compute. repeat constructor; discriminate. Qed.
