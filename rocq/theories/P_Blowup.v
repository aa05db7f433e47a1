(** C75: macro expansion can make the output exponentially longer than the
    source, even without recursion: a family of sources, one for every depth.

    The sources and their conversions are written out here; the meaning of
    macros is that of ExpandSpec.v, through C58. *)
From Verif Require Import Api P_Lex LexFacts LexClass DelimSpec P_Delim P_Macro ParserSource ParserEnd P_Parser P_Conv3 P_Text P_Render GramSpec P_Gram P_Expand ExpandSpec.
Local Open Scope N_scope.

(** calls in calls, [n] deep: [\f{\f{x}}] *)
Fixpoint calls (n : nat) : text := match n with O => tx "x" | S n => tx "\f{" ++ calls n ++ tx "}" end.
Definition doubling (n : nat) : text := tx "\newcommand{\f}[1]{#1 #1}" ++ calls n.
(** what they come to: [x x x x] *)
Fixpoint doubled (n : nat) : text := match n with O => tx "x" | S n => doubled n ++ tx " " ++ doubled n end.

Lemma calls_length n : List.length (calls n) = (1 + 4 * n)%nat.
Proof. induction n as [|n IH]; [reflexivity|]. cbn [calls]. rewrite !app_length, IH. change (List.length (tx "\f{")) with 3%nat. change (List.length (tx "}")) with 1%nat. lia. Qed.
Lemma doubling_length n : List.length (doubling n) = (26 + 4 * n)%nat.
Proof. unfold doubling. rewrite app_length, calls_length. change (List.length (tx "\newcommand{\f}[1]{#1 #1}")) with 25%nat. lia. Qed.
Lemma doubled_length n : (List.length (doubled n) + 1 = 2 ^ (n + 1))%nat.
Proof.
  induction n as [|n IH]; [reflexivity|]. cbn [doubled]. rewrite !app_length. change (List.length (tx " ")) with 1%nat.
  replace (S n + 1)%nat with (S (n + 1)) by lia. cbn [Nat.pow]. lia.
Qed.

(** ** Their tokens *)
Definition xt : tok := (Word, tx "x").
Definition ft : tok := cmd (tx "f").
Definition opt : tok := (TLeft Curly, tx "{").
Definition clt : tok := (TRight Curly, tx "}").
Definition wst : tok := (Whitespace, tx " ").
Fixpoint ctoks (n : nat) : list tok := match n with O => [xt] | S n => ft :: opt :: ctoks n ++ [clt] end.
Fixpoint dtoks (n : nat) : list tok := match n with O => [xt] | S n => dtoks n ++ wst :: dtoks n end.
Definition deft : list tok :=
  [cmd (tx "newcommand"); opt; ft; clt; (TLeft Bracket, tx "["); (Word, tx "1"); (TRight Bracket, tx "]");
   opt; (Hash, tx "#"); (Word, tx "1"); wst; (Hash, tx "#"); (Word, tx "1"); clt].

(** what follows a word: no letter *)
Definition stops (r : text) : Prop := match r with [] => True | c :: _ => is_word_char c = false end.
Section Lex.
  Variable sp : spec.
  Definition reads (src : text) (ts : list tok) (rest : text) : Prop :=
    stream_toks (lex_stream sp src) = ts ++ stream_toks (lex_stream sp rest) /\
    stream_panics (lex_stream sp src) = stream_panics (lex_stream sp rest).
  Lemma reads_one src t raw rest : lex_one sp src = LTok t raw rest -> reads src [t] rest.
  Proof. intros E. unfold reads. rewrite (lex_stream_eq sp src), E. split; reflexivity. Qed.
  Lemma reads_app a ts b us c : reads a ts b -> reads b us c -> reads a (ts ++ us) c.
  Proof. intros [A1 A2] [B1 B2]. split; [rewrite A1, B1, app_assoc; reflexivity|congruence]. Qed.
  Lemma lex_x rest : stops rest -> reads (120 :: rest) [xt] rest.
  Proof.
    intros H. apply (reads_one _ _ (tx "x")). destruct rest as [|c r]; [reflexivity|]. cbn [stops] in H. unfold lex_one.
    change (is_crlf 120) with false. change (is_whitespace 120) with false. change (120 =? 37) with false. change (120 =? 36) with false. change (120 =? 92) with false.
    change (punct_token 120) with (@None token). cbn [span]. change (is_word_char 120) with true. rewrite H. reflexivity.
  Qed.
  Lemma lex_f rest : reads (tx "\f{" ++ rest) [ft; opt] rest.
  Proof.
    apply (reads_app _ [ft] (tx "{" ++ rest) [opt]).
    - apply (reads_one _ _ (tx "\f")). vm_compute. reflexivity.
    - apply (reads_one _ _ (tx "{")). vm_compute. reflexivity.
  Qed.
  Lemma lex_close rest : reads (125 :: rest) [clt] rest.
  Proof. apply (reads_one _ _ (tx "}")). vm_compute. reflexivity. Qed.
  Lemma lex_white r : reads (32 :: 120 :: r) [wst] (120 :: r).
  Proof. apply (reads_one _ _ (tx " ")). vm_compute. reflexivity. Qed.
  Lemma lex_calls n : forall rest, stops rest -> reads (calls n ++ rest) (ctoks n) rest.
  Proof.
    induction n as [|n IH]; intros rest H; [exact (lex_x rest H)|]. cbn [calls ctoks]. rewrite <- !app_assoc.
    apply (reads_app _ [ft; opt] (calls n ++ tx "}" ++ rest)); [apply lex_f|].
    apply (reads_app _ _ (tx "}" ++ rest)); [apply IH; reflexivity|apply lex_close].
  Qed.
  Lemma doubled_starts n : exists r, doubled n = 120 :: r.
  Proof. induction n as [|n [r E]]; [exists []; reflexivity|]. cbn [doubled]. rewrite E. eexists. reflexivity. Qed.
  Lemma lex_doubled n : forall rest, stops rest -> reads (doubled n ++ rest) (dtoks n) rest.
  Proof.
    induction n as [|n IH]; intros rest H; [exact (lex_x rest H)|]. cbn [doubled dtoks]. rewrite <- !app_assoc.
    apply (reads_app _ _ (tx " " ++ doubled n ++ rest)); [apply IH; reflexivity|].
    apply (reads_app _ [wst] (doubled n ++ rest)); [|now apply IH]. destruct (doubled_starts n) as [r ->]. apply lex_white.
  Qed.
  Lemma lex_deft rest : reads (tx "\newcommand{\f}[1]{#1 #1}" ++ rest) deft rest.
  Proof.
    unfold deft.
    apply (reads_app _ [cmd (tx "newcommand")] (tx "{\f}[1]{#1 #1}" ++ rest)); [apply (reads_one _ _ (tx "\newcommand")); vm_compute; reflexivity|].
    apply (reads_app _ [opt] (tx "\f}[1]{#1 #1}" ++ rest)); [apply (reads_one _ _ (tx "{")); vm_compute; reflexivity|].
    apply (reads_app _ [ft] (tx "}[1]{#1 #1}" ++ rest)); [apply (reads_one _ _ (tx "\f")); vm_compute; reflexivity|].
    apply (reads_app _ [clt] (tx "[1]{#1 #1}" ++ rest)); [apply (reads_one _ _ (tx "}")); vm_compute; reflexivity|].
    apply (reads_app _ [(TLeft Bracket, tx "[")] (tx "1]{#1 #1}" ++ rest)); [apply (reads_one _ _ (tx "[")); vm_compute; reflexivity|].
    apply (reads_app _ [(Word, tx "1")] (tx "]{#1 #1}" ++ rest)); [apply (reads_one _ _ (tx "1")); vm_compute; reflexivity|].
    apply (reads_app _ [(TRight Bracket, tx "]")] (tx "{#1 #1}" ++ rest)); [apply (reads_one _ _ (tx "]")); vm_compute; reflexivity|].
    apply (reads_app _ [opt] (tx "#1 #1}" ++ rest)); [apply (reads_one _ _ (tx "{")); vm_compute; reflexivity|].
    apply (reads_app _ [(Hash, tx "#")] (tx "1 #1}" ++ rest)); [apply (reads_one _ _ (tx "#")); vm_compute; reflexivity|].
    apply (reads_app _ [(Word, tx "1")] (tx " #1}" ++ rest)); [apply (reads_one _ _ (tx "1")); vm_compute; reflexivity|].
    apply (reads_app _ [wst] (tx "#1}" ++ rest)); [apply (reads_one _ _ (tx " ")); vm_compute; reflexivity|].
    apply (reads_app _ [(Hash, tx "#")] (tx "1}" ++ rest)); [apply (reads_one _ _ (tx "#")); vm_compute; reflexivity|].
    apply (reads_app _ [(Word, tx "1")] (tx "}" ++ rest)); [apply (reads_one _ _ (tx "1")); vm_compute; reflexivity|].
    apply lex_close.
  Qed.
  Lemma doubling_lexed n : lexed sp (doubling n) (deft ++ ctoks n) true.
  Proof.
    apply C57_stream. assert (H : reads (doubling n) (deft ++ ctoks n) []).
    { apply (reads_app _ _ (calls n)); [apply lex_deft|]. rewrite <- (app_nil_r (calls n)). now apply lex_calls. }
    destruct H as [H1 H2]. rewrite H1, H2. split; [apply app_nil_r|reflexivity].
  Qed.
  Lemma doubled_tokens page n : tokens_of false page sp (doubled n) (dtoks n).
  Proof.
    assert (H : reads (doubled n) (dtoks n) []) by (rewrite <- (app_nil_r (doubled n)); now apply lex_doubled).
    destruct H as [H1 H2]. split; [rewrite H2; reflexivity|]. rewrite H1. symmetry. apply app_nil_r.
  Qed.
End Lex.

(** ** Their expansion *)
Definition fbody : list tok := [(MacroArg 1, tx "#"); wst; (MacroArg 1, tx "#")].
Lemma total_app w a b : total w (a ++ b) = (total w a + total w b)%Z.
Proof. induction a as [|x a IH]; [reflexivity|]. cbn [app total fold_right]. fold (total w (a ++ b)) (total w a). rewrite IH. apply Z.add_assoc. Qed.
Lemma ctoks_balanced n : total curly_weight (ctoks n) = 0%Z.
Proof. induction n as [|n IH]; [reflexivity|]. cbn [ctoks]. change (ft :: opt :: ctoks n ++ [clt]) with ([ft; opt] ++ ctoks n ++ [clt]). rewrite !total_app, IH. reflexivity. Qed.
Lemma ctoks_inside n : forall a1 y b1, ctoks n = a1 ++ y :: b1 -> (0 <= total curly_weight a1)%Z /\ (fst y = TRight Curly -> (0 < total curly_weight a1)%Z).
Proof.
  induction n as [|n IH]; intros a1 y b1 E.
  - destruct a1 as [|z [|]]; try discriminate E. injection E as <- <-. split; [apply Z.le_refl|intros X; discriminate X].
  - destruct a1 as [|z a1]; [injection E as <- _; split; [apply Z.le_refl|intros X; discriminate X]|].
    destruct a1 as [|z' a1]; [injection E as <- <- _; split; [apply Z.le_refl|intros X; discriminate X]|].
    injection E as <- <- E. change (ft :: opt :: a1) with ([ft; opt] ++ a1). rewrite total_app. change (total curly_weight [ft; opt]) with 1%Z.
    assert (H : (0 <= total curly_weight a1)%Z); [|lia].
    destruct b1 as [|z b1 _] using rev_ind.
    + apply app_inj_tail in E as [<- _]. rewrite ctoks_balanced. apply Z.le_refl.
    + rewrite app_comm_cons, app_assoc in E. apply app_inj_tail in E as [E _]. exact (proj1 (IH _ _ _ E)).
Qed.
Lemma ctoks_enclosed n rest : enclosed Curly (ctoks n ++ clt :: rest) (ctoks n) rest.
Proof.
  exists (clt :: rest). split; [|reflexivity]. split; [reflexivity|]. split.
  - intros a1 y b1 E Hy H0. apply ctoks_inside in E as [_ H]. symmetry in Hy. specialize (H Hy). lia.
  - split; [reflexivity|apply ctoks_balanced].
Qed.
Lemma at_once t l : is_trivia (fst t) = false -> past_trivia (t :: l) (t :: l).
Proof. intros H. exists []. split; [constructor|]. split; [reflexivity|exact H]. Qed.

Lemma steps_app st l o st1 l1 o' st2 l2 : steps st l o st1 l1 -> steps st1 l1 o' st2 l2 -> steps st l (o ++ o') st2 l2.
Proof. intros H. revert o' l2 st2. induction H; intros o2 l3 st3 H2; [exact H2|]. rewrite <- app_assoc. eapply st_step; [eassumption|auto]. Qed.
Lemma steps_one st l o st1 l1 : rewrites st l o st1 l1 -> steps st l o st1 l1.
Proof. intros H. rewrite <- (app_nil_r o). eapply st_step; [exact H|constructor]. Qed.

Lemma calls_steps st n : names st (tx "f") = Some (Command 1 None fbody) -> forall rest, steps st (ctoks n ++ rest) (dtoks n) st rest.
Proof.
  intros Hf. induction n as [|n IH]; intros rest.
  - apply steps_one. apply (rw_copy st xt rest); [intros [[i X]|[X|X]]; [destruct i; discriminate X|discriminate X|discriminate X]|discriminate|discriminate].
  - cbn [ctoks dtoks]. cbn [app]. rewrite <- app_assoc.
    apply (steps_app _ _ [] st (ctoks n ++ wst :: ctoks n ++ rest)).
    + apply steps_one. replace (ctoks n ++ wst :: ctoks n ++ rest) with ((ctoks n ++ wst :: ctoks n ++ []) ++ rest) by (rewrite app_nil_r, <- !app_assoc; cbn [app]; rewrite <- ?app_assoc; reflexivity).
      apply (rw_call st 92 (tx "f") _ 1 None fbody [ctoks n] 0 [ctoks n]); [reflexivity|exact Hf| | |].
      * apply (ar_group 0 _ opt (ctoks n ++ [clt] ++ rest) (ctoks n) rest); [now apply at_once|reflexivity|apply ctoks_enclosed|constructor].
      * constructor.
      * apply (in_param [ctoks n] 1 (tx "#") [wst; (MacroArg 1, tx "#")]); [reflexivity|].
        apply in_tok; [intros i X; discriminate X|intros X; discriminate X|].
        apply (in_param [ctoks n] 1 (tx "#") []); [reflexivity|constructor].
    + eapply steps_app; [apply IH|]. apply (steps_app st _ [wst] st (ctoks n ++ rest)); [|apply IH].
      apply steps_one. apply (rw_copy st wst); [intros [[i X]|[X|X]]; [destruct i; discriminate X|discriminate X|discriminate X]|discriminate|discriminate].
Qed.
Lemma def_step l : exists st, names st (tx "f") = Some (Command 1 None fbody) /\ rewrites initial (deft ++ l) [] st l.
Proof.
  exists (mk_state (bind_name (tx "f") (Command 1 None fbody) (names initial)) []). split; [reflexivity|].
  apply (rw_define initial 92 (tx "newcommand") _ false New (tx "f") (Command 1 None fbody) (bind_name (tx "f") (Command 1 None fbody) (names initial)) [] l); [reflexivity|vm_compute; reflexivity| |].
  - eapply (de_command false _ (tx "f") _ 1 None _ _ fbody); [reflexivity| | | |].
    + eapply (nm_braced false _ opt); [now apply at_once|reflexivity| |].
      * eapply (sg_closed Curly _ ft _ clt); [now apply at_once|now apply at_once|reflexivity].
      * apply na_command. reflexivity.
    + eapply (si_count (TLeft Bracket, tx "[") _ (tx "1")); [reflexivity| | |].
      * eapply (sg_closed Bracket); [now apply at_once|now apply at_once|reflexivity].
      * exists [], [], 49. split; [now left|]. split; [constructor|]. split; [lia|]. split; reflexivity.
      * intros y r [= <- _]. discriminate.
    + eapply (bo_group opt _ [(Hash, tx "#"); (Word, tx "1"); wst; (Hash, tx "#"); (Word, tx "1")] l); [reflexivity|]. exists (clt :: l). split; [|reflexivity].
      split; [reflexivity|]. split; [|split; reflexivity].
      intros a1 y b1 E Hy. exfalso. assert (I : In y [(Hash, tx "#"); (Word, tx "1"); wst; (Hash, tx "#"); (Word, tx "1")]) by (rewrite E; apply in_elt).
      repeat (destruct I as [<- |I]; [discriminate Hy|]). exact I.
    + exists [(MacroArg 1, tx "#"); (Word, []); wst; (MacroArg 1, tx "#"); (Word, [])], true. split; [|reflexivity].
      apply (mk_param (tx "#") 49 [] [wst; (Hash, tx "#"); (Word, tx "1")] [wst; (MacroArg 1, tx "#"); (Word, [])] true); [split; discriminate|].
      apply (mk_tok wst); [discriminate|]. apply (mk_param (tx "#") 49 [] [] [] false); [split; discriminate|constructor].
  - apply up_ok. left. split; [reflexivity|vm_compute; reflexivity].
Qed.
Lemma doubling_tokens page sp n : (2 <= page)%nat -> tokens_of true page sp (doubling n) (dtoks n).
Proof.
  intros Hp. apply expanded_iff; [exact Hp|]. exists (deft ++ ctoks n). split; [apply doubling_lexed|].
  destruct (def_step (ctoks n)) as (st & Hf & H). exists st. apply (st_step _ _ [] st (ctoks n)); [exact H|].
  rewrite <- (app_nil_r (ctoks n)). now apply calls_steps.
Qed.

(** ** Their conversion *)
Lemma doubled_bare n c : In c (doubled n) -> c = 120 \/ c = 32.
Proof. induction n as [|n IH]; cbn [doubled]; intros H; [destruct H as [<- |[]]; now left|]. rewrite !in_app_iff in H. destruct H as [H|[[<- |[]]|H]]; auto. Qed.

(** a source of 26 + 4n characters, without recursive macros, whose conversion
    has 2^(n+1) - 1 characters *)
Theorem C75_blowup : forall page sp n, (2 <= page)%nat ->
  exists f0, forall fuel, (f0 <= fuel)%nat ->
    convert_source true MText fuel page (doubling n) sp = COk (doubled n) /\
    List.length (doubling n) = (26 + 4 * n)%nat /\ (List.length (doubled n) + 1 = 2 ^ (n + 1))%nat.
Proof.
  intros page sp n Hp. destruct (C30_unchanged false page sp (doubled n) Hp) as [f1 H1].
  { intros c Hc Hin. destruct (doubled_bare _ _ Hc) as [-> | ->]; cbn in Hin; repeat (destruct Hin as [Hin|Hin]; [discriminate Hin|]); exact Hin. }
  pose proof (doubling_tokens page (spec_or_default sp) n Hp) as T1. pose proof (doubled_tokens (spec_or_default sp) page n) as T2.
  destruct (C56_source _ _ _ _ _ Hp T1) as [f2 H2]. destruct (C56_source _ _ _ _ _ Hp T2) as [f3 H3].
  exists (Nat.max f1 (Nat.max f2 f3)). intros fuel L. split; [|split; [apply doubling_length|apply doubled_length]].
  specialize (H1 fuel ltac:(lia)). specialize (H2 fuel ltac:(lia)). specialize (H3 fuel ltac:(lia)).
  destruct (tree_of_convert _ _ _ _ _ _ _ H1) as [(t & P & C)|[(s & _ & E)|E]]; try discriminate E.
  apply (proj1 H3) in P. apply (proj1 H2) in P. rewrite (convert_of_tree _ _ _ _ _ _ _ P). exact C.
Qed.
Print Assumptions C75_blowup.
Example C75_case : doubling 3 = tx "\newcommand{\f}[1]{#1 #1}\f{\f{\f{x}}}" /\ doubled 3 = tx "x x x x x x x x".
Proof. split; reflexivity. Qed.
