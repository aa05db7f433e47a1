(** C78: in a text, braces around something make no difference. *)
From Verif Require Import Api ConvSpec ConvFacts ConvTerm ParserTotal ParserSource ParserEnd ParserShape GramSpec GramSound GramComplete P_Parser P_Gram P_Conv P_Conv3 P_Conv4 RenderAll P_Render.
From Verif Require Import ShieldFacts FormulaFacts RenderSpec P_Shield P_Shield2 P_Formula GramSpec ShieldSpec FormulaSpec.
Local Open Scope nat_scope.

Lemma group_closed gm sp x g : content_of_group x -> group_of gm sp x g -> exists ch, g = Node ItemCurly (lf lbrace :: ch ++ [lf rbrace]).
Proof.
  intros Hx H. pose proof (group_kind _ _ _ _ H) as Hk. specialize (H []). inversion H as [q t k r l t' r' B Hco Hcl|q t k r l r' B Hco Hcl]; subst.
  - cbn [tkind] in Hk. subst k. exists (GramSpec.all l). destruct (proj1 (shield gm sp rbrace eq_refl) _ _ _ _ _ _ Hco ltac:(discriminate) 0 x [] eq_refl Hx) as (u & E & _).
    destruct u as [|t0 u]; cbn in E; [now injection E as ->|]. injection E as _ E. destruct u; discriminate E.
  - exfalso. destruct (proj1 (shield gm sp rbrace eq_refl) _ _ _ _ _ _ Hco ltac:(discriminate) 0 x [] eq_refl Hx) as (u & E & _). destruct u; discriminate E.
Qed.
Lemma braces_convert sp ch o : converts_to sp MText (Node ScopeRoot ch) o ->
  converts_to sp MText (Node ScopeRoot [Node ItemCurly (lf lbrace :: ch ++ [lf rbrace])]) (framed [] [] o).
Proof.
  intros R. apply root_renders in R. apply root_renders. cbn [map].
  assert (I : forall o', comes_to sp c0 (map (Put (outermost MText)) (lf lbrace :: ch ++ [lf rbrace])) o' ->
    renders sp (outermost MText) c0 (Node ItemCurly (lf lbrace :: ch ++ [lf rbrace])) o').
  { intros o' Ho. econstructor; [apply la_group; now left|]. exact Ho. }
  cbn [map] in I. rewrite map_app in I. cbn [map app] in I.
  destruct o as [c x|er|]; cbn [framed app].
  - rewrite app_nil_r.
    assert (I' : renders sp (outermost MText) c0 (Node ItemCurly (lf lbrace :: ch ++ [lf rbrace])) (Written (mk_carry false (waiting c)) x)).
    { apply I. change (Written ?k x) with (RenderSpec.before [] (Written k x)). eapply ct_put; [apply (quiet_renders sp lbrace); reflexivity|].
      rewrite <- (app_nil_r x). change (Written ?k (x ++ [])) with (RenderSpec.before x (Written k [])). eapply comes_app; [exact R|].
      change (Written ?k []) with (RenderSpec.before [] (Written k [])). eapply ct_put; [apply (quiet_renders sp rbrace); reflexivity|apply ct_end]. }
    rewrite <- (app_nil_r x). change (Written ?k (x ++ [])) with (RenderSpec.before x (Written k [])). eapply ct_put; [exact I'|apply ct_end].
  - apply ct_put_failed. apply I. change (Failed er) with (RenderSpec.before [] (Failed er)). eapply ct_put; [apply (quiet_renders sp lbrace); reflexivity|].
    apply comes_bad; [exact R|constructor].
  - apply ct_put_crashed. apply I. change Crashed with (RenderSpec.before [] Crashed). eapply ct_put; [apply (quiet_renders sp lbrace); reflexivity|].
    apply comes_bad; [exact R|constructor].
Qed.

(* ------------------------------------------------------------------ *)
(** * C78: braces around a text *)
(** [src] are the tokens [ts], [src'] the tokens [{ts}]: what is in the group of
    [src'] is exactly the document [src], ... *)
Theorem C78_tree : forall macros page sp src src' ts t', 2 <= page ->
  tokens_of macros page sp src ts -> tokens_of macros page sp src' (braced ts) -> content_of_group ts -> argued sp ts ->
  (exists fuel, parse_source macros fuel page sp src' = Ok t') ->
  exists ch f0, t' = Node ScopeRoot [Node ItemCurly (lf lbrace :: ch ++ [lf rbrace])] /\
    forall fuel, f0 <= fuel -> parse_source macros fuel page sp src = Ok (Node ScopeRoot ch).
Proof.
  intros macros page sp src src' ts t' Hp Ht Ht' Hc Ar [fuel' Hf].
  destruct (parse_source_reads _ _ _ _ _ _ Hp Hf) as (ts' & Hts' & Hl). assert (ts' = braced ts) as -> by (eapply tokens_functional; eauto). clear Hts'.
  destruct (C56_source _ _ _ _ _ Hp Ht) as [f2 H2].
  assert (R : reading gm_real sp (braced ts) t') by (eapply complete; [eapply tokens_words; eauto|exact Hl]).
  pose proof R as R'. replace (braced ts) with (List.concat (map braced [ts])) in R' by (cbn [map List.concat]; apply app_nil_r).
  apply reading_braces in R' as (gs & Hg & ->); [|now constructor]. inversion Hg as [|x1 g xs1 gs1 G1 G2]; subst. inversion G2; subst.
  destruct (group_closed _ _ _ _ Hc G1) as [ch ->]. exists ch, f2. split; [reflexivity|]. intros fuel L. apply (proj1 (H2 fuel L)).
  apply (one_formula gm_real sp Braces ItemCurly lbrace rbrace); [split; [reflexivity|]; cbn; auto 6|exact Ar|now right|exact R].
Qed.
Print Assumptions C78_tree.
(** ... and the two are converted alike as texts, to the same output or with the
    same error. *)
Theorem C78_output : forall macros page sp src src' ts, 2 <= page ->
  tokens_of macros page (spec_or_default sp) src ts -> tokens_of macros page (spec_or_default sp) src' (braced ts) ->
  content_of_group ts -> argued (spec_or_default sp) ts ->
  exists f0, forall fuel, f0 <= fuel -> (exists t', parse_source macros fuel page (spec_or_default sp) src' = Ok t') ->
    (forall o, convert_source macros MText fuel page src' sp = COk o <-> convert_source macros MText fuel page src sp = COk o) /\
    (forall er, convert_source macros MText fuel page src' sp = CErr er <-> convert_source macros MText fuel page src sp = CErr er) /\
    ((exists n, convert_source macros MText fuel page src' sp = CPanic n) <-> exists n, convert_source macros MText fuel page src sp = CPanic n).
Proof.
  intros macros page sp src src' ts Hp Ht Ht' Hc Ar.
  destruct (C56_source _ _ _ _ _ Hp Ht) as [f0 H0]. exists f0. intros fuel L [t' Hf].
  destruct (C78_tree _ _ _ _ _ _ _ Hp Ht Ht' Hc Ar (ex_intro _ fuel Hf)) as (ch & f1 & -> & H1).
  assert (Hs : parse_source macros fuel page (spec_or_default sp) src = Ok (Node ScopeRoot ch)).
  { pose proof (H1 (Nat.max f0 f1) ltac:(lia)) as K. apply (proj1 (H0 (Nat.max f0 f1) ltac:(lia))) in K. now apply (proj1 (H0 fuel L)). }
  rewrite (convert_of_tree _ _ _ _ _ _ _ Hs), (convert_of_tree _ _ _ _ _ _ _ Hf).
  pose proof (C59_parsed _ _ _ _ _ _ Hp Hs) as W1. pose proof (C59_parsed _ _ _ _ _ _ Hp Hf) as W2.
  destruct (outcome_same DEFAULT_SPEC MText MText [] [] _ _ W1 W2) as (A & B & C); [intros o; apply braces_convert|].
  split; [|split; [exact B|exact C]]. intros o. rewrite A. cbn [app]. split; [intros (x & Hx & ->); now rewrite app_nil_r|]. intros Hx. exists o. now rewrite app_nil_r.
Qed.
Print Assumptions C78_output.

(** A case that meets the hypotheses. *)
Definition C78_body : text := tx "Let $x_{1}$ be \textbf{bold {and} more}, \begin{itemize} \item one \item $\begin{array}{c} y \end{array}$ \end{itemize}\label{k}.".
Example C78_example :
  tokens_of false PAGE DEFAULT_SPEC C78_body (C77_toks C78_body) /\
  tokens_of false PAGE DEFAULT_SPEC (tx "{" ++ C78_body ++ tx "}") (braced (C77_toks C78_body)) /\
  content_of_group (C77_toks C78_body) /\ argued DEFAULT_SPEC (C77_toks C78_body) /\
  (exists t', parse_source false 1500 PAGE DEFAULT_SPEC (tx "{" ++ C78_body ++ tx "}") = Ok t') /\
  exists o, convert_source false MText 1500 PAGE C78_body None = COk o /\
    convert_source false MText 1500 PAGE (tx "{" ++ C78_body ++ tx "}") None = COk o /\ 100 <= List.length o.
Proof.
  split; [split; [vm_compute; reflexivity|vm_compute; reflexivity]|].
  split; [split; [vm_compute; reflexivity|vm_compute; reflexivity]|].
  split; [apply enclosed_b_ok; vm_compute; reflexivity|]. split; [apply argued_b_ok; vm_compute; reflexivity|].
  split; [eexists; vm_compute; reflexivity|]. eexists. split; [vm_compute; reflexivity|]. split; [vm_compute; reflexivity|]. apply Nat.leb_le. vm_compute. reflexivity.
Qed.
(** In a formula braces can make a difference: there they are a place of their
    own, where a new line is not written. *)
Example C78_formula : convert_source false MMath 800 PAGE (tx "{a \\ b}") None <> convert_source false MMath 800 PAGE (tx "a \\ b") None.
Proof. vm_compute. discriminate. Qed.
