(** C77: a formula in a text is converted like a document in formula mode. *)
From Verif Require Import Api ConvSpec ConvFacts ConvTerm ParserTotal ParserSource ParserEnd ParserShape GramSpec GramSound GramComplete P_Parser P_Gram P_Conv P_Conv3 P_Conv4 RenderAll P_Render.
From Verif Require Import FormulaFacts RenderSpec P_Shield2 GramSpec FormulaSpec.
Local Open Scope nat_scope.

(** ** The same elements *)
Lemma pair_known a b oc : In (a, b, oc) opening_closing -> pair_of Dollars_ a b \/ pair_of Math_ a b.
Proof.
  intros H. unfold opening_closing in H. cbn [In] in H.
  destruct H as [H|[H|[H|[H|[]]]]]; injection H as <- <- _; [left|right|left|right]; (split; [reflexivity|]); cbn; auto 6.
Qed.

(** ** The same output *)
Lemma formula_delimited a b o c ch : In (a, b, (o, c)) opening_closing ->
  exists inline, delimited (formula a ch b) inline /\ around_formula (outermost MText) inline = (o, c) /\ around_formula (outermost MMath) inline = ([], []).
Proof.
  intros H. unfold opening_closing in H. cbn [In] in H.
  assert (L : forall (x : tree) l k s, last_token (Node ItemFormula (x :: l ++ [Leaf k s])) = Some (k, s)).
  { intros x l k s. revert x. induction l as [|y l IH]; intros x; [reflexivity|]. exact (IH y). }
  destruct H as [H|[H|[H|[H|[]]]]]; injection H as <- <- <- <-; [exists true|exists true|exists false|exists false]; (split; [|split; reflexivity]);
    eexists _, _; (split; [reflexivity|]); (split; [apply L|]); unfold formula_delimiters; cbn [In lf kind_of_token fst snd]; auto.
Qed.
Lemma quiet_renders sp x q cr : punctuation (kind_of_token (fst x)) = Some [] ->
  renders sp q cr (lf x) (Written (mk_carry false (waiting cr)) []).
Proof.
  intros P. assert (A : at_element (lf x) cr = mk_carry false (waiting cr)).
  { unfold at_element, lf. cbn [tkind]. destruct (kind_of_token (fst x)); try reflexivity; discriminate P. }
  econstructor; [unfold lf; apply la_punctuation; exact P|]. rewrite A.
  change (Written ?k []) with (RenderSpec.before [] (Written k [])). apply ct_txt. apply ct_end.
Qed.
Lemma delimiter_renders sp a b o c q x : In (a, b, (o, c)) opening_closing -> x = a \/ x = b ->
  renders sp q c0 (lf x) (Written c0 []).
Proof.
  intros H Hx. assert (P : punctuation (kind_of_token (fst x)) = Some []).
  { unfold opening_closing in H. cbn [In] in H. destruct H as [H|[H|[H|[H|[]]]]]; injection H as <- <- _ _; destruct Hx as [-> | ->]; reflexivity. }
  exact (quiet_renders sp x q c0 P).
Qed.
Lemma closing_renders sp a b o c q x cr : In (a, b, (o, c)) opening_closing -> x = a \/ x = b ->
  renders sp q cr (lf x) (Written (mk_carry false (waiting cr)) []).
Proof.
  intros H Hx. assert (P : punctuation (kind_of_token (fst x)) = Some []).
  { unfold opening_closing in H. cbn [In] in H. destruct H as [H|[H|[H|[H|[]]]]]; injection H as <- <- _ _; destruct Hx as [-> | ->]; reflexivity. }
  exact (quiet_renders sp x q cr P).
Qed.
(** what comes after a piece that cannot be written does not matter *)
Lemma comes_bad sp l1 l2 c o : comes_to sp c l1 o -> bad o -> comes_to sp c (l1 ++ l2) o.
Proof.
  intros H. induction H; intros B; cbn [app]; try contradiction; try (constructor; assumption).
  all: try (match goal with H : bad (RenderSpec.before _ ?o) |- _ => destruct o; [contradiction|..] end).
  all: econstructor; eauto.
Qed.
Definition framed (s e : text) (o : outcome) : outcome :=
  match o with Written c x => Written (mk_carry false (waiting c)) (s ++ x ++ e) | _ => o end.
(** what is written around it *)
Definition around (m : mode) (s e : text) : text * text := match m with MText => (s, e) | MMath => ([], []) end.
Lemma formula_converts sp m a b s' e' s e ch o : In (a, b, (s', e')) opening_closing -> around m s' e' = (s, e) ->
  converts_to sp MMath (Node ScopeRoot ch) o -> converts_to sp m (Node ScopeRoot [formula a ch b]) (framed s e o).
Proof.
  intros H Hse R. apply root_renders in R. apply root_renders. cbn [map].
  destruct (formula_delimited _ _ _ _ ch H) as (inline & D & Ar0 & Ar1).
  assert (Ar : around_formula (outermost m) inline = (s, e)) by (destruct m; cbn [around] in Hse; congruence). clear Ar0 Ar1 Hse.
  assert (I : forall o', comes_to sp c0 (Txt s :: map (Put (outermost MMath)) (lf a :: ch ++ [lf b]) ++ [Txt e]) o' ->
    renders sp (outermost m) c0 (formula a ch b) o').
  { intros o' Ho. econstructor; [unfold formula; eapply la_formula; exact D|]. rewrite Ar. cbn [fst snd]. exact Ho. }
  cbn [map] in I. rewrite map_app in I. cbn [map app] in I.
  destruct o as [c x|er|]; cbn [framed].
  - assert (I' : renders sp (outermost m) c0 (formula a ch b) (Written (mk_carry false (waiting c)) (s ++ x ++ e))).
    { apply I. change (Written ?k (s ++ x ++ e)) with (RenderSpec.before s (Written k (x ++ e))). apply ct_txt.
      change (Written ?k (x ++ e)) with (RenderSpec.before [] (Written k (x ++ e))). eapply ct_put; [eapply delimiter_renders; eauto|].
      rewrite <- app_assoc. change (Written ?k (x ++ e)) with (RenderSpec.before x (Written k e)). eapply comes_app; [exact R|]. cbn [app].
      change (Written ?k e) with (RenderSpec.before [] (Written k e)). eapply ct_put; [eapply closing_renders; eauto|].
      rewrite <- (app_nil_r e) at 2. change (Written ?k (e ++ [])) with (RenderSpec.before e (Written k [])). apply ct_txt. apply ct_end. }
    rewrite <- (app_nil_r (s ++ x ++ e)). change (Written ?k ((s ++ x ++ e) ++ [])) with (RenderSpec.before (s ++ x ++ e) (Written k [])).
    eapply ct_put; [exact I'|apply ct_end].
  - apply ct_put_failed. apply I. change (Failed er) with (RenderSpec.before s (Failed er)). apply ct_txt.
    change (Failed er) with (RenderSpec.before [] (Failed er)). eapply ct_put; [eapply delimiter_renders; eauto|].
    rewrite <- app_assoc. apply comes_bad; [exact R|constructor].
  - apply ct_put_crashed. apply I. change Crashed with (RenderSpec.before s Crashed). apply ct_txt.
    change Crashed with (RenderSpec.before [] Crashed). eapply ct_put; [eapply delimiter_renders; eauto|].
    rewrite <- app_assoc. apply comes_bad; [exact R|constructor].
Qed.

(* ------------------------------------------------------------------ *)
(** * C77: a formula in a text is a document in formula mode *)
(** [src] are the tokens [ts]; [src'] is the same between two delimiters of
    formulas, and is read as one formula.  Then what is in this formula is
    exactly the document [src], ... *)
Theorem C77_tree : forall macros page sp src src' ts a b s e ch, 2 <= page ->
  tokens_of macros page sp src ts -> tokens_of macros page sp src' (a :: ts ++ [b]) ->
  In (a, b, (s, e)) opening_closing -> argued sp ts ->
  (exists fuel, parse_source macros fuel page sp src' = Ok (Node ScopeRoot [formula a ch b])) ->
  exists f0, forall fuel, f0 <= fuel -> parse_source macros fuel page sp src = Ok (Node ScopeRoot ch).
Proof.
  intros macros page sp src src' ts a b s e ch Hp Ht Ht' Hab Ar [fuel' Hf].
  destruct (parse_source_reads _ _ _ _ _ _ Hp Hf) as (ts' & Hts' & Hl). assert (ts' = a :: ts ++ [b]) as -> by (eapply tokens_functional; eauto). clear Hts'.
  destruct (C56_source _ _ _ _ _ Hp Ht) as [f2 H2].
  assert (R : reading gm_real sp (a :: ts ++ [b]) (Node ScopeRoot [formula a ch b])) by (eapply complete; [eapply tokens_words; eauto|exact Hl]).
  exists f2. intros fuel L. apply (proj1 (H2 fuel L)).
  destruct (pair_known _ _ _ Hab) as [P|P]; (eapply one_formula; [exact P|exact Ar| |exact R]); auto.
Qed.
Print Assumptions C77_tree.

(** ... and it is written as this document, between the delimiters of Typst
    formulas, with the same errors and panics. *)
Lemma outcome_same d m m' s e t1 t2 : well_shaped t1 -> well_shaped t2 ->
  (forall o, converts_to d m t1 o -> converts_to d m' t2 (framed s e o)) ->
  (forall o, convert_tree d m' t2 = COk o <-> exists x, convert_tree d m t1 = COk x /\ o = s ++ x ++ e) /\
  (forall er, convert_tree d m' t2 = CErr er <-> convert_tree d m t1 = CErr er) /\
  ((exists n, convert_tree d m' t2 = CPanic n) <-> exists n, convert_tree d m t1 = CPanic n).
Proof.
  intros W1 W2 H. destruct (C59_tree d m t1 W1) as (A1 & A2 & A3). destruct (C59_tree d m' t2 W2) as (B1 & B2 & B3).
  destruct (convert_tree d m t1) as [x|er|n|] eqn:E; [| | |now apply C33_tree in E].
  - destruct (proj1 (A1 x) eq_refl) as [c K]. apply H in K. cbn [framed] in K. assert (K' : convert_tree d m' t2 = COk (s ++ x ++ e)) by (apply B1; eauto). rewrite K'.
    split; [|split].
    + intros o. split; [intros [= <-]; eauto|]. intros (y & [= <-] & ->). reflexivity.
    + intros er. split; discriminate.
    + split; intros [n X]; discriminate X.
  - pose proof (proj1 (A2 er) eq_refl) as K. apply H in K. cbn [framed] in K. apply B2 in K. rewrite K.
    split; [|split].
    + intros o. split; [discriminate|]. intros (y & Y & _). discriminate Y.
    + intros er'. split; intros [= <-]; reflexivity.
    + split; intros [n X]; discriminate X.
  - assert (K : converts_to d m t1 Crashed) by (apply A3; eauto). apply H in K. cbn [framed] in K. apply B3 in K as [n' K]. rewrite K.
    split; [|split].
    + intros o. split; [discriminate|]. intros (y & Y & _). discriminate Y.
    + intros er'. split; discriminate.
    + split; intros _; eauto.
Qed.
Theorem C77_output : forall macros page sp src src' ts a b s e, 2 <= page ->
  tokens_of macros page (spec_or_default sp) src ts -> tokens_of macros page (spec_or_default sp) src' (a :: ts ++ [b]) ->
  In (a, b, (s, e)) opening_closing -> argued (spec_or_default sp) ts ->
  exists f0, forall fuel, f0 <= fuel ->
    (exists ch, parse_source macros fuel page (spec_or_default sp) src' = Ok (Node ScopeRoot [formula a ch b])) ->
    (forall o, convert_source macros MText fuel page src' sp = COk o <->
       exists x, convert_source macros MMath fuel page src sp = COk x /\ o = s ++ x ++ e) /\
    (forall er, convert_source macros MText fuel page src' sp = CErr er <-> convert_source macros MMath fuel page src sp = CErr er) /\
    ((exists n, convert_source macros MText fuel page src' sp = CPanic n) <-> exists n, convert_source macros MMath fuel page src sp = CPanic n).
Proof.
  intros macros page sp src src' ts a b s e Hp Ht Ht' Hab Ar.
  destruct (C56_source _ _ _ _ _ Hp Ht) as [f0 H0]. exists f0. intros fuel L [ch Hf].
  destruct (C77_tree _ _ _ _ _ _ _ _ _ _ _ Hp Ht Ht' Hab Ar (ex_intro _ fuel Hf)) as [f1 H1].
  assert (Hs : parse_source macros fuel page (spec_or_default sp) src = Ok (Node ScopeRoot ch)).
  { pose proof (H1 (Nat.max f0 f1) ltac:(lia)) as K. apply (proj1 (H0 (Nat.max f0 f1) ltac:(lia))) in K. now apply (proj1 (H0 fuel L)). }
  rewrite (convert_of_tree _ _ _ _ _ _ _ Hs), (convert_of_tree _ _ _ _ _ _ _ Hf).
  pose proof (C59_parsed _ _ _ _ _ _ Hp Hs) as W1. pose proof (C59_parsed _ _ _ _ _ _ Hp Hf) as W2.
  apply outcome_same; [exact W1|exact W2|]. intros o. now apply (formula_converts _ MText a b s e).
Qed.
Print Assumptions C77_output.

(** In formula mode the delimiters write nothing. *)
Theorem C77_math : forall macros page sp src src' ts a b s e, 2 <= page ->
  tokens_of macros page (spec_or_default sp) src ts -> tokens_of macros page (spec_or_default sp) src' (a :: ts ++ [b]) ->
  In (a, b, (s, e)) opening_closing -> argued (spec_or_default sp) ts ->
  exists f0, forall fuel, f0 <= fuel ->
    (exists ch, parse_source macros fuel page (spec_or_default sp) src' = Ok (Node ScopeRoot [formula a ch b])) ->
    (forall o, convert_source macros MMath fuel page src' sp = COk o <-> convert_source macros MMath fuel page src sp = COk o) /\
    (forall er, convert_source macros MMath fuel page src' sp = CErr er <-> convert_source macros MMath fuel page src sp = CErr er) /\
    ((exists n, convert_source macros MMath fuel page src' sp = CPanic n) <-> exists n, convert_source macros MMath fuel page src sp = CPanic n).
Proof.
  intros macros page sp src src' ts a b s e Hp Ht Ht' Hab Ar.
  destruct (C56_source _ _ _ _ _ Hp Ht) as [f0 H0]. exists f0. intros fuel L [ch Hf].
  destruct (C77_tree _ _ _ _ _ _ _ _ _ _ _ Hp Ht Ht' Hab Ar (ex_intro _ fuel Hf)) as [f1 H1].
  assert (Hs : parse_source macros fuel page (spec_or_default sp) src = Ok (Node ScopeRoot ch)).
  { pose proof (H1 (Nat.max f0 f1) ltac:(lia)) as K. apply (proj1 (H0 (Nat.max f0 f1) ltac:(lia))) in K. now apply (proj1 (H0 fuel L)). }
  rewrite (convert_of_tree _ _ _ _ _ _ _ Hs), (convert_of_tree _ _ _ _ _ _ _ Hf).
  pose proof (C59_parsed _ _ _ _ _ _ Hp Hs) as W1. pose proof (C59_parsed _ _ _ _ _ _ Hp Hf) as W2.
  destruct (outcome_same DEFAULT_SPEC MMath MMath [] [] _ _ W1 W2) as (A & B & C); [intros o; now apply (formula_converts _ MMath a b s e)|].
  split; [|split; [exact B|exact C]]. intros o. rewrite A. cbn [app]. split; [intros (x & Hx & ->); now rewrite app_nil_r|]. intros Hx. exists o. now rewrite app_nil_r.
Qed.
Print Assumptions C77_math.

(** A case that meets the hypotheses, with the exact outputs. *)
Definition C77_body : text := tx "\frac{a}b + \begin{array}{lc} x & \text{if } y \end{array} \left( z_1 \right) \sum\limits_i^n".
Definition C77_toks (s : text) : list tok := stream_toks (lex_stream DEFAULT_SPEC s).
Definition argued_at_b (sp : spec) (t : tok) (r : list tok) : bool :=
  match fst t with
  | CommandName BeginEnvironment =>
    match begin_shape sp (snd t) with
    | None | Some PNone => true
    | Some (PFixed n) => (n =? 1)%N && match r with (TLeft Curly, _) :: _ => true | _ => false end
    | _ => false
    end
  | _ => true
  end.
Fixpoint argued_b (sp : spec) (ts : list tok) : bool :=
  match ts with [] => true | t :: r => argued_at_b sp t r && argued_b sp r end.
Lemma argued_b_ok sp ts : argued_b sp ts = true -> argued sp ts.
Proof.
  induction ts as [|t r IH]; cbn [argued_b argued]; [auto|]. intros H. apply andb_prop in H as [H1 H2]. split; [|auto].
  intros E. unfold argued_at_b in H1. rewrite E in H1. destruct (begin_shape sp (snd t)) as [[|n| | |]|]; try discriminate H1; [left; right; now left| |left; now left].
  apply andb_prop in H1 as [H1 H3]. apply N.eqb_eq in H1 as ->. right. split; [reflexivity|].
  destruct r as [|[v x] r]; [discriminate|]. exists [], (v, x), r. split; [reflexivity|]. split; [constructor|]. now destruct v as [| | |[]| | | | | | | | | | | | | | | | | | |].
Qed.
Definition C77_dollar : tok := (Dollar, tx "$").
Definition C77_wrapped : text := tx "$" ++ C77_body ++ tx "$".
Example C77_example :
  tokens_of false PAGE DEFAULT_SPEC C77_body (C77_toks C77_body) /\
  tokens_of false PAGE DEFAULT_SPEC C77_wrapped (C77_dollar :: C77_toks C77_body ++ [C77_dollar]) /\
  argued DEFAULT_SPEC (C77_toks C77_body) /\
  (exists ch, parse_source false 800 PAGE DEFAULT_SPEC C77_wrapped = Ok (Node ScopeRoot [formula C77_dollar ch C77_dollar])) /\
  exists o, convert_source false MMath 800 PAGE C77_body None = COk o /\
    convert_source false MText 800 PAGE C77_wrapped None = COk (tx "#math.equation(block: false, $" ++ o ++ tx "$);") /\ 50 <= List.length o.
Proof.
  split; [split; [vm_compute; reflexivity|vm_compute; reflexivity]|].
  split; [split; [vm_compute; reflexivity|vm_compute; reflexivity]|].
  split; [apply argued_b_ok; vm_compute; reflexivity|].
  split.
  - set (x := parse_source false 800 PAGE DEFAULT_SPEC C77_wrapped). vm_compute in x.
    match goal with x := Ok (Node ScopeRoot [Node ItemFormula (?a :: ?l)]) |- _ => exists (removelast l) end. subst x. vm_compute. reflexivity.
  - eexists. split; [vm_compute; reflexivity|]. split; [vm_compute; reflexivity|]. apply Nat.leb_le. vm_compute. reflexivity.
Qed.
(** The braces matter: where the argument of an environment is missing, the text
    [\end] is its argument in a document, but not in a formula. *)
Example C77_braces_matter :
  convert_source false MText 800 PAGE (tx "$\begin{array}\end{array}$") None = COk (tx "#math.equation(block: false, $mitexarray()$);") /\
  convert_source false MMath 800 PAGE (tx "\begin{array}\end{array}") None = CErr (EUnexpected (tx "array")).
Proof. split; vm_compute; reflexivity. Qed.
(** Two formulas and what is between them are not one formula. *)
Example C77_one_formula_matters :
  convert_source false MText 800 PAGE (tx "$x$y$z$") None <> COk (tx "#math.equation(block: false, $x $y$z $);").
Proof. vm_compute. discriminate. Qed.
