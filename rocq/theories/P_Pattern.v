(** C65: the argument patterns with a fixed or bounded number of terms, and the
    glob patterns their documentation calls equivalent (spec/lib.rs:243-270). *)
From Verif Require Import Base BaseFacts Token Spec Lex Stream LexFacts Glob GlobFacts P_Glob P_Wild ArgMatch Syntax Parser ParserSim PatternSim Macro Api
  ParserText ParserTotal ParserSource ParserEnd DefaultSpec Converter P_Parser P_Misc P_Flat.
From Coq Require Import List NArith Lia Bool.
Import ListNotations.
Local Open Scope nat_scope.

(* ------------------------------------------------------------------ *)
(** * Specification *)

(** [s] written [n] times *)
Fixpoint times (n : nat) (s : text) : text := match n with O => [] | S n => s ++ times n s end.

(** "equivalent to repeat `{,t}` for `x` times" *)
Definition fixed_glob (len : N) : text := times (N.to_nat len) (tx "{,t}").
(** "equivalent to repeat `t` for `x` times, then repeat `{,t}` for `y` times",
    for [x] the minimum and [y] the number of further ones *)
Definition range_glob (mn mx : N) : text := times (N.to_nat mn) (tx "t") ++ times (N.to_nat (mx - mn)) (tx "{,t}").

(** the pattern [q] is [p], or the glob documented for it *)
Inductive documented_as : arg_pattern -> arg_pattern -> Prop :=
| as_is p : documented_as p p
| as_fixed len : (0 < len)%N -> documented_as (PFixed len) (PGlob (fixed_glob len))
| as_range mn mx : (0 < mx)%N -> (mn <= mx)%N -> documented_as (PRange mn mx) (PGlob (range_glob mn mx)).

(** the specification [sp2] has the items of [sp1], with some patterns replaced
    by the globs documented for them *)
Definition item_as (i j : option spec_item) : Prop :=
  match i, j with
  | None, None => True
  | Some (SICmd c), Some (SICmd d) =>
      cs_args c = cs_args d \/
      exists p q, cs_args c = SRight p /\ cs_args d = SRight q /\ documented_as p q
  | Some (SIEnv e), Some (SIEnv f) => documented_as (en_args e) (en_args f)
  | _, _ => False
  end.
Definition spelled_out (sp1 sp2 : spec) : Prop := forall name, item_as (sp1 name) (sp2 name).

(* ------------------------------------------------------------------ *)
(** * The globs on terms *)

Definition opt_t : piece := Alt [[]; [116%N]].
Lemma plain_t : plain 116%N.
Proof. split; [unfold special|]; simpl; intuition discriminate. Qed.
Lemma flat_opt : flat opt_t.
Proof. split; [discriminate|]. repeat constructor; apply plain_t. Qed.
Lemma utf8_app a b : utf8 (a ++ b) = utf8 a ++ utf8 b.
Proof. unfold utf8. now rewrite flat_map_app. Qed.
Lemma times_written n : utf8 (times n (tx "{,t}")) = written (repeat opt_t n).
Proof.
  induction n as [|n IH]; [reflexivity|]. cbn [times repeat]. rewrite utf8_app, IH. reflexivity.
Qed.
Lemma times_t n : utf8 (times n (tx "t")) = repeat 116%N n.
Proof. induction n as [|n IH]; [reflexivity|]. cbn [times repeat]. rewrite utf8_app, IH. reflexivity. Qed.
Lemma written_app a b : written (a ++ b) = written a ++ written b.
Proof. unfold written. now rewrite flat_map_app. Qed.
Lemma written_lits n : written (repeat (Lit 116%N) n) = repeat 116%N n.
Proof. induction n as [|n IH]; [reflexivity|]. cbn [repeat]. change (written (?a :: ?b)) with (written [a] ++ written b). rewrite IH. reflexivity. Qed.
Lemma utf8_ts k : utf8 (repeat 116%N k) = repeat 116%N k.
Proof. induction k as [|k IH]; [reflexivity|]. cbn [repeat]. change (utf8 (?a :: ?b)) with (utf8 [a] ++ utf8 b). rewrite IH. reflexivity. Qed.

Lemma opts_len m : forall l, greedy false (repeat opt_t m) l -> List.length l <= m.
Proof.
  induction m as [|m IH]; intros l H; cbn [repeat] in H; inversion H; subst; cbn; try lia.
  match goal with K : greedy false (repeat opt_t m) ?l0, L : longest _ ?a _ |- _ =>
    specialize (IH _ K); destruct L as ([<-|[<-|[]]] & _); cbn; try lia end.
Qed.
Lemma opts_take m : forall k, k <= m -> greedy false (repeat opt_t m) (repeat 116%N k).
Proof.
  induction m as [|m IH]; intros k Hk; destruct k as [|k]; try lia; [constructor|now constructor|].
  cbn [repeat]. change (116%N :: repeat 116%N k) with ([116%N] ++ repeat 116%N k). apply gr_alt.
  - discriminate.
  - split; [right; now left|]. split; [eauto|]. intros b r [<-|[<-|[]]] _; cbn; lia.
  - apply IH. lia.
Qed.
Lemma lits_greedy n ps : forall k, greedy false (repeat (Lit 116%N) n ++ ps) (repeat 116%N k) <->
  k <= n \/ greedy false ps (repeat 116%N (k - n)).
Proof.
  induction n as [|n IH]; intros k; cbn [repeat app].
  - rewrite Nat.sub_0_r. split; [tauto|]. intros [H|H]; [|exact H]. replace k with 0 by lia. now constructor.
  - destruct k as [|k].
    + split; [intros; left; lia|]. intros _. now constructor.
    + cbn [repeat]. split.
      * intros H. inversion H; subst. match goal with K : greedy false (_ ++ ps) _ |- _ => apply IH in K as [K|K]; [left; lia|right; exact K] end.
      * intros H. constructor. apply IH. destruct H as [H|H]; [left; lia|right; exact H].
Qed.
(** [k] terms begin something the glob describes *)
Lemma range_terms mn mx k : (mn <= mx)%N -> gm_real (range_glob mn mx) (repeat 116%N k) = (N.of_nat k <=? mx)%N.
Proof.
  intros Hm. unfold gm_real. apply eq_true_iff_eq.
  set (ps := repeat (Lit 116%N) (N.to_nat mn) ++ repeat opt_t (N.to_nat (mx - mn))).
  assert (Fl : Forall flat ps).
  { apply Forall_app. split; apply Forall_forall; intros x Hx; apply repeat_spec in Hx as ->; [exact plain_t|exact flat_opt]. }
  assert (E : utf8 (range_glob mn mx) = written ps).
  { unfold range_glob, ps. now rewrite utf8_app, written_app, times_t, times_written, written_lits. }
  rewrite (proj2 (C47_flat ps _ (repeat 116%N k) Fl E)), utf8_ts. unfold ps. rewrite lits_greedy, N.leb_le. split.
  - intros [H|H]; [lia|]. apply opts_len in H. rewrite repeat_length in H. lia.
  - intros H. destruct (le_gt_dec k (N.to_nat mn)); [now left|right]. apply opts_take. lia.
Qed.
Lemma fixed_range len : fixed_glob len = range_glob 0 len.
Proof. unfold fixed_glob, range_glob. now rewrite N.sub_0_r. Qed.

(* ------------------------------------------------------------------ *)
(** * C65 *)

(** Offered terms only, the pattern and its glob take the same number. *)
Theorem C65_terms : forall p q k, documented_as p q ->
  accepts gm_real p (repeat ARG_TERM k) ARG_TERM = accepts gm_real q (repeat ARG_TERM k) ARG_TERM.
Proof.
  assert (K : forall mn mx k, (mn <= mx)%N -> gm_real (range_glob mn mx) (repeat ARG_TERM k ++ [ARG_TERM]) = (N.of_nat k <? mx)%N).
  { intros mn mx k H. change [ARG_TERM] with (repeat 116%N 1). unfold ARG_TERM. rewrite <- repeat_app, range_terms by exact H.
    apply eq_true_iff_eq. rewrite N.leb_le, N.ltb_lt. lia. }
  assert (T : forall k, terms (repeat ARG_TERM k) = k).
  { induction k as [|k IH]; [reflexivity|]. unfold terms in *. cbn [repeat count_occ]. rewrite IH. reflexivity. }
  intros p q k H. apply eq_true_iff_eq. rewrite !C48_counts. destruct H as [p|len H|mn mx H1 H2]; [reflexivity| |]; cbn [should_accept].
  - rewrite fixed_range, K, N.ltb_lt, T by lia. tauto.
  - rewrite K, N.ltb_lt, T by exact H2. tauto.
Qed.
Print Assumptions C65_terms.

Inductive alike : matcher -> matcher -> Prop :=
| al_same m : alike m m
| al_range mn mx k : (mn <= mx)%N -> alike (AMAtMost mx (N.of_nat k)) (AMGlob (range_glob mn mx) (repeat 116%N k)).
Lemma alike_term m n : alike m n ->
  fst (try_match gm_real m ARG_TERM) = fst (try_match gm_real n ARG_TERM) /\
  alike (snd (try_match gm_real m ARG_TERM)) (snd (try_match gm_real n ARG_TERM)).
Proof.
  intros [m'|mn mx k H]; [split; [reflexivity|constructor]|]. unfold try_match. cbn [negb N.eqb ARG_TERM Pos.eqb fst snd].
  change [ARG_TERM] with (repeat 116%N 1). rewrite <- (repeat_app 116%N k 1). split.
  - rewrite range_terms by exact H. apply eq_true_iff_eq. rewrite N.leb_le, N.ltb_lt. lia.
  - replace (N.of_nat k + 1)%N with (N.of_nat (k + 1)) by lia. now constructor.
Qed.
Lemma alike_curly m n : alike m n ->
  fst (match_as_term gm_real m ARG_TERM) = fst (match_as_term gm_real n ARG_TERM) /\
  alike (snd (match_as_term gm_real m ARG_TERM)) (snd (match_as_term gm_real n ARG_TERM)).
Proof.
  intros H. pose proof (alike_term _ _ H) as [E1 E2]. destruct H as [m'|mn mx k H]; [split; [reflexivity|constructor]|].
  unfold match_as_term.
  destruct (try_match gm_real (AMAtMost mx (N.of_nat k)) ARG_TERM) as [ok m1], (try_match gm_real (AMGlob (range_glob mn mx) (repeat 116%N k)) ARG_TERM) as [ok' m2].
  cbn [fst snd] in E1, E2. subst ok'. destruct ok; split; try exact E2; reflexivity.
Qed.
Lemma documented_alike p q : documented_as p q -> AR alike p q.
Proof.
  intros [p'|len H|mn mx H1 H2]; [now left| |]; right.
  - split; [destruct len; [lia|reflexivity]|]. split; [reflexivity|]. cbn [start_match]. destruct (N.eqb_spec len 0); [lia|].
    rewrite fixed_range. apply (al_range 0 len 0). lia.
  - split; [reflexivity|]. split; [reflexivity|]. cbn [start_match]. destruct (N.eqb_spec mx 0); [lia|].
    now apply (al_range mn mx 0).
Qed.

(** neither [[] nor [(] *)
Definition unbracketed (t : tok) : Prop := fst t <> TLeft Bracket /\ fst t <> TLeft Paren.

(** Over every token sequence without opening brackets and parentheses, the
    parser gives the same tree whichever way the patterns are written. *)
Theorem C65_tokens : forall sp1 sp2 fuel ts, spelled_out sp1 sp2 -> Forall unbracketed ts ->
  parse_list gm_real sp1 fuel ts = parse_list gm_real sp2 fuel ts.
Proof.
  intros sp1 sp2 fuel ts HS Hts. apply rres_eq. unfold parse_list.
  apply (PatternSim.parse_sim list_pk list_nx list_set sp1 list_pk list_nx list_set sp2 gm_real
    (fun a b => a = b /\ Forall unbracketed a) False) with (MR := alike); auto.
  - now intros a b [-> _].
  - intros a b [-> H'] _. simpl. split; [reflexivity|]. destruct b; [constructor|]. now inversion H'.
  - intros a b s s' [-> H'] Ep. split; [reflexivity|]. unfold list_set. destruct b as [|[k s0] r]; [discriminate|].
    injection Ep as -> ->. apply Forall_cons_iff in H' as [_ H']. constructor; [|exact H']. split; discriminate.
  - constructor.
  - intros m n [m'|mn mx k H]; reflexivity.
  - exact alike_term.
  - intros m n a b k s HM [-> H'] Ep. destruct b as [|t r]; [discriminate|]. injection Ep as ->.
    apply Forall_cons_iff in H' as [[N1 N2] _]. destruct k; try (exfalso; now auto). now apply alike_curly.
  - intros a b k name _ _ _. specialize (HS name). unfold get_cmd.
    destruct (sp1 name) as [[c|e]|], (sp2 name) as [[d|f]|]; cbn [item_as] in HS; try contradiction; try (now left).
    destruct HS as [HS|(p & q & E1 & E2 & HD)]; cbn [option_map]; [left; now rewrite HS|right].
    exists p, q. rewrite E1, E2. split; [reflexivity|]. split; [reflexivity|]. now apply documented_alike.
  - intros a b name _ _. specialize (HS name). unfold get_env.
    destruct (sp1 name) as [[c|e]|], (sp2 name) as [[d|f]|]; cbn [item_as] in HS; try contradiction; try (now left).
    cbn [option_map]. right. exists (en_args e), (en_args f). split; [reflexivity|]. split; [reflexivity|]. now apply documented_alike.
Qed.
Print Assumptions C65_tokens.

(** ** Sources *)
Lemma lex_begin_end_left b n r k s raw rest : lex_begin_end b n r <> LTok (TLeft k, s) raw rest.
Proof.
  unfold lex_begin_end. intros H.
  repeat match type of H with
  | context [match ?x with _ => _ end] => destruct x; try discriminate H
  end.
Qed.
Lemma lex_left sp src k s raw rest : lex_one sp src = LTok (TLeft k, s) raw rest ->
  exists c r, src = c :: r /\ punct_token c = Some (TLeft k).
Proof.
  assert (Hc : forall x, lex_command_name sp x <> LTok (TLeft k, s) raw rest).
  { intros [|c x]; [discriminate|]. unfold lex_command_name.
    destruct (is_whitespace c); [discriminate|]. destruct ((c =? 40)%N || _); [discriminate|].
    destruct ((c =? 41)%N || _); [discriminate|]. destruct (_ && _); [discriminate|].
    destruct (split_bytes _ _) as [[n r]|]; [|discriminate]. destruct (assoc n name_table); [discriminate|].
    destruct (teqb _ _); [apply lex_begin_end_left|]. destruct (teqb _ _); [apply lex_begin_end_left|discriminate]. }
  destruct src as [|c r]; [discriminate|]. unfold lex_one.
  destruct (is_crlf c); [destruct (span _ _); discriminate|].
  destruct (is_whitespace c); [destruct (span _ _); discriminate|].
  destruct (c =? 37)%N; [destruct (span _ _); discriminate|].
  destruct (c =? 36)%N; [destruct r as [|c' r']; [discriminate|]; destruct (c' =? 36)%N; discriminate|].
  destruct (c =? 92)%N.
  - destruct r as [|c' r']; [intros H; now apply Hc in H|]. destruct (c' =? 92)%N; [discriminate|]. intros H; now apply Hc in H.
  - destruct (punct_token c) as [k'|] eqn:E; [|destruct (span _ _); discriminate].
    intros H. injection H as -> _ _ _. eauto.
Qed.
Lemma lex_unbracketed sp src : ~ In 91%N src -> ~ In 40%N src -> Forall unbracketed (stream_toks (lex_stream sp src)).
Proof.
  induction src as [src IH] using (lex_stream_ind sp). intros N1 N2. rewrite lex_stream_eq.
  destruct (lex_one sp src) as [|s|[k s] raw rest] eqn:E; simpl; try constructor.
  - assert (L : forall b, k = TLeft b -> b = Curly).
    { intros b ->. apply lex_left in E as (c & r & -> & Ep). destruct b; [reflexivity| |]; exfalso.
      - apply N1. left. unfold punct_token in Ep. repeat (destruct (_ =? _)%N eqn:Q in Ep; [try discriminate Ep; now apply N.eqb_eq in Q|]; clear Q). discriminate.
      - apply N2. left. unfold punct_token in Ep. repeat (destruct (_ =? _)%N eqn:Q in Ep; [try discriminate Ep; now apply N.eqb_eq in Q|]; clear Q). discriminate. }
    split; cbn [fst]; intros ->; now specialize (L _ eq_refl).
  - pose proof (lex_one_tok _ _ _ _ _ E) as [-> [Hne _]]. apply IH.
    + rewrite app_length. destruct raw; [contradiction|]. simpl. lia.
    + intros H. apply N1. apply in_or_app. now right.
    + intros H. apply N2. apply in_or_app. now right.
Qed.

(** The same for sources, with and without macros: whatever the source expands
    to, if no [[] and no [(] reaches the parser, ... *)
Theorem C65_source : forall macros fuel page sp1 sp2 src t, 2 <= page -> spelled_out sp1 sp2 ->
  (forall ts, tokens_of macros page sp1 src ts -> Forall unbracketed ts) ->
  parse_source macros fuel page sp1 src = Ok t ->
  exists f0, forall f, f0 <= f -> parse_source macros f page sp2 src = Ok t.
Proof.
  intros m fuel page sp1 sp2 src t Hp HS Hb H. apply parse_source_reads in H as (ts & Ht & H); [|exact Hp].
  assert (El : lex_stream sp1 src = lex_stream sp2 src).
  { apply lex_agree. intros name _. specialize (HS name). unfold same_known.
    destruct (sp1 name) as [[|]|], (sp2 name) as [[|]|]; cbn [item_as] in HS; try contradiction; split; try discriminate; reflexivity. }
  assert (Ht2 : tokens_of m page sp2 src ts).
  { destruct m; simpl in *; [|now rewrite <- El]. destruct Ht as [f0 Ht]. exists f0. intros f L. specialize (Ht f L).
    unfold expand_all in *. now rewrite <- El. }
  rewrite (C65_tokens sp1 sp2 _ _ HS (Hb _ Ht)) in H.
  destruct (parse_source_enough _ _ _ _ _ Hp Ht2) as [f0 Hf]. exists f0. intros f L. rewrite (Hf f L).
  pose proof (tokens_words _ _ _ _ _ Hp Ht2) as Hw.
  destruct (le_ge_dec fuel (parse_fuel ts)) as [G|G].
  - eapply parse_fuel_mono; [exact H|discriminate|exact G].
  - rewrite <- H. symmetry. now apply parse_enough.
Qed.
Print Assumptions C65_source.
(** ... in particular if the source has none. *)
Theorem C65_text_partial : forall macros fuel page sp1 sp2 src t, 2 <= page -> spelled_out sp1 sp2 ->
  ~ In 91%N src -> ~ In 40%N src ->
  parse_source macros fuel page sp1 src = Ok t ->
  exists f0, forall f, f0 <= f -> parse_source macros f page sp2 src = Ok t.
Proof.
  intros m fuel page sp1 sp2 src t Hp HS N1 N2. apply C65_source; [exact Hp|exact HS|].
  intros ts Ht. pose proof (lex_unbracketed sp1 src N1 N2) as Hl. destruct m; simpl in Ht.
  - destruct Ht as [f0 Ht]. specialize (Ht f0 (le_n _)).
    eapply (expand_keeps unbracketed); [exact Hp| | | | |exact Hl|exact Ht]; intros; split; discriminate.
  - destruct Ht as [_ ->]. exact Hl.
Qed.
Print Assumptions C65_text_partial.
Definition frac_fixed : spec := spec_of [(tx "frac", define_command 2); (tx "e", TEX_CMD0)].
Definition frac_glob : spec := spec_of [(tx "frac", define_glob_command (tx "{,t}{,t}") (tx "frac")); (tx "e", TEX_CMD0)].
Lemma frac_spelled : spelled_out frac_fixed frac_glob.
Proof.
  intros name. unfold frac_fixed, frac_glob, spec_of. cbn [assoc]. destruct (teqb name (tx "frac")).
  - cbn [item_as]. right. exists (PFixed 2), (PGlob (fixed_glob 2)). split; [reflexivity|]. split; [reflexivity|]. now constructor.
  - destruct (teqb name (tx "e")); cbn [item_as]; [left; reflexivity|exact I].
Qed.
Example C65_example : exists t, spelled_out frac_fixed frac_glob /\
  parse_source true 200 170 frac_fixed (tx "\newcommand{\h}{\frac12}\h x\frac{a}y") = Ok t /\
  parse_source true 200 170 frac_glob (tx "\newcommand{\h}{\frac12}\h x\frac{a}y") = Ok t.
Proof. eexists. split; [exact frac_spelled|]. split; vm_compute; reflexivity. Qed.

(** With brackets the claim fails: the fixed pattern takes the bracket itself as
    a term, the glob refuses it. *)
Theorem C65_refuted : exists sp1 sp2 src t1 t2, spelled_out sp1 sp2 /\ t1 <> t2 /\
  forall macros, parse_source macros 200 170 sp1 src = Ok t1 /\ parse_source macros 200 170 sp2 src = Ok t2.
Proof.
  exists frac_fixed, frac_glob, (tx "\frac[1]2").
  assert (E1 : exists t, (exists a b c, t = Node ScopeRoot [Node ItemCmd [a; b; c]; Leaf TokenRBracket (tx "]"); Node ItemText [Leaf TokenWord (tx "2")]]) /\
    forall macros, parse_source macros 200 170 frac_fixed (tx "\frac[1]2") = Ok t).
  { eexists. split; [|intros []; vm_compute; reflexivity]. repeat eexists. }
  assert (E2 : exists t, (exists a r, t = Node ScopeRoot (Node ItemCmd [a] :: r)) /\
    forall macros, parse_source macros 200 170 frac_glob (tx "\frac[1]2") = Ok t).
  { eexists. split; [|intros []; vm_compute; reflexivity]. repeat eexists. }
  destruct E1 as (t1 & (a & b & c & T1) & E1), E2 as (t2 & (a' & r & T2) & E2). exists t1, t2.
  split; [exact frac_spelled|]. split; [rewrite T1, T2; discriminate|]. intros m. split; [apply E1|apply E2].
Qed.
Print Assumptions C65_refuted.
(** No arguments at all is not the same as the empty glob either: a blank after
    such a command, itself an argument, is kept in the one case and lost in the
    other. *)
Theorem C65_zero_refuted : exists t1 t2, t1 <> t2 /\
  forall macros, parse_source macros 200 170 (spec_of [(tx "frac", TEX_CMD2); (tx "e", TEX_CMD0)]) (tx "\frac\e xy") = Ok t1 /\
    parse_source macros 200 170 (spec_of [(tx "frac", TEX_CMD2); (tx "e", define_glob_command (fixed_glob 0) (tx "e"))]) (tx "\frac\e xy") = Ok t2 /\
    tree_text t1 = tx "\frac\exy" /\ tree_text t2 = tx "\frac\e xy".
Proof.
  assert (E1 : exists t, tree_text t = tx "\frac\exy" /\
    forall macros, parse_source macros 200 170 (spec_of [(tx "frac", TEX_CMD2); (tx "e", TEX_CMD0)]) (tx "\frac\e xy") = Ok t).
  { eexists. split; [|intros []; vm_compute; reflexivity]. reflexivity. }
  assert (E2 : exists t, tree_text t = tx "\frac\e xy" /\
    forall macros, parse_source macros 200 170 (spec_of [(tx "frac", TEX_CMD2); (tx "e", define_glob_command (fixed_glob 0) (tx "e"))]) (tx "\frac\e xy") = Ok t).
  { eexists. split; [|intros []; vm_compute; reflexivity]. reflexivity. }
  destruct E1 as (t1 & T1 & E1), E2 as (t2 & T2 & E2). exists t1, t2.
  split; [intros ->; rewrite T1 in T2; discriminate|]. intros m. split; [apply E1|]. split; [apply E2|]. split; assumption.
Qed.
Print Assumptions C65_zero_refuted.
(** Reading "`y` times" as the maximum itself is wrong whenever the minimum is
    not 0: the glob takes the minimum and the maximum together. *)
Theorem C65_range_literal : forall mn mx k,
  (accepts gm_real (PGlob (times (N.to_nat mn) (tx "t") ++ times (N.to_nat mx) (tx "{,t}"))) (repeat ARG_TERM k) ARG_TERM = true
     <-> (N.of_nat k < mn + mx)%N) /\
  (accepts gm_real (PRange mn mx) (repeat ARG_TERM k) ARG_TERM = true <-> (N.of_nat k < mx)%N).
Proof.
  intros mn mx k.
  assert (T : forall k, terms (repeat ARG_TERM k) = k).
  { clear. induction k as [|k IH]; [reflexivity|]. unfold terms in *. cbn [repeat count_occ]. rewrite IH. reflexivity. }
  rewrite !C48_counts. cbn [should_accept]. rewrite T. split; [|tauto].
  replace (times (N.to_nat mn) (tx "t") ++ times (N.to_nat mx) (tx "{,t}")) with (range_glob mn (mn + mx)).
  - change [ARG_TERM] with (repeat 116%N 1). unfold ARG_TERM. rewrite <- repeat_app, range_terms by lia. rewrite N.leb_le. lia.
  - unfold range_glob. now replace (mn + mx - mn)%N with mx by lia.
Qed.
Print Assumptions C65_range_literal.
Lemma simple_star : simple (utf8 (tx "*")).
Proof.
  change (utf8 (tx "*")) with [42%N]. split; [|split].
  - simpl. intros c Hc [E|[]]. subst c. intuition discriminate.
  - discriminate.
  - intros a b E. apply (f_equal (@List.length N)) in E. rewrite app_length in E. cbn in E. lia.
Qed.
(** "Receives any items as much as possible, equivalent to `*`": both accept
    every sequence of items ... *)
Theorem C65_greedy : forall cs c, Forall (fun k => In k [ARG_TERM; ARG_BRACKET; ARG_PAREN]) (cs ++ [c]) ->
  accepts gm_real PGreedy cs c = true /\ accepts gm_real (PGlob (tx "*")) cs c = true.
Proof.
  intros cs c H. rewrite !C48_counts. cbn [should_accept]. split; [exact I|].
  assert (U : utf8 (cs ++ [c]) = cs ++ [c]).
  { revert H. generalize (cs ++ [c]). induction l as [|x l IH]; intros H; [reflexivity|]. apply Forall_cons_iff in H as [Hx H].
    rewrite (utf8_app [x] l : utf8 (x :: l) = _), (IH H). destruct Hx as [<-|[<-|[<-|[]]]]; reflexivity. }
  assert (N47 : ~ In 47%N (cs ++ [c])).
  { intros Hin. rewrite Forall_forall in H. apply H in Hin as [E|[E|[E|[]]]]; discriminate. }
  apply (proj2 (C60_prefix (tx "*") (cs ++ [c]) simple_star ltac:(rewrite U; exact N47))).
  exists []. rewrite app_nil_r, U. rewrite <- (app_nil_r (cs ++ [c])). apply (d_star (cs ++ [c]) [] []); [exact N47|constructor].
Qed.
Print Assumptions C65_greedy.
(** ... but the greedy pattern makes one argument of them, the glob one of each. *)
Theorem C65_greedy_refuted : exists a1 a2, 
  (forall macros, parse_source macros 200 170 (spec_of [(tx "f", TEX_GREEDY_OPERATOR)]) (tx "\f xy") = Ok (Node ScopeRoot [Node ItemCmd [Leaf ClauseCommandName (tx "\f"); Node ClauseArgument a1]])) /\
  (forall macros, parse_source macros 200 170 (spec_of [(tx "f", define_glob_command (tx "*") (tx "f"))]) (tx "\f xy") = Ok (Node ScopeRoot [Node ItemCmd (Leaf ClauseCommandName (tx "\f") :: a2)])) /\
  a2 = [Node ClauseArgument [Leaf TokenWord (tx "x")]; Node ClauseArgument [Leaf TokenWord (tx "y")]].
Proof. eexists _, _. split; [|split]; [intros []; vm_compute; reflexivity|intros []; vm_compute; reflexivity|reflexivity]. Qed.
Print Assumptions C65_greedy_refuted.
