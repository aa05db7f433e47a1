(** C72: only the presence of blanks matters to the parser, not how many blanks
    stand in a row nor of which sort they are.

    Specification used: SpaceSpec.v ([squeeze], [squeezed]). *)
From Verif Require Import Api P_Lex P_Macro ParserSource ParserEnd P_Parser DefaultSpec GramSound GramComplete P_Gram SpaceFacts SpaceStep GramSpec SpaceSpec.
Local Open Scope nat_scope.

(** Two sources whose tokens differ in the blanks only (and where one has a
    blank, the other has one) have the same tree, up to the blanks in it. With
    [comments] a comment is one of the blanks. *)
Theorem C72_blanks : forall comments macros fuel1 fuel2 page sp src1 src2 ts1 ts2 t1 t2, 2 <= page ->
  tokens_of macros page sp src1 ts1 -> tokens_of macros page sp src2 ts2 ->
  squeeze comments false ts1 = squeeze comments false ts2 ->
  parse_source macros fuel1 page sp src1 = Ok t1 -> parse_source macros fuel2 page sp src2 = Ok t2 ->
  squeezed comments t1 = squeezed comments t2.
Proof.
  intros c m f1 f2 page sp src1 src2 ts1 ts2 t1 t2 Hp T1 T2 E P1 P2.
  apply parse_source_reads in P1 as (ts1' & T1' & P1); [|exact Hp]. apply parse_source_reads in P2 as (ts2' & T2' & P2); [|exact Hp].
  rewrite <- (tokens_functional _ _ _ _ _ _ T1 T1') in P1. rewrite <- (tokens_functional _ _ _ _ _ _ T2 T2') in P2.
  apply complete in P1; [|exact (tokens_words _ _ _ _ _ Hp T1)]. apply complete in P2; [|exact (tokens_words _ _ _ _ _ Hp T2)].
  apply (reading_squeeze c) in P1. apply (reading_squeeze c) in P2. rewrite E in P1. exact (C56_unique _ _ _ _ _ P1 P2).
Qed.
Print Assumptions C72_blanks.

(** What is parsed with runs of blanks is parsed with single spaces, too. *)
Theorem C72_spaces : forall comments gm sp fuel ts t, Forall word_ok ts ->
  parse_list gm sp fuel ts = Ok t ->
  forall fuel', parse_fuel (squeeze comments false ts) <= fuel' ->
    parse_list gm sp fuel' (squeeze comments false ts) = Ok (squeezed comments t).
Proof.
  intros c gm sp fuel ts t W H f' L. apply complete in H; [|exact W]. apply (reading_squeeze c) in H. apply C56_grammar; [|exact L|exact H].
  clear -W. revert W. generalize false. induction ts as [|u ts IH]; intros a W; [constructor|]. apply Forall_cons_iff in W as [W1 W2]. cbn.
  destruct (blank c u); [|constructor; auto]. destruct a; cbn [app]; [auto|]. constructor; [intros E; discriminate E|auto].
Qed.
Print Assumptions C72_spaces.

(** ** Cases *)
Definition C72_one : text := tx "\frac { a } {b c}_ 2\sum x".
Definition C72_two : text := tx "\frac% first
  {   a% second
}% third
{b% fourth
 c}_
   2\sum   x".
Definition C72_toks (src : text) : list tok := stream_toks (lex_stream DEFAULT_SPEC src).
Local Notation C72_tree src := (parse_source false (parse_fuel (C72_toks src)) 2 DEFAULT_SPEC src) (only parsing).
Example C72_case : exists ts1 ts2 t1 t2,
  tokens_of false 2 DEFAULT_SPEC C72_one ts1 /\ tokens_of false 2 DEFAULT_SPEC C72_two ts2 /\
  squeeze true false ts1 = squeeze true false ts2 /\ squeeze false false ts1 <> squeeze false false ts2 /\ ts1 <> ts2 /\
  C72_tree C72_one = Ok t1 /\ C72_tree C72_two = Ok t2 /\ t1 <> t2 /\ squeezed true t1 = squeezed true t2.
Proof.
  assert (E1 : exists t, C72_tree C72_one = Ok t) by (eexists; vm_compute; reflexivity).
  assert (E2 : exists t, C72_tree C72_two = Ok t) by (eexists; vm_compute; reflexivity).
  destruct E1 as [t1 E1], E2 as [t2 E2].
  assert (D : match C72_tree C72_one, C72_tree C72_two with Ok a, Ok b => tree_text a <> tree_text b | _, _ => False end) by (vm_compute; discriminate).
  exists (C72_toks C72_one), (C72_toks C72_two), t1, t2.
  assert (T1 : tokens_of false 2 DEFAULT_SPEC C72_one (C72_toks C72_one)) by (split; [vm_compute|]; reflexivity).
  assert (T2 : tokens_of false 2 DEFAULT_SPEC C72_two (C72_toks C72_two)) by (split; [vm_compute|]; reflexivity).
  assert (S : squeeze true false (C72_toks C72_one) = squeeze true false (C72_toks C72_two)) by (vm_compute; reflexivity).
  split; [exact T1|split; [exact T2|split; [exact S|]]].
  split; [vm_compute; discriminate|]. split; [vm_compute; discriminate|]. split; [exact E1|split; [exact E2|]]. split.
  - rewrite E1, E2 in D. intros X. apply D. now rewrite X.
  - eapply C72_blanks; [apply le_n|exact T1|exact T2|exact S|exact E1|exact E2].
Qed.
(** whether there is a blank at all does matter *)
Example C72_presence : exists t1 t2,
  C72_tree (tx "\sqrt ab") = Ok t1 /\ C72_tree (tx "\sqrt a b") = Ok t2 /\ squeezed true t1 <> squeezed true t2.
Proof.
  assert (D : match C72_tree (tx "\sqrt ab"), C72_tree (tx "\sqrt a b") with Ok a, Ok b => squeezed true a <> squeezed true b | _, _ => False end) by (vm_compute; discriminate).
  destruct (C72_tree (tx "\sqrt ab")) as [t1| |] eqn:E1; try contradiction. destruct (C72_tree (tx "\sqrt a b")) as [t2| |] eqn:E2; try contradiction.
  exists t1, t2. split; [exact eq_refl|split; [exact eq_refl|exact D]].
Qed.
