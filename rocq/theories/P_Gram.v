(** Property C56: the trees the parser builds, for every token sequence and
    every source, with and without macro expansion.

    Specification used: GramSpec.v (the grammar; it shares with PairSpec.v the
    delimiters of [\left] and [\right]), and the specification data (Spec.v). *)
From Verif Require Import Api P_Lex P_Macro ParserSource ParserEnd P_Parser DefaultSpec GramSpec GramComplete.
Local Open Scope nat_scope.

(** The parser answers the reading of the tokens, and nothing but the reading. *)
Theorem C56_grammar : forall gm sp fuel ts t, Forall word_ok ts -> parse_fuel ts <= fuel ->
  (parse_list gm sp fuel ts = Ok t <-> reading gm sp ts t).
Proof.
  intros gm sp fuel ts t W Hf. split; [now apply complete|]. intros H. apply parses in H as [N H].
  rewrite <- (H (Nat.max N fuel)) by lia. rewrite (parse_enough gm sp fuel) by assumption. symmetry. apply parse_enough; [assumption|lia].
Qed.
Print Assumptions C56_grammar.

(** Where there is no reading the parser panics, and only there (see C23). *)
Theorem C56_panics : forall gm sp fuel ts, Forall word_ok ts -> parse_fuel ts <= fuel ->
  ((exists site, parse_list gm sp fuel ts = Panic site) <-> ~ exists t, reading gm sp ts t).
Proof.
  intros gm sp fuel ts W Hf. split.
  - intros [site E] [t H]. apply (C56_grammar gm sp fuel ts t W Hf) in H. congruence.
  - intros H. destruct (parse_list gm sp fuel ts) as [t|site|] eqn:E; [|eauto|].
    + exfalso. apply H. exists t. now apply (C56_grammar gm sp fuel ts t W Hf).
    + exfalso. exact (parse_stops gm sp fuel ts W Hf E).
Qed.
Print Assumptions C56_panics.

(** There is at most one reading. *)
Theorem C56_unique : forall gm sp ts t1 t2, reading gm sp ts t1 -> reading gm sp ts t2 -> t1 = t2.
Proof.
  intros gm sp ts t1 t2 H1 H2. apply parses in H1 as [N1 H1]. apply parses in H2 as [N2 H2].
  specialize (H1 (Nat.max N1 N2) ltac:(lia)). specialize (H2 (Nat.max N1 N2) ltac:(lia)). congruence.
Qed.
Print Assumptions C56_unique.

(** The same for sources. *)
Theorem C56_source : forall macros page sp src ts, 2 <= page -> tokens_of macros page sp src ts ->
  exists f0, forall fuel, f0 <= fuel ->
    (forall t, parse_source macros fuel page sp src = Ok t <-> reading gm_real sp ts t) /\
    ((exists site, parse_source macros fuel page sp src = Panic site) <-> ~ exists t, reading gm_real sp ts t).
Proof.
  intros m page sp src ts Hp Ht. destruct (parse_source_enough _ _ _ _ _ Hp Ht) as [f0 Hf]. exists f0. intros fuel L. rewrite (Hf fuel L).
  pose proof (tokens_words _ _ _ _ _ Hp Ht) as W. split; [intros t; now apply C56_grammar|now apply C56_panics].
Qed.
Print Assumptions C56_source.

(** ** Cases *)
Definition C56_toks (s : string) : list tok := stream_toks (lex_stream DEFAULT_SPEC (tx s)).
Lemma C56_by_parsing s t : parse_list gm_real DEFAULT_SPEC (parse_fuel (C56_toks s)) (C56_toks s) = Ok t -> reading gm_real DEFAULT_SPEC (C56_toks s) t.
Proof. intros H. eapply C56_grammar; [apply lex_words|apply le_n|exact H]. Qed.
Definition W_ s := Leaf TokenWord (tx s).
Definition T_ s := Node ItemText [W_ s].
Definition A_ x := Node ClauseArgument x.
(** scripts attach to what stands before them, [\over] takes both sides of its
    group, [\sqrt] an optional argument and one character *)
Example C56_example : reading gm_real DEFAULT_SPEC (C56_toks "{a_{i}^2\over\sqrt[3]xy}")
  (Node ScopeRoot [Node ItemCurly [Leaf TokenLBrace (tx "{");
     Node ItemCmd [A_ [Node ItemAttachComponent [A_ [Node ItemAttachComponent [A_ [T_ "a"]; Leaf TokenUnderscore (tx "_");
                                                      Node ItemCurly [Leaf TokenLBrace (tx "{"); T_ "i"; Leaf TokenRBrace (tx "}")]]];
                                                 Leaf TokenCaret (tx "^"); W_ "2"]];
       Leaf ClauseCommandName (tx "\over");
       A_ [Node ItemCmd [Leaf ClauseCommandName (tx "\sqrt");
             A_ [Node ItemBracket [Leaf TokenLBracket (tx "["); T_ "3"; Leaf TokenRBracket (tx "]")]]; A_ [W_ "x"]]; T_ "y"]];
     Leaf TokenRBrace (tx "}")]]).
Proof. apply C56_by_parsing. vm_compute. reflexivity. Qed.
(** these have none *)
Example C56_none : (~ exists t, reading gm_real DEFAULT_SPEC (C56_toks "{x}{a}_\over b") t) /\ (~ exists t, reading gm_real DEFAULT_SPEC (C56_toks " _\limits") t).
Proof.
  split; (eapply C56_panics; [apply lex_words|apply le_n|]); eexists; vm_compute; reflexivity.
Qed.
(** a derivation by hand: a prime after a word *)
Example C56_by_hand : reading gm_real DEFAULT_SPEC [(Word, tx "f"); (Apostrophe, tx "'")]
  (Node ScopeRoot [Node ItemAttachComponent [A_ [T_ "f"]; Leaf TokenApostrophe (tx "'")]]).
Proof.
  exists (mk_line [] (Some [Node ItemAttachComponent [A_ [T_ "f"]; Leaf TokenApostrophe (tx "'")]]) Start). split; [|reflexivity].
  eapply c_base; [intros [H _]; congruence| |reflexivity|].
  - apply (e_text gm_real DEFAULT_SPEC Top false (fresh Start) (Word, tx "f") [] [(Apostrophe, tx "'")]); [right; split; reflexivity|constructor|].
    cbn. unfold text_token. cbn. intros H. repeat (destruct H as [H|H]; [discriminate H|]). exact H.
  - eapply c_other; [intros [H _]; congruence| |apply c_eof]. apply e_prime. reflexivity.
Qed.
