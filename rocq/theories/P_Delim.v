(** Property C57: the exact lexical grammar, environment delimiters with
    comments included; with it the exact forms of C02 and C05.
    DelimSpec.v is the specification. *)
From Verif Require Import Api P_Parser ParserSource ParserEnd GramSpec P_Gram LexDelim DefaultSpec.
Local Open Scope N_scope.

(** C57.  At every source position and for every specification, what the lexer
    returns is what the grammar says, with no exception. *)
Theorem C57_token : forall sp src kind txt raw rest,
  lex_one sp src = LTok (kind, txt) raw rest <->
  src = raw ++ rest /\ token_at sp kind txt raw rest.
Proof.
  intros sp src kind txt raw rest. split.
  - intros H. destruct (lex_cases sp src) as [[_ E]|[[_ [s E]]|(k & t & raw' & rest' & E1 & Ht & E)]];
      rewrite E in H; try discriminate. injection H as <- <- <- <-. auto.
  - intros [-> H]. now apply token_at_lex.
Qed.
Print Assumptions C57_token.

(** ... it panics exactly in front of a delimiter one of whose two positions
    lies inside a character, and stops exactly at the end *)
Theorem C57_panics : forall sp src,
  (exists site, lex_one sp src = LPanic site) <-> unreadable sp src.
Proof.
  intros sp src. split.
  - intros [site H]. destruct (lex_cases sp src) as [[_ E]|[[Hu _]|(k & t & raw' & rest' & E1 & Ht & E)]];
      [congruence|exact Hu|congruence].
  - apply unreadable_lex.
Qed.
Print Assumptions C57_panics.
Theorem C57_end : forall sp src, lex_one sp src = LEnd <-> src = [].
Proof. intros sp src. split; [apply lex_one_end | now intros ->]. Qed.
Print Assumptions C57_end.

(** Whole sources: the tokens delivered, and whether the end is reached *)
Theorem C57_stream : forall sp src toks ok,
  (stream_toks (lex_stream sp src) = toks /\ stream_panics (lex_stream sp src) = negb ok) <->
  lexed sp src toks ok.
Proof.
  intros sp src toks ok. split.
  - intros [<- H]. destruct (lexed_exists sp src) as (l & ok' & Hr).
    pose proof (lexed_stream _ _ _ _ Hr) as [<- H'].
    assert (ok = ok') as -> by (destruct ok, ok'; cbn in *; congruence). exact Hr.
  - apply lexed_stream.
Qed.
Print Assumptions C57_stream.

(** every source has exactly one reading *)
Theorem C57_unique : forall sp src,
  exists toks ok, lexed sp src toks ok /\
    forall toks' ok', lexed sp src toks' ok' -> toks' = toks /\ ok' = ok.
Proof.
  intros sp src. destruct (lexed_exists sp src) as (l & ok & H). exists l, ok. split; [exact H|].
  intros l' ok' H'. apply lexed_stream in H as [<- H1], H' as [<- H2]. split; [reflexivity|].
  destruct ok, ok'; cbn in *; congruence.
Qed.
Print Assumptions C57_unique.

(** C02, exactly: the lexer panics iff the reading gets stuck *)
Theorem C02_exact : forall sp src,
  stream_panics (lex_stream sp src) = true <-> exists toks, lexed sp src toks false.
Proof.
  intros sp src. split.
  - intros H. exists (stream_toks (lex_stream sp src)). apply C57_stream. auto.
  - intros [toks H]. now apply C57_stream in H as [_ ->].
Qed.
Print Assumptions C02_exact.

(** C05, exactly: after [\begin] or [\end] the lexer finds the delimiter of
    DelimSpec.v or reports an error, or panics *)
Theorem C05_exact : forall sp r name raw rest,
  word_name sp (tx "begin") r ->
  (lex_one sp (tx "\begin" ++ r) = LTok (CommandName BeginEnvironment, name) raw rest <->
   exists used, raw = tx "\begin" ++ used /\ delimiter r name used rest).
Proof.
  intros sp r name raw rest Hw. rewrite (word_begin_lex sp r Hw). unfold lex_begin_end. split.
  - destruct (lex_env_work r) as [|s|nm used rest'] eqn:E; try discriminate.
    intros [= <- <- <-]. exists used. split; [reflexivity|]. now apply work_delimiter.
  - intros (used & -> & H). apply work_delimiter in H. now rewrite H.
Qed.
Print Assumptions C05_exact.

Lemma gap_head n g c s : gap n g -> ~ letter c -> c <> 42 ->
  ~ starts letter (g ++ c :: s) /\ ~ starts (eq 42) (g ++ c :: s).
Proof.
  intros Hg Hc H42. destruct Hg as [|n x g Hx _|n body e g _ _ _]; cbn [app starts].
  - split; congruence.
  - split; [intros H; apply letter_facts in H as [H _]; congruence | intros <-; discriminate].
  - cbn [tx app starts]. split; [unfold letter; cbn; lia | discriminate].
Qed.
Lemma gap_word sp w n g c s : In w [tx "begin"; tx "end"] -> gap n g -> ~ letter c -> c <> 42 ->
  word_name sp w (g ++ c :: s).
Proof.
  intros Hw Hg Hc H42. destruct (gap_head n g c s Hg Hc H42) as [H1 H2].
  exists w. split; [destruct Hw as [<-|[<-|[]]]; discriminate|]. split.
  { destruct Hw as [<-|[<-|[]]]; repeat (constructor; [unfold letter; cbn; lia|]); constructor. }
  left. split; [reflexivity|]. split; [exact H1|]. intros H. contradiction (H2 H).
Qed.

(** a single comment before the opening brace: never a delimiter, whatever
    follows (the brace is met a second time where the name should start) *)
Theorem C05_comment_before_brace : forall sp g after,
  gap 1 g ->
  lex_one sp (tx "\begin" ++ g ++ tx "{" ++ after) =
    LTok (CommandName ErrorBeginEnvironment, tx "\begin") (tx "\begin") (g ++ tx "{" ++ after) /\
  lex_one sp (tx "\end" ++ g ++ tx "{" ++ after) =
    LTok (CommandName ErrorEndEnvironment, tx "\end") (tx "\end") (g ++ tx "{" ++ after).
Proof.
  intros sp g after Hg. change (tx "{" ++ after) with (123 :: after).
  assert (opening (g ++ 123 :: after) (blen g)) as Ho.
  { exists g, 1%nat, after. split; [exact Hg|]. split; [reflexivity|]. rewrite blen_app. reflexivity. }
  assert (cut (g ++ 123 :: after) (blen g) g ([] ++ 123 :: after)) as Hcut by (split; reflexivity).
  assert (whole_name [] (123 :: after)) as Hwn.
  { split; [exists []; split; [constructor|now left]|]. right. cbn [starts]. unfold letter. split; [lia|discriminate]. }
  assert (forall b m j, closing b m j -> ~ starts (eq 123) m) as Hcl.
  { intros b m j (g' & n & x & Hg' & -> & _). destruct Hg' as [|? c g' Hc _|]; cbn; try discriminate.
    intros <-. discriminate. }
  assert (lex_env_work (g ++ 123 :: after) = WNone) as E.
  { apply work_none. split.
    - intros name used rest (i & j & a & more & Hi & Ha & Hn & Hj & _).
      rewrite <- (opening_fun _ _ _ Ho Hi) in Ha. destruct (cut_fun _ _ _ _ _ _ Hcut Ha) as [<- Ea].
      destruct (whole_name_fun _ _ _ _ Hwn Hn Ea) as [<- <-]. apply (Hcl _ _ _ Hj). reflexivity.
    - intros (i & Hi & [Hb|(j & a & name & more & Ha & Hn & Hj & _)]).
      + apply Hb. rewrite <- (opening_fun _ _ _ Ho Hi). exists g, (123 :: after). exact Hcut.
      + rewrite <- (opening_fun _ _ _ Ho Hi) in Ha. destruct (cut_fun _ _ _ _ _ _ Hcut Ha) as [<- Ea].
        destruct (whole_name_fun _ _ _ _ Hwn Hn Ea) as [<- <-]. apply (Hcl _ _ _ Hj). reflexivity. }
  split.
  - rewrite word_begin_lex by (eapply gap_word; [cbn; tauto|exact Hg|unfold letter; lia|discriminate]).
    unfold lex_begin_end. now rewrite E.
  - rewrite word_end_lex by (eapply gap_word; [cbn; tauto|exact Hg|unfold letter; lia|discriminate]).
    unfold lex_begin_end. now rewrite E.
Qed.
Print Assumptions C05_comment_before_brace.

(** a single comment before the closing brace: the environment is found, but
    its closing brace is left in the source *)
Theorem C05_comment_after_name : forall sp b name g after,
  white b -> env_name name -> gap 1 g ->
  lex_one sp (tx "\begin" ++ b ++ tx "{" ++ name ++ g ++ tx "}" ++ after) =
    LTok (CommandName BeginEnvironment, name) (tx "\begin" ++ b ++ tx "{" ++ name ++ g)
      (tx "}" ++ after) /\
  lex_one sp (tx "\end" ++ b ++ tx "{" ++ name ++ g ++ tx "}" ++ after) =
    LTok (CommandName EndEnvironment, name) (tx "\end" ++ b ++ tx "{" ++ name ++ g)
      (tx "}" ++ after).
Proof.
  intros sp b name g after Hb Hn Hg.
  assert (gap 0 b) as Hb' by (induction Hb; now constructor).
  assert (delimiter (b ++ tx "{" ++ name ++ g ++ tx "}" ++ after) name
            (b ++ tx "{" ++ name ++ g) (tx "}" ++ after)) as Hd.
  { exists (blen (b ++ tx "{")), (blen (b ++ tx "{" ++ name ++ g)), (b ++ tx "{"), (g ++ tx "}" ++ after).
    split; [|split; [|split; [|split]]].
    - exists b, 0%nat, (name ++ g ++ tx "}" ++ after). split; [exact Hb'|]. split; [reflexivity|lia].
    - split; [now rewrite <- app_assoc|reflexivity].
    - split; [exact Hn|]. right.
      apply (gap_head 1 g 125 after Hg); [unfold letter; lia|discriminate].
    - exists g, 1%nat, after. split; [exact Hg|]. split; [reflexivity|].
      rewrite !blen_app. change (blen (tx "}")) with 1%nat. lia.
    - split; [now rewrite <- !app_assoc|reflexivity]. }
  apply work_delimiter in Hd. split.
  - rewrite word_begin_lex by (eapply (gap_word sp _ 0 b 123); [cbn; tauto|exact Hb'|unfold letter; lia|discriminate]).
    unfold lex_begin_end. now rewrite Hd.
  - rewrite word_end_lex by (eapply (gap_word sp _ 0 b 123); [cbn; tauto|exact Hb'|unfold letter; lia|discriminate]).
    unfold lex_begin_end. now rewrite Hd.
Qed.
Print Assumptions C05_comment_after_name.

(** The hypotheses are met: a gap of one comment; a delimiter with five comments
    that is read as the name of another environment, up to a brace inside the
    comment; and the unreadable source of [C02_refuted]. *)
Example C57_gap : gap 1 (tx " %x" ++ [10]).
Proof.
  apply gap_white; [reflexivity|]. apply (gap_comment 0 (tx "x") 10 []); [|now left|constructor].
  constructor; [unfold eol; cbn; intuition discriminate|constructor].
Qed.
Example C57_misread :
  token_at DEFAULT_SPEC (CommandName BeginEnvironment) (tx "ab")
    (tx "\begin%" ++ [10] ++ tx "%" ++ [10] ++ tx "%" ++ [10] ++ tx "%" ++ [10] ++ tx "%ab}")
    ([10] ++ tx "{x}").
Proof.
  apply (proj1 (C57_token DEFAULT_SPEC
    (tx "\begin%" ++ [10] ++ tx "%" ++ [10] ++ tx "%" ++ [10] ++ tx "%" ++ [10] ++ tx "%ab}"
       ++ [10] ++ tx "{x}") _ _ _ _)).
  vm_compute. reflexivity.
Qed.
Example C57_unreadable :
  unreadable DEFAULT_SPEC (tx "\begin%" ++ [10] ++ tx "%" ++ [10; 0x3000] ++ tx "{a}").
Proof. apply C57_panics. vm_compute. eauto. Qed.
Example C57_reading :
  lexed DEFAULT_SPEC (tx "\begin{a%" ++ [10] ++ tx "}x")
    [(CommandName BeginEnvironment, tx "a"); (TRight Curly, tx "}"); (Word, tx "x")] true.
Proof. apply C57_stream. vm_compute. auto. Qed.

(** Together with the grammar of the parser (C56): the trees of a source, from
    its characters, when macros are off.  [lexed] and [reading] are the two
    specifications; nothing of the lexer or the parser is left in the right-hand
    side but the glob matcher of argument patterns. *)
Theorem C57_parse : forall page sp src, (2 <= page)%nat ->
  exists f0, forall fuel, (f0 <= fuel)%nat -> forall t,
    parse_without_macro fuel page sp src = Ok t <->
    exists ts, lexed sp src ts true /\ reading gm_real sp ts t.
Proof.
  intros page sp src Hp. exists (parse_fuel (stream_toks (lex_stream sp src))). intros fuel Hf t. split.
  - intros H. apply parse_plain_reads in H as [H1 H2]; [|lia].
    exists (stream_toks (lex_stream sp src)). split; [apply C57_stream; auto|].
    eapply C56_grammar; [apply lex_words|exact Hf|exact H2].
  - intros (ts & Hl & Hr). apply C57_stream in Hl as [<- H].
    rewrite parse_plain by (auto; lia). eapply C56_grammar; [apply lex_words|exact Hf|exact Hr].
Qed.
Print Assumptions C57_parse.
Example C57_parse_example : lexed DEFAULT_SPEC (tx "x%c") [(Word, tx "x"); (LineComment, tx "%c")] true /\
  exists t, reading gm_real DEFAULT_SPEC [(Word, tx "x"); (LineComment, tx "%c")] t.
Proof.
  split; [apply C57_stream; vm_compute; auto|]. eexists. exact (C56_by_parsing "x%c" _ ltac:(vm_compute; reflexivity)).
Qed.
