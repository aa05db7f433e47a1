(** Properties C01-C05: tokenization.
    [lex_stream sp src] is the sequence of tokens the lexer delivers for [src];
    [stream_toks] lists them, [stream_panics] tells whether pulling some token
    panics.  LexSpec.v is the specification. *)
From Verif Require Import LexClass DefaultSpec.
Local Open Scope N_scope.

(** The text behind a token: its own text, except that an environment
    delimiter carries only the name inside its lexeme. *)
Definition lexeme (t : tok) (raw : text) : Prop :=
  raw <> [] /\
  match fst t with
  | CommandName BeginEnvironment => exists pre post, raw = tx "\begin" ++ pre ++ snd t ++ post
  | CommandName EndEnvironment => exists pre post, raw = tx "\end" ++ pre ++ snd t ++ post
  | _ => raw = snd t
  end.

(** C01.  The lexemes are consecutive and non-empty, and (unless a token could
    not be produced at all) they make up the whole source. *)
Theorem C01_lossless : forall sp src,
  exists raws rest,
    src = List.concat raws ++ rest /\
    Forall2 lexeme (stream_toks (lex_stream sp src)) raws /\
    (stream_panics (lex_stream sp src) = false -> rest = []).
Proof. exact lex_lossless. Qed.
Print Assumptions C01_lossless.

Example C01_example :
  stream_toks (lex_stream DEFAULT_SPEC (tx "\begin {a}x %c")) =
    [(CommandName BeginEnvironment, tx "a"); (Word, tx "x"); (Whitespace, tx " ");
     (LineComment, tx "%c")]
  /\ stream_panics (lex_stream DEFAULT_SPEC (tx "\begin {a}x %c")) = false.
Proof. vm_compute. auto. Qed.

(** C02.  Full statement: [forall sp src, stream_panics (lex_stream sp src) = false].
    It is false of the code; it holds when no environment delimiter contains a
    comment (in particular for sources without percent sign) and for all ASCII
    sources. *)
Theorem C02_no_panic_partial : forall sp src,
  no_commented_delimiter src \/ Forall (fun c => c < 128) src ->
  stream_panics (lex_stream sp src) = false.
Proof. intros sp src [H|H]; [exact (lex_ncd_ok sp src H) | exact (lex_ascii_ok sp src H)]. Qed.
Print Assumptions C02_no_panic_partial.
Theorem C02_no_panic_without_percent : forall sp src,
  ~ In 37 src -> stream_panics (lex_stream sp src) = false.
Proof. intros sp src H. exact (lex_ncd_ok sp src (no_percent_ncd src H)). Qed.
Print Assumptions C02_no_panic_without_percent.

(** [\begin], two empty comments, an ideographic space (3 bytes) and [{a}] *)
Theorem C02_refuted : exists sp src, stream_panics (lex_stream sp src) = true.
Proof.
  exists DEFAULT_SPEC, (tx "\begin%" ++ [10] ++ tx "%" ++ [10; 0x3000] ++ tx "{a}").
  vm_compute. reflexivity.
Qed.
Print Assumptions C02_refuted.

Example C02_example : no_commented_delimiter (tx "a \begin{b} c \end{b} \frac 1 2") /\
  Forall (fun c => c < 128) (tx "\begin%{b}").
Proof.
  split.
  - apply no_percent_ncd. vm_compute. intuition discriminate.
  - repeat constructor.
Qed.

(** C03.  At every source position, what the lexer returns is what the
    classification says and nothing else; the only source texts it does not
    cover are environment delimiters with a comment in them. *)
Theorem C03_classification : forall sp src kind txt raw rest,
  src = raw ++ rest -> ~ commented_delimiter src ->
  (lex_one sp src = LTok (kind, txt) raw rest <-> class sp kind txt raw rest).
Proof.
  intros sp src kind txt raw rest Hs Hn. split.
  - intros H. destruct src as [|c r]; [discriminate|].
    destruct (lex_one_class sp (c :: r)) as [(k & t & raw' & rest' & _ & Hc & Hl)|H'];
      [easy| |contradiction].
    rewrite Hl in H. injection H as <- <- <- <-. exact Hc.
  - intros H. rewrite Hs. now apply class_lex_one.
Qed.
Print Assumptions C03_classification.

(** ... where white space is what Unicode says it is *)
Theorem C03_white_space : forall c : char, is_whitespace c = true <-> In c white_space.
Proof.
  intros c. unfold is_whitespace, white_space. cbn [In]. split.
  - intros H. repeat (apply orb_true_iff in H as [H|H]);
      repeat match goal with
      | H : _ && _ = true |- _ => apply andb_true_iff in H as [? ?]
      | H : (_ <=? _) = true |- _ => apply N.leb_le in H
      | H : (_ =? _) = true |- _ => apply N.eqb_eq in H
      end; lia.
  - intros H. repeat (destruct H as [<-|H]; [reflexivity|]). destruct H.
Qed.
Print Assumptions C03_white_space.

(** ... and hence for the whole stream *)
Theorem C03_tokens : forall sp src toks,
  no_commented_delimiter src ->
  (stream_toks (lex_stream sp src) = toks <-> tokens sp src toks).
Proof.
  intros sp src toks Hn. destruct (tokens_exist sp src Hn) as [l Hl].
  pose proof (class_tokens sp src l Hl) as [<- _]. split; [now intros <-|].
  intros H. now apply class_tokens in H as [<- _].
Qed.
Print Assumptions C03_tokens.

Example C03_example : ~ commented_delimiter (tx "\frac 1 2") /\
  class DEFAULT_SPEC (CommandName Generic) (tx "\frac") (tx "\frac") (tx " 1 2").
Proof.
  split.
  - intros (r & [H|H] & _); discriminate.
  - apply (C03_classification DEFAULT_SPEC (tx "\frac 1 2")); [reflexivity| |reflexivity].
    intros (r & [H|H] & _); discriminate.
Qed.

(** C04.  [\name*] is one token iff the specification has [name*]. *)
Theorem C04_starred : forall sp name rest,
  name <> [] -> Forall letter name ->
  (sp (name ++ tx "*") <> None ->
   lex_one sp (tx "\" ++ name ++ tx "*" ++ rest) =
     LTok (CommandName Generic, tx "\" ++ name ++ tx "*") (tx "\" ++ name ++ tx "*") rest) /\
  (sp (name ++ tx "*") = None -> (forall n k, In (n, k) reserved -> tx n <> name) ->
   name <> tx "begin" -> name <> tx "end" ->
   lex_one sp (tx "\" ++ name ++ tx "*" ++ rest) =
     LTok (CommandName Generic, tx "\" ++ name) (tx "\" ++ name) (tx "*" ++ rest) /\
   lex_one sp (tx "*" ++ rest) = LTok (Asterisk, tx "*") (tx "*") rest).
Proof.
  intros sp name rest Hne Hl. split.
  - intros Hsp.
    replace (tx "\" ++ name ++ tx "*" ++ rest) with ((tx "\" ++ (name ++ tx "*")) ++ rest)
      by (rewrite <- !app_assoc; reflexivity).
    apply class_lex_one. apply cl_generic.
    + exists name. split; [assumption|]. split; [assumption|]. right. auto.
    + intros n k Hn E. assert (In 42 (tx n)) as Hin by (rewrite E; apply in_or_app; right; now left).
      clear - Hn Hin. cbn in Hn.
      repeat (destruct Hn as [[= <- <-]|Hn]; [cbn in Hin; intuition discriminate|]). contradiction.
    + intros E. assert (In 42 (tx "begin")) as Hin by (rewrite <- E; apply in_or_app; right; now left).
      cbn in Hin. intuition discriminate.
    + intros E. assert (In 42 (tx "end")) as Hin by (rewrite <- E; apply in_or_app; right; now left).
      cbn in Hin. intuition discriminate.
  - intros Hsp Hr Hb He. split; [|reflexivity].
    replace (tx "\" ++ name ++ tx "*" ++ rest) with ((tx "\" ++ name) ++ (tx "*" ++ rest))
      by (rewrite <- !app_assoc; reflexivity).
    apply class_lex_one. apply cl_generic; try assumption.
    exists name. split; [assumption|]. split; [assumption|]. left. split; [reflexivity|].
    split; [|auto]. simpl. unfold letter. lia.
Qed.
Print Assumptions C04_starred.

Example C04_example : DEFAULT_SPEC (tx "operatorname" ++ tx "*") <> None /\
  DEFAULT_SPEC (tx "frac" ++ tx "*") = None /\ Forall letter (tx "frac").
Proof.
  split; [vm_compute; discriminate|]. split; [vm_compute; reflexivity|].
  repeat (constructor; [unfold letter; cbn; lia|]). constructor.
Qed.

(** C05.  Full statement: blanks *and comments* may stand between [\begin], the
    braces and the name.  Proved for blanks; false for comments and for blanks
    right after the opening brace. *)
Theorem C05_delimiter_partial : forall sp b name b' rest,
  white b -> env_name name -> white b' ->
  lex_one sp (tx "\begin" ++ b ++ tx "{" ++ name ++ b' ++ tx "}" ++ rest) =
    LTok (CommandName BeginEnvironment, name)
         (tx "\begin" ++ b ++ tx "{" ++ name ++ b' ++ tx "}") rest /\
  lex_one sp (tx "\end" ++ b ++ tx "{" ++ name ++ b' ++ tx "}" ++ rest) =
    LTok (CommandName EndEnvironment, name)
         (tx "\end" ++ b ++ tx "{" ++ name ++ b' ++ tx "}") rest.
Proof.
  intros sp b name b' rest Hb Hn Hb'.
  assert (forall w, all letter w -> w <> [] ->
    word_name sp w (b ++ tx "{" ++ name ++ b' ++ tx "}" ++ rest)) as Hw.
  { intros w Hl Hne. exists w. split; [assumption|]. split; [assumption|]. left. split; [reflexivity|].
    destruct Hb as [|x b Hx Hb]; [split; [simpl; unfold letter; lia | simpl; discriminate]|].
    split; simpl.
    - intros H. apply letter_facts in H as [H _]. congruence.
    - intros <-. discriminate. }
  split.
  - replace (tx "\begin" ++ b ++ tx "{" ++ name ++ b' ++ tx "}" ++ rest)
      with ((tx "\begin" ++ b ++ tx "{" ++ name ++ b' ++ tx "}") ++ rest)
      by (rewrite <- !app_assoc; reflexivity).
    apply class_lex_one. apply cl_begin; auto. apply Hw; [|discriminate].
    repeat (constructor; [unfold letter; cbn; lia|]). constructor.
  - replace (tx "\end" ++ b ++ tx "{" ++ name ++ b' ++ tx "}" ++ rest)
      with ((tx "\end" ++ b ++ tx "{" ++ name ++ b' ++ tx "}") ++ rest)
      by (rewrite <- !app_assoc; reflexivity).
    apply class_lex_one. apply cl_end; auto. apply Hw; [|discriminate].
    repeat (constructor; [unfold letter; cbn; lia|]). constructor.
Qed.
Print Assumptions C05_delimiter_partial.

(** with a comment before the brace, the delimiter is not recognised *)
Theorem C05_refuted : exists sp name rest raw rest',
  env_name name /\
  lex_one sp (tx "\begin" ++ (tx "%" ++ [10]) ++ tx "{" ++ name ++ tx "}" ++ rest) =
    LTok (CommandName ErrorBeginEnvironment, tx "\begin") raw rest'.
Proof.
  exists DEFAULT_SPEC, (tx "eq"), [], (tx "\begin"), (tx "%" ++ [10] ++ tx "{eq}"). split.
  - exists (tx "eq"). split; [|now left]. repeat (constructor; [unfold letter; cbn; lia|]). constructor.
  - vm_compute. reflexivity.
Qed.
Print Assumptions C05_refuted.

Example C05_example : white (tx "  ") /\ env_name (tx "align*") /\ white [0x3000].
Proof.
  split; [repeat constructor|]. split; [|repeat constructor].
  exists (tx "align"). split; [|now right]. repeat (constructor; [unfold letter; cbn; lia|]). constructor.
Qed.
