(** The exact lexical grammar, environment delimiters with comments in them
    included.  LexSpec.v says what tokens a TeX user expects and leaves such
    delimiters out; here is what they are read as.  Written without any of the
    lexer's functions; the vocabulary is that of LexSpec.v and [blen], the
    length of a text in UTF-8 bytes (Base.v). *)
From Verif Require Export LexSpec.
Local Open Scope N_scope.

(** blanks and comments, the number of (ended) comments among them *)
Inductive gap : nat -> text -> Prop :=
| gap_nil : gap 0 []
| gap_white n c g : is_whitespace c = true -> gap n g -> gap n (c :: g)
| gap_comment n body e g : all (fun c => ~ eol c) body -> eol e -> gap n g ->
    gap (S n) (tx "%" ++ body ++ [e] ++ g).

(** the position [n] (in bytes) lies between two characters of [s] *)
Definition cut (s : text) (n : nat) (a b : text) : Prop := s = a ++ b /\ blen a = n.
Definition boundary (s : text) (n : nat) : Prop := exists a b, cut s n a b.

(** After [\begin] or [\end], the opening brace is the first character after a
    gap; the name is read from position [i].  That is not the position behind
    the brace but one byte less for every comment in the gap: the line end that
    closes a comment is not counted. *)
Definition opening (r : text) (i : nat) : Prop :=
  exists g n after, gap n g /\ r = g ++ tx "{" ++ after /\ (i + n = blen (g ++ tx "{"))%nat.
(** the name is the longest one that can be read *)
Definition whole_name (name more : text) : Prop :=
  env_name name /\
  ((exists l, name = l ++ tx "*") \/ (~ starts letter more /\ ~ starts (eq 42) more)).
(** The closing brace is the first character after another gap, and the
    delimiter ends at position [j], again with the line ends not counted. *)
Definition closing (before more : text) (j : nat) : Prop :=
  exists g n after, gap n g /\ more = g ++ tx "}" ++ after /\
    (j + n = blen (before ++ g ++ tx "}"))%nat.

(** [r] begins with a delimiter of environment [name] that takes up [used] *)
Definition delimiter (r name used rest : text) : Prop :=
  exists i j a more, opening r i /\ cut r i a (name ++ more) /\ whole_name name more /\
    closing (a ++ name) more j /\ cut r j used rest.
(** one of the two positions lies inside a character *)
Definition broken (r : text) : Prop :=
  exists i, opening r i /\
    (~ boundary r i \/
     exists j a name more, cut r i a (name ++ more) /\ whole_name name more /\
       closing (a ++ name) more j /\ ~ boundary r j).

Definition environment_kind (k : token) : Prop :=
  In k [CommandName BeginEnvironment; CommandName EndEnvironment;
        CommandName ErrorBeginEnvironment; CommandName ErrorEndEnvironment].

(** [token_at sp kind text raw rest]: in front of [rest], the lexeme [raw] is a
    token of this kind and text.  All kinds but the environment delimiters are
    as in LexSpec.v. *)
Inductive token_at (sp : spec) : token -> text -> text -> text -> Prop :=
| ta_plain k t raw rest : class sp k t raw rest -> ~ environment_kind k ->
    token_at sp k t raw rest
| ta_begin name used rest : word_name sp (tx "begin") (used ++ rest) ->
    delimiter (used ++ rest) name used rest ->
    token_at sp (CommandName BeginEnvironment) name (tx "\begin" ++ used) rest
| ta_end name used rest : word_name sp (tx "end") (used ++ rest) ->
    delimiter (used ++ rest) name used rest ->
    token_at sp (CommandName EndEnvironment) name (tx "\end" ++ used) rest
| ta_badbegin rest : word_name sp (tx "begin") rest ->
    (forall name used rest', ~ delimiter rest name used rest') -> ~ broken rest ->
    token_at sp (CommandName ErrorBeginEnvironment) (tx "\begin") (tx "\begin") rest
| ta_badend rest : word_name sp (tx "end") rest ->
    (forall name used rest', ~ delimiter rest name used rest') -> ~ broken rest ->
    token_at sp (CommandName ErrorEndEnvironment) (tx "\end") (tx "\end") rest.

(** the source goes on with a delimiter that cannot be read *)
Definition unreadable (sp : spec) (src : text) : Prop :=
  exists w rest, In w [tx "begin"; tx "end"] /\ src = tx "\" ++ w ++ rest /\
    word_name sp w rest /\ broken rest.

(** The tokens of a source, and whether all of it can be read *)
Inductive lexed (sp : spec) : text -> list tok -> bool -> Prop :=
| rd_end : lexed sp [] [] true
| rd_stuck src : unreadable sp src -> lexed sp src [] false
| rd_token kind txt raw rest l ok : token_at sp kind txt raw rest -> lexed sp rest l ok ->
    lexed sp (raw ++ rest) ((kind, txt) :: l) ok.
