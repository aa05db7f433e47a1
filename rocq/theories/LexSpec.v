(** What a TeX user expects of the tokens of a source: a declarative relation,
    written without any of the lexer's functions.  Only the vocabulary of
    Base.v (whitespace, [tx]), the token kinds and the specification type are
    used. *)
From Verif Require Export Token Spec.
Local Open Scope N_scope.

Definition starts (P : char -> Prop) (s : text) : Prop :=
  match s with [] => False | c :: _ => P c end.
Definition all (P : char -> Prop) (s : text) : Prop := Forall P s.

(** The code points of Unicode's White_Space property (PropList.txt).  The
    relation below says [is_whitespace]; [C03_white_space] in P_Lex.v shows that
    this is exactly membership in this list. *)
Definition white_space : list char :=
  [9; 10; 11; 12; 13; 32; 133; 160; 5760; 8192; 8193; 8194; 8195; 8196; 8197; 8198; 8199; 8200;
   8201; 8202; 8232; 8233; 8239; 8287; 12288].

(** character classes *)
Definition eol (c : char) : Prop := c = 10 \/ c = 13.
Definition blank (c : char) : Prop := is_whitespace c = true /\ ~ eol c.
Definition letter (c : char) : Prop := (65 <= c <= 90) \/ (97 <= c <= 122) \/ c = 64.
(** the characters that are tokens of their own *)
Definition marks : list (char * token) :=
  combine (tx "{[(}]),~/&^';#*@_")
    [TLeft Curly; TLeft Bracket; TLeft Paren; TRight Curly; TRight Bracket; TRight Paren;
     Comma; Tilde; Slash; Ampersand; Caret; Apostrophe; Semicolon; Hash; Asterisk; AtSign;
     Underscore]
  ++ [(34, Ditto)].
(** everything else that is not blank, backslash, percent or dollar *)
Definition wordlike (c : char) : Prop :=
  is_whitespace c = false /\ ~ In c (tx "\%$") /\ forall k, ~ In (c, k) marks.

(** the conditional, branch and delimiter control words *)
Definition reserved : list (string * cmdname) :=
  [ ("if", CIf IfIf); ("iftypst", CIf IfTypst); ("iffalse", CIf IfFalse);
    ("iftrue", CIf IfTrue); ("ifcase", CIf IfCase); ("ifnum", CIf IfNum);
    ("ifcat", CIf IfCat); ("ifx", CIf IfX); ("ifvoid", CIf IfVoid);
    ("ifhbox", CIf IfHBox); ("ifvbox", CIf IfVBox); ("ifhmode", CIf IfHMode);
    ("ifmmode", CIf IfMMode); ("ifvmode", CIf IfVMode); ("ifinner", CIf IfInner);
    ("ifdim", CIf IfDim); ("ifeof", CIf IfEof); ("@ifstar", CIf IfStar);
    ("else", CElse); ("fi", CEndIf); ("left", CLeft); ("right", CRight) ]%string.

(** A control word: as many letters as there are, and a star exactly when the
    specification has an item for the starred name *)
Definition word_name (sp : spec) (name rest : text) : Prop :=
  exists letters, letters <> [] /\ all letter letters /\
    let starred := letters ++ tx "*" in
    (name = letters /\ ~ starts letter rest /\ (starts (eq 42) rest -> sp starred = None))
    \/ (name = starred /\ sp starred <> None).

(** An environment name (possibly empty, possibly starred) *)
Definition env_name (name : text) : Prop :=
  exists letters, all letter letters /\ (name = letters \/ name = letters ++ tx "*").
Definition white (s : text) : Prop := all (fun c => is_whitespace c = true) s.
(** [rest] goes on with the name in braces, blanks being allowed before the
    opening and before the closing brace *)
Definition braced_name (rest : text) : Prop :=
  exists b name b' r, white b /\ env_name name /\ white b' /\
    rest = b ++ tx "{" ++ name ++ b' ++ tx "}" ++ r.
(** [rest] has a comment at a place where a name in braces could have blanks *)
Definition commented_name (rest : text) : Prop :=
  (exists b r, white b /\ rest = b ++ tx "%" ++ r) \/
  (exists b name b' r, white b /\ env_name name /\ white b' /\
     rest = b ++ tx "{" ++ name ++ b' ++ tx "%" ++ r).

(** [class sp kind text raw rest]: in front of [rest], the lexeme [raw] is a
    token of this kind and text *)
Inductive class (sp : spec) : token -> text -> text -> text -> Prop :=
| cl_linebreak raw rest : raw <> [] -> all eol raw -> ~ starts eol rest ->
    class sp LineBreak raw raw rest
| cl_blank raw rest : raw <> [] -> all blank raw -> ~ starts blank rest ->
    class sp Whitespace raw raw rest
| cl_comment body rest : all (fun c => ~ eol c) body -> (rest = [] \/ starts eol rest) ->
    class sp LineComment (tx "%" ++ body) (tx "%" ++ body) rest
| cl_mark c k rest : In (c, k) marks -> class sp k [c] [c] rest
| cl_word raw rest : raw <> [] -> all wordlike raw -> ~ starts wordlike rest ->
    class sp Word raw raw rest
| cl_dollar2 rest : class sp Dollar (tx "$$") (tx "$$") rest
| cl_dollar rest : ~ starts (eq 36) rest -> class sp Dollar (tx "$") (tx "$") rest
| cl_newline rest : class sp NewLine (tx "\\") (tx "\\") rest
| cl_lone rest : rest = [] \/ starts (fun c => is_whitespace c = true) rest ->
    class sp (CommandName Generic) (tx "\") (tx "\") rest
| cl_open c rest : In c (tx "([") ->
    class sp (CommandName BeginMath) (tx "\" ++ [c]) (tx "\" ++ [c]) rest
| cl_close c rest : In c (tx ")]") ->
    class sp (CommandName EndMath) (tx "\" ++ [c]) (tx "\" ++ [c]) rest
| cl_symbol c rest : is_whitespace c = false -> ~ letter c -> ~ In c (tx "\([)]") ->
    class sp (CommandName Generic) (tx "\" ++ [c]) (tx "\" ++ [c]) rest
| cl_reserved name k rest : word_name sp (tx name) rest -> In (name, k) reserved ->
    class sp (CommandName k) (tx "\" ++ tx name) (tx "\" ++ tx name) rest
| cl_generic name rest : word_name sp name rest ->
    (forall n k, In (n, k) reserved -> tx n <> name) ->
    name <> tx "begin" -> name <> tx "end" ->
    class sp (CommandName Generic) (tx "\" ++ name) (tx "\" ++ name) rest
| cl_begin blanks name blanks' rest :
    word_name sp (tx "begin") (blanks ++ tx "{" ++ name ++ blanks' ++ tx "}" ++ rest) ->
    white blanks -> white blanks' -> env_name name ->
    class sp (CommandName BeginEnvironment) name
      (tx "\begin" ++ blanks ++ tx "{" ++ name ++ blanks' ++ tx "}") rest
| cl_end blanks name blanks' rest :
    word_name sp (tx "end") (blanks ++ tx "{" ++ name ++ blanks' ++ tx "}" ++ rest) ->
    white blanks -> white blanks' -> env_name name ->
    class sp (CommandName EndEnvironment) name
      (tx "\end" ++ blanks ++ tx "{" ++ name ++ blanks' ++ tx "}") rest
| cl_badbegin rest : word_name sp (tx "begin") rest -> ~ braced_name rest -> ~ commented_name rest ->
    class sp (CommandName ErrorBeginEnvironment) (tx "\begin") (tx "\begin") rest
| cl_badend rest : word_name sp (tx "end") rest -> ~ braced_name rest -> ~ commented_name rest ->
    class sp (CommandName ErrorEndEnvironment) (tx "\end") (tx "\end") rest.

(** The tokens of a whole source *)
Inductive tokens (sp : spec) : text -> list tok -> Prop :=
| tokens_nil : tokens sp [] []
| tokens_cons kind txt raw rest l :
    class sp kind txt raw rest -> tokens sp rest l -> tokens sp (raw ++ rest) ((kind, txt) :: l).

(** A source none of whose environment delimiters contains a comment *)
Definition no_commented_delimiter (src : text) : Prop :=
  forall pre rest, (src = pre ++ tx "\begin" ++ rest \/ src = pre ++ tx "\end" ++ rest) ->
    ~ commented_name rest.
