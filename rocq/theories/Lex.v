(** The logos lexer: crates/mitex-lexer/src/token.rs:22-423 and
    [StreamContext::lex_one], stream.rs:80-92.

    logos picks the longest match of the regexes/tokens declared on [Token]
    (token.rs:22-124).  Every character belongs to exactly one class below, so
    the longest match is a maximal run ([LineBreak], [Whitespace], [Word],
    [LineComment]) or one of the fixed tokens; only backslash and dollar need a
    look at the next character.  *)
From Verif Require Export Token Spec.
Local Open Scope N_scope.

(** token.rs:25 [\r\n] *)
Definition is_crlf (c : char) : bool := (c =? 10) || (c =? 13).
(** token.rs:30 [^\S\r\n] *)
Definition is_blank (c : char) : bool := is_whitespace c && negb (is_crlf c).

(** token.rs:45-103: the one-character tokens
    (the symbols { [ ( } ] ) , ~ / & ^ apostrophe double-quote ; # * @ _ ) *)
Definition punct_token (c : char) : option token :=
  if c =? 123 then Some (TLeft Curly)
  else if c =? 91 then Some (TLeft Bracket)
  else if c =? 40 then Some (TLeft Paren)
  else if c =? 125 then Some (TRight Curly)
  else if c =? 93 then Some (TRight Bracket)
  else if c =? 41 then Some (TRight Paren)
  else if c =? 44 then Some Comma
  else if c =? 126 then Some Tilde
  else if c =? 47 then Some Slash
  else if c =? 38 then Some Ampersand
  else if c =? 94 then Some Caret
  else if c =? 39 then Some Apostrophe
  else if c =? 34 then Some Ditto
  else if c =? 59 then Some Semicolon
  else if c =? 35 then Some Hash
  else if c =? 42 then Some Asterisk
  else if c =? 64 then Some AtSign
  else if c =? 95 then Some Underscore
  else None.

(** token.rs:107: the Word class; everything that is not whitespace,
    backslash, percent, dollar or a one-character token *)
Definition is_word_char (c : char) : bool :=
  negb (is_whitespace c || (c =? 92) || (c =? 37) || (c =? 36)
        || match punct_token c with Some _ => true | None => false end).

(** token.rs:301-344 [advance_ascii_name].  [cmd] is [Some (spec, start)] when
    [lex_slash_command] holds, [start] being the source from one byte after the
    span start (the command name); the slice of [bump + 2] bytes from there is
    looked up in the specification. *)
Fixpoint advance_ascii_name (cmd : option (spec * text)) (bytes : list N) (bump : nat) : nat :=
  match bytes with
  | [] => bump
  | c :: r =>
    if c =? 42 (* '*' *) then
      let verified :=
        match cmd with
        | Some (sp, start) =>
          match split_bytes (bump + 2) start with
          | Some (s, _) => match sp s with Some _ => true | None => false end
          | None => false
          end
        | None => true
        end in
      if verified then S bump else bump
    else if is_ascii_alpha c then advance_ascii_name cmd r (S bump)
    else if c =? 64 (* '@' *) then advance_ascii_name cmd r (S bump)
    else bump
  end.

(** token.rs:362-388 [LexTask::next_non_trivia]: the next character that is
    neither whitespace nor inside a comment, the remaining characters and the
    updated [collected] byte count.  [inc] is true inside the inner [for] loop
    (lines 376-381): the newline that ends a comment is consumed but not
    counted. *)
Fixpoint next_non_trivia (inc : bool) (chars : text) (collected : nat)
  : option char * text * nat :=
  match chars with
  | [] => (None, [], collected)
  | c :: r =>
    if inc then
      if is_crlf c then next_non_trivia false r collected
      else next_non_trivia true r (collected + utf8_len c)
    else if is_whitespace c then next_non_trivia false r (collected + utf8_len c)
    else if c =? 37 then next_non_trivia true r (collected + utf8_len c)
    else (Some c, r, (collected + utf8_len c)%nat)
  end.

(** Result of [LexTask::work]: [WNone] is the [None] return; [WSome env used rest]
    means that the lexer was bumped over [used], [env] being the slice
    [extras.1]. *)
Inductive work_res :=
| WNone
| WPanic (site : string)
| WSome (env used rest : text).

(** token.rs:391-413 [LexTask::work]; [src] is the source after the span end.
    [lex_one] (stream.rs:84-88) later slices the source with [extras.1] and
    unwraps; that slice is taken here because nothing happens in between. *)
Definition lex_env_work (src : text) : work_res :=
  let '(c, _, collected) := next_non_trivia false src 0 in
  match c with
  | None => WNone
  | Some c =>
    if negb (c =? 123) then WNone else
    let ns := collected in
    if Nat.ltb (List.length (utf8 src)) ns then WPanic "token.rs:399 byte slice" else
    let bump := advance_ascii_name None (skipn ns (utf8 src)) 0 in
    match split_bytes (ns + bump) src with
    | None => WPanic "token.rs:404 str slice"
    | Some (_, chars) =>
      let '(c, _, collected) := next_non_trivia false chars (ns + bump) in
      match c with
      | None => WNone
      | Some c =>
        if negb (c =? 125) then WNone else
        match split_bytes collected src with
        | None => WPanic "token.rs:411 bump"
        | Some (used, rest) =>
          match split_bytes ns src with
          | None => WPanic "stream.rs:86 slice"
          | Some (_, from) =>
            match split_bytes bump from with
            | None => WPanic "stream.rs:86 slice"
            | Some (env, _) => WSome env used rest
            end
          end
        end
      end
    end
  end.

(** Outcome of lexing one token: end of input, a panic, or a token, its lexeme
    and the remaining source. *)
Inductive lex_res :=
| LEnd
| LPanic (site : string)
| LTok (t : tok) (raw rest : text).

(** token.rs:346-423 [lex_begin_end]; [raw] is the lexeme so far ("\begin") *)
Definition lex_begin_end (is_begin : bool) (raw src : text) : lex_res :=
  match lex_env_work src with
  | WNone =>
    LTok (CommandName (if is_begin then ErrorBeginEnvironment else ErrorEndEnvironment), raw) raw src
  | WPanic s => LPanic s
  | WSome env used rest =>
    LTok (CommandName (if is_begin then BeginEnvironment else EndEnvironment), env)
         (raw ++ used) rest
  end.

(** token.rs:271-298: the table of known names *)
Definition name_table : list (text * cmdname) :=
  [ (tx "if", CIf IfIf); (tx "iftypst", CIf IfTypst); (tx "iffalse", CIf IfFalse);
    (tx "iftrue", CIf IfTrue); (tx "ifcase", CIf IfCase); (tx "ifnum", CIf IfNum);
    (tx "ifcat", CIf IfCat); (tx "ifx", CIf IfX); (tx "ifvoid", CIf IfVoid);
    (tx "ifhbox", CIf IfHBox); (tx "ifvbox", CIf IfVBox); (tx "ifhmode", CIf IfHMode);
    (tx "ifmmode", CIf IfMMode); (tx "ifvmode", CIf IfVMode); (tx "ifinner", CIf IfInner);
    (tx "ifdim", CIf IfDim); (tx "ifeof", CIf IfEof); (tx "@ifstar", CIf IfStar);
    (tx "else", CElse); (tx "fi", CEndIf); (tx "left", CLeft); (tx "right", CRight) ].

(** token.rs:235-299 [lex_command_name]; [start] is the source after the
    backslash.  A token text here is the lexeme ([l.slice()], stream.rs:88). *)
Definition lex_command_name (sp : spec) (start : text) : lex_res :=
  let plain k raw rest := LTok (CommandName k, 92 :: raw) (92 :: raw) rest in
  match start with
  | [] => plain Generic [] []
  | c :: after =>
    if is_whitespace c then plain Generic [] start
    else if (c =? 40) || (c =? 91) then plain BeginMath [c] after
    else if (c =? 41) || (c =? 93) then plain EndMath [c] after
    else if negb (c =? 64) && negb (is_ascii_alpha c) then plain Generic [c] after
    else
      let bump := advance_ascii_name (Some (sp, start)) (skipn 1 (utf8 start)) 0 in
      match split_bytes (1 + bump) start with
      | None => LPanic "token.rs:268 bump"
      | Some (name, rest) =>
        match assoc name name_table with
        | Some k => plain k name rest
        | None =>
          if teqb name (tx "begin") then lex_begin_end true (92 :: name) rest
          else if teqb name (tx "end") then lex_begin_end false (92 :: name) rest
          else plain Generic name rest
        end
      end
  end.

(** One step of the logos lexer followed by [lex_one] (stream.rs:80-92) *)
Definition lex_one (sp : spec) (src : text) : lex_res :=
  match src with
  | [] => LEnd
  | c :: r =>
    if is_crlf c then let '(a, b) := span is_crlf src in LTok (LineBreak, a) a b
    else if is_whitespace c then let '(a, b) := span is_blank src in LTok (Whitespace, a) a b
    else if c =? 37 then
      let '(a, b) := span (fun x => negb (is_crlf x)) src in LTok (LineComment, a) a b
    else if c =? 36 then
      match r with
      | c' :: r' => if c' =? 36 then LTok (Dollar, [c; c']) [c; c'] r'
                    else LTok (Dollar, [c]) [c] r
      | [] => LTok (Dollar, [c]) [c] r
      end
    else if c =? 92 then
      match r with
      | c' :: r' => if c' =? 92 then LTok (NewLine, [c; c']) [c; c'] r'
                    else lex_command_name sp r
      | [] => lex_command_name sp r
      end
    else match punct_token c with
    | Some k => LTok (k, [c]) [c] r
    | None => let '(a, b) := span is_word_char src in LTok (Word, a) a b
    end
  end.

(** The logos lexer as an iterator is determined by its remaining input: this
    is the stream of tokens it will yield.  [SPanic]: pulling the next token
    panics. *)
Inductive lstream :=
| SNil
| SPanic (site : string)
| SCons (t : tok) (s : lstream).

Fixpoint lex_stream_fuel (n : nat) (sp : spec) (src : text) : lstream :=
  match n with
  | O => SPanic "out of fuel"
  | S n' =>
    match lex_one sp src with
    | LEnd => SNil
    | LPanic s => SPanic s
    | LTok t _ rest => SCons t (lex_stream_fuel n' sp rest)
    end
  end.

(** All tokens of a source.  Every lexeme is non-empty, so [length src + 1]
    steps suffice ([LexFacts.lex_stream_eq] shows the fuel is never the reason
    to stop). *)
Definition lex_stream (sp : spec) (src : text) : lstream :=
  lex_stream_fuel (S (List.length src)) sp src.
