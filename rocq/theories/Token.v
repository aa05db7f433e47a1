(** Tokens: crates/mitex-lexer/src/token.rs. *)
From Verif Require Export Base.

(** token.rs:6-13 [BraceKind] *)
Inductive brace := Curly | Bracket | Paren.

(** token.rs:143-180 [IfCommandName] *)
Inductive ifname :=
| IfIf | IfTypst | IfFalse | IfTrue | IfCase | IfNum | IfCat | IfX | IfVoid
| IfHBox | IfVBox | IfHMode | IfMMode | IfVMode | IfInner | IfDim | IfEof | IfStar.

(** token.rs:184-209 [CommandName] *)
Inductive cmdname :=
| Generic | BeginEnvironment | EndEnvironment | BeginMath | EndMath
| ErrorBeginEnvironment | ErrorEndEnvironment
| CIf (i : ifname) | CElse | CEndIf | CLeft | CRight.

(** token.rs:22-130 [Token] *)
Inductive token :=
| LineBreak | Whitespace | LineComment
| TLeft (b : brace) | TRight (b : brace)
| Comma | Tilde | Slash | Ampersand | Caret | Apostrophe | Ditto | Semicolon
| Hash | Asterisk | AtSign | Underscore
| Word | Dollar | NewLine
| CommandName (c : cmdname)
| TError
| MacroArg (n : N).

(** lib.rs:29 [Tok]: a token kind with its text *)
Definition tok := (token * text)%type.

(** derived [PartialEq] instances (token.rs:5, :20, :142, :183) *)
Definition brace_eq_dec (a b : brace) : {a = b} + {a <> b}.
Proof. decide equality. Defined.
Definition ifname_eq_dec (a b : ifname) : {a = b} + {a <> b}.
Proof. decide equality. Defined.
Definition cmdname_eq_dec (a b : cmdname) : {a = b} + {a <> b}.
Proof. decide equality; apply ifname_eq_dec. Defined.
Definition token_eq_dec (a b : token) : {a = b} + {a <> b}.
Proof.
  decide equality; auto using brace_eq_dec, cmdname_eq_dec, N.eq_dec.
Defined.
Definition token_eqb (a b : token) : bool := if token_eq_dec a b then true else false.
Definition brace_eqb (a b : brace) : bool := if brace_eq_dec a b then true else false.

(** token.rs:132-138 [Token::is_trivia] *)
Definition is_trivia (t : token) : bool :=
  match t with LineBreak | Whitespace | LineComment => true | _ => false end.
