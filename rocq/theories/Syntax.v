(** Syntax kinds and trees: crates/mitex-parser/src/syntax.rs; the tree type
    stands for rowan's green trees. *)
From Verif Require Export Token.

(** syntax.rs:47-104 [SyntaxKind] *)
Inductive kind :=
| TokenError | TokenLineBreak | TokenWhiteSpace | TokenComment
| TokenLBrace | TokenRBrace | TokenLBracket | TokenRBracket | TokenLParen | TokenRParen
| TokenComma | TokenTilde | TokenSlash | TokenWord | TokenDollar
| TokenBeginMath | TokenEndMath | TokenAmpersand | TokenHash | TokenAsterisk | TokenAtSign
| TokenUnderscore | TokenCaret | TokenApostrophe | TokenDitto | TokenSemicolon
| TokenCommandSym
| ClauseCommandName | ClauseArgument | ClauseLR
| ItemNewLine | ItemText | ItemCurly | ItemBracket | ItemParen | ItemCmd | ItemEnv | ItemLR
| ItemBegin | ItemEnd | ItemBlockComment | ItemTypstCode | ItemAttachComponent | ItemFormula
| ScopeRoot.

Definition kind_eq_dec (a b : kind) : {a = b} + {a <> b}.
Proof. decide equality. Defined.
Definition kind_eqb (a b : kind) : bool := if kind_eq_dec a b then true else false.

(** All kinds in declaration order (the order defines the [u16] value) *)
Definition all_kinds : list kind :=
  [ TokenError; TokenLineBreak; TokenWhiteSpace; TokenComment;
    TokenLBrace; TokenRBrace; TokenLBracket; TokenRBracket; TokenLParen; TokenRParen;
    TokenComma; TokenTilde; TokenSlash; TokenWord; TokenDollar;
    TokenBeginMath; TokenEndMath; TokenAmpersand; TokenHash; TokenAsterisk; TokenAtSign;
    TokenUnderscore; TokenCaret; TokenApostrophe; TokenDitto; TokenSemicolon;
    TokenCommandSym;
    ClauseCommandName; ClauseArgument; ClauseLR;
    ItemNewLine; ItemText; ItemCurly; ItemBracket; ItemParen; ItemCmd; ItemEnv; ItemLR;
    ItemBegin; ItemEnd; ItemBlockComment; ItemTypstCode; ItemAttachComponent; ItemFormula;
    ScopeRoot ].

(** syntax.rs:164-168: [kind as u16], the position of the variant *)
Fixpoint index_of (k : kind) (l : list kind) (n : N) : N :=
  match l with
  | [] => n
  | k' :: r => if kind_eqb k k' then n else index_of k r (n + 1)%N
  end.
Definition kind_to_raw (k : kind) : N := index_of k all_kinds 0.
(** syntax.rs:6-44 [from_repr] *)
Definition from_repr (n : N) : option kind := nth_error all_kinds (N.to_nat n).
(** syntax.rs:170-174: [expect] on [from_repr] *)
Definition kind_from_raw (n : N) : res kind :=
  match from_repr n with Some k => Ok k | None => Panic "syntax.rs:172 expect" end.

(** syntax.rs:107-147 [From<Token> for SyntaxKind] *)
Definition kind_of_token (t : token) : kind :=
  match t with
  | LineBreak => TokenLineBreak
  | Whitespace => TokenWhiteSpace
  | LineComment => TokenComment
  | TLeft Curly => TokenLBrace
  | TRight Curly => TokenRBrace
  | TLeft Bracket => TokenLBracket
  | TRight Bracket => TokenRBracket
  | TLeft Paren => TokenLParen
  | TRight Paren => TokenRParen
  | Comma => TokenComma
  | Tilde => TokenTilde
  | Slash => TokenSlash
  | Underscore => TokenUnderscore
  | Apostrophe => TokenApostrophe
  | Ditto => TokenDitto
  | Semicolon => TokenSemicolon
  | Caret => TokenCaret
  | Word => TokenWord
  | Dollar => TokenDollar
  | Ampersand => TokenAmpersand
  | Hash => TokenHash
  | Asterisk => TokenAsterisk
  | AtSign => TokenAtSign
  | NewLine => ItemNewLine
  | MacroArg _ => TokenWord
  | CommandName ErrorBeginEnvironment | CommandName ErrorEndEnvironment | TError => TokenError
  | CommandName BeginEnvironment | CommandName EndEnvironment => TokenCommandSym
  | CommandName BeginMath => TokenBeginMath
  | CommandName EndMath => TokenEndMath
  | CommandName _ => ClauseCommandName
  end.

(** syntax.rs:151-159 [SyntaxKind::is_trivia] *)
Definition kind_is_trivia (k : kind) : bool :=
  match k with TokenLineBreak | TokenWhiteSpace | TokenComment | ItemNewLine => true | _ => false end.

(** rowan green trees: a token (kind and text) or a node (kind and children) *)
Inductive tree :=
| Leaf (k : kind) (s : text)
| Node (k : kind) (ch : list tree).

Definition tkind (t : tree) : kind := match t with Leaf k _ => k | Node k _ => k end.
Definition is_node (t : tree) : bool := match t with Node _ _ => true | Leaf _ _ => false end.
Definition children (t : tree) : list tree := match t with Node _ c => c | Leaf _ _ => [] end.

(** rowan SyntaxNode::children: child nodes only *)
Definition child_nodes (t : tree) : list tree := filter is_node (children t).

(** the leaves of a tree in order, and its text (rowan SyntaxNode::text) *)
Fixpoint leaves (t : tree) : list (kind * text) :=
  match t with
  | Leaf k s => [(k, s)]
  | Node _ c => flat_map leaves c
  end.
Fixpoint tree_text (t : tree) : text :=
  match t with
  | Leaf _ s => s
  | Node _ c => flat_map tree_text c
  end.

(** rowan SyntaxNode::first_token / last_token: descend into the first (last)
    child, whatever it is; [None] when an empty node is met *)
Fixpoint first_token (t : tree) : option (kind * text) :=
  match t with
  | Leaf k s => Some (k, s)
  | Node _ (c :: _) => first_token c
  | Node _ [] => None
  end.
Fixpoint last_token (t : tree) : option (kind * text) :=
  match t with
  | Leaf k s => Some (k, s)
  | Node _ ch =>
    (fix go (l : list tree) : option (kind * text) :=
       match l with
       | [] => None
       | [c] => last_token c
       | _ :: r => go r
       end) ch
  end.

(* ---- typed nodes ---- *)

(** syntax.rs:233-273 [FormulaItem] *)
Definition leaf_is (l : kind * text) (k : kind) (s : text) : bool :=
  kind_eqb (fst l) k && teqb (snd l) s.
(** syntax.rs:241-246 [is_display] *)
Definition formula_is_display (t : tree) : bool :=
  match first_token t with
  | Some l => leaf_is l TokenDollar (tx "$$") || leaf_is l TokenBeginMath (tx "\[")
  | None => false
  end.
(** syntax.rs:249-254 [is_inline] *)
Definition formula_is_inline (t : tree) : bool :=
  match first_token t with
  | Some l => leaf_is l TokenDollar (tx "$") || leaf_is l TokenBeginMath (tx "\(")
  | None => false
  end.
(** syntax.rs:257-271 [is_valid] *)
Definition formula_is_valid (t : tree) : bool :=
  match first_token t, last_token t with
  | Some (k1, s1), Some (k2, s2) =>
    if kind_eqb k1 TokenDollar && kind_eqb k2 TokenDollar then
      (teqb s1 (tx "$") && teqb s2 (tx "$")) || (teqb s1 (tx "$$") && teqb s2 (tx "$$"))
    else if kind_eqb k1 TokenBeginMath && kind_eqb k2 TokenEndMath then
      (teqb s1 (tx "\(") && teqb s2 (tx "\)")) || (teqb s1 (tx "\[") && teqb s2 (tx "\]"))
    else false
  | _, _ => false
  end.

(** syntax.rs:312-317 [CmdItem::name_tok] *)
Definition leaf_child_of (k : kind) (t : tree) : option text :=
  match find (fun c => match c with Leaf k' _ => kind_eqb k' k | Node _ _ => false end) (children t) with
  | Some (Leaf _ s) => Some s
  | _ => None
  end.
Definition cmd_name_tok (t : tree) : option text := leaf_child_of ClauseCommandName t.

(** syntax.rs:320-324, 429-433: [arguments] *)
Definition nodes_of (k : kind) (t : tree) : list tree :=
  filter (fun c => is_node c && kind_eqb (tkind c) k) (children t).
Definition arguments (t : tree) : list tree := nodes_of ClauseArgument t.

(** syntax.rs:344-351 [EnvItem::begin], [end] *)
Definition env_begin (t : tree) : option tree := hd_error (nodes_of ItemBegin t).
Definition env_end (t : tree) : option tree := hd_error (nodes_of ItemEnd t).
(** syntax.rs:422-426 [BeginItem::name], 444-448 [EndItem::name] *)
Definition clause_name (t : tree) : option text :=
  match first_token t with
  | Some (TokenCommandSym, s) => Some s
  | _ => None
  end.
(** syntax.rs:354-356 [EnvItem::name_tok], 359-361 [arguments] *)
Definition env_name_tok (t : tree) : option text :=
  match env_begin t with Some b => clause_name b | None => None end.
Definition env_arguments (t : tree) : list tree :=
  match env_begin t with Some b => arguments b | None => [] end.

(** syntax.rs:370-389 [LRItem]: first / last child node, if a [ClauseLR] *)
Definition cast (k : kind) (o : option tree) : option tree :=
  match o with Some t => if kind_eqb (tkind t) k then Some t else None | None => None end.
Definition lr_left (t : tree) : option tree := cast ClauseLR (hd_error (child_nodes t)).
Definition lr_right (t : tree) : option tree := cast ClauseLR (hd_error (rev (child_nodes t))).
(** syntax.rs:399-404 [LRClause::is_left] *)
Definition lr_is_left (t : tree) : bool :=
  match first_token t with
  | Some l => leaf_is l ClauseCommandName (tx "\left")
  | None => false
  end.
(** syntax.rs:407-411 [LRClause::sym] *)
Definition lr_sym (t : tree) : option (kind * text) :=
  match last_token t with
  | Some (ClauseCommandName, _) => None
  | o => o
  end.
