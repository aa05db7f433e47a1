(** Specification of well-formed syntax trees (C24, C25, C28): what a user who
    walks the tree may rely on.  Only tree, kind and specification vocabulary. *)
From Verif Require Export Syntax ArgMatch.

(** A property of every node of a tree *)
Fixpoint every (P : kind -> list tree -> Prop) (t : tree) : Prop :=
  match t with
  | Leaf _ _ => True
  | Node k ch =>
    P k ch /\ (fix go l := match l with [] => True | t :: r => every P t /\ go r end) ch
  end.
Lemma every_node P k ch : every P (Node k ch) <-> P k ch /\ Forall (every P) ch.
Proof.
  cbn [every]. assert (E : forall l, (fix go l := match l with [] => True | t :: r => every P t /\ go r end) l
    <-> Forall (every P) l).
  { induction l as [|t l IH]; [split; auto|]. split.
    - intros [H1 H2]. constructor; [assumption|now apply IH].
    - intros H. inversion_clear H. split; [assumption|now apply IH]. }
  now rewrite E.
Qed.

(** induction on trees with all children *)
Lemma tree_ind2 (P : tree -> Prop) : (forall k s, P (Leaf k s)) ->
  (forall k ch, Forall P ch -> P (Node k ch)) -> forall t, P t.
Proof.
  intros HL HN. fix IH 1. intros [k s|k ch]; [apply HL|]. apply HN.
  induction ch as [|t ch IHc]; constructor; [apply IH|exact IHc].
Qed.

(** ** Items: the elements of a list of contents *)
(** leaves that stand for themselves *)
Definition item_leaf (k : kind) : Prop :=
  In k [TokenError; TokenLineBreak; TokenWhiteSpace; TokenComment; TokenLBracket; TokenRBracket;
        TokenLParen; TokenRParen; TokenTilde; TokenSlash; TokenWord; TokenAmpersand; TokenHash;
        TokenAsterisk; TokenAtSign; TokenApostrophe; TokenDitto; TokenSemicolon; ItemNewLine].
Definition item_node (k : kind) : Prop :=
  In k [ItemText; ItemCurly; TokenError; ItemFormula; ItemCmd; ItemEnv; ItemBlockComment;
        ItemTypstCode; ItemLR; ItemAttachComponent].
Definition item (t : tree) : Prop :=
  match t with Leaf k _ => item_leaf k | Node k _ => item_node k end.
Definition trivia_leaf (t : tree) : Prop :=
  match t with Leaf k _ => In k [TokenLineBreak; TokenWhiteSpace; TokenComment] | Node _ _ => False end.
(** the element [t] is no leaf of kind [k] *)
Definition not_leaf (k : kind) (t : tree) : Prop :=
  match t with Leaf k' _ => k' <> k | Node _ _ => True end.

(** ** Arguments *)
Definition is_argument (t : tree) : Prop :=
  match t with Node ClauseArgument _ => True | _ => False end.
(** an argument taken from the right contains no alignment mark at its own level *)
Definition right_argument (t : tree) : Prop :=
  match t with Node ClauseArgument a => Forall (not_leaf TokenAmpersand) a | _ => False end.
(** bracket, parenthesis or term *)
Definition argument_kind (t : tree) : char :=
  match t with
  | Node _ [Node ItemBracket _] => ARG_BRACKET
  | Node _ [Node ItemParen _] => ARG_PAREN
  | _ => ARG_TERM
  end.
(** the argument kinds that a (right-hand, not greedy) pattern allows *)
Definition allowed (gm : text -> text -> bool) (p : arg_pattern) (kinds : text) : Prop :=
  match p with
  | PNone => kinds = []
  | PFixed n => Forall (eq ARG_TERM) kinds /\ (N.of_nat (List.length kinds) <= n)%N
  | PRange _ n => Forall (eq ARG_TERM) kinds /\ (N.of_nat (List.length kinds) <= n)%N
  | PGlob re => forall a b, kinds = a ++ b -> a <> [] -> gm re a = true
  | PGreedy => False
  end.
Definition arguments_ok gm p (args : list tree) : Prop :=
  Forall right_argument args /\ allowed gm p (map argument_kind args).

(** ** Commands *)
Inductive command_ok (gm : text -> text -> bool) : option arg_shape -> text -> list tree -> Prop :=
(* unknown: no arguments *)
| co_unknown s : command_ok gm None s [Leaf ClauseCommandName s]
(* arguments to the right, as the pattern allows *)
| co_right p s args : arguments_ok gm p args ->
    command_ok gm (Some (SRight p)) s (Leaf ClauseCommandName s :: args)
(* greedy: one argument; it contains no alignment mark at its own level *)
| co_greedy s a : Forall (not_leaf TokenAmpersand) a ->
    command_ok gm (Some (SRight PGreedy)) s [Leaf ClauseCommandName s; Node ClauseArgument a]
(* postfix: at most one argument, to the left *)
| co_left0 s : command_ok gm (Some SLeft1) s [Leaf ClauseCommandName s]
| co_left1 s a : command_ok gm (Some SLeft1) s [Node ClauseArgument a; Leaf ClauseCommandName s]
(* infix: at most one argument to the left, one to the right *)
| co_infix0 s a : Forall (not_leaf TokenAmpersand) a ->
    command_ok gm (Some SInfixGreedy) s [Leaf ClauseCommandName s; Node ClauseArgument a]
| co_infix1 s l a : Forall (not_leaf TokenAmpersand) a ->
    command_ok gm (Some SInfixGreedy) s
      [Node ClauseArgument l; Leaf ClauseCommandName s; Node ClauseArgument a].

(** ** Rows: inside an environment the right argument of a greedy command ends
    at the row separator.  [rows_ok sp t]: it does in [t] and in everything of
    [t] that belongs to the same environment level (arguments and scripts, but
    not groups, formulas, environments or left-right pairs). *)
Definition greedy_command (sp : spec) (ch : list tree) : Prop :=
  exists name, In (Leaf ClauseCommandName (92%N :: name)) ch /\
    (option_map cs_args (get_cmd sp name) = Some (SRight PGreedy) \/
     option_map cs_args (get_cmd sp name) = Some SInfixGreedy).
Definition same_level (k : kind) : bool :=
  match k with ItemCmd | ClauseArgument | ItemAttachComponent => true | _ => false end.
Fixpoint rows_ok (sp : spec) (t : tree) : Prop :=
  match t with
  | Leaf _ _ => True
  | Node k ch =>
    if same_level k then
      (k = ItemCmd -> greedy_command sp ch ->
         exists pre a, ch = pre ++ [Node ClauseArgument a] /\ Forall (not_leaf ItemNewLine) a) /\
      (fix go l := match l with [] => True | t :: r => rows_ok sp t /\ go r end) ch
    else True
  end.
Lemma rows_node sp k ch : rows_ok sp (Node k ch) <->
  (same_level k = true ->
    (k = ItemCmd -> greedy_command sp ch ->
         exists pre a, ch = pre ++ [Node ClauseArgument a] /\ Forall (not_leaf ItemNewLine) a) /\
    Forall (rows_ok sp) ch).
Proof.
  cbn [rows_ok]. assert (E : forall l, (fix go l := match l with [] => True | t :: r => rows_ok sp t /\ go r end) l
    <-> Forall (rows_ok sp) l).
  { induction l as [|t l IH]; [split; auto|]. split.
    - intros [H1 H2]. constructor; [assumption|now apply IH].
    - intros H. inversion_clear H. split; [assumption|now apply IH]. }
  destruct (same_level k); [rewrite E; tauto|]. split; [discriminate|auto].
Qed.

(** ** All nodes *)
Definition optional (t : tree) (l : list tree) : Prop := l = [] \/ l = [t].
Definition opening (k o c : kind) : Prop :=
  In (k, o, c) [(ItemCurly, TokenLBrace, TokenRBrace); (ItemBracket, TokenLBracket, TokenRBracket);
                (ItemParen, TokenLParen, TokenRParen); (ItemFormula, TokenDollar, TokenDollar);
                (ItemFormula, TokenBeginMath, TokenEndMath)].

Inductive node_ok (gm : text -> text -> bool) (sp : spec) : kind -> list tree -> Prop :=
| ok_root ch : Forall item ch -> node_ok gm sp ScopeRoot ch
(* groups and formulas: opening delimiter, items, possibly the closing one *)
| ok_group k o c s s' body close : opening k o c -> Forall item body -> optional (Leaf c s') close ->
    node_ok gm sp k (Leaf o s :: body ++ close)
(* text: words, commas, blanks, comments; it starts with a word or a comma *)
| ok_text k s rest : In k [TokenWord; TokenComma] ->
    Forall (fun t => match t with
                     | Leaf k _ => In k [TokenLineBreak; TokenWhiteSpace; TokenComment; TokenWord; TokenComma]
                     | Node _ _ => False end) rest ->
    node_ok gm sp ItemText (Leaf k s :: rest)
(* stray closing delimiters *)
| ok_error k s : In k [TokenRBrace; TokenWord; TokenCommandSym; TokenEndMath] ->
    node_ok gm sp TokenError [Leaf k s]
| ok_cmd name ch : command_ok gm (option_map cs_args (get_cmd sp name)) (92%N :: name) ch ->
    node_ok gm sp ItemCmd ch
(* environments: begin clause with the name, items, possibly the end clause *)
| ok_env name args s' body close :
    Forall item body -> Forall (rows_ok sp) body ->
    optional (Node ItemEnd [Leaf TokenCommandSym s']) close ->
    node_ok gm sp ItemEnv (Node ItemBegin (Leaf TokenCommandSym name :: args) :: body ++ close)
| ok_begin name args :
    (match option_map en_args (get_env sp name) with
     | None => args = []
     | Some p => arguments_ok gm p args
     end) ->
    node_ok gm sp ItemBegin (Leaf TokenCommandSym name :: args)
| ok_end s : node_ok gm sp ItemEnd [Leaf TokenCommandSym s]
(* left-right pairs: left clause, items, possibly the right clause *)
| ok_lr c1 body close : Forall item body -> (close = [] \/ exists c2, close = [Node ClauseLR c2]) ->
    node_ok gm sp ItemLR (Node ClauseLR c1 :: body ++ close)
(* a clause: [\left] or [\right], blanks, possibly the delimiter *)
| ok_clause s tr sym : Forall trivia_leaf tr -> (sym = [] \/ exists k s', sym = [Leaf k s']) ->
    node_ok gm sp ClauseLR (Leaf ClauseCommandName s :: tr ++ sym)
(* skipped text: leaves only *)
| ok_comment ch : Forall (fun t => is_node t = false) ch -> node_ok gm sp ItemBlockComment ch
| ok_code ch : Forall (fun t => is_node t = false) ch -> node_ok gm sp ItemTypstCode ch
(* arguments: one bracket or parenthesis group, or items (an argument taken
   from the left may contain a script marker and what it is attached to) *)
| ok_arg_bracket g : node_ok gm sp ClauseArgument [Node ItemBracket g]
| ok_arg_paren g : node_ok gm sp ClauseArgument [Node ItemParen g]
| ok_arg ch : Forall (fun t => item t \/ is_argument t \/
                  match t with Leaf k _ => In k [TokenUnderscore; TokenCaret] | _ => False end) ch ->
    node_ok gm sp ClauseArgument ch
(* scripts: what it is attached to, the marker, blanks, the script *)
| ok_prime a s : node_ok gm sp ItemAttachComponent [Node ClauseArgument a; Leaf TokenApostrophe s]
| ok_script a k s tr body : (a = [] \/ exists c, a = [Node ClauseArgument c]) ->
    In k [TokenUnderscore; TokenCaret] -> Forall trivia_leaf tr -> Forall item body ->
    node_ok gm sp ItemAttachComponent (a ++ Leaf k s :: tr ++ body)
(* ... or the script is itself a script or a postfix/infix command, which then
   takes all that precedes (with the marker) as its left argument *)
| ok_script_of nd : (exists ch, nd = Node ItemAttachComponent ch \/ nd = Node ItemCmd ch) ->
    node_ok gm sp ItemAttachComponent [nd].

Definition wf_tree gm sp : tree -> Prop := every (node_ok gm sp).
