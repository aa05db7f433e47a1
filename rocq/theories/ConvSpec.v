(** Specifications for the converter (C29-C39), in terms of syntax trees,
    command specifications and texts only. *)
From Verif Require Export Converter TreeSpec.
Local Open Scope N_scope.

(** the context: mode, environment kind, indentation *)
Definition same_context (s s' : cst) : Prop :=
  c_mode s' = c_mode s /\ c_env s' = c_env s /\ c_indent s' = c_indent s.

(** [t'] occurs in [t] (at any depth, or is [t]) *)
Inductive occurs_in (t' : tree) : tree -> Prop :=
| occurs_here : occurs_in t' t'
| occurs_below k ch t : In t ch -> occurs_in t' t -> occurs_in t' (Node k ch).

(** every element of a tree, leaves included *)
Definition everywhere (P : tree -> Prop) (t : tree) : Prop := forall t', occurs_in t' t -> P t'.

(** the name (without its first character) of a command node, the name of an
    environment *)
Definition command_named (t : tree) (name : text) : Prop :=
  tkind t = ItemCmd /\ exists c, cmd_name_tok t = Some (c :: name).
Definition environment_named (t : tree) (name : text) : Prop :=
  tkind t = ItemEnv /\ exists n, env_name_tok t = Some n /\ name = trim n.
Definition environment_is (sp : spec) (t : tree) (f : ctx_feature) : Prop :=
  exists name, environment_named t name /\ option_map en_feature (get_env sp name) = Some f.

(** commands treated by name, whether or not they are in the specification *)
Definition special_names : list text :=
  map tx ["item"; "label"; "includegraphics"; "color"; "textcolor"; "colorbox"]%string.

(** Why an error is reported *)
Definition error_cause (sp : spec) (e : cerr) (t : tree) : Prop :=
  match e with
  | EUnexpected s => tkind t = TokenError /\ s = tree_text t
  | ECmdNameOutside => tkind t = ClauseCommandName
  | EClauseOutside => tkind t = ItemBegin \/ tkind t = ItemEnd
  | EFormula => tkind t = ItemFormula /\ formula_is_valid t = false
  | EUnknownCommand n =>
      (command_named t n /\ ~ In n special_names \/ exists c, t = Leaf TokenCommandSym (c :: n)) /\
      get_cmd sp n = None
  | EUnknownEnv n => environment_named t n /\ get_env sp n = None
  | EItem => command_named t (tx "item")
  | EAlignment c =>
      environment_is sp t FTable /\ ~ In c (tx "lcr|") /\
      exists a r b columns e, env_arguments t = a :: r /\ tree_text a = b :: columns ++ [e] /\
        b < 128 /\ e < 128 /\ In c (trim columns)
  end.

(** ** When a conversion cannot panic *)
(** a text that starts and ends with (different) one-byte characters *)
Definition quoted (s : text) : Prop :=
  exists b m e, s = b :: m ++ [e] /\ b < 128 /\ e < 128.
Definition leaf_kind (k : kind) : Prop :=
  In k [TokenError; TokenLineBreak; TokenWhiteSpace; TokenComment;
        TokenLBrace; TokenRBrace; TokenLBracket; TokenRBracket; TokenLParen; TokenRParen;
        TokenComma; TokenTilde; TokenSlash; TokenWord; TokenDollar;
        TokenBeginMath; TokenEndMath; TokenAmpersand; TokenHash; TokenAsterisk; TokenAtSign;
        TokenUnderscore; TokenCaret; TokenApostrophe; TokenDitto; TokenSemicolon;
        TokenCommandSym; ClauseCommandName; ItemNewLine].
Definition node_kind (k : kind) : Prop :=
  In k [TokenError; ClauseArgument; ClauseLR; ItemText; ItemCurly; ItemBracket; ItemParen; ItemCmd;
        ItemEnv; ItemLR; ItemBegin; ItemEnd; ItemBlockComment; ItemTypstCode; ItemAttachComponent;
        ItemFormula; ScopeRoot].
(** the arguments that the commands with a treatment of their own insist on *)
Definition command_fine (sp : spec) (name : text) (t : tree) : Prop :=
  (name = tx "label" -> exists a r, arguments t = a :: r /\ quoted (tree_text a)) /\
  (name = tx "includegraphics" ->
     Forall (fun a => quoted (tree_text a) /\ first_child a <> None) (arguments t) /\
     exists a, In a (arguments t) /\ option_map tkind (first_child a) = Some ItemCurly) /\
  (name = tx "color" -> arguments t <> []) /\
  (name = tx "caption" -> arguments t <> []) /\
  (option_map cs_args (get_cmd sp name) = Some (SRight PGreedy) -> ~ In name special_names ->
     exists k ch r, filter (fun x => negb (has_kind ClauseCommandName x)) (children t) = Node k ch :: r).
Definition fine (sp : spec) (t : tree) : Prop :=
  match t with
  | Leaf k s => leaf_kind k /\
      (* a command used as a delimiter: its name starts with a backslash *)
      (k = TokenCommandSym -> exists c r, s = c :: r /\ c < 128)
  | Node k ch => node_kind k /\
    match k with
    | ClauseLR => exists k' c s r, ch = Leaf k' (c :: s) :: r /\ c < 128
    | ItemCmd => exists c name, cmd_name_tok t = Some (c :: name) /\ c < 128 /\ command_fine sp name t
    | ItemEnv => (exists name, env_name_tok t = Some name) /\
        (environment_is sp t FTable -> exists a r, env_arguments t = a :: r /\ quoted (tree_text a))
    | _ => True
    end
  end.

(** ** What a conversion may look at.  [seen x t]: [x] can be met when [t] is
    converted.  Clauses of environments, errors, blocks of skipped source and of
    verbatim code are not looked into (environment names are read, arguments of
    environments are converted). *)
Definition opaque_kind (k : kind) : Prop :=
  In k [ItemBegin; ItemEnd; TokenError; ItemBlockComment; ItemTypstCode].
Inductive seen (x : tree) : tree -> Prop :=
| seen_self : seen x x
| seen_child k ch c : ~ opaque_kind k -> In c ch -> seen x c -> seen x (Node k ch)
| seen_grandchild ch c c' : In c ch -> In c' (children c) -> seen x c' -> seen x (Node ItemCmd ch)
| seen_env_argument ch c c' : In c ch -> In c' (children c) -> is_argument c' -> seen x c' ->
    seen x (Node ItemEnv ch).

(** everything a conversion of [t] may meet is [fine] *)
Definition convertible (sp : spec) (t : tree) : Prop := forall x, seen x t -> fine sp x.

(** ** What a conversion looks at: [converted sp t t']: converting [t]
    successfully includes converting [t'] *)
(** containers: everything in them is converted *)
Definition container (k : kind) : Prop :=
  In k [ItemLR; ClauseArgument; ScopeRoot; ItemText; ItemBracket; ItemParen; ItemFormula; ItemCurly].
Definition script_mark (t : tree) : Prop :=
  match t with Leaf TokenUnderscore _ | Leaf TokenCaret _ => True | _ => False end.
Definition rule_names : list text := map tx ["hline"; "toprule"; "midrule"; "bottomrule"]%string.

Inductive converted (sp : spec) : tree -> tree -> Prop :=
| cv_here t : converted sp t t
| cv_container k ch c t' : container k -> In c ch -> converted sp c t' ->
    converted sp (Node k ch) t'
(* \left and \right: the delimiter (not a dot) *)
| cv_clause n r c t' : In c r -> c <> Leaf TokenWord (tx ".") -> converted sp c t' ->
    converted sp (Node ClauseLR (n :: r)) t'
| cv_script ch c t' : In c ch -> ~ script_mark c -> converted sp c t' ->
    converted sp (Node ItemAttachComponent ch) t'
(* commands of the specification: arguments; \item and the like: below *)
| cv_argument t name shape c t' : command_named t name -> ~ In name special_names ->
    option_map cs_args (get_cmd sp name) = Some shape -> shape <> SRight PNone -> shape <> SRight PGreedy ->
    In c (children t) -> tkind c = ClauseArgument -> converted sp c t' ->
    converted sp t t'
| cv_greedy t name k a r c t' : command_named t name -> ~ In name special_names ->
    option_map cs_args (get_cmd sp name) = Some (SRight PGreedy) ->
    filter (fun x => negb (has_kind ClauseCommandName x)) (children t) = Node k a :: r ->
    In c a -> converted sp c t' ->
    converted sp t t'
(* \textcolor and \colorbox without a colour model: all arguments *)
| cv_color t name c t' : command_named t name -> In name [tx "textcolor"; tx "colorbox"] ->
    (forall a r, arguments t = a :: r -> forall s, tree_text a <> 91 :: s) ->
    In c (arguments t) -> converted sp c t' ->
    converted sp t t'
(* environments: what is between begin and end, in tables except separators
   and rules, in figures except captions and \centering *)
| cv_body t f c t' : environment_is sp t f -> f <> FFigure -> f <> FTable ->
    In c (children t) -> ~ In (tkind c) [ItemBegin; ItemEnd] -> converted sp c t' ->
    converted sp t t'
| cv_env_argument t f c t' : environment_is sp t f -> In f [FMath; FMatrix; FCases] ->
    In c (env_arguments t) -> converted sp c t' ->
    converted sp t t'
| cv_figure t c t' : environment_is sp t FFigure -> In c (children t) ->
    ~ In (tkind c) [ItemBegin; ItemEnd] ->
    (forall n, cmd_name_tok c = Some n -> ~ In n [tx "\caption"; tx "\centering"]) -> converted sp c t' ->
    converted sp t t'
| cv_cell t c t' : environment_is sp t FTable -> In c (children t) ->
    ~ In (tkind c) [ItemBegin; ItemEnd; TokenAmpersand; ItemNewLine; TokenWhiteSpace; TokenLineBreak] ->
    (forall name, command_named c name -> ~ In name rule_names) -> converted sp c t' ->
    converted sp t t'.
