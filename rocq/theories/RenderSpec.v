(** The exact meaning of conversion.  An element is laid out, in its place, as
    a sequence of pieces: fixed texts and elements below it, each with its place.
    The output is what the pieces come to, from left to right, up to the first
    piece that cannot be written.  The place (text or formula, the surrounding
    environment, the indentation) is inherited; carried from piece to piece are
    only whether a line has just begun, and the label that waits for the end of
    its environment.  Nothing of the converter is used, except for its
    enumerations [mode], [env] and [cerr] (formula or text, kinds of
    environments, error messages). *)
From Verif Require Export ConvSpec.
Local Open Scope N_scope.

(** ** Places *)
Record place := at_ { mode_of : mode; env_of : env; indent_of : nat }.
Definition in_mode (m : mode) (p : place) : place := at_ m (env_of p) (indent_of p).
(** inside an environment; lists are indented by two more *)
Definition within (e : env) (p : place) : place :=
  at_ (mode_of p) e (match e with EItemize | EEnumerate => indent_of p + 2 | _ => indent_of p end)%nat.
Definition outermost (m : mode) : place := at_ m ENone 0.

(** ** Pieces *)
Inductive piece :=
| Txt (s : text)
| Blank (s : text)                  (* left out if a line has just begun *)
| Line (s : text)                   (* a new line begins after it *)
| Put (p : place) (t : tree)        (* an element *)
| Keep (label : text)               (* the label waits *)
| Labels                            (* the waiting label is written *)
| Fail (e : cerr)
| Crash.
(** what is carried along: a line has just begun; the waiting label *)
Record carry := mk_carry { fresh : bool; waiting : option text }.

Inductive outcome := Written (c : carry) (o : text) | Failed (e : cerr) | Crashed.
Definition before (s : text) (o : outcome) : outcome :=
  match o with Written c x => Written c (s ++ x) | _ => o end.

(** ** Texts *)
Definition indented (n : nat) : text := repeat 32 n.
(** without the first and the last character, which are one-byte characters *)
Definition cut (s m : text) : Prop := exists b e, s = b :: m ++ [e] /\ b < 128 /\ e < 128.
(** [s] is [parts], separated by [c] *)
Fixpoint joined (c : char) (parts : list text) : text :=
  match parts with [] => [] | [x] => x | x :: r => x ++ c :: joined c r end.
Definition separated (c : char) (parts : list text) (s : text) : Prop :=
  parts <> [] /\ Forall (fun x => ~ In c x) parts /\ s = joined c parts.
Definition or_default (a : option text) (d : text) : text := match a with Some x => x | None => d end.
Fixpoint decimal_argument (index : nat) (l : list tree) (put : tree -> list piece) : list piece :=
  match l with
  | [] => []
  | a :: r => Txt (tx "arg" ++ dec (N.of_nat index) ++ tx ": ") :: put a ++ Txt (tx ",") :: decimal_argument (S index) r put
  end.

(** ** Fixed texts *)
Definition punctuation (k : kind) : option text :=
  match k with
  | TokenLBrace | TokenRBrace | TokenDollar | TokenBeginMath | TokenEndMath | TokenComment => Some []
  | TokenApostrophe => Some (tx "'")
  | TokenComma => Some (tx "\,")
  | TokenSlash => Some (tx "\/")
  | TokenCaret => Some (tx "\^")
  | TokenUnderscore => Some (tx "\_")
  | TokenHash => Some (tx "\#")
  | TokenAsterisk => Some (tx "\*")
  | TokenAtSign => Some (tx "\@")
  | TokenDitto => Some [92; 34]
  | TokenSemicolon => Some (tx "\;")
  | TokenLParen => Some (tx "\(")
  | TokenRParen => Some (tx "\)")
  | TokenLBracket => Some (tx "\[")
  | TokenRBracket => Some (tx "\]")
  | _ => None
  end.
(** ... that depend on the place *)
Definition placed (k : kind) (p : place) : option text :=
  match k with
  | TokenTilde => Some (match mode_of p with MMath => tx "space.nobreak " | MText => tx "\~" end)
  | TokenAmpersand => Some (match env_of p with EMatrix => tx "zws ," | _ => tx "&" end)
  | ItemNewLine =>
      Some (match env_of p with EMatrix => tx "zws ;" | ECases => tx "," | EMathCurlyGroup => [] | _ => tx "\ " end)
  | _ => None
  end.

(** ** Formulas *)
Definition formula_delimiters : list ((kind * text) * (kind * text) * bool) :=
  [((TokenDollar, tx "$"), (TokenDollar, tx "$"), true);
   ((TokenDollar, tx "$$"), (TokenDollar, tx "$$"), false);
   ((TokenBeginMath, tx "\("), (TokenEndMath, tx "\)"), true);
   ((TokenBeginMath, tx "\["), (TokenEndMath, tx "\]"), false)].
Definition delimited (t : tree) (inline : bool) : Prop :=
  exists a b, first_token t = Some a /\ last_token t = Some b /\ In (a, b, inline) formula_delimiters.
Definition around_formula (p : place) (inline : bool) : text * text :=
  match mode_of p with
  | MMath => ([], [])
  | MText => if inline then (tx "#math.equation(block: false, $", tx "$);") else (tx "$ ", tx " $")
  end.

(** ** Groups: in a formula a group is a place of its own, except in \substack;
    a group with nothing in it gets an invisible character *)
Definition group_place (p : place) : place :=
  match mode_of p, env_of p with
  | MText, _ | MMath, ESubStack => p
  | MMath, _ => within EMathCurlyGroup p
  end.
Definition hollow (ch : list tree) : Prop :=
  Forall (fun t => In (tkind t) [TokenWhiteSpace; TokenLineBreak; TokenLBrace; TokenRBrace]) ch.

(** ** Scripts *)
Definition blank_leaf (t : tree) : Prop := exists s, t = Leaf TokenWhiteSpace s.

(** ** Commands *)
Definition solid (l after : list tree) : Prop :=
  exists w, Forall (fun t => kind_is_trivia (tkind t) = true) w /\ l = w ++ after /\
    match after with [] => True | t :: _ => kind_is_trivia (tkind t) = false end.
(** the elements separated by commas: one after each element of kind [k] but
    the last element *)
Fixpoint commas (k : kind) (p : place) (l : list tree) : list piece :=
  match l with
  | [] => []
  | [t] => [Put p t]
  | t :: r => Put p t :: (if kind_eqb (tkind t) k then [Txt (tx ",")] else []) ++ commas k p r
  end.
Definition in_brackets (p : place) (t : tree) : list piece :=
  if kind_eqb (tkind t) ClauseArgument then [Txt (tx "["); Put (in_mode MText p) t; Txt (tx "]")] else [].
Definition typst_name (p : place) (name : text) (alias : option text) : text :=
  match mode_of p with
  | MMath => or_default alias name
  | MText =>
    if teqb name (tx "textbf") then tx "#strong"
    else if teqb name (tx "textit") then tx "#emph" else or_default alias name
  end.
Definition command_place (p : place) (typst : text) : place :=
  if teqb typst (tx "substack") then within ESubStack p else p.
(** everything in a command but its name *)
Definition operands (t : tree) : list tree :=
  filter (fun x => negb (kind_eqb (tkind x) ClauseCommandName)) (children t).

(** \label *)
Definition label_of (t : tree) (l : text) : Prop :=
  exists a r m, arguments t = a :: r /\ cut (tree_text a) m /\ l = trim m.
Definition label_pieces (p : place) (l : text) : list piece :=
  match env_of p, mode_of p with
  | (ENone | EItemize | EEnumerate), MText => [Txt (tx "<" ++ l ++ tx ">")]
  | (ENone | EItemize | EEnumerate), MMath => []
  | _, _ => [Keep l]
  end.

(** \includegraphics: the first argument that is a bracket, the first that is a group *)
Definition starts_as (k : kind) (a : tree) : Prop := option_map tkind (first_child a) = Some k.
Definition starts_otherwise (k : kind) (a : tree) : Prop :=
  exists k', option_map tkind (first_child a) = Some k' /\ k' <> k.
Definition picked (k : kind) (l : list tree) (o : option tree) : Prop :=
  match o with
  | None => Forall (starts_otherwise k) l
  | Some a => exists l1 l2, l = l1 ++ a :: l2 /\ Forall (starts_otherwise k) l1 /\ starts_as k a
  end.
(** [unit] removed from the end, as often as it is there *)
Definition without_unit (unit v w : text) : Prop :=
  exists n, v = w ++ List.concat (repeat unit n) /\ forall u, w <> u ++ unit.
Definition ends_in (unit v : text) : Prop := exists u, v = u ++ unit.
Inductive measure (v : text) : text -> Prop :=
| me_width w : ends_in (tx "\textwidth") v -> without_unit (tx "\textwidth") v w -> measure v (w ++ tx " * 100%")
| me_height w : ~ ends_in (tx "\textwidth") v -> ends_in (tx "\textheight") v ->
    without_unit (tx "\textheight") v w -> measure v (w ++ tx " * 100%")
| me_plain : ~ ends_in (tx "\textwidth") v -> ~ ends_in (tx "\textheight") v -> measure v v.
(** one [key=value]; only width and height count, and more than one [=] makes
    the value empty *)
Definition is_size (key : text) : Prop := key = tx "width" \/ key = tx "height".
Inductive graphics_option (s : text) : text -> Prop :=
| go_size k v m : separated 61 [k; v] (trim s) -> is_size (trim k) -> measure (trim v) m ->
    graphics_option s (trim k ++ tx ": " ++ m ++ tx ", ")
| go_no_value k r : separated 61 (k :: r) (trim s) -> List.length r <> 1%nat -> is_size (trim k) ->
    graphics_option s (trim k ++ tx ": " ++ tx ", ")
| go_other k r : separated 61 (k :: r) (trim s) -> ~ is_size (trim k) -> graphics_option s [].
Inductive graphics_options : option tree -> text -> Prop :=
| gs_none : graphics_options None []
| gs_some a m parts outs : cut (tree_text a) m -> separated 44 parts (trim m) ->
    Forall2 graphics_option parts outs -> graphics_options (Some a) (List.concat outs).
Definition graphics (t : tree) (out : text) : Prop :=
  exists o a m opts, picked ItemBracket (arguments t) o /\ picked ItemCurly (arguments t) (Some a) /\
    cut (tree_text a) m /\ graphics_options o opts /\
    out = tx "#image(" ++ opts ++ [34] ++ trim m ++ [34] ++ tx ")".

(** \color, \textcolor, \colorbox: the colour model, the colour and what is coloured *)
Inductive color_model : list tree -> option text -> list tree -> Prop :=
| cm_none l : match l with [] => True | x :: _ => tkind x <> TokenLBracket end -> color_model l None l
| cm_closed x a y r : tkind x = TokenLBracket -> Forall (fun t => tkind t <> TokenRBracket) a ->
    tkind y = TokenRBracket -> color_model (x :: a ++ y :: r) (Some (flat_map tree_text a)) r
| cm_open x a : tkind x = TokenLBracket -> Forall (fun t => tkind t <> TokenRBracket) a ->
    color_model (x :: a) (Some (flat_map tree_text a)) [].
Inductive color_parts (t : tree) : text -> option text -> option tree -> list tree -> Prop :=
| co_color root r l model l1 l2 : arguments t = root :: r -> solid (children root) l -> color_model l model l1 ->
    solid l1 l2 -> color_parts t (tx "color") model (hd_error l2) (tl l2)
| co_none name : name <> tx "color" -> arguments t = [] -> color_parts t name None None []
| co_model name a m r : name <> tx "color" -> arguments t = a :: r -> tree_text a = tx "[" ++ m ++ tx "]" ->
    color_parts t name (Some m) (hd_error r) (tl r)
| co_plain name a r : name <> tx "color" -> arguments t = a :: r -> (forall m, tree_text a <> tx "[" ++ m ++ tx "]") ->
    color_parts t name None (Some a) r.
Definition color_pieces (p : place) (alias : text) (model : option text) (color : option tree) (body : list tree) : list piece :=
  [Txt (alias ++ tx "(" ++ match model with Some m => tx "[" ++ m ++ tx "], " | None => tx "none, " end ++ tx "[")]
  ++ match color with Some c => [Put (in_mode MText p) c] | None => [Txt (tx "black")] end
  ++ [Txt (tx "])[")]
  ++ match mode_of p with
     | MMath => flat_map (fun b => [Txt (tx "$"); Put p b; Txt (tx "$")]) body ++ [Txt (tx "]")]
     | MText => map (Put p) body ++ [Txt (tx "];")]
     end.
Definition color_alias (sp : spec) (name : text) : text :=
  match get_cmd sp name with Some c => or_default (cs_alias c) (tx "mitexcolor") | None => tx "mitexcolor" end.

(** ** Environments *)
Definition env_for (f : ctx_feature) : env :=
  match f with
  | FNone => ENone | FMath => EMath | FMatrix => EMatrix | FCases => ECases
  | FFigure => EFigure | FTable => ETable | FItemize => EItemize | FEnumerate => EEnumerate
  end.
Definition delimiter (t : tree) : bool := kind_eqb (tkind t) ItemBegin || kind_eqb (tkind t) ItemEnd.
Definition inside (t : tree) : list tree := filter (fun x => negb (delimiter x)) (children t).
Definition labels (p : place) : list piece := match mode_of p with MText => [Labels] | MMath => [] end.
Definition dollars (p : place) : text * text := match mode_of p with MText => (tx "$ ", tx " $") | MMath => ([], []) end.

(** figures: the last caption goes in front *)
Definition is_command (name : text) (t : tree) : bool :=
  match t with
  | Node ItemCmd _ => match cmd_name_tok t with Some n => teqb n (tx "\" ++ name) | None => false end
  | _ => false
  end.
Inductive caption : list tree -> option tree -> Prop :=
| ca_none l : Forall (fun x => is_command (tx "caption") x = false) l -> caption l None
| ca_last l1 x a r l2 : is_command (tx "caption") x = true -> arguments x = a :: r ->
    Forall (fun y => is_command (tx "caption") y = true -> arguments y <> []) l1 ->
    Forall (fun y => is_command (tx "caption") y = false) l2 -> caption (l1 ++ x :: l2) (Some a).
Definition figure_body (t : tree) : list tree :=
  filter (fun x => negb (is_command (tx "caption") x || is_command (tx "centering") x)) (inside t).

(** tables *)
Definition letter (c : char) : bool := existsb (N.eqb c) (tx "lcr").
Definition alignment (c : char) : text :=
  if c =? 108 then tx "left, " else if c =? 99 then tx "center, " else tx "right, ".
Fixpoint bars (columns : nat) (s : text) : list nat :=
  match s with
  | [] => []
  | c :: r => if letter c then bars (S columns) r else columns :: bars columns r
  end.
Definition table_front (typst spec : text) : text :=
  tx "#" ++ typst ++ tx "(stroke: none," ++ [10]
  ++ tx "columns: " ++ dec (N.of_nat (List.length (filter letter spec))) ++ tx "," ++ [10]
  ++ tx "align: (" ++ flat_map alignment (filter letter spec) ++ tx ")," ++ [10]
  ++ flat_map (fun v => tx "table.vline(stroke: .5pt, x: " ++ dec (N.of_nat v) ++ tx "), ") (bars 0 spec) ++ [10].
Definition rule_of (t : tree) : option text :=
  if is_command (tx "hline") t || is_command (tx "midrule") t then Some (tx "table.hline(stroke: .5pt)," ++ [10])
  else if is_command (tx "toprule") t || is_command (tx "bottomrule") t then Some (tx "table.hline(stroke: 1pt)," ++ [10])
  else None.
(** cells are opened by the first element that is no blank, separator or rule *)
Fixpoint cells (p : place) (in_cell : bool) (l : list tree) : list piece :=
  match l with
  | [] => []
  | t :: r =>
    match tkind t, in_cell with
    | TokenAmpersand, true => Txt (tx "], ") :: cells p false r
    | TokenAmpersand, false => Txt (tx "[], ") :: cells p false r
    | ItemNewLine, true => Txt (tx "]," ++ [10]) :: cells p false r
    | ItemNewLine, false => Txt (tx "[]," ++ [10]) :: cells p false r
    | (TokenWhiteSpace | TokenLineBreak), false => cells p false r
    | _, true => Put p t :: cells p true r
    | _, false =>
      match rule_of t with
      | Some o => Txt o :: cells p false r
      | None => Txt (tx "[") :: Put p t :: cells p true r
      end
    end
  end.
Definition column_text (t : tree) (s : text) : Prop :=
  exists a r m, env_arguments t = a :: r /\ cut (tree_text a) m /\ s = trim m.

(** ** Layout *)
Definition container_kind (k : kind) : Prop :=
  In k [ItemLR; ClauseArgument; ScopeRoot; ItemText; ItemBracket; ItemParen].
Definition is_list (e : env) : Prop := e = EItemize \/ e = EEnumerate.
Definition colored : list text := map tx ["color"; "textcolor"; "colorbox"]%string.

Inductive lays (sp : spec) (p : place) : tree -> list piece -> Prop :=
(* leaves *)
| la_word s : lays sp p (Leaf TokenWord s)
    [Txt (match mode_of p with MMath => flat_map (fun c => [c; 32]) s | MText => s end)]
| la_space s : lays sp p (Leaf TokenWhiteSpace s) [Blank s]
| la_line s : lays sp p (Leaf TokenLineBreak s) [Line (s ++ indented (indent_of p))]
| la_punctuation k s o : punctuation k = Some o -> lays sp p (Leaf k s) [Txt o]
| la_placed k s o : placed k p = Some o -> lays sp p (Leaf k s) [Txt o]
| la_symbol c name sh : get_cmd sp name = Some sh ->
    lays sp p (Leaf TokenCommandSym (c :: name)) [Txt (or_default (cs_alias sh) name)]
| la_unknown_symbol c name : get_cmd sp name = None ->
    lays sp p (Leaf TokenCommandSym (c :: name)) [Fail (EUnknownCommand name)]
| la_stray_name s : lays sp p (Leaf ClauseCommandName s) [Fail ECmdNameOutside]
(* errors, stray clauses, comments, code *)
| la_error t : tkind t = TokenError -> lays sp p t [Fail (EUnexpected (tree_text t))]
| la_clause k ch : k = ItemBegin \/ k = ItemEnd -> lays sp p (Node k ch) [Fail EClauseOutside]
| la_comment ch : lays sp p (Node ItemBlockComment ch) []
| la_code ch : lays sp p (Node ItemTypstCode ch) [Txt (tree_text (Node ItemTypstCode ch))]
(* containers, formulas, groups *)
| la_container k ch : container_kind k -> lays sp p (Node k ch) (map (Put p) ch)
| la_formula ch inline : delimited (Node ItemFormula ch) inline ->
    lays sp p (Node ItemFormula ch)
      (Txt (fst (around_formula p inline)) :: map (Put (in_mode MMath p)) ch ++ [Txt (snd (around_formula p inline))])
| la_bad_formula ch : (forall inline, ~ delimited (Node ItemFormula ch) inline) ->
    lays sp p (Node ItemFormula ch) [Fail EFormula]
| la_group ch : mode_of p = MText \/ ~ hollow ch ->
    lays sp p (Node ItemCurly ch) (map (Put (group_place p)) ch)
| la_hollow_group ch : mode_of p = MMath -> hollow ch ->
    lays sp p (Node ItemCurly ch) (map (Put (group_place p)) ch ++ [Txt (tx "zws ")])
(* \left, \right: a dot is no delimiter *)
| la_delimiter k c name ch : lays sp p (Node ClauseLR (Leaf k (c :: name) :: ch))
    ((if teqb name (tx "left") then [Txt (tx "lr(")] else [])
     ++ flat_map (fun t => (match t with
                        | Leaf TokenWord s => if teqb s (tx ".") then [] else [Put p t]
                        | _ => [Put p t]
                        end) ++ [Txt (tx " ")]) ch
     ++ (if teqb name (tx "right") then [Txt (tx ")")] else []))
(* scripts: without a base an invisible one is written *)
| la_script_text ch : mode_of p = MText -> lays sp p (Node ItemAttachComponent ch) (map (Put p) ch)
| la_no_script ch : mode_of p = MMath -> Forall (fun t => ~ script_mark t) ch ->
    lays sp p (Node ItemAttachComponent ch) (map (Put p) ch)
| la_script l1 k m l2 : mode_of p = MMath -> Forall (fun t => ~ script_mark t) l1 -> ~ Forall blank_leaf l1 ->
    script_mark (Leaf k m) ->
    lays sp p (Node ItemAttachComponent (l1 ++ Leaf k m :: l2))
      (map (Put p) l1 ++ Txt (m ++ tx "(") :: map (Put p) l2 ++ [Txt (tx ")")])
| la_script_alone l1 k m l2 : mode_of p = MMath -> Forall blank_leaf l1 -> script_mark (Leaf k m) ->
    lays sp p (Node ItemAttachComponent (l1 ++ Leaf k m :: l2))
      (map (Put p) l1 ++ Txt (tx "zws" ++ m ++ tx "(") :: map (Put p) l2 ++ [Txt (tx ")")])
(* commands treated by name *)
| la_item t : command_named t (tx "item") -> is_list (env_of p) ->
    lays sp p t [Txt ([10] ++ indented (indent_of p - 2) ++ match env_of p with EItemize => tx "- " | _ => tx "+ " end)]
| la_stray_item t : command_named t (tx "item") -> ~ is_list (env_of p) -> lays sp p t [Fail EItem]
| la_label t l : command_named t (tx "label") -> label_of t l -> lays sp p t (label_pieces p l)
| la_no_label t : command_named t (tx "label") -> (forall l, ~ label_of t l) -> lays sp p t [Crash]
| la_graphics t o : command_named t (tx "includegraphics") -> graphics t o -> lays sp p t [Txt o]
| la_no_graphics t : command_named t (tx "includegraphics") -> (forall o, ~ graphics t o) -> lays sp p t [Crash]
| la_color t name model color body : command_named t name -> In name colored -> color_parts t name model color body ->
    lays sp p t (color_pieces p (color_alias sp name) model color body)
| la_no_color t : command_named t (tx "color") -> arguments t = [] -> lays sp p t [Crash]
(* other commands *)
| la_unknown t name : command_named t name -> ~ In name special_names -> get_cmd sp name = None ->
    lays sp p t [Fail (EUnknownCommand name)]
| la_bare t name sh : command_named t name -> ~ In name special_names -> get_cmd sp name = Some sh ->
    cs_args sh = SRight PNone -> lays sp p t [Txt (typst_name p name (cs_alias sh) ++ tx " ")]
| la_greedy t name sh tn k ch r : command_named t name -> ~ In name special_names -> get_cmd sp name = Some sh ->
    cs_args sh = SRight PGreedy -> operands t = Node k ch :: r -> tn = typst_name p name (cs_alias sh) ->
    lays sp p t (Txt (tn ++ tx "(") :: commas ItemCurly (command_place p tn) ch ++ [Txt (tx ")")])
| la_greedy_nothing t name sh : command_named t name -> ~ In name special_names -> get_cmd sp name = Some sh ->
    cs_args sh = SRight PGreedy -> (forall k ch r, operands t <> Node k ch :: r) -> lays sp p t [Crash]
| la_math_call t name sh tn : command_named t name -> ~ In name special_names -> get_cmd sp name = Some sh ->
    cs_args sh <> SRight PNone -> cs_args sh <> SRight PGreedy -> tn = typst_name p name (cs_alias sh) ->
    mode_of p = MMath -> hd_error tn <> Some 35 ->
    lays sp p t (Txt (tn ++ tx "(") :: commas ClauseArgument (command_place p tn) (operands t) ++ [Txt (tx ")")])
| la_text_call t name sh tn : command_named t name -> ~ In name special_names -> get_cmd sp name = Some sh ->
    cs_args sh <> SRight PNone -> cs_args sh <> SRight PGreedy -> tn = typst_name p name (cs_alias sh) ->
    mode_of p = MText \/ hd_error tn = Some 35 ->
    lays sp p t (Txt tn :: flat_map (in_brackets (command_place p tn)) (operands t) ++ [Txt (tx ";")])
(* environments *)
| la_unknown_env t name : environment_named t name -> get_env sp name = None -> lays sp p t [Fail (EUnknownEnv name)]
| la_list t name sh : environment_named t name -> get_env sp name = Some sh -> is_list (env_for (en_feature sh)) ->
    lays sp p t (map (Put (within (env_for (en_feature sh)) p)) (inside t))
| la_math_env t name sh q : environment_named t name -> get_env sp name = Some sh ->
    In (en_feature sh) [FMath; FMatrix; FCases] -> q = in_mode MMath (within (env_for (en_feature sh)) p) ->
    lays sp p t
      (Txt (fst (dollars p) ++ or_default (en_alias sh) name ++ tx "(")
       :: decimal_argument 0 (env_arguments t) (fun a => [Put q a])
       ++ map (Put q) (inside t) ++ Txt (tx ")" ++ snd (dollars p)) :: labels p)
| la_plain_env t name sh : environment_named t name -> get_env sp name = Some sh -> en_feature sh = FNone ->
    lays sp p t (Txt (tx "#" ++ or_default (en_alias sh) name ++ tx "[") :: map (Put (within ENone p)) (inside t)
      ++ Txt (tx "];") :: labels p)
| la_figure t name sh o : environment_named t name -> get_env sp name = Some sh -> en_feature sh = FFigure ->
    caption (children t) o ->
    lays sp p t
      (Txt (tx "#" ++ or_default (en_alias sh) name ++ tx "(")
       :: match o with Some a => [Txt (tx "caption: ["); Put (within EFigure p) a; Txt (tx "],")] | None => [] end
       ++ Txt (tx ")[") :: map (Put (within EFigure p)) (figure_body t) ++ Txt (tx "];") :: labels p)
| la_bad_figure t name sh x : environment_named t name -> get_env sp name = Some sh -> en_feature sh = FFigure ->
    In x (children t) -> is_command (tx "caption") x = true -> arguments x = [] -> lays sp p t [Crash]
| la_table t name sh spec : environment_named t name -> get_env sp name = Some sh -> en_feature sh = FTable ->
    column_text t spec -> Forall (fun c => In c (tx "lcr|")) spec ->
    lays sp p t
      (Txt (table_front (or_default (en_alias sh) name) spec)
       :: cells (within ETable p) false (inside t) ++ Txt (tx ");") :: labels p)
| la_bad_column t name sh good c rest : environment_named t name -> get_env sp name = Some sh -> en_feature sh = FTable ->
    column_text t (good ++ c :: rest) -> Forall (fun c => In c (tx "lcr|")) good -> ~ In c (tx "lcr|") ->
    lays sp p t [Fail (EAlignment c)]
| la_no_columns t name sh : environment_named t name -> get_env sp name = Some sh -> en_feature sh = FTable ->
    (forall s, ~ column_text t s) -> lays sp p t [Crash].

(** ** What pieces and elements come to *)
(** any element but blanks ends the beginning of a line *)
Definition at_element (t : tree) (c : carry) : carry :=
  match tkind t with TokenWhiteSpace => c | _ => mk_carry false (waiting c) end.
Inductive comes_to (sp : spec) : carry -> list piece -> outcome -> Prop :=
| ct_end c : comes_to sp c [] (Written c [])
| ct_txt c s l o : comes_to sp c l o -> comes_to sp c (Txt s :: l) (before s o)
| ct_space c s l o : comes_to sp (mk_carry false (waiting c)) l o ->
    comes_to sp c (Blank s :: l) (before (if fresh c then [] else s) o)
| ct_line c s l o : comes_to sp (mk_carry true (waiting c)) l o -> comes_to sp c (Line s :: l) (before s o)
| ct_put c p t c1 x l o : renders sp p c t (Written c1 x) -> comes_to sp c1 l o ->
    comes_to sp c (Put p t :: l) (before x o)
| ct_put_failed c p t e l : renders sp p c t (Failed e) -> comes_to sp c (Put p t :: l) (Failed e)
| ct_put_crashed c p t l : renders sp p c t Crashed -> comes_to sp c (Put p t :: l) Crashed
| ct_keep c x l o : comes_to sp (mk_carry (fresh c) (Some x)) l o -> comes_to sp c (Keep x :: l) o
| ct_labels c l o : comes_to sp (mk_carry (fresh c) None) l o ->
    comes_to sp c (Labels :: l) (before (match waiting c with Some x => tx "<" ++ x ++ tx ">" | None => [] end) o)
| ct_fail c e l : comes_to sp c (Fail e :: l) (Failed e)
| ct_crash c l : comes_to sp c (Crash :: l) Crashed
with renders (sp : spec) : place -> carry -> tree -> outcome -> Prop :=
| re_element p c t ps o : lays sp p t ps -> comes_to sp (at_element t c) ps o -> renders sp p c t o.

(** a whole document: a line has just begun, no label waits *)
Definition converts_to (sp : spec) (m : mode) (t : tree) (o : outcome) : Prop :=
  renders sp (outermost m) (mk_carry true None) t o.

(** ** Shapes: what holds of every tree the parser makes *)
Definition shaped (t : tree) : Prop :=
  match t with
  | Leaf k s => leaf_kind k /\ (k = TokenCommandSym -> exists name, s = 92 :: name)
  | Node k ch => node_kind k /\
    match k with
    | ClauseLR => exists k' name r, ch = Leaf k' (92 :: name) :: r
    | ItemCmd => exists name, cmd_name_tok t = Some (92 :: name)
    | ItemEnv => exists name, env_name_tok t = Some name
    | _ => True
    end
  end.
Definition well_shaped (t : tree) : Prop := forall x, seen x t -> shaped x.
(** in lists there is an indentation *)
Definition sane (p : place) : Prop := is_list (env_of p) -> (2 <= indent_of p)%nat.
