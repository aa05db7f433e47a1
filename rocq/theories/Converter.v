(** The converter: crates/mitex/src/converter.rs.

    The Rust code writes into a [fmt::Formatter] over a [String] (writing to a
    [String] never fails); here every function returns the text it writes.
    Debug rendering of unexpected text ([{:?}], line 141) is kept symbolic. *)
From Verif Require Export Syntax Spec.
Local Open Scope N_scope.

(** converter.rs:15-20 [LaTeXMode] *)
Inductive mode := MText | MMath.
(** converter.rs:22-36 [LaTeXEnv] *)
Inductive env :=
| ENone | EFigure | ETable | EItemize | EEnumerate
| EMath | EMatrix | ECases | ESubStack | EMathCurlyGroup.

(** converter.rs:38-47 [Converter] *)
Record cst := mk_cst {
  c_mode : mode;
  c_env : env;
  c_indent : nat;
  c_label : option text;
  c_skip : bool
}.
(** converter.rs:50-58 [new] *)
Definition cst_new (m : mode) : cst := mk_cst m ENone 0 None true.

Definition set_mode m s := mk_cst m (c_env s) (c_indent s) (c_label s) (c_skip s).
Definition set_label l s := mk_cst (c_mode s) (c_env s) (c_indent s) l (c_skip s).
Definition set_skip b s := mk_cst (c_mode s) (c_env s) (c_indent s) (c_label s) b.

Definition is_list_env (e : env) : bool :=
  match e with EItemize | EEnumerate => true | _ => false end.

(** converter.rs:96-100 [ConvertError::Str]: the messages, structured *)
Inductive cerr :=
| EUnexpected (s : text)            (* "error unexpected: {:?}" *)
| ECmdNameOutside                   (* "command name outside of command" *)
| EClauseOutside                    (* "clauses outside of environment" *)
| EFormula                          (* "formula is not valid" *)
| EUnknownCommand (n : text)        (* "unknown command: \{}" *)
| EUnknownEnv (n : text)            (* "unknown environment: \{}" *)
| EItem                             (* "item command outside of itemize or enumerate" *)
| EAlignment (c : char).            (* "unknown alignment: {}" *)

(** Outcome of a conversion step *)
Inductive cres (A : Type) :=
| COk (a : A)
| CErr (e : cerr)
| CPanic (site : string)
| CFuel.
Arguments COk {A}. Arguments CErr {A}. Arguments CPanic {A}. Arguments CFuel {A}.
Definition cbind {A B} (x : cres A) (f : A -> cres B) : cres B :=
  match x with COk a => f a | CErr e => CErr e | CPanic s => CPanic s | CFuel => CFuel end.
Notation "'let!' x ':=' e 'in' k" := (cbind e (fun x => k))
  (at level 61, x pattern, e at next level, right associativity).
Definition unwrap {A} (site : string) (o : option A) : cres A :=
  match o with Some a => COk a | None => CPanic site end.

Definition cout := cres (cst * text).

(** converter.rs:60-70 [enter_mode]/[exit_mode] are [set_mode]; 72-87
    [enter_env], [exit_env] (usize subtraction panics on underflow in debug
    builds) *)
Definition enter_env (e : env) (s : cst) : cst :=
  mk_cst (c_mode s) e (c_indent s + if is_list_env e then 2 else 0) (c_label s) (c_skip s).
Definition exit_env (prev : env) (s : cst) : cres cst :=
  if is_list_env (c_env s) then
    if Nat.ltb (c_indent s) 2 then CPanic "converter.rs:84 subtract with overflow"
    else COk (mk_cst (c_mode s) prev (c_indent s - 2) (c_label s) (c_skip s))
  else COk (mk_cst (c_mode s) prev (c_indent s) (c_label s) (c_skip s)).

Definition is_math (s : cst) : bool := match c_mode s with MMath => true | MText => false end.
Definition spaces (n : nat) : text := repeat 32 n.

(** [&s[1..]] *)
Definition tail1 (site : string) (s : text) : cres text :=
  match split_bytes 1 s with Some (_, r) => COk r | None => CPanic site end.
(** [&s[1..(s.len() - 1)]] *)
Definition strip_ends (site : string) (s : text) : cres text :=
  if Nat.ltb (blen s) 2 then CPanic site else
  match split_bytes 1 s with
  | Some (_, r) =>
    match split_bytes (blen s - 2) r with
    | Some (m, _) => COk m
    | None => CPanic site
    end
  | None => CPanic site
  end.

(** [str::split] by a character *)
Fixpoint split_on (c : char) (s : text) : list text :=
  match s with
  | [] => [[]]
  | x :: r =>
    if x =? c then [] :: split_on c r
    else match split_on c r with
         | w :: ws => (x :: w) :: ws
         | [] => [[x]]
         end
  end.
(** [str::trim_end_matches] by a (non-empty) string *)
Fixpoint trim_end_matches_fuel (n : nat) (p s : text) : text :=
  match n with
  | O => s
  | S n => match strip_suffix p s with Some s' => trim_end_matches_fuel n p s' | None => s end
  end.
Definition trim_end_matches (p s : text) : text := trim_end_matches_fuel (List.length s) p s.

Definition has_kind (k : kind) (t : tree) : bool := kind_eqb (tkind t) k.
(** [rowan SyntaxNode::first_child]: the first child that is a node *)
Definition first_child (t : tree) : option tree := hd_error (child_nodes t).

(** converter.rs:470-488 [convert_command_item]; [self.indent - 2] *)
Definition convert_command_item (s : cst) : cout :=
  match c_env s with
  | EItemize | EEnumerate =>
    if Nat.ltb (c_indent s) 2 then CPanic "converter.rs:474 subtract with overflow"
    else COk (s, 10 :: spaces (c_indent s - 2)
                 ++ match c_env s with EItemize => tx "- " | _ => tx "+ " end)
  | _ => CErr EItem
  end.

(** converter.rs:491-519 [convert_command_label] *)
Definition convert_command_label (t : tree) (s : cst) : cout :=
  let! arg := unwrap "converter.rs:499 expect" (hd_error (arguments t)) in
  let! label := strip_ends "converter.rs:502 str slice" (tree_text arg) in
  let label := trim label in
  match c_env s with
  | ENone | EItemize | EEnumerate =>
    match c_mode s with
    | MText => COk (s, tx "<" ++ label ++ tx ">")
    | MMath => COk (s, [])
    end
  | _ => COk (set_label (Some label) s, [])
  end.

(** converter.rs:522-593 [convert_command_includegraphics] *)
Definition find_arg (k : kind) (args : list tree) : cres (option tree) :=
  (fix go l :=
     match l with
     | [] => COk None
     | a :: r =>
       let! c := unwrap "converter.rs:529/537 unwrap" (first_child a) in
       if has_kind k c then COk (Some a) else go r
     end) args.
(** converter.rs:556-585: one key-value pair *)
Definition graphics_opt (arg : text) : text :=
  let parts := split_on 61 (trim arg) in
  let key := trim (hd [] parts) in
  let value := match parts with [_; v] => trim v | _ => [] end in
  if teqb key (tx "width") || teqb key (tx "height") then
    key ++ tx ": "
    ++ (match strip_suffix (tx "\textwidth") value with
        | Some _ => trim_end_matches (tx "\textwidth") value ++ tx " * 100%"
        | None =>
          match strip_suffix (tx "\textheight") value with
          | Some _ => trim_end_matches (tx "\textheight") value ++ tx " * 100%"
          | None => value
          end
        end)
    ++ tx ", "
  else [].
Definition convert_command_includegraphics (t : tree) (s : cst) : cout :=
  let! opt_arg := find_arg ItemBracket (arguments t) in
  let! arg := find_arg ItemCurly (arguments t) in
  let! arg := unwrap "converter.rs:541 expect" arg in
  let! body := strip_ends "converter.rs:544 str slice" (tree_text arg) in
  let! opts :=
    match opt_arg with
    | None => COk []
    | Some o =>
      let! ot := strip_ends "converter.rs:550 str slice" (tree_text o) in
      COk (flat_map graphics_opt (split_on 44 (trim ot)))
    end in
  COk (s, tx "#image(" ++ opts ++ [34] ++ trim body ++ [34] ++ tx ")").

Fixpoint skip_trivia (l : list tree) : list tree :=
  match l with
  | t :: r => if kind_is_trivia (tkind t) then skip_trivia r else l
  | [] => []
  end.
(** converter.rs:621-632: collect text until a right bracket *)
Fixpoint take_model (l : list tree) : text * list tree :=
  match l with
  | [] => ([], [])
  | t :: r =>
    if has_kind TokenRBracket t then ([], r)
    else let '(s, r') := take_model r in (tree_text t ++ s, r')
  end.
(** converter.rs:605-680: the arguments (model, color, body) of a colour command *)
Definition color_args (name : text) (t : tree) : cres (option text * option tree * list tree) :=
  if teqb name (tx "\color") then
    let! root := unwrap "converter.rs:606 expect" (hd_error (arguments t)) in
    let l := skip_trivia (children root) in
    let '(model, l) :=
      match l with
      | x :: r =>
        if has_kind TokenLBracket x then let '(m, r') := take_model r in (Some m, r')
        else (None, l)
      | [] => (None, l)
      end in
    match skip_trivia l with
    | [] => COk (model, None, [])
    | c :: body => COk (model, Some c, body)
    end
  else
    match arguments t with
    | [] => COk (None, None, [])
    | first :: args =>
      let txt := tree_text first in
      let is_model :=
        match txt, rev txt with
        | a :: _, b :: _ => (a =? 91) && (b =? 93) && Nat.leb 2 (blen txt)
        | _, _ => false
        end in
      if is_model then
        let model := match strip_ends "" txt with COk m => Some m | _ => None end in
        COk (model, hd_error args, tl args)
      else COk (None, Some first, args)
    end.

(** converter.rs:1062-1089: the column specification of a tabular: alignments
    and positions of the vertical lines; [index] counts the columns so far *)
Fixpoint table_columns (index : nat) (s : text) : cres (list char * list nat) :=
  match s with
  | [] => COk ([], [])
  | ch :: r =>
    if (ch =? 108) || (ch =? 99) || (ch =? 114) then
      let! (al, vl) := table_columns (S index) r in COk (ch :: al, vl)
    else if ch =? 124 then
      let! (al, vl) := table_columns index r in COk (al, index :: vl)
    else CErr (EAlignment ch)
  end.
(** converter.rs:1099-1106 *)
Definition align_name (c : char) : text :=
  if c =? 108 then tx "left, " else if c =? 99 then tx "center, "
  else if c =? 114 then tx "right, " else [].

Definition env_of_feature (f : ctx_feature) : env :=
  match f with
  | FNone => ENone | FMath => EMath | FMatrix => EMatrix | FCases => ECases
  | FFigure => EFigure | FTable => ETable | FItemize => EItemize | FEnumerate => EEnumerate
  end.

(** The name of a command node, [cmd.name_tok().unwrap().text()] *)
Definition cmd_name (t : tree) : cres text := unwrap "converter.rs: name_tok unwrap" (cmd_name_tok t).

(** converter.rs:989-1001 [is_named_arg] *)
Definition is_named_arg (t : tree) : cres bool :=
  match t with
  | Node ItemCmd _ =>
    let! n := cmd_name t in COk (teqb n (tx "\caption") || teqb n (tx "\centering"))
  | Leaf ItemCmd _ => CPanic "converter.rs:993 unwrap"
  | _ => COk false
  end.
Definition is_begin_end (t : tree) : bool := has_kind ItemBegin t || has_kind ItemEnd t.

Section Convert.
  Variable sp : spec.
  Section Rec.
  Variable rec : tree -> cst -> cout.

  (** The [for child in ... { self.convert(f, child, spec)?; }] loops; [f]
      is what is done with each child *)
  Definition each (f : tree -> cst -> cout) : list tree -> cst -> cout :=
    fix go l s :=
      match l with
      | [] => COk (s, [])
      | t :: r =>
        let! (s, o1) := f t s in
        let! (s, o2) := go r s in
        COk (s, o1 ++ o2)
      end.

  (** [elem.as_node().unwrap().children_with_tokens()] *)
  Definition node_children (t : tree) : cres (list tree) :=
    match t with Node _ c => COk c | Leaf _ _ => CPanic "converter.rs: as_node unwrap" end.

  (** converter.rs:277-309 [convert_formula] *)
  Definition convert_formula (t : tree) (s : cst) : cout :=
    let! ch := node_children t in
    if negb (formula_is_valid t) then CErr EFormula else
    let inline := formula_is_inline t in
    let o1 := match c_mode s with
              | MText => if inline then tx "#math.equation(block: false, $" else tx "$ "
              | MMath => [] end in
    let prev := c_mode s in
    let! (s, o2) := each rec ch (set_mode MMath s) in
    let s := set_mode prev s in
    let o3 := match c_mode s with
              | MText => if inline then tx "$);" else tx " $"
              | MMath => [] end in
    COk (s, o1 ++ o2 ++ o3).

  (** converter.rs:312-349 [convert_curly_group] *)
  Definition is_brace_or_space (t : tree) : bool :=
    match tkind t with
    | TokenWhiteSpace | TokenLineBreak | TokenLBrace | TokenRBrace => true
    | _ => false
    end.
  Definition convert_curly_group (t : tree) (s : cst) : cout :=
    let prev := c_env s in
    let enter := is_math s && match c_env s with ESubStack => false | _ => true end in
    let s := if enter then enter_env EMathCurlyGroup s else s in
    let! ch := node_children t in
    let zws := forallb is_brace_or_space ch in
    let! (s, o) := each rec ch s in
    if is_math s then
      let! s := if enter then exit_env prev s else COk s in
      COk (s, o ++ if zws then tx "zws " else [])
    else COk (s, o).

  (** converter.rs:352-391 [convert_clause_lr] *)
  Definition convert_clause_lr (t : tree) (s : cst) : cout :=
    let! ch := node_children t in
    match ch with
    | Leaf _ name :: args =>
      let! name := tail1 "converter.rs:365 str slice" name in
      let one a s :=
        let! (s, o) :=
          match a with
          | Leaf TokenWord w => if teqb w (tx ".") then COk (s, []) else rec a s
          | _ => rec a s
          end in
        COk (s, o ++ [32]) in
      let! (s, o) := each one args s in
      COk (s, (if teqb name (tx "left") then tx "lr(" else [])
              ++ o ++ (if teqb name (tx "right") then tx ")" else []))
    | _ => CPanic "converter.rs:363 index or unwrap"
    end.

  (** converter.rs:394-446 [convert_attach_component]: the loop in math mode.
      [first]: no script marker seen yet; [based]: a base was seen. *)
  Fixpoint attach_loop (first based : bool) (l : list tree) (s : cst) : cout :=
    match l with
    | [] => COk (s, if first then [] else tx ")")
    | t :: r =>
      let normal based :=
        let! (s, o1) := rec t s in
        let! (s, o2) := attach_loop first based r s in
        COk (s, o1 ++ o2) in
      if first then
        match t with
        | Leaf TokenUnderscore m | Leaf TokenCaret m =>
          let! (s, o) := attach_loop false based r s in
          COk (s, (if based then [] else tx "zws") ++ m ++ tx "(" ++ o)
        | Leaf TokenWhiteSpace _ => normal based
        | _ => normal true
        end
      else normal based
    end.
  Definition convert_attach_component (t : tree) (s : cst) : cout :=
    let! ch := node_children t in
    if is_math s then attach_loop true false ch s else each rec ch s.

  (** converter.rs:449-467 [convert_command_sym] *)
  Definition alias_or (a : option text) (name : text) : text :=
    match a with Some a => a | None => name end.
  Definition convert_command_sym (t : tree) (s : cst) : cout :=
    match t with
    | Node _ _ => CPanic "converter.rs:455 unwrap"
    | Leaf _ name =>
      let! name := tail1 "converter.rs:457 str slice" name in
      match get_cmd sp name with
      | None => CErr (EUnknownCommand name)
      | Some c => COk (s, alias_or (cs_alias c) name)
      end
    end.

  (** converter.rs:596-722 [convert_command_color] *)
  Definition convert_command_color (t : tree) (s : cst) : cout :=
    let name := match cmd_name_tok t with Some n => n | None => [] end in
    let alias :=
      match get_cmd sp (match strip_prefix (tx "\") name with Some n => n | None => [] end) with
      | Some c => alias_or (cs_alias c) (tx "mitexcolor")
      | None => tx "mitexcolor"
      end in
    let! (model, color, body) := color_args name t in
    let o1 := alias ++ tx "("
              ++ match model with Some m => tx "[" ++ m ++ tx "], " | None => tx "none, " end
              ++ tx "[" in
    let! (s, o2) :=
      match color with
      | Some c =>
        let prev := c_mode s in
        let! (s, o) := rec c (set_mode MText s) in COk (set_mode prev s, o)
      | None => COk (s, tx "black")
      end in
    let one b s :=
      if is_math s then let! (s, o) := rec b s in COk (s, tx "$" ++ o ++ tx "$")
      else rec b s in
    let! (s, o3) := each one body s in
    COk (s, o1 ++ o2 ++ tx "])" ++ tx "[" ++ o3 ++ tx "]" ++ if is_math s then [] else tx ";").

  (** converter.rs:758-779, 781-795: arguments separated by commas after
      elements of kind [k] other than the last *)
  Fixpoint comma_args (k : kind) (l : list tree) (s : cst) : cout :=
    match l with
    | [] => COk (s, [])
    | t :: r =>
      let! (s, o1) := rec t s in
      let sep := match r with [] => [] | _ => if has_kind k t then tx "," else [] end in
      let! (s, o2) := comma_args k r s in
      COk (s, o1 ++ sep ++ o2)
    end.
  (** converter.rs:796-808: text-mode arguments *)
  Definition text_arg (t : tree) (s : cst) : cout :=
    if has_kind ClauseArgument t then
      let prev := c_mode s in
      let! (s, o) := rec t (set_mode MText s) in
      COk (set_mode prev s, tx "[" ++ o ++ tx "]")
    else COk (s, []).

  (** converter.rs:725-816 [convert_normal_command] *)
  Definition typst_name_of (name : text) (c : cmd_shape) (s : cst) : text :=
    if is_math s then alias_or (cs_alias c) name
    else if teqb name (tx "textbf") then tx "#strong"
    else if teqb name (tx "textit") then tx "#emph"
    else alias_or (cs_alias c) name.
  Definition convert_normal_command (t : tree) (s : cst) : cout :=
    let! name := cmd_name t in
    let! name := tail1 "converter.rs:735 str slice" name in
    let args := filter (fun x => negb (has_kind ClauseCommandName x)) (children t) in
    match get_cmd sp name with
    | None => CErr (EUnknownCommand name)
    | Some c =>
      let tn := typst_name_of name c s in
      let substack := teqb tn (tx "substack") in
      let prev := c_env s in
      let s := if substack then enter_env ESubStack s else s in
      let! (s, o) :=
        match cs_args c with
        | SRight PNone => COk (s, tx " ")
        | SRight PGreedy =>
          match args with
          | Node _ ch :: _ =>
            let! (s, o) := comma_args ItemCurly ch s in COk (s, tx "(" ++ o ++ tx ")")
          | _ => CPanic "converter.rs:781 unwrap"
          end
        | _ =>
          if is_math s && negb (starts_with (tx "#") tn) then
            let! (s, o) := comma_args ClauseArgument args s in COk (s, tx "(" ++ o ++ tx ")")
          else
            let! (s, o) := each text_arg args s in COk (s, o ++ tx ";")
        end in
      let! s := if substack then exit_env prev s else COk s in
      COk (s, tn ++ o)
    end.

  Definition body_of (t : tree) : list tree := filter (fun c => negb (is_begin_end c)) (children t).

  (** converter.rs:978-1041 [convert_env_figure] *)
  Fixpoint find_caption (l : list tree) (caption : option tree) : cres (option tree) :=
    match l with
    | [] => COk caption
    | t :: r =>
      let! named := is_named_arg t in
      if named then
        let! n := cmd_name t in
        let! n := tail1 "converter.rs:1010 str slice" n in
        if teqb n (tx "caption") then
          let! a := unwrap "converter.rs:1015 expect" (hd_error (arguments t)) in
          find_caption r (Some a)
        else find_caption r caption
      else find_caption r caption
    end.
  Definition figure_child (t : tree) (s : cst) : cout :=
    if is_begin_end t then COk (s, [])
    else let! named := is_named_arg t in if named then COk (s, []) else rec t s.
  Definition convert_env_figure (t : tree) (k : env) (tn : text) (s : cst) : cout :=
    let! caption := find_caption (children t) None in
    let prev := c_env s in
    let s := enter_env k s in
    let! (s, o1) :=
      match caption with
      | Some c => let! (s, o) := rec c s in COk (s, tx "caption: [" ++ o ++ tx "],")
      | None => COk (s, [])
      end in
    let! (s, o2) := each figure_child (children t) s in
    let! s := exit_env prev s in
    COk (s, tx "#" ++ tn ++ tx "(" ++ o1 ++ tx ")[" ++ o2 ++ tx "];").

  (** converter.rs:1116-1180: the cells; [exterior]: outside of a cell *)
  Definition rule_text (name : text) : option text :=
    if teqb name (tx "hline") then Some (tx "table.hline(stroke: .5pt)," ++ [10])
    else if teqb name (tx "toprule") then Some (tx "table.hline(stroke: 1pt)," ++ [10])
    else if teqb name (tx "midrule") then Some (tx "table.hline(stroke: .5pt)," ++ [10])
    else if teqb name (tx "bottomrule") then Some (tx "table.hline(stroke: 1pt)," ++ [10])
    else None.
  (** converter.rs:1124-1165: new value of [exterior], text written *)
  Definition preprocess_exterior (t : tree) : cres (bool * text) :=
    match tkind t with
    | TokenWhiteSpace | TokenLineBreak => COk (true, [])
    | TokenAmpersand => COk (true, tx "[], ")
    | ItemNewLine => COk (true, tx "[]," ++ [10])
    | ItemCmd =>
      let! n := cmd_name t in
      let! n := tail1 "converter.rs:1142 str slice" n in
      match rule_text n with
      | Some o => COk (true, o)
      | None => COk (false, tx "[")
      end
    | _ => COk (false, tx "[")
    end.
  Fixpoint table_cells (exterior : bool) (l : list tree) (s : cst) : cout :=
    match l with
    | [] => COk (s, [])
    | t :: r =>
      if is_begin_end t then table_cells exterior r s else
      let! (exterior, o0) := if exterior then preprocess_exterior t else COk (false, []) in
      let! (exterior, s, o1) :=
        if exterior then COk (true, s, [])
        else match tkind t with
             | TokenAmpersand => COk (true, s, tx "], ")
             | ItemNewLine => COk (true, s, tx "]," ++ [10])
             | _ => let! (s, o) := rec t s in COk (false, s, o)
             end in
      let! (s, o2) := table_cells exterior r s in
      COk (s, o0 ++ o1 ++ o2)
    end.
  (** converter.rs:1044-1184 [convert_env_table] *)
  Definition convert_env_table (t : tree) (k : env) (tn : text) (s : cst) : cout :=
    let! arg := unwrap "converter.rs:1056 expect" (hd_error (env_arguments t)) in
    let! arg := strip_ends "converter.rs:1059 str slice" (tree_text arg) in
    let! (aligns, vlines) := table_columns 0 (trim arg) in
    let prev := c_env s in
    let s := enter_env k s in
    let head :=
      tx "#" ++ tn ++ tx "(" ++ tx "stroke: none," ++ [10]
      ++ tx "columns: " ++ dec (N.of_nat (List.length aligns)) ++ tx "," ++ [10]
      ++ tx "align: (" ++ flat_map align_name aligns ++ tx ")," ++ [10]
      ++ flat_map (fun v => tx "table.vline(stroke: .5pt, x: " ++ dec (N.of_nat v) ++ tx "), ") vlines
      ++ [10] in
    let! (s, o) := table_cells true (children t) s in
    let! s := exit_env prev s in
    COk (s, head ++ o ++ tx ");").

  (** converter.rs:898-903: named arguments of math environments *)
  Fixpoint named_args (index : nat) (l : list tree) (s : cst) : cout :=
    match l with
    | [] => COk (s, [])
    | a :: r =>
      let! (s, o1) := rec a s in
      let! (s, o2) := named_args (S index) r s in
      COk (s, tx "arg" ++ dec (N.of_nat index) ++ tx ": " ++ o1 ++ tx "," ++ o2)
    end.

  Definition is_math_env (e : env) : bool :=
    match e with EMath | EMatrix | ECases | ESubStack | EMathCurlyGroup => true | _ => false end.

  (** converter.rs:963-975: [label.take()] in text mode *)
  Definition flush_label (s : cst) : cst * text :=
    match c_mode s, c_label s with
    | MText, Some l => (set_label None s, tx "<" ++ l ++ tx ">")
    | _, _ => (s, [])
    end.

  (** converter.rs:819-976 [convert_env] *)
  Definition convert_env (t : tree) (s : cst) : cout :=
    let! name := unwrap "converter.rs:828 expect" (env_name_tok t) in
    let name := trim name in
    match get_env sp name with
    | None => CErr (EUnknownEnv name)
    | Some shape =>
      let tn := alias_or (en_alias shape) name in
      let k := env_of_feature (en_feature shape) in
      let prev := c_env s in
      if is_list_env k then
        let! (s, o) := each rec (body_of t) (enter_env k s) in
        let! s := exit_env prev s in
        COk (s, o)
      else
        let! (s, o) :=
          if is_math_env k then
            let with_dollar := negb (is_math s) in
            let prev_mode := c_mode s in
            let s := set_mode MMath (enter_env k s) in
            let! (s, o1) := named_args 0 (env_arguments t) s in
            let! (s, o2) := each rec (body_of t) s in
            let! s := exit_env prev s in
            let s := if with_dollar then set_mode prev_mode s else s in
            COk (s, (if with_dollar then tx "$ " else []) ++ tn ++ tx "(" ++ o1 ++ o2 ++ tx ")"
                    ++ (if with_dollar then tx " $" else []))
          else
            match k with
            | EFigure => convert_env_figure t k tn s
            | ETable => convert_env_table t k tn s
            | _ =>
              let! (s, o) := each rec (body_of t) (enter_env k s) in
              let! s := exit_env prev s in
              COk (s, tx "#" ++ tn ++ tx "[" ++ o ++ tx "];")
            end in
        let '(s, ol) := flush_label s in
        COk (s, o ++ ol)
    end.

  (** converter.rs:244-268: command nodes *)
  Definition convert_cmd (t : tree) (s : cst) : cout :=
    match t with
    | Leaf _ _ => CPanic "converter.rs:244 unwrap"
    | Node _ _ =>
      let! name := cmd_name t in
      let! n := tail1 "converter.rs:248 str slice" name in
      if teqb n (tx "item") then convert_command_item s
      else if teqb n (tx "label") then convert_command_label t s
      else if teqb n (tx "includegraphics") then convert_command_includegraphics t s
      else if teqb n (tx "color") || teqb n (tx "textcolor") || teqb n (tx "colorbox")
      then convert_command_color t s
      else convert_normal_command t s
    end.

  (** [elem.as_token().unwrap().text()] *)
  Definition token_text (t : tree) : cres text :=
    match t with Leaf _ s => COk s | Node _ _ => CPanic "converter.rs: as_token unwrap" end.

  (** converter.rs:124-274 [convert] *)
  Definition convert_step (t : tree) (s : cst) : cout :=
    let s := match tkind t with TokenWhiteSpace => s | _ => set_skip false s end in
    let w (str : text) : cout := COk (s, str) in
    match tkind t with
    | TokenError => CErr (EUnexpected (tree_text t))
    | ItemLR | ClauseArgument | ScopeRoot | ItemText | ItemBracket | ItemParen =>
      let! ch := node_children t in each rec ch s
    | ItemFormula => convert_formula t s
    | ItemCurly => convert_curly_group t s
    | ClauseLR => convert_clause_lr t s
    | ItemAttachComponent => convert_attach_component t s
    | ClauseCommandName => CErr ECmdNameOutside
    | ItemBegin | ItemEnd => CErr EClauseOutside
    | TokenWord =>
      let! x := token_text t in
      if is_math s then w (flat_map (fun c => [c; 32]) x) else w x
    | TokenLBrace | TokenRBrace | TokenDollar | TokenBeginMath | TokenEndMath
    | TokenComment | ItemBlockComment => w []
    | TokenWhiteSpace =>
      if c_skip s then COk (set_skip false s, [])
      else let! x := token_text t in w x
    | TokenLineBreak =>
      let! x := token_text t in
      COk (set_skip true s, x ++ spaces (c_indent s))
    | TokenApostrophe => w (tx "'")
    | TokenComma => w (tx "\,")
    | TokenSlash => w (tx "\/")
    | TokenCaret => w (tx "\^")
    | TokenUnderscore => w (tx "\_")
    | TokenHash => w (tx "\#")
    | TokenAsterisk => w (tx "\*")
    | TokenAtSign => w (tx "\@")
    | TokenDitto => w [92; 34]
    | TokenSemicolon => w (tx "\;")
    | TokenLParen => w (tx "\(")
    | TokenRParen => w (tx "\)")
    | TokenLBracket => w (tx "\[")
    | TokenRBracket => w (tx "\]")
    | TokenTilde => if is_math s then w (tx "space.nobreak ") else w (tx "\~")
    | TokenAmpersand => match c_env s with EMatrix => w (tx "zws ,") | _ => w (tx "&") end
    | ItemNewLine =>
      match c_env s with
      | EMatrix => w (tx "zws ;")
      | ECases => w (tx ",")
      | EMathCurlyGroup => w []
      | _ => w (tx "\ ")
      end
    | TokenCommandSym => convert_command_sym t s
    | ItemCmd => convert_cmd t s
    | ItemEnv => convert_env t s
    | ItemTypstCode =>
      match t with
      | Node _ _ => w (tree_text t)
      | Leaf _ _ => CPanic "converter.rs:271 unwrap"
      end
    end.
  End Rec.

  (** All recursion of the converter goes through [convert]; the fuel bounds
      the depth of the recursion. *)
  Fixpoint convert (fuel : nat) (t : tree) (s : cst) : cout :=
    match fuel with
    | O => CFuel
    | S n => convert_step (convert n) t s
    end.
End Convert.

(** Height of a tree: fuel that always suffices (ConvFacts.convert_terminates) *)
Fixpoint height (t : tree) : nat :=
  match t with
  | Leaf _ _ => 1
  | Node _ c => S (fold_right (fun x n => Nat.max (height x) n) 0%nat c)
  end.

(** converter.rs:1186-1201 [TypstRepr::fmt] *)
Definition convert_tree (sp : spec) (m : mode) (t : tree) : cres text :=
  let! (_, o) := convert sp (S (height t)) t (cst_new m) in COk o.
