(** A grammar of LaTeX documents (text, formulas, groups, scripts, commands
    with arguments before or after them, [\left]...[\right], environments, lists,
    figures, tables, colours, pictures, labels, Typst code), the tokens of a
    document, and its Typst translation.  Used to state C54: this is the
    specification, written without the parser and the converter. *)
From Verif Require Export Token Spec Converter.
Local Open Scope N_scope.

(** ** Documents *)
Inductive space := SBlank (s : text) | SBreak (s : text) | SComment (s : text).
(** what [\left] and [\right] are followed by *)
Inductive delim := DChar (c : char) | DMark (c : char) | DSym (name : text).
Inductive fkind := FInline (* $ $ *) | FDisplay (* $$ $$ *) | FParen (* \( \) *) | FSquare (* \[ \] *).
Inductive item :=
| IWord (w : text)
| ISpace (x : space)
| IMark (c : char)                                          (* punctuation, [&] *)
| IPrime                                                    (* ' *)
| INewline                                                  (* \\ *)
| IGroup (l : list item)                                    (* { ... } *)
| IBracket (l : list item)                                  (* [ ... ], as an argument only *)
| IScript (sup : bool) (gap : list space) (a : item)        (* ^a or _a *)
| ICmd (name : text) (args : list (list space * item))      (* \name and its arguments *)
| IPost (name : text)                                       (* \limits: applies to what precedes *)
| IGreedy (name : text) (body : list item)                  (* \displaystyle body: to the end of its list *)
| IInfix (l1 : list item) (name : text) (l2 : list item)    (* l1 \over l2: a whole list *)
| ICode (typst : bool) (ts : list tok)                      (* \iftypst ts \fi, \iffalse ts \fi *)
| ILR (g1 : list space) (d1 : delim) (body : list item) (g2 : list space) (d2 : delim)
| IEnv (name : text) (args : list (list space * item)) (body : list item) (name' : text)
| IFormula (k : fkind) (body : list item).

(** ** Their tokens; [k]: what comes after *)
Definition mark_tokens : list (char * token) :=
  combine (tx "[](),~/&;#*@")
    [TLeft Bracket; TRight Bracket; TLeft Paren; TRight Paren; Comma; Tilde; Slash; Ampersand; Semicolon; Hash; Asterisk; AtSign]
  ++ [(34, Ditto)].
Definition mark_token (c : char) : token :=
  match find (fun p => fst p =? c) mark_tokens with Some p => snd p | None => TError end.
Definition space_tok (x : space) : tok :=
  match x with SBlank s => (Whitespace, s) | SBreak s => (LineBreak, s) | SComment s => (LineComment, s) end.
Definition name_tok (name : text) : tok := (CommandName Generic, 92 :: name).
(** a single character is not set off from a word that follows it *)
Definition glue (w : text) (k : list tok) : list tok :=
  match k with (Word, w') :: r => (Word, w ++ w') :: r | _ => (Word, w) :: k end.
Definition delim_toks (d : delim) (k : list tok) : list tok :=
  match d with
  | DChar c => glue [c] k
  | DMark c => (mark_token c, [c]) :: k
  | DSym name => name_tok name :: k
  end.
Definition f_open (k : fkind) : tok :=
  match k with
  | FInline => (Dollar, tx "$") | FDisplay => (Dollar, tx "$$")
  | FParen => (CommandName BeginMath, tx "\(") | FSquare => (CommandName BeginMath, tx "\[")
  end.
Definition f_close (k : fkind) : tok :=
  match k with
  | FInline => (Dollar, tx "$") | FDisplay => (Dollar, tx "$$")
  | FParen => (CommandName EndMath, tx "\)") | FSquare => (CommandName EndMath, tx "\]")
  end.
Definition code_open (typst : bool) : tok :=
  if typst then (CommandName (CIf IfTypst), tx "\iftypst") else (CommandName (CIf IfFalse), tx "\iffalse").
Definition code_close : tok := (CommandName CEndIf, tx "\fi").
Fixpoint toks (i : item) (k : list tok) : list tok :=
  let arg (a : item) k := match a with IWord w => glue w k | _ => toks a k end in
  let args l k := fold_right (fun (p : list space * item) k => let (g, a) := p in map space_tok g ++ arg a k) k l in
  match i with
  | IWord w => (Word, w) :: k
  | ISpace x => space_tok x :: k
  | IMark c => (mark_token c, [c]) :: k
  | IPrime => (Apostrophe, tx "'") :: k
  | INewline => (NewLine, tx "\\") :: k
  | IGroup l => (TLeft Curly, tx "{") :: fold_right toks ((TRight Curly, tx "}") :: k) l
  | IBracket l => (TLeft Bracket, tx "[") :: fold_right toks ((TRight Bracket, tx "]") :: k) l
  | IScript sup gap a => (if sup then (Caret, tx "^") else (Underscore, tx "_")) :: map space_tok gap ++ arg a k
  | ICmd name l => name_tok name :: args l k
  | IPost name => name_tok name :: k
  | IGreedy name body => name_tok name :: fold_right toks k body
  | IInfix l1 name l2 => fold_right toks (name_tok name :: fold_right toks k l2) l1
  | ICode typst ts => code_open typst :: ts ++ code_close :: k
  | ILR g1 d1 body g2 d2 =>
    (CommandName CLeft, tx "\left") :: map space_tok g1 ++ delim_toks d1
      (fold_right toks ((CommandName CRight, tx "\right") :: map space_tok g2 ++ delim_toks d2 k) body)
  | IEnv name l body name' =>
    (CommandName BeginEnvironment, name) :: args l (fold_right toks ((CommandName EndEnvironment, name') :: k) body)
  | IFormula f body => f_open f :: fold_right toks (f_close f :: k) body
  end.
Definition document_tokens (l : list item) : list tok := fold_right toks [] l.

(** the text of a document, without the white space before arguments, the
    [\iftypst] and [\fi] around code (and with the names of environments only) *)
Fixpoint stext (i : item) : text :=
  let args l := flat_map (fun (p : list space * item) => let (_, a) := p in stext a) l in
  let gap g := flat_map (fun x => snd (space_tok x)) g in
  let del d := match d with DChar c | DMark c => [c] | DSym n => 92 :: n end in
  match i with
  | IWord w => w
  | ISpace x => snd (space_tok x)
  | IMark c => [c]
  | IPrime => tx "'"
  | INewline => tx "\\"
  | IGroup l => tx "{" ++ flat_map stext l ++ tx "}"
  | IBracket l => tx "[" ++ flat_map stext l ++ tx "]"
  | IScript sup g a => (if sup then tx "^" else tx "_") ++ gap g ++ stext a
  | ICmd name l => (92 :: name) ++ args l
  | IPost name => 92 :: name
  | IGreedy name body => (92 :: name) ++ flat_map stext body
  | IInfix l1 name l2 => flat_map stext l1 ++ (92 :: name) ++ flat_map stext l2
  | ICode _ ts => flat_map snd ts
  | ILR g1 d1 body g2 d2 => tx "\left" ++ gap g1 ++ del d1 ++ flat_map stext body ++ tx "\right" ++ gap g2 ++ del d2
  | IEnv name l body name' => name ++ args l ++ flat_map stext body ++ name'
  | IFormula f body => snd (f_open f) ++ flat_map stext body ++ snd (f_close f)
  end.

(** ** Their translation *)
(** where we are: text or formula, the environment, the indentation of lists *)
Record ctx := Ctx { x_mode : mode; x_env : env; x_ind : nat }.
(** what is passed along: whether a line has just been ended (white space is
    then left out), and the label that waits for the end of its environment *)
Definition sta := (bool * option text)%type.
Definition out := cres (sta * text).
Definition say (s : sta) (o : text) : out := COk (s, o).
Definition fresh (s : sta) : sta := (false, snd s).
(** translations, and one after the other *)
Definition den := ctx -> sta -> out.
Definition idd : den := fun c s => say s [].
Definition seqd (f g : den) : den := fun c s => let! (s1, o1) := f c s in let! (s2, o2) := g c s1 in say s2 (o1 ++ o2).
Definition alld (l : list den) : den := fold_right seqd idd l.
(** with something around it *)
Definition around (pre : text) (f : den) (post : text) : den := fun c s => let! (s1, o) := f c s in say s1 (pre ++ o ++ post).

Definition word_out (m : mode) (w : text) : text :=
  match m with MText => w | MMath => flat_map (fun c => [c; 32]) w end.
Definition mark_out (c : ctx) (ch : char) : text :=
  if ch =? 38 then match x_env c with EMatrix => tx "zws ," | _ => tx "&" end
  else if ch =? 126 then match x_mode c with MText => tx "\~" | MMath => tx "space.nobreak " end
  else [92; ch].
Definition newline_out (e : env) : text :=
  match e with EMatrix => tx "zws ;" | ECases => tx "," | EMathCurlyGroup => [] | _ => tx "\ " end.
Definition space_out (c : ctx) (x : space) (s : sta) : out :=
  match x with
  | SBlank b => say (fresh s) (if fst s then [] else b)
  | SBreak b => say (true, snd s) (b ++ spaces (x_ind c))
  | SComment _ => say (fresh s) []
  end.
Fixpoint gap_out (c : ctx) (post : text) (g : list space) (s : sta) : out :=
  match g with
  | [] => say s []
  | x :: r => let! (s1, o1) := space_out c x s in let! (s2, o2) := gap_out c post r s1 in say s2 (o1 ++ post ++ o2)
  end.

(** *** What scripts and postfix commands are attached to *)
(** something can be attached to it *)
Definition carries (i : item) : bool :=
  match i with
  | ISpace _ | IPrime | INewline | IScript _ _ _ | IPost _ | IGreedy _ _ | IInfix _ _ _ | IFormula _ _ => false
  | IMark c => negb (existsb (N.eqb c) (tx "&#*@"))
  | _ => true
  end.
(** it is attached to what precedes *)
Definition attaches (i : item) : bool := match i with IPrime | IScript _ _ _ | IPost _ => true | _ => false end.
(** nothing that follows is attached to what precedes it *)
Definition closes (i : item) : bool := match i with IGreedy _ _ | IInfix _ _ _ => true | _ => false end.
(** words, commas and white space make up a run of text (that begins with a
    word or a comma); scripts are attached to all of the run *)
Definition textlike (i : item) : bool :=
  match i with IWord _ | ISpace _ => true | IMark c => c =? 44 | _ => false end.
Definition begins_text (i : item) : bool := match i with IWord _ => true | IMark c => c =? 44 | _ => false end.
Definition is_space (i : item) : bool :=
  match i with ISpace (SBlank _) | ISpace (SBreak _) => true | _ => false end.
(** an item, its translation (which depends, for a script, on whether it has
    something to be attached to), and the translations of its arguments *)
Record el := El { e_item : item; e_den : bool -> den; e_args : list den }.
(** an item; a run of text; a piece, what follows it, and what is attached to these *)
Inductive piece := PItem (e : el) | PText (es : list el) | PAttach (p : piece) (between : list el) (e : el).
(** pieces found so far, and the one that something can still be attached to,
    with what has followed it *)
Definition pstate := (list piece * option (piece * list el))%type.
Definition pstep (st : pstate) (e : el) : pstate :=
  let (d, o) := st in
  let start := if begins_text (e_item e) then PText [e] else PItem e in
  let other p between :=
    if attaches (e_item e) then (d, Some (PAttach p between e, []))
    else if carries (e_item e) then (d ++ p :: map PItem between, Some (start, []))
    else if closes (e_item e) then (d ++ p :: map PItem between ++ [PItem e], None)
    else (d, Some (p, between ++ [e])) in
  match o with
  | None => if carries (e_item e) then (d, Some (start, [])) else (d ++ [PItem e], None)
  | Some (PText es, []) => if textlike (e_item e) then (d, Some (PText (es ++ [e]), [])) else other (PText es) []
  | Some (p, between) => other p between
  end.
Definition pclose (st : pstate) : list piece :=
  fst st ++ match snd st with Some (p, between) => p :: map PItem between | None => [] end.
Definition pieces (l : list el) : list piece := pclose (fold_left pstep l ([], None)).
Fixpoint ptext (p : piece) : text :=
  match p with
  | PItem e => stext (e_item e)
  | PText es => flat_map (fun e => stext (e_item e)) es
  | PAttach p between e => ptext p ++ flat_map (fun e => stext (e_item e)) between ++ stext (e_item e)
  end.

Section Translation.
  Variable sp : spec.
  Definition delim_out (c : ctx) (d : delim) (s : sta) : out :=
    match d with
    | DChar ch => if ch =? 46 then say s (tx " ") else say (fresh s) (word_out (x_mode c) [ch] ++ tx " ")
    | DMark ch => say (fresh s) (mark_out c ch ++ tx " ")
    | DSym name =>
      match get_cmd sp name with
      | None => CErr (EUnknownCommand name)
      | Some cmd => say (fresh s) ((match cs_alias cmd with Some a => a | None => name end) ++ tx " ")
      end
    end.
  (** *** Commands *)
  (** the name under which Typst knows the command *)
  Definition typst_name (m : mode) (name : text) (cmd : cmd_shape) : text :=
    match m with
    | MText => if teqb name (tx "textbf") then tx "#strong" else if teqb name (tx "textit") then tx "#emph"
               else match cs_alias cmd with Some a => a | None => name end
    | MMath => match cs_alias cmd with Some a => a | None => name end
    end.
  Definition begins_hash (n : text) : bool := match n with 35 :: _ => true | _ => false end.
  Definition is_sub_stack (e : env) : bool := match e with ESubStack => true | _ => false end.
  (** arguments; [pre] and [post] depend on the number of the argument and on
      whether it is the last one *)
  Fixpoint args_out (pre post : nat -> bool -> text) (n : nat) (l : list den) : den :=
    match l with
    | [] => idd
    | d :: r =>
      let last := match r with [] => true | _ => false end in
      seqd (around (pre n last) (fun c s => d c (fresh s)) (post n last)) (args_out pre post (S n) r)
    end.
  Definition command_out (name : text) (args : list den) : den := fun c s =>
    match get_cmd sp name with
    | None => CErr (EUnknownCommand name)
    | Some cmd =>
      let m := x_mode c in
      let tn := typst_name m name cmd in
      let e' := if teqb tn (tx "substack") then ESubStack else x_env c in
      match cs_args cmd with
      | SRight PNone => say (fresh s) (tn ++ tx " ")
      | _ =>
        let formula_args := match m with MMath => negb (begins_hash tn) | MText => false end in
        if formula_args then
          around (tn ++ tx "(") (args_out (fun _ _ => []) (fun _ last => if last then [] else tx ",") 0 args) (tx ")") (Ctx m e' (x_ind c)) (fresh s)
        else
          around tn (args_out (fun _ _ => tx "[") (fun _ _ => tx "]") 0 args) (tx ";") (Ctx MText e' (x_ind c)) (fresh s)
      end
    end.
  (** *** Pieces *)
  Fixpoint piece_den (p : piece) : den :=
    match p with
    | PItem e => e_den e false
    | PText es => alld (map (fun e => e_den e false) es)
    | PAttach b between e =>
      let base := seqd (piece_den b) (alld (map (fun e => e_den e false) between)) in
      match e_item e with
      | IPost name => command_out name [base]
      | _ => seqd base (e_den e true)
      end
    end.
  Definition list_den (ps : list piece) : den := alld (map piece_den ps).
  (** a command that takes all the rest: a comma after every group except the last piece *)
  Fixpoint rest_den (ps : list piece) : den :=
    match ps with
    | [] => idd
    | [p] => piece_den p
    | p :: r => seqd (around [] (piece_den p) (match p with PItem e => match e_item e with IGroup _ => tx "," | _ => [] end | _ => [] end)) (rest_den r)
    end.
  Definition greedy_out (name : text) (ps : list piece) : den := fun c s =>
    match get_cmd sp name with
    | None => CErr (EUnknownCommand name)
    | Some cmd =>
      let tn := typst_name (x_mode c) name cmd in
      around (tn ++ tx "(") (rest_den ps) (tx ")")
        (Ctx (x_mode c) (if teqb tn (tx "substack") then ESubStack else x_env c) (x_ind c)) (fresh s)
    end.

  (** *** Colours *)
  Definition color_out (name : text) (model : option text) (color : option den) (body : list den) : den := fun c s =>
    let tn := match get_cmd sp name with
              | Some cmd => match cs_alias cmd with Some a => a | None => tx "mitexcolor" end
              | None => tx "mitexcolor"
              end in
    let math := match x_mode c with MMath => true | MText => false end in
    let! (s1, o1) := match color with
                     | Some d => d (Ctx MText (x_env c) (x_ind c)) (fresh s)
                     | None => say (fresh s) (tx "black")
                     end in
    let! (s2, o2) := alld (map (fun d => if math then around (tx "$") d (tx "$") else d) body) c s1 in
    say s2 (tn ++ tx "(" ++ match model with Some t => tx "[" ++ t ++ tx "]" | None => tx "none" end ++ tx ", ["
            ++ o1 ++ tx "])[" ++ o2 ++ tx "]" ++ if math then [] else tx ";").
  (** [\color]: among the pieces that follow *)
  Definition is_item (f : item -> bool) (p : piece) : bool := match p with PItem e => f (e_item e) | _ => false end.
  Definition trivial : piece -> bool := is_item (fun i => match i with ISpace _ | INewline => true | _ => false end).
  Definition is_mark (ch : char) : piece -> bool := is_item (fun i => match i with IMark c => c =? ch | _ => false end).
  Fixpoint drop_trivial (ps : list piece) : list piece :=
    match ps with p :: r => if trivial p then drop_trivial r else ps | [] => [] end.
  Fixpoint until_bracket (ps : list piece) : text * list piece :=
    match ps with
    | [] => ([], [])
    | p :: r =>
      if is_mark 93 p then ([], r)
      else let (t, r') := until_bracket r in (ptext p ++ t, r')
    end.
  Definition color_rest_out (ps : list piece) : den :=
    let ps := drop_trivial ps in
    let (model, ps) :=
      match ps with
      | p :: r => if is_mark 91 p then let (t, r') := until_bracket r in (Some t, r') else (None, ps)
      | [] => (None, ps)
      end in
    match drop_trivial ps with
    | [] => color_out (tx "color") model None []
    | p :: r => color_out (tx "color") model (Some (piece_den p)) (map piece_den r)
    end.

  (** *** Pictures *)
  Definition inner (a : item) : text := match a with IGroup l | IBracket l => flat_map stext l | _ => [] end.
  Definition has_suffix (p s : text) : bool := Nat.leb (List.length p) (List.length s) && teqb (skipn (List.length s - List.length p) s) p.
  Fixpoint without_suffixes (n : nat) (p s : text) : text :=
    match n with
    | O => s
    | S n => if has_suffix p s then without_suffixes n p (firstn (List.length s - List.length p) s) else s
    end.
  Definition length_out (v : text) : text :=
    if has_suffix (tx "\textwidth") v then without_suffixes (List.length v) (tx "\textwidth") v ++ tx " * 100%"
    else if has_suffix (tx "\textheight") v then without_suffixes (List.length v) (tx "\textheight") v ++ tx " * 100%"
    else v.
  Definition picture_option (o : text) : text :=
    let parts := split_on 61 (trim o) in
    let key := trim (hd [] parts) in
    if existsb (teqb key) [tx "width"; tx "height"]
    then key ++ tx ": " ++ length_out (match parts with [_; v] => trim v | _ => [] end) ++ tx ", "
    else [].
  Definition picture_out (opts : option text) (file : text) : text :=
    tx "#image(" ++ match opts with Some o => flat_map picture_option (split_on 44 (trim o)) | None => [] end
    ++ [34] ++ trim file ++ [34] ++ tx ")".

  (** *** Figures and tables *)
  Definition is_command (names : list text) (p : piece) : bool :=
    is_item (fun i => match i with ICmd n _ => existsb (teqb n) names | _ => false end) p.
  (** the first argument of the last [\caption] *)
  Definition caption (ps : list piece) : option den :=
    fold_left (fun o p => match p with
                          | PItem e => if is_command [tx "caption"] p then hd_error (e_args e) else o
                          | _ => o
                          end) ps None.
  Definition figure_out (tn : text) (ps : list piece) : den :=
    seqd (match caption ps with
          | Some d => around (tx "#" ++ tn ++ tx "(caption: [") (fun c s => d c (fresh s)) (tx "],)[")
          | None => fun _ s => say s (tx "#" ++ tn ++ tx "()[")
          end)
         (around [] (alld (map (fun p => if is_command [tx "caption"; tx "centering"] p then idd else piece_den p) ps)) (tx "];")).

  Definition bad_column (ch : char) : bool := negb (existsb (N.eqb ch) (tx "lcr|")).
  Definition columns (cols : text) : text := filter (fun ch => negb (ch =? 124)) cols.
  Definition column_out (ch : char) : text :=
    if ch =? 108 then tx "left, " else if ch =? 99 then tx "center, " else tx "right, ".
  (** the lines between columns, by the number of columns before them *)
  Definition lines (cols : text) : list nat :=
    flat_map (fun n => if nth n cols 0 =? 124 then [List.length (columns (firstn n cols))] else []) (seq 0 (List.length cols)).
  Definition table_head (tn cols : text) : text :=
    tx "#" ++ tn ++ tx "(stroke: none," ++ [10]
    ++ tx "columns: " ++ dec (N.of_nat (List.length (columns cols))) ++ tx "," ++ [10]
    ++ tx "align: (" ++ flat_map column_out (columns cols) ++ tx ")," ++ [10]
    ++ flat_map (fun v => tx "table.vline(stroke: .5pt, x: " ++ dec (N.of_nat v) ++ tx "), ") (lines cols) ++ [10].
  Definition rule_out (n : text) : option text :=
    if existsb (teqb n) [tx "toprule"; tx "bottomrule"] then Some (tx "table.hline(stroke: 1pt)," ++ [10])
    else if existsb (teqb n) [tx "hline"; tx "midrule"] then Some (tx "table.hline(stroke: .5pt)," ++ [10])
    else None.
  (** [inside]: a cell has begun *)
  Definition rule_of (p : piece) : option text :=
    match p with PItem e => match e_item e with ICmd n _ => rule_out n | _ => None end | _ => None end.
  Fixpoint cells (inside : bool) (ps : list piece) : den :=
    match ps with
    | [] => idd
    | p :: r =>
      let start := if inside then [] else tx "[" in
      if is_mark 38 p then seqd (fun _ s => say s (start ++ tx "], ")) (cells false r)
      else if is_item (fun i => match i with INewline => true | _ => false end) p
      then seqd (fun _ s => say s (start ++ tx "]," ++ [10])) (cells false r)
      else if negb inside && is_item is_space p then cells false r
      else match (if inside then None else rule_of p) with
           | Some o => seqd (fun _ s => say s o) (cells false r)
           | None => seqd (around start (piece_den p) []) (cells true r)
           end
    end.
  Definition table_out (tn cols : text) (ps : list piece) : den := fun c s =>
    match find bad_column cols with
    | Some ch => CErr (EAlignment ch)
    | None => around (table_head tn cols) (cells false ps) (tx ");") c s
    end.

  (** at the end of an environment in text, its label is attached *)
  Definition with_label (m : mode) (r : out) : out :=
    let! (s, o) := r in
    match m, snd s with
    | MText, Some l => say (fst s, None) (o ++ tx "<" ++ l ++ tx ">")
    | _, _ => say s o
    end.

  (** *** Everything *)
  Fixpoint typ (i : item) (based : bool) (c : ctx) (s : sta) {struct i} : out :=
    let m := x_mode c in
    let e := x_env c in
    let now := fresh s in
    let args (l : list (list space * item)) := map (fun p : list space * item => let (_, a) := p in typ a false) l in
    let parts (l : list item) := pieces (map (fun i => El i (typ i) (match i with ICmd _ l => args l | _ => [] end)) l) in
    match i with
    | IWord w => say now (word_out m w)
    | ISpace x => space_out c x s
    | IMark ch => say now (mark_out c ch)
    | IPrime => say now (tx "'")
    | INewline => say now (newline_out e)
    | IGroup l =>
      let c' := match m with
                | MMath => if is_sub_stack e then c else Ctx MMath EMathCurlyGroup (x_ind c)
                | MText => c
                end in
      let! (s1, o) := list_den (parts l) c' now in
      say (fresh s1) (o ++ match m with MMath => if forallb is_space l then tx "zws " else [] | MText => [] end)
    | IBracket l =>
      let! (s1, o) := list_den (parts l) c now in
      say (fresh s1) (tx "\[" ++ o ++ tx "\]")
    | IScript sup gap a =>
      (* in a formula the mark of an attached script is not output as such, and
         does not count as the first thing on its line *)
      let s0 := match m with MMath => if based then s else now | MText => now end in
      let! (s1, o1) := gap_out c [] gap s0 in
      let! (s2, o2) := typ a false c s1 in
      say s2 (match m with
              | MText => (if sup then tx "\^" else tx "\_") ++ o1 ++ o2
              | MMath => (if based then [] else tx "zws") ++ (if sup then tx "^(" else tx "_(") ++ o1 ++ o2 ++ tx ")"
              end)
    | ICmd name l =>
      if teqb name (tx "item") then
        match e with
        | EItemize => say now (10 :: spaces (x_ind c - 2) ++ tx "- ")
        | EEnumerate => say now (10 :: spaces (x_ind c - 2) ++ tx "+ ")
        | _ => CErr EItem
        end
      else if teqb name (tx "label") then
        let t := match l with (_, a) :: _ => trim (inner a) | [] => [] end in
        match e with
        | ENone | EItemize | EEnumerate => say now (match m with MText => tx "<" ++ t ++ tx ">" | MMath => [] end)
        | _ => say (false, Some t) []
        end
      else if teqb name (tx "includegraphics") then
        say now (match l with
                 | [(_, a)] => picture_out None (inner a)
                 | (_, o) :: (_, a) :: _ => picture_out (Some (inner o)) (inner a)
                 | [] => []
                 end)
      else if teqb name (tx "textcolor") || teqb name (tx "colorbox") then
        let whole d : den := fun c s => d c (fresh s) in
        match l with
        | (_, IBracket t) :: r =>
          color_out name (Some (flat_map stext t)) (option_map whole (hd_error (args r))) (map whole (tl (args r))) c now
        | _ => color_out name None (option_map whole (hd_error (args l))) (map whole (tl (args l))) c now
        end
      else command_out name (args l) c s
    | IPost name => command_out name [] c s (* only as part of a piece *)
    | IGreedy name body =>
      if teqb name (tx "color") then color_rest_out (parts body) c now else greedy_out name (parts body) c s
    | IInfix l1 name l2 => command_out name [list_den (parts l1); list_den (parts l2)] c s
    | ICode typst ts => say now (if typst then flat_map snd ts else [])
    | ILR g1 d1 body g2 d2 =>
      let! (s1, o1) := gap_out c (tx " ") g1 now in
      let! (s2, o2) := delim_out c d1 s1 in
      let! (s3, o3) := list_den (parts body) c s2 in
      let! (s4, o4) := gap_out c (tx " ") g2 (fresh s3) in
      let! (s5, o5) := delim_out c d2 s4 in
      say s5 (tx "lr(" ++ o1 ++ o2 ++ o3 ++ o4 ++ o5 ++ tx ")")
    | IEnv name l body _ =>
      match get_env sp name with
      | None => CErr (EUnknownEnv name)
      | Some shape =>
        let tn := match en_alias shape with Some a => a | None => name end in
        match en_feature shape with
        | FItemize => list_den (parts body) (Ctx m EItemize (x_ind c + 2)) now
        | FEnumerate => list_den (parts body) (Ctx m EEnumerate (x_ind c + 2)) now
        | FNone => with_label m (around (tx "#" ++ tn ++ tx "[") (list_den (parts body)) (tx "];") (Ctx m ENone (x_ind c)) now)
        | FMath | FMatrix | FCases =>
          let k := match en_feature shape with FMatrix => EMatrix | FCases => ECases | _ => EMath end in
          with_label m
            (around ((match m with MText => tx "$ " | MMath => [] end) ++ tn ++ tx "(")
               (seqd (args_out (fun n _ => tx "arg" ++ dec (N.of_nat n) ++ tx ": ") (fun _ _ => tx ",") 0 (args l)) (list_den (parts body)))
               (tx ")" ++ match m with MText => tx " $" | MMath => [] end) (Ctx MMath k (x_ind c)) now)
        | FFigure =>
          with_label m (figure_out tn (parts body) (Ctx m EFigure (x_ind c)) now)
        | FTable =>
          with_label m (table_out tn (match l with (_, a) :: _ => trim (inner a) | [] => [] end) (parts body) (Ctx m ETable (x_ind c)) now)
        end
      end
    | IFormula k body =>
      let! (s1, o) := list_den (parts body) (Ctx MMath e (x_ind c)) now in
      say (fresh s1) (match m with
                      | MMath => o
                      | MText => match k with
                                 | FInline | FParen => tx "#math.equation(block: false, $" ++ o ++ tx "$);"
                                 | FDisplay | FSquare => tx "$ " ++ o ++ tx " $"
                                 end
                      end)
    end.

  Definition arg_dens (i : item) : list den :=
    match i with ICmd _ l => map (fun p : list space * item => let (_, a) := p in typ a false) l | _ => [] end.
  Definition elem (i : item) : el := El i (typ i) (arg_dens i).
  Definition parts (l : list item) : list piece := pieces (map elem l).
  Definition translation (m : mode) (l : list item) : cres text :=
    let! (_, o) := list_den (parts l) (Ctx m ENone 0) (false, None) in COk o.

  (** ** Well-formed documents *)
  (** directly inside of [$ ... $] no dollar, inside of a bracket argument no
      closing bracket; what ends the range of [\over] or [\displaystyle] *)
  Inductive place := Free | InEnv | InDollar | InBracket.
  Definition separator (pl : place) (i : item) : bool :=
    match i with
    | IMark c => c =? 38
    | INewline => match pl with InEnv => true | _ => false end
    | _ => false
    end.
  Variable gm : text -> text -> bool.   (* glob matching of argument kinds *)
  Definition arg_kind (a : item) : char := match a with IBracket _ => 98 | _ => 116 end.
  Definition arg_kinds (l : list (list space * item)) : text := map (fun p => arg_kind (snd p)) l.
  (** the arguments fit the pattern, and no further one would -- except, with
      [more_fits], one in brackets *)
  Definition fits (p : arg_pattern) (kinds : text) : bool :=
    match p with
    | PNone => teqb kinds []
    | PFixed n | PRange _ n => teqb kinds (repeat 116 (N.to_nat n))
    | PGreedy => false
    | PGlob re =>
      forallb (fun n => gm re (firstn (S n) kinds)) (seq 0 (List.length kinds)) &&
      forallb (fun c => negb (gm re (kinds ++ [c]))) (tx "tp")
    end.
  Definition more_fits (p : arg_pattern) (kinds : text) : bool :=
    match p with PGlob re => gm re (kinds ++ tx "b") | _ => false end.
  (** an opening bracket, perhaps after white space *)
  Fixpoint opens (l : list item) : bool :=
    match l with ISpace _ :: r => opens r | IMark c :: _ => c =? 91 | _ => false end.
  Definition among (name : text) (names : list text) : bool := existsb (teqb name) names.
  (** commands that are translated in a way of their own *)
  Definition own_way : list text :=
    [tx "item"; tx "label"; tx "includegraphics"; tx "color"; tx "textcolor"; tx "colorbox";
     tx "caption"; tx "centering"; tx "hline"; tx "toprule"; tx "midrule"; tx "bottomrule"].
  Definition no_args (name : text) : bool :=
    match option_map cs_args (get_cmd sp name) with
    | None | Some (SRight PNone) | Some (SRight (PFixed 0)) => true
    | _ => false
    end.
  Definition bare_command (name : text) : bool :=
    negb (among name [tx "includegraphics"; tx "color"; tx "textcolor"; tx "colorbox"; tx "label"; tx "caption"]) && no_args name.
  Definition is_char (c : char) : bool := existsb (N.eqb c) (map fst mark_tokens).
  Definition wf_delim (d : delim) : bool := match d with DMark c => is_char c | _ => true end.
  (** the [\fi]s belong to the [\if]s *)
  Fixpoint balanced (n : nat) (ts : list tok) : bool :=
    match ts with
    | [] => match n with O => true | S _ => false end
    | (CommandName (CIf _), _) :: r => balanced (S n) r
    | (CommandName CEndIf, _) :: r => match n with O => false | S n => balanced n r end
    | _ :: r => balanced n r
    end.
  (** the environment looks for arguments *)
  Definition env_args (name : text) : bool :=
    match option_map en_args (get_env sp name) with None | Some PNone | Some (PFixed 0) => false | _ => true end.
  (** a bracket after it would be taken as its argument *)
  Definition takes_bracket (i : item) : bool :=
    match i with
    | ICmd name l => match option_map cs_args (get_cmd sp name) with Some (SRight p) => more_fits p (arg_kinds l) | _ => false end
    | _ => false
    end.
  Section Lists.
    Variable W : item -> bool.
    Variables (pl : place) (greedy : bool).
    (** [greedy]: in the range of a command that takes the rest; [first]: nothing
        precedes; [based]: there is something to attach to *)
    Fixpoint wf_list (first based : bool) (l : list item) : bool :=
      match l with
      | [] => true
      | i :: r =>
        W i
        && match i with IInfix _ _ _ => first | IPost _ => based | _ => true end
        && (negb (closes i) || match r with j :: _ => separator pl j | [] => true end)
        && negb (greedy && separator pl i)
        && negb (takes_bracket i && opens r)
        && wf_list false (carries i || (based && negb (closes i))) r
      end.
  End Lists.
  Fixpoint wf (pl : place) (greedy : bool) (i : item) : bool :=
    let sub pl := wf_list (wf pl false) pl false true false in
    let arg (a : item) : bool :=
      match a with
      | IWord w => match w with [_] => true | _ => false end
      | IGroup l => sub Free l
      | IBracket l => sub InBracket l
      | ICmd name [] => bare_command name
      | _ => false
      end in
    match i with
    | IWord w => match w with [] => false | _ => true end
    | ISpace _ | IPrime | INewline => true
    | IMark c => is_char c && match pl with InBracket => negb (c =? 93) | _ => true end
    | IGroup l => sub Free l
    | IBracket _ => false
    | IScript _ _ a => arg a && match a with IBracket _ => false | _ => true end
    | ICmd name l =>
      forallb (fun p : list space * item => let (_, a) := p in arg a) l &&
      match option_map cs_args (get_cmd sp name) with
      | None => match l with [] => true | _ => false end
      | Some (SRight p) => fits p (arg_kinds l)
      | _ => false
      end &&
      (if teqb name (tx "item") then match l with [] => true | _ => false end
       else if teqb name (tx "label") then match l with [(_, IGroup _)] => true | _ => false end
       else if teqb name (tx "includegraphics") then match l with [(_, IGroup _)] | [(_, IBracket _); (_, IGroup _)] => true | _ => false end
       else if teqb name (tx "caption") then match l with [] => false | _ => true end
       else negb (teqb name (tx "color")))
    | IPost name =>
      negb (among name own_way) && match option_map cs_args (get_cmd sp name) with Some SLeft1 => true | _ => false end
    | IGreedy name body =>
      (teqb name (tx "color") || negb (among name own_way)) &&
      match option_map cs_args (get_cmd sp name) with Some (SRight PGreedy) => true | _ => false end &&
      wf_list (wf pl true) pl true true false body
    | IInfix l1 name l2 =>
      negb (among name own_way) && match option_map cs_args (get_cmd sp name) with Some SInfixGreedy => true | _ => false end &&
      wf_list (wf pl greedy) pl greedy false false l1 && forallb (fun i => negb (closes i)) l1 &&
      wf_list (wf pl true) pl true true false l2
    | ICode _ ts => balanced 0 ts
    | ILR _ d1 body _ d2 => wf_delim d1 && wf_delim d2 && sub Free body
    | IEnv name l body _ =>
      teqb (trim name) name && forallb (fun p : list space * item => let (_, a) := p in arg a) l &&
      wf_list (wf InEnv false) InEnv false (negb (env_args name)) false body &&
      match get_env sp name with
      | None => match l with [] => true | _ => false end
      | Some shape =>
        fits (en_args shape) (arg_kinds l) && negb (more_fits (en_args shape) (arg_kinds l) && opens body) &&
        match en_feature shape with FTable => match l with (_, IGroup _) :: _ => true | _ => false end | _ => true end
      end
    | IFormula k body =>
      match k with
      | FInline | FDisplay => match pl with InDollar => false | _ => sub InDollar body end
      | FParen | FSquare => sub Free body
      end
    end.
  Definition wf_document (l : list item) : bool := wf_list (wf Free false) Free false true false l.
End Translation.
