(** Specification for C55: how delimiters pair up, in correct and in broken
    sources.  It says nothing about how the parser works: a construct is read up
    to the first token that ends it, and that token belongs to it if it is its
    own closing delimiter and to an enclosing construct otherwise. *)
From Verif Require Export Syntax Spec.

(** ** Constructs, and the tokens that end them *)
Inductive construct :=
| Group        (* {...} *)
| Dollars      (* $...$ *)
| Math         (* \(...\) *)
| Env          (* \begin{x}...\end{x} *)
| Pair.        (* \left(...\right) *)
(** the own closing delimiter *)
Definition closes (c : construct) (t : token) : Prop :=
  match c with
  | Group => t = TRight Curly
  | Dollars => t = Dollar
  | Math => t = CommandName EndMath
  | Env => t = CommandName EndEnvironment
  | Pair => t = CommandName CRight
  end.
(** A closing brace ends everything, [\end] everything but a group, [\right]
    formulas and left-right pairs. *)
Definition ends (c : construct) (t : token) : Prop :=
  closes c t \/ t = TRight Curly \/
  (t = CommandName EndEnvironment /\ c <> Group) \/
  (t = CommandName CRight /\ (c = Dollars \/ c = Math \/ c = Pair)).
(** nothing ends the document *)
Definition ends_in (o : option construct) (t : token) : Prop :=
  match o with None => False | Some c => ends c t end.

(** ** Tokens *)
Definition lf (t : tok) : tree := Leaf (kind_of_token (fst t)) (snd t).
Definition blank_token (t : tok) : Prop := In (fst t) [LineBreak; Whitespace; LineComment].
Definition text_token (t : tok) : Prop := In (fst t) [LineBreak; Whitespace; LineComment; Word; Comma].
Definition heads (P : tok -> Prop) (ts : list tok) : Prop := match ts with [] => False | t :: _ => P t end.
(** tokens that stand for themselves *)
Definition mark (t : token) : Prop :=
  In t [LineBreak; Whitespace; LineComment; TLeft Bracket; TLeft Paren; TRight Bracket; TRight Paren;
        Tilde; Slash; Ampersand; Ditto; Semicolon; Hash; Asterisk; AtSign; NewLine; TError;
        CommandName ErrorBeginEnvironment; CommandName ErrorEndEnvironment].
(** tokens that are an error where they end nothing *)
Definition misplaced (t : token) : Prop :=
  In t [TRight Curly; CommandName EndEnvironment; CommandName EndMath] \/ exists n, t = MacroArg n.
(** commands (and, where it ends nothing, [\right]) *)
Definition control (t : token) : Prop := t = CommandName Generic \/ t = CommandName CRight.
(** the three kinds of bracketed constructs *)
Definition opens_with (c : construct) (t : token) (k : kind) : Prop :=
  In (c, t, k) [(Group, TLeft Curly, ItemCurly); (Dollars, Dollar, ItemFormula);
                (Math, CommandName BeginMath, ItemFormula)].

(** ** Delimiters of [\left] and [\right] *)
(** what is not taken as a delimiter: control words of other kinds, dollars *)
Definition no_delimiter (t : tok) : Prop := fst t = Dollar \/ exists c, fst t = CommandName c /\ c <> Generic.
(** [delimiter ts x r]: of [ts], the clause takes [x] *)
Inductive delimiter : list tok -> list tree -> list tok -> Prop :=
| d_end : delimiter [] [] []
| d_none t r : no_delimiter t -> delimiter (t :: r) [] (t :: r)
| d_command s r : delimiter ((CommandName Generic, s) :: r) [Leaf TokenCommandSym s] r
(* the first character of a word *)
| d_char c r : delimiter ((Word, [c]) :: r) [Leaf TokenWord [c]] r
| d_chars c d s r : delimiter ((Word, c :: d :: s) :: r) [Leaf TokenWord [c]] ((Word, d :: s) :: r)
| d_other t r : ~ no_delimiter t -> fst t <> CommandName Generic -> fst t <> Word -> ~ blank_token t ->
    delimiter (t :: r) [lf t] r.
Inductive clause (t : tok) : list tok -> tree -> list tok -> Prop :=
| clause_ bs r x r' : Forall blank_token bs -> ~ heads blank_token r -> delimiter r x r' ->
    clause t (bs ++ r) (Node ClauseLR (lf t :: map lf bs ++ x)) r'.

(** ** Contents *)
(** [content o ts xs r]: in the construct [o], the tokens [ts] are the elements
    [xs]; the reading ends before [r] *)
Inductive content : option construct -> list tok -> list tree -> list tok -> Prop :=
| c_eof o : content o [] [] []
| c_end o t r : ends_in o (fst t) -> content o (t :: r) [] (t :: r)
| c_cons o t r x r' xs r'' : ~ ends_in o (fst t) -> element t r x r' -> content o r' xs r'' ->
    content o (t :: r) (x :: xs) r''
(** [element t ts x r]: [t] and the tokens of [ts] before [r] are the element [x] *)
with element : tok -> list tok -> tree -> list tok -> Prop :=
| e_mark t r : mark (fst t) -> element t r (lf t) r
| e_error t r : misplaced (fst t) -> element t r (Node TokenError [lf t]) r
| e_command t r : control (fst t) -> element t r (Node ItemCmd [lf t]) r
| e_text t ts r : In (fst t) [Word; Comma] -> Forall text_token ts -> ~ heads text_token r ->
    element t (ts ++ r) (Node ItemText (map lf (t :: ts))) r
(* closed by its own delimiter, ... *)
| e_closed c t k r xs t' r' : opens_with c (fst t) k -> content (Some c) r xs (t' :: r') -> closes c (fst t') ->
    element t r (Node k (lf t :: xs ++ [lf t'])) r'
(* ... or left open *)
| e_open c t k r xs r' : opens_with c (fst t) k -> content (Some c) r xs r' -> ~ heads (fun t => closes c (fst t)) r' ->
    element t r (Node k (lf t :: xs)) r'
| e_env t r xs t' r' : fst t = CommandName BeginEnvironment -> content (Some Env) r xs (t' :: r') -> closes Env (fst t') ->
    element t r (Node ItemEnv (Node ItemBegin [lf t] :: xs ++ [Node ItemEnd [lf t']])) r'
| e_env_open t r xs r' : fst t = CommandName BeginEnvironment -> content (Some Env) r xs r' ->
    ~ heads (fun t => closes Env (fst t)) r' ->
    element t r (Node ItemEnv (Node ItemBegin [lf t] :: xs)) r'
| e_pair t r c1 r1 xs t' r2 c2 r' : fst t = CommandName CLeft -> clause t r c1 r1 ->
    content (Some Pair) r1 xs (t' :: r2) -> closes Pair (fst t') -> clause t' r2 c2 r' ->
    element t r (Node ItemLR (c1 :: xs ++ [c2])) r'
| e_pair_open t r c1 r1 xs r' : fst t = CommandName CLeft -> clause t r c1 r1 ->
    content (Some Pair) r1 xs r' -> ~ heads (fun t => closes Pair (fst t)) r' ->
    element t r (Node ItemLR (c1 :: xs)) r'.

(** ** The sources this is about *)
(** commands and environments without arguments *)
Definition argless (sp : spec) (name : text) : Prop :=
  forall c, get_cmd sp name = Some c -> cs_args c = SRight PNone \/ cs_args c = SRight (PFixed 0).
Definition argless_env (sp : spec) (name : text) : Prop :=
  forall e, get_env sp name = Some e -> en_args e = PNone \/ en_args e = PFixed 0.
(** no scripts, primes or conditionals, and no command or environment that
    takes arguments *)
Definition simple_token (sp : spec) (t : tok) : Prop :=
  match fst t with
  | Underscore | Caret | Apostrophe => False
  | CommandName (CIf _) | CommandName CElse | CommandName CEndIf => False
  | CommandName Generic | CommandName CRight => exists name, snd t = 92%N :: name /\ argless sp name
  | CommandName BeginEnvironment => argless_env sp (snd t)
  | Word => snd t <> []
  | _ => True
  end.
