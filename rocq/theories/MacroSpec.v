(** Vocabulary for the properties of macro expansion (C08-C20).  Nothing here
    refers to how the engine works; only [expand_stream] (what a caller of the
    expanding lexer reads) is used. *)
From Verif Require Export Macro.
Local Open Scope N_scope.

(** A token sequence as the input of the expanding lexer *)
Definition feed (toks : list tok) : lstream := push_front toks SNil.

(** Reading everything from the expanding lexer on [toks] answers [r]: the
    tokens delivered ([Ok]), or a panic; a reading that never ends has no
    answer. *)
Definition answers (page : nat) (e : engine) (toks : list tok) (r : res (list tok)) : Prop :=
  r <> Fuel /\ exists f0, forall f, (f0 <= f)%nat -> expand_stream f page e (feed toks) = r.

(** For whoever reads the expanding lexer, having [toks] ahead in engine state
    [e] is the same as receiving [out] and then having [toks'] ahead in state
    [e']. *)
Definition map_ok {A B} (f : A -> B) (r : res A) : res B :=
  match r with Ok a => Ok (f a) | Panic s => Panic s | Fuel => Fuel end.
Definition becomes (e : engine) (toks out : list tok) (e' : engine) (toks' : list tok) : Prop :=
  forall page r, (2 <= page)%nat ->
    (answers page e toks r <-> exists r', answers page e' toks' r' /\ r = map_ok (app out) r').

(** ** Token sequences *)
Definition cmd (name : text) : tok := (CommandName Generic, 92 :: name).
Definition begin_ (name : text) : tok := (CommandName BeginEnvironment, name).
Definition end_ (name : text) : tok := (CommandName EndEnvironment, name).
Definition lbrace : tok := (TLeft Curly, tx "{").
Definition rbrace : tok := (TRight Curly, tx "}").
Definition lbracket : tok := (TLeft Bracket, tx "[").
Definition rbracket : tok := (TRight Bracket, tx "]").

Definition is_curly (t : tok) : Prop := fst t = TLeft Curly \/ fst t = TRight Curly.
(** well-nested curly braces *)
Inductive group : list tok -> Prop :=
| g_nil : group []
| g_tok t l : ~ is_curly t -> group l -> group (t :: l)
| g_brace x a y b : fst x = TLeft Curly -> fst y = TRight Curly -> group a -> group b ->
    group (x :: a ++ y :: b).
(** the same, with no [ ] ] outside the braces *)
Inductive optional_group : list tok -> Prop :=
| o_nil : optional_group []
| o_tok t l : ~ is_curly t -> fst t <> TRight Bracket -> optional_group l -> optional_group (t :: l)
| o_brace x a y b : fst x = TLeft Curly -> fst y = TRight Curly -> group a -> optional_group b ->
    optional_group (x :: a ++ y :: b).
Definition trivia (l : list tok) : Prop := Forall (fun t => is_trivia (fst t) = true) l.
(** begin/end delimiters nest (their names are not compared) *)
Inductive nested_envs : list tok -> Prop :=
| n_nil : nested_envs []
| n_tok t l : fst t <> CommandName BeginEnvironment -> fst t <> CommandName EndEnvironment ->
    nested_envs l -> nested_envs (t :: l)
| n_env x a y b : fst x = CommandName BeginEnvironment -> fst y = CommandName EndEnvironment ->
    nested_envs a -> nested_envs b -> nested_envs (x :: a ++ y :: b).

(** ** What is bound *)
(** a token the engine has nothing to do with: not a conditional, not a command
    bound to a command macro or a definition command, not the beginning of a
    macro environment *)
Definition inert (e : engine) (t : tok) : Prop :=
  match fst t with
  | CommandName (CIf _) | CommandName CElse | CommandName CEndIf => False
  | CommandName Generic => exists name, t = cmd name /\
      match get_macro name e with
      | Some (MCmd _) | Some (MDeclare (CmdOrEnv _)) => False
      | _ => True
      end
  | CommandName BeginEnvironment =>
      match get_macro (snd t) e with Some (MEnv _) => False | _ => True end
  | _ => True
  end.

(** ** Parameter markers in a body (C14) *)
Definition parameter_digit (c : char) : Prop := 49 <= c <= 57.
Definition word_or_nothing (w : text) : list tok := match w with [] => [] | _ => [(Word, w)] end.
(** the word starts with a digit 1..9 *)
Definition digit_word (t : tok) : Prop := exists c w, t = (Word, c :: w) /\ parameter_digit c.
Inductive marked : list tok -> list tok -> Prop :=
| m_nil : marked [] []
| m_param h c w r r' : parameter_digit c -> marked r r' ->
    marked ((Hash, h) :: (Word, c :: w) :: r) ((MacroArg (c - 48), h) :: word_or_nothing w ++ r')
| m_hash h t r r' : ~ digit_word t -> marked (t :: r) r' ->
    marked ((Hash, h) :: t :: r) ((Hash, h) :: r')
| m_tok t r r' : fst t <> Hash -> marked r r' -> marked (t :: r) (t :: r').

(** ** Substitution (C11) *)
Definition subst (args : list (list tok)) (body : list tok) : list tok :=
  flat_map (fun t => match fst t with
                     | MacroArg i => nth (N.to_nat (i - 1)) args []
                     | _ => [t]
                     end) body.
(** the arguments of a call as written: each a braced group or a single token
    that is no brace, no blank and no word; blanks may precede each.  The last
    ones may be the leading characters of a word, the rest of which is left
    over (third index). *)
Inductive call_args : list tok -> list (list tok) -> list tok -> Prop :=
| ca_nil : call_args [] [] []
| ca_word w c cs v : trivia w ->
    call_args (w ++ [(Word, (c :: cs) ++ v)]) (map (fun c => [(Word, [c])]) (c :: cs)) (word_or_nothing v)
| ca_braced w x a y l args lo : trivia w -> fst x = TLeft Curly -> fst y = TRight Curly -> group a ->
    call_args l args lo -> call_args (w ++ x :: a ++ y :: l) (a :: args) lo
| ca_single w t l args lo : trivia w -> is_trivia (fst t) = false -> fst t <> TLeft Curly -> fst t <> Word ->
    call_args l args lo -> call_args (w ++ t :: l) ([t] :: args) lo.

(** ** Definitions (C10) *)
(** the optional [ [n] ] and [ [n][default] ] *)
Inductive parameters : list tok -> N -> option (list tok) -> Prop :=
| p_none : parameters [] 0 None
| p_count x w1 c w2 y : fst x = TLeft Bracket -> trivia w1 -> 48 <= c <= 57 -> trivia w2 ->
    fst y = TRight Bracket -> parameters (x :: w1 ++ (Word, [c]) :: w2 ++ [y]) (c - 48) None
| p_default x w1 c w2 y x' o y' : fst x = TLeft Bracket -> trivia w1 -> 48 <= c <= 57 -> trivia w2 ->
    fst y = TRight Bracket -> fst x' = TLeft Bracket -> optional_group o -> fst y' = TRight Bracket ->
    parameters (x :: w1 ++ (Word, [c]) :: w2 ++ [y] ++ x' :: o ++ [y']) (c - 48) (Some o).
(** [{\name}] parameters [{body}], after the defining command *)
Inductive command_def : list tok -> text -> N -> option (list tok) -> list tok -> Prop :=
| cd w1 x w2 t k name w3 y ps n o x' body y' :
    trivia w1 -> fst x = TLeft Curly -> trivia w2 -> t = (CommandName k, 92 :: name) -> trivia w3 ->
    fst y = TRight Curly -> parameters ps n o -> fst x' = TLeft Curly -> group body -> fst y' = TRight Curly ->
    command_def (w1 ++ x :: w2 ++ t :: w3 ++ y :: ps ++ x' :: body ++ [y']) name n o body.
(** [{name}] parameters [{begin}{end}], after the defining command *)
Inductive environment_def : list tok -> text -> N -> option (list tok) -> list tok -> list tok -> Prop :=
| ed w1 x w2 name w3 y ps n o x' b y' x2 d y2 :
    trivia w1 -> fst x = TLeft Curly -> trivia w2 -> trivia w3 ->
    fst y = TRight Curly -> parameters ps n o -> fst x' = TLeft Curly -> group b -> fst y' = TRight Curly ->
    fst x2 = TLeft Curly -> group d -> fst y2 = TRight Curly ->
    environment_def (w1 ++ x :: w2 ++ (Word, name) :: w3 ++ y :: ps ++ x' :: b ++ y' :: x2 :: d ++ [y2])
      name n o b d.
(** the defining commands *)
Inductive defining := New | Renew | Provide.
Definition command_definers : list (string * defining) :=
  [ ("newcommand", New); ("newcommand*", New); ("renewcommand", Renew); ("renewcommand*", Renew);
    ("providecommand", Provide); ("providecommand*", Provide);
    ("DeclareRobustCommand", New); ("DeclareRobustCommand*", New) ]%string.
Definition environment_definers : list (string * defining) :=
  [ ("newenvironment", New); ("newenvironment*", New);
    ("renewenvironment", Renew); ("renewenvironment*", Renew) ]%string.
(** the command keeps its initial meaning *)
Definition not_redefined (e : engine) (name : text) : Prop := get_macro name e = get_macro name engine_new.
(** the table of [e'] is that of [e] with [name] bound to [m]; the open
    conditionals are the same *)
Definition binds (name : text) (m : macro) (e e' : engine) : Prop :=
  get_macro name e' = Some m /\ (forall other, other <> name -> get_macro other e' = get_macro other e) /\
  en_ifs e' = en_ifs e.
(** effect of defining [name] as [m]: new state and reported errors *)
Definition defines (how : defining) (name : text) (m : macro) (e e' : engine) (errors : list tok) : Prop :=
  match how, get_macro name e with
  | New, None => binds name m e e' /\ errors = []
  | New, Some _ => binds name m e e' /\ errors = [(TError, name)]
  | Renew, Some _ => binds name m e e' /\ errors = []
  | Renew, None => binds name m e e' /\ errors = [(TError, name)]
  | Provide, None => binds name m e e' /\ errors = []
  | Provide, Some _ => e' = e /\ errors = []
  end.

(** ** Conditionals (C15, C16) *)
Definition if_ (i : ifname) (t : tok) : Prop := fst t = CommandName (CIf i).
Definition else_ (t : tok) : Prop := fst t = CommandName CElse.
Definition fi_ (t : tok) : Prop := fst t = CommandName CEndIf.
Definition fi_tok : tok := (CommandName CEndIf, tx "\fi").
Definition conditional (t : tok) : Prop := (exists i, if_ i t) \/ else_ t \/ fi_ t.
(** a branch that is skipped: complete nested conditionals without [\else] *)
Inductive skippable : list tok -> Prop :=
| s_nil : skippable []
| s_tok t l : ~ conditional t -> skippable l -> skippable (t :: l)
| s_if i x a y b : if_ i x -> fi_ y -> skippable a -> skippable b -> skippable (x :: a ++ y :: b).
(** what a text with complete conditionals stands for *)
Definition literal (i : ifname) : bool :=
  match i with IfTrue | IfFalse | IfTypst => true | _ => false end.
Inductive selects (e : engine) : list tok -> list tok -> Prop :=
| v_nil : selects e [] []
| v_tok t l l' : inert e t -> selects e l l' -> selects e (t :: l) (t :: l')
| v_true x a a' z r r' : if_ IfTrue x -> fi_ z -> selects e a a' -> selects e r r' ->
    selects e (x :: a ++ z :: r) (a' ++ r')
| v_true_else x a a' y b z r r' : if_ IfTrue x -> else_ y -> fi_ z -> selects e a a' -> skippable b ->
    selects e r r' -> selects e (x :: a ++ y :: b ++ z :: r) (a' ++ r')
| v_false x a a' z r r' : if_ IfFalse x -> fi_ z -> selects e a a' -> selects e r r' ->
    selects e (x :: a ++ z :: r) (x :: a' ++ z :: r')
| v_false_else x a a' y b b' z r r' : if_ IfFalse x -> else_ y -> fi_ z -> selects e a a' -> selects e b b' ->
    selects e r r' -> selects e (x :: a ++ y :: b ++ z :: r) (x :: a' ++ fi_tok :: b' ++ r')
| v_typst x a a' z r r' : if_ IfTypst x -> fi_ z -> selects e a a' -> selects e r r' ->
    selects e (x :: a ++ z :: r) (x :: a' ++ z :: r')
| v_typst_else x a a' y b z r r' : if_ IfTypst x -> else_ y -> fi_ z -> selects e a a' -> skippable b ->
    selects e r r' -> selects e (x :: a ++ y :: b ++ z :: r) (x :: a' ++ z :: r')
| v_other i x a a' z r r' : if_ i x -> literal i = false -> fi_ z -> selects e a a' -> selects e r r' ->
    selects e (x :: a ++ z :: r) (x :: a' ++ z :: r')
| v_other_else i x a a' y b b' z r r' : if_ i x -> literal i = false -> else_ y -> fi_ z ->
    selects e a a' -> selects e b b' -> selects e r r' ->
    selects e (x :: a ++ y :: b ++ z :: r) (x :: a' ++ y :: b' ++ z :: r').

(** ** Normal form (C20), termination (C17) *)
(** a token the engine would replace *)
Definition expandable (e : engine) (t : tok) : Prop :=
  (exists name c, t = cmd name /\ get_macro name e = Some (MCmd c)) \/
  (exists name v, t = begin_ name /\ get_macro name e = Some (MEnv v)).
(** a definition command *)
Definition definer (e : engine) (t : tok) : Prop :=
  exists name d, t = cmd name /\ get_macro name e = Some (MDeclare (CmdOrEnv d)).
(** the code a macro stands for *)
Definition code (m : macro) : list tok :=
  match m with
  | MDeclare _ => []
  | MCmd c => cm_def c ++ match cm_opt c with Some o => o | None => [] end
  | MEnv v => em_begin v ++ em_end v ++ match em_opt v with Some o => o | None => [] end
  end.
(** what a definition command could have stored, given token sequences the lexer
    delivers *)
Definition plausible (t : tok) : Prop :=
  match fst t with
  | MacroArg n => 0 < n
  | CommandName BeginEnvironment | CommandName EndEnvironment => True
  | CommandName _ => exists name, snd t = 92 :: name
  | _ => True
  end.
Definition stored (e : engine) (Q : tok -> Prop) : Prop :=
  forall name m, get_macro name e = Some m -> Forall Q (code m).

(** the macro a token calls *)
Definition called (e : engine) (t : tok) : option macro :=
  match t with
  | (CommandName Generic, 92 :: name) =>
      match get_macro name e with Some (MCmd c) => Some (MCmd c) | _ => None end
  | (CommandName BeginEnvironment, name) =>
      match get_macro name e with Some (MEnv v) => Some (MEnv v) | _ => None end
  | _ => None
  end.
(** no macro leads back to itself through the code it stands for *)
Definition acyclic (e : engine) : Prop :=
  exists rank : tok -> nat, forall t m u, called e t = Some m -> In u (code m) -> called e u <> None ->
    (rank u < rank t)%nat.
(** every macro uses each parameter at most once *)
Definition parameters_of (l : list tok) : list N :=
  flat_map (fun t => match fst t with MacroArg i => [i] | _ => [] end) l.
Definition linear (e : engine) : Prop :=
  forall t m, called e t = Some m ->
    match m with
    | MCmd c => NoDup (parameters_of (cm_def c))
    | MEnv v => NoDup (parameters_of (em_begin v ++ em_end v))
    | _ => True
    end.
