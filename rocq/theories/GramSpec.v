(** Specification for C56: the grammar of the accepted language, for every
    source.  It is a relation between token sequences and trees, written without
    the parser (no parser state, no checkpoints, no lexer, no fuel).

    The only thing a grammar rule needs to know about its surroundings is the
    list being read ([line]): a script, a postfix or an infix command takes what
    stands before it in that list. *)
From Verif Require Export PairSpec.

(** ** Places, and the tokens that end them *)
Inductive place :=
| Top        (* the document *)
| Braces     (* {...} *)
| Brackets   (* [...] as an argument *)
| Parens     (* (...) as an argument *)
| Dollars_   (* $...$ *)
| Math_      (* \(...\) *)
| Body       (* \begin{x}...\end{x} *)
| Sides.     (* \left(...\right) *)
Definition closer (p : place) : option token :=
  match p with
  | Top => None
  | Braces => Some (TRight Curly) | Brackets => Some (TRight Bracket) | Parens => Some (TRight Paren)
  | Dollars_ => Some Dollar | Math_ => Some (CommandName EndMath)
  | Body => Some (CommandName EndEnvironment) | Sides => Some (CommandName CRight)
  end.
(** Nothing ends the document.  A closing brace ends everything else, [\end]
    everything but a group, [\right] everything but groups and environments. *)
Definition over (p : place) (t : token) : Prop :=
  p <> Top /\
  (closer p = Some t \/ t = TRight Curly \/
   (t = CommandName EndEnvironment /\ p <> Braces) \/
   (t = CommandName CRight /\ p <> Braces /\ p <> Body)).
(** An argument that takes all the rest also ends at a column mark, and at a row
    end directly in an environment. *)
Definition stops_rest (p : place) (t : token) : Prop :=
  over p t \/ t = Ampersand \/ (t = NewLine /\ p = Body).
Definition stopped (p : place) (rest : bool) (t : token) : Prop :=
  if rest then stops_rest p t else over p t.
(** the constructs between two delimiters *)
Definition brackets (p : place) (t : token) (k : kind) : Prop :=
  In (p, t, k) [(Braces, TLeft Curly, ItemCurly); (Brackets, TLeft Bracket, ItemBracket); (Parens, TLeft Paren, ItemParen);
                (Dollars_, Dollar, ItemFormula); (Math_, CommandName BeginMath, ItemFormula)].

(** ** Lists being read *)
(** [from]: can an infix command reach the start of the list?  [Gone]: an
    earlier one has taken it; [Beyond]: the start lies outside of the script
    being read. *)
Inductive reach := Start | Gone | Beyond.
(** what was read so far: first the elements that cannot be attached to any
    more, then (if there is one) the base and what followed it *)
Record line := mk_line { before : list tree; base : option (list tree); from : reach }.
Definition based (b : option (list tree)) : list tree := match b with Some ys => ys | None => [] end.
Definition all (l : line) : list tree := before l ++ based (base l).
Definition fresh (r : reach) : line := mk_line [] None r.
(** add elements that are no base *)
Definition add (xs : list tree) (l : line) : line :=
  match base l with
  | None => mk_line (before l ++ xs) None (from l)
  | Some ys => mk_line (before l) (Some (ys ++ xs)) (from l)
  end.
(** from now on nothing is a base *)
Definition baseless (l : line) : line := mk_line (all l) None (from l).
Definition as_argument (xs : list tree) : tree := Node ClauseArgument xs.

(** ** Tokens *)
(** tokens that stand for themselves; scripts can be attached to the first kind only *)
Definition mark_base (t : token) : Prop :=
  In t [TLeft Bracket; TLeft Paren; TRight Bracket; TRight Paren; Tilde; Slash; Ditto; Semicolon;
        CommandName ErrorBeginEnvironment; CommandName ErrorEndEnvironment].
Definition mark_plain (t : token) : Prop :=
  In t [Ampersand; NewLine; LineBreak; Whitespace; LineComment; Hash; Asterisk; AtSign; TError].
(** tokens that are an error where they end nothing *)
Definition stray (t : token) : Prop :=
  In t [TRight Curly; CommandName EndEnvironment; CommandName EndMath] \/ exists n, t = MacroArg n.
(** control words that are commands *)
Definition named (t : token) : Prop :=
  In t [CommandName Generic; CommandName CRight; CommandName CElse; CommandName CEndIf] \/
  exists i, t = CommandName (CIf i) /\ i <> IfFalse /\ i <> IfTypst.
Definition script_mark (t : token) : Prop := t = Underscore \/ t = Caret.

(** ** Skipped conditionals: flat up to the matching [\fi] *)
Inductive skipped : nat -> list tok -> list tree -> list tok -> Prop :=
| k_eof n : skipped n [] [] []
| k_if n i s r xs r' : skipped (S n) r xs r' -> skipped n ((CommandName (CIf i), s) :: r) (lf (CommandName (CIf i), s) :: xs) r'
| k_fi n s r xs r' : skipped n r xs r' -> skipped (S n) ((CommandName CEndIf, s) :: r) (lf (CommandName CEndIf, s) :: xs) r'
| k_end s r : skipped 0 ((CommandName CEndIf, s) :: r) [] r
| k_other n t r xs r' : (forall i, fst t <> CommandName (CIf i)) -> fst t <> CommandName CEndIf -> skipped n r xs r' ->
    skipped n (t :: r) (lf t :: xs) r'.

(** ** Ends of environments and pairs *)
Inductive env_end : list tok -> list tree -> list tok -> Prop :=
| ee_closed s r : env_end ((CommandName EndEnvironment, s) :: r) [Node ItemEnd [lf (CommandName EndEnvironment, s)]] r
| ee_open r : ~ heads (fun t => fst t = CommandName EndEnvironment) r -> env_end r [] r.
Inductive right_side : list tok -> list tree -> list tok -> Prop :=
| rs_closed s r c r' : clause (CommandName CRight, s) r c r' -> right_side ((CommandName CRight, s) :: r) [c] r'
| rs_open r : ~ heads (fun t => fst t = CommandName CRight) r -> right_side r [] r.

(** ** Scripts *)
(** the list inside of a script, after its mark [t] and the blanks [bs] *)
Definition inside (l : line) (t : tok) (bs : list tok) : line :=
  let reach := match from l, before l with Start, [] => Start | Start, _ :: _ => Beyond | w, _ => w end in
  match base l with
  | Some ys => mk_line [] (Some (as_argument ys :: lf t :: map lf bs)) reach
  | None => mk_line (lf t :: map lf bs) None reach
  end.
(** the list with the script, of which [i] is the inside *)
Definition outside (l i : line) : line :=
  let node := Node ItemAttachComponent (all i) in
  let reach := match from i with Gone => Gone | _ => from l end in
  match base i with
  | Some _ => mk_line (before l) (Some [node]) reach
  | None => mk_line (before l ++ [node]) None reach
  end.

Section Grammar.
(** whether a sequence of argument letters matches the beginning of a glob *)
Variable matches : text -> text -> bool.
Variable sp : spec.

(** ** Arguments *)
(** the letter of an argument that begins with [t]; only globs tell brackets
    from other arguments *)
Definition letter (p : arg_pattern) (t : token) : char :=
  match p, t with
  | PGlob _, TLeft Bracket => 98    (* b *)
  | PGlob _, TLeft Paren => 112     (* p *)
  | _, _ => 116                     (* t *)
  end%N.
(** with the arguments [w] read, the pattern [p] takes one more with letter [c] *)
Definition takes (p : arg_pattern) (w : text) (c : char) : Prop :=
  match p with
  | PNone | PGreedy => False
  | PFixed n | PRange _ n => (N.of_nat (List.length w) < n)%N
  | PGlob g => matches g (w ++ [c]) = true
  end.
Definition optional (p : arg_pattern) (t : token) : Prop :=
  (exists g, p = PGlob g) /\ (t = TLeft Bracket \/ t = TLeft Paren).
(** the rest of a word of which one character was read *)
Definition rest_word (s : text) (r : list tok) : list tok := match s with [] => r | _ => (Word, s) :: r end.

(** commands and environments without arguments *)
Definition no_args (o : option arg_pattern) : Prop := o = None \/ o = Some PNone \/ o = Some (PFixed 0).
Definition command_shape (name : text) : option arg_shape := option_map cs_args (get_cmd sp name).
Definition begin_shape (name : text) : option arg_pattern := option_map en_args (get_env sp name).
Definition bare (name : text) : Prop :=
  exists o, no_args o /\ command_shape name = option_map SRight o.

(** ** The grammar *)
(** [content p rest l ts l' r]: in the place [p], the list [l] is continued by
    the tokens [ts] to [l']; the reading ends before [r].  [rest]: it is an
    argument that takes all the rest. *)
Inductive content : place -> bool -> line -> list tok -> line -> list tok -> Prop :=
| c_eof p g l : content p g l [] l []
| c_end p g l t r : stopped p g (fst t) -> content p g l (t :: r) l (t :: r)
(* an element that is a base for scripts *)
| c_base p g l t r l1 xs r1 l' r' : ~ stopped p g (fst t) -> element p false l t r true l1 r1 -> all l1 = all l ++ xs ->
    content p g (mk_line (all l) (Some xs) (from l1)) r1 l' r' -> content p g l (t :: r) l' r'
(* another element *)
| c_other p g l t r l1 r1 l' r' : ~ stopped p g (fst t) -> element p false l t r false l1 r1 ->
    content p g l1 r1 l' r' -> content p g l (t :: r) l' r'

(** [element p single l t ts b l' r]: the token [t] and the tokens of [ts] before
    [r] continue the list [l] to [l'].  [single]: only the first character of a
    word is read; [b]: what was read is a base. *)
with element : place -> bool -> line -> tok -> list tok -> bool -> line -> list tok -> Prop :=
| e_base p f l t r : mark_base (fst t) -> element p f l t r true (add [lf t] l) r
| e_plain p f l t r : mark_plain (fst t) -> element p f l t r false (add [lf t] l) r
| e_stray p f l t r : stray (fst t) -> element p f l t r true (add [Node TokenError [lf t]] l) r
(* text *)
| e_text p f l t ts r : fst t = Comma \/ fst t = Word /\ f = false -> Forall text_token ts -> ~ heads text_token r ->
    element p f l t (ts ++ r) true (add [Node ItemText (map lf (t :: ts))] l) r
| e_char p l c s r : element p true l (Word, c :: s) r true (add [Leaf TokenWord [c]] l) (rest_word s r)
(* groups and formulas *)
| e_group p f l t r x r' : fst t = TLeft Curly -> group Braces t r x r' -> element p f l t r true (add [x] l) r'
| e_dollars p f l t r x r' : fst t = Dollar -> group Dollars_ t r x r' -> element p f l t r false (add [x] l) r'
| e_math p f l t r x r' : fst t = CommandName BeginMath -> group Math_ t r x r' -> element p f l t r false (add [x] l) r'
(* left-right pairs *)
| e_sides p f l t r c1 r1 l1 r2 e r' : fst t = CommandName CLeft -> clause t r c1 r1 ->
    content Sides false (fresh Start) r1 l1 r2 -> right_side r2 e r' ->
    element p f l t r true (add [Node ItemLR (c1 :: all l1 ++ e)] l) r'
(* environments *)
| e_env p f l t r l1 r2 e r' : fst t = CommandName BeginEnvironment -> no_args (begin_shape (snd t)) ->
    content Body false (fresh Start) r l1 r2 -> env_end r2 e r' ->
    element p f l t r true (add [Node ItemEnv (Node ItemBegin [lf t] :: all l1 ++ e)] l) r'
| e_env_args p f l t r a args held r1 l1 r2 e r' : fst t = CommandName BeginEnvironment ->
    begin_shape (snd t) = Some a -> ~ no_args (Some a) -> a <> PGreedy -> arguments p a [] [] r args held r1 ->
    content Body false (fresh Start) r1 l1 r2 -> env_end r2 e r' ->
    element p f l t r true (add [Node ItemEnv (Node ItemBegin (lf t :: args) :: map lf held ++ all l1 ++ e)] (baseless l)) r'
(* skipped conditionals *)
| e_skip p f l i s r k xs r' : i = IfFalse /\ k = ItemBlockComment \/ i = IfTypst /\ k = ItemTypstCode -> skipped 0 r xs r' ->
    element p f l (CommandName (CIf i), s) r true (add [Node k xs] l) r'
(* commands: without arguments, ... *)
| e_bare p f l t r name : named (fst t) -> snd t = 92%N :: name -> bare name ->
    element p f l t r true (add [Node ItemCmd [lf t]] l) r
(* ... with arguments, followed by the blanks before an argument that was not there, ... *)
| e_command p f l t r name a args held r' : named (fst t) -> snd t = 92%N :: name ->
    command_shape name = Some (SRight a) -> ~ no_args (Some a) -> a <> PGreedy -> arguments p a [] [] r args held r' ->
    element p f l t r true (add (Node ItemCmd (lf t :: args) :: map lf held) (baseless l)) r'
(* ... taking all the rest, ... *)
| e_greedy p f l t r name l1 r' : named (fst t) -> snd t = 92%N :: name ->
    command_shape name = Some (SRight PGreedy) -> content p true (fresh Start) r l1 r' ->
    element p f l t r false (add [Node ItemCmd [lf t; as_argument (all l1)]] (baseless l)) r'
(* ... postfix, with the base or else everything in the list as its argument ... *)
| e_postfix p f l t r name ys : named (fst t) -> snd t = 92%N :: name ->
    command_shape name = Some SLeft1 -> base l = Some ys ->
    element p f l t r false (mk_line (before l) (Some [Node ItemCmd [as_argument ys; lf t]]) (from l)) r
| e_postfix_all p f l t r name : named (fst t) -> snd t = 92%N :: name ->
    command_shape name = Some SLeft1 -> base l = None -> from l = Start ->
    element p f l t r false (mk_line [Node ItemCmd [as_argument (all l); lf t]] None Start) r
| e_postfix_none p f l t r name : named (fst t) -> snd t = 92%N :: name ->
    command_shape name = Some SLeft1 -> base l = None -> from l = Gone ->
    element p f l t r false (add [Node ItemCmd [lf t]] l) r
(* ... or infix, with everything in the list and all the rest *)
| e_infix p f l t r name l1 r' : named (fst t) -> snd t = 92%N :: name ->
    command_shape name = Some SInfixGreedy -> from l = Start -> content p true (fresh Start) r l1 r' ->
    element p f l t r false (mk_line [Node ItemCmd [as_argument (all l); lf t; as_argument (all l1)]] None Gone) r'
| e_infix_again p f l t r name l1 r' : named (fst t) -> snd t = 92%N :: name ->
    command_shape name = Some SInfixGreedy -> from l = Gone -> content p true (fresh Start) r l1 r' ->
    element p f l t r false (add [Node ItemCmd [lf t; as_argument (all l1)]] (baseless l)) r'
(* primes and scripts *)
| e_prime p f l s r ys : base l = Some ys ->
    element p f l (Apostrophe, s) r false
      (mk_line (before l) (Some [Node ItemAttachComponent [as_argument ys; lf (Apostrophe, s)]]) (from l)) r
| e_prime_alone p f l s r : base l = None -> element p f l (Apostrophe, s) r false (add [lf (Apostrophe, s)] l) r
| e_script p f l t bs u r b l1 r' : script_mark (fst t) -> Forall blank_token bs -> ~ blank_token u ->
    element p true (inside l t bs) u r b l1 r' ->
    element p f l t (bs ++ u :: r) false (outside l l1) r'
| e_script_end p f l t bs : script_mark (fst t) -> Forall blank_token bs ->
    element p f l t bs false (outside l (inside l t bs)) []

(** [group q t ts x r]: what is between the delimiters of [q] *)
with group : place -> tok -> list tok -> tree -> list tok -> Prop :=
| g_closed q t k r l t' r' : brackets q (fst t) k -> content q false (fresh Start) r l (t' :: r') -> closer q = Some (fst t') ->
    group q t r (Node k (lf t :: all l ++ [lf t'])) r'
| g_open q t k r l r' : brackets q (fst t) k -> content q false (fresh Start) r l r' ->
    ~ heads (fun t => closer q = Some (fst t)) r' ->
    group q t r (Node k (lf t :: all l)) r'

(** [arguments p a w held ts xs held' r]: with the arguments [w] read and the
    blanks [held] passed, the pattern [a] takes the arguments [xs] *)
with arguments : place -> arg_pattern -> text -> list tok -> list tok -> list tree -> list tok -> list tok -> Prop :=
| a_eof p a w held : arguments p a w held [] [] held []
| a_blank p a w held t r xs held' r' : blank_token t -> arguments p a w (held ++ [t]) r xs held' r' ->
    arguments p a w held (t :: r) xs held' r'
| a_stop p a w held t r : In (fst t) [Ampersand; Caret; Underscore] \/ over p (fst t) ->
    arguments p a w held (t :: r) [] held (t :: r)
(* (no word is empty) *)
| a_refuse p a w held t r : ~ blank_token t -> t <> (Word, []) -> ~ takes a w (letter a (fst t)) ->
    arguments p a w held (t :: r) [] held (t :: r)
(* one character of a word; the blanks before an argument are lost *)
| a_char p a w held c s r xs held' r' : takes a w (letter a Word) ->
    arguments p a (w ++ [letter a Word]) [] (rest_word s r) xs held' r' ->
    arguments p a w held ((Word, c :: s) :: r) (as_argument [Leaf TokenWord [c]] :: xs) held' r'
(* [...] and (...) *)
| a_optional p a w held t r q x r1 xs held' r' : optional a (fst t) -> takes a w (letter a (fst t)) ->
    group q t r x r1 -> q = Brackets \/ q = Parens ->
    arguments p a (w ++ [letter a (fst t)]) [] r1 xs held' r' ->
    arguments p a w held (t :: r) (as_argument [x] :: xs) held' r'
(* any other element *)
| a_term p a w held t r b l1 r1 xs held' r' : ~ blank_token t -> fst t <> Word -> ~ In (fst t) [Ampersand; Caret; Underscore] ->
    ~ over p (fst t) -> ~ optional a (fst t) -> takes a w (letter a (fst t)) ->
    element p false (fresh Gone) t r b l1 r1 ->
    arguments p a (w ++ [letter a (fst t)]) [] r1 xs held' r' ->
    arguments p a w held (t :: r) (as_argument (all l1) :: xs) held' r'.

(** The tree of a sequence of tokens *)
Definition reading (ts : list tok) (t : tree) : Prop :=
  exists l, content Top false (fresh Start) ts l [] /\ t = Node ScopeRoot (all l).
End Grammar.
