(** The exact meaning of macro expansion: a rewriting system on token lists.
    Every definition, call, environment and conditional is covered, well-formed
    or not.  Nothing of the engine is used (no look-ahead buffers, pages, table
    snapshots or fuel); the vocabulary is that of tokens, and of MacroSpec.v:
    [trivia] (only blanks and comments), [defining] (New, Renew, Provide),
    [cmd], [begin_], [parameter_digit] and [fi_tok]. *)
From Verif Require Export MacroSpec.
Local Open Scope N_scope.

(** ** The state: what names mean, and the conditionals that are open *)
Inductive meaning :=
| Definer (env : bool) (how : defining)   (* \newcommand, \newenvironment, ... *)
| Known                                  (* a name that is taken and does nothing *)
| Command (n : nat) (default : option (list tok)) (body : list tok)
| Environment (n : nat) (default : option (list tok)) (opener closer : list tok).
Definition table := text -> option meaning.
Definition bind_name (name : text) (m : meaning) (tb : table) : table :=
  fun x => if teqb x name then Some m else tb x.

(** an open conditional, the last opened one first *)
Inductive branch :=
| AsIs           (* of a kind that is only passed on *)
| InFalse        (* \iffalse, before \else *)
| Shown | Hidden            (* \iftrue, or \iffalse after \else *)
| TypstShown | TypstHidden. (* \iftypst *)

Record state := mk_state { names : table; conds : list branch }.

(** the initial table *)
Definition taken_names : list string :=
  ["DeclareTextCommand"; "DeclareTextCommandDefault"; "ProvideTextCommand";
   "ProvideTextCommandDefault"; "AtEndOfClass"; "AtEndOfPackage"; "AtBeginDocument";
   "AtEndDocument"]%string.
Definition initial_names : table := fun name =>
  match find (fun d => teqb name (tx (fst d))) command_definers with
  | Some (_, how) => Some (Definer false how)
  | None =>
    match find (fun d => teqb name (tx (fst d))) environment_definers with
    | Some (_, how) => Some (Definer true how)
    | None => if existsb (fun n => teqb name (tx n)) taken_names then Some Known else None
    end
  end.
Definition initial : state := mk_state initial_names [].

(** ** Looking ahead *)
Definition solid_start (l : list tok) : Prop :=
  match l with [] => True | t :: _ => is_trivia (fst t) = false end.
(** [after] is [l] without the blanks and comments in front *)
Definition past_trivia (l after : list tok) : Prop :=
  exists w, trivia w /\ l = w ++ after /\ solid_start after.

Definition total (weight : tok -> Z) (l : list tok) : Z := fold_right (fun t z => (weight t + z)%Z) 0%Z l.
(** [rest] begins with the first [stop] token at depth 0, [a] is what comes
    before it; if there is none, [a] is everything *)
Definition upto (weight : tok -> Z) (stop : token -> Prop) (l a rest : list tok) : Prop :=
  l = a ++ rest /\
  (forall a1 y b1, a = a1 ++ y :: b1 -> stop (fst y) -> total weight a1 <> 0%Z) /\
  match rest with [] => True | y :: _ => stop (fst y) /\ total weight a = 0%Z end.

Definition curly_weight (t : tok) : Z :=
  match fst t with TLeft Curly => 1 | TRight Curly => -1 | _ => 0 end%Z.
Definition env_weight (t : tok) : Z :=
  match fst t with CommandName BeginEnvironment => 1 | CommandName EndEnvironment => -1 | _ => 0 end%Z.
(** [\else] counts like [\fi] *)
Definition if_weight (t : tok) : Z :=
  match fst t with
  | CommandName (CIf _) => 1 | CommandName CElse => -1 | CommandName CEndIf => -1 | _ => 0
  end%Z.

(** after an opening brace or bracket: the tokens up to the closing one, and
    what follows it.  Only curly braces nest; without a closing token all is
    taken. *)
Definition enclosed (bk : brace) (l a rest : list tok) : Prop :=
  exists r, upto curly_weight (eq (TRight bk)) l a r /\ rest = tl r.

(** after an opening brace or bracket: the only token, blanks skipped on both
    sides.  The closing token is skipped if it is there. *)
Inductive single (bk : brace) : list tok -> option tok -> list tok -> Prop :=
| sg_empty l : past_trivia l [] -> single bk l None []
| sg_end l t l1 : past_trivia l (t :: l1) -> past_trivia l1 [] -> single bk l None []
| sg_closed l t l1 y rest : past_trivia l (t :: l1) -> past_trivia l1 (y :: rest) ->
    fst y = TRight bk -> single bk l (Some t) rest
| sg_open l t l1 y rest : past_trivia l (t :: l1) -> past_trivia l1 (y :: rest) ->
    fst y <> TRight bk -> single bk l (Some t) (y :: rest).

(** ** Arguments of a call *)
(** [arguments n l args missing rest]: when [n] arguments are wanted, [args] are
    found at the front of [l]; [missing] more were wanted at the end of the
    input.  A word is split into characters.  A word that has fewer characters
    than there are arguments wanted counts as one argument more. *)
Inductive arguments : nat -> list tok -> list (list tok) -> nat -> list tok -> Prop :=
| ar_done l : arguments 0 l [] 0 l
| ar_end n l : past_trivia l [] -> arguments (S n) l [] (S n) []
| ar_group n l x l1 a r args m rest : past_trivia l (x :: l1) -> fst x = TLeft Curly ->
    enclosed Curly l1 a r -> arguments n r args m rest ->
    arguments (S n) l (a :: args) m rest
| ar_long_word n l cs v l1 : past_trivia l ((Word, cs ++ v) :: l1) -> List.length cs = S n ->
    arguments (S n) l (map (fun c => [(Word, [c])]) cs) 0 (word_or_nothing v ++ l1)
| ar_short_word n l cs l1 args m rest : past_trivia l ((Word, cs) :: l1) ->
    arguments n l1 args m rest ->
    arguments (List.length cs + S n) l (map (fun c => [(Word, [c])]) cs ++ args) m rest
| ar_token n l t l1 args m rest : past_trivia l (t :: l1) -> fst t <> TLeft Curly -> fst t <> Word ->
    arguments n l1 args m rest ->
    arguments (S n) l ([t] :: args) m rest.

(** the default is only used when the last argument alone is missing *)
Inductive supplied (default : option (list tok)) : list (list tok) -> nat -> option (list (list tok)) -> Prop :=
| su_all args : supplied default args 0 (Some args)
| su_default args o : default = Some o -> supplied default args 1 (Some (args ++ [o]))
| su_no_default args : default = None -> supplied default args 1 None
| su_missing args m : supplied default args (S (S m)) None.

(** ** Bodies *)
(** storing: [#d] becomes parameter [d] *)
Inductive marks_of : list tok -> list tok -> bool -> Prop :=
| mk_nil : marks_of [] [] false
| mk_param h c w r r' b : parameter_digit c -> marks_of r r' b ->
    marks_of ((Hash, h) :: (Word, c :: w) :: r) ((MacroArg (c - 48), h) :: (Word, w) :: r')
      (match w with [] => true | _ => b end)
| mk_hash h t r r' b : ~ digit_word t -> marks_of (t :: r) r' b ->
    marks_of ((Hash, h) :: t :: r) ((Hash, h) :: r') b
| mk_tok t r r' b : fst t <> Hash -> marks_of r r' b -> marks_of (t :: r) (t :: r') b.
(** empty words are removed if a parameter took up all of its word *)
Definition without_empty_words (l : list tok) : list tok :=
  filter (fun t => match t with (Word, []) => false | _ => true end) l.
Definition stored_as (body def : list tok) : Prop :=
  exists d b, marks_of body d b /\ def = if b then without_empty_words d else d.

(** using: parameters are replaced, except in the argument of [\mitexrecurse],
    which loses its braces ([verbatim], with the brace depth) *)
Inductive instance (args : list (list tok)) : list tok -> list tok -> Prop :=
| in_nil : instance args [] []
| in_param i h r r' : 0 < i -> instance args r r' ->
    instance args ((MacroArg i, h) :: r) (nth (N.to_nat (i - 1)) args [] ++ r')
| in_command name r r' : name <> tx "mitexrecurse" -> instance args r r' ->
    instance args (cmd name :: r) (cmd name :: r')
| in_recurse r r' : verbatim args 0 r r' -> instance args (cmd (tx "mitexrecurse") :: r) r'
| in_tok t r r' : (forall i, fst t <> MacroArg i) -> fst t <> CommandName Generic ->
    instance args r r' -> instance args (t :: r) (t :: r')
with verbatim (args : list (list tok)) : Z -> list tok -> list tok -> Prop :=
| vb_end d : verbatim args d [] []
| vb_open_dropped d t r r' : fst t = TLeft Curly -> (d <= 0)%Z -> verbatim args (d + 1) r r' ->
    verbatim args d (t :: r) r'
| vb_open d t r r' : fst t = TLeft Curly -> (0 < d)%Z -> verbatim args (d + 1) r r' ->
    verbatim args d (t :: r) (t :: r')
| vb_close_dropped t r r' : fst t = TRight Curly -> instance args r r' ->
    verbatim args 1 (t :: r) r'
| vb_close d t r r' : fst t = TRight Curly -> d <> 1%Z -> verbatim args (d - 1) r r' ->
    verbatim args d (t :: r) (t :: r')
| vb_blank t r r' : is_trivia (fst t) = true -> verbatim args 0 r r' -> verbatim args 0 (t :: r) r'
| vb_single t r r' : ~ is_curly t -> is_trivia (fst t) = false -> instance args r r' ->
    verbatim args 0 (t :: r) (t :: r')
| vb_inside d t r r' : ~ is_curly t -> d <> 0%Z -> verbatim args d r r' ->
    verbatim args d (t :: r) (t :: r').

(** ** Definitions *)
(** the name: in braces; a command, or a word for an environment.  No
    derivation for a command without backslash, such as the [\begin{a}] of
    [\newcommand{\begin{a}}]. *)
Inductive name_in (env : bool) : option tok -> option text -> Prop :=
| na_word s : env = true -> name_in env (Some (Word, s)) (Some s)
| na_command k name : env = false -> name_in env (Some (CommandName k, 92 :: name)) (Some name)
| na_none p : (env = true -> forall s, p <> Some (Word, s)) ->
    (env = false -> forall k s, p <> Some (CommandName k, s)) -> name_in env p None.
Inductive named (env : bool) : list tok -> option text -> list tok -> Prop :=
| nm_none l rest : past_trivia l rest -> (forall t r, rest = t :: r -> fst t <> TLeft Curly) ->
    named env l None rest
| nm_braced l x l1 p name rest : past_trivia l (x :: l1) -> fst x = TLeft Curly ->
    single Curly l1 p rest -> name_in env p name -> named env l name rest.

(** a number from 0 to 9, possibly with a plus sign and leading zeros *)
Definition small_number (s : text) (n : nat) : Prop :=
  exists sign zeros c, (sign = [] \/ sign = tx "+") /\ Forall (eq 48) zeros /\ 48 <= c <= 57 /\
    s = sign ++ zeros ++ [c] /\ n = N.to_nat (c - 48).
(** the number of parameters and the default *)
Inductive signature : list tok -> option (nat * option (list tok)) -> list tok -> Prop :=
| si_none l : (forall x r, l = x :: r -> fst x <> TLeft Bracket) -> signature l (Some (0%nat, None)) l
| si_bad x l p rest : fst x = TLeft Bracket -> single Bracket l p rest ->
    (forall s n, p = Some (Word, s) -> ~ small_number s n) -> signature (x :: l) None rest
| si_count x l s n rest : fst x = TLeft Bracket -> single Bracket l (Some (Word, s)) rest ->
    small_number s n -> (forall y r, rest = y :: r -> fst y <> TLeft Bracket) ->
    signature (x :: l) (Some (n, None)) rest
| si_default x l s n y r o rest : fst x = TLeft Bracket -> single Bracket l (Some (Word, s)) (y :: r) ->
    small_number s n -> fst y = TLeft Bracket -> enclosed Bracket r o rest ->
    signature (x :: l) (Some (n, Some o)) rest.
(** a body is a group or the next token, a blank included *)
Inductive body_in : list tok -> list tok -> list tok -> Prop :=
| bo_group x l a rest : fst x = TLeft Curly -> enclosed Curly l a rest -> body_in (x :: l) a rest
| bo_token t l : fst t <> TLeft Curly -> body_in (t :: l) [t] l.

(** [definition env l d rest]: the text after a definition command defines [d],
    or nothing.  No derivation if a body ends in [#]. *)
Inductive definition (env : bool) : list tok -> option (text * meaning) -> list tok -> Prop :=
| de_no_name l rest : named env l None rest -> definition env l None rest
| de_no_signature l name l1 rest : named env l (Some name) l1 -> signature l1 None rest ->
    definition env l None rest
| de_no_body l name l1 p : named env l (Some name) l1 -> signature l1 (Some p) [] ->
    definition env l None []
| de_command l name l1 n o l2 body def rest : env = false ->
    named env l (Some name) l1 -> signature l1 (Some (n, o)) l2 -> body_in l2 body rest ->
    stored_as body def -> definition env l (Some (name, Command n o def)) rest
| de_environment l name l1 n o l2 b x l3 d bdef ddef rest : env = true ->
    named env l (Some name) l1 -> signature l1 (Some (n, o)) l2 -> body_in l2 b (x :: l3) ->
    fst x = TLeft Curly -> enclosed Curly l3 d rest -> stored_as b bdef -> stored_as d ddef ->
    definition env l (Some (name, Environment n o bdef ddef)) rest
| de_one_body l name l1 p l2 b : env = true ->
    named env l (Some name) l1 -> signature l1 (Some p) l2 -> body_in l2 b [] ->
    definition env l None []
| de_bad_body l name l1 p l2 b bdef t l3 : env = true ->
    named env l (Some name) l1 -> signature l1 (Some p) l2 -> body_in l2 b (t :: l3) ->
    fst t <> TLeft Curly -> stored_as b bdef -> definition env l None (t :: l3).

(** the effect on the table, and the errors reported *)
Inductive updates (how : defining) (name : text) (m : meaning) (tb : table) : table -> list tok -> Prop :=
| up_ok : (how = New /\ tb name = None) \/ (how = Renew /\ tb name <> None)
           \/ (how = Provide /\ tb name = None) ->
    updates how name m tb (bind_name name m tb) []
| up_error : (how = New /\ tb name <> None) \/ (how = Renew /\ tb name = None) ->
    updates how name m tb (bind_name name m tb) [(TError, name)]
| up_provided : how = Provide -> tb name <> None -> updates how name m tb tb [].

(** ** Conditionals *)
Definition opens (i : ifname) : branch :=
  match i with IfFalse => InFalse | IfTrue => Shown | IfTypst => TypstShown | _ => AsIs end.
(** [\else]: the new top of the open conditionals, what is written, whether the
    following tokens are skipped *)
Inductive flips : branch -> branch -> list tok -> bool -> Prop :=
| fl_true : flips Shown Hidden [] true
| fl_typst : flips TypstShown TypstHidden [] true
| fl_true_again : flips Hidden Shown [] false
| fl_typst_again : flips TypstHidden TypstShown [] false
| fl_false : flips InFalse Shown [fi_tok] false.
Definition skipped (l rest : list tok) : Prop :=
  exists a, upto if_weight (fun k => k = CommandName CElse \/ k = CommandName CEndIf) l a rest.

(** ** One rewriting step: state and input, output, state and input.  No step for
    a command whose text does not begin with a one-byte character. *)
Definition is_environment (m : option meaning) : Prop :=
  match m with Some (Environment _ _ _ _) => True | _ => False end.
Inductive rewrites : state -> list tok -> list tok -> state -> list tok -> Prop :=
| rw_copy st t l : ~ conditional t -> fst t <> CommandName Generic ->
    (fst t = CommandName BeginEnvironment -> ~ is_environment (names st (snd t))) ->
    rewrites st (t :: l) [t] st l
| rw_command st c name l : c < 128 ->
    match names st name with None | Some Known => True | m => is_environment m end ->
    rewrites st ((CommandName Generic, c :: name) :: l) [(CommandName Generic, c :: name)] st l
| rw_define st c dn l env how name m tb errors rest : c < 128 -> names st dn = Some (Definer env how) ->
    definition env l (Some (name, m)) rest -> updates how name m (names st) tb errors ->
    rewrites st ((CommandName Generic, c :: dn) :: l) errors (mk_state tb (conds st)) rest
| rw_define_nothing st c dn l env how rest : c < 128 -> names st dn = Some (Definer env how) ->
    definition env l None rest ->
    rewrites st ((CommandName Generic, c :: dn) :: l) [] st rest
| rw_call st c name l n o body found m args rest out : c < 128 -> names st name = Some (Command n o body) ->
    arguments n l found m rest -> supplied o found m (Some args) -> instance args body out ->
    rewrites st ((CommandName Generic, c :: name) :: l) [] st (out ++ rest)
| rw_call_short st c name l n o body found m rest : c < 128 -> names st name = Some (Command n o body) ->
    arguments n l found m rest -> supplied o found m None ->
    rewrites st ((CommandName Generic, c :: name) :: l)
      [(TError, tx "invalid number of arguments")] st rest
| rw_env st name l n o b d found m args l1 body y rest bout dout :
    names st name = Some (Environment n o b d) ->
    arguments n l found m l1 -> supplied o found m (Some args) ->
    upto env_weight (eq (CommandName EndEnvironment)) l1 body (y :: rest) -> snd y = name ->
    instance args b bout -> instance args d dout ->
    rewrites st (begin_ name :: l) [] st (bout ++ body ++ dout ++ rest)
| rw_env_short st name l n o b d found m rest : names st name = Some (Environment n o b d) ->
    arguments n l found m rest -> supplied o found m None ->
    rewrites st (begin_ name :: l) [(TError, tx "invalid number of arguments")] st rest
| rw_env_open st name l n o b d found m args l1 body : names st name = Some (Environment n o b d) ->
    arguments n l found m l1 -> supplied o found m (Some args) ->
    upto env_weight (eq (CommandName EndEnvironment)) l1 body [] ->
    rewrites st (begin_ name :: l) [] st []
| rw_env_crossed st name l n o b d found m args l1 body y rest :
    names st name = Some (Environment n o b d) ->
    arguments n l found m l1 -> supplied o found m (Some args) ->
    upto env_weight (eq (CommandName EndEnvironment)) l1 body (y :: rest) -> snd y <> name ->
    rewrites st (begin_ name :: l) [(TError, tx "unmatched environment")] st (y :: rest)
| rw_if st i t l : if_ i t ->
    rewrites st (t :: l) (match i with IfTrue => [] | _ => [t] end)
      (mk_state (names st) (opens i :: conds st)) l
| rw_else st t l b bs b' out skip rest : else_ t -> conds st = b :: bs -> flips b b' out skip ->
    (if skip then skipped l rest else rest = l) ->
    rewrites st (t :: l) out (mk_state (names st) (b' :: bs)) rest
| rw_else_copy st t l : else_ t -> match conds st with [] => True | b :: _ => b = AsIs end ->
    rewrites st (t :: l) [t] st l
| rw_fi st t l b bs : fi_ t -> conds st = b :: bs ->
    rewrites st (t :: l) (match b with Shown | Hidden => [] | _ => [t] end)
      (mk_state (names st) bs) l
| rw_fi_copy st t l : fi_ t -> conds st = [] -> rewrites st (t :: l) [t] st l.

(** ** Runs *)
Inductive steps : state -> list tok -> list tok -> state -> list tok -> Prop :=
| st_refl st l : steps st l [] st l
| st_step st l out st1 l1 out' st2 l2 : rewrites st l out st1 l1 -> steps st1 l1 out' st2 l2 ->
    steps st l (out ++ out') st2 l2.
(** all of the input is expanded to [out] *)
Definition expands (st : state) (l out : list tok) : Prop := exists st', steps st l out st' [].
(** expansion gets stuck *)
Definition gets_stuck (st : state) (l : list tok) : Prop :=
  exists out st' l', steps st l out st' l' /\ l' <> [] /\
    forall out2 st2 l2, ~ rewrites st' l' out2 st2 l2.
(** expansion goes on for ever *)
CoInductive goes_on : state -> list tok -> Prop :=
| go_step st l out st' l' : rewrites st l out st' l' -> goes_on st' l' -> goes_on st l.

(** ** Definitions that cannot be read: a name without backslash, or a body that
    ends in [#] *)
Inductive refuses (env : bool) (l : list tok) : Prop :=
| rf_name x l1 k s rest : env = false -> past_trivia l (x :: l1) -> fst x = TLeft Curly ->
    single Curly l1 (Some (CommandName k, s)) rest -> (forall name, s <> 92 :: name) -> refuses env l
| rf_body name l1 p l2 b h rest : named env l (Some name) l1 -> signature l1 (Some p) l2 ->
    body_in l2 (b ++ [(Hash, h)]) rest -> (env = true -> rest <> []) -> refuses env l
| rf_end name l1 p l2 b x l3 d h rest : env = true ->
    named env l (Some name) l1 -> signature l1 (Some p) l2 -> body_in l2 b (x :: l3) ->
    fst x = TLeft Curly -> enclosed Curly l3 (d ++ [(Hash, h)]) rest -> refuses env l.
