(** Specification for C70: what stands in a group and what stands around it do
    not influence each other. *)
From Verif Require Export GramSpec.
Local Open Scope nat_scope.

(** ** Contents of a group *)
(** The braces are balanced, no script mark stands directly before a closing
    brace, no brace is the delimiter of a [\left] or [\right], and nothing is
    skipped ([\iffalse], [\iftypst]). *)
Inductive wants := Nothing | Script | Side.   (* the token before it: a script mark, [\left] or [\right] *)
Inductive role := Space | Open | Close | Mark | Pair | Skip | Plain.
Definition role_of (t : token) : role :=
  match t with
  | LineBreak | Whitespace | LineComment => Space
  | TLeft Curly => Open
  | TRight Curly => Close
  | Underscore | Caret => Mark
  | CommandName CLeft | CommandName CRight => Pair
  | CommandName (CIf IfFalse) | CommandName (CIf IfTypst) => Skip
  | _ => Plain
  end.
Fixpoint enclosed (depth : nat) (w : wants) (ts : list tok) : Prop :=
  match ts with
  | [] => depth = 0 /\ w = Nothing
  | t :: r =>
    match role_of (fst t) with
    | Space => enclosed depth w r
    | Open => w <> Side /\ enclosed (S depth) Nothing r
    | Close => w = Nothing /\ match depth with O => False | S d => enclosed d Nothing r end
    | Mark => enclosed depth Script r
    | Pair => enclosed depth Side r
    | Skip => False
    | Plain => enclosed depth Nothing r
    end
  end.
Definition content_of_group (ts : list tok) : Prop := enclosed 0 Nothing ts.

(** ** Replacing a group *)
Definition lbrace : tok := (TLeft Curly, tx "{").
Definition rbrace : tok := (TRight Curly, tx "}").
Definition braced (x : list tok) : list tok := lbrace :: x ++ [rbrace].
(** [replaced x y ts ts']: in [ts'] some of the groups [{x}] of [ts] are [{y}].
    Before them no [\iffalse] or [\iftypst] stands, and they do not follow
    [\left] or [\right] directly. *)
Inductive replaced (x y : list tok) : list tok -> list tok -> Prop :=
| rp_none ts : replaced x y ts ts
| rp_token t ts ts' : role_of (fst t) <> Skip ->
    (role_of (fst t) = Pair -> forall bs u r, ts = bs ++ u :: r -> Forall blank_token bs -> fst u <> TLeft Curly) ->
    replaced x y ts ts' -> replaced x y (t :: ts) (t :: ts')
| rp_group ts ts' : replaced x y ts ts' -> replaced x y (braced x ++ ts) (braced y ++ ts').
(** [exchanged g h t t']: the same for trees *)
Inductive exchanged (g h : tree) : tree -> tree -> Prop :=
| ex_none t : exchanged g h t t
| ex_here : exchanged g h g h
| ex_below k ch ch' : Forall2 (exchanged g h) ch ch' -> exchanged g h (Node k ch) (Node k ch').
