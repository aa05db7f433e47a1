(** Specification for C77: a formula in a text is the same as a document in
    formula mode. *)
From Verif Require Export GramSpec.
Local Open Scope nat_scope.

(** The environments that take arguments take one, and have it in braces
    ([\begin{array}{lc}]). *)
Definition in_braces (r : list tok) : Prop :=
  exists bs v w, r = bs ++ v :: w /\ Forall blank_token bs /\ fst v = TLeft Curly.
Definition argued_at (sp : spec) (t : tok) (r : list tok) : Prop :=
  fst t = CommandName BeginEnvironment ->
  no_args (begin_shape sp (snd t)) \/ begin_shape sp (snd t) = Some (PFixed 1) /\ in_braces r.
Fixpoint argued (sp : spec) (ts : list tok) : Prop :=
  match ts with [] => True | t :: r => argued_at sp t r /\ argued sp r end.

(** the delimiters of formulas; what is written around a formula in a text *)
Definition opening_closing : list (tok * tok * (text * text)) :=
  [((Dollar, tx "$"), (Dollar, tx "$"), (tx "#math.equation(block: false, $", tx "$);"));
   ((CommandName BeginMath, tx "\("), (CommandName EndMath, tx "\)"), (tx "#math.equation(block: false, $", tx "$);"));
   ((Dollar, tx "$$"), (Dollar, tx "$$"), (tx "$ ", tx " $"));
   ((CommandName BeginMath, tx "\["), (CommandName EndMath, tx "\]"), (tx "$ ", tx " $"))].
(** a tree that is one formula, from the token [a] to the token [b] *)
Definition formula (a : tok) (ch : list tree) (b : tok) : tree := Node ItemFormula (lf a :: ch ++ [lf b]).
