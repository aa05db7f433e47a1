(** Specification for C72 and C73: only the presence of blanks matters, not how
    many there are and of which sort (spaces, line breaks and, with [comments],
    comments). *)
From Verif Require Export PairSpec.
Local Open Scope N_scope.

Definition blank (comments : bool) (t : tok) : bool :=
  match fst t with LineBreak | Whitespace => true | LineComment => comments | _ => false end.
Definition the_blank : tok := (Whitespace, tx " ").
(** every run of blanks is replaced by one space; [after]: a blank stands before *)
Fixpoint squeeze (comments after : bool) (ts : list tok) : list tok :=
  match ts with
  | [] => []
  | t :: r => if blank comments t then (if after then [] else [the_blank]) ++ squeeze comments true r else t :: squeeze comments false r
  end.
(** the same for trees, in every list of children *)
Definition blank_leaf (comments : bool) (t : tree) : bool :=
  match t with Leaf (TokenLineBreak | TokenWhiteSpace) _ => true | Leaf TokenComment _ => comments | _ => false end.
Fixpoint squeezed (comments : bool) (t : tree) : tree :=
  match t with
  | Leaf k s => Leaf k s
  | Node k ch => Node k ((fix go (after : bool) (l : list tree) : list tree :=
      match l with
      | [] => []
      | x :: r => if blank_leaf comments x then (if after then [] else [Leaf TokenWhiteSpace (tx " ")]) ++ go true r else squeezed comments x :: go false r
      end) false ch)
  end.
