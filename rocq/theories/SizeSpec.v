(** Specification for C73 and C74: the size of trees. *)
From Verif Require Export Syntax.
Local Open Scope nat_scope.

(** the number of nodes and leaves of a tree *)
Fixpoint nodes (t : tree) : nat :=
  match t with
  | Leaf _ _ => 1
  | Node _ ch => S (list_sum (map nodes ch))
  end.
(** the levels below a tree *)
Fixpoint levels (t : tree) : nat :=
  match t with
  | Leaf _ _ => 1
  | Node _ ch => S (list_max (map levels ch))
  end.
