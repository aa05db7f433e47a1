(** rowan's GreenNodeBuilder (0.15), as used by the parser.  Its source is not
    in /repo; the model follows its documented behaviour: a stack of open
    parents [(kind, first_child)] and one flat list of children; a checkpoint
    is the number of children. *)
From Verif Require Export Syntax.

Record builder := mk_builder {
  b_parents : list (kind * nat);  (* head = innermost open node *)
  b_children : list tree          (* in order *)
}.
Definition builder_new : builder := mk_builder [] [].

(** GreenNodeBuilder::token *)
Definition b_token (k : kind) (s : text) (b : builder) : builder :=
  mk_builder (b_parents b) (b_children b ++ [Leaf k s]).
(** GreenNodeBuilder::start_node *)
Definition b_start (k : kind) (b : builder) : builder :=
  mk_builder ((k, List.length (b_children b)) :: b_parents b) (b_children b).
(** GreenNodeBuilder::checkpoint *)
Definition b_checkpoint (b : builder) : nat := List.length (b_children b).
(** GreenNodeBuilder::start_node_at, with its two assertions *)
Definition b_start_at (cp : nat) (k : kind) (b : builder) : res builder :=
  if Nat.ltb (List.length (b_children b)) cp then
    Panic "rowan: checkpoint no longer valid, was finish_node called early?"
  else
    match b_parents b with
    | (_, first) :: _ =>
      if Nat.ltb cp first then
        Panic "rowan: checkpoint no longer valid, was an unmatched start_node_at called?"
      else Ok (mk_builder ((k, cp) :: b_parents b) (b_children b))
    | [] => Ok (mk_builder ((k, cp) :: b_parents b) (b_children b))
    end.
(** GreenNodeBuilder::finish_node *)
Definition b_finish_node (b : builder) : res builder :=
  match b_parents b with
  | [] => Panic "rowan: finish_node without start_node"
  | (k, first) :: ps =>
    Ok (mk_builder ps (firstn first (b_children b) ++ [Node k (skipn first (b_children b))]))
  end.
(** GreenNodeBuilder::finish *)
Definition b_finish (b : builder) : res tree :=
  match b_children b with
  | [Node k c] => Ok (Node k c)
  | _ => Panic "rowan: finish"
  end.
