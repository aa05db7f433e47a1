(** Specification for C69: the brackets and dollars of the generated Typst code
    are nested.  Nothing of the converter is used, except that RenderSpec.v is
    used to say what the names, labels, pictures and colour models of an element
    are. *)
From Verif Require Export RenderSpec.
Local Open Scope N_scope.

(** ** Nested code *)
(** characters that mean something here *)
Definition loud (c : char) : Prop := In c (tx "()[]$\").
Definition quiet (s : text) : Prop := Forall (fun c => ~ loud c) s.
(** [nested formula s]: [s] can stand in a formula ([formula = true]) or in
    ordinary text.  A backslash hides the next character; round brackets are
    closed where they were opened, square brackets contain ordinary text, and
    two dollars in ordinary text enclose a formula. *)
Inductive nested : bool -> text -> Prop :=
| ne_end b : nested b []
| ne_char b c s : ~ loud c -> nested b s -> nested b (c :: s)
| ne_hidden b c s : nested b s -> nested b (92 :: c :: s)
| ne_round b s r : nested b s -> nested b r -> nested b (tx "(" ++ s ++ tx ")" ++ r)
| ne_square b s r : nested false s -> nested b r -> nested b (tx "[" ++ s ++ tx "]" ++ r)
| ne_formula s r : nested true s -> nested false r -> nested false (tx "$" ++ s ++ tx "$" ++ r).
Definition as_formula (m : mode) : bool := match m with MMath => true | MText => false end.

(** ** Sources for which that can be expected *)
(** every [\left] has its [\right] *)
Definition clause_named (name : text) (t : tree) : Prop := exists k r, t = Node ClauseLR (Leaf k (92 :: name) :: r).
Definition pair_closed (t : tree) : Prop := tkind t = ItemLR ->
  exists c1 mid c2, children t = c1 :: mid ++ [c2] /\ clause_named (tx "left") c1 /\ clause_named (tx "right") c2.
(** the last cell of a table is closed: after the last column mark or row end
    come only blanks and rules *)
Definition no_cell (t : tree) : Prop := In (tkind t) [TokenWhiteSpace; TokenLineBreak] \/ rule_of t <> None.
Definition separator (t : tree) : Prop := tkind t = TokenAmpersand \/ tkind t = ItemNewLine.
Definition cells_closed (l : list tree) : Prop :=
  Forall no_cell l \/ exists a s b, l = a ++ s :: b /\ separator s /\ Forall no_cell b.
Definition table_closed (sp : spec) (t : tree) : Prop := forall name sh,
  environment_named t name -> get_env sp name = Some sh -> en_feature sh = FTable -> cells_closed (inside t).
(** texts that are copied without being read: labels, pictures (in the options
    backslashes are allowed, as in [width=0.5\textwidth]), colour models, code *)
Definition label_quiet (t : tree) : Prop := forall l, command_named t (tx "label") -> label_of t l -> quiet l.
Definition picture_quiet (t : tree) : Prop := command_named t (tx "includegraphics") ->
  (forall a m, picked ItemBracket (arguments t) (Some a) -> cut (tree_text a) m -> Forall (fun c => ~ In c (tx "()[]$")) m) /\
  (forall a m, picked ItemCurly (arguments t) (Some a) -> cut (tree_text a) m -> quiet m).
Definition model_quiet (t : tree) : Prop := forall name model color body,
  command_named t name -> In name colored -> color_parts t name (Some model) color body -> quiet model.
Definition code_nested (t : tree) : Prop := tkind t = ItemTypstCode -> forall b, nested b (tree_text t).
Definition tidy (sp : spec) (t : tree) : Prop :=
  pair_closed t /\ table_closed sp t /\ label_quiet t /\ picture_quiet t /\ model_quiet t /\ code_nested t.
