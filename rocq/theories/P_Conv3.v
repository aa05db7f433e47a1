(** Properties C37 (custom specifications). *)
From Verif Require Import Api ParserEnd P_Parser ConvTerm ConvSeen ConvAlike P_Conv P_Conv2.
Local Open Scope nat_scope.

(** the converters of the library: with and without macros *)
Definition convert_source (macros : bool) (m : mode) (fuel page : nat) (src : text) (sp : option spec) : cres text :=
  convert_inner (parse_source macros fuel page) m sp src.
Lemma convert_text_source fuel page src sp : convert_text fuel page src sp = convert_source true MText fuel page src sp.
Proof. reflexivity. Qed.
Lemma convert_math_source fuel page src sp : convert_math fuel page src sp = convert_source true MMath fuel page src sp.
Proof. reflexivity. Qed.
Lemma convert_no_macro_source fuel page src sp : convert_math_no_macro fuel page src sp = convert_source false MMath fuel page src sp.
Proof. reflexivity. Qed.

(** once a conversion has an answer it keeps it *)
Lemma parse_keeps m f1 page sp src t : 2 <= page -> parse_source m f1 page sp src = Ok t ->
  exists f0, forall f, f0 <= f -> parse_source m f page sp src = Ok t.
Proof. intros Hp. now apply C26_page. Qed.

(* ------------------------------------------------------------------ *)
(** * C37  A custom specification is honoured by conversion *)

(** [adds sp name item]: the specification that additionally knows [name] *)
Definition adds (sp : spec) (name : text) (i : spec_item) : spec := fun n => if teqb n name then Some i else sp n.

(** It is not: a command that only the caller's specification knows makes the
    conversion fail, with any fuel. *)
Theorem C37_refuted : exists name i src, get_cmd (adds DEFAULT_SPEC name i) name <> None /\
  forall macros m, exists f0, forall fuel, f0 <= fuel ->
    convert_source macros m fuel PAGE src (Some (adds DEFAULT_SPEC name i)) = CErr (EUnknownCommand name).
Proof.
  exists (tx "mysymbol"), (define_symbol (tx "alpha")), (tx "\mysymbol"). split; [vm_compute; discriminate|].
  intros macros m.
  assert (P : exists t, parse_source macros 300 PAGE (adds DEFAULT_SPEC (tx "mysymbol") (define_symbol (tx "alpha"))) (tx "\mysymbol") = Ok t
     /\ convert_tree DEFAULT_SPEC m t = CErr (EUnknownCommand (tx "mysymbol"))).
  { destruct macros, m; (eexists; split; [vm_compute; reflexivity|vm_compute; reflexivity]). }
  destruct P as (t & P & E). apply parse_keeps in P as [f0 P]; [|unfold PAGE; lia]. exists f0. intros fuel L.
  unfold convert_source, convert_inner. rewrite (P _ L). exact E.
Qed.
Print Assumptions C37_refuted.

(** What holds.  Conversion reads the caller's specification through the
    parser only (how many arguments a command takes, C24) and everything that
    is output comes from the built-in one: success means that every command
    and environment converted is built in ... *)
Theorem C37_builtin_partial : forall macros m fuel page sp src o, convert_source macros m fuel page src (Some sp) = COk o ->
  exists t, parse_source macros fuel page sp src = Ok t /\ convert_tree DEFAULT_SPEC m t = COk o /\
  forall t', converted DEFAULT_SPEC t t' ->
    (forall name, command_named t' name -> ~ In name special_names -> get_cmd DEFAULT_SPEC name <> None) /\
    (forall c name, t' = Leaf TokenCommandSym (c :: name) -> get_cmd DEFAULT_SPEC name <> None) /\
    (forall name, environment_named t' name -> get_env DEFAULT_SPEC name <> None).
Proof.
  intros macros m fuel page sp src o H. unfold convert_source, convert_inner in H.
  destruct (parse_source macros fuel page sp src) as [t| |] eqn:E; try discriminate. exists t. split; [reflexivity|].
  split; [exact H|]. now apply C32_success with (1 := H).
Qed.
Print Assumptions C37_builtin_partial.
(** ... and a caller's specification with the same argument shapes as another
    one on the names of the source gives the same result, whatever its aliases
    and environment kinds are. *)
Theorem C37_aliases_partial : forall macros m fuel page sp1 sp2 src o, 2 <= page ->
  (forall name, occurs name src -> same_known sp1 sp2 name /\ same_args sp1 sp2 name) ->
  (macros = true -> same_args sp1 sp2 (tx "fi")) ->
  convert_source macros m fuel page src (Some sp1) = COk o ->
  exists f0, forall f, f0 <= f -> convert_source macros m f page src (Some sp2) = COk o.
Proof.
  intros macros m fuel page sp1 sp2 src o Hp Hn Hfi H. unfold convert_source, convert_inner in *.
  destruct (parse_source macros fuel page sp1 src) as [t| |] eqn:E; try discriminate.
  destruct (C27_source macros fuel page sp1 sp2 src t Hp Hn Hfi E) as [f0 Hf]. exists f0. intros f L. now rewrite (Hf f L).
Qed.
Print Assumptions C37_aliases_partial.
(** renaming what [\alpha] stands for has no effect *)
Example C37_alias_ignored : let sp2 := adds DEFAULT_SPEC (tx "alpha") (define_symbol (tx "omega")) in
  (forall name, same_known DEFAULT_SPEC sp2 name /\ same_args DEFAULT_SPEC sp2 name) /\
  convert_math 300 PAGE (tx "\alpha_1") None = COk (tx "alpha _(1 )") /\
  convert_math 300 PAGE (tx "\alpha_1") (Some sp2) = COk (tx "alpha _(1 )").
Proof.
  intros sp2. split; [|split; vm_compute; reflexivity]. intros name. unfold same_known, same_args, get_cmd, get_env, sp2, adds.
  destruct (teqb name (tx "alpha")) eqn:E; [apply teqb_eq in E; subst name; vm_compute; (split; [split; discriminate|split; reflexivity])|].
  split; [tauto|split; reflexivity].
Qed.

