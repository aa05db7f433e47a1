(** Properties C29, C32, C33, C38: the converter on every syntax tree.
    Vocabulary: ConvSpec.v ([same_context], [occurs_in], [everywhere],
    [command_named], [environment_named], [error_cause], [converted], [fine]). *)
From Verif Require Import Api ConvTerm ConvSeen.
Local Open Scope nat_scope.

(* ------------------------------------------------------------------ *)
(** * C29  Conversion restores its context *)

Theorem C29_context : forall sp fuel t s s' o, convert sp fuel t s = COk (s', o) ->
  c_mode s' = c_mode s /\ c_env s' = c_env s /\ c_indent s' = c_indent s.
Proof.
  intros sp fuel. assert (G : forall t s, cwp (convert sp fuel t s) (fun r => same_context s (fst r)) (fun _ => True)).
  { induction fuel as [|n IH]; intros t s; [exact I|]. cbn [convert].
    apply step_restores with (R := fun _ => True).
    - intros u _ s' _. apply IH.
    - exact (fun _ _ => I).
    - left. now intros p.
    - left. intros p. exact I. }
  intros t s s' o E. specialize (G t s). rewrite E in G. exact G.
Qed.
Print Assumptions C29_context.

(** ... so the outputs of the elements of a list are simply concatenated, each
    converted in the context of the whole. *)
Inductive one_by_one (f : tree -> cst -> cout) (s0 : cst) : list tree -> text -> Prop :=
| obo_nil : one_by_one f s0 [] []
| obo_cons t l s s' o o' :
    c_mode s = c_mode s0 -> c_env s = c_env s0 -> c_indent s = c_indent s0 ->
    f t s = COk (s', o) -> one_by_one f s0 l o' -> one_by_one f s0 (t :: l) (o ++ o').
Lemma each_one_by_one sp fuel l : forall s0 s s' o, same_context s0 s -> each (convert sp fuel) l s = COk (s', o) ->
  one_by_one (convert sp fuel) s0 l o.
Proof.
  induction l as [|t l IH]; intros s0 s s' o Hs E; cbn in E.
  - injection E as _ <-. constructor.
  - apply cbind_ok in E as ([s1 o1] & E1 & E). apply cbind_ok in E as ([s2 o2] & E2 & E). injection E as _ <-.
    pose proof Hs as (H1 & H2 & H3). econstructor; eauto. eapply IH; [|exact E2].
    apply C29_context in E1. eapply same_context_trans; [exact Hs|exact E1].
Qed.
Theorem C29_siblings : forall sp fuel k ch s s' o,
  In k [ScopeRoot; ItemLR; ClauseArgument; ItemText; ItemBracket; ItemParen] ->
  convert sp (S fuel) (Node k ch) s = COk (s', o) ->
  one_by_one (convert sp fuel) s ch o.
Proof.
  intros sp fuel k ch s s' o Hk E. cbn [convert] in E. unfold convert_step in E.
  assert (E' : each (convert sp fuel) ch (set_skip false s) = COk (s', o)).
  { cbn in Hk. destruct Hk as [<- |[<- |[<- |[<- |[<- |[<- |[]]]]]]]; exact E. }
  eapply each_one_by_one; [|exact E']. repeat split.
Qed.
Print Assumptions C29_siblings.
Example C29_example : exists s' o,
  convert DEFAULT_SPEC 20 (Node ItemEnv [Node ItemBegin [Leaf TokenCommandSym (tx "itemize")];
     Node ItemCmd [Leaf ClauseCommandName (tx "\item")]; Leaf TokenWord (tx "x");
     Node ItemEnd [Leaf TokenCommandSym (tx "itemize")]]) (mk_cst MMath EMatrix 7 None true) = COk (s', o) /\
  o = 10%N :: tx "       - x " /\ c_env s' = EMatrix /\ c_indent s' = 7.
Proof. eexists _, _. split; [vm_compute; reflexivity|]. repeat split. Qed.

(* ------------------------------------------------------------------ *)
(** * C33  Conversion terminates *)

(** The fuel bounds the depth of the recursion; the height of the tree suffices,
    and more changes nothing. *)
Theorem C33_terminates : forall sp t s fuel, height t <= fuel -> convert sp fuel t s <> CFuel.
Proof. intros. now apply convert_stops. Qed.
Print Assumptions C33_terminates.
Theorem C33_stable : forall sp t s fuel x, convert sp fuel t s = x -> x <> CFuel ->
  forall fuel', fuel <= fuel' -> convert sp fuel' t s = x.
Proof.
  intros sp t s fuel x E N fuel' L. destruct (convert_mono sp fuel fuel' t s L) as [F|F]; [congruence|]. congruence.
Qed.
Print Assumptions C33_stable.
Theorem C33_tree : forall sp m t, convert_tree sp m t <> CFuel.
Proof.
  intros sp m t E. unfold convert_tree in E. destruct (convert sp (S (height t)) t (cst_new m)) as [[s o]|e|p|] eqn:Ec; try discriminate.
  eapply convert_stops; [|exact Ec]. lia.
Qed.
Print Assumptions C33_tree.
(** the public functions: once the parser has answered, there is an answer *)
Theorem C33_public : forall do_parse m sp src, convert_inner do_parse m sp src = CFuel ->
  do_parse (match sp with Some s => s | None => DEFAULT_SPEC end) src = Fuel.
Proof.
  intros do_parse m sp src E. unfold convert_inner in E. destruct (do_parse _ src) as [t|p|]; [|discriminate|reflexivity].
  now apply C33_tree in E.
Qed.
Print Assumptions C33_public.

(* ------------------------------------------------------------------ *)
(** * C32  Unknown commands and environments are reported *)

Lemma tree_answer sp m t o : convert_tree sp m t = COk o -> exists s', convert sp (S (height t)) t (cst_new m) = COk (s', o).
Proof. intros E. unfold convert_tree in E. apply cbind_ok in E as ([s' o'] & E & E'). injection E' as <-. eauto. Qed.

(** Success: everything that was converted is known. *)
Theorem C32_success : forall sp m t o, convert_tree sp m t = COk o -> forall t', converted sp t t' ->
  (forall name, command_named t' name -> ~ In name special_names -> get_cmd sp name <> None) /\
  (forall c name, t' = Leaf TokenCommandSym (c :: name) -> get_cmd sp name <> None) /\
  (forall name, environment_named t' name -> get_env sp name <> None).
Proof.
  intros sp m t o E t' Ht. apply tree_answer in E as [s' E]. destruct (converted_done _ _ _ Ht _ _ _ E) as (f & s1 & r1 & E1).
  destruct f as [|f]; [discriminate|]. cbn [convert] in E1.
  assert (N : forall e, error_cause sp e t' -> e = EItem) by (intros e; apply (step_no_cause _ _ _ _ _ E1)).
  split; [|split].
  - intros name H1 H2 H3. discriminate (N (EUnknownCommand name)). split; auto.
  - intros c name -> H3. discriminate (N (EUnknownCommand name)). split; eauto.
  - intros name H1 H3. discriminate (N (EUnknownEnv name)). split; auto.
Qed.
Print Assumptions C32_success.

(** Errors are true: what an error message names occurs in the tree and is
    unknown (and so for the other messages). *)
Theorem C32_errors_true : forall sp fuel t s e, convert sp fuel t s = CErr e ->
  exists t', seen t' t /\ error_cause sp e t'.
Proof.
  intros sp fuel t0. set (R := fun f => match f with FailErr e => exists t', seen t' t0 /\ error_cause sp e t' | _ => True end).
  assert (G : forall n t s, seen t t0 -> cwp (convert sp n t s) (fun r => same_context s (fst r)) R).
  { induction n as [|n IH]; intros t s Ht; [exact I|]. cbn [convert]. apply step_restores with (R := R).
    - intros u Hu s' _. apply IH. eapply seen_trans; [|exact Ht]. eapply under_seen; [exact Hu|constructor].
    - intros e He. exists t. auto.
    - left. now intros p.
    - left. intros p. exact I. }
  intros s e E. specialize (G fuel t0 s (seen_self _)). rewrite E in G. exact G.
Qed.
Print Assumptions C32_errors_true.

(** An unknown command or environment gives the error naming it when it is
    reached *)
Theorem C32_unknown_command : forall sp fuel t s name, command_named t name -> is_node t = true ->
  ~ In name special_names -> get_cmd sp name = None -> cmd_name_tok t = Some (92%N :: name) ->
  convert sp (S fuel) t s = CErr (EUnknownCommand name).
Proof.
  intros sp fuel t s name [Hk _] Hn Hs Hg Ht. cbn [convert]. unfold convert_step. rewrite Hk. cbv zeta.
  unfold convert_cmd. destruct t as [|k ch]; [discriminate|]. unfold convert_normal_command, cmd_name. rewrite Ht. cbn [unwrap cbind].
  rewrite !tail1_small by lia. cbn [cbind]. rewrite Hg.
  assert (N : forall x, In x special_names -> teqb name x = false).
  { intros x Hx. apply teqb_neq. intros ->. contradiction. }
  unfold special_names in N. cbn [map] in N. rewrite !N by (simpl; tauto). reflexivity.
Qed.
Print Assumptions C32_unknown_command.
Theorem C32_unknown_symbol : forall sp fuel s name, get_cmd sp name = None ->
  convert sp (S fuel) (Leaf TokenCommandSym (92%N :: name)) s = CErr (EUnknownCommand name).
Proof.
  intros sp fuel s name Hg. cbn [convert]. unfold convert_step. cbv zeta. cbn [tkind convert_command_sym].
  rewrite tail1_small by lia. cbn [cbind]. now rewrite Hg.
Qed.
Print Assumptions C32_unknown_symbol.
Theorem C32_unknown_environment : forall sp fuel t s name, environment_named t name -> get_env sp name = None ->
  convert sp (S fuel) t s = CErr (EUnknownEnv name).
Proof.
  intros sp fuel t s name (Hk & n & Hn & ->) Hg. cbn [convert]. unfold convert_step. rewrite Hk. cbv zeta. unfold convert_env.
  rewrite Hn. cbn [unwrap cbind]. now rewrite Hg.
Qed.
Print Assumptions C32_unknown_environment.

(** ... and, if nothing in the tree makes the conversion panic, an unknown
    command or environment anywhere among the converted elements makes the
    whole conversion an error. *)
Lemma fine_no_panic sp m t : convertible sp t -> forall p, convert_tree sp m t <> CPanic p.
Proof.
  intros HF p E. set (R := fun f => match f with FailErr _ => True | _ => False end).
  assert (G : forall n u s, height u <= n -> convertible sp u -> (is_list_env (c_env s) = true -> 2 <= c_indent s) ->
     cwp (convert sp n u s) (fun r => same_context s (fst r)) R).
  { induction n as [|n IH]; intros u s L Hu Hs; [destruct u; simpl in L; lia|]. cbn [convert].
    apply step_restores with (R := R).
    - intros v Hv s' [Hp|Hs']; [exfalso; exact (Hp ""%string)|]. apply IH; [apply height_under in Hv; lia| |exact Hs'].
      intros x Hx. apply Hu. eapply under_seen; eauto.
    - intros e _. exact I.
    - right. exact Hu.
    - right. exact Hs. }
  specialize (G (S (height t)) t (cst_new m) (Nat.le_succ_diag_r _) HF). unfold convert_tree in E.
  destruct (convert sp (S (height t)) t (cst_new m)) as [[s o]|e|q|]; try discriminate; cbn in G; apply G; discriminate.
Qed.
Theorem C32_reported : forall sp m t t', convertible sp t -> converted sp t t' ->
  (exists name, command_named t' name /\ ~ In name special_names /\ get_cmd sp name = None) \/
  (exists c name, t' = Leaf TokenCommandSym (c :: name) /\ get_cmd sp name = None) \/
  (exists name, environment_named t' name /\ get_env sp name = None) ->
  exists e t'', convert_tree sp m t = CErr e /\ seen t'' t /\ error_cause sp e t''.
Proof.
  intros sp m t t' HF Hc Hu. destruct (convert_tree sp m t) as [o|e|p|] eqn:E.
  - exfalso. destruct (C32_success _ _ _ _ E _ Hc) as (H1 & H2 & H3).
    destruct Hu as [(n & A & B & C)|[(c & n & A & B)|(n & A & B)]]; [eapply H1|eapply H2|eapply H3]; eauto.
  - unfold convert_tree in E. destruct (convert sp (S (height t)) t (cst_new m)) as [[s o]|e'|p|] eqn:Ec; try discriminate.
    injection E as <-. apply C32_errors_true in Ec as (t'' & H1 & H2). eauto.
  - exfalso. now apply (fine_no_panic sp m t HF p).
  - exfalso. now apply C33_tree in E.
Qed.
Print Assumptions C32_reported.
(** ... naming it, if it is the only thing wrong *)
Theorem C32_reported_name : forall sp m t t' name, convertible sp t -> converted sp t t' ->
  command_named t' name -> ~ In name special_names -> get_cmd sp name = None ->
  (forall t'' e, seen t'' t -> error_cause sp e t'' -> e = EUnknownCommand name) ->
  convert_tree sp m t = CErr (EUnknownCommand name).
Proof.
  intros sp m t t' name HF Hc Hn Hs Hg Ho. destruct (C32_reported sp m t t' HF Hc) as (e & t'' & E & H1 & H2); [left; eauto|].
  rewrite E. f_equal. eauto.
Qed.
Print Assumptions C32_reported_name.
Example C32_example :
  convert_text 300 PAGE (tx "a \textbf{b \begin{figure} $\foo$ \end{figure}}") None = CErr (EUnknownCommand (tx "foo")) /\
  convert_text 300 PAGE (tx "\begin{bar}\end{bar}") None = CErr (EUnknownEnv (tx "bar")) /\
  (exists o, convert_text 300 PAGE (tx "a \textbf{b \begin{figure} $\alpha$ \end{figure}}") None = COk o).
Proof. repeat split; [vm_compute; reflexivity..|eexists; vm_compute; reflexivity]. Qed.

(* ------------------------------------------------------------------ *)
(** * C38  Mismatched formula delimiters are errors *)

Definition matching (s s' : text) : Prop :=
  In (s, s') [(tx "$", tx "$"); (tx "$$", tx "$$"); (tx "\(", tx "\)"); (tx "\[", tx "\]")].

Lemma valid_matching t k s k' s' : first_token t = Some (k, s) -> last_token t = Some (k', s') ->
  formula_is_valid t = true -> matching s s'.
Proof.
  intros E1 E2 H. unfold formula_is_valid in H. rewrite E1, E2 in H. unfold matching. cbn [In].
  destruct (_ && _).
  - apply orb_prop in H as [H|H]; apply andb_prop in H as [H1 H2]; apply teqb_eq in H1, H2; subst; auto.
  - destruct (_ && _); [|discriminate].
    apply orb_prop in H as [H|H]; apply andb_prop in H as [H1 H2]; apply teqb_eq in H1, H2; subst; auto.
Qed.
Lemma last_snoc k body c : c <> Node (tkind c) [] -> forall l, last_token c = Some l ->
  last_token (Node k (body ++ [c])) = Some l.
Proof.
  intros _ l E. cbn [last_token]. induction body as [|b body IH]; [exact E|]. cbn [app].
  destruct (body ++ [c]) as [|x y] eqn:Eb; [destruct body; discriminate|]. exact IH.
Qed.
(** A formula with an opening and a closing delimiter that do not match is an
    error ... *)
Theorem C38_mismatch : forall sp fuel st k s body k' s', ~ matching s s' ->
  convert sp (S fuel) (Node ItemFormula (Leaf k s :: body ++ [Leaf k' s'])) st = CErr EFormula.
Proof.
  intros sp fuel st k s body k' s' N. cbn [convert]. unfold convert_step. cbv zeta. cbn [tkind].
  unfold convert_formula. cbn [node_children cbind].
  destruct (formula_is_valid _) eqn:E; [|reflexivity]. exfalso. apply N.
  refine (valid_matching (Node ItemFormula (Leaf k s :: body ++ [Leaf k' s'])) k s k' s' eq_refl _ E). apply (last_snoc ItemFormula (Leaf k s :: body) (Leaf k' s')); [discriminate|reflexivity].
Qed.
Print Assumptions C38_mismatch.
(** ... also when the closing delimiter is missing and the last token of the
    formula is something else ... *)
Theorem C38_unclosed : forall sp fuel st k s body k' s', last_token (Node ItemFormula (Leaf k s :: body)) = Some (k', s') ->
  ~ matching s s' -> convert sp (S fuel) (Node ItemFormula (Leaf k s :: body)) st = CErr EFormula.
Proof.
  intros sp fuel st k s body k' s' E N. cbn [convert]. unfold convert_step. cbv zeta. cbn [tkind].
  unfold convert_formula. cbn [node_children cbind]. destruct (formula_is_valid _) eqn:Ev; [|reflexivity]. exfalso. apply N.
  exact (valid_matching (Node ItemFormula (Leaf k s :: body)) k s k' s' eq_refl E Ev).
Qed.
Print Assumptions C38_unclosed.
(** ... and wherever the formula occurs among the converted elements, there is
    no output. *)
Theorem C38_no_output : forall sp m t k s body k' s', ~ matching s s' ->
  converted sp t (Node ItemFormula (Leaf k s :: body ++ [Leaf k' s'])) ->
  forall o, convert_tree sp m t <> COk o.
Proof.
  intros sp m t k s body k' s' N Hc o E. apply tree_answer in E as [st E].
  destruct (converted_done _ _ _ Hc _ _ _ E) as (f & s1 & r1 & E1). destruct f as [|f]; [discriminate|].
  rewrite C38_mismatch in E1 by exact N. discriminate.
Qed.
Print Assumptions C38_no_output.
(** Matching delimiters are accepted: the error is raised for nothing else. *)
Theorem C38_match : forall sp fuel st s s' body r,
  matching s s' -> (forall x, In x body -> exists s1 o, forall st', convert sp fuel x st' = COk (s1 st', o st')) ->
  let k := if teqb s (tx "$") || teqb s (tx "$$") then (TokenDollar, TokenDollar) else (TokenBeginMath, TokenEndMath) in
  convert sp (S fuel) (Node ItemFormula (Leaf (fst k) s :: body ++ [Leaf (snd k) s'])) st = r ->
  fuel <> 0 -> exists s1 o, r = COk (s1, o).
Proof.
  intros sp fuel st s s' body r Hm Hb k E Hf. cbn [convert] in E. unfold convert_step in E. cbv zeta in E. cbn [tkind] in E.
  unfold convert_formula in E. cbn [node_children cbind] in E.
  assert (V : formula_is_valid (Node ItemFormula (Leaf (fst k) s :: body ++ [Leaf (snd k) s'])) = true).
  { change (Leaf (fst k) s :: body ++ [Leaf (snd k) s']) with ((Leaf (fst k) s :: body) ++ [Leaf (snd k) s']). unfold formula_is_valid. rewrite (last_snoc ItemFormula (Leaf (fst k) s :: body) (Leaf (snd k) s') ltac:(discriminate) (snd k, s') eq_refl).
    cbn [first_token app]. unfold matching in Hm. cbn [In] in Hm.
    destruct Hm as [Hm|[Hm|[Hm|[Hm|[]]]]]; injection Hm as <- <-; reflexivity. }
  rewrite V in E. cbn [negb] in E.
  assert (L : forall x, In x (Leaf (fst k) s :: body ++ [Leaf (snd k) s']) -> exists s1 o, forall st', convert sp fuel x st' = COk (s1 st', o st')).
  { destruct fuel as [|fuel]; [contradiction|]. intros x [<- |Hx]; [|apply in_app_iff in Hx as [Hx|[<- |[]]]; [auto|]].
    - exists (set_skip false), (fun _ => []). intros st'. unfold k. destruct (_ || _); reflexivity.
    - exists (set_skip false), (fun _ => []). intros st'. unfold k. destruct (_ || _); reflexivity. }
  revert E L. generalize (Leaf (fst k) s :: body ++ [Leaf (snd k) s']). intros l E L.
  assert (G : forall l st', (forall x, In x l -> exists s1 o, forall st', convert sp fuel x st' = COk (s1 st', o st')) ->
     exists s1 o, each (convert sp fuel) l st' = COk (s1, o)).
  { clear. induction l as [|x l IH]; intros st' L; [cbn; eauto|]. cbn [each]. destruct (L x (or_introl eq_refl)) as (f & g & Ef).
    rewrite Ef. cbn [cbind]. destruct (IH (f st')) as (s2 & o2 & E2); [intros; apply L; now right|]. fold (each (convert sp fuel)). rewrite E2. cbn. eauto. }
  match type of E with (let! _ := each _ _ ?s0 in _) = _ => destruct (G l s0 L) as (s1 & o1 & E1) end.
  rewrite E1 in E. cbn [cbind] in E. eauto.
Qed.
Print Assumptions C38_match.

(** Refuted in general: a formula that is never closed passes when its last
    token looks like the closing delimiter, e.g. a lone dollar. *)
Theorem C38_unclosed_accepted :
  convert_text 100 PAGE (tx "a $") None = COk (tx "a #math.equation(block: false, $$);") /\
  (exists o, convert_text 100 PAGE (tx "$ a {$ b $} c {$") None = COk o).
Proof. split; [vm_compute; reflexivity|eexists; vm_compute; reflexivity]. Qed.
Print Assumptions C38_unclosed_accepted.
Example C38_example :
  convert_text 100 PAGE (tx "\(x\]") None = CErr EFormula /\ convert_text 100 PAGE (tx "$x") None = CErr EFormula /\
  convert_text 100 PAGE (tx "$x$$") None = CErr EFormula /\ convert_text 100 PAGE (tx "\[x\]") None = COk (tx "$ x  $").
Proof. repeat split; vm_compute; reflexivity. Qed.
