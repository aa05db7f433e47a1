(** C40-C42, C48-C53: specification tables, argument matchers, the command
    line, syntax kinds and the plugin boundary. *)
From Verif Require Import BaseFacts Spec ArgMatch Cli Syntax Api.
From Coq Require Import Permutation Sorted ZifyN ZifyNat ZifyBool.
Local Open Scope N_scope.

(* ------------------------------------------------------------------ *)
(** * C52  Syntax kinds round-trip *)

(** There are 45 kinds; each has a number below 45, from which it is recovered;
    every other 16-bit number is rejected. *)
Theorem C52_round_trip :
  (forall k, kind_from_raw (kind_to_raw k) = Ok k) /\
  (forall n k, from_repr n = Some k <-> kind_to_raw k = n) /\
  (forall n, (exists k, from_repr n = Some k) <-> n < 45) /\
  (forall n, 45 <= n -> exists site, kind_from_raw n = Panic site).
Proof.
  assert (A : forall k, kind_from_raw (kind_to_raw k) = Ok k) by (intros []; reflexivity).
  assert (B : forall n k, from_repr n = Some k <-> kind_to_raw k = n).
  { intros n k. split.
    - unfold from_repr. intros H.
      assert (L : (N.to_nat n < 45)%nat).
      { change 45%nat with (List.length all_kinds). apply nth_error_Some. now rewrite H. }
      rewrite <- (N2Nat.id n). revert H L. generalize (N.to_nat n) as m. intros m H L.
      do 45 (destruct m as [|m]; [injection H as <-; reflexivity|]). lia.
    - intros <-. specialize (A k). unfold kind_from_raw in A.
      destruct (from_repr (kind_to_raw k)); congruence. }
  assert (C : forall n, (exists k, from_repr n = Some k) <-> n < 45).
  { intros n. split.
    - intros [k H]. apply B in H. subst n. destruct k; reflexivity.
    - intros H. destruct (from_repr n) as [k|] eqn:E; [eauto|].
      unfold from_repr in E. apply nth_error_None in E.
      change (List.length all_kinds) with 45%nat in E. lia. }
  repeat split; auto.
  - apply B.
  - apply B.
  - apply C.
  - apply C.
  - intros n H. unfold kind_from_raw. destruct (from_repr n) as [k|] eqn:E; [|eauto].
    assert (n < 45) by (apply C; eauto). lia.
Qed.
Example C52_example : kind_from_raw 44 = Ok ScopeRoot /\ kind_from_raw 27 = Ok ClauseCommandName.
Proof. split; reflexivity. Qed.

(* ------------------------------------------------------------------ *)
(** * C42  Command and environment look-ups are exclusive *)

Theorem C42_exclusive : forall (s : spec) (name : text),
  (forall c, get_cmd s name = Some c <-> s name = Some (SICmd c)) /\
  (forall e, get_env s name = Some e <-> s name = Some (SIEnv e)) /\
  ~ (get_cmd s name <> None /\ get_env s name <> None) /\
  (s name = None <-> get_cmd s name = None /\ get_env s name = None).
Proof.
  intros s name. unfold get_cmd, get_env.
  destruct (s name) as [[c|e]|]; repeat split; intros; try congruence; intuition congruence.
Qed.

(* ------------------------------------------------------------------ *)
(** * C48  Argument matchers count correctly *)

Section C48.
  Variable gm : text -> text -> bool.

  (** the matcher after the kinds [cs] have been offered to it *)
  Fixpoint offered (m : matcher) (cs : text) : matcher :=
    match cs with
    | [] => m
    | c :: r => offered (snd (try_match gm m c)) r
    end.
  (** is kind [c] accepted, offered after [cs]? *)
  Definition accepts (p : arg_pattern) (cs : text) (c : char) : bool :=
    fst (try_match gm (offered (start_match p) cs) c).
  (** how many terms occur in a sequence of kinds *)
  Definition terms (cs : text) : nat := count_occ N.eq_dec cs ARG_TERM.

  (** the specification: when should [c] be accepted after [cs]? *)
  Definition should_accept (p : arg_pattern) (cs : text) (c : char) : Prop :=
    match p with
    | PNone => False
    | PFixed n => c = ARG_TERM /\ N.of_nat (terms cs) < n
    | PRange _ n => c = ARG_TERM /\ N.of_nat (terms cs) < n
    | PGreedy => True
    | PGlob re => gm re (cs ++ [c]) = true
    end.

  Lemma offered_none cs : offered AMNone cs = AMNone.
  Proof. induction cs as [|c cs IH]; simpl; auto. Qed.
  Lemma offered_greedy cs : offered AMGreedy cs = AMGreedy.
  Proof. induction cs as [|c cs IH]; simpl; auto. Qed.
  Lemma offered_atmost mx cs : forall n,
    offered (AMAtMost mx n) cs = AMAtMost mx (n + N.of_nat (terms cs)).
  Proof.
    induction cs as [|c cs IH]; intros n; simpl.
    - f_equal. cbn. lia.
    - unfold terms in *. destruct (N.eqb_spec c ARG_TERM) as [->|E]; simpl.
      + rewrite IH. f_equal. destruct (N.eq_dec ARG_TERM ARG_TERM); [|congruence]. lia.
      + rewrite IH. destruct (N.eq_dec c ARG_TERM); [congruence|]. reflexivity.
  Qed.
  Lemma offered_glob re cs : forall pre, offered (AMGlob re pre) cs = AMGlob re (pre ++ cs).
  Proof.
    induction cs as [|c cs IH]; intros pre; simpl; [now rewrite app_nil_r|].
    rewrite IH, <- app_assoc. reflexivity.
  Qed.

  Theorem C48_counts : forall p cs c, accepts p cs c = true <-> should_accept p cs c.
  Proof.
    intros p cs c. unfold accepts.
    assert (AM : forall n, fst (try_match gm (offered (if n =? 0 then AMNone else AMAtMost n 0) cs) c) = true
                 <-> c = ARG_TERM /\ N.of_nat (terms cs) < n).
    { intros n. destruct (N.eqb_spec n 0) as [->|Hn].
      - rewrite offered_none. simpl. split; [discriminate|intros [_ H]; lia].
      - rewrite offered_atmost. simpl. destruct (N.eqb_spec c ARG_TERM) as [->|E]; simpl.
        + rewrite N.ltb_lt. tauto.
        + split; [discriminate|tauto]. }
    destruct p as [|n|mn n| |re]; simpl.
    - rewrite offered_none. simpl. split; [discriminate|tauto].
    - apply AM.
    - apply AM.
    - rewrite offered_greedy. simpl. tauto.
    - rewrite offered_glob. simpl. tauto.
  Qed.

  (** and the other entry of the matcher, used by the parser for a bracket or a
      parenthesis met in argument position: it answers "no argument", "an
      argument of this kind" or "an argument, re-read as a term" *)
  Definition accepts_as (p : arg_pattern) (cs : text) (c : char) : option bool :=
    fst (match_as_term gm (offered (start_match p) cs) c).
  Theorem C48_as_term : forall p cs c,
    accepts_as p cs c =
      match p with
      | PNone => None
      | PGlob re => if gm re (cs ++ [c]) then Some false else None
      | PGreedy => Some (negb (c =? ARG_TERM))
      | PFixed n | PRange _ n =>
        if N.of_nat (terms cs) <? n then Some (negb (c =? ARG_TERM)) else None
      end.
  Proof.
    intros p cs c. unfold accepts_as.
    assert (AM : forall n, fst (match_as_term gm (offered (if n =? 0 then AMNone else AMAtMost n 0) cs) c)
                 = if N.of_nat (terms cs) <? n then Some (negb (c =? ARG_TERM)) else None).
    { intros n. destruct (N.eqb_spec n 0) as [->|Hn].
      - rewrite offered_none. simpl. destruct (N.ltb_spec (N.of_nat (terms cs)) 0); [lia|reflexivity].
      - rewrite offered_atmost. unfold match_as_term, try_match.
        rewrite N.eqb_refl, N.add_0_l. reflexivity. }
    destruct p as [|n|mn n| |re]; cbn [start_match]; auto.
    - rewrite offered_none. reflexivity.
    - rewrite offered_greedy. reflexivity.
    - rewrite offered_glob. simpl. destruct (gm re (cs ++ [c])); reflexivity.
  Qed.

  (** the number of terms a matcher takes from [k] of them *)
  Fixpoint taken (m : matcher) (k : nat) : nat :=
    match k with
    | O => 0
    | S k => let '(ok, m) := try_match gm m ARG_TERM in if ok then S (taken m k) else 0
    end%nat.
  Corollary C48_terms : forall n k,
    taken (start_match (PFixed n)) k = Nat.min (N.to_nat n) k /\
    taken (start_match PNone) k = 0%nat /\ taken (start_match PGreedy) k = k.
  Proof.
    intros n k. split; [|split].
    - assert (AM : forall k c, taken (AMAtMost n c) k = Nat.min (N.to_nat n - N.to_nat c) k).
      { clear k. induction k as [|k IH]; intros c; simpl; [lia|].
        destruct (N.ltb_spec c n); [rewrite IH|]; lia. }
      simpl. destruct (N.eqb_spec n 0) as [->|]; [destruct k; reflexivity|].
      rewrite AM. lia.
    - destruct k; reflexivity.
    - simpl. induction k as [|k IH]; simpl; congruence.
  Qed.
End C48.
Example C48_example :
  accepts gm_real (PFixed 2) [116] 116 = true /\
  accepts gm_real (PFixed 2) [116; 116] 116 = false /\
  accepts gm_real (PGlob (tx "{,b}t")) [98] 116 = true /\
  accepts gm_real (PGlob (tx "{,b}t")) [98; 116] 116 = false.
Proof. repeat split; vm_compute; reflexivity. Qed.

(* ------------------------------------------------------------------ *)
(** * C40  Specification shorthands *)

(** What an item means to the parser and the converter: is it a command or an
    environment; on which side are its arguments; which sequences of argument
    kinds does it take; how is it named in the output ([None]: its own name);
    how is an environment's body treated. *)
Inductive role :=
| RRight (takes : (text -> text -> bool) -> text -> char -> Prop)  (* right-hand arguments *)
| RLeft                                       (* one argument, to the left *)
| RInfix.                                     (* everything left and right *)
Inductive meaning :=
| MCmd (r : role) (name : option text)
| MEnv (takes : (text -> text -> bool) -> text -> char -> Prop) (body : ctx_feature) (name : option text).

Definition meaning_of (i : spec_item) : meaning :=
  let takes p := fun gm cs c => accepts gm p cs c = true in
  match i with
  | SICmd {| cs_args := SRight p; cs_alias := a |} => MCmd (RRight (takes p)) a
  | SICmd {| cs_args := SLeft1; cs_alias := a |} => MCmd RLeft a
  | SICmd {| cs_args := SInfixGreedy; cs_alias := a |} => MCmd RInfix a
  | SIEnv {| en_args := p; en_feature := f; en_alias := a |} => MEnv (takes p) f a
  end.

Definition same_takes (p q : (text -> text -> bool) -> text -> char -> Prop) : Prop :=
  forall gm cs c, p gm cs c <-> q gm cs c.
Definition same_role (a b : role) : Prop :=
  match a, b with
  | RRight p, RRight q => same_takes p q
  | RLeft, RLeft | RInfix, RInfix => True
  | _, _ => False
  end.
Definition same_meaning (a b : meaning) : Prop :=
  match a, b with
  | MCmd r x, MCmd r' y => same_role r r' /\ x = y
  | MEnv p f x, MEnv q g y => same_takes p q /\ f = g /\ x = y
  | _, _ => False
  end.

(** the documented meanings (query.rs:31-97) *)
Definition no_args : (text -> text -> bool) -> text -> char -> Prop := fun _ _ _ => False.
Definition first_terms (n : nat) : (text -> text -> bool) -> text -> char -> Prop :=
  fun _ cs c => c = ARG_TERM /\ (terms cs < n)%nat.
Definition any_args : (text -> text -> bool) -> text -> char -> Prop := fun _ _ _ => True.
Definition by_glob (re : text) : (text -> text -> bool) -> text -> char -> Prop :=
  fun gm cs c => gm re (cs ++ [c]) = true.

Definition documented (j : json_item) : meaning :=
  match j with
  | JCmd c => meaning_of (SICmd c)
  | JEnv e => meaning_of (SIEnv e)
  | JSymbol => MCmd (RRight no_args) None
  | JCommand0 => MCmd (RRight no_args) None
  | JCommand1 => MCmd (RRight (first_terms 1)) None
  | JCommand2 => MCmd (RRight (first_terms 2)) None
  | JCmdLeft1 => MCmd RLeft None
  | JEnvMatrix => MEnv no_args FMatrix None
  | JEnvNormal => MEnv no_args FNone None
  | JEnvGlob re a f => MEnv (by_glob re) f (Some a)
  | JSymAlias a => MCmd (RRight no_args) (Some a)
  | JCmdGreedy a => MCmd (RRight any_args) (Some a)
  | JCmdInfix a => MCmd RInfix (Some a)
  | JCmdGlob re a => MCmd (RRight (by_glob re)) (Some a)
  end.

Theorem C40_shorthands : forall j,
  same_meaning (meaning_of (canonical j)) (documented j) /\
  (forall c, j = JCmd c -> canonical j = SICmd c) /\
  (forall e, j = JEnv e -> canonical j = SIEnv e) /\
  (* the two argument-less command shorthands differ: one is a symbol, the
     other a function call *)
  (j = JSymbol -> canonical j <> canonical JCommand0).
Proof.
  assert (T0 : forall s, same_takes s s) by (intros s gm cs c; reflexivity).
  assert (TN : same_takes (fun gm cs c => accepts gm PNone cs c = true) no_args).
  { intros gm cs c. rewrite C48_counts. unfold no_args. cbn. tauto. }
  assert (TF : forall n, same_takes (fun gm cs c => accepts gm (PFixed (N.of_nat n)) cs c = true) (first_terms n)).
  { intros n gm cs c. rewrite C48_counts. unfold first_terms. cbn. split; intros [? ?]; split; auto; lia. }
  assert (TG : same_takes (fun gm cs c => accepts gm PGreedy cs c = true) any_args).
  { intros gm cs c. rewrite C48_counts. unfold any_args. cbn. tauto. }
  assert (TB : forall re, same_takes (fun gm cs c => accepts gm (PGlob re) cs c = true) (by_glob re)).
  { intros re gm cs c. rewrite C48_counts. unfold by_glob. cbn. tauto. }
  assert (T00 : same_takes (fun gm cs c => accepts gm (PFixed 0) cs c = true) no_args).
  { intros gm cs c. rewrite (TF 0%nat gm cs c). unfold no_args, first_terms. split; [intros [_ ?]; lia|tauto]. }
  intros j. split; [|split; [|split]]; [|intros c ->; reflexivity|intros c ->; reflexivity|intros ->; discriminate].
  destruct j as [[[p| |] a]|[p f a]| | | | | | | |re a f|a|a|a|re a]; cbn -[accepts];
    auto using (TF 1%nat), (TF 2%nat).
Qed.
Example C40_example : documented (JCmdGlob (tx "{,b}t") (tx "mitexsqrt"))
  = MCmd (RRight (by_glob (tx "{,b}t"))) (Some (tx "mitexsqrt")).
Proof. reflexivity. Qed.

(* ------------------------------------------------------------------ *)
(** * C41  Later packages override earlier ones *)

(** the item of the last package defining [n] *)
Fixpoint last_defining (n : text) (pkgs : list (list (text * json_item))) : option json_item :=
  match pkgs with
  | [] => None
  | pkg :: r =>
    match last_defining n r with
    | Some i => Some i
    | None => assoc n pkg
    end
  end.

Lemma assoc_upsert {V} n k (v : V) l :
  assoc n (upsert k v l) = if teqb n k then Some v else assoc n l.
Proof.
  induction l as [|[k' v'] r IH]; simpl; [reflexivity|].
  destruct (teqbP k k') as [<-|E]; simpl.
  - destruct (teqb n k); reflexivity.
  - rewrite IH. destruct (teqbP n k') as [->|]; [|reflexivity].
    destruct (teqbP k' k); congruence.
Qed.
Lemma keys_upsert {V} k (v : V) l :
  NoDup (map fst l) -> NoDup (map fst (upsert k v l)).
Proof.
  assert (K : forall l : list (text * V), forall x, In x (map fst (upsert k v l)) <-> x = k \/ In x (map fst l)).
  { clear l. induction l as [|[k' v'] r IH]; intros x; simpl; [intuition congruence|].
    destruct (teqbP k k') as [<-|E]; simpl; [intuition congruence|]. rewrite IH. tauto. }
  induction l as [|[k' v'] r IH]; simpl; intros H.
  - constructor; [tauto|constructor].
  - destruct (teqbP k k') as [<-|E]; [exact H|]. inversion_clear H as [|? ? H1 H2].
    simpl. constructor; auto. rewrite K. intros [->|]; tauto.
Qed.
Lemma assoc_In {V} n (l : list (text * V)) :
  NoDup (map fst l) -> forall v, assoc n l = Some v <-> In (n, v) l.
Proof.
  induction l as [|[k v'] r IH]; simpl; intros H v; [split; [discriminate|tauto]|].
  inversion_clear H as [|? ? H1 H2]. destruct (teqbP n k) as [->|E].
  - split; [intros [= ->]; auto|]. intros [[= ->]|Hin]; auto.
    exfalso. apply H1. change k with (fst (k, v)). now apply in_map.
  - rewrite IH by assumption. intuition congruence.
Qed.
Lemma assoc_none {V} n (l : list (text * V)) : assoc n l = None <-> ~ In n (map fst l).
Proof.
  induction l as [|[k v'] r IH]; simpl; [tauto|].
  destruct (teqbP n k) as [->|E]; [split; [discriminate|tauto]|]. rewrite IH. intuition congruence.
Qed.
Lemma merge_one pkg : forall (m : list (text * json_item)),
  NoDup (map fst pkg) ->
  forall n, assoc n (fold_left (fun m e => upsert (fst e) (snd e) m) pkg m)
    = match assoc n pkg with Some i => Some i | None => assoc n m end.
Proof.
  induction pkg as [|[k v] pkg IH]; simpl; intros m H n; [reflexivity|].
  inversion_clear H as [|? ? H1 H2]. rewrite IH by assumption. rewrite assoc_upsert.
  destruct (teqbP n k) as [->|E]; [|reflexivity].
  apply assoc_none in H1. now rewrite H1.
Qed.
Lemma merge_all pkgs : forall m,
  Forall (fun p => NoDup (map fst p)) pkgs ->
  forall n, assoc n (fold_left (fun m pkg => fold_left (fun m e => upsert (fst e) (snd e) m) pkg m) pkgs m)
    = match last_defining n pkgs with Some i => Some i | None => assoc n m end.
Proof.
  induction pkgs as [|pkg pkgs IH]; simpl; intros m H n; [reflexivity|].
  inversion_clear H as [|? ? H1 H2]. rewrite IH by assumption. rewrite merge_one by assumption.
  destruct (last_defining n pkgs); [reflexivity|]. destruct (assoc n pkg); reflexivity.
Qed.
Lemma merge_nodup pkgs : NoDup (map fst (merge_packages pkgs)).
Proof.
  unfold merge_packages. assert (H : NoDup (map fst (@nil (text * json_item)))) by constructor.
  revert H. generalize (@nil (text * json_item)). induction pkgs as [|pkg pkgs IH]; simpl; intros m H; auto.
  apply IH. clear IH pkgs. revert m H. induction pkg as [|[k v] pkg IH]; simpl; intros m H; auto.
  apply IH. now apply keys_upsert.
Qed.
Lemma assoc_map_canonical n m :
  assoc n (spec_of_json m) = option_map canonical (assoc n m).
Proof.
  induction m as [|[k v] m IH]; simpl; [reflexivity|]. destruct (teqb n k); auto.
Qed.

(** A package is a hash map: a list of entries with distinct names, in some
    order.  The specification built from the merged packages answers, for
    every name, the item of the last package defining it. *)
Theorem C41_last_wins : forall pkgs,
  Forall (fun p => NoDup (map fst p)) pkgs ->
  forall n,
    spec_of (spec_of_json (merge_packages pkgs)) n = option_map canonical (last_defining n pkgs) /\
    (* as a table: distinct names, and no entries but those *)
    NoDup (map fst (merge_packages pkgs)) /\
    (forall i, In (n, i) (merge_packages pkgs) <-> last_defining n pkgs = Some i).
Proof.
  intros pkgs H n.
  assert (E : assoc n (merge_packages pkgs) = last_defining n pkgs).
  { unfold merge_packages. rewrite merge_all by assumption. simpl. now destruct (last_defining n pkgs). }
  split; [|split].
  - unfold spec_of. now rewrite assoc_map_canonical, E.
  - apply merge_nodup.
  - intros i. rewrite <- E. symmetry. apply assoc_In. apply merge_nodup.
Qed.
(** [last_defining] read as English: some package defines [n] as [i] and no
    later one defines [n] *)
Theorem C41_last_means : forall n i pkgs,
  last_defining n pkgs = Some i <->
  exists before pkg after, pkgs = before ++ pkg :: after /\ assoc n pkg = Some i /\
    Forall (fun p => ~ In n (map fst p)) after.
Proof.
  intros n i pkgs. assert (N : forall l, last_defining n l = None <-> Forall (fun p => ~ In n (map fst p)) l).
  { induction l as [|p l IH]; simpl; [split; auto|].
    destruct (last_defining n l) eqn:E.
    - split; [discriminate|]. intros HF. inversion_clear HF. apply IH in H0. discriminate.
    - rewrite assoc_none. split; [intros; constructor; auto; now apply IH|]. now inversion_clear 1. }
  induction pkgs as [|p l IH]; simpl.
  - split; [discriminate|]. intros (b & p & a & E & _). destruct b; discriminate.
  - split.
    + destruct (last_defining n l) as [j|] eqn:E.
      * intros [= ->]. apply proj1 in IH. destruct (IH eq_refl) as (b & q & a & -> & H1 & H2).
        exists (p :: b), q, a. auto.
      * intros H. exists [], p, l. split; [reflexivity|]. split; auto. now apply N.
    + intros (b & q & a & E & H1 & H2). destruct b as [|p' b]; simpl in E; injection E as -> ->.
      * apply N in H2. now rewrite H2.
      * rewrite (proj2 IH); [reflexivity|]. exists b, q, a. auto.
Qed.
(** and the answer does not depend on the order in which each package's hash
    map is iterated *)
Theorem C41_order_independent : forall pkgs pkgs',
  Forall (fun p => NoDup (map fst p)) pkgs ->
  Forall2 (fun p p' => Permutation p p') pkgs pkgs' ->
  forall n, spec_of (spec_of_json (merge_packages pkgs)) n
          = spec_of (spec_of_json (merge_packages pkgs')) n.
Proof.
  intros pkgs pkgs' H P n.
  assert (H' : Forall (fun p => NoDup (map fst p)) pkgs').
  { clear n. revert H. induction P as [|p p' l l' Hp P IH]; intros H; [constructor|].
    inversion_clear H. constructor; auto. eapply Permutation_NoDup; [|eassumption].
    now apply Permutation_map. }
  assert (E : last_defining n pkgs = last_defining n pkgs').
  { clear H'. revert H. induction P as [|p p' l l' Hp P IH]; intros H; simpl; [reflexivity|].
    inversion_clear H. rewrite IH by assumption. destruct (last_defining n l'); [reflexivity|].
    assert (ND : NoDup (map fst p')) by (eapply Permutation_NoDup; [|eassumption]; now apply Permutation_map).
    destruct (assoc n p) eqn:E1.
    - symmetry. apply assoc_In; [assumption|]. eapply Permutation_in; [eassumption|]. now apply assoc_In.
    - symmetry. apply assoc_none. apply assoc_none in E1. intros I. apply E1.
      eapply Permutation_in; [|eassumption]. apply Permutation_map. now symmetry. }
  rewrite (proj1 (C41_last_wins pkgs H n)), (proj1 (C41_last_wins pkgs' H' n)). now rewrite E.
Qed.
Example C41_example :
  let p1 := [(tx "a", JSymbol); (tx "b", JCommand1)] in
  let p2 := [(tx "b", JCommand2)] in
  Forall (fun p => NoDup (map fst p)) [p1; p2] /\
  get_cmd (spec_of (spec_of_json (merge_packages [p1; p2]))) (tx "b")
  = Some {| cs_args := SRight (PFixed 2); cs_alias := None |}.
Proof.
  split; [|reflexivity]. repeat constructor; simpl; intuition discriminate.
Qed.
(* ------------------------------------------------------------------ *)
(** * C53  The plugin boundary adds nothing *)

(** Unicode scalar values: what a Rust [char] can hold *)
Definition scalar (c : char) : Prop := c < 0xD800 \/ 0xE000 <= c <= 0x10FFFF.

Ltac Zify.zify_post_hook ::= Z.div_mod_to_equations.

Lemma is_cont_true b : is_cont b = true <-> 0x80 <= b <= 0xBF.
Proof. unfold is_cont. rewrite andb_true_iff, !N.leb_le. tauto. Qed.

Ltac blia :=
  repeat match goal with
  | H : _ && _ = true |- _ => apply andb_true_iff in H as [? H]
  | H : is_cont _ = true |- _ => apply is_cont_true in H
  | H : (_ <=? _) = true |- _ => apply N.leb_le in H
  | H : (_ =? _) = true |- _ => apply N.eqb_eq in H
  | H : (_ <? _) = true |- _ => apply N.ltb_lt in H
  | H : (_ <? _) = false |- _ => apply N.ltb_ge in H
  | H : _ || _ = true |- _ => apply orb_true_iff in H as [H|H]
  end; try lia.

Ltac yes := repeat (rewrite ?andb_true_iff, ?orb_true_iff, ?is_cont_true, ?N.leb_le, ?N.eqb_eq).

Lemma decode_one c r : scalar c ->
  utf8_decode (utf8_char c ++ r) = option_map (cons c) (utf8_decode r).
Proof.
  intros S. unfold scalar in S. unfold utf8_char.
  destruct (N.ltb_spec c 0x80) as [H1|H1].
  { cbn [app utf8_decode]. now apply N.ltb_lt in H1 as ->. }
  destruct (N.ltb_spec c 0x800) as [H2|H2].
  { cbn [app utf8_decode].
    destruct (N.ltb_spec (0xC0 + c / 0x40) 0x80) as [H|H]; [lia|].
    replace ((0xC2 <=? 0xC0 + c / 0x40) && (0xC0 + c / 0x40 <=? 0xDF) && is_cont (0x80 + c mod 0x40)) with true.
    2:{ symmetry. yes. lia. }
    do 2 f_equal. lia. }
  destruct (N.ltb_spec c 0x10000) as [H3|H3].
  { cbn [app utf8_decode].
    set (b0 := 0xE0 + c / 0x1000). set (b1 := 0x80 + (c / 0x40) mod 0x40). set (b2 := 0x80 + c mod 0x40).
    destruct (N.ltb_spec b0 0x80) as [H|H]; [lia|].
    replace ((0xC2 <=? b0) && (b0 <=? 0xDF) && is_cont b1) with false.
    2:{ symmetry. apply not_true_is_false. yes. lia. }
    cbv zeta.
    match goal with |- (if ?b then _ else _) = _ => replace b with true end.
    2:{ symmetry. yes. lia. }
    do 2 f_equal. lia. }
  cbn [app utf8_decode].
  set (b0 := 0xF0 + c / 0x40000). set (b1 := 0x80 + (c / 0x1000) mod 0x40).
  set (b2 := 0x80 + (c / 0x40) mod 0x40). set (b3 := 0x80 + c mod 0x40).
  destruct (N.ltb_spec b0 0x80) as [H|H]; [lia|].
  replace ((0xC2 <=? b0) && (b0 <=? 0xDF) && is_cont b1) with false.
  2:{ symmetry. apply not_true_is_false. yes. lia. }
  cbv zeta.
  match goal with |- (if ?b then _ else _) = _ => replace b with false end.
  2:{ symmetry. apply not_true_is_false. yes. lia. }
  match goal with |- (if ?b then _ else _) = _ => replace b with true end.
  2:{ symmetry. yes. lia. }
  do 2 f_equal. lia.
Qed.

Lemma decode_encode s : Forall scalar s -> utf8_decode (utf8 s) = Some s.
Proof.
  induction 1 as [|c s Hc Hs IH]; [reflexivity|].
  change (utf8 (c :: s)) with (utf8_char c ++ utf8 s). now rewrite decode_one, IH.
Qed.

Lemma encode_decode_n n : forall bs, (List.length bs <= n)%nat ->
  forall s, utf8_decode bs = Some s -> Forall scalar s /\ utf8 s = bs.
Proof.
  induction n as [|n IH]; intros bs L s.
  { destruct bs; [|simpl in L; lia]. intros [= <-]. auto. }
  assert (K : forall r c p, (List.length r <= n)%nat -> scalar c -> utf8_char c = p ->
    option_map (cons c) (utf8_decode r) = Some s -> Forall scalar s /\ utf8 s = p ++ r).
  { intros r c p L' Hc Hp H. destruct (utf8_decode r) as [t|] eqn:E; [|discriminate].
    injection H as <-. destruct (IH r L' t E) as [H1 H2]. split; [constructor; auto|].
    change (utf8 (c :: t)) with (utf8_char c ++ utf8 t). congruence. }
  destruct bs as [|b0 r0]; [intros [= <-]; auto|].
  cbn [utf8_decode]. simpl in L.
  destruct (N.ltb_spec b0 0x80) as [H0|H0].
  { apply (K r0 b0 [b0]); [lia|left; lia|].
    unfold utf8_char. now apply N.ltb_lt in H0 as ->. }
  destruct r0 as [|b1 r1]; [discriminate|]. simpl in L.
  destruct ((0xC2 <=? b0) && (b0 <=? 0xDF) && is_cont b1) eqn:H1.
  { blia. apply (K r1 _ [b0; b1]); [lia|left; lia|].
    unfold utf8_char.
    destruct (N.ltb_spec ((b0 - 0xC0) * 0x40 + (b1 - 0x80)) 0x80); [lia|].
    destruct (N.ltb_spec ((b0 - 0xC0) * 0x40 + (b1 - 0x80)) 0x800); [|lia].
    repeat f_equal; lia. }
  destruct r1 as [|b2 r2]; [discriminate|]. simpl in L. cbv zeta.
  match goal with |- (if ?b then _ else _) = _ -> _ => destruct b eqn:H2 end.
  { set (c := (b0 - 0xE0) * 0x1000 + (b1 - 0x80) * 0x40 + (b2 - 0x80)).
    assert (B : 0xE0 <= b0 <= 0xEF /\ 0x80 <= b1 <= 0xBF /\ 0x80 <= b2 <= 0xBF
                /\ (b0 = 0xE0 -> 0xA0 <= b1) /\ (b0 = 0xED -> b1 <= 0x9F)).
    { clear - H2. blia. }
    apply (K r2 c [b0; b1; b2]); [lia|unfold scalar, c; lia|].
    unfold utf8_char.
    destruct (N.ltb_spec c 0x80); [unfold c in *; lia|].
    destruct (N.ltb_spec c 0x800); [unfold c in *; lia|].
    destruct (N.ltb_spec c 0x10000); [|unfold c in *; lia].
    unfold c. clear - B. repeat f_equal; lia. }
  destruct r2 as [|b3 r3]; [discriminate|]. simpl in L.
  match goal with |- (if ?b then _ else _) = _ -> _ => destruct b eqn:H3 end; [|discriminate].
  set (c := (b0 - 0xF0) * 0x40000 + (b1 - 0x80) * 0x1000 + (b2 - 0x80) * 0x40 + (b3 - 0x80)).
  assert (B : 0xF0 <= b0 <= 0xF4 /\ 0x80 <= b1 <= 0xBF /\ 0x80 <= b2 <= 0xBF /\ 0x80 <= b3 <= 0xBF
              /\ (b0 = 0xF0 -> 0x90 <= b1) /\ (b0 = 0xF4 -> b1 <= 0x8F)).
  { clear - H3. blia. }
  apply (K r3 c [b0; b1; b2; b3]); [lia|unfold scalar, c; lia|].
  unfold utf8_char.
  destruct (N.ltb_spec c 0x80); [unfold c in *; lia|].
  destruct (N.ltb_spec c 0x800); [unfold c in *; lia|].
  destruct (N.ltb_spec c 0x10000); [unfold c in *; lia|].
  unfold c. clear - B. repeat f_equal; lia.
Qed.

(** Decoding accepts exactly the encodings of sequences of scalar values and
    recovers the sequence. *)
Theorem C53_utf8 : forall bs s,
  utf8_decode bs = Some s <-> Forall scalar s /\ utf8 s = bs.
Proof.
  intros bs s. split.
  - apply (encode_decode_n (List.length bs)). lia.
  - intros [H <-]. now apply decode_encode.
Qed.
Corollary utf8_inj a b : Forall scalar a -> Forall scalar b -> utf8 a = utf8 b -> a = b.
Proof.
  intros Ha Hb E. apply decode_encode in Ha. apply decode_encode in Hb. congruence.
Qed.

(** The result of the library, as the plugin protocol renders it *)
Inductive renders : cres text -> plugin_res -> Prop :=
| R_ok o : renders (COk o) (PBytes (utf8 o))
| R_err e : renders (CErr e) (PConvertError e)
| R_panic p : renders (CPanic p) (PTrap p)
| R_fuel : renders CFuel PFuel.

(** For every input: if the bytes are the encoding of a string, the plugin
    answers what the library answers for that string, with the built-in
    specification when the specification bytes are empty and the decoded one
    otherwise; if they are not, it answers the decoding error. *)
Theorem C53_boundary : forall from_bytes fuel page input spec_bytes,
  let sp := match spec_bytes with [] => None | _ => Some (from_bytes spec_bytes) end in
  (forall s, Forall scalar s -> input = utf8 s ->
     renders (convert_math fuel page s sp) (plugin_convert_math from_bytes fuel page input spec_bytes) /\
     renders (convert_text fuel page s sp) (plugin_convert_text from_bytes fuel page input spec_bytes)) /\
  ((forall s, Forall scalar s -> input <> utf8 s) ->
     plugin_convert_math from_bytes fuel page input spec_bytes = PUtf8Error /\
     plugin_convert_text from_bytes fuel page input spec_bytes = PUtf8Error) /\
  (* with no specification the built-in one is used *)
  (spec_bytes = [] -> forall s,
     convert_math fuel page s sp = convert_math fuel page s (Some DEFAULT_SPEC) /\
     convert_text fuel page s sp = convert_text fuel page s (Some DEFAULT_SPEC)).
Proof.
  intros from_bytes fuel page input sb sp. split; [|split].
  - intros s Hs ->. unfold plugin_convert_math, plugin_convert_text, plugin.
    rewrite decode_encode by assumption.
    change (extract_spec from_bytes sb) with sp.
    split; [destruct (convert_math fuel page s sp)|destruct (convert_text fuel page s sp)]; constructor.
  - intros H. unfold plugin_convert_math, plugin_convert_text, plugin.
    destruct (utf8_decode input) as [s|] eqn:E; [|auto].
    apply C53_utf8 in E as [Hs E]. exfalso. exact (H s Hs (eq_sym E)).
  - intros E s. subst sp. rewrite E. split; reflexivity.
Qed.
Example C53_example :
  utf8_decode [0xE6; 0xB1; 0x89; 36] = Some [0x6C49; 36] /\
  utf8_decode [0xED; 0xA0; 0x80] = None /\ utf8_decode [0xC0; 0x80] = None.
Proof. repeat split; vm_compute; reflexivity. Qed.
(* ------------------------------------------------------------------ *)
(** * C49  Command-line options *)

(** Which input and output the options ask for ([None]: no output given).
    Either both come from the named options, or both from positional
    arguments; never a mixture. *)
Inductive asks_for (a : compile_args) : text -> option text -> Prop :=
| named_both i o : a_input a = i -> a_output a = o -> a_positional a = [] -> i <> [] -> o <> [] ->
    asks_for a i (Some o)
| named_input i : a_input a = i -> a_output a = [] -> a_positional a = [] -> i <> [] ->
    asks_for a i None
| positional_input i : a_input a = [] -> a_output a = [] -> a_positional a = [i] -> i <> [] ->
    asks_for a i None
| positional_both i o : a_input a = [] -> a_output a = [] -> a_positional a = [i; o] -> i <> [] -> o <> [] ->
    asks_for a i (Some o)
| positional_empty_output i : a_input a = [] -> a_output a = [] -> a_positional a = [i; []] -> i <> [] ->
    asks_for a i None.

Theorem C49_options : forall a,
  (forall i o, process_opts a = CliOk i o <->
     exists oo, asks_for a i oo /\ o = match oo with Some o => o | None => with_extension i (tx "tex") end) /\
  (* the errors *)
  (process_opts a = CliErr MixedPositional <->
     a_positional a <> [] /\ (a_input a <> [] \/ a_output a <> [])) /\
  (process_opts a = CliErr TooManyPositional <->
     a_input a = [] /\ a_output a = [] /\ (2 < List.length (a_positional a))%nat) /\
  (process_opts a = CliErr InputRequired <->
     a_input a = [] /\
     (a_positional a = [] \/
      a_output a = [] /\ (exists o, a_positional a = [[]] \/ a_positional a = [[]; o]))).
Proof.
  intros [i o pos]. unfold process_opts. simpl a_input. simpl a_output. simpl a_positional.
  split; [|split; [|split]].
  - intros i' o'. split.
    + intros H. destruct i as [|ci i]; destruct o as [|co o];
        (destruct pos as [|p1 [|p2 [|p3 pos]]]; try discriminate H);
        try (destruct p1 as [|cp p1]; [discriminate H|]);
        try (destruct p2 as [|cp2 p2]); injection H as <- <-.
      * exists None. split; [|reflexivity]. apply positional_input; auto; discriminate.
      * exists None. split; [|reflexivity]. apply positional_empty_output; auto; discriminate.
      * exists (Some (cp2 :: p2)). split; [|reflexivity]. apply positional_both; auto; discriminate.
      * exists None. split; [|reflexivity]. apply named_input; auto; discriminate.
      * exists (Some (co :: o)). split; [|reflexivity]. apply named_both; auto; discriminate.
    + intros (oo & [j p E1 E2 E3 N1 N2|j E1 E2 E3 N1|j E1 E2 E3 N1|j p E1 E2 E3 N1 N2|j E1 E2 E3 N1] & ->);
        simpl in E1, E2, E3; subst; simpl; try (destruct j as [|? ?]; [congruence|]);
        try (destruct p as [|? ?]; [congruence|]); reflexivity.
  - split.
    + intros H. destruct i as [|ci i]; destruct o as [|co o];
        (destruct pos as [|p1 [|p2 [|p3 pos]]]; try discriminate H);
        try (destruct p1; discriminate H); split; try discriminate; auto; (left + right); discriminate.
    + intros [H1 H2]. destruct pos as [|p pos]; [congruence|].
      destruct i; [destruct o; [destruct H2; congruence|reflexivity]|reflexivity].
  - split.
    + intros H. destruct i as [|ci i]; destruct o as [|co o];
        (destruct pos as [|p1 [|p2 [|p3 pos]]]; try discriminate H);
        try (destruct p1; discriminate H). repeat split. simpl. lia.
    + intros (-> & -> & H). destruct pos as [|p1 [|p2 [|p3 pos]]]; simpl in H; try lia. reflexivity.
  - split.
    + intros H. destruct i as [|ci i]; destruct o as [|co o];
        (destruct pos as [|p1 [|p2 [|p3 pos]]]; try discriminate H); auto;
        try (destruct p1; [|discriminate H]); split; auto; right; split; auto;
        first [exists (@nil N); left; reflexivity | eexists; right; reflexivity].
    + intros (-> & [-> | (-> & o' & [-> | ->])]); [destruct o; reflexivity|reflexivity|reflexivity].
Qed.
Example C49_example :
  process_opts (mk_args [] [] [tx "a.md"; tx "b.typ"]) = CliOk (tx "a.md") (tx "b.typ") /\
  process_opts (mk_args (tx "a") [] [tx "b"]) = CliErr MixedPositional.
Proof. split; reflexivity. Qed.

(* ------------------------------------------------------------------ *)
(** * C50  The default output *)

(** [p] names the file [n] in the directory prefix [dir] (empty, or ending in
    a separator) *)
Definition names_file (p dir n : text) : Prop :=
  p = dir ++ n /\ (dir = [] \/ exists d, dir = d ++ [47]) /\
  n <> [] /\ n <> tx "." /\ n <> tx ".." /\ ~ In 47 n.

Lemma drop_trailing_id n dir : n <> [] -> n <> tx "." -> ~ In 47 n ->
  drop_trailing (rev n ++ dir) = rev n ++ dir.
Proof.
  intros H1 H2 H3. destruct (rev n) as [|c r] eqn:E.
  - exfalso. apply H1. rewrite <- (rev_involutive n), E. reflexivity.
  - assert (En : n = rev r ++ [c]) by (rewrite <- (rev_involutive n), E; reflexivity).
    assert (Hc : c <> 47). { intros ->. apply H3. rewrite En. apply in_or_app. right. simpl. auto. }
    simpl. destruct (N.eqb_spec c 47); [congruence|].
    destruct (N.eqb_spec c 46) as [->|]; [|reflexivity].
    destruct r as [|c' r']; simpl.
    + exfalso. apply H2. rewrite En. reflexivity.
    + assert (Hc' : c' <> 47).
      { intros ->. apply H3. rewrite En. simpl. apply in_or_app. left. apply in_or_app. right. simpl. auto. }
      destruct (N.eqb_spec c' 47); [congruence|reflexivity].
Qed.
Lemma file_name_ok p dir n : names_file p dir n -> file_name p = Some (dir, n).
Proof.
  intros (-> & D & H1 & H2 & H3 & H4). unfold file_name. rewrite rev_app_distr.
  rewrite drop_trailing_id by assumption.
  rewrite span_intro.
  - rewrite rev_involutive.
    destruct (teqbP n []); [congruence|]. destruct (teqbP n (tx ".")); [congruence|].
    destruct (teqbP n (tx "..")); [congruence|]. simpl. now rewrite rev_involutive.
  - apply Forall_forall. intros c Hc. destruct (N.eqb_spec c 47) as [->|]; [|reflexivity].
    exfalso. apply H4. now apply in_rev.
  - destruct D as [-> | (d & ->)]; [exact I|]. rewrite rev_app_distr. reflexivity.
Qed.
(** the stem of a name: cut at the last dot, unless it is the first character *)
Lemma file_stem_dot s e : s <> [] -> ~ In 46 e -> file_stem (s ++ 46 :: e) = s.
Proof.
  intros H1 H2. unfold file_stem. rewrite rev_app_distr. simpl. rewrite <- app_assoc.
  rewrite span_intro.
  - simpl. destruct (rev s) eqn:E.
    + exfalso. apply H1. rewrite <- (rev_involutive s), E. reflexivity.
    + rewrite <- E. apply rev_involutive.
  - apply Forall_forall. intros c Hc. destruct (N.eqb_spec c 46) as [->|]; [|reflexivity].
    exfalso. apply H2. now apply in_rev.
  - reflexivity.
Qed.
Lemma file_stem_cases n :
  (exists s e, n = s ++ 46 :: e /\ s <> [] /\ ~ In 46 e) \/ file_stem n = n.
Proof.
  unfold file_stem. destruct (span (fun c => negb (c =? 46)) (rev n)) as [a b] eqn:E.
  pose proof (span_app _ _ _ _ E) as E1. pose proof (span_all _ _ _ _ E) as E2.
  pose proof (span_stop _ _ _ _ E) as E3.
  destruct b as [|d [|c b]]; auto.
  left. exists (rev (c :: b)), (rev a).
  assert (d = 46) as -> by (apply negb_false_iff, N.eqb_eq in E3; assumption).
  split; [|split].
  - rewrite <- (rev_involutive n), E1, rev_app_distr. simpl. rewrite <- !app_assoc. reflexivity.
  - simpl. intros H. apply app_eq_nil in H as [_ H]. discriminate.
  - intros H. apply in_rev in H. rewrite Forall_forall in E2. specialize (E2 _ H). discriminate.
Qed.
Lemma app_inj_length (a b c d : text) : List.length a = List.length b -> a ++ c = b ++ d -> a = b /\ c = d.
Proof.
  revert b. induction a as [|x a IH]; intros [|y b] L E; simpl in *; try lia; auto.
  injection E as -> E. destruct (IH b ltac:(lia) E). subst. auto.
Qed.
Lemma default_output_same p dir n : names_file p dir n ->
  (with_extension p (tx "tex") = p <-> exists s, s <> [] /\ n = s ++ tx ".tex").
Proof.
  intros H. pose proof (file_name_ok _ _ _ H) as F. destruct H as (-> & _ & H1 & _).
  unfold with_extension. rewrite F. cbn [tx]. 
  split.
  - intros E. apply app_inv_head in E.
    destruct (file_stem_cases n) as [(s & e & -> & Hs & He)|Hn].
    + rewrite file_stem_dot in E by assumption. exists s. split; [assumption|]. now rewrite <- E.
    + rewrite Hn in E. apply (f_equal (@List.length N)) in E. rewrite app_length in E. simpl in E. lia.
  - intros (s & Hs & ->). f_equal.
    change (tx ".tex") with (46 :: tx "tex"). rewrite file_stem_dot; [reflexivity|assumption|].
    simpl. intuition discriminate.
Qed.

(** Refuted, for every input whose name is [stem.tex] - the documented way to
    call the tool: without an output option the output path is the input path,
    and a successful compilation replaces the source by its translation. *)
Theorem C50_refuted : forall p dir stem,
  names_file p dir (stem ++ tx ".tex") -> stem <> [] ->
  process_opts (mk_args [] [] [p]) = CliOk p p /\
  process_opts (mk_args p [] []) = CliOk p p /\
  (forall conv items f f' src,
     f p = Some src -> compile conv items p p f = Written f' ->
     exists o, conv src = Some (Some o) /\ f' p = Some (document items o)).
Proof.
  intros p dir stem H Hs.
  assert (E : with_extension p (tx "tex") = p).
  { apply (default_output_same p dir (stem ++ tx ".tex") H). eauto. }
  assert (Np : p <> []).
  { intros ->. destruct H as (H & _ & H2 & _). symmetry in H. apply app_eq_nil in H as [_ H]. congruence. }
  split; [|split].
  - unfold process_opts. cbn [a_input a_output a_positional]. destruct p; [congruence|]. now rewrite E.
  - unfold process_opts. cbn [a_input a_output a_positional]. destruct p; [congruence|]. now rewrite E.
  - intros conv items f f' src H1 H2. unfold compile in H2. rewrite H1 in H2.
    destruct (conv src) as [[o|]|]; try discriminate. injection H2 as <-.
    exists o. split; [reflexivity|]. unfold fs_write. now rewrite teqb_refl.
Qed.
(** What does hold: for every file not called [stem.tex], the default output is
    another path and compiling leaves the input file as it was. *)
Theorem C50_other_extension_partial : forall p dir n,
  names_file p dir n -> (forall stem, stem <> [] -> n <> stem ++ tx ".tex") ->
  exists out, process_opts (mk_args [] [] [p]) = CliOk p out /\
    process_opts (mk_args p [] []) = CliOk p out /\ out <> p /\
    (* in the same directory, with extension tex *)
    (exists stem, out = dir ++ stem ++ tx ".tex") /\
    (forall conv items f f', compile conv items p out f = Written f' -> f' p = f p).
Proof.
  intros p dir n H Hn. exists (with_extension p (tx "tex")).
  assert (Np : p <> []).
  { intros ->. destruct H as (H & _ & H2 & _). symmetry in H. apply app_eq_nil in H as [_ H]. congruence. }
  assert (No : with_extension p (tx "tex") <> p).
  { intros E. apply (default_output_same p dir n H) in E as (s & Hs & E). exact (Hn s Hs E). }
  split; [|split; [|split; [|split]]].
  - unfold process_opts. cbn [a_input a_output a_positional]. destruct p; [congruence|]. reflexivity.
  - unfold process_opts. cbn [a_input a_output a_positional]. destruct p; [congruence|]. reflexivity.
  - assumption.
  - unfold with_extension. rewrite (file_name_ok _ _ _ H). exists (file_stem n). reflexivity.
  - intros conv items f f' H2. unfold compile in H2.
    destruct (f p) as [src|] eqn:E; [|discriminate].
    destruct (conv src) as [[o|]|]; try discriminate. injection H2 as <-. unfold fs_write.
    match goal with |- context [teqb ?a ?b] => destruct (teqbP a b) as [Eq|] end; [|exact E].
    exfalso. apply No. now symmetry.
Qed.
Example C50_example : names_file (tx "doc/main.tex") (tx "doc/") (tx "main" ++ tx ".tex") /\
  names_file (tx "main.latex") [] (tx "main.latex") /\
  process_opts (mk_args [] [] [tx "main.latex"]) = CliOk (tx "main.latex") (tx "main.tex").
Proof.
  split; [|split; [|reflexivity]].
  - split; [reflexivity|]. split; [right; exists (tx "doc"); reflexivity|].
    repeat split; try discriminate. simpl. intuition discriminate.
  - split; [reflexivity|]. split; [left; reflexivity|].
    repeat split; try discriminate. simpl. intuition discriminate.
Qed.

(* ------------------------------------------------------------------ *)
(** * C51  The generated prelude *)

(** an alias is declared when it is a non-empty word of ASCII letters and
    digits and no Typst keyword *)
Definition eligible (a : text) : Prop :=
  a <> [] /\ Forall (fun c => (48 <= c <= 57) \/ (65 <= c <= 90) \/ (97 <= c <= 122)) a /\
  ~ In a [tx "and"; tx "or"; tx "in"; tx "not"].
Definition aliased (items : list (text * spec_item)) (a : text) : Prop :=
  exists n i, In (n, i) items /\
    match i with SICmd c => cs_alias c = Some a | SIEnv e => en_alias e = Some a end.
(** strict order of the bytes *)
Inductive before : list N -> list N -> Prop :=
| before_nil y b : before [] (y :: b)
| before_lt x a y b : x < y -> before (x :: a) (y :: b)
| before_eq x a b : before a b -> before (x :: a) (x :: b).

Lemma tmem_In x l : tmem x l = true <-> In x l.
Proof.
  unfold tmem. rewrite existsb_exists. split.
  - intros (y & H & E). apply teqb_eq in E. now subst.
  - intros H. exists x. split; [assumption|apply teqb_refl].
Qed.
Lemma alnum_iff c : is_ascii_alnum c = true <-> (48 <= c <= 57) \/ (65 <= c <= 90) \/ (97 <= c <= 122).
Proof.
  unfold is_ascii_alnum, is_ascii_alpha, is_ascii_digit.
  rewrite !orb_true_iff, !andb_true_iff, !N.leb_le. tauto.
Qed.
Lemma alias_ok_iff a : alias_ok a = true /\ ~ In a builtin_names <-> eligible a.
Proof.
  unfold alias_ok, eligible, builtin_names. rewrite andb_true_iff, forallb_forall, Forall_forall.
  assert (E : (forall c, In c a -> is_ascii_alnum c = true) <->
    (forall c, In c a -> 48 <= c <= 57 \/ 65 <= c <= 90 \/ 97 <= c <= 122)).
  { split; intros H c Hc; apply alnum_iff; auto. }
  destruct a; simpl negb; split.
  - intros [[H _] _]. discriminate.
  - intros [H _]. congruence.
  - intros [[_ H1] H2]. split; [discriminate|]. tauto.
  - intros (_ & H1 & H2). tauto.
Qed.
Lemma item_alias_iff i a : item_alias i = Some a <->
  match i with SICmd c => cs_alias c = Some a | SIEnv e => en_alias e = Some a end.
Proof. destruct i; reflexivity. Qed.

Lemma collect_spec items : forall acc,
  NoDup acc ->
  NoDup (collect_aliases items acc) /\
  (forall a, In a (collect_aliases items acc) <-> In a acc \/ (aliased items a /\ eligible a)).
Proof.
  induction items as [|[n it] items IH]; intros acc H; cbn [collect_aliases].
  { split; [assumption|]. intros a. split; [auto|]. intros [|[(? & ? & [] & _) _]]; auto. }
  assert (AL : forall a, aliased ((n, it) :: items) a <-> item_alias it = Some a \/ aliased items a).
  { intros a. unfold aliased. split.
    - intros (m & i & [[= -> ->]|Hin] & Hi); [left; now apply item_alias_iff|right; eauto].
    - intros [Hi|(m & i & Hin & Hi)]; [|exists m, i; simpl; auto].
      exists n, it. split; [simpl; auto|]. now apply item_alias_iff. }
  destruct (item_alias it) as [a|] eqn:Ea.
  2:{ destruct (IH acc H) as [I1 I2]. split; [assumption|]. intros a. rewrite I2, AL. intuition congruence. }
  destruct (alias_ok a) eqn:Eo; cbn [negb].
  2:{ destruct (IH acc H) as [I1 I2]. split; [assumption|]. intros b. rewrite I2, AL. split; [tauto|].
      intros [?|[[[= ->]|?] He]]; auto. apply alias_ok_iff in He. destruct He; congruence. }
  destruct (tmem a builtin_names) eqn:Eb; cbn [orb].
  { destruct (IH acc H) as [I1 I2]. split; [assumption|]. intros b. rewrite I2, AL. split; [tauto|].
    intros [?|[[[= ->]|?] He]]; auto. apply alias_ok_iff in He. apply tmem_In in Eb. tauto. }
  assert (He : eligible a).
  { apply alias_ok_iff. split; [assumption|]. intros Hin. apply tmem_In in Hin. congruence. }
  destruct (tmem a acc) eqn:Em.
  { destruct (IH acc H) as [I1 I2]. split; [assumption|]. intros b. rewrite I2, AL. apply tmem_In in Em. split; [tauto|].
    intros [?|[[[= ->]|?] ?]]; auto. }
  assert (H' : NoDup (a :: acc)).
  { constructor; [|assumption]. intros Hin. apply tmem_In in Hin. congruence. }
  destruct (IH (a :: acc) H') as [I1 I2]. split; [assumption|]. intros b. rewrite I2, AL. simpl.
  intuition (subst; auto). left. left. congruence.
Qed.

Lemma insert_perm x l : Permutation (insert_sorted x l) (x :: l).
Proof.
  induction l as [|y l IH]; simpl; [reflexivity|]. destruct (text_le x y); [reflexivity|].
  rewrite IH. apply perm_swap.
Qed.
Lemma sort_perm l : Permutation (sort_texts l) l.
Proof. induction l as [|x l IH]; simpl; [reflexivity|]. rewrite insert_perm. now constructor. Qed.

Lemma bytes_le_iff a : forall b, bytes_le a b = true <-> a = b \/ before a b.
Proof.
  induction a as [|x a IH]; intros [|y b]; simpl.
  - split; auto.
  - split; auto. intros _. right. constructor.
  - split; [discriminate|]. intros [H|H]; [discriminate|inversion H].
  - destruct (N.eqb_spec x y) as [->|E].
    + rewrite IH. split.
      * intros [-> |H]; [auto|right; now constructor].
      * intros [[= ->]|H]; [auto|]. inversion H; subst; [lia|auto].
    + rewrite N.ltb_lt. split; [right; now constructor|].
      intros [[= ? ?]|H]; [congruence|]. inversion H; subst; [assumption|congruence].
Qed.
Lemma before_trans a b : before a b -> forall c, before b c -> before a c.
Proof.
  induction 1 as [y b|x a y b H|x a b H IH]; intros c H2; inversion H2; subst.
  - constructor. - constructor. - apply before_lt. lia. - now apply before_lt.
  - now apply before_lt. - apply before_eq. auto.
Qed.
Lemma before_irrefl a : ~ before a a.
Proof. induction a as [|x a IH]; intros H; inversion H; subst; [lia|auto]. Qed.
Lemma before_total a : forall b, a = b \/ before a b \/ before b a.
Proof.
  induction a as [|x a IH]; intros [|y b]; auto.
  - right. left. constructor.
  - right. right. constructor.
  - destruct (N.lt_total x y) as [H|[->|H]].
    + right. left. now constructor.
    + destruct (IH b) as [->|[H|H]]; auto; right; [left|right]; now apply before_eq.
    + right. right. now apply before_lt.
Qed.

Definition text_before (a b : text) : Prop := before (utf8 a) (utf8 b).
Lemma eligible_scalar a : eligible a -> Forall scalar a.
Proof.
  intros (_ & H & _). eapply Forall_impl; [|exact H]. intros c Hc. left. simpl in Hc. lia.
Qed.

Lemma insert_sorted_ok x l :
  eligible x -> Forall eligible l -> ~ In x l ->
  StronglySorted text_before l -> StronglySorted text_before (insert_sorted x l).
Proof.
  intros Ex El Hx S. induction S as [|y l S IH Hy]; simpl; [repeat constructor|].
  inversion_clear El as [|? ? Ey El']. destruct (text_le x y) eqn:E.
  - unfold text_le in E. apply bytes_le_iff in E as [E|E].
    { exfalso. apply Hx. left. symmetry. eapply utf8_inj; eauto using eligible_scalar. }
    constructor; [now constructor|]. constructor; [exact E|].
    eapply Forall_impl; [|exact Hy]. intros z Hz. exact (before_trans _ _ E _ Hz).
  - assert (B : text_before y x).
    { destruct (before_total (utf8 x) (utf8 y)) as [H|[H|H]]; [| |exact H];
        exfalso; assert (text_le x y = true) by (apply bytes_le_iff; auto); congruence. }
    constructor; [apply IH; auto; intros H; apply Hx; now right|].
    apply Forall_forall. intros z Hz. apply (Permutation_in _ (insert_perm x l)) in Hz as [<-|Hz]; [exact B|].
    rewrite Forall_forall in Hy. auto.
Qed.
Lemma sort_ok l : NoDup l -> Forall eligible l -> StronglySorted text_before (sort_texts l).
Proof.
  induction 1 as [|x l Hx H IH]; intros El; simpl; [constructor|].
  inversion_clear El. apply insert_sorted_ok; auto.
  - eapply Permutation_Forall; [symmetry; apply sort_perm|]. assumption.
  - intros Hin. apply Hx. eapply Permutation_in; [apply sort_perm|exact Hin].
Qed.
(** a strictly sorted list is determined by its elements *)
Lemma sorted_unique l : forall l', StronglySorted text_before l -> StronglySorted text_before l' ->
  (forall a, In a l <-> In a l') -> l = l'.
Proof.
  induction l as [|x l IH]; intros [|y l'] S S' H; auto.
  - exfalso. apply (H y). simpl. auto.
  - exfalso. apply (H x). simpl. auto.
  - inversion_clear S as [|? ? S1 S2]. inversion_clear S' as [|? ? S1' S2'].
    rewrite Forall_forall in S2, S2'.
    assert (x = y) as ->.
    { destruct (proj1 (H x) (or_introl eq_refl)) as [E|E]; [auto|].
      destruct (proj2 (H y) (or_introl eq_refl)) as [E'|E']; [auto|].
      exfalso. apply (before_irrefl (utf8 x)). eapply before_trans; [exact (S2 _ E')|exact (S2' _ E)]. }
    f_equal. apply IH; auto. intros a. split; intros Ha.
    + destruct (proj1 (H a) (or_intror Ha)) as [->|]; auto.
      exfalso. exact (before_irrefl _ (S2 _ Ha)).
    + destruct (proj2 (H a) (or_intror Ha)) as [->|]; auto.
      exfalso. exact (before_irrefl _ (S2' _ Ha)).
Qed.

(** The declarations are those of the eligible aliases, each once, in
    increasing order. *)
Theorem C51_prelude : forall items,
  exists names, prelude items = join_lines (map prelude_line names) /\
    StronglySorted text_before names /\ NoDup names /\
    (forall a, In a names <-> aliased items a /\ eligible a).
Proof.
  intros items. exists (prelude_names items). split; [reflexivity|].
  destruct (collect_spec items [] (NoDup_nil _)) as [N I].
  assert (El : Forall eligible (collect_aliases items [])).
  { apply Forall_forall. intros a Ha. apply I in Ha as [[]|[_ Ha]]. exact Ha. }
  split; [now apply sort_ok|]. split.
  - eapply Permutation_NoDup; [symmetry; apply sort_perm|assumption].
  - intros a. split.
    + intros H. apply (Permutation_in _ (sort_perm _)) in H. apply I in H as [[]|H]. exact H.
    + intros H. apply (Permutation_in _ (Permutation_sym (sort_perm _))). apply I. auto.
Qed.
(** Whatever the iteration order of the specification's hash map (a permutation
    of its items) and of the set of aliases collected (a permutation of it
    before sorting), the file written is the same. *)
Theorem C51_canonical : forall items items' names output,
  Permutation items items' ->
  Permutation names (collect_aliases items' []) ->
  [10] ++ tx "#import " ++ [34] ++ tx "@preview/mitex:0.2.7" ++ [34] ++ tx ": *" ++ [10]
  ++ join_lines (map prelude_line (sort_texts names)) ++ [10; 10] ++ output = document items output.
Proof.
  intros items items' names output P Q. unfold document, prelude.
  do 8 f_equal. f_equal. f_equal. f_equal. unfold prelude_names.
  destruct (collect_spec items [] (NoDup_nil _)) as [N I].
  destruct (collect_spec items' [] (NoDup_nil _)) as [N' I'].
  assert (El : Forall eligible (collect_aliases items [])).
  { apply Forall_forall. intros a Ha. apply I in Ha as [[]|[_ Ha]]. exact Ha. }
  assert (El' : Forall eligible names).
  { apply Forall_forall. intros a Ha. apply (Permutation_in _ Q) in Ha. apply I' in Ha as [[]|[_ Ha]]. exact Ha. }
  apply sorted_unique.
  - apply sort_ok; [|assumption]. eapply Permutation_NoDup; [symmetry; exact Q|assumption].
  - now apply sort_ok.
  - intros a. split; intros H; apply (Permutation_in _ (Permutation_sym (sort_perm _)));
      apply (Permutation_in _ (sort_perm _)) in H.
    + apply (Permutation_in _ Q) in H. apply I' in H as [[]|[(n & i & H1 & H2) H3]]. apply I. right.
      split; [|assumption]. exists n, i. split; [|assumption]. eapply Permutation_in; [|exact H1]. now symmetry.
    + apply (Permutation_in _ (Permutation_sym Q)). apply I' . apply I in H as [[]|[(n & i & H1 & H2) H3]]. right.
      split; [|assumption]. exists n, i. split; [|assumption]. eapply Permutation_in; [|exact H1]. assumption.
Qed.
Example C51_example :
  let items := [(tx "x", define_symbol (tx "zeta")); (tx "y", define_symbol (tx "alpha"));
                (tx "z", define_symbol (tx "in")); (tx "w", define_symbol (tx "alpha"));
                (tx "v", define_symbol (tx "a.b"))] in
  prelude_names items = [tx "alpha"; tx "zeta"].
Proof. vm_compute. reflexivity. Qed.
Print Assumptions C40_shorthands.
Print Assumptions C41_last_wins.
Print Assumptions C41_last_means.
Print Assumptions C41_order_independent.
Print Assumptions C42_exclusive.
Print Assumptions C48_counts.
Print Assumptions C48_as_term.
Print Assumptions C48_terms.
Print Assumptions C49_options.
Print Assumptions C50_refuted.
Print Assumptions C50_other_extension_partial.
Print Assumptions C51_prelude.
Print Assumptions C51_canonical.
Print Assumptions C52_round_trip.
Print Assumptions C53_utf8.
Print Assumptions C53_boundary.
