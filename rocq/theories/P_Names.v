(** C63, C64: the names converted code uses and the handlers of the packages. *)
From Verif Require Import BaseFacts P_Misc P_Decode P_Parser P_Conv3.
From Verif Require Import ParserSource Cli Api Prelude StandardDefs DefaultSpec RenderSpec.
From Coq Require Import Permutation.
Local Open Scope N_scope.

(* ------------------------------------------------------------------ *)
(** * C63  Handlers are bound to the names that are called *)

(** The definitions a package can be written with *)
Inductive built {H} : definition H -> Prop :=
| b_sym s h : built (define_sym s h)
| b_greedy s h : built (define_greedy_cmd s h)
| b_infix s h : built (define_infix_cmd s h)
| b_glob p s h : built (define_glob_cmd p s h)
| b_cmd n al h : built (define_cmd n al h)
| b_env num k al h : built (define_env num k al h)
| b_glob_env p k al h : built (Prelude.define_glob_env p k al h)
| b_plain : built sym
| b_of_sym h : built (of_sym h)
| b_left1 s : built (left1_op s)
| b_cmd1 : built cmd1
| b_cmd2 : built cmd2
| b_matrix : built matrix_env.

(** What the code calls for a command or environment of the specification: its
    alias or its own name ... *)
Definition called (name : text) (it : spec_item) : text :=
  match it with SICmd c => or_default (cs_alias c) name | SIEnv e => or_default (en_alias e) name end.
(** ... where a leading [#] of an alias only says that what follows is code *)
Definition code_name (name : text) (it : spec_item) : text :=
  match it with
  | SICmd {| cs_alias := Some (35 :: r) |} | SIEnv {| en_alias := Some (35 :: r) |} => r
  | _ => called name it
  end.

Lemma strip_called (name : text) (al : option text) :
  match al with Some (35 :: r) => r | _ => or_default al name end
  = match enc_opt al with JvStr a => strip_hash a | _ => name end.
Proof.
  destruct al as [[|c a]|]; [reflexivity| |reflexivity]. cbn [enc_opt strip_hash or_default].
  destruct (N.eqb_spec c 35) as [->|N]; [reflexivity|].
  destruct c as [|p]; [reflexivity|]. 
  repeat (destruct p as [p|p|]; try reflexivity). now contradiction N.
Qed.

(** For every definition with a handler: the name the handler is stored under is
    the name the code calls. *)
Theorem C63_key : forall (H : Type) (d : definition H) it s name,
  built d -> reading d = Some it -> snd d = Some s -> scope_key name s = code_name name it.
Proof.
  intros H d it s name B R S. unfold reading in R.
  destruct B; cbn [snd] in S;
    try discriminate S;
    try (destruct h as [h|]; [|discriminate S]; injection S as <-);
    try (injection S as <-).
  - injection R as <-. symmetry. exact (strip_called name (Some s0)).
  - injection R as <-. symmetry. exact (strip_called name (Some s0)).
  - injection R as <-. symmetry. exact (strip_called name (Some s0)).
  - injection R as <-. symmetry. exact (strip_called name (Some s0)).
  - unfold define_cmd in R. cbn [fst] in R. rewrite dec_item_cmd, dec_right, dec_fixed in R.
    destruct (dec_u8 (JvNum n)); [|discriminate]. cbn in R.
    assert (it = P_Decode.command (SRight (PFixed n0)) al) as -> by (destruct al; injection R as <-; reflexivity).
    symmetry. exact (strip_called name al).
  - unfold define_env in R. cbn [fst] in R. rewrite dec_item_env in R.
    destruct (dec_pattern _) as [p|]; [|discriminate]. cbn [obind] in R. destruct (dec_feature _) as [f|]; [|discriminate].
    assert (it = P_Decode.environment p f al) as -> by (destruct al; injection R as <-; reflexivity).
    symmetry. exact (strip_called name al).
  - unfold Prelude.define_glob_env in R. cbn [fst] in R. rewrite dec_item_glob_env' in R.
    destruct al as [al|]; [|discriminate]. cbn [enc_opt dec_str obind] in R. destruct (dec_feature _) as [f|]; [|discriminate].
    injection R as <-. symmetry. exact (strip_called name (Some al)).
  - injection R as <-. reflexivity.
Qed.
Print Assumptions C63_key.

(** The last element of a list with a property *)
Definition last_with {A} (P : A -> Prop) (l : list A) (a : A) : Prop :=
  exists l1 l2, l = l1 ++ a :: l2 /\ P a /\ Forall (fun b => ~ P b) l2.

(** The definition has a handler stored under [k] *)
Definition handles {H} (k : text) (e : text * definition H) : Prop :=
  exists s, snd (snd e) = Some s /\ scope_key (fst e) s = k.
Definition handler_of {H} (e : text * definition H) (h : H) : Prop := exists s, snd (snd e) = Some s /\ snd s = h.

Lemma handles_dec {H} k (e : text * definition H) : {handles k e} + {~ handles k e}.
Proof.
  destruct e as [n [v [s|]]]; unfold handles; cbn [snd fst].
  - destruct (teqbP (scope_key n s) k) as [E|E]; [left; eauto|right]. intros (s' & [= <-] & X). auto.
  - right. intros (s & X & _). discriminate.
Qed.

(** Adding definitions one after the other: the value of a name *)
Fixpoint value {H} (k : text) (defs : list (text * definition H)) (old : option H) : option H :=
  match defs with
  | [] => old
  | e :: r => value k r (match snd (snd e) with
                         | Some s => if teqb k (scope_key (fst e) s) then Some (snd s) else old
                         | None => old
                         end)
  end.
Lemma value_app {H} k (a b : list (text * definition H)) old : value k (a ++ b) old = value k b (value k a old).
Proof. revert old. induction a as [|e a IH]; intros old; [reflexivity|]. cbn [app value]. apply IH. Qed.
Lemma value_none {H} k (defs : list (text * definition H)) old :
  Forall (fun e => ~ handles k e) defs -> value k defs old = old.
Proof.
  induction 1 as [|e r N _ IH]; [reflexivity|]. cbn [value].
  destruct (snd (snd e)) as [s|] eqn:E; [|assumption].
  destruct (teqbP k (scope_key (fst e) s)) as [X|X]; [|assumption]. exfalso. apply N. exists s. auto.
Qed.
Lemma value_last {H} k (defs : list (text * definition H)) h :
  value k defs None = Some h <-> exists e, last_with (handles k) defs e /\ handler_of e h.
Proof.
  split.
  - induction defs as [|e r IH] using rev_ind; [discriminate|]. rewrite value_app. cbn [value].
    destruct (handles_dec k e) as [Y|N].
    + destruct Y as (s & E & K). rewrite E. destruct (teqbP k (scope_key (fst e) s)) as [_|X]; [|congruence].
      intros [= <-]. exists e. split; [|exists s; auto]. exists r, []. split; [reflexivity|]. split; [exists s; auto|constructor].
    + assert (X : (match snd (snd e) with
        | Some s => if teqb k (scope_key (fst e) s) then Some (snd s) else value k r None
        | None => value k r None end) = value k r None).
      { destruct (snd (snd e)) as [s|] eqn:E; [|reflexivity]. destruct (teqbP k (scope_key (fst e) s)) as [X|X]; [|reflexivity].
        exfalso. apply N. exists s. auto. }
      rewrite X. intros V. destruct (IH V) as (e' & (l1 & l2 & -> & P & F) & h'). exists e'. split; [|assumption].
      exists l1, (l2 ++ [e]). split; [now rewrite <- app_assoc|]. split; [assumption|]. apply Forall_app. auto.
  - intros (e & (l1 & l2 & -> & (s & E & K) & F) & (s' & E' & <-)).
    assert (s' = s) as -> by congruence. rewrite value_app. cbn [value]. rewrite E.
    destruct (teqbP k (scope_key (fst e) s)) as [_|X]; [|congruence]. now apply value_none.
Qed.

Lemma process_scope {H} k (defs : list (text * definition H)) : assoc k (snd (process_spec defs)) = value k defs None.
Proof.
  unfold process_spec. change (@None H) with (assoc k (snd (@nil (text * json), @nil (text * H)))).
  generalize (@nil (text * json), @nil (text * H)) as acc.
  induction defs as [|[n [v s]] defs IH]; intros acc; [reflexivity|]. cbn [fold_left value fst snd].
  rewrite IH. cbn [snd]. destruct s as [s|]; [|reflexivity]. now rewrite assoc_upsert.
Qed.
Lemma scope_keys {H} (defs : list (text * definition H)) : NoDup (map fst (snd (process_spec defs))).
Proof.
  unfold process_spec.
  assert (N : NoDup (map fst (snd (@nil (text * json), @nil (text * H))))) by constructor.
  revert N. generalize (@nil (text * json), @nil (text * H)) as acc.
  induction defs as [|[n [v s]] defs IH]; intros acc N; [assumption|]. cbn [fold_left]. apply IH. cbn [snd].
  destruct s as [s|]; [|assumption]. now apply keys_upsert.
Qed.
Lemma fold_upsert {V} k (l : list (text * V)) : forall acc, NoDup (map fst l) ->
  assoc k (fold_left (fun acc e => upsert (fst e) (snd e) acc) l acc)
  = match assoc k l with Some v => Some v | None => assoc k acc end.
Proof.
  induction l as [|[n v] l IH]; intros acc N; [reflexivity|]. cbn [fold_left map fst snd assoc] in *.
  apply NoDup_cons_iff in N as [N1 N2]. rewrite IH by assumption. rewrite assoc_upsert.
  destruct (teqbP k n) as [->|]; [|reflexivity]. apply assoc_none in N1. now rewrite N1.
Qed.
Lemma value_old {H} k (defs : list (text * definition H)) old :
  value k defs old = match value k defs None with Some h => Some h | None => old end.
Proof.
  revert old. induction defs as [|e r IH]; intros old; [reflexivity|]. cbn [value].
  destruct (snd (snd e)) as [s|]; [|apply IH]. destruct (teqb k _); [|apply IH].
  rewrite IH. now destruct (value k r None).
Qed.

(** The scope of converted code has, under each name, the handler of the last
    definition - over all packages in order - that has a handler under that
    name. *)
Theorem C63_scope : forall (H : Type) (pkgs : list (text * list (text * definition H))) k h,
  assoc k (mitex_scope (map (fun p => snd (process_spec (snd p))) pkgs)) = Some h <->
  exists e, last_with (handles k) (List.concat (map snd pkgs)) e /\ handler_of e h.
Proof.
  intros H pkgs k h. rewrite <- value_last.
  assert (E : assoc k (mitex_scope (map (fun p => snd (process_spec (snd p))) pkgs)) = value k (List.concat (map snd pkgs)) None);
    [|now rewrite E].
  unfold mitex_scope. change (@None H) with (assoc k (@nil (text * H))).
  generalize (@nil (text * H)) as acc.
  induction pkgs as [|[pn defs] pkgs IH]; intros acc; [reflexivity|]. cbn [map fold_left List.concat snd].
  rewrite IH, value_app. f_equal.
  rewrite fold_upsert by apply scope_keys. rewrite process_scope. symmetry. apply value_old.
Qed.
Print Assumptions C63_scope.

(** The code written for a command begins with what it calls; for an environment
    (of a formula, a figure, a table or a plain one) it begins with an opening of
    code or formula and then what it calls.  [\textbf] and [\textit] in running
    text are Typst's own [#strong] and [#emph]. *)
Theorem C63_called : forall sp p t name l, lays sp p t l ->
  (forall sh, command_named t name -> ~ In name special_names ->
     (mode_of p = MText -> name <> tx "textbf" /\ name <> tx "textit") ->
     get_cmd sp name = Some sh ->
     l = [Crash] \/ exists after rest, l = Txt (called name (SICmd sh) ++ after) :: rest /\ In after [[]; tx " "; tx "("]) /\
  (forall sh, environment_named t name -> get_env sp name = Some sh ->
     l = [Crash] \/ (exists c, l = [Fail (EAlignment c)]) \/ is_list (env_for (en_feature sh)) \/
     exists before after rest, l = Txt (before ++ called name (SIEnv sh) ++ after) :: rest /\
       In before [[]; tx "#"; tx "$ "]).
Proof.
  intros sp p t name l L.
  assert (CN : forall n n', command_named t n -> command_named t n' -> n = n').
  { intros n n' [_ [c E]] [_ [c' E']]. congruence. }
  split.
  - intros sh C NS NT G. pose proof C as [K _]. cbn [called].
    assert (TN : typst_name p name (cs_alias sh) = or_default (cs_alias sh) name).
    { unfold typst_name. destruct (mode_of p); [|reflexivity]. destruct (NT eq_refl) as [N1 N2].
      destruct (teqbP name (tx "textbf")); [contradiction|]. destruct (teqbP name (tx "textit")); [contradiction|]. reflexivity. }
    assert (SN : forall n, command_named t n -> In n special_names -> False).
    { intros n Cn I. rewrite (CN _ _ Cn C) in I. exact (NS I). }
    assert (KK : forall n sh', command_named t n -> get_cmd sp n = Some sh' -> n = name /\ sh' = sh).
    { intros n sh' Cn Gn. rewrite (CN _ _ Cn C) in *. split; [reflexivity|congruence]. }
    assert (NE : forall n, environment_named t n -> False).
    { intros n [E _]. rewrite E in K. discriminate K. }
    clear CN NT NS.
    destruct L as [s|s|s|k s o E|k s o E|c n sh' E|c n E|s|t E|k ch E|ch|ch|k ch E|ch i E|ch E|ch E|ch E E'|k c n ch
      |ch E|ch E E'|l1 k m l2 E E' E'' E3|l1 k m l2 E E' E''
      |t E E'|t E E'|t l E E'|t E E'|t o E E'|t E E'|t n model color body E E' E''|t E E'
      |t n E E' E''|t n sh' E E' E'' E3|t n sh' tn k ch r E E' E'' E3 E4 E5|t n sh' E E' E'' E3 E4
      |t n sh' tn E E' E'' E3 E4 E5 E6 E7|t n sh' tn E E' E'' E3 E4 E5 E6
      |t n E E'|t n sh' E E' E''|t n sh' q E E' E'' E3|t n sh' E E' E''|t n sh' o E E' E'' E3|t n sh' x E E' E'' E3 E4 E5
      |t n sh' spec E E' E'' E3 E4|t n sh' good c rest E E' E'' E3 E4 E5|t n sh' E E' E'' E3];
      try discriminate K; try (exfalso; exact (NE _ E)).
    + cbn [tkind] in K; subst k; discriminate E.
    + cbn [tkind] in K; subst k; discriminate E.
    + congruence.
    + cbn [tkind] in K; destruct E; congruence.
    + cbn [tkind] in K; subst k. exfalso. unfold container_kind in E. cbn [In] in E. intuition discriminate.
    + exfalso. apply (SN _ E). cbn. tauto.
    + exfalso. apply (SN _ E). cbn. tauto.
    + exfalso. apply (SN _ E). cbn. tauto.
    + exfalso. apply (SN _ E). cbn. tauto.
    + exfalso. apply (SN _ E). cbn. tauto.
    + exfalso. apply (SN _ E). cbn. tauto.
    + exfalso. apply (SN _ E). cbn in E' |- *. tauto.
    + exfalso. apply (SN _ E). cbn. tauto.
    + exfalso. assert (n = name) as -> by (destruct E as [_ [c1 E1]], C as [_ [c2 E2]]; congruence). congruence.
    + destruct (KK _ _ E E'') as [-> ->]. right. exists (tx " "), []. rewrite TN. cbn [In]. auto.
    + destruct (KK _ _ E E'') as [-> ->]. right. subst tn. rewrite TN. eexists (tx "("), _. cbn [In]. split; [reflexivity|tauto].
    + left. reflexivity.
    + destruct (KK _ _ E E'') as [-> ->]. right. subst tn. rewrite TN. eexists (tx "("), _. cbn [In]. split; [reflexivity|tauto].
    + destruct (KK _ _ E E'') as [-> ->]. right. subst tn. rewrite TN. eexists [], _. cbn [In]. rewrite app_nil_r. split; [reflexivity|tauto].
  - intros sh C G. pose proof C as [K _]. cbn [called].
    assert (KK : forall n, environment_named t n -> n = name).
    { intros n [_ (x & E & ->)]. destruct C as [_ (y & C' & ->)]. congruence. }
    assert (KS : forall n sh', environment_named t n -> get_env sp n = Some sh' -> sh' = sh).
    { intros n sh' En Gn. rewrite (KK _ En) in Gn. congruence. }
    assert (NE : forall n, command_named t n -> False).
    { intros n [E _]. rewrite E in K. discriminate K. }
    destruct L as [s|s|s|k s o E|k s o E|c n sh' E|c n E|s|t E|k ch E|ch|ch|k ch E|ch i E|ch E|ch E|ch E E'|k c n ch
      |ch E|ch E E'|l1 k m l2 E E' E'' E3|l1 k m l2 E E' E''
      |t E E'|t E E'|t l E E'|t E E'|t o E E'|t E E'|t n model color body E E' E''|t E E'
      |t n E E' E''|t n sh' E E' E'' E3|t n sh' tn k ch r E E' E'' E3 E4 E5|t n sh' E E' E'' E3 E4
      |t n sh' tn E E' E'' E3 E4 E5 E6 E7|t n sh' tn E E' E'' E3 E4 E5 E6
      |t n E E'|t n sh' E E' E''|t n sh' q E E' E'' E3|t n sh' E E' E''|t n sh' o E E' E'' E3|t n sh' x E E' E'' E3 E4 E5
      |t n sh' spec E E' E'' E3 E4|t n sh' good c rest E E' E'' E3 E4 E5|t n sh' E E' E'' E3];
      try discriminate K; try (exfalso; exact (NE _ E));
      try (pose proof (KS _ _ E E') as X; subst sh'; pose proof (KK _ E) as X; subst n).
    + cbn [tkind] in K; subst k; discriminate E.
    + cbn [tkind] in K; subst k; discriminate E.
    + congruence.
    + cbn [tkind] in K; destruct E; congruence.
    + cbn [tkind] in K; subst k. exfalso. unfold container_kind in E. cbn [In] in E. intuition discriminate.
    + exfalso. rewrite (KK _ E) in E'. congruence.
    + right. right. left. assumption.
    + right. right. right. exists (fst (dollars p)). eexists (tx "("), _. split; [reflexivity|].
      unfold dollars. destruct (mode_of p); cbn; tauto.
    + right. right. right. exists (tx "#"). eexists (tx "["), _. split; [reflexivity|]. cbn; tauto.
    + right. right. right. exists (tx "#"). eexists (tx "("), _. split; [reflexivity|]. cbn; tauto.
    + left. reflexivity.
    + right. right. right. unfold table_front. exists (tx "#"). eexists _, _. split; [reflexivity|]. cbn; tauto.
    + right. left. eauto.
    + left. reflexivity.
Qed.
Print Assumptions C63_called.

(** Converted code and its scope fit: whatever the specification generated from
    the packages says is called for a definition with a handler is a name of the
    scope, and it is bound to that handler unless a later definition has a handler
    under the same name. *)
Theorem C63_bound : forall (H : Type) printed (pkgs : list (text * list (text * definition H))),
  Forall (fun p => NoDup (map fst (snd p))) pkgs ->
  Forall (fun p => Forall (fun e => built (snd e) /\ readable (snd e)) (snd p)) pkgs ->
  exists items,
    generate (query_answer printed (map (fun p => (fst p, process_spec (snd p))) pkgs)) = Some items /\
    forall name d s, latest name pkgs d -> snd d = Some s ->
      exists it, spec_of items name = Some it /\
        (exists h, assoc (code_name name it) (mitex_scope (map (fun p => snd (process_spec (snd p))) pkgs)) = Some h) /\
        (last_with (handles (code_name name it)) (List.concat (map snd pkgs)) (name, d) ->
         assoc (code_name name it) (mitex_scope (map (fun p => snd (process_spec (snd p))) pkgs)) = Some (snd s)).
Proof.
  intros H printed pkgs N B.
  assert (R : Forall (fun p => Forall (fun e => readable (snd e)) (snd p)) pkgs).
  { eapply Forall_impl; [|exact B]. intros p X. eapply Forall_impl; [|exact X]. cbn beta. tauto. }
  destruct (proj1 (C62_generate H printed pkgs N) R) as (items & G & _ & S). exists items. split; [assumption|].
  intros name d s L E.
  destruct L as (b & p & a & -> & I & F).
  assert (Bd : built d /\ readable d).
  { apply Forall_app in B as [_ B]. apply Forall_cons_iff in B as [B _]. rewrite Forall_forall in B. exact (B _ I). }
  destruct Bd as [Bd Rd]. unfold readable in Rd. destruct (reading d) as [it|] eqn:Ed; [|congruence]. clear Rd. rename Ed into Rd. exists it. split; [|split].
  - apply S. exists d. split; [|assumption]. exists b, p, a. auto.
  - set (pkgs := b ++ p :: a) in *.
    destruct (assoc (code_name name it) (mitex_scope (map (fun p => snd (process_spec (snd p))) pkgs))) as [h|] eqn:A; [eauto|].
    exfalso.
    assert (X : value (code_name name it) (List.concat (map snd pkgs)) None = None).
    { destruct (value _ _ _) as [h|] eqn:V; [|reflexivity]. apply value_last, C63_scope in V. congruence. }
    assert (IN : In (name, d) (List.concat (map snd pkgs))).
    { apply in_concat. exists (snd p). split; [|assumption]. apply in_map, in_app_iff. right. now left. }
    apply in_split in IN as (l1 & l2 & IN). rewrite IN, value_app in X. cbn [value fst snd] in X. rewrite E in X.
    rewrite (C63_key H d it s name Bd Rd E) in X. rewrite (proj2 (teqb_eq _ _) eq_refl) in X.
    rewrite value_old in X. destruct (value _ l2 None); discriminate.
  - intros L. apply C63_scope. exists (name, d). split; [assumption|]. exists s. auto.
Qed.
Print Assumptions C63_bound.

(** The package that comes with the program meets the hypotheses, the
    specification built into the program is the one generated from it, and every
    handler in it is what its name is bound to - but for three pairs of definitions
    that share a name. *)
Definition standard : list (text * list (text * definition N)) := [(tx "latex-std", standard_definitions)].
Definition standard_scope : list (text * N) := mitex_scope (map (fun p => snd (process_spec (snd p))) standard).
Definition nodup_texts (l : list text) : bool :=
  (fix go (l : list text) := match l with [] => true | x :: r => negb (existsb (teqb x) r) && go r end) l.
Lemma nodup_texts_ok l : nodup_texts l = true -> NoDup l.
Proof.
  induction l as [|x l IH]; [constructor|]. cbn. intros E. apply andb_true_iff in E as [E1 E2].
  constructor; [|auto]. intros I. apply negb_true_iff in E1.
  assert (existsb (teqb x) l = true) by (apply existsb_exists; exists x; split; [assumption|apply teqb_refl]). congruence.
Qed.
Lemma standard_built : Forall (fun e => built (snd e)) standard_definitions.
Proof.
  unfold standard_definitions. apply Forall_concat.
  repeat match goal with |- Forall _ (_ :: _) => apply Forall_cons | |- Forall _ [] => apply Forall_nil end;
    match goal with |- Forall _ ?l => unfold l end;
    repeat (apply Forall_cons; [lazymatch goal with |- built (snd (_, ?d)) => change (built d); lazymatch d with
    | define_sym _ _ => apply b_sym | define_greedy_cmd _ _ => apply b_greedy | define_infix_cmd _ _ => apply b_infix
    | define_glob_cmd _ _ _ => apply b_glob | define_cmd _ _ _ => apply b_cmd | define_env _ _ _ _ => apply b_env
    | Prelude.define_glob_env _ _ _ _ => apply b_glob_env | sym => exact b_plain | of_sym _ => apply b_of_sym
    | left1_op _ => apply b_left1 | cmd1 => exact b_cmd1 | cmd2 => exact b_cmd2 | matrix_env => exact b_matrix end end|]);
    apply Forall_nil.
Qed.

Theorem C63_standard : forall printed,
  Forall (fun p => NoDup (map fst (snd p))) standard /\
  Forall (fun p => Forall (fun e => built (snd e) /\ readable (snd e)) (snd p)) standard /\
  generate (query_answer printed (map (fun p => (fst p, process_spec (snd p))) standard)) = Some default_items /\
  (forall name d s it, In (name, d) standard_definitions -> snd d = Some s -> reading d = Some it ->
     ~ In name [tx "label"; tx "!"; tx "operatornamewithlimits"] ->
     assoc (code_name name it) standard_scope = Some (snd s)).
Proof.
  intros printed.
  assert (R : forallb (fun e : text * definition N => match reading (snd e) with Some _ => true | None => false end) standard_definitions = true)
    by (vm_compute; reflexivity).
  split; [|split; [|split]].
  - unfold standard. constructor; [|constructor]. cbn [snd]. apply nodup_texts_ok. vm_compute. reflexivity.
  - unfold standard. constructor; [|constructor]. cbn [snd]. apply Forall_forall. intros e I. split.
    + pose proof standard_built as B. rewrite Forall_forall in B. exact (B _ I).
    + rewrite forallb_forall in R. specialize (R _ I). unfold readable. destruct (reading (snd e)); congruence.
  - vm_compute. reflexivity.
  - intros name d s it I E Rd NI.
    assert (F : forallb (fun e : text * definition N =>
        match snd (snd e), reading (snd e) with
        | Some s, Some it =>
          existsb (teqb (fst e)) [tx "label"; tx "!"; tx "operatornamewithlimits"]
          || match assoc (code_name (fst e) it) standard_scope with Some m => m =? snd s | None => false end
        | _, _ => true
        end) standard_definitions = true) by (vm_compute; reflexivity).
    rewrite forallb_forall in F. specialize (F _ I). cbn [fst snd] in F. rewrite E, Rd in F.
    apply orb_true_iff in F as [F|F].
    + exfalso. apply NI. apply existsb_exists in F as (x & Ix & Ex). apply teqb_eq in Ex. now subst.
    + destruct (assoc _ standard_scope) as [m|]; [|discriminate]. apply N.eqb_eq in F. now subst.
Qed.
Print Assumptions C63_standard.

(* ------------------------------------------------------------------ *)
(** * C64  Names in a compiled document *)

(** What a name of converted code means: a handler of the packages, [none], or
    what Typst itself means by it *)
Inductive meaning := Handler (h : N) | Nothing | Own.
(** The Typst package evaluates the code in its scope *)
Definition in_plugin (scope : list (text * N)) (n : text) : meaning :=
  match assoc n scope with Some h => Handler h | None => Own end.
(** A document may set a name by a line of its own *)
Definition let_line (n : text) : text :=
  tx "#let " ++ n ++ tx " = mitex-scope.at(" ++ [34] ++ n ++ [34] ++ tx ", default: none);".
Inductive in_document (lines : list text) (scope : list (text * N)) (n : text) : meaning -> Prop :=
| id_handler h : In (let_line n) lines -> assoc n scope = Some h -> in_document lines scope n (Handler h)
| id_nothing : In (let_line n) lines -> assoc n scope = None -> in_document lines scope n Nothing
| id_own : ~ In (let_line n) lines -> in_document lines scope n Own.

Lemma let_line_inj a b : let_line a = let_line b -> a = b.
Proof.
  unfold let_line. intros E. apply app_inv_head in E.
  assert (L : List.length a = List.length b).
  { apply (f_equal (@List.length N)) in E. rewrite !app_length in E. lia. }
  revert b L E. induction a as [|x a IH]; intros [|y b] L E; try discriminate; [reflexivity|].
  cbn [app] in E. injection E as -> E. f_equal.
  apply (f_equal (firstn (List.length a))) in E.
  rewrite !firstn_app, Nat.sub_diag in E. cbn [List.length] in L. injection L as L. rewrite L, Nat.sub_diag in E.
  rewrite firstn_O, !app_nil_r, <- L, firstn_all, L, firstn_all in E. exact E.
Qed.

(** For all specifications, scopes and names: the document the command-line
    program writes begins with lines such that a name means the same there and in
    the Typst package exactly if it is one of the aliases the program declares and
    has a handler, or is neither. *)
Theorem C64_meaning : forall items output, exists lines,
  document items output = [10] ++ tx "#import " ++ [34] ++ tx "@preview/mitex:0.2.7" ++ [34] ++ tx ": *" ++ [10]
    ++ join_lines lines ++ [10; 10] ++ output /\
  forall scope n,
    (exists m, in_document lines scope n m) /\
    (in_document lines scope n (in_plugin scope n) <-> (aliased items n /\ eligible n <-> assoc n scope <> None)).
Proof.
  intros items output. destruct (C51_prelude items) as (names & E & _ & _ & I).
  exists (map let_line names). split.
  { unfold document. rewrite E. reflexivity. }
  intros scope n.
  assert (M : In (let_line n) (map let_line names) <-> aliased items n /\ eligible n).
  { rewrite <- I. split; [|apply in_map]. intros X. apply in_map_iff in X as (x & X & Ix). apply let_line_inj in X. now subst. }
  assert (D : In (let_line n) (map let_line names) \/ ~ In (let_line n) (map let_line names)).
  { destruct (in_dec (list_eq_dec N.eq_dec) (let_line n) (map let_line names)); auto. }
  split.
  - destruct D as [D|D]; [|exists Own; now constructor].
    destruct (assoc n scope) as [h|] eqn:A; [exists (Handler h)|exists Nothing]; now constructor.
  - rewrite <- M. unfold in_plugin. destruct (assoc n scope) as [h|] eqn:A; split.
    + intros X. inversion X; subst. split; [discriminate|auto].
    + intros [_ X]. constructor; [|assumption]. apply X. discriminate.
    + intros X. inversion X; subst. split; [contradiction|congruence].
    + intros [X _]. constructor. intros Y. now specialize (X Y).
Qed.
Print Assumptions C64_meaning.

(** With the standard package they differ on exactly these names: handlers that
    are not declared ... *)
Definition unseen_handlers : list text := map tx [
    "mitexcite"; "mitexref"; "miteximage"; "negthinmedspace"; "negmedspace"; "negthickspace";
    "enspace"; "phantom"; "hphantom"; "vphantom"; "smash"; "lvert"; "rvert"; "lVert"; "rVert";
    "mathscr"; "mathbin"; "mathclose"; "mathinner"; "mathop"; "mathopen"; "mathord"; "mathpunct";
    "mathrel"; "mitexcolor"; "colortext"; "mitexcolorbox"; "cfrac"; "dfrac"; "tfrac"; "dbinom";
    "tbinom"; "stackrel"; "substack"; "overset"; "underset"; "xcancel"; "bcancel"; "sout"; "boxed";
    "ngeqq"; "nleqslant"; "nleqq"; "nsubseteqq"; "nsupseteqq"; "arctg"; "ch"; "cth"; "th"; "arcctg";
    "cosec"; "cotg"; "injlim"; "mathclap"; "mathring"; "overgroup"; "undergroup"; "overleftharpoon";
    "overleftrightarrow"; "overlinesegment"; "overrightharpoon"; "underbar"; "plim"; "projlim";
    "raisebox"; "sh"; "smallint"; "thickapprox"; "thicksim"; "varDelta"; "varGamma"; "varLambda";
    "varOmega"; "varPhi"; "varPi"; "varPsi"; "varSigma"; "varTheta"; "varUpsilon"; "varXi";
    "xleftarrow"; "xrightarrow"; "xLeftarrow"; "xRightarrow"; "xleftrightarrow"; "xLeftrightarrow";
    "xhookleftarrow"; "xhookrightarrow"; "xtwoheadleftarrow"; "xtwoheadrightarrow";
    "xleftharpoonup"; "xrightharpoonup"; "xleftharpoondown"; "xrightharpoondown";
    "xleftrightharpoons"; "xrightleftharpoons"; "xtofrom"; "xmapsto"; "xlongequal"; "pmod"; "pod";
    "set"; "Set"; "bra"; "Bra"; "ket"; "Ket"; "braket"; "Braket"; "fbox"; "hbox"; "matrix";
    "pmatrix"; "bmatrix"; "Bmatrix"; "vmatrix"; "Vmatrix"; "smallmatrix"; "KaTeX"; "LaTeX"; "TeX";
    "middle"; "operatorname"; "vspace"; "hspace"; "textmath"; "textmd"; "textnormal"; "textbf";
    "textit"; "textrm"; "textup"; "textsf"; "texttt"]%string.
(** ... and names that are set to [none] although only Typst knows them. *)
Definition set_to_none : list text := map tx [
    "CC"; "Im"; "NN"; "QQ"; "RR"; "Re"; "ZZ"; "acute"; "aleph"; "amp"; "angle"; "approx"; "arrow";
    "ast"; "backslash"; "ballot"; "bb"; "because"; "beth"; "bold"; "bot"; "bottomrule"; "breve";
    "bullet"; "cal"; "caron"; "cases"; "checkmark"; "circle"; "colon"; "complement"; "compose";
    "copyright"; "ctg"; "dagger"; "degree"; "div"; "divides"; "dollar"; "dot"; "epsilon"; "equiv";
    "exists"; "figure"; "forall"; "frak"; "gimel"; "grave"; "gt"; "hash"; "hat"; "infinity";
    "integral"; "inter"; "italic"; "join"; "limits"; "lt"; "macron"; "maltese"; "med"; "midrule";
    "mod"; "models"; "mono"; "multimap"; "nabla"; "nothing"; "oo"; "parallel"; "partial";
    "permille"; "perp"; "phi"; "pilcrow"; "planck"; "pound"; "prec"; "prime"; "product"; "prop";
    "qed"; "sans"; "scripts"; "section"; "star"; "subset"; "succ"; "supset"; "table"; "tg";
    "therefore"; "thick"; "thin"; "tilde"; "times"; "top"; "toprule"; "union"; "upright"; "wide";
    "without"; "wreath"; "yen"]%string.
Definition check (declared bound U S : list text) : bool :=
  forallb (fun n => Bool.eqb (existsb (teqb n) U) (negb (existsb (teqb n) declared) && existsb (teqb n) bound)
       && Bool.eqb (existsb (teqb n) S) (existsb (teqb n) declared && negb (existsb (teqb n) bound)))
       (declared ++ bound ++ U ++ S).
Lemma differences (n : text) (declared bound U S : list text) : check declared bound U S = true ->
  (In n U <-> ~ In n declared /\ In n bound) /\ (In n S <-> In n declared /\ ~ In n bound).
Proof.
  unfold check. intros F.
  assert (TM : forall l, In n l <-> existsb (teqb n) l = true).
  { intros l. rewrite existsb_exists. split.
    - intros I. exists n. split; [assumption|apply teqb_refl].
    - intros (x & I & X). apply teqb_eq in X. now subst. }
  assert (C : In n (declared ++ bound ++ U ++ S) ->
     existsb (teqb n) U = (negb (existsb (teqb n) declared) && existsb (teqb n) bound) /\
     existsb (teqb n) S = (existsb (teqb n) declared && negb (existsb (teqb n) bound))).
  { intros I. rewrite forallb_forall in F. specialize (F n I). apply andb_true_iff in F as [F1 F2].
    apply eqb_prop in F1, F2. auto. }
  clear F. rewrite !in_app_iff, !TM in C. rewrite !TM. clear TM.
  destruct (existsb (teqb n) U), (existsb (teqb n) S), (existsb (teqb n) declared), (existsb (teqb n) bound); cbn [negb andb] in C;
    intuition congruence.
Qed.
Lemma meanings (n : text) (declared U S : list text) (scope : list (text * N)) :
  check declared (map fst scope) U S = true ->
  let lines := map let_line declared in
  (in_document lines scope n (in_plugin scope n) <-> ~ In n U /\ ~ In n S) /\
  (In n U -> in_document lines scope n Own) /\ (In n S -> in_document lines scope n Nothing).
Proof.
  intros F lines.
  assert (M : In (let_line n) lines <-> In n declared).
  { unfold lines. split; [|apply in_map]. intros X. apply in_map_iff in X as (x & X & Ix). apply let_line_inj in X. now subst. }
  destruct (differences n declared (map fst scope) U S F) as [D D']. clear F.
  rewrite D, D'. clear D D'. unfold in_plugin.
  assert (A : assoc n scope = None <-> ~ In n (map fst scope)) by apply assoc_none.
  destruct (assoc n scope) as [h|] eqn:As.
  - assert (I : In n (map fst scope)).
    { destruct (in_dec (list_eq_dec N.eq_dec) n (map fst scope)) as [I|I]; [assumption|]. apply A in I. discriminate. }
    split; [split|split].
    + intros X. inversion X; subst. tauto.
    + intros [X _]. constructor; [|assumption]. apply M.
      destruct (in_dec (list_eq_dec N.eq_dec) n declared); tauto.
    + intros [X _]. constructor. now rewrite M.
    + intros [_ X]. contradiction.
  - assert (I : ~ In n (map fst scope)) by now apply A.
    split; [split|split].
    + intros X. inversion X; subst. tauto.
    + intros X. constructor. rewrite M. tauto.
    + intros [_ X]. contradiction.
    + intros [X _]. constructor; [now apply M|assumption].
Qed.
Theorem C64_standard : forall output, exists lines,
  document default_items output = [10] ++ tx "#import " ++ [34] ++ tx "@preview/mitex:0.2.7" ++ [34] ++ tx ": *" ++ [10]
    ++ join_lines lines ++ [10; 10] ++ output /\
  forall n,
    (in_document lines standard_scope n (in_plugin standard_scope n) <-> ~ In n unseen_handlers /\ ~ In n set_to_none) /\
    (In n unseen_handlers -> in_document lines standard_scope n Own) /\
    (In n set_to_none -> in_document lines standard_scope n Nothing).
Proof.
  intros output. exists (map let_line (prelude_names default_items)). split; [reflexivity|].
  intros n. apply meanings. vm_cast_no_check (eq_refl true).
Qed.
Print Assumptions C64_standard.

(** So there are documents whose names lose their meaning: the sign [times] is not
    shown at all and [dfrac] is unknown in the documents made of these formulas. *)
Definition compiled_document (src : text) (name : text) (in_file in_package : meaning) : Prop :=
  exists f0 before after lines,
    (forall fuel, (f0 <= fuel)%nat -> convert_text fuel PAGE src None = COk (before ++ name ++ after)) /\
    document default_items (before ++ name ++ after) =
      [10] ++ tx "#import " ++ [34] ++ tx "@preview/mitex:0.2.7" ++ [34] ++ tx ": *" ++ [10]
      ++ join_lines lines ++ [10; 10] ++ before ++ name ++ after /\
    in_document lines standard_scope name in_file /\ in_plugin standard_scope name = in_package.
Lemma converts_always src o : convert_text 300 PAGE src None = COk o ->
  exists f0, forall fuel, (f0 <= fuel)%nat -> convert_text fuel PAGE src None = COk o.
Proof.
  unfold convert_text, convert_inner. intros E.
  destruct (parse_macro 300 PAGE _ src) as [t| |] eqn:P; try discriminate E.
  apply (parse_keeps true) in P as [f0 P]; [|unfold PAGE; lia]. exists f0. intros fuel L.
  specialize (P fuel L). unfold parse_source in P. rewrite P. exact E.
Qed.
Lemma in_texts (x : text) l : existsb (teqb x) l = true -> In x l.
Proof. intros E. apply existsb_exists in E as (y & I & E). apply teqb_eq in E. now subst. Qed.
Theorem C64_refuted :
  compiled_document (tx "$a \times b$") (tx "times") Nothing Own /\
  exists h, compiled_document (tx "$\dfrac{a}{b}$") (tx "dfrac") Own (Handler h).
Proof.
  split; [|exists 272].
  - destruct (converts_always (tx "$a \times b$") (tx "#math.equation(block: false, $a  times  b $);")) as [f0 C]; [vm_compute; reflexivity|].
    exists f0, (tx "#math.equation(block: false, $a  "), (tx "  b $);").
    destruct (C64_standard (tx "#math.equation(block: false, $a  times  b $);")) as (lines & E & L).
    exists lines. split; [exact C|]. split; [exact E|]. split; [|vm_compute; reflexivity].
    apply L. apply in_texts. vm_compute. reflexivity.
  - destruct (converts_always (tx "$\dfrac{a}{b}$") (tx "#math.equation(block: false, $dfrac(a ,b )$);")) as [f0 C]; [vm_compute; reflexivity|].
    exists f0, (tx "#math.equation(block: false, $"), (tx "(a ,b )$);").
    destruct (C64_standard (tx "#math.equation(block: false, $dfrac(a ,b )$);")) as (lines & E & L).
    exists lines. split; [exact C|]. split; [exact E|]. split; [|vm_compute; reflexivity].
    apply L. apply in_texts. vm_compute. reflexivity.
Qed.
Print Assumptions C64_refuted.

(** Two packages: the later one redefines [\a] and its handler; the handler of
    [\b] is found under its alias without [#]. *)
Example C63_example :
  let pkgs := [(tx "p", [(tx "a", define_sym (tx "x") (Some 1)); (tx "b", define_cmd 2 (Some (tx "#y")) (Some 2))]);
               (tx "q", [(tx "a", define_cmd 1 None (Some 3))])] in
  Forall (fun p => NoDup (map fst (snd p))) pkgs /\
  Forall (fun p => Forall (fun e => built (snd e) /\ readable (snd e)) (snd p)) pkgs /\
  generate (query_answer (fun _ => JvNull) (map (fun p => (fst p, process_spec (snd p))) pkgs))
  = Some [(tx "a", P_Decode.command (SRight (PFixed 1)) None); (tx "b", P_Decode.command (SRight (PFixed 2)) (Some (tx "#y")))] /\
  mitex_scope (map (fun p => snd (process_spec (snd p))) pkgs) = [(tx "x", 1); (tx "y", 2); (tx "a", 3)].
Proof.
  cbn zeta. split; [|split; [|split]].
  - constructor; [|constructor; [|constructor]]; apply nodup_texts_ok; reflexivity.
  - constructor; [|constructor; [|constructor]]; cbn [snd].
    + constructor; [|constructor; [|constructor]]; (split; [constructor|discriminate]).
    + constructor; [|constructor]; (split; [constructor|discriminate]).
  - reflexivity.
  - reflexivity.
Qed.
