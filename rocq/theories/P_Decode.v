(** C62: packages written with the Typst prelude are read as what they say. *)
From Verif Require Import BaseFacts P_Misc.
From Verif Require Import Prelude.
From Coq Require Import Permutation.
Local Open Scope N_scope.

(* ------------------------------------------------------------------ *)
(** * Reading back what was written *)

(** Counts fit in a byte (they are of type [u8] in the program) *)
Definition pattern_fits (p : arg_pattern) : Prop :=
  match p with PFixed n => n < 256 | PRange a b => a < 256 /\ b < 256 | _ => True end.
Definition item_fits (i : json_item) : Prop :=
  match i with
  | JCmd c => match cs_args c with SRight p => pattern_fits p | _ => True end
  | JEnv e => pattern_fits (en_args e)
  | _ => True
  end.

Lemma dec_u8_ok n : n < 256 -> dec_u8 (JvNum n) = Some n.
Proof. intros H. unfold dec_u8. apply N.ltb_lt in H. now rewrite H. Qed.
Lemma dec_u8_no n : 256 <= n -> dec_u8 (JvNum n) = None.
Proof. intros H. unfold dec_u8. apply N.ltb_ge in H. now rewrite H. Qed.
Lemma dec_feature_enc f : dec_feature (enc_feature f) = Some f.
Proof. destruct f; reflexivity. Qed.
Lemma dec_fixed v : dec_pattern (kind_is "fixed-len" [(tx "len", v)]) = option_map PFixed (dec_u8 v).
Proof. reflexivity. Qed.
Lemma dec_range v w : dec_pattern (kind_is "range-len" [(tx "min", v); (tx "max", w)]) =
  let? a := dec_u8 v in let? b := dec_u8 w in Some (PRange a b).
Proof. reflexivity. Qed.
Lemma dec_pattern_enc p : pattern_fits p -> dec_pattern (enc_pattern p) = Some p.
Proof.
  destruct p as [|n|a b| |g]; cbn [pattern_fits enc_pattern]; intros H; try reflexivity.
  - now rewrite dec_fixed, dec_u8_ok.
  - destruct H. now rewrite dec_range, !dec_u8_ok.
Qed.
Lemma dec_right v : dec_shape (kind_is "right" [(tx "pattern", v)]) = option_map SRight (dec_pattern v).
Proof. reflexivity. Qed.
Lemma dec_item_cmd v w : dec_item (kind_is "cmd" [(tx "args", v); (tx "alias", w)]) =
  option_map JCmd (let? a := dec_shape v in
                   let? al := match w with JvNull => Some None | v => option_map Some (dec_str v) end in
                   Some {| cs_args := a; cs_alias := al |}).
Proof. reflexivity. Qed.
Lemma dec_item_env v u w : dec_item (kind_is "env" [(tx "args", v); (tx "ctx_feature", u); (tx "alias", w)]) =
  option_map JEnv (let? a := dec_pattern v in let? f := dec_feature u in
                   let? al := match w with JvNull => Some None | v => option_map Some (dec_str v) end in
                   Some {| en_args := a; en_feature := f; en_alias := al |}).
Proof. reflexivity. Qed.
Lemma dec_item_glob_env v w u :
  dec_item (kind_is "glob-env" [(tx "pattern", v); (tx "alias", w); (tx "ctx_feature", u)]) =
  let? p := dec_str v in let? a := dec_str w in let? f := dec_feature u in Some (JEnvGlob p a f).
Proof. reflexivity. Qed.

(** Every item is read back from what is written of it. *)
Theorem C62_round_trip : forall i, item_fits i -> dec_item (enc_item i) = Some i.
Proof.
  intros [[a al]|[p f al]| | | | | | | |p a f|a|a|a|p a]; cbn [item_fits enc_item cs_args cs_alias en_args en_feature en_alias];
    intros H; try reflexivity.
  - rewrite dec_item_cmd. destruct a as [p| |]; [|now destruct al|now destruct al].
    cbn [enc_shape]. rewrite dec_right, dec_pattern_enc by assumption. now destruct al.
  - rewrite dec_item_env, dec_feature_enc, dec_pattern_enc by assumption. now destruct al.
  - rewrite dec_item_glob_env, dec_feature_enc. reflexivity.
Qed.
Print Assumptions C62_round_trip.

Lemma dec_all_map {A B C} (dec : B -> option C) (f : A -> B) (g : A -> C) l :
  Forall (fun a => dec (f a) = Some (g a)) l -> dec_all dec (map f l) = Some (map g l).
Proof. induction 1 as [|a l E _ IH]; [reflexivity|]. cbn [map dec_all]. now rewrite E, IH. Qed.
Lemma upsert_fresh {V} k (v : V) l : ~ In k (map fst l) -> upsert k v l = l ++ [(k, v)].
Proof.
  induction l as [|[k' v'] l IH]; intros H; [reflexivity|]. cbn [upsert app].
  destruct (teqbP k k') as [->|N]; [exfalso; apply H; now left|]. rewrite IH; [reflexivity|].
  intros I. apply H. now right.
Qed.
Lemma upsert_all {V} (l : list (text * V)) : forall acc, NoDup (map fst (acc ++ l)) ->
  fold_left (fun acc e => upsert (fst e) (snd e) acc) l acc = acc ++ l.
Proof.
  induction l as [|[k v] l IH]; intros acc H; [now rewrite app_nil_r|]. cbn [fold_left fst snd].
  rewrite upsert_fresh.
  - rewrite IH; [now rewrite <- app_assoc|]. now rewrite <- app_assoc.
  - intros I. rewrite map_app in H. apply NoDup_remove_2 in H. apply H. apply in_or_app. now left.
Qed.

Lemma dec_commands_obj (l : list (text * json)) (m : list (text * json_item)) :
  Forall2 (fun e i => fst e = fst i /\ dec_item (snd e) = Some (snd i)) l m ->
  NoDup (map fst m) -> dec_commands (JvObj l) = Some m.
Proof.
  intros F N. cbn [dec_commands].
  assert (E : dec_all (fun e => option_map (pair (fst e)) (dec_item (snd e))) l = Some m).
  { clear N. induction F as [|[k v] [k' i] l m [H1 H2] F IH]; [reflexivity|]. cbn [dec_all fst snd] in *.
    rewrite H2, IH. cbn. now subst. }
  rewrite E. cbn [option_map]. f_equal. now apply (upsert_all m []).
Qed.
Lemma dec_repr_obj v : dec_repr (JvObj [(tx "commands", v)]) = dec_commands v.
Proof. reflexivity. Qed.

(** A whole table: names distinct (it is a hash map), in any order. *)
Theorem C62_table_round_trip : forall m,
  Forall (fun e => item_fits (snd e)) m -> NoDup (map fst m) -> dec_repr (enc_repr m) = Some m.
Proof.
  intros m F N. unfold enc_repr. rewrite dec_repr_obj. apply dec_commands_obj; [|assumption].
  clear N. induction F as [|[k i] l H _ IH]; constructor; [|assumption].
  cbn. split; [reflexivity|]. now apply C62_round_trip.
Qed.
Print Assumptions C62_table_round_trip.
Theorem C62_packages_round_trip : forall l,
  Forall (fun p => Forall (fun e => item_fits (snd e)) (snd p) /\ NoDup (map fst (snd p))) l ->
  dec_packages (enc_packages l) = Some l.
Proof.
  intros l F. unfold enc_packages, dec_packages. rewrite <- (map_id l) at 2.
  apply (dec_all_map dec_package). apply Forall_forall. intros [n m] I.
  rewrite Forall_forall in F. specialize (F _ I). cbn [snd] in F. destruct F as [F N].
  pose proof (C62_table_round_trip m F N) as E. cbn [fst snd].
  change (dec_package (JvObj [(tx "name", JvStr n); (tx "spec", enc_repr m)]))
    with (let? s := dec_repr (enc_repr m) in Some (n, s)). now rewrite E.
Qed.
Print Assumptions C62_packages_round_trip.

(* ------------------------------------------------------------------ *)
(** * The order of fields, and fields nobody asked for, do not matter *)

(** The same JSON value up to the order of the fields in its objects *)
Inductive jsame : json -> json -> Prop :=
| js_same v : jsame v v
| js_obj l l' l'' : Forall2 (fun a b => fst a = fst b /\ jsame (snd a) (snd b)) l l' ->
    Permutation l' l'' -> jsame (JvObj l) (JvObj l'').

Lemma filter_perm {A} (f : A -> bool) l l' : Permutation l l' -> Permutation (filter f l) (filter f l').
Proof.
  induction 1 as [|x l l' _ IH|x y l|l l' l'' _ IH _ IH']; cbn; auto.
  - destruct (f x); auto.
  - destruct (f x), (f y); auto. constructor.
  - eauto using Permutation_trans.
Qed.
Lemma field_same k l l' l'' :
  Forall2 (fun a b : text * json => fst a = fst b /\ jsame (snd a) (snd b)) l l' -> Permutation l' l'' ->
  match field k l, field k l'' with
  | None, None | Some None, Some None => True
  | Some (Some v), Some (Some v') => jsame v v'
  | _, _ => False
  end.
Proof.
  intros F P. unfold field. apply (filter_perm (fun e => teqb k (fst e))) in P.
  assert (G : Forall2 (fun a b : text * json => fst a = fst b /\ jsame (snd a) (snd b))
            (filter (fun e => teqb k (fst e)) l) (filter (fun e => teqb k (fst e)) l')).
  { clear P. induction F as [|a b l l' [H1 H2] F IH]; [constructor|]. cbn [filter]. rewrite H1.
    destruct (teqb k (fst b)); [constructor; auto|assumption]. }
  revert G P. generalize (filter (fun e => teqb k (fst e)) l) as f1.
  generalize (filter (fun e => teqb k (fst e)) l') as f2. generalize (filter (fun e => teqb k (fst e)) l'') as f3.
  intros f3 f2 f1 G P. pose proof (Permutation_length P) as L.
  destruct G as [|a b f1 f2 [H1 H2] G].
  - destruct f3; [exact I|discriminate].
  - destruct G as [|a' b' f1 f2 [H3 H4] G].
    + apply Permutation_length_1_inv in P. subst f3. assumption.
    + destruct f3 as [|x [|y f3]]; try discriminate. exact I.
Qed.

Definition respects {A} (dec : json -> option A) : Prop := forall v v', jsame v v' -> dec v = dec v'.
Lemma required_same {A} k (dec : json -> option A) l l' l'' : respects dec ->
  Forall2 (fun a b : text * json => fst a = fst b /\ jsame (snd a) (snd b)) l l' -> Permutation l' l'' ->
  required k dec l = required k dec l''.
Proof.
  intros R F P. pose proof (field_same k _ _ _ F P) as H. unfold required.
  destruct (field k l) as [[v|]|], (field k l'') as [[v'|]|]; try tauto. now apply R.
Qed.
Lemma optional_same {A} k (dec : json -> option A) l l' l'' : respects dec ->
  Forall2 (fun a b : text * json => fst a = fst b /\ jsame (snd a) (snd b)) l l' -> Permutation l' l'' ->
  optional k dec l = optional k dec l''.
Proof.
  intros R F P. pose proof (field_same k _ _ _ F P) as H. unfold optional.
  destruct (field k l) as [[v|]|], (field k l'') as [[v'|]|]; try tauto.
  pose proof (R _ _ H) as E. inversion H; subst; [reflexivity|]. now rewrite E.
Qed.
Lemma dec_str_same : respects dec_str.
Proof. intros v v' H. now inversion H. Qed.
Lemma dec_u8_same : respects dec_u8.
Proof. intros v v' H. now inversion H. Qed.
Lemma tagged_same {A} (variants : text -> list (text * json) -> option A) :
  (forall t l l' l'', Forall2 (fun a b : text * json => fst a = fst b /\ jsame (snd a) (snd b)) l l' ->
     Permutation l' l'' -> variants t l = variants t l'') -> respects (tagged variants).
Proof.
  intros V v v' H. inversion H as [|l l' l'' F P]; subst; [reflexivity|]. cbn [tagged].
  rewrite (required_same (tx "kind") dec_str _ _ _ dec_str_same F P).
  destruct (required (tx "kind") dec_str l''); [|reflexivity]. eapply V; eassumption.
Qed.
Lemma dec_feature_same : respects dec_feature.
Proof. apply tagged_same. reflexivity. Qed.
Ltac same_fields F P :=
  repeat first
    [ rewrite (required_same _ dec_str _ _ _ dec_str_same F P)
    | rewrite (required_same _ dec_u8 _ _ _ dec_u8_same F P)
    | rewrite (required_same _ dec_feature _ _ _ dec_feature_same F P)
    | rewrite (optional_same _ dec_str _ _ _ dec_str_same F P) ].
Lemma dec_pattern_same : respects dec_pattern.
Proof. apply tagged_same. intros t l l' l'' F P. same_fields F P. reflexivity. Qed.
Lemma dec_shape_same : respects dec_shape.
Proof.
  apply tagged_same. intros t l l' l'' F P.
  rewrite (required_same _ dec_pattern _ _ _ dec_pattern_same F P). reflexivity.
Qed.
Theorem C62_field_order : forall v v', jsame v v' -> dec_item v = dec_item v'.
Proof.
  apply tagged_same. intros t l l' l'' F P. unfold dec_cmd, dec_env. same_fields F P.
  rewrite (required_same _ dec_pattern _ _ _ dec_pattern_same F P).
  rewrite (required_same _ dec_shape _ _ _ dec_shape_same F P). reflexivity.
Qed.
Print Assumptions C62_field_order.

(** A field whose name is none of those of the format changes nothing. *)
Definition field_names : list text :=
  map tx ["kind"; "args"; "alias"; "pattern"; "len"; "min"; "max"; "ctx_feature"]%string.
Theorem C62_unknown_field : forall l k v, ~ In k field_names ->
  dec_item (JvObj ((k, v) :: l)) = dec_item (JvObj l).
Proof.
  intros l k v N.
  assert (E : forall n, In n field_names -> field n ((k, v) :: l) = field n l).
  { intros n I. unfold field. cbn [filter fst]. destruct (teqbP n k) as [->|]; [tauto|reflexivity]. }
  unfold dec_item, tagged, dec_cmd, dec_env, required, optional.
  rewrite (E (tx "kind")), (E (tx "args")), (E (tx "alias")), (E (tx "pattern")), (E (tx "ctx_feature"))
    by (cbn; tauto). reflexivity.
Qed.
Print Assumptions C62_unknown_field.

(* ------------------------------------------------------------------ *)
(** * What the define functions define *)

(** The names of the features *)
Definition features : list (text * ctx_feature) :=
  [(tx "none", FNone); (tx "is-math", FMath); (tx "is-matrix", FMatrix); (tx "is-cases", FCases);
   (tx "is-figure", FFigure); (tx "is-table", FTable); (tx "is-itemize", FItemize);
   (tx "is-enumerate", FEnumerate)].
(** What the program makes of a definition; [None]: it is refused *)
Definition reading {H} (d : definition H) : option spec_item := option_map canonical (dec_item (fst d)).
Definition command (a : arg_shape) (al : option text) : spec_item := SICmd {| cs_args := a; cs_alias := al |}.
Definition environment (p : arg_pattern) (f : ctx_feature) (al : option text) : spec_item :=
  SIEnv {| en_args := p; en_feature := f; en_alias := al |}.

Lemma dec_feature_name k : dec_feature (JvObj [(tx "kind", JvStr k)]) = assoc k features.
Proof.
  change (dec_feature (JvObj [(tx "kind", JvStr k)])) with
    (if teqb k (tx "none") then Some FNone
     else if teqb k (tx "is-math") then Some FMath
     else if teqb k (tx "is-matrix") then Some FMatrix
     else if teqb k (tx "is-cases") then Some FCases
     else if teqb k (tx "is-figure") then Some FFigure
     else if teqb k (tx "is-table") then Some FTable
     else if teqb k (tx "is-itemize") then Some FItemize
     else if teqb k (tx "is-enumerate") then Some FEnumerate
     else None).
  unfold features, assoc. reflexivity.
Qed.
Lemma dec_item_glob_env' v w u :
  dec_item (kind_is "glob-env" [(tx "pattern", v); (tx "ctx_feature", u); (tx "alias", w)]) =
  let? p := dec_str v in let? a := dec_str w in let? f := dec_feature u in Some (JEnvGlob p a f).
Proof. reflexivity. Qed.

(** With or without a handler, the define functions give what their documentation
    says: a symbol; a command taking everything up to the end of its group; an
    infix command; a command with a glob of arguments; ... .  A number of arguments
    above 255 and an unknown feature are refused, and so is a glob environment
    without an alias - which is what its default asks for. *)
Theorem C62_definitions : forall (H : Type) (h : option H),
  (forall s, reading (define_sym s h) = Some (command (SRight PNone) (Some s))) /\
  (forall s, reading (define_greedy_cmd s h) = Some (command (SRight PGreedy) (Some s))) /\
  (forall s, reading (define_infix_cmd s h) = Some (command SInfixGreedy (Some s))) /\
  (forall p s, reading (define_glob_cmd p s h) = Some (command (SRight (PGlob p)) (Some s))) /\
  (forall n al, n < 256 -> reading (define_cmd n al h) = Some (command (SRight (PFixed n)) al)) /\
  (forall n al, 256 <= n -> reading (define_cmd n al h) = None) /\
  (forall k f al, assoc k features = Some f ->
     reading (define_env None k al h) = Some (environment PNone f al)) /\
  (forall n k f al, assoc k features = Some f -> n < 256 ->
     reading (define_env (Some n) k al h) = Some (environment (PFixed n) f al)) /\
  (forall n k al, 256 <= n -> reading (define_env (Some n) k al h) = None) /\
  (forall num k al, assoc k features = None -> reading (define_env num k al h) = None) /\
  (forall p k f al, assoc k features = Some f ->
     reading (Prelude.define_glob_env p k (Some al) h) = Some (environment (PGlob p) f (Some al))) /\
  (forall p k al, assoc k features = None -> reading (Prelude.define_glob_env p k al h) = None) /\
  (forall p k, reading (Prelude.define_glob_env p k None h) = None) /\
  reading (@sym H) = Some (command (SRight PNone) None) /\
  (forall x : H, reading (of_sym x) = Some (command (SRight PNone) None)) /\
  (forall s, reading (@left1_op H s) = Some (command SLeft1 (Some s))) /\
  reading (@cmd1 H) = Some (command (SRight (PFixed 1)) None) /\
  reading (@cmd2 H) = Some (command (SRight (PFixed 2)) None) /\
  reading (@matrix_env H) = Some (environment PNone FMatrix None).
Proof.
  intros H h. unfold reading.
  repeat match goal with |- _ /\ _ => split end; try reflexivity.
  - intros n al L. unfold define_cmd. cbn [fst]. rewrite dec_item_cmd, dec_right, dec_fixed, dec_u8_ok by assumption.
    now destruct al.
  - intros n al L. unfold define_cmd. cbn [fst]. now rewrite dec_item_cmd, dec_right, dec_fixed, dec_u8_no.
  - intros k f al E. unfold define_env. cbn [fst]. rewrite dec_item_env, dec_feature_name, E. now destruct al.
  - intros n k f al E L. unfold define_env. cbn [fst].
    rewrite dec_item_env, dec_feature_name, E, dec_fixed, dec_u8_ok by assumption. now destruct al.
  - intros n k al L. unfold define_env. cbn [fst].
    now rewrite dec_item_env, dec_fixed, dec_u8_no.
  - intros num k al E. unfold define_env. cbn [fst]. rewrite dec_item_env, dec_feature_name, E.
    now destruct (dec_pattern _).
  - intros p k f al E. unfold Prelude.define_glob_env. cbn [fst]. now rewrite dec_item_glob_env', dec_feature_name, E.
  - intros p k al E. unfold Prelude.define_glob_env. cbn [fst]. rewrite dec_item_glob_env', dec_feature_name, E.
    now destruct al.
Qed.
Print Assumptions C62_definitions.

(* ------------------------------------------------------------------ *)
(** * From the packages to the specification *)

(** The last definition of a name in a list of packages *)
Definition latest {H} (n : text) (pkgs : list (text * list (text * definition H))) (d : definition H) : Prop :=
  exists before p after, pkgs = before ++ p :: after /\ In (n, d) (snd p) /\
    Forall (fun q => ~ In n (map fst (snd q))) after.

Lemma process_items {H} (defs : list (text * definition H)) : NoDup (map fst defs) ->
  fst (process_spec defs) = map (fun e => (fst e, fst (snd e))) defs.
Proof.
  intros N. unfold process_spec.
  assert (G : forall acc, fst (fold_left (fun acc e =>
      let '(key, (item, sc)) := e in
      (upsert key item (fst acc),
       match sc with Some s => upsert (scope_key key s) (snd s) (snd acc) | None => snd acc end)) defs acc)
    = fold_left (fun acc e => upsert (fst e) (snd e) acc) (map (fun e => (fst e, fst (snd e))) defs) (fst acc)).
  { clear N. induction defs as [|[k [i s]] defs IH]; intros acc; [reflexivity|]. cbn [fold_left map].
    rewrite IH. reflexivity. }
  rewrite G. apply (upsert_all _ []). cbn [app]. now rewrite map_map.
Qed.

Lemma dec_query_answer {H} (printed : list (text * H) -> json) l :
  dec_query (query_answer printed l) =
  dec_all dec_package (map (fun p => JvObj [(tx "name", JvStr (fst p)); (tx "spec", JvObj [(tx "commands", JvObj (fst (snd p)))]);
                (tx "scope", printed (snd (snd p)))]) l).
Proof.
  match goal with |- _ = ?r => change (dec_query (query_answer printed l)) with
    (let? q := (let? b := r in let? t := Some [] in Some (b :: t)) in match q with [p] => Some p | _ => None end) end.
  now destruct (dec_all dec_package _).
Qed.
Lemma dec_package_printed n v w :
  dec_package (JvObj [(tx "name", JvStr n); (tx "spec", JvObj [(tx "commands", v)]); (tx "scope", w)])
  = let? s := dec_commands v in Some (n, s).
Proof. reflexivity. Qed.

Definition readable {H} (d : definition H) : Prop := reading d <> None.

Lemma readable_items {H} (defs : list (text * definition H)) :
  Forall (fun e => readable (snd e)) defs ->
  exists m, Forall2 (fun e i => fst e = fst i /\ dec_item (fst (snd e)) = Some (snd i)) defs m.
Proof.
  induction 1 as [|[k d] defs R _ (m & IH)]; [exists []; constructor|].
  unfold readable, reading in R. cbn [snd] in R. destruct (dec_item (fst d)) as [i|] eqn:E; [|now cbn in R].
  exists ((k, i) :: m). constructor; auto.
Qed.
Lemma unreadable_items {H} (defs : list (text * definition H)) e : In e defs -> reading (snd e) = None ->
  dec_all (fun e => option_map (pair (fst e)) (dec_item (snd e))) (map (fun e => (fst e, fst (snd e))) defs) = None.
Proof.
  induction defs as [|e' defs IH]; intros I R; [destruct I|]. cbn [map dec_all fst snd].
  destruct I as [->|I].
  - destruct e as [k [v s]]. unfold reading in R. cbn [fst snd] in *.
    destruct (dec_item v); [discriminate|reflexivity].
  - destruct e' as [k' [v' s']]. cbn [fst snd]. destruct (dec_item v'); [|reflexivity]. cbn. now rewrite IH.
Qed.

(** For all packages - in a package, as in every Typst dictionary, names are
    distinct - the specification generated from them answers, for every name, what
    its last definition says; if any definition is refused there is none. *)
Theorem C62_generate : forall (H : Type) printed (pkgs : list (text * list (text * definition H))),
  Forall (fun p => NoDup (map fst (snd p))) pkgs ->
  let answer := query_answer printed (map (fun p => (fst p, process_spec (snd p))) pkgs) in
  (Forall (fun p => Forall (fun e => readable (snd e)) (snd p)) pkgs ->
     exists items, generate answer = Some items /\ NoDup (map fst items) /\
       forall n it, spec_of items n = Some it <-> exists d, latest n pkgs d /\ reading d = Some it) /\
  (forall p n d, In p pkgs -> In (n, d) (snd p) -> reading d = None -> generate answer = None).
Proof.
  intros H printed pkgs N answer. unfold answer, generate. rewrite dec_query_answer, map_map. cbn [fst snd].
  split.
  - intros R.
    assert (X : exists ms, Forall2 (fun p m => fst p = fst m /\
        Forall2 (fun e i => fst e = fst i /\ dec_item (fst (snd e)) = Some (snd i)) (snd p) (snd m)) pkgs ms).
    { clear N answer. induction R as [|[pn defs] pkgs R _ (ms & IH)]; [exists []; constructor|].
      destruct (readable_items _ R) as (m & F). exists ((pn, m) :: ms). constructor; auto. }
    destruct X as (ms & F).
    assert (K : forall (defs : list (text * definition H)) (m : list (text * json_item)),
       Forall2 (fun e i => fst e = fst i /\ dec_item (fst (snd e)) = Some (snd i)) defs m -> map fst defs = map fst m).
    { induction 1 as [|[k d] [k' j] defs m [E _] _ IH]; [reflexivity|]. cbn in *. congruence. }
    assert (D : dec_all dec_package (map (fun p : text * list (text * definition H) =>
        JvObj [(tx "name", JvStr (fst p)); (tx "spec", JvObj [(tx "commands", JvObj (fst (process_spec (snd p))))]);
               (tx "scope", printed (snd (process_spec (snd p))))]) pkgs) = Some ms).
    { clear R answer. induction F as [|[pn defs] [pm m] pkgs ms [E F'] F IH]; [reflexivity|].
      apply Forall_cons_iff in N as [N1 N2]. cbn [map dec_all fst snd] in *.
      rewrite dec_package_printed, process_items by assumption.
      rewrite (dec_commands_obj _ m); [rewrite (IH N2); cbn; now subst| |now rewrite <- (K _ _ F')].
      clear - F'. induction F' as [|e i defs m E F IH]; constructor; auto. }
    rewrite D. cbn [option_map]. eexists. split; [reflexivity|].
    assert (N' : Forall (fun p => NoDup (map fst p)) (map snd ms)).
    { clear - N F K. induction F as [|[pn defs] [pm m] pkgs ms [E F'] F IH]; [constructor|].
      apply Forall_cons_iff in N as [N1 N2]. cbn [map snd] in *. constructor; [now rewrite <- (K _ _ F')|auto]. }
    split.
    { unfold spec_of_json. rewrite map_map. cbn [fst]. apply merge_nodup. }
    intros n it. rewrite (proj1 (C41_last_wins _ N' n)).
    split.
    + intros E. destruct (last_defining n (map snd ms)) as [i|] eqn:L; [|discriminate].
      cbn in E. injection E as <-. apply C41_last_means in L as (b & p & a & E & A & Fa).
      apply map_eq_app in E as (mb & mr & -> & Eb & E). apply map_eq_cons in E as (m & ma & -> & Em & Ea).
      apply Forall2_app_inv_r in F as (pb & pr & Fb & F & ->).
      inversion F as [|q ? pa ? [Eq F'] Fa' E1]; subst. clear F.
      assert (I : exists d, In (n, d) (snd q) /\ dec_item (fst d) = Some i).
      { clear - F' A. destruct q as [qn qd], m as [mn md]. cbn [snd] in *.
        induction F' as [|[k d] [k' j] defs m [E1 E2] F IH]; [discriminate|].
        cbn [fst snd assoc] in *. subst k'. destruct (teqbP n k) as [->|].
        - injection A as <-. exists d. split; [now left|assumption].
        - destruct (IH A) as (d' & I & E). exists d'. split; [now right|assumption]. }
      destruct I as (d & I & E). exists d. split.
      * exists pb, q, pa. split; [reflexivity|]. split; [assumption|].
        clear - Fa Fa' K. induction Fa' as [|x y pa ma [_ F'] _ IH]; [constructor|].
        apply Forall_cons_iff in Fa as [G1 G2]. constructor; [|auto]. intros Z. apply G1. rewrite <- (K _ _ F'). exact Z.
      * unfold reading. now rewrite E.
    + intros (d & (pb & p & pa & -> & I & Fa) & E).
      unfold reading in E. destruct (dec_item (fst d)) as [i|] eqn:Ed; [|discriminate]. cbn in E. injection E as <-.
      apply Forall2_app_inv_l in F as (mb & mr & Fb & F & ->). inversion F as [|? m ? ma [Eq F'] Fa' E1]; subst.
      assert (L : last_defining n (map snd (mb ++ m :: ma)) = Some i); [|now rewrite L].
      apply C41_last_means. exists (map snd mb), (snd m), (map snd ma).
      split; [now rewrite map_app|]. split.
      * apply Forall_app in N' as [] || idtac. apply assoc_In.
        { rewrite <- (K _ _ F'). apply Forall_app in N as [_ N]. now apply Forall_cons_iff in N as [N _]. }
        clear - F' I Ed. destruct p as [qn qd], m as [mn md]. cbn [snd] in *.
        induction F' as [|[k d'] [k' j] defs m [E1 E2] F IH]; [destruct I|].
        destruct I as [[= -> ->]|I]; [left; cbn in *; congruence|right; auto].
      * clear - Fa Fa' K. induction Fa' as [|x y pa ma [_ F'] _ IH]; [constructor|].
        apply Forall_cons_iff in Fa as [G1 G2]. constructor; [|auto]. intros Z. apply G1. rewrite <- (K _ _ F') in Z. exact Z.
  - intros p n d I J R.
    assert (D : dec_all dec_package (map (fun p : text * list (text * definition H) =>
        JvObj [(tx "name", JvStr (fst p)); (tx "spec", JvObj [(tx "commands", JvObj (fst (process_spec (snd p))))]);
               (tx "scope", printed (snd (process_spec (snd p))))]) pkgs) = None); [|now rewrite D].
    clear answer. induction pkgs as [|q pkgs IH]; [destruct I|]. apply Forall_cons_iff in N as [N1 N2].
    cbn [map dec_all]. rewrite dec_package_printed, process_items by assumption.
    destruct I as [->|I].
    + cbn [dec_commands]. now rewrite (unreadable_items _ _ J R).
    + rewrite (IH N2 I). now destruct (dec_commands _).
Qed.
Print Assumptions C62_generate.
