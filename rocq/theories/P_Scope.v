(** Property C19: macro scopes roll back completely. *)
From Verif Require Import SnapFacts Macro.

(** The abstract machine ([astep], [arun] in SnapFacts.v) keeps a plain map and
    the stack of maps saved by the open scopes.  For every history of
    insertions, removals, scope creations and restorations (of the innermost or
    of any outer scope), on any table, the concrete table answers every look-up
    as the abstract map does and never panics; restoring a scope that is not
    open is the only impossible operation.  [la] tells whether the log also
    records outside scopes. *)
Theorem C19_refinement : forall (V : Type) (la : bool) (m : snapmap V) (ops : list (op V)),
  match arun (fun k => sm_get k m, []) ops with
  | Some (a', _) => exists m' st, crun la (m, []) ops = Some (Ok (m', st)) /\ forall k, sm_get k m' = a' k
  | None => crun la (m, []) ops = None
  end.
Proof.
  intros V la m ops. pose proof (crun_sim la ops (m, []) _ (Rel_start m)) as H.
  destruct (arun _ ops) as [[a' ast]|]; [|exact H].
  destruct H as ([m' st] & Hc & HR & _). exists m', st. split; [exact Hc|exact HR].
Qed.
Print Assumptions C19_refinement.

(** After [create_scope], any definitions, removals and nested restored scopes,
    [restore] makes every look-up answer as before; the interface is that of the
    macro engine's checkpoints. *)
Theorem C19_rollback : forall (V : Type) (la : bool) (m : snapmap V) (body : list (op V)),
  balanced body ->
  exists m', crun la (m, []) (OOpen :: body ++ [ORestore 0]) = Some (Ok (m', [])) /\
    forall k, sm_get k m' = sm_get k m.
Proof.
  intros V la m body Hb.
  pose proof (crun_sim la (OOpen :: body ++ [ORestore 0]) (m, []) _ (Rel_start m)) as H.
  cbn [arun astep] in H. rewrite arun_app in H.
  destruct (balanced_arun body Hb (fun k => sm_get k m) [fun k => sm_get k m]) as [a' Ha'].
  unfold astate, amap in *. rewrite Ha' in H. cbn [arun astep nth_error skipn] in H.
  destruct H as ([m' st] & Hc & HR & Hl & _). simpl in *. destruct st; [|contradiction].
  exists m'. split; [exact Hc|exact HR].
Qed.
Print Assumptions C19_rollback.

(** The same at the level of the macro engine: a scope in which macros were
    added is undone by [restore]. *)
Theorem C19_engine : forall (e : engine) (defs : list (text * macro)) (name : text),
  let '(s, e1) := create_scope e in
  let e2 := fold_left (fun e d => add_macro (fst d) (snd d) e) defs e1 in
  exists e3, restore s e2 = Ok e3 /\ get_macro name e3 = get_macro name e /\ en_ifs e3 = en_ifs e2.
Proof.
  intros e defs name. unfold create_scope. cbn [sm_snapshot]. cbv zeta.
  set (e1 := mk_engine _ _).
  assert (forall l st m a ast, Rel (m, st) (a, ast) -> exists a',
     Rel (en_macros (fold_left (fun e d => add_macro (fst d) (snd d) e) l (mk_engine m (en_ifs e))), st) (a', ast)
     /\ en_ifs (fold_left (fun e d => add_macro (fst d) (snd d) e) l (mk_engine m (en_ifs e))) = en_ifs e) as Hfold.
  { induction l as [|[k v] l IH]; intros st m a ast HR; simpl; [now exists a|].
    apply (cstep_insert log_always) with (k := k) (v := v) in HR. now apply IH in HR. }
  destruct (Hfold defs [List.length (sm_log (en_macros e))] (en_macros e1) (fun k => sm_get k (en_macros e))
             [fun k => sm_get k (en_macros e)]) as (a' & HR & Hifs).
  { unfold Rel. simpl. split; [intros k; reflexivity|]. split; [|lia]. split; [lia|]. split; [|trivial].
    intros k. rewrite unwind_le by lia. reflexivity. }
  change (mk_engine (en_macros e1) (en_ifs e)) with e1 in *.
  pose proof (cstep_sim log_always _ _ (ORestore 0) HR) as H. simpl in H.
  destruct H as ([m' st'] & Hc & HR' & _). unfold restore.
  destruct (sm_rollback _ _) as [m2|?|]; simpl in *; try discriminate. injection Hc as -> <-.
  eexists. split; [reflexivity|]. split; [apply HR'|reflexivity].
Qed.
Print Assumptions C19_engine.

Example C19_example : balanced (V := nat)
  [OInsert (tx "a") 1; OOpen; ORemove (tx "a"); OInsert (tx "b") 2; ORestore 0; OInsert (tx "a") 3].
Proof.
  apply (b_app [OInsert (tx "a") 1]); [constructor|].
  apply (b_app [OOpen; ORemove (tx "a"); OInsert (tx "b") 2; ORestore 0]); [|constructor].
  apply (b_scope [ORemove (tx "a"); OInsert (tx "b") 2]).
  apply (b_app [ORemove (tx "a")]); constructor.
Qed.
