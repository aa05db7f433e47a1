(** The scoped macro table: crates/mitex-lexer/src/snapshot_map.rs on top of
    the [VecLog] of the ena crate (0.14).  ena's source is not part of /repo; its
    contract as modelled here: [push] appends to the log (always, or only while
    a snapshot is open: parameter [la], both are covered by the theorems),
    [start_snapshot] records the log length, [rollback_to] pops and reverses
    entries down to that length, [commit] of the outermost snapshot requires
    length 0 and clears the log; [rollback_to] and [commit] assert that the
    snapshot is open. *)
From Verif Require Export Base.

Section SnapMap.
  Context {V : Type}.

  (** snapshot_map.rs:45-49 [UndoLog] (the [Purged] variant is never built) *)
  Inductive undo := Inserted (k : text) | Overwrite (k : text) (v : V).

  (** snapshot_map.rs:23-27 [SnapshotMap] with [VecLog] (log: head = last
      pushed; number of open snapshots).  The hash map is an association list
      read by first match. *)
  Record snapmap := mk_sm {
    sm_map : list (text * V);
    sm_log : list undo;
    sm_open : nat
  }.

  (** snapshot_map.rs:33-43 [default] *)
  Definition sm_empty : snapmap := mk_sm [] [] 0.

  (** snapshot_map.rs:96-102 [get] *)
  Definition sm_get (k : text) (m : snapmap) : option V := assoc k (sm_map m).

  (** [HashMap::insert], [HashMap::remove] *)
  Definition map_insert (k : text) (v : V) (l : list (text * V)) := (k, v) :: l.
  Definition map_remove (k : text) (l : list (text * V)) :=
    filter (fun e => negb (teqb k (fst e))) l.

  Variable la : bool.

  (** ena VecLog::push *)
  Definition log_push (u : undo) (m : snapmap) : list undo :=
    if la || Nat.ltb 0 (sm_open m) then u :: sm_log m else sm_log m.

  (** snapshot_map.rs:73-84 [insert] *)
  Definition sm_insert (k : text) (v : V) (m : snapmap) : snapmap :=
    match sm_get k m with
    | None => mk_sm (map_insert k v (sm_map m)) (log_push (Inserted k) m) (sm_open m)
    | Some old => mk_sm (map_insert k v (sm_map m)) (log_push (Overwrite k old) m) (sm_open m)
    end.

  (** snapshot_map.rs:86-94 [remove] *)
  Definition sm_remove (k : text) (m : snapmap) : snapmap :=
    match sm_get k m with
    | Some old => mk_sm (map_remove k (sm_map m)) (log_push (Overwrite k old) m) (sm_open m)
    | None => m
    end.

  (** snapshot_map.rs:68-71 [clear] (VecLog::clear also closes all snapshots) *)
  Definition sm_clear (m : snapmap) : snapmap := mk_sm [] [] 0.

  (** snapshot_map.rs:144-161 [reverse] *)
  Definition reverse (u : undo) (l : list (text * V)) : list (text * V) :=
    match u with
    | Inserted k => map_remove k l
    | Overwrite k v => map_insert k v l
    end.

  (** A snapshot is the log length at its creation. *)
  Definition snapshot := nat.

  (** snapshot_map.rs:109-111 [snapshot] *)
  Definition sm_snapshot (m : snapmap) : snapshot * snapmap :=
    (List.length (sm_log m), mk_sm (sm_map m) (sm_log m) (S (sm_open m))).

  (** The pop-and-reverse loop of VecLog::rollback_to *)
  Fixpoint unwind (n : nat) (log : list undo) (l : list (text * V))
    : list undo * list (text * V) :=
    match log with
    | [] => ([], l)
    | u :: log' => if Nat.ltb n (List.length log) then unwind n log' (reverse u l) else (log, l)
    end.

  (** ena VecLog::assert_open_snapshot *)
  Definition assert_open (s : snapshot) (m : snapmap) : bool :=
    Nat.leb s (List.length (sm_log m)) && Nat.ltb 0 (sm_open m).

  (** snapshot_map.rs:117-120 [rollback_to] *)
  Definition sm_rollback (s : snapshot) (m : snapmap) : res snapmap :=
    if assert_open s m then
      let '(log, l) := unwind s (sm_log m) (sm_map m) in
      Ok (mk_sm l log (sm_open m - 1))
    else Panic "ena assert_open_snapshot".

  (** snapshot_map.rs:113-115 [commit] *)
  Definition sm_commit (s : snapshot) (m : snapmap) : res snapmap :=
    if assert_open s m then
      if Nat.eqb (sm_open m) 1 then
        if Nat.eqb s 0 then Ok (mk_sm (sm_map m) [] 0) else Panic "ena commit undo_len"
      else Ok (mk_sm (sm_map m) (sm_log m) (sm_open m - 1))
    else Panic "ena assert_open_snapshot".
End SnapMap.
Arguments snapmap : clear implicits.
Arguments undo : clear implicits.
