(** Scoped macro tables: the log-based table refines a stack of plain maps. *)
From Verif Require Export BaseFacts SnapMap.

Section Facts.
  Context {V : Type}.
  Implicit Types (l : list (text * V)) (m : snapmap V).

  Definition same (l1 l2 : list (text * V)) : Prop := forall k, assoc k l1 = assoc k l2.

  Lemma assoc_remove k k' l :
    assoc k (map_remove k' l) = if teqb k k' then None else assoc k l.
  Proof.
    unfold map_remove. induction l as [|[x v] l IH]; simpl; [now destruct (teqb k k')|].
    destruct (teqbP k' x) as [<-|Hx]; simpl.
    - rewrite IH. now destruct (teqb k k').
    - rewrite IH. destruct (teqbP k x) as [->|].
      + rewrite (proj2 (teqb_neq x k')); congruence.
      + reflexivity.
  Qed.
  Lemma assoc_insert k k' v l :
    assoc k (map_insert k' v l) = if teqb k k' then Some v else assoc k l.
  Proof. reflexivity. Qed.

  Lemma reverse_same u l1 l2 : same l1 l2 -> same (reverse u l1) (reverse u l2).
  Proof.
    intros H k. destruct u; simpl; [rewrite !assoc_remove, H; reflexivity|].
    now rewrite H.
  Qed.
  Lemma unwind_same n log : forall l1 l2, same l1 l2 ->
    fst (unwind n log l1) = fst (unwind n log l2) /\ same (snd (unwind n log l1)) (snd (unwind n log l2)).
  Proof.
    induction log as [|u log IH]; intros l1 l2 H; simpl; [auto|].
    destruct (Nat.ltb n (S (List.length log))); [|auto]. apply IH. now apply reverse_same.
  Qed.
  Lemma unwind_length n log : forall l, (n <= List.length log)%nat -> List.length (fst (unwind n log l)) = n.
  Proof.
    induction log as [|u log IH]; intros l H; simpl in *; [lia|].
    destruct (Nat.ltb_spec n (S (List.length log))); [apply IH; lia|]. simpl. lia.
  Qed.
  Lemma unwind_le n log : forall l, (List.length log <= n)%nat -> unwind n log l = (log, l).
  Proof.
    intros l H. destruct log as [|u log]; simpl in *; [reflexivity|].
    destruct (Nat.ltb_spec n (S (List.length log))); [lia|reflexivity].
  Qed.
  Lemma unwind_twice n n' log : (n' <= n)%nat -> forall l,
    unwind n' (fst (unwind n log l)) (snd (unwind n log l)) = unwind n' log l.
  Proof.
    intros Hn. induction log as [|u log IH]; intros l; simpl; [reflexivity|].
    destruct (Nat.ltb_spec n (S (List.length log))) as [H|H].
    - destruct (Nat.ltb_spec n' (S (List.length log))); [|lia]. apply IH.
    - reflexivity.
  Qed.

  Variable la : bool.

  (** ** Abstract histories *)
  Inductive op :=
  | OInsert (k : text) (v : V)
  | ORemove (k : text)
  | OOpen                (* create a scope *)
  | ORestore (i : nat).  (* restore the i-th scope, the innermost being 0 *)

  (** abstract state: the current map, and the maps saved by the open scopes *)
  Definition amap := text -> option V.
  Definition astate := (amap * list amap)%type.
  Definition astep (s : astate) (o : op) : option astate :=
    let '(a, st) := s in
    match o with
    | OInsert k v => Some (fun x => if teqb x k then Some v else a x, st)
    | ORemove k => Some (fun x => if teqb x k then None else a x, st)
    | OOpen => Some (a, a :: st)
    | ORestore i =>
      match nth_error st i with
      | Some b => Some (b, skipn (S i) st)
      | None => None
      end
    end.
  (** concrete: the table and the snapshots the client still holds *)
  Definition cstate := (snapmap V * list nat)%type.
  Definition cstep (s : cstate) (o : op) : option (res cstate) :=
    let '(m, st) := s in
    match o with
    | OInsert k v => Some (Ok (sm_insert la k v m, st))
    | ORemove k => Some (Ok (sm_remove la k m, st))
    | OOpen => let '(s, m) := sm_snapshot m in Some (Ok (m, s :: st))
    | ORestore i =>
      match nth_error st i with
      | Some s => Some (let* m := sm_rollback s m in Ok (m, skipn (S i) st))
      | None => None
      end
    end.

  Definition agrees (m : snapmap V) (a : amap) : Prop := forall k, sm_get k m = a k.
  (** every held snapshot still leads back to its saved map *)
  Fixpoint leads (m : snapmap V) (st : list nat) (ast : list amap) (top : nat) : Prop :=
    match st, ast with
    | [], [] => True
    | s :: st, a :: ast =>
      (s <= top)%nat /\ (forall k, assoc k (snd (unwind s (sm_log m) (sm_map m))) = a k)
      /\ leads m st ast s
    | _, _ => False
    end.
  Definition Rel (c : cstate) (a : astate) : Prop :=
    agrees (fst c) (fst a) /\ leads (fst c) (snd c) (snd a) (List.length (sm_log (fst c)))
    /\ (List.length (snd c) <= sm_open (fst c))%nat.

  (** pushing an entry whose reversal gives the same map back *)
  Lemma leads_push m m' u st : forall ast top,
    sm_log m' = u :: sm_log m -> same (reverse u (sm_map m')) (sm_map m) ->
    (top <= List.length (sm_log m))%nat ->
    leads m st ast top -> leads m' st ast top.
  Proof.
    induction st as [|s st IH]; intros [|a ast] top Hl Hs Ht; simpl; try tauto.
    intros (H1 & H2 & H3). split; [assumption|]. split.
    - intros k. rewrite Hl. simpl. destruct (Nat.ltb_spec s (S (List.length (sm_log m)))); [|lia].
      destruct (unwind_same s (sm_log m) _ _ Hs) as [_ H']. now rewrite H'.
    - apply IH; try assumption. lia.
  Qed.
  Lemma leads_top m st : forall ast top top', (top <= top')%nat -> leads m st ast top -> leads m st ast top'.
  Proof. destruct st as [|s st]; intros [|a ast] top top' H; simpl; intuition lia. Qed.
  Lemma leads_nil_log m m' st : st = [] -> forall ast top, leads m st ast top -> leads m' st ast top.
  Proof. intros ->. intros [|a ast]; simpl; auto. Qed.
  Lemma leads_undo m m' st : sm_log m' = sm_log m -> sm_map m' = sm_map m ->
    forall ast top, leads m st ast top -> leads m' st ast top.
  Proof.
    intros Hl Hm. induction st as [|s st IH]; intros [|a ast] top; simpl; try tauto.
    rewrite Hl, Hm. intuition.
  Qed.

  Lemma cstep_insert m st a ast k v : Rel (m, st) (a, ast) ->
    Rel (sm_insert la k v m, st) (fun x => if teqb x k then Some v else a x, ast).
  Proof.
    intros (Ha & Hl & Ho). unfold Rel, sm_insert in *; simpl in *.
    assert (forall k', sm_get k' m = assoc k' (sm_map m)) as Hg by reflexivity.
    assert (Hm : forall u, (la || Nat.ltb 0 (sm_open m) = true ->
               leads (mk_sm (map_insert k v (sm_map m)) (u :: sm_log m) (sm_open m)) st ast
                    (S (List.length (sm_log m)))) ->
             leads (mk_sm (map_insert k v (sm_map m)) (log_push la u m) (sm_open m)) st ast
               (List.length (log_push la u m))).
    { intros u Hp. unfold log_push. destruct (la || Nat.ltb 0 (sm_open m)) eqn:E; [now apply Hp|].
      apply orb_false_iff in E as [_ E]. apply Nat.ltb_ge in E.
      destruct st; [|simpl in Ho; lia]. destruct ast; simpl in *; auto. }
    destruct (sm_get k m) as [old|] eqn:Eg; simpl.
    - split; [intros x; unfold sm_get; simpl; rewrite <- Ha; reflexivity|]. split; [|assumption].
      apply Hm. intros _. eapply leads_top; [|eapply (leads_push m); [reflexivity| |reflexivity|eassumption]].
      + simpl; lia.
      + intros x. simpl. destruct (teqbP x k) as [->|]; [now rewrite <- Hg|reflexivity].
    - split; [intros x; unfold sm_get; simpl; rewrite <- Ha; reflexivity|]. split; [|assumption].
      apply Hm. intros _. eapply leads_top; [|eapply (leads_push m); [reflexivity| |reflexivity|eassumption]].
      + simpl; lia.
      + intros x. cbn [reverse sm_map]. rewrite assoc_remove, assoc_insert.
        destruct (teqbP x k) as [->|]; [now rewrite <- Hg|reflexivity].
  Qed.
  Lemma cstep_remove m st a ast k : Rel (m, st) (a, ast) ->
    Rel (sm_remove la k m, st) (fun x => if teqb x k then None else a x, ast).
  Proof.
    intros (Ha & Hl & Ho). unfold Rel, sm_remove in *; simpl in *.
    destruct (sm_get k m) as [old|] eqn:Eg; simpl.
    - split.
      { intros x. unfold sm_get. simpl. rewrite assoc_remove. destruct (teqb x k); [reflexivity|apply Ha]. }
      split; [|assumption].
      unfold log_push. destruct (la || Nat.ltb 0 (sm_open m)) eqn:E.
      + eapply leads_top; [|eapply (leads_push m); [reflexivity| |reflexivity|eassumption]]; [simpl; lia|].
        intros x. cbn [reverse sm_map]. rewrite assoc_insert, assoc_remove.
        destruct (teqbP x k) as [->|]; [symmetry; exact Eg|reflexivity].
      + apply orb_false_iff in E as [_ E]. apply Nat.ltb_ge in E.
        destruct st; [|simpl in Ho; lia]. destruct ast; simpl in *; auto.
    - split; [|auto]. intros x. rewrite <- Ha. destruct (teqbP x k) as [->|]; auto.
  Qed.
  Lemma leads_skip m : forall i st ast top s a, leads m st ast top ->
    nth_error st i = Some s -> nth_error ast i = Some a ->
    (s <= top)%nat /\ (forall k, assoc k (snd (unwind s (sm_log m) (sm_map m))) = a k) /\
    leads m (skipn (S i) st) (skipn (S i) ast) s.
  Proof.
    induction i as [|i IH]; intros [|s0 st] [|a0 ast] top s a; simpl; try discriminate; try tauto.
    - intros (H1 & H2 & H3) [= <-] [= <-]. auto.
    - intros (H1 & H2 & H3) Hs Ha. destruct (IH _ _ _ _ _ H3 Hs Ha) as (H4 & H5 & H6).
      split; [lia|]. auto.
  Qed.
  Lemma leads_len m st : forall ast top, leads m st ast top -> List.length st = List.length ast.
  Proof.
    induction st as [|s st IH]; intros [|a ast] top; simpl; try tauto.
    intros (_ & _ & H). f_equal. eauto.
  Qed.
  Lemma leads_after m m' s st : sm_log m' = fst (unwind s (sm_log m) (sm_map m)) ->
    sm_map m' = snd (unwind s (sm_log m) (sm_map m)) ->
    forall ast top, (top <= s)%nat -> leads m st ast top -> leads m' st ast top.
  Proof.
    intros Hl Hm. induction st as [|s' st IH]; intros [|a ast] top Ht; simpl; try tauto.
    intros (H1 & H2 & H3). split; [assumption|]. split.
    - intros k. rewrite Hl, Hm, unwind_twice by lia. apply H2.
    - apply IH; [lia|assumption].
  Qed.

  (** One step of any history *)
  Lemma cstep_sim c a o : Rel c a ->
    match astep a o with
    | Some a' => exists c', cstep c o = Some (Ok c') /\ Rel c' a'
    | None => cstep c o = None
    end.
  Proof.
    destruct c as [m st], a as [am ast]. intros HR. destruct o as [k v|k| |i]; simpl.
    - eexists. split; [reflexivity|]. now apply cstep_insert.
    - eexists. split; [reflexivity|]. now apply cstep_remove.
    - eexists. split; [reflexivity|]. destruct HR as (Ha & Hl & Ho). unfold Rel. simpl in *.
      split; [exact Ha|]. split; [|lia]. split; [lia|]. split.
      + intros k. rewrite unwind_le by lia. apply Ha.
      + eapply leads_undo; [| |eassumption]; reflexivity.
    - destruct HR as (Ha & Hl & Ho). simpl in *.
      pose proof (leads_len _ _ _ _ Hl) as Hlen.
      destruct (nth_error ast i) as [b|] eqn:Eb.
      + destruct (nth_error st i) as [s|] eqn:Es.
        2: { apply nth_error_None in Es. assert (nth_error ast i <> None) as Hn by congruence.
             apply nth_error_Some in Hn. lia. }
        destruct (leads_skip _ _ _ _ _ _ _ Hl Es Eb) as (H1 & H2 & H3).
        assert (i < List.length st)%nat as Hi by (apply nth_error_Some; congruence).
        unfold sm_rollback, assert_open.
        apply Nat.leb_le in H1 as H1'. rewrite H1'.
        destruct (Nat.ltb_spec 0 (sm_open m)); [|lia]. simpl.
        destruct (unwind s (sm_log m) (sm_map m)) as [log' l'] eqn:Eu.
        simpl. eexists. split; [reflexivity|]. unfold Rel. simpl. split; [|split].
        * intros k. unfold sm_get. simpl. simpl in H2. apply H2.
        * assert (List.length log' = s) as ->.
          { change log' with (fst (log', l')). rewrite <- Eu. now apply unwind_length. }
          eapply (leads_after m _ s); [now rewrite Eu | now rewrite Eu | reflexivity | exact H3].
        * replace (match st with [] => [] | _ :: l => skipn i l end) with (skipn (S i) st) by reflexivity.
          rewrite skipn_length. lia.
      + apply nth_error_None in Eb. rewrite <- Hlen in Eb. apply nth_error_None in Eb. now rewrite Eb.
  Qed.

  Fixpoint arun (s : astate) (ops : list op) : option astate :=
    match ops with
    | [] => Some s
    | o :: r => match astep s o with Some s' => arun s' r | None => None end
    end.
  Fixpoint crun (s : cstate) (ops : list op) : option (res cstate) :=
    match ops with
    | [] => Some (Ok s)
    | o :: r =>
      match cstep s o with
      | Some (Ok s') => crun s' r
      | Some (Panic e) => Some (Panic e)
      | Some Fuel => Some Fuel
      | None => None
      end
    end.
  Lemma crun_sim ops : forall c a, Rel c a ->
    match arun a ops with
    | Some a' => exists c', crun c ops = Some (Ok c') /\ Rel c' a'
    | None => crun c ops = None
    end.
  Proof.
    induction ops as [|o ops IH]; intros c a HR; simpl; [eauto|].
    pose proof (cstep_sim c a o HR) as H. destruct (astep a o) as [a'|].
    - destruct H as (c' & -> & HR'). now apply IH.
    - now rewrite H.
  Qed.
  Lemma Rel_start m : Rel (m, []) (fun k => sm_get k m, []).
  Proof. split; [intros k; reflexivity|]. simpl. split; [trivial|lia]. Qed.

  (** well-bracketed bodies: the scopes opened are restored (in order) *)
  Inductive balanced : list op -> Prop :=
  | b_nil : balanced []
  | b_insert k v : balanced [OInsert k v]
  | b_remove k : balanced [ORemove k]
  | b_scope b : balanced b -> balanced (OOpen :: b ++ [ORestore 0])
  | b_app b1 b2 : balanced b1 -> balanced b2 -> balanced (b1 ++ b2).
  Lemma arun_app b1 b2 s : arun s (b1 ++ b2) = match arun s b1 with Some s' => arun s' b2 | None => None end.
  Proof. revert s; induction b1 as [|o b1 IH]; intros s; simpl; [reflexivity|]. destruct (astep s o); auto. Qed.
  Lemma balanced_arun b : balanced b -> forall a st, exists a', arun (a, st) b = Some (a', st).
  Proof.
    induction 1 as [|k v|k|b _ IH|b1 b2 _ IH1 _ IH2]; intros a st.
    - exists a. reflexivity.
    - eexists. reflexivity.
    - eexists. reflexivity.
    - destruct (IH a (a :: st)) as [a' Ha']. exists a. simpl. rewrite arun_app, Ha'. reflexivity.
    - rewrite arun_app. destruct (IH1 a st) as [a1 ->]. apply IH2.
  Qed.
End Facts.
Arguments op : clear implicits.
