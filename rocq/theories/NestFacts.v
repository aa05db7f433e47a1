(** A scanner for nested code, and its meaning (C69). *)
From Verif Require Export NestSpec.
Local Open Scope N_scope.

(** the closing characters that are awaited, innermost first *)
Fixpoint formula (b : bool) (st : text) : bool :=
  match st with [] => b | x :: r => if x =? 36 then true else if x =? 93 then false else formula b r end.
Section Scan.
Variable b0 : bool.
Notation formula := (formula b0).
Fixpoint nest (st s : text) {struct s} : option text :=
  match s with
  | [] => Some st
  | c :: r =>
    if c =? 92 then match r with [] => None | _ :: r' => nest st r' end
    else if c =? 40 then nest (41 :: st) r
    else if c =? 91 then nest (93 :: st) r
    else if c =? 36 then
      if formula st then match st with x :: st' => if x =? 36 then nest st' r else None | [] => None end
      else nest (36 :: st) r
    else if (c =? 41) || (c =? 93) then match st with x :: st' => if x =? c then nest st' r else None | [] => None end
    else nest st r
  end.
Definition moves (st s st' : text) : Prop := nest st s = Some st'.

Lemma loud_iff c : loud c <-> c = 40 \/ c = 41 \/ c = 91 \/ c = 93 \/ c = 36 \/ c = 92.
Proof. unfold loud. cbn. intuition. Qed.
Lemma nest_quiet c r st : ~ loud c -> nest st (c :: r) = nest st r.
Proof.
  intros H. rewrite loud_iff in H. cbn [nest].
  destruct (N.eqb_spec c 92); [tauto|]. destruct (N.eqb_spec c 40); [tauto|]. destruct (N.eqb_spec c 91); [tauto|].
  destruct (N.eqb_spec c 36); [tauto|]. destruct (N.eqb_spec c 41); [tauto|]. destruct (N.eqb_spec c 93); [tauto|]. reflexivity.
Qed.
Lemma moves_nil st : moves st [] st. Proof. reflexivity. Qed.
Lemma moves_char c st : ~ loud c -> moves st [c] st.
Proof. intros H. unfold moves. now rewrite nest_quiet. Qed.
Lemma moves_app s : forall st st1 r st', moves st s st1 -> moves st1 r st' -> moves st (s ++ r) st'.
Proof.
  unfold moves. induction s as [s IH] using (induction_ltof1 _ (@List.length char)). unfold ltof in IH.
  intros st st1 r st' H1 H2. destruct s as [|c s]; [cbn in H1; injection H1 as ->; exact H2|].
  cbn [app nest] in H1 |- *.
  destruct (c =? 92).
  { destruct s as [|d s]; [discriminate|]. cbn [app]. eapply IH; [cbn; lia|exact H1|exact H2]. }
  destruct (c =? 40); [eapply IH; [cbn; lia|exact H1|exact H2]|].
  destruct (c =? 91); [eapply IH; [cbn; lia|exact H1|exact H2]|].
  destruct (c =? 36).
  { destruct (formula st); [destruct st as [|x st0]; [discriminate|]; destruct (x =? 36); [|discriminate]|]; (eapply IH; [cbn; lia|exact H1|exact H2]). }
  destruct ((c =? 41) || (c =? 93)).
  { destruct st as [|x st0]; [discriminate|]. destruct (x =? c); [|discriminate]. eapply IH; [cbn; lia|exact H1|exact H2]. }
  eapply IH; [cbn; lia|exact H1|exact H2].
Qed.
Lemma moves_quiet s st : quiet s -> moves st s st.
Proof. induction 1 as [|c s Hc _ IH]; [reflexivity|]. unfold moves. now rewrite nest_quiet. Qed.
Lemma moves_dollar st : formula st = false -> moves st (tx "$") (36 :: st).
Proof. intros H. unfold moves. cbn. now rewrite H. Qed.
Lemma moves_enddollar st : moves (36 :: st) (tx "$") st.
Proof. reflexivity. Qed.

(** ** Meaning *)
Fixpoint closes (st s : text) : Prop :=
  match st with
  | [] => nested b0 s
  | x :: st' => exists a r, s = a ++ x :: r /\ nested (formula st) a /\ closes st' r
  end.
Lemma closes_after w st r : (forall s, nested (formula st) s -> nested (formula st) (w ++ s)) -> closes st r -> closes st (w ++ r).
Proof.
  intros H. destruct st as [|x st]; cbn [closes]; [apply H|].
  intros (a & r' & -> & H1 & H2). exists (w ++ a), r'. split; [now rewrite app_assoc|]. split; [now apply H|exact H2].
Qed.
Lemma nest_closes s : forall st, nest st s = Some [] -> closes st s.
Proof.
  induction s as [s IH] using (induction_ltof1 _ (@List.length char)). unfold ltof in IH. intros st H.
  destruct s as [|c s]; [cbn in H; injection H as ->; constructor|].
  cbn [nest] in H.
  destruct (N.eqb_spec c 92) as [-> |N1].
  { destruct s as [|d s]; [discriminate|]. apply IH in H; [|cbn; lia]. apply (closes_after [92; d]); [|exact H]. intros u Hu. now apply ne_hidden. }
  destruct (N.eqb_spec c 40) as [-> |N2].
  { apply IH in H as (a & r & -> & H1 & H2); [|cbn; lia].
    replace (40 :: a ++ 41 :: r) with ((40 :: a ++ [41]) ++ r) by (cbn; now rewrite <- app_assoc).
    apply closes_after; [|exact H2]. intros u Hu. cbn in H1.
    replace ((40 :: a ++ [41]) ++ u) with (tx "(" ++ a ++ tx ")" ++ u) by (cbn; now rewrite <- app_assoc). now apply ne_round. }
  destruct (N.eqb_spec c 91) as [-> |N3].
  { apply IH in H as (a & r & -> & H1 & H2); [|cbn; lia].
    replace (91 :: a ++ 93 :: r) with ((91 :: a ++ [93]) ++ r) by (cbn; now rewrite <- app_assoc).
    apply closes_after; [|exact H2]. intros u Hu. cbn in H1.
    replace ((91 :: a ++ [93]) ++ u) with (tx "[" ++ a ++ tx "]" ++ u) by (cbn; now rewrite <- app_assoc). now apply ne_square. }
  destruct (N.eqb_spec c 36) as [-> |N4].
  { destruct (formula st) eqn:Ef.
    - destruct st as [|x st]; [discriminate|]. destruct (N.eqb_spec x 36) as [-> |]; [|discriminate].
      apply IH in H; [|cbn; lia]. exists [], s. split; [reflexivity|]. split; [constructor|exact H].
    - apply IH in H as (a & r & -> & H1 & H2); [|cbn; lia].
      replace (36 :: a ++ 36 :: r) with ((36 :: a ++ [36]) ++ r) by (cbn; now rewrite <- app_assoc).
      apply closes_after; [|exact H2]. intros u Hu. cbn in H1. rewrite Ef in Hu |- *.
      replace ((36 :: a ++ [36]) ++ u) with (tx "$" ++ a ++ tx "$" ++ u) by (cbn; now rewrite <- app_assoc). now apply ne_formula. }
  destruct ((c =? 41) || (c =? 93)) eqn:E.
  { destruct st as [|x st]; [discriminate|]. destruct (N.eqb_spec x c) as [-> |]; [|discriminate].
    apply IH in H; [|cbn; lia]. exists [], s. split; [reflexivity|]. split; [constructor|exact H]. }
  apply orb_false_iff in E as [E1 E2]. apply N.eqb_neq in E1, E2.
  apply IH in H; [|cbn; lia]. apply (closes_after [c]); [|exact H]. intros u Hu. apply ne_char; [|exact Hu]. rewrite loud_iff. tauto.
Qed.
Lemma nested_nest b s : nested b s -> forall st, formula st = b -> moves st s st.
Proof.
  induction 1 as [b|b c s Hc _ IH|b c s _ IH|b s r _ IH1 _ IH2|b s r _ IH1 _ IH2|s r _ IH1 _ IH2]; intros st Hf.
  - reflexivity.
  - apply (moves_app [c] st st); [now apply moves_char|now apply IH].
  - now apply IH.
  - apply (moves_app (tx "(") st (41 :: st)); [reflexivity|]. apply (moves_app s _ (41 :: st)); [now apply IH1|].
    apply (moves_app (tx ")") _ st); [reflexivity|now apply IH2].
  - apply (moves_app (tx "[") st (93 :: st)); [reflexivity|]. apply (moves_app s _ (93 :: st)); [now apply IH1|].
    apply (moves_app (tx "]") _ st); [reflexivity|now apply IH2].
  - apply (moves_app (tx "$") st (36 :: st)); [now apply moves_dollar|]. apply (moves_app s _ (36 :: st)); [now apply IH1|].
    apply (moves_app (tx "$") _ st); [reflexivity|now apply IH2].
Qed.

(** a text that contains only round brackets; decidable *)
Fixpoint even (n : nat) (s : text) : bool :=
  match s with
  | [] => Nat.eqb n 0
  | c :: r =>
    if c =? 92 then match r with [] => false | _ :: r' => even n r' end
    else if c =? 40 then even (S n) r
    else if c =? 41 then match n with O => false | S m => even m r end
    else if (c =? 91) || (c =? 93) || (c =? 36) then false
    else even n r
  end.
Lemma even_moves s : forall n st, even n s = true -> moves (repeat 41 n ++ st) s st.
Proof.
  unfold moves. induction s as [s IH] using (induction_ltof1 _ (@List.length char)). unfold ltof in IH. intros n st H.
  destruct s as [|c s]; [cbn in H; apply Nat.eqb_eq in H as ->; reflexivity|]. cbn [even nest] in H |- *.
  destruct (c =? 92). { destruct s as [|d s]; [discriminate|]. apply IH; [cbn; lia|exact H]. }
  destruct (c =? 40). { apply (IH s ltac:(cbn; lia) (S n)). exact H. }
  destruct (N.eqb_spec c 41) as [-> |N1].
  { destruct n as [|n]; [discriminate|]. cbn. apply IH; [cbn; lia|exact H]. }
  destruct (c =? 91); [discriminate|]. destruct (c =? 93); [discriminate|]. cbn [orb] in H |- *. destruct (c =? 36); [discriminate|].
  apply IH; [cbn; lia|exact H].
Qed.
Lemma even_level s st : even 0 s = true -> moves st s st. Proof. apply (even_moves s 0). Qed.
End Scan.
