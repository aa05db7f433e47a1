(** The grammar under squeezing of blanks (C72). *)
From Verif Require Import GramSound GramComplete.
From Verif Require Import SpaceSpec GramSpec.
Local Open Scope nat_scope.

Section Comments.
  Variable comments : bool.
  Notation blank := (SpaceSpec.blank comments).
  Notation squeeze := (SpaceSpec.squeeze comments).
  Notation blank_leaf := (SpaceSpec.blank_leaf comments).
  Notation squeezed := (SpaceSpec.squeezed comments).

(** ** Squeezing *)
Fixpoint sqs (after : bool) (l : list tree) : list tree :=
  match l with
  | [] => []
  | x :: r => if blank_leaf x then (if after then [] else [Leaf TokenWhiteSpace (tx " ")]) ++ sqs true r else squeezed x :: sqs false r
  end.
Lemma squeezed_node k ch : squeezed (Node k ch) = Node k (sqs false ch).
Proof. reflexivity. Qed.
Lemma blank_iff t : blank t = true -> blank_token t.
Proof. unfold SpaceSpec.blank, blank_token. destruct t as [t s]. cbn [fst]. destruct t; try discriminate; cbn; tauto. Qed.
Lemma blank_lf t : blank_leaf (lf t) = blank t.
Proof. destruct t as [[] s]; try reflexivity; try (destruct b; reflexivity); destruct c; reflexivity. Qed.
(** not blank-headed *)
Definition nbh (l : list tree) : Prop := match l with x :: _ => blank_leaf x = false | [] => True end.
Definition nbt (l : list tok) : Prop := match l with x :: _ => blank x = false | [] => True end.
Lemma sqs_nb a l : nbh l -> sqs a l = sqs false l.
Proof. destruct l as [|x l]; [reflexivity|]. cbn. intros ->. reflexivity. Qed.
Lemma squeeze_nb a l : nbt l -> squeeze a l = squeeze false l.
Proof. destruct l as [|x l]; [reflexivity|]. cbn. intros ->. reflexivity. Qed.
Lemma sqs_app a l r : nbh r -> sqs a (l ++ r) = sqs a l ++ sqs false r.
Proof.
  intros H. revert a. induction l as [|x l IH]; intros a; [now apply sqs_nb|]. cbn [app sqs]. rewrite !IH. destruct (blank_leaf x); [|reflexivity].
  now rewrite <- app_assoc.
Qed.
Lemma squeeze_app a l r : nbt r -> squeeze a (l ++ r) = squeeze a l ++ squeeze false r.
Proof.
  intros H. revert a. induction l as [|x l IH]; intros a; [now apply squeeze_nb|]. cbn [app SpaceSpec.squeeze]. rewrite !IH. destruct (blank x); [|reflexivity].
  now rewrite <- app_assoc.
Qed.
Lemma sqs_lf a ts : sqs a (map lf ts) = map lf (squeeze a ts).
Proof.
  revert a. induction ts as [|t ts IH]; intros a; [reflexivity|]. cbn [map sqs SpaceSpec.squeeze]. rewrite blank_lf, !IH. destruct (blank t); [|reflexivity].
  destruct a; reflexivity.
Qed.
Lemma sqs_nil a l : nbh l -> sqs a l = [] -> l = [].
Proof. destruct l as [|x l]; [reflexivity|]. cbn. intros ->. discriminate. Qed.
Lemma sqs_false_nil l : sqs false l = [] -> l = [].
Proof. destruct l as [|x l]; [reflexivity|]. cbn. destruct (blank_leaf x); discriminate. Qed.
Lemma squeeze_blanks a bs : Forall blank_token bs -> Forall blank_token (squeeze a bs).
Proof.
  intros H. revert a. induction H as [|b bs Hb _ IH]; intros a; [constructor|]. cbn [SpaceSpec.squeeze]. destruct (blank b); [|constructor; [exact Hb|apply IH]].
  destruct a; cbn [app]; [apply IH|]. constructor; [cbn; tauto|apply IH].
Qed.
Lemma squeeze_texts a ts : Forall text_token ts -> Forall text_token (squeeze a ts).
Proof.
  intros H. revert a. induction H as [|b bs Hb _ IH]; intros a; [constructor|]. cbn [SpaceSpec.squeeze]. destruct (blank b).
  - destruct a; cbn [app]; [apply IH|]. constructor; [cbn; tauto|apply IH].
  - constructor; [exact Hb|apply IH].
Qed.
Lemma sqs_1 x : blank_leaf x = false -> sqs false [x] = [squeezed x].
Proof. intros H. cbn. now rewrite H. Qed.
Lemma squeeze_heads (P : tok -> Prop) r : ~ P the_blank -> ~ heads P r -> ~ heads P (squeeze false r).
Proof. destruct r as [|t r]; [auto|]. cbn. destruct (blank t); auto. Qed.

(** ** Lines *)
Definition sql (l : line) : line := mk_line (sqs false (before l)) (option_map (sqs false) (base l)) (from l).
Definition good (l : line) : Prop := forall ys, base l = Some ys -> exists x r, ys = x :: r /\ blank_leaf x = false.
Definition tail_of (l : line) : list tree := match base l with Some ys => ys | None => before l end.
Definition trails (l : line) : bool := match rev (tail_of l) with x :: _ => blank_leaf x | [] => false end.
Lemma good_fresh r : good (fresh r). Proof. intros ys H. discriminate H. Qed.
Lemma good_add xs l : good l -> good (add xs l).
Proof. destruct l as [b [ys|] f]; intros H zs; cbn; [|discriminate]. intros [= <-]. destruct (H ys eq_refl) as (x & r & -> & E). now exists x, (r ++ xs). Qed.
Lemma good_baseless l : good (baseless l). Proof. intros ys H. discriminate H. Qed.
Lemma good_nbh l : good l -> nbh (based (base l)).
Proof. intros H. destruct (base l) as [ys|] eqn:E; [|exact I]. destruct (H ys E) as (x & r & -> & E2). exact E2. Qed.
Lemma sql_all l : good l -> all (sql l) = sqs false (all l).
Proof.
  intros H. pose proof (good_nbh l H) as G. unfold all. rewrite sqs_app; [|exact G]. unfold sql. cbn. destruct (base l); reflexivity.
Qed.
Lemma sql_fresh r : sql (fresh r) = fresh r. Proof. reflexivity. Qed.
Lemma sql_add xs l : nbh xs -> sql (add xs l) = add (sqs false xs) (sql l).
Proof. intros H. destruct l as [b [ys|] f]; unfold sql, add; cbn; now rewrite sqs_app. Qed.
Lemma sql_baseless l : good l -> sql (baseless l) = baseless (sql l).
Proof. intros H. unfold baseless. rewrite (sql_all l H). reflexivity. Qed.
Lemma add_blank b l : blank_leaf b = true -> sql (add [b] l) = if trails l then sql l else add [Leaf TokenWhiteSpace (tx " ")] (sql l).
Proof.
  intros Hb.
  assert (K : forall ys, sqs false (ys ++ [b]) = if match rev ys with x :: _ => blank_leaf x | [] => false end then sqs false ys else sqs false ys ++ [Leaf TokenWhiteSpace (tx " ")]).
  { intros ys. assert (G : forall a, sqs a (ys ++ [b]) = if match rev ys with x :: _ => blank_leaf x | [] => a end then sqs a ys else sqs a ys ++ [Leaf TokenWhiteSpace (tx " ")]); [|apply G].
    induction ys as [|y ys IH]; intros a; [cbn; rewrite Hb; destruct a; reflexivity|]. cbn [app sqs rev]. rewrite !IH.
    assert (E : forall c, match rev ys ++ [y] with x :: _ => blank_leaf x | [] => c end = match rev ys with x :: _ => blank_leaf x | [] => blank_leaf y end) by (destruct (rev ys); reflexivity).
    rewrite E. destruct (blank_leaf y); destruct (match rev ys with x :: _ => blank_leaf x | [] => _ end); rewrite <- ?app_assoc; reflexivity. }
  destruct l as [be [ys|] f]; unfold sql, add, trails, tail_of; cbn; rewrite K; destruct (match rev _ with x :: _ => blank_leaf x | [] => false end); reflexivity.
Qed.
Lemma trails_add xs x l : trails (add (xs ++ [x]) l) = blank_leaf x.
Proof. destruct l as [be [ys|] f]; unfold trails, add, tail_of; cbn; rewrite app_assoc, rev_app_distr; reflexivity. Qed.
Lemma trails_add1 x l : trails (add [x] l) = blank_leaf x. Proof. exact (trails_add [] x l). Qed.
Lemma sql_inside l t bs : good l -> blank t = false -> sql (inside l t bs) = inside (sql l) t (squeeze false bs).
Proof.
  intros Hg Ht. pose proof (good_nbh l Hg) as G. destruct l as [be [ys|] f]; unfold sql, inside; cbn [base before from option_map sqs].
  - change (blank_leaf (as_argument ys)) with false. cbn [sqs]. rewrite blank_lf, Ht, sqs_lf. unfold as_argument. rewrite squeezed_node.
    f_equal. destruct f; try reflexivity. destruct be; [reflexivity|]. cbn. destruct (blank_leaf t0); reflexivity.
  - rewrite blank_lf, Ht, sqs_lf. f_equal. destruct f; try reflexivity. destruct be; [reflexivity|]. cbn. destruct (blank_leaf t0); reflexivity.
Qed.
Lemma good_inside l t bs : good (inside l t bs).
Proof. intros ys. unfold inside. destruct (base l); cbn; [intros [= <-]; eauto|discriminate]. Qed.
Lemma good_outside l i : good (outside l i).
Proof. intros ys. unfold outside. destruct (base i); cbn; [intros [= <-]; eauto|discriminate]. Qed.
Lemma sql_outside l i : good i -> sql (outside l i) = outside (sql l) (sql i).
Proof.
  intros Hi. pose proof (sql_all i Hi) as E. unfold outside. rewrite E. unfold sql at 2. cbn [base from]. destruct (base i); cbn [option_map]; unfold sql; cbn [base before from option_map].
  - change (sqs false [Node ItemAttachComponent (all i)]) with [Node ItemAttachComponent (sqs false (all i))]. destruct (from i); reflexivity.
  - rewrite sqs_app; [|reflexivity]. destruct (from i); reflexivity.
Qed.
Lemma trails_outside l i : trails (outside l i) = false.
Proof. unfold outside, trails, tail_of. destruct (base i); cbn; [reflexivity|]. now rewrite rev_app_distr. Qed.

(** ** Heads of lists *)
Definition headed (l : line) (ts : list tok) : Prop := (all l = [] /\ nbt ts) \/ exists x r, all l = x :: r /\ blank_leaf x = false.
Section Space.
  Variable gm : text -> text -> bool.
  Variable sp : spec.
  Definition starts (l : line) : Prop := exists x r, all l = x :: r /\ blank_leaf x = false.
  Lemma element_starts p f l t ts b l1 r : element gm sp p f l t ts b l1 r -> blank t = false -> good l -> all l = [] \/ starts l -> starts l1.
  Proof.
    intros H Ht Hg Hl.
    assert (A : forall xs m, all m = all l -> (exists x r, xs = x :: r /\ blank_leaf x = false) -> starts (add xs m)).
    { intros xs m Em (x & r0 & -> & E). unfold starts. rewrite all_add, Em. destruct Hl as [-> |(y & r1 & -> & E2)]; [now exists x, r0|]. cbn. eauto. }
    assert (B : forall x m, all m = all l -> blank_leaf x = false -> starts (add [x] m)) by (intros x m Em E; apply A; [exact Em|eauto]).
    assert (D : forall x fr, blank_leaf x = false -> base l <> None -> starts (mk_line (before l) (Some [x]) fr)).
    { intros x fr E Nb. unfold starts. destruct l as [be [ys|] fl]; [|elim Nb; reflexivity]. unfold all in *. cbn in *.
      destruct be as [|y be]; [now exists x, []|]. cbn in *. destruct Hl as [X|(y' & r1 & X & E2)]; [discriminate X|]. injection X as -> <-. eauto. }
    destruct H; try (apply B; [now rewrite ?all_baseless|first [reflexivity|now rewrite blank_lf]]; fail).
    - (* group *) apply B; [reflexivity|]. match goal with H : group _ _ _ _ _ _ _ |- _ => destruct H; reflexivity end.
    - apply B; [reflexivity|]. match goal with H : group _ _ _ _ _ _ _ |- _ => destruct H; reflexivity end.
    - apply B; [reflexivity|]. match goal with H : group _ _ _ _ _ _ _ |- _ => destruct H; reflexivity end.
    - apply A; [now rewrite all_baseless|]. eexists _, _. split; [reflexivity|reflexivity].
    - apply D; [reflexivity|congruence].
    - eexists _, _. split; reflexivity.
    - eexists _, _. split; reflexivity.
    - apply D; [reflexivity|congruence].
    - (* script *) unfold outside. destruct (base l1) eqn:Eb.
      + destruct l as [be ba fl]. unfold starts, all in *. cbn in *. destruct be as [|y be]; [eexists _, _; split; reflexivity|].
        cbn in *. destruct Hl as [X|(y' & r1 & X & E2)]; [discriminate X|]. injection X as -> <-. eauto.
      + destruct l as [be ba fl]. unfold starts, all in *. cbn in *. destruct be as [|y be]; [eexists _, _; split; reflexivity|].
        cbn in *. destruct Hl as [X|(y' & r1 & X & E2)]; [discriminate X|]. injection X as -> <-. eauto.
    - unfold outside. destruct (base (inside l t bs)) eqn:Eb.
      + destruct l as [be ba fl]. unfold starts, all in *. cbn in *. destruct be as [|y be]; [eexists _, _; split; reflexivity|].
        cbn in *. destruct Hl as [X|(y' & r1 & X & E2)]; [discriminate X|]. injection X as -> <-. eauto.
      + destruct l as [be ba fl]. unfold starts, all in *. cbn in *. destruct be as [|y be]; [eexists _, _; split; reflexivity|].
        cbn in *. destruct Hl as [X|(y' & r1 & X & E2)]; [discriminate X|]. injection X as -> <-. eauto.
  Qed.
End Space.
End Comments.
