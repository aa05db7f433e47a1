(** The tree of a sequence of tokens is at most linear in its length (C73). *)
From Verif Require Import Api TreeSpec GramSound GramComplete.
From Verif Require Import SizeSpec GramSpec.
Local Open Scope nat_scope.

(** two for every node, and the length of the text *)
Fixpoint vol (t : tree) : nat :=
  match t with Leaf _ s => 2 + List.length s | Node _ ch => 2 + list_sum (map vol ch) end.
Definition vols (l : list tree) : nat := list_sum (map vol l).
Lemma vols_app a b : vols (a ++ b) = vols a + vols b.
Proof. unfold vols. now rewrite map_app, list_sum_app. Qed.
Lemma vols_nil : vols [] = 0. Proof. reflexivity. Qed.
Lemma vols_cons x l : vols (x :: l) = vol x + vols l. Proof. reflexivity. Qed.
Lemma vol_node k ch : vol (Node k ch) = 2 + vols ch. Proof. reflexivity. Qed.
Lemma vol_leaf k s : vol (Leaf k s) = 2 + List.length s. Proof. reflexivity. Qed.
(** the weight of tokens *)
Fixpoint heft (ts : list tok) : nat := match ts with [] => 0 | t :: r => 1 + List.length (snd t) + heft r end.
Lemma heft_app a b : heft (a ++ b) = heft a + heft b.
Proof. induction a; cbn; lia. Qed.
Lemma heft_cons t r : heft (t :: r) = 1 + List.length (snd t) + heft r. Proof. reflexivity. Qed.
Lemma vol_lf t : vol (lf t) = 2 + List.length (snd t). Proof. reflexivity. Qed.
Lemma vols_lfs ts : vols (map lf ts) <= 2 * heft ts.
Proof. induction ts as [|t ts IH]; cbn [map heft]; rewrite ?vols_nil, ?vols_cons, ?vol_lf; lia. Qed.
Lemma vols_all l : vols (all l) = vols (before l) + vols (based (base l)).
Proof. unfold all. apply vols_app. Qed.
Lemma vols_add xs l : vols (all (add xs l)) = vols (all l) + vols xs.
Proof. destruct l as [be [ys|] f]; unfold add; cbn [base before from]; rewrite !vols_all; cbn [before base based]; rewrite ?vols_app, ?vols_nil; lia. Qed.
Lemma vols_baseless l : all (baseless l) = all l.
Proof. unfold baseless, all; cbn. now rewrite app_nil_r. Qed.
Lemma vols_inside l t bs : vols (all (inside l t bs)) <= vols (based (base l)) + 4 + List.length (snd t) + 2 * heft bs.
Proof.
  pose proof (vols_lfs bs). unfold inside. destruct (base l) as [ys|]; rewrite vols_all; cbn [before base based];
  rewrite ?vols_nil, ?vols_cons, ?vol_lf; unfold as_argument; rewrite ?vol_node; lia.
Qed.
Lemma vols_outside l i : vols (all (outside l i)) = vols (before l) + 2 + vols (all i).
Proof. unfold outside. destruct (base i); rewrite vols_all; cbn [before base based]; rewrite ?vols_app, ?vols_cons, ?vol_node, ?vols_nil; lia. Qed.

Section Size.
  Variable gm : text -> text -> bool.
  Variable sp : spec.
  Ltac sum := unfold as_argument in *; repeat rewrite ?vols_app, ?vols_cons, ?vol_node, ?vol_leaf, ?vol_lf, ?vols_nil, ?vols_add, ?vols_baseless, ?heft_app, ?heft_cons in *; cbn [List.length snd heft] in *.
  Lemma delimiter_vol ts x r : delimiter ts x r -> vols x + 12 * heft r <= 12 * heft ts.
  Proof. intros H. destruct H; sum; lia. Qed.
  Lemma clause_vol t ts c r : clause t ts c r -> vol c + 12 * heft r <= 4 + List.length (snd t) + 12 * heft ts.
  Proof. intros H. destruct H as [bs r x r' Hb Hn Hd]. apply delimiter_vol in Hd. pose proof (vols_lfs bs). sum. lia. Qed.
  Lemma right_vol ts e r : right_side ts e r -> vols e + 12 * heft r <= 12 * heft ts.
  Proof. intros H. destruct H as [s r c r' H|r H]; [|sum; lia]. apply clause_vol in H. sum. lia. Qed.
  Lemma end_vol ts e r : env_end ts e r -> vols e + 12 * heft r <= 12 * heft ts.
  Proof. intros H. destruct H; sum; lia. Qed.
  Lemma skipped_vol n ts xs r : skipped n ts xs r -> vols xs + 12 * heft r <= 12 * heft ts.
  Proof. intros H. induction H; sum; lia. Qed.
  Lemma heft_rest s r : heft (rest_word s r) <= 1 + List.length s + heft r.
  Proof. destruct s; cbn; lia. Qed.
  Lemma heft_char c s r : heft (rest_word s r) < heft ((Word, c :: s) :: r).
  Proof. destruct s; cbn; lia. Qed.
  Theorem grammar_vol :
    (forall p g l ts l' r, content gm sp p g l ts l' r -> vols (all l') + 12 * heft r <= vols (all l) + 12 * heft ts) /\
    (forall p f l t ts b l' r, element gm sp p f l t ts b l' r -> vols (all l') + 12 * heft r + 4 <= vols (all l) + 12 * heft (t :: ts)) /\
    (forall q t ts x r, group gm sp q t ts x r -> vol x + 12 * heft r + 4 <= 12 * heft (t :: ts)) /\
    (forall p a w h ts xs h' r, arguments gm sp p a w h ts xs h' r -> vols xs + vols (map lf h') + 12 * heft r <= vols (map lf h) + 12 * heft ts).
  Proof.
    apply (grammar_ind gm sp (fun p g l ts l' r _ => vols (all l') + 12 * heft r <= vols (all l) + 12 * heft ts)
      (fun p f l t ts b l' r _ => vols (all l') + 12 * heft r + 4 <= vols (all l) + 12 * heft (t :: ts))
      (fun q t ts x r _ => vol x + 12 * heft r + 4 <= 12 * heft (t :: ts))
      (fun p a w h ts xs h' r _ => vols xs + vols (map lf h') + 12 * heft r <= vols (map lf h) + 12 * heft ts)); intros;
      change (vols (all (fresh _))) with 0 in *; change (vols (map lf [])) with 0 in *;
      try (match goal with H : clause _ _ _ _ |- _ => apply clause_vol in H end);
      try (match goal with H : right_side _ _ _ |- _ => apply right_vol in H end);
      try (match goal with H : env_end _ _ _ |- _ => apply end_vol in H end);
      try (match goal with H : skipped _ _ _ _ |- _ => apply skipped_vol in H end).
    all: try (sum; lia).
    - (* base *) rewrite e0 in *. rewrite (vols_all (mk_line _ _ _)) in *. cbn [before base based] in *. sum. lia.
    - (* text *) pose proof (vols_lfs ts). cbn [map]. sum. lia.
    - pose proof (heft_char c s r). sum. lia.
    - (* postfix *) rewrite (vols_all (mk_line _ _ _)), (vols_all l) in *. cbn [before base based]. rewrite e1. cbn [based]. sum. lia.
    - rewrite (vols_all (mk_line _ _ _)) in *. cbn [before base based]. sum. lia.
    - (* infix *) rewrite (vols_all (mk_line _ _ _)) in *. cbn [before base based]. sum. lia.
    - (* primes *) rewrite (vols_all (mk_line _ _ _)), (vols_all l) in *. cbn [before base based]. rewrite e. cbn [based]. sum. lia.
    - (* scripts *) pose proof (vols_inside l t bs). rewrite vols_outside. rewrite (vols_all l). sum. lia.
    - pose proof (vols_inside l t bs). rewrite vols_outside. rewrite (vols_all l). sum. lia.
    - (* arguments *) rewrite map_app in *. cbn [map] in *. sum. lia.
    - pose proof (heft_char c s r). cbn [map] in *. sum. lia.
  Qed.
  Theorem reading_vol ts t : reading gm sp ts t -> vol t <= 2 + 12 * heft ts.
  Proof.
    intros (l & H & ->). apply (proj1 grammar_vol) in H. change (vols (all (fresh _))) with 0 in H. rewrite vol_node. cbn [heft] in H. lia.
  Qed.
End Size.
Lemma vol_nodes t : vol t = 2 * nodes t + List.length (tree_text t).
Proof.
  induction t as [k s|k ch IH] using TreeSpec.tree_ind2; [reflexivity|]. rewrite vol_node. cbn [nodes tree_text].
  assert (E : vols ch = 2 * list_sum (map nodes ch) + List.length (flat_map tree_text ch)); [|lia].
  induction IH as [|x l Hx _ IH]; [reflexivity|]. rewrite vols_cons. cbn [map list_sum fold_right flat_map]. fold (list_sum (map nodes l)). rewrite app_length. lia.
Qed.
