(** What an element is laid out as is at most linear in its size, up to the
    numbers, names and indentations in it (C74). *)
From Verif Require Export SizeFacts.
From Verif Require Import Api ConvFacts ConvTerm TreeSpec P_Conv4 SizeSpec RenderSpec.
Local Open Scope nat_scope.

Lemma vols_in x l : In x l -> vol x <= vols l.
Proof. induction l as [|y l IH]; [intros []|]. intros [-> |H]; rewrite vols_cons; [lia|]. apply IH in H. lia. Qed.
Lemma vols_filter f l : vols (filter f l) <= vols l.
Proof. induction l as [|y l IH]; [apply le_n|]. cbn [filter]. destruct (f y); rewrite ?vols_cons; lia. Qed.
Lemma vols_filter_in f l x : In x l -> f x = false -> vols (filter f l) + vol x <= vols l.
Proof.
  induction l as [|y l IH]; [intros []|]. intros [-> |H] Hf; cbn [filter].
  - rewrite Hf, vols_cons. pose proof (vols_filter f l). lia.
  - specialize (IH H Hf). destruct (f y); rewrite ?vols_cons; lia.
Qed.
Lemma text_vol t : List.length (tree_text t) + 2 <= vol t.
Proof. rewrite vol_nodes. assert (1 <= nodes t) by (destruct t; cbn [nodes]; lia). lia. Qed.
Lemma texts_vol l : List.length (flat_map tree_text l) <= vols l.
Proof. induction l as [|x l IH]; [apply le_n|]. cbn [flat_map]. rewrite app_length, vols_cons. pose proof (text_vol x). lia. Qed.
Lemma vols_arguments t : 2 + vols (arguments t) <= vol t.
Proof. destruct t as [k s|k ch]; [rewrite vol_leaf; cbn; lia|]. rewrite vol_node. pose proof (vols_filter (fun c => is_node c && kind_eqb (tkind c) ClauseArgument) ch). unfold arguments, nodes_of. cbn [children]. lia. Qed.
Lemma vols_children t : 2 + vols (children t) <= vol t.
Proof. destruct t as [k s|k ch]; [rewrite vol_leaf; unfold arguments, nodes_of; cbn [children filter]; rewrite vols_nil; lia|]. rewrite vol_node. cbn [children]. lia. Qed.
Lemma dec_fuel_length f : forall n acc, List.length (dec_fuel f n acc) <= f + List.length acc.
Proof. induction f as [|f IH]; intros n acc; [apply le_n|]. cbn [dec_fuel]. destruct (n <? 10)%N; [cbn; lia|]. specialize (IH (n / 10)%N ((48 + n mod 10)%N :: acc)). cbn in IH |- *. lia. Qed.
Lemma dec_length n : List.length (dec (N.of_nat n)) <= S n.
Proof.
  unfold dec. etransitivity; [apply dec_fuel_length|]. cbn [List.length].
  assert (N.log2 (N.of_nat n) <= N.of_nat n)%N by apply N.log2_le_lin, N.le_0_l. lia.
Qed.
Lemma start_length s : List.length (trim_start s) <= List.length s.
Proof. induction s as [|c s IH]; cbn; [lia|]. destruct (is_whitespace c); cbn; lia. Qed.
Lemma trim_length s : List.length (trim s) <= List.length s.
Proof. unfold trim, trim_end. rewrite rev_length. etransitivity; [apply start_length|]. rewrite rev_length. apply start_length. Qed.
Lemma first_text t k s : first_token t = Some (k, s) -> List.length s + 2 <= vol t.
Proof.
  revert k s. induction t as [k' s'|k' ch IH] using tree_ind2; intros k s H.
  - cbn in H. injection H as _ <-. rewrite vol_leaf. lia.
  - destruct ch as [|x r]; [discriminate|]. cbn in H. rewrite vol_node, vols_cons. apply Forall_inv in IH. apply IH in H. lia.
Qed.
Lemma env_begin_in t b : env_begin t = Some b -> In b (children t) /\ delimiter b = true.
Proof.
  unfold env_begin, nodes_of. intros H. assert (G : In b (filter (fun c => is_node c && kind_eqb (tkind c) ItemBegin) (children t))).
  { destruct (filter _ _) as [|y l]; [discriminate|]. injection H as ->. now left. }
  apply filter_In in G as [G1 G2]. split; [exact G1|]. apply andb_prop in G2 as [_ G2]. unfold delimiter. now rewrite G2.
Qed.
Lemma env_name_vol t name : environment_named t name -> List.length name <= vol t.
Proof.
  intros (_ & n & H & ->). unfold env_name_tok in H. destruct (env_begin t) as [b|] eqn:E; [|discriminate]. apply env_begin_in in E as [E _].
  apply vols_in in E. pose proof (vols_children t). unfold clause_name in H. destruct (first_token b) as [[k s]|] eqn:F; [|discriminate].
  apply first_text in F. destruct k; try discriminate. injection H as ->. pose proof (trim_length n). lia.
Qed.
Lemma cmd_name_vol t name : command_named t name -> List.length name + 3 + vols (operands t) + 2 <= vol t.
Proof.
  intros (_ & c & H). unfold cmd_name_tok, leaf_child_of in H. destruct (find _ (children t)) as [[k s|k ch]|] eqn:E; try discriminate.
  injection H as ->. apply find_some in E as [E Ek]. pose proof (vols_children t).
  pose proof (vols_filter_in (fun x => negb (kind_eqb (tkind x) ClauseCommandName)) _ _ E) as V. cbn [tkind] in V. rewrite Ek in V. specialize (V eq_refl).
  rewrite vol_leaf in V. cbn [List.length] in V. unfold operands. lia.
Qed.

Lemma vol_pos t : 2 <= vol t. Proof. pose proof (text_vol t). lia. Qed.
Section Cost.
  Variable sp : spec.
  Variables M D k : nat.
  Hypothesis Hk : M + 100 + 60 * D <= k.
  Definition alias_short (o : option text) : Prop := match o with Some a => List.length a <= M | None => True end.
  Hypothesis Hcmd : forall name sh, get_cmd sp name = Some sh -> alias_short (cs_alias sh).
  Hypothesis Henv : forall name sh, get_env sp name = Some sh -> alias_short (en_alias sh).

  Definition piece_cost (x : piece) : nat :=
    match x with
    | Txt s | Blank s | Line s => List.length s
    | Keep s => 2 + List.length s
    | Put _ t => k * (vol t - 1)
    | _ => 0
    end.
  Definition cost (ps : list piece) : nat := list_sum (map piece_cost ps).
  Lemma cost_app a b : cost (a ++ b) = cost a + cost b.
  Proof. unfold cost. now rewrite map_app, list_sum_app. Qed.
  Lemma cost_nil : cost [] = 0. Proof. reflexivity. Qed.
  Lemma cost_cons x l : cost (x :: l) = piece_cost x + cost l. Proof. reflexivity. Qed.
  Lemma cost_txt s l : cost (Txt s :: l) = List.length s + cost l. Proof. reflexivity. Qed.
  (** every element leaves [k] for constant texts around it *)
  Lemma put_slack p t : piece_cost (Put p t) + k = k * vol t.
  Proof. pose proof (vol_pos t). cbn [piece_cost]. destruct (vol t) as [|n]; [lia|]. rewrite Nat.sub_succ, Nat.sub_0_r. lia. Qed.
  Lemma spare x n v : x <= k -> n + 2 <= v -> x + k * n <= k * (v - 1).
  Proof. intros H1 H2. transitivity (k * (1 + n)); [lia|]. apply Nat.mul_le_mono_l. lia. Qed.
  Lemma cost_puts p l : cost (map (Put p) l) <= k * vols l.
  Proof. induction l as [|t l IH]; [rewrite Nat.mul_comm; apply le_n|]. cbn [map]. rewrite cost_cons, vols_cons, Nat.mul_add_distr_l. pose proof (put_slack p t). lia. Qed.
  Lemma cost_commas q p l : cost (commas q p l) <= k * vols l.
  Proof.
    induction l as [|t l IH]; [rewrite Nat.mul_comm; apply le_n|]. pose proof (put_slack p t) as S. destruct l as [|t2 l].
    - cbn [commas]. rewrite cost_cons, cost_nil, vols_cons, vols_nil, Nat.add_0_r. lia.
    - change (commas q p (t :: t2 :: l)) with (Put p t :: (if kind_eqb (tkind t) q then [Txt (tx ",")] else []) ++ commas q p (t2 :: l)).
      rewrite cost_cons, cost_app, (vols_cons t), Nat.mul_add_distr_l. assert (cost (if kind_eqb (tkind t) q then [Txt (tx ",")] else []) <= 1) by (destruct (kind_eqb _ _); cbn; lia). lia.
  Qed.
  Lemma cost_brackets p l : cost (flat_map (in_brackets p) l) <= k * vols l.
  Proof.
    induction l as [|t l IH]; [rewrite Nat.mul_comm; apply le_n|]. cbn [flat_map]. rewrite cost_app, vols_cons, Nat.mul_add_distr_l.
    assert (cost (in_brackets p t) <= k * vol t); [|lia]. unfold in_brackets. destruct (kind_eqb _ _); [|rewrite cost_nil; lia].
    rewrite !cost_cons, cost_nil. pose proof (put_slack (in_mode MText p) t). cbn [piece_cost] in *. change (List.length (tx "[")) with 1. change (List.length (tx "]")) with 1. lia.
  Qed.
  Lemma cost_arguments q l n : n + vols l <= D -> cost (decimal_argument n l (fun a => [Put q a])) <= k * vols l.
  Proof.
    revert n. induction l as [|t l IH]; intros n H; [rewrite Nat.mul_comm; apply le_n|]. cbn [decimal_argument app]. rewrite vols_cons in *. pose proof (vol_pos t).
    rewrite cost_txt, cost_cons, cost_txt, Nat.mul_add_distr_l, !app_length. pose proof (put_slack q t). pose proof (dec_length n).
    change (List.length (tx "arg")) with 3. change (List.length (tx ": ")) with 2. change (List.length (tx ",")) with 1. specialize (IH (S n) ltac:(lia)). lia.
  Qed.
  Lemma cost_cells p l : forall b, cost (cells p b l) <= k * vols l.
  Proof.
    assert (R : forall t o, rule_of t = Some o -> List.length o <= k).
    { intros t o. unfold rule_of. destruct (_ || _); [intros [= <-]; cbn; lia|]. destruct (_ || _); [intros [= <-]; cbn; lia|discriminate]. }
    induction l as [|t l IH]; intros b; [rewrite Nat.mul_comm; apply le_n|]. rewrite vols_cons, Nat.mul_add_distr_l. pose proof (put_slack p t) as S.
    pose proof (IH true) as I1. pose proof (IH false) as I2.
    assert (P : 2 * k <= k * vol t) by (rewrite (Nat.mul_comm 2); apply Nat.mul_le_mono_l, vol_pos).
    assert (A : forall s, List.length s <= k -> cost (Txt s :: cells p false l) <= k * vol t + k * vols l) by (intros s Hs; rewrite cost_txt; lia).
    assert (B : cost (Put p t :: cells p true l) <= k * vol t + k * vols l) by (rewrite cost_cons; lia).
    assert (C : cost (Txt (tx "[") :: Put p t :: cells p true l) <= k * vol t + k * vols l) by (rewrite cost_txt, cost_cons; change (List.length (tx "[")) with 1; lia).
    assert (E : cost (cells p false l) <= k * vol t + k * vols l) by lia.
    cbn [cells]. destruct (tkind t), b; try exact B; try exact E; try (apply A; cbn; lia); destruct (rule_of t) eqn:Er; try exact C; apply A; eapply R; exact Er.
  Qed.
  Lemma cost_labels p : cost (labels p) = 0. Proof. unfold labels. now destruct (mode_of p). Qed.
  Lemma alias_length o name : alias_short o -> List.length (or_default o name) <= M + List.length name.
  Proof. destruct o; cbn; lia. Qed.
  Lemma name_length p name sh : get_cmd sp name = Some sh -> List.length (typst_name p name (cs_alias sh)) <= M + 10 + List.length name.
  Proof.
    intros Hg. apply Hcmd in Hg. pose proof (alias_length _ name Hg). unfold typst_name. destruct (mode_of p); [|lia].
    destruct (teqb name _); [cbn; lia|]. destruct (teqb name _); [cbn; lia|lia].
  Qed.
  Lemma letters_length cols : List.length (filter letter cols) <= List.length cols.
  Proof. induction cols as [|c l IH]; [apply le_n|]. cbn [filter]. destruct (letter c); cbn; lia. Qed.
  Lemma alignment_length l : List.length (flat_map alignment l) <= 8 * List.length l.
  Proof.
    induction l as [|c l IH]; [apply le_n|]. cbn [flat_map]. rewrite app_length. assert (List.length (alignment c) <= 8); [|cbn [List.length]; lia].
    unfold alignment. destruct (c =? 108)%N; [cbn; lia|]. destruct (c =? 99)%N; cbn; lia.
  Qed.
  Lemma bars_length cols n : n + List.length cols <= D -> 2 * n + 2 * List.length cols <= 2 * D ->
    List.length (flat_map (fun v => tx "table.vline(stroke: .5pt, x: " ++ dec (N.of_nat v) ++ tx "), ") (bars n cols)) <= (40 + D) * List.length cols.
  Proof.
    revert n. induction cols as [|c l IH]; intros n H _; [cbn; lia|]. cbn [bars List.length] in *. destruct (letter c).
    - specialize (IH (S n) ltac:(lia) ltac:(lia)). lia.
    - cbn [flat_map]. rewrite !app_length. specialize (IH n ltac:(lia) ltac:(lia)). pose proof (dec_length n).
      change (List.length (tx "table.vline(stroke: .5pt, x: ")) with 29. change (List.length (tx "), ")) with 3. lia.
  Qed.
  Lemma front_length al cols : List.length al <= M + D -> List.length cols <= D -> List.length (table_front al cols) <= k + k * List.length cols.
  Proof.
    intros H1 H2. unfold table_front. rewrite !app_length. pose proof (letters_length cols). pose proof (alignment_length (filter letter cols)).
    pose proof (bars_length cols 0 ltac:(lia) ltac:(lia)). pose proof (dec_length (List.length (filter letter cols))).
    assert ((40 + D) * List.length cols <= k * List.length cols) by (apply Nat.mul_le_mono_r; lia).
    cbn [List.length]. repeat match goal with |- context[List.length (tx ?s)] => let n := eval vm_compute in (List.length (tx s)) in change (List.length (tx s)) with n end. lia.
  Qed.
End Cost.
