(** More fuel never changes a conversion; the height of the tree suffices. *)
From Verif Require Export ConvFacts.
Local Open Scope nat_scope.

Definition cle {A} (x y : cres A) : Prop := x = CFuel \/ x = y.
Lemma cle_refl {A} (x : cres A) : cle x x. Proof. now right. Qed.
Lemma cle_bind {A B} (x y : cres A) (f g : A -> cres B) :
  cle x y -> (forall a, cle (f a) (g a)) -> cle (cbind x f) (cbind y g).
Proof. intros [-> | ->] H; [now left|]. destruct y; cbn; [apply H|now right..]. Qed.

Section Mono.
  Variable sp : spec.
  Variables r1 r2 : tree -> cst -> cout.
  Hypothesis H : forall t s, cle (r1 t s) (r2 t s).

  Lemma each_mono (f g : tree -> cst -> cout) : (forall t s, cle (f t s) (g t s)) -> forall l s, cle (each f l s) (each g l s).
  Proof.
    intros Hf. induction l as [|t l IH]; intros s; [apply cle_refl|]. cbn [each]. apply cle_bind; [apply Hf|].
    intros [s1 o1]. apply cle_bind; [apply IH|]. intros [s2 o2]. apply cle_refl.
  Qed.
  Lemma attach_mono l : forall a b s, cle (attach_loop r1 a b l s) (attach_loop r2 a b l s).
  Proof.
    induction l as [|t l IH]; intros a b s; [apply cle_refl|]. cbn [attach_loop].
    assert (N : forall b, cle (let! (s, o1) := r1 t s in let! (s, o2) := attach_loop r1 a b l s in COk (s, o1 ++ o2))
                              (let! (s, o1) := r2 t s in let! (s, o2) := attach_loop r2 a b l s in COk (s, o1 ++ o2))).
    { intros b'. apply cle_bind; [apply H|]. intros [s1 o1]. apply cle_bind; [apply IH|]. intros [? ?]. apply cle_refl. }
    destruct a; [|apply N]. destruct t as [k m|k c]; [|apply N].
    destruct k; try apply N; (apply cle_bind; [apply IH|intros [? ?]; apply cle_refl]).
  Qed.
  Lemma comma_mono k l : forall s, cle (comma_args r1 k l s) (comma_args r2 k l s).
  Proof.
    induction l as [|t l IH]; intros s; [apply cle_refl|]. cbn [comma_args]. apply cle_bind; [apply H|]. intros [s1 o1]. cbv zeta.
    apply cle_bind; [apply IH|]. intros [? ?]. apply cle_refl.
  Qed.
  Lemma named_mono l : forall i s, cle (named_args r1 i l s) (named_args r2 i l s).
  Proof.
    induction l as [|t l IH]; intros i s; [apply cle_refl|]. cbn [named_args]. apply cle_bind; [apply H|]. intros [s1 o1].
    apply cle_bind; [apply IH|]. intros [? ?]. apply cle_refl.
  Qed.
  Lemma cells_mono l : forall e s, cle (table_cells r1 e l s) (table_cells r2 e l s).
  Proof.
    induction l as [|t l IH]; intros e s; [apply cle_refl|]. cbn [table_cells]. destruct (is_begin_end t); [apply IH|].
    apply cle_bind; [apply cle_refl|]. intros [e2 o0]. apply cle_bind.
    - destruct e2; [apply cle_refl|].
      assert (N : cle (let! (s0, o) := r1 t s in COk (false, s0, o)) (let! (s0, o) := r2 t s in COk (false, s0, o))).
      { apply cle_bind; [apply H|]. intros [? ?]. apply cle_refl. }
      destruct (tkind t); try exact N; apply cle_refl.
    - intros [[e3 s3] o3]. apply cle_bind; [apply IH|]. intros [? ?]. apply cle_refl.
  Qed.
  Lemma step_mono t s : cle (convert_step sp r1 t s) (convert_step sp r2 t s).
  Proof.
    unfold convert_step. set (s1 := match tkind t with TokenWhiteSpace => s | _ => _ end). clearbody s1. cbv zeta.
    assert (K : cle (let! ch := node_children t in each r1 ch s1) (let! ch := node_children t in each r2 ch s1)).
    { apply cle_bind; [apply cle_refl|]. intros ch. now apply each_mono. }
    destruct (tkind t); try apply cle_refl; try exact K.
    - unfold convert_clause_lr. apply cle_bind; [apply cle_refl|]. intros [|[k n|k c] args]; try apply cle_refl.
      apply cle_bind; [apply cle_refl|]. intros n'. cbv zeta. apply cle_bind; [|intros [? ?]; apply cle_refl].
      apply each_mono. intros a s2. apply cle_bind; [|intros [? ?]; apply cle_refl].
      destruct a as [k' w|k' c']; [|apply H]. destruct k'; try apply H. destruct (teqb w _); [apply cle_refl|apply H].
    - unfold convert_curly_group. cbv zeta. apply cle_bind; [apply cle_refl|]. intros ch. apply cle_bind; [now apply each_mono|].
      intros [s2 o]. apply cle_refl.
    - unfold convert_cmd. destruct t; [apply cle_refl|]. apply cle_bind; [apply cle_refl|]. intros n0. apply cle_bind; [apply cle_refl|]. intros n.
      destruct (teqb n _); [apply cle_refl|]. destruct (teqb n _); [apply cle_refl|]. destruct (teqb n _); [apply cle_refl|].
      destruct (_ || _).
      + unfold convert_command_color. cbv zeta. apply cle_bind; [apply cle_refl|]. intros [[m c] b]. apply cle_bind.
        { destruct c; [|apply cle_refl]. apply cle_bind; [apply H|]. intros [? ?]. apply cle_refl. }
        intros [s2 o2]. apply cle_bind; [|intros [? ?]; apply cle_refl]. apply each_mono. intros u s3.
        destruct (is_math s3); [|apply H]. apply cle_bind; [apply H|]. intros [? ?]. apply cle_refl.
      + unfold convert_normal_command. apply cle_bind; [apply cle_refl|]. intros m0. apply cle_bind; [apply cle_refl|]. intros m. cbv zeta.
        destruct (get_cmd sp m) as [c|]; [|apply cle_refl]. apply cle_bind; [|intros [? ?]; apply cle_refl].
        set (s2 := if teqb _ _ then _ else s1). set (args := filter _ _). set (tn := typst_name_of _ _ _). clearbody s2 args tn.
        assert (A : cle (if is_math s2 && negb (starts_with (tx "#") tn)
            then let! (s, o) := comma_args r1 ClauseArgument args s2 in COk (s, tx "(" ++ o ++ tx ")")
            else let! (s, o) := each (text_arg r1) args s2 in COk (s, o ++ tx ";"))
           (if is_math s2 && negb (starts_with (tx "#") tn)
            then let! (s, o) := comma_args r2 ClauseArgument args s2 in COk (s, tx "(" ++ o ++ tx ")")
            else let! (s, o) := each (text_arg r2) args s2 in COk (s, o ++ tx ";"))).
        { destruct (is_math s2 && _).
          - apply cle_bind; [apply comma_mono|]. intros [? ?]. apply cle_refl.
          - apply cle_bind; [|intros [? ?]; apply cle_refl]. apply each_mono. intros u s3. unfold text_arg.
            destruct (has_kind _ _); [|apply cle_refl]. cbv zeta. apply cle_bind; [apply H|]. intros [? ?]. apply cle_refl. }
        destruct (cs_args c) as [p| |]; try exact A. destruct p; try exact A; [apply cle_refl|].
        destruct args as [|[k1 x1|k1 ch1] args2]; try apply cle_refl. apply cle_bind; [apply comma_mono|]. intros [? ?]. apply cle_refl.
    - unfold convert_env. apply cle_bind; [apply cle_refl|]. intros n. cbv zeta. destruct (get_env sp (trim n)) as [shape|]; [|apply cle_refl].
      destruct (is_list_env _). { apply cle_bind; [now apply each_mono|]. intros [? ?]. apply cle_refl. }
      apply cle_bind; [|intros [? ?]; apply cle_refl].
      destruct (is_math_env _).
      + apply cle_bind; [apply named_mono|]. intros [s2 o2]. apply cle_bind; [now apply each_mono|]. intros [? ?]. apply cle_refl.
      + assert (Z : forall k g, cle (let! (s0, o) := each r1 (body_of t) (enter_env k s1) in let! s2 := exit_env (c_env s1) s0 in COk (s2, g o))
           (let! (s0, o) := each r2 (body_of t) (enter_env k s1) in let! s2 := exit_env (c_env s1) s0 in COk (s2, g o : list N))).
        { intros k g. apply cle_bind; [now apply each_mono|]. intros [? ?]. apply cle_refl. }
        destruct (env_of_feature _) eqn:Ef; try exact (Z _ (fun o => tx "#" ++ alias_or (en_alias shape) (trim n) ++ tx "[" ++ o ++ tx "];")).
        * unfold convert_env_figure. apply cle_bind; [apply cle_refl|]. intros c. cbv zeta. apply cle_bind.
          { destruct c; [|apply cle_refl]. apply cle_bind; [apply H|]. intros [? ?]. apply cle_refl. }
          intros [s2 o2]. apply cle_bind; [|intros [? ?]; apply cle_refl]. apply each_mono. intros u s3. unfold figure_child.
          destruct (is_begin_end u); [apply cle_refl|]. apply cle_bind; [apply cle_refl|]. intros [|]; [apply cle_refl|apply H].
        * unfold convert_env_table. do 3 (apply cle_bind; [apply cle_refl|]; intros ?). destruct a1 as [al vl]. cbv zeta.
          apply cle_bind; [apply cells_mono|]. intros [? ?]. apply cle_refl.
    - unfold convert_attach_component. apply cle_bind; [apply cle_refl|]. intros ch. destruct (is_math s1); [apply attach_mono|now apply each_mono].
    - unfold convert_formula. apply cle_bind; [apply cle_refl|]. intros ch. destruct (negb _); [apply cle_refl|]. cbv zeta.
      apply cle_bind; [now apply each_mono|]. intros [? ?]. apply cle_refl.
  Qed.
End Mono.

Lemma convert_mono sp n : forall m t s, n <= m -> cle (convert sp n t s) (convert sp m t s).
Proof.
  induction n as [|n IH]; intros m t s L; [now left|]. destruct m as [|m]; [lia|]. cbn [convert]. apply step_mono.
  intros u s'. apply IH. lia.
Qed.

Lemma fold_max_le l x : In x l -> height x <= fold_right (fun x n => Nat.max (height x) n) 0 l.
Proof. induction l as [|a l IH]; [contradiction|]. intros [-> |H]; simpl; [lia|]. specialize (IH H). lia. Qed.
Lemma height_child k ch x : In x ch -> height x < height (Node k ch).
Proof. intros H. cbn [height]. apply fold_max_le in H. lia. Qed.
Lemma height_under x t : under x t -> height x < height t.
Proof.
  intros [[H _]|(c & H1 & H2 & _)]; (destruct t as [k s|k ch]; [contradiction|]).
  - now apply height_child.
  - apply (height_child k) in H1. destruct c as [k' s|k' ch']; [contradiction|]. apply (height_child k') in H2. cbn [children] in *. lia.
Qed.
Lemma convert_stops sp n : forall t s, height t <= n -> convert sp n t s <> CFuel.
Proof.
  assert (G : forall t s, height t <= n -> cwp (convert sp n t s) (fun r => same_context s (fst r)) (fun f => f <> FailFuel)).
  { induction n as [|n IH]; intros t s L; [destruct t; simpl in L; lia|]. cbn [convert].
    apply step_restores with (R := fun f => f <> FailFuel).
    - intros u Hu s' _. apply IH. apply height_under in Hu. lia.
    - discriminate.
    - left. intros p. discriminate.
    - left. intros p. discriminate. }
  intros t s L E. specialize (G t s L). rewrite E in G. now apply G.
Qed.
Lemma convert_enough sp n m t s : height t <= n -> height t <= m -> convert sp n t s = convert sp m t s.
Proof.
  intros Hn Hm. destruct (Nat.le_ge_cases n m) as [L|L].
  - destruct (convert_mono sp n m t s L) as [E|E]; [now apply convert_stops in E|exact E].
  - destruct (convert_mono sp m n t s L) as [E|E]; [now apply convert_stops in E|now symmetry].
Qed.
(** any answer is the answer *)
Lemma convert_answer sp n t s x : convert sp n t s = x -> x <> CFuel -> convert sp (height t) t s = x.
Proof.
  intros E N. destruct (convert_mono sp n (Nat.max n (height t)) t s) as [F|F]; [lia|congruence|].
  rewrite <- E, F. apply convert_enough; lia.
Qed.
