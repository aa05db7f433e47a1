(** Reasoning tools for the converter, and one pass over it: the context is
    restored (C29), failures have a cause (C32-C34, C38). *)
From Verif Require Export ConvSpec BaseFacts.
Local Open Scope nat_scope.

(** The ways a conversion may fail *)
Inductive fail := FailErr (e : cerr) | FailPanic (s : string) | FailFuel.
Definition cwp {A} (x : cres A) (Q : A -> Prop) (R : fail -> Prop) : Prop :=
  match x with
  | COk a => Q a
  | CErr e => R (FailErr e)
  | CPanic s => R (FailPanic s)
  | CFuel => R FailFuel
  end.
Lemma cwp_bind {A B} (x : cres A) (f : A -> cres B) Q R :
  cwp x (fun a => cwp (f a) Q R) R -> cwp (cbind x f) Q R.
Proof. destruct x; auto. Qed.
Lemma cwp_mono {A} (x : cres A) (P Q : A -> Prop) R :
  cwp x P R -> (forall a, P a -> Q a) -> cwp x Q R.
Proof. destruct x; simpl; auto. Qed.
Lemma cwp_ok {A} (x : cres A) Q R a : cwp x Q R -> x = COk a -> Q a.
Proof. intros H ->. exact H. Qed.
Lemma cbind_ok {A B} (x : cres A) (f : A -> cres B) b :
  cbind x f = COk b -> exists a, x = COk a /\ f a = COk b.
Proof. destruct x; try discriminate. eauto. Qed.

Lemma same_context_refl s : same_context s s. Proof. repeat split. Qed.
Lemma same_context_trans a b c : same_context a b -> same_context b c -> same_context a c.
Proof. unfold same_context. intuition congruence. Qed.

(** the loop [each] for an invariant between states *)
Lemma each_rel (T : cst -> cst -> Prop) R f : (forall s, T s s) -> (forall a b c, T a b -> T b c -> T a c) ->
  forall l s, (forall t, In t l -> forall s', T s s' -> cwp (f t s') (fun r => T s' (fst r)) R) ->
  cwp (each f l s) (fun r => T s (fst r)) R.
Proof.
  intros Hr Ht. induction l as [|t l IH]; intros s H; [apply Hr|].
  cbn [each]. apply cwp_bind. eapply cwp_mono; [apply H; [now left|apply Hr]|]. intros [s1 o1] H1. cbn [fst] in H1.
  apply cwp_bind. eapply cwp_mono; [apply IH|].
  - intros u Hu s' Hs. apply H; [now right|]. eauto.
  - intros [s2 o2] H2. cbn [cwp fst] in *. eauto.
Qed.

(** elements at most two levels below: those on which conversion recurs *)
Definition under (t' t : tree) : Prop :=
  (In t' (children t) /\ ~ opaque_kind (tkind t)) \/
  exists c, In c (children t) /\ In t' (children c) /\
    (tkind t = ItemCmd \/ tkind t = ItemEnv /\ is_argument t').
(** ... and what can be reached from an element *)
Lemma under_seen t' t x : under t' t -> seen x t' -> seen x t.
Proof.
  intros [[H Hk]|(c & H1 & H2 & Hk)] Hs; (destruct t as [k s|k ch]; [contradiction|]).
  - eapply seen_child; eauto.
  - cbn in Hk. destruct Hk as [-> |[-> E]].
    + eapply seen_grandchild; eauto.
    + eapply seen_env_argument; eauto.
Qed.
Lemma seen_trans a b c : seen a b -> seen b c -> seen a c.
Proof.
  intros Ha Hb. induction Hb as [|k ch c Hk Hc Hb IH|ch c c' Hc Hc' Hb IH|ch c c' Hc Hc' Hk Hb IH]; [assumption|..].
  - eapply seen_child; eauto.
  - eapply seen_grandchild; eauto.
  - eapply seen_env_argument; eauto.
Qed.
Lemma seen_occurs a b : seen a b -> occurs_in a b.
Proof.
  intros H. induction H as [|k ch c Hk Hc Hb IH|ch c c' Hc Hc' Hb IH|ch c c' Hc Hc' Hk Hb IH]; [constructor|..].
  - eapply occurs_below; eauto.
  - destruct c as [|k' ch']; [contradiction|]. eapply occurs_below; [exact Hc|]. eapply occurs_below; eauto.
  - destruct c as [|k' ch']; [contradiction|]. eapply occurs_below; [exact Hc|]. eapply occurs_below; eauto.
Qed.
Lemma under_occurs t' t x : under t' t -> occurs_in x t' -> occurs_in x t.
Proof.
  intros [[H _]|(c & H1 & H2 & _)] Ho; (destruct t as [k s|k ch]; [contradiction|]).
  - eapply occurs_below; eauto.
  - destruct c as [k' s|k' ch']; [contradiction|]. eapply occurs_below; [exact H1|]. eapply occurs_below; eauto.
Qed.
Lemma child_occurs t' t : In t' (children t) -> occurs_in t' t.
Proof. intros H. destruct t as [k s|k ch]; [contradiction|]. eapply occurs_below; [exact H|constructor]. Qed.
Lemma occurs_trans a b c : occurs_in a b -> occurs_in b c -> occurs_in a c.
Proof. intros Ha Hb. induction Hb as [|k ch u Hu Hb IH]; [assumption|]. eapply occurs_below; eauto. Qed.

Lemma arguments_children t a : In a (arguments t) -> In a (children t).
Proof. unfold arguments, nodes_of. intros H. now apply filter_In in H. Qed.
Lemma env_begin_child t b : env_begin t = Some b -> In b (children t).
Proof.
  unfold env_begin, nodes_of. intros H. destruct (filter _ _) as [|x l] eqn:E; [discriminate|]. injection H as ->.
  assert (In b (b :: l)) as G by now left. rewrite <- E in G. now apply filter_In in G.
Qed.
Lemma arguments_kind t a : In a (arguments t) -> is_argument a.
Proof. unfold arguments, nodes_of. intros H. apply filter_In in H as [_ H]. destruct a as [k s|k ch]; [discriminate|]. cbn in H. unfold kind_eqb in H. now destruct (kind_eq_dec _ _) as [-> |]. Qed.
Lemma env_arguments_under t a : tkind t = ItemEnv -> In a (env_arguments t) -> under a t.
Proof.
  intros Ek. unfold env_arguments. destruct (env_begin t) as [b|] eqn:E; [|contradiction]. intros H. right. exists b.
  split; [now apply env_begin_child|]. split; [now apply arguments_children|]. right. split; [exact Ek|]. now apply arguments_kind in H.
Qed.
Lemma body_children t c : In c (body_of t) -> In c (children t).
Proof. unfold body_of. intros H. now apply filter_In in H. Qed.
Lemma hd_error_In {A} (l : list A) a : hd_error l = Some a -> In a l.
Proof. destruct l; [discriminate|]. intros [= ->]. now left. Qed.
Lemma skip_trivia_incl l : incl (Converter.skip_trivia l) l.
Proof.
  induction l as [|t l IH]; cbn [Converter.skip_trivia]; [apply incl_refl|].
  destruct (kind_is_trivia _); [now apply incl_tl|apply incl_refl].
Qed.
Lemma take_model_incl l : incl (snd (take_model l)) l.
Proof.
  induction l as [|t l IH]; cbn [take_model]; [apply incl_refl|].
  destruct (has_kind _ _); [apply incl_tl, incl_refl|]. destruct (take_model l) as [s r]. now apply incl_tl.
Qed.

(** [&s[1..]] and [&s[1..s.len()-1]] *)
Lemma small_utf8 c : (c < 128)%N -> utf8_len c = 1.
Proof. intros H. unfold utf8_len. destruct (N.ltb_spec c 0x80); [reflexivity|lia]. Qed.
Lemma tail1_small site c s : (c < 128)%N -> tail1 site (c :: s) = COk s.
Proof.
  intros H. unfold tail1. pose proof (split_bytes_intro [c] s) as E. cbn [blen app] in E.
  rewrite (small_utf8 _ H) in E. cbn [Nat.add] in E. now rewrite E.
Qed.
Lemma tail1_ok site n s : tail1 site n = COk s -> exists c, n = c :: s.
Proof.
  unfold tail1. destruct (split_bytes 1 n) as [[a b]|] eqn:E; [|discriminate]. intros [= ->].
  apply split_bytes_app in E as [-> E]. destruct a as [|c a]; [discriminate|]. cbn [blen] in E.
  assert (a = []) as ->. { destruct a as [|x a]; [reflexivity|]. cbn [blen] in E. pose proof (utf8_len_pos c). pose proof (utf8_len_pos x). lia. }
  exists c. reflexivity.
Qed.
Lemma strip_ends_quoted site b m e : (b < 128)%N -> (e < 128)%N -> strip_ends site (b :: m ++ [e]) = COk m.
Proof.
  intros Hb He. unfold strip_ends. cbn [blen]. rewrite blen_app. cbn [blen]. rewrite (small_utf8 _ Hb), (small_utf8 _ He).
  destruct (Nat.ltb_spec (1 + (blen m + (1 + 0))) 2); [lia|].
  pose proof (split_bytes_intro [b] (m ++ [e])) as E. cbn [blen app] in E. rewrite (small_utf8 _ Hb) in E. cbn [Nat.add] in E. rewrite E.
  match goal with |- match split_bytes ?n _ with _ => _ end = _ => replace n with (blen m) by lia end. now rewrite split_bytes_intro.
Qed.
Lemma utf8_small c : utf8_len c = 1 -> (c < 128)%N.
Proof. unfold utf8_len. destruct (N.ltb_spec c 0x80); [auto|]. destruct (N.ltb c 0x800); [discriminate|]. destruct (N.ltb c 0x10000); discriminate. Qed.
Lemma blen1 s : blen s = 1 -> exists c, s = [c] /\ (c < 128)%N.
Proof.
  destruct s as [|c s]; [discriminate|]. cbn [blen]. intros E. pose proof (utf8_len_pos c).
  destruct s as [|x s]; [|cbn [blen] in E; pose proof (utf8_len_pos x); lia]. exists c. split; [reflexivity|]. apply utf8_small. cbn in E. lia.
Qed.
Lemma strip_ends_ok site s m : strip_ends site s = COk m -> exists b e, s = b :: m ++ [e] /\ (b < 128)%N /\ (e < 128)%N.
Proof.
  unfold strip_ends. destruct (Nat.ltb_spec (blen s) 2) as [|L]; [discriminate|]. destruct (split_bytes 1 s) as [[a r]|] eqn:E; [|discriminate].
  destruct (split_bytes _ r) as [[m' x]|] eqn:E2; [|discriminate]. intros [= ->].
  apply split_bytes_app in E as [-> Ea]. apply split_bytes_app in E2 as [-> Em]. rewrite !blen_app in L, Em.
  destruct (blen1 a Ea) as (b & -> & Hb). destruct (blen1 x) as (e & -> & He); [lia|]. exists b, e. auto.
Qed.
Lemma table_columns_error s : forall i,
  cwp (table_columns i s) (fun _ => True) (fun f => exists c, f = FailErr (EAlignment c) /\ In c s /\ ~ In c (tx "lcr|")).
Proof.
  induction s as [|ch s IH]; intros i; [exact I|]. cbn [table_columns].
  assert (Z : forall j g, cwp (let! (al, vl) := table_columns j s in g al vl)
      (fun _ : list N * list nat => True) (fun f => exists c, f = FailErr (EAlignment c) /\ In c (ch :: s) /\ ~ In c (tx "lcr|")) \/
      exists al vl, table_columns j s = COk (al, vl)).
  { intros j g. specialize (IH j). destruct (table_columns j s) as [[al vl]|e|p|]; [right; eauto|left..];
      destruct IH as (c & E & H1 & H2); cbn; exists c; split; auto; split; auto; now right. }
  destruct ((ch =? 108)%N || (ch =? 99)%N || (ch =? 114)%N) eqn:E1.
  - destruct (Z (S i) (fun al vl => COk (ch :: al, vl))) as [H|(al & vl & H)]; [exact H|]. rewrite H. exact I.
  - destruct (ch =? 124)%N eqn:E2.
    + destruct (Z i (fun al vl => COk (al, i :: vl))) as [H|(al & vl & H)]; [exact H|]. rewrite H. exact I.
    + cbn. exists ch. split; [reflexivity|]. split; [now left|]. intros [H|[H|[H|[H|[]]]]]; subst ch; discriminate.
Qed.

(** ** The pass *)
Lemma or_mono (A B C : Prop) : A \/ B -> (B -> C) -> A \/ C. Proof. tauto. Qed.
(** the panics of the indentation arithmetic (lines 84 and 474) *)
Definition underflow (site : string) : bool :=
  String.eqb site "converter.rs:84 subtract with overflow" || String.eqb site "converter.rs:474 subtract with overflow".
Section Pass.
  Variable sp : spec.
  Variable rec : tree -> cst -> cout.
  Variable R : fail -> Prop.
  Variable t : tree.
  Definition may_panic : Prop := forall p, underflow p = false -> R (FailPanic p).
  Definition any_panic : Prop := forall p, R (FailPanic p).
  Definition state_ok (s : cst) : Prop := any_panic \/ (is_list_env (c_env s) = true -> 2 <= c_indent s).
  Definition restores (f : tree -> cst -> cout) (t' : tree) : Prop :=
    forall s, state_ok s -> cwp (f t' s) (fun r => same_context s (fst r)) R.
  Hypothesis IH : forall t', under t' t -> restores rec t'.
  Hypothesis HE : forall e, error_cause sp e t -> R (FailErr e).
  Hypothesis HP : may_panic \/ convertible sp t.

  Lemma state_ok_context s s' : state_ok s -> same_context s s' -> state_ok s'.
  Proof. intros [H|H] (_ & E2 & E3); [now left|]. right. now rewrite E2, E3. Qed.
  Lemma state_ok_enter k s : state_ok s -> state_ok (enter_env k s).
  Proof. intros [H|H]; [now left|]. right. unfold enter_env. cbn. intros E. rewrite E. lia. Qed.
  Lemma state_ok_mode m s : state_ok s -> state_ok (set_mode m s).
  Proof. intros H. exact H. Qed.

  Lemma each_restores f l s : (forall u, In u l -> restores f u) -> state_ok s ->
    cwp (each f l s) (fun r => same_context s (fst r)) R.
  Proof.
    intros H Hs. apply each_rel; [exact same_context_refl|exact same_context_trans|]. intros u Hu s' Hs'. apply H; [exact Hu|].
    eapply state_ok_context; eauto.
  Qed.
  Lemma exit_restores prev s0 k s : same_context (enter_env k s0) s -> prev = c_env s0 ->
    cwp (exit_env prev s) (fun s' => same_context s0 s') R.
  Proof.
    intros (H1 & H2 & H3) ->. unfold exit_env, enter_env in *. cbn [c_mode c_env c_indent] in *. rewrite H2.
    destruct (is_list_env k).
    - destruct (Nat.ltb_spec (c_indent s) 2); [lia|]. cbn. repeat split; cbn; [assumption|lia].
    - cbn. repeat split; cbn; [assumption|lia].
  Qed.
  (** a partial operation: panics are excluded by [P] *)
  Lemma partial {A B} (P : Prop) (x : cres A) (f : A -> cres B) Q : may_panic \/ P ->
    (exists a, x = COk a) \/ (exists p, x = CPanic p /\ underflow p = false /\ ~ P) ->
    (forall a, x = COk a -> cwp (f a) Q R) -> cwp (cbind x f) Q R.
  Proof.
    intros HP' [[a E]|(p & E & U & N)] H; rewrite E; [now apply H|]. destruct HP' as [L|L]; [now apply L|contradiction].
  Qed.
  Lemma unwrap_cases {A} site (o : option A) : underflow site = false -> (exists a, unwrap site o = COk a) \/ (exists p, unwrap site o = CPanic p /\ underflow p = false /\ ~ o <> None).
  Proof. intros U. destruct o; [left; eexists; reflexivity|right]. eexists. split; [reflexivity|]. split; [exact U|]. intros H. now apply H. Qed.
  Lemma tail1_cases site n : underflow site = false -> (exists a, tail1 site n = COk a) \/ (exists p, tail1 site n = CPanic p /\ underflow p = false /\ ~ (exists c r, n = c :: r /\ (c < 128)%N)).
  Proof.
    intros U. destruct (tail1 site n) as [a|e|p|] eqn:E; [eauto| | |].
    - unfold tail1 in E. destruct (split_bytes 1 n) as [[? ?]|]; discriminate.
    - assert (p = site) as -> by (unfold tail1 in E; destruct (split_bytes 1 n) as [[? ?]|]; [discriminate|now injection E as ->]).
      right. exists site. split; [reflexivity|]. split; [exact U|]. intros (c & r & -> & H). now rewrite tail1_small in E.
    - unfold tail1 in E. destruct (split_bytes 1 n) as [[? ?]|]; discriminate.
  Qed.
  Lemma strip_ends_cases site n : underflow site = false -> (exists a, strip_ends site n = COk a) \/ (exists p, strip_ends site n = CPanic p /\ underflow p = false /\ ~ quoted n).
  Proof.
    intros U. destruct (strip_ends site n) as [a|e|p|] eqn:E; [eauto| | |].
    - unfold strip_ends in E. destruct (Nat.ltb _ _); [discriminate|]. destruct (split_bytes 1 n) as [[? ?]|]; [|discriminate].
      destruct (split_bytes _ _) as [[? ?]|]; discriminate.
    - assert (p = site) as ->.
      { unfold strip_ends in E. destruct (Nat.ltb _ _); [now injection E as ->|]. destruct (split_bytes 1 n) as [[? ?]|]; [|now injection E as ->].
        destruct (split_bytes _ _) as [[? ?]|]; [discriminate|now injection E as ->]. }
      right. exists site. split; [reflexivity|]. split; [exact U|]. intros (b & m & e & -> & H1 & H2). now rewrite strip_ends_quoted in E.
    - unfold strip_ends in E. destruct (Nat.ltb _ _); [discriminate|]. destruct (split_bytes 1 n) as [[? ?]|]; [|discriminate].
      destruct (split_bytes _ _) as [[? ?]|]; discriminate.
  Qed.
  Lemma node_children_cases : (exists a, node_children t = COk a) \/ (exists p, node_children t = CPanic p /\ underflow p = false /\ ~ is_node t = true).
  Proof. destruct t; [right|left; eexists; reflexivity]. eexists. split; [reflexivity|]. split; [reflexivity|]. discriminate. Qed.
  Lemma node_children_ok ch : node_children t = COk ch -> ch = children t.
  Proof. destruct t; [discriminate|]. now intros [= <-]. Qed.

  (** what is known of [t] itself *)
  Lemma fine_here : may_panic \/ fine sp t.
  Proof. destruct HP as [H|H]; [now left|right]. apply H. constructor. Qed.
  Lemma fine_child c : tkind t = ItemEnv -> In c (children t) -> may_panic \/ fine sp c.
  Proof. intros Ek Hc. destruct HP as [H|H]; [now left|right]. apply H. eapply under_seen; [|apply seen_self]. left. split; [exact Hc|]. rewrite Ek. intros X. repeat destruct X as [X|X]; try discriminate; contradiction. Qed.
  Lemma kind_is_node : ~ leaf_kind (tkind t) -> may_panic \/ is_node t = true.
  Proof. intros H. destruct fine_here as [L|L]; [now left|right]. destruct t; [|reflexivity]. destruct L. contradiction. Qed.
  Lemma kind_is_leaf : ~ node_kind (tkind t) -> may_panic \/ is_node t = false.
  Proof. intros H. destruct fine_here as [L|L]; [now left|right]. destruct t; [reflexivity|]. destruct L. contradiction. Qed.

  Ltac ctx := unfold same_context in *; cbn in *; intuition congruence.

  Ltac kids := eapply partial; [apply kind_is_node|exact node_children_cases|
     let ch := fresh "ch" in let E := fresh "E" in intros ch E; apply node_children_ok in E; subst ch].
  Ltac notin := let H := fresh in intros H; repeat destruct H as [H|H]; try discriminate H; try contradiction H.

  Lemma rec_child : ~ opaque_kind (tkind t) -> forall u, In u (children t) -> restores rec u.
  Proof. intros Hk u H. apply IH. now left. Qed.
  Ltac clear_kind := match goal with E : tkind t = _ |- ~ opaque_kind (tkind t) => rewrite E; notin end.

  Lemma formula_restores s : tkind t = ItemFormula -> state_ok s -> cwp (convert_formula rec t s) (fun r => same_context s (fst r)) R.
  Proof.
    intros Ek Hs. unfold convert_formula. kids. { rewrite Ek. notin. }
    destruct (formula_is_valid t) eqn:Ev; cbn [negb].
    - cbv zeta. apply cwp_bind. eapply cwp_mono; [apply each_restores; [apply rec_child; clear_kind|exact Hs]|]. intros [s1 o1] H. ctx.
    - apply HE. now split.
  Qed.
  Lemma curly_restores s : tkind t = ItemCurly -> state_ok s -> cwp (convert_curly_group rec t s) (fun r => same_context s (fst r)) R.
  Proof.
    intros Ek Hs. unfold convert_curly_group. cbv zeta. kids. { rewrite Ek. notin. }
    set (enter := is_math s && _). apply cwp_bind. eapply cwp_mono; [apply each_restores; [apply rec_child; clear_kind|]|].
    { destruct enter; [now apply state_ok_enter|exact Hs]. }
    intros [s0 o0] H. cbn [fst] in H. destruct (is_math s0) eqn:Em.
    - apply cwp_bind. destruct enter.
      + eapply cwp_mono; [eapply exit_restores; [exact H|reflexivity]|]. intros a Ha. exact Ha.
      + exact H.
    - cbn [cwp fst]. destruct enter eqn:Ee; [|exact H]. apply andb_prop in Ee as [Ee _].
      unfold is_math in *. destruct H as (H & _). cbn in *. rewrite H in Em. congruence.
  Qed.
  Lemma clause_lr_restores s : tkind t = ClauseLR -> state_ok s -> cwp (convert_clause_lr rec t s) (fun r => same_context s (fst r)) R.
  Proof.
    intros Ek Hs. unfold convert_clause_lr. kids. { rewrite Ek. notin. }
    assert (F : may_panic \/ exists k' c s r, children t = Leaf k' (c :: s) :: r /\ (c < 128)%N).
    { destruct fine_here as [L|L]; [now left|right]. destruct t as [k x|k ch]; cbn in Ek; subst k; destruct L as [L1 L2]; [exfalso; revert L1; notin|exact L2]. }
    assert (N : cwp (CPanic "converter.rs:363 index or unwrap" : cout) (fun r => same_context s (fst r)) R \/
                exists k n r, children t = Leaf k n :: r).
    { destruct F as [L|(k' & c & x & r & E & _)]; [left; now apply L|right; eauto]. }
    destruct (children t) as [|[k name|k c] args] eqn:Ec; try (destruct N as [N|(? & ? & ? & N)]; [exact N|discriminate]).
    eapply partial; [|apply tail1_cases; reflexivity|].
    { destruct F as [L|(k' & c & x & r & E & Hc)]; [now left|right]. injection E as -> -> ->. eauto. }
    intros n _. cbv zeta. apply cwp_bind. eapply cwp_mono.
    - apply each_restores; [|exact Hs]. intros a Ha s1 Hs1. apply cwp_bind.
      assert (Z : cwp (rec a s1) (fun r => cwp (let '(s, o) := r in COk (s, o ++ [32%N])) (fun r => same_context s1 (fst r)) R) R).
      { eapply cwp_mono; [apply IH; [left; split; [rewrite Ec; now right|clear_kind]|exact Hs1]|]. intros [s2 o] H. exact H. }
      destruct a as [k' w|k' c']; [|exact Z]. destruct k'; try exact Z. destruct (teqb w _); [|exact Z].
      apply same_context_refl.
    - intros [s1 o] H. exact H.
  Qed.
  Lemma attach_loop_restores l : ~ opaque_kind (tkind t) -> incl l (children t) -> forall first based s, state_ok s ->
    cwp (attach_loop rec first based l s) (fun r => same_context s (fst r)) R.
  Proof.
    intros Hop. induction l as [|u l IHl]; intros Hi first based s Hs; [apply same_context_refl|].
    assert (Hi' : incl l (children t)) by (intros x Hx; apply Hi; now right).
    assert (N : forall b, cwp (let! (s, o1) := rec u s in
        let! (s, o2) := attach_loop rec first b l s in COk (s, o1 ++ o2)) (fun r => same_context s (fst r)) R).
    { intros b. apply cwp_bind. eapply cwp_mono; [apply rec_child; [exact Hop|apply Hi; now left|exact Hs]|]. intros [s0 o0] H.
      apply cwp_bind. eapply cwp_mono; [apply IHl; [exact Hi'|eapply state_ok_context; eauto]|]. intros [s1 o1] H1. cbn [cwp fst] in *.
      eapply same_context_trans; eauto. }
    cbn [attach_loop]. destruct first; [|apply N].
    destruct u as [k m|k c]; [|apply N]. destruct k; try apply N;
      (apply cwp_bind; eapply cwp_mono; [apply IHl; [exact Hi'|exact Hs]|]; intros [s1 o1] H1; exact H1).
  Qed.
  Lemma attach_restores s : tkind t = ItemAttachComponent -> state_ok s -> cwp (convert_attach_component rec t s) (fun r => same_context s (fst r)) R.
  Proof.
    intros Ek Hs. unfold convert_attach_component. kids. { rewrite Ek. notin. }
    destruct (is_math s); [now apply attach_loop_restores; [clear_kind|apply incl_refl|]|].
    apply each_restores; [apply rec_child; clear_kind|exact Hs].
  Qed.
  Lemma args_under : ~ opaque_kind (tkind t) -> forall a, In a (arguments t) -> under a t.
  Proof. intros Hk a H. left. split; [now apply arguments_children|exact Hk]. Qed.
  Lemma color_args_under name m c b : tkind t = ItemCmd -> color_args name t = COk (m, c, b) ->
    (forall x, c = Some x -> under x t) /\ (forall x, In x b -> under x t).
  Proof.
    intros Ek. assert (Hop : ~ opaque_kind (tkind t)) by clear_kind.
    unfold color_args. destruct (teqb name _).
    - destruct (hd_error (arguments t)) as [root|] eqn:Er; [|discriminate]. cbn [unwrap cbind].
      apply hd_error_In in Er. apply arguments_children in Er.
      set (l := Converter.skip_trivia (children root)).
      assert (Hl : incl l (children root)) by apply skip_trivia_incl.
      assert (G : forall model l', incl l' (children root) ->
        match Converter.skip_trivia l' with [] => COk (model, None, []) | c0 :: body => COk (model, Some c0, body) end = COk (m, c, b) ->
        (forall x, c = Some x -> under x t) /\ (forall x, In x b -> under x t)).
      { intros model l' Hi E. pose proof (skip_trivia_incl l') as Hs. destruct (Converter.skip_trivia l') as [|c0 body].
        - injection E as <- <- <-. split; [discriminate|contradiction].
        - injection E as <- <- <-. split.
          + intros x [= <-]. right. exists root. split; [exact Er|]. split; [|now left]. apply Hi, Hs. now left.
          + intros x Hx. right. exists root. split; [exact Er|]. split; [|now left]. apply Hi, Hs. now right. }
      destruct l as [|x r] eqn:El; [intros E; eapply (G None []); [intros ? []|exact E]|].
      destruct (has_kind TokenLBracket x).
      + pose proof (take_model_incl r) as Hm. destruct (take_model r) as [mm r']. intros E.
        apply (G (Some mm) r'); [|exact E]. intros y Hy. apply Hl. right. now apply Hm.
      + intros E. apply (G None (x :: r)); [exact Hl|exact E].
    - pose proof (args_under Hop) as Ha. destruct (arguments t) as [|first args]; [intros [= <- <- <-]; split; [discriminate|contradiction]|].
      cbv zeta. destruct (match tree_text first with [] => _ | _ => _ end).
      + intros [= <- <- <-]. split.
        * intros x Hx. apply Ha. right. now apply hd_error_In.
        * intros x Hx. apply Ha. right. destruct args; [contradiction|]. now right.
      + intros [= <- <- <-]. split; [intros x [= <-]; apply Ha; now left|]. intros x Hx. apply Ha. now right.
  Qed.
  Lemma color_args_cases name : (exists a, color_args name t = COk a) \/ (exists p, color_args name t = CPanic p /\ underflow p = false /\ ~ (name = tx "\color" -> arguments t <> [])).
  Proof.
    unfold color_args. destruct (teqb name _) eqn:E.
    - apply teqb_eq in E. destruct (arguments t) as [|a l]; cbn; [right; eexists; split; [reflexivity|]; split; [reflexivity|]; now intros H; apply H|].
      left. match goal with |- exists _, (let '(_, _) := ?x in _) = _ => destruct x end. destruct (Converter.skip_trivia _); eauto.
    - left. destruct (arguments t); [eauto|]. cbv zeta. destruct (match tree_text t0 with [] => _ | _ => _ end); eauto.
  Qed.
  Lemma color_restores s : tkind t = ItemCmd -> (may_panic \/ (cmd_name_tok t = Some (tx "\color") -> arguments t <> [])) -> state_ok s ->
    cwp (convert_command_color sp rec t s) (fun r => same_context s (fst r)) R.
  Proof.
    intros Ek HF Hs. unfold convert_command_color. cbv zeta.
    eapply partial; [|apply color_args_cases|].
    { eapply or_mono; [exact HF|]. intros H. destruct (cmd_name_tok t); [intros ->; now apply H|discriminate]. }
    intros [[model color] body] Ea. destruct (color_args_under _ _ _ _ Ek Ea) as [Hc Hb]. cbv zeta.
    apply cwp_bind. eapply cwp_mono with (P := fun r => same_context s (fst r)).
    - destruct color as [c|]; [|apply same_context_refl]. apply cwp_bind. eapply cwp_mono; [apply IH; [now apply Hc|now apply state_ok_mode]|].
      intros [s1 o1] H. ctx.
    - intros [s1 o1] H1. cbn [fst] in H1. apply cwp_bind. eapply cwp_mono.
      + apply each_restores; [|eapply state_ok_context; eauto]. intros b Hin s2 Hs2. specialize (Hb _ Hin). destruct (is_math s2); [|now apply IH].
        apply cwp_bind. eapply cwp_mono; [now apply IH|]. intros [s3 o3] H. exact H.
      + intros [s2 o2] H2. cbn [cwp fst] in *. eapply same_context_trans; eauto.
  Qed.
  Lemma comma_restores k l : (forall u, In u l -> under u t) -> forall s, state_ok s -> cwp (comma_args rec k l s) (fun r => same_context s (fst r)) R.
  Proof.
    induction l as [|u l IHl]; intros Hu s Hs; [apply same_context_refl|]. cbn [comma_args].
    apply cwp_bind. eapply cwp_mono; [apply IH; [apply Hu; now left|exact Hs]|]. intros [s0 o0] H0. cbv zeta. cbn [fst] in H0.
    apply cwp_bind. eapply cwp_mono; [apply IHl; [intros x Hx; apply Hu; now right|eapply state_ok_context; eauto]|].
    intros [s1 o1] H1. cbn [cwp fst] in *. eapply same_context_trans; eauto.
  Qed.
  Lemma named_restores l : (forall u, In u l -> under u t) -> forall i s, state_ok s -> cwp (named_args rec i l s) (fun r => same_context s (fst r)) R.
  Proof.
    induction l as [|u l IHl]; intros Hu i s Hs; [apply same_context_refl|]. cbn [named_args].
    apply cwp_bind. eapply cwp_mono; [apply IH; [apply Hu; now left|exact Hs]|]. intros [s0 o0] H0. cbn [fst] in H0.
    apply cwp_bind. eapply cwp_mono; [apply IHl; [intros x Hx; apply Hu; now right|eapply state_ok_context; eauto]|].
    intros [s1 o1] H1. cbn [cwp fst] in *. eapply same_context_trans; eauto.
  Qed.
  Lemma text_arg_restores u : under u t -> restores (text_arg rec) u.
  Proof.
    intros Hu s Hs. unfold text_arg. destruct (has_kind _ _); [|apply same_context_refl]. cbv zeta.
    apply cwp_bind. eapply cwp_mono; [now apply IH|]. intros [s1 o1] H. ctx.
  Qed.
  Lemma cmd_name_cases u : (exists a, cmd_name u = COk a) \/ (exists p, cmd_name u = CPanic p /\ underflow p = false /\ ~ (exists c r, cmd_name_tok u = Some (c :: r) /\ (c < 128)%N)).
  Proof. unfold cmd_name. destruct (cmd_name_tok u); cbn; [eauto|]. right. eexists. split; [reflexivity|]. split; [reflexivity|]. intros (c & r & H & _). discriminate. Qed.
  (** the name of a command node *)
  Lemma name_of u : tkind u = ItemCmd -> may_panic \/ fine sp u ->
    may_panic \/ exists c r, cmd_name_tok u = Some (c :: r) /\ (c < 128)%N.
  Proof.
    intros Ek H. eapply or_mono; [exact H|]. intros F. destruct u as [k s|k ch]; cbn in Ek; subst k; destruct F as [F1 F2].
    - exfalso. revert F1. notin.
    - destruct F2 as (c & name & F2 & F3 & _). eauto.
  Qed.
  Lemma name_cwp {B} u site (f : text -> cres B) Q : underflow site = false -> tkind u = ItemCmd -> may_panic \/ fine sp u ->
    (forall c n, cmd_name_tok u = Some (c :: n) -> cwp (f n) Q R) ->
    cwp (let! n := cmd_name u in let! n := tail1 site n in f n) Q R.
  Proof.
    intros U Ek HF H. pose proof (name_of _ Ek HF) as HN. eapply partial; [exact HN|apply cmd_name_cases|].
    intros n0 E0. assert (En : cmd_name_tok u = Some n0) by (unfold cmd_name in E0; destruct (cmd_name_tok u); [now injection E0 as ->|discriminate]).
    eapply partial; [|apply tail1_cases; exact U|].
    { eapply or_mono; [exact HN|]. intros (c & r & E & Hc). rewrite En in E. injection E as ->. eauto. }
    intros n E. destruct (tail1_ok _ _ _ E) as [c ->]. eapply H; eauto.
  Qed.
  Lemma normal_restores s : tkind t = ItemCmd -> (forall c name, cmd_name_tok t = Some (c :: name) -> ~ In name special_names) ->
    (may_panic \/ (forall c name, cmd_name_tok t = Some (c :: name) -> option_map cs_args (get_cmd sp name) = Some (SRight PGreedy) ->
       exists k ch r, filter (fun x => negb (has_kind ClauseCommandName x)) (children t) = Node k ch :: r)) -> state_ok s ->
    cwp (convert_normal_command sp rec t s) (fun r => same_context s (fst r)) R.
  Proof.
    intros Ek Hsn HF Hs. unfold convert_normal_command. apply name_cwp; [reflexivity|exact Ek|exact fine_here|]. intros c0 name En. cbv zeta.
    destruct (get_cmd sp name) as [c|] eqn:Eg; [|apply HE; split; [left; split; [split; eauto|eauto]|exact Eg]].
    set (sub := teqb _ _). set (s1 := if sub then _ else s). apply cwp_bind. eapply cwp_mono with (P := fun r => same_context s1 (fst r)).
    - assert (Hs1 : state_ok s1) by (unfold s1; destruct sub; [now apply state_ok_enter|exact Hs]).
      set (args := filter _ _) in *. set (tn := typst_name_of _ _ _).
      assert (Ha : forall u, In u args -> In u (children t)) by (intros u Hu; unfold args in Hu; now apply filter_In in Hu).
      assert (Hop : ~ opaque_kind (tkind t)) by clear_kind.
      clearbody s1 tn sub.
      assert (A : cwp (if is_math s1 && negb (starts_with (tx "#") tn)
          then let! (s, o) := comma_args rec ClauseArgument args s1 in COk (s, tx "(" ++ o ++ tx ")")
          else let! (s, o) := each (text_arg rec) args s1 in COk (s, o ++ tx ";"))
          (fun r => same_context s1 (fst r)) R).
      { destruct (is_math s1 && _).
        - apply cwp_bind. eapply cwp_mono; [apply comma_restores; [intros u Hu; left; split; auto|exact Hs1]|]. intros [s2 o2] H. exact H.
        - apply cwp_bind. eapply cwp_mono; [apply each_restores; [|exact Hs1]|]; [intros u Hu; apply text_arg_restores; left; split; auto|]. intros [s2 o2] H. exact H. }
      destruct (cs_args c) as [p| |] eqn:Ecs; try exact A. destruct p; try exact A.
      + apply same_context_refl.
      + assert (G : (cwp (CPanic "converter.rs:781 unwrap" : cout) (fun r => same_context s1 (fst r)) R) \/ exists k ch r, args = Node k ch :: r).
        { destruct HF as [L|L]; [left; now apply L|right]. eapply L; [exact En|]. rewrite Eg. cbn. now rewrite Ecs. }
        destruct args as [|[k x|k ch] args2] eqn:Eargs; try (destruct G as [G|(? & ? & ? & G)]; [exact G|discriminate]).
        apply cwp_bind. eapply cwp_mono; [apply comma_restores; [|exact Hs1]|].
        * intros u Hu. right. exists (Node k ch). split; [apply Ha; now left|]. split; [exact Hu|now left].
        * intros [s2 o2] H. exact H.
    - intros [s2 o2] H2. cbn [fst] in H2. apply cwp_bind. destruct sub.
      + eapply cwp_mono; [eapply exit_restores; [exact H2|reflexivity]|]. intros a H. exact H.
      + exact H2.
  Qed.
  (** figures *)
  Lemma named_arg_cwp {B} u (f : bool -> cres B) Q : may_panic \/ fine sp u ->
    (forall b, (b = true -> exists ch c r, u = Node ItemCmd ch /\ cmd_name_tok u = Some (c :: r)) -> cwp (f b) Q R) ->
    cwp (let! b := is_named_arg u in f b) Q R.
  Proof.
    intros HF H. assert (F : cwp (f false) Q R) by (apply H; discriminate).
    unfold is_named_arg. destruct u as [k x|k ch]; destruct k; try exact F.
    - destruct HF as [L|[L _]]; [now apply L|]. exfalso. revert L. notin.
    - apply cwp_bind. eapply partial; [exact (name_of (Node ItemCmd ch) eq_refl HF)|apply cmd_name_cases|]. intros n E.
      cbn [cwp]. apply H. intros Eb. exists ch. unfold cmd_name in E. destruct (cmd_name_tok (Node ItemCmd ch)) as [n'|]; [|discriminate].
      injection E as ->. apply orb_prop in Eb as [Eb|Eb]; apply teqb_eq in Eb; subst n; eexists _, _; split; reflexivity.
  Qed.
  Lemma find_caption_cwp l : tkind t = ItemEnv -> incl l (children t) -> forall cap, (forall c, cap = Some c -> under c t) ->
    cwp (find_caption l cap) (fun c => forall x, c = Some x -> under x t) R.
  Proof.
    intros Ek. induction l as [|u l IHl]; intros Hi cap Hc; [exact Hc|]. cbn [find_caption].
    assert (Hu : In u (children t)) by (apply Hi; now left).
    assert (Hi' : incl l (children t)) by (intros x Hx; apply Hi; now right).
    pose proof (fine_child _ Ek Hu) as HF. apply named_arg_cwp; [exact HF|]. intros [|] Hb; [|now apply IHl].
    destruct (Hb eq_refl) as (ch & c0 & n0 & Eu & En0). apply name_cwp; [reflexivity|now subst u|exact HF|]. intros c n En.
    destruct (teqb n (tx "caption")) eqn:Et; [|now apply IHl]. apply teqb_eq in Et. subst n.
    eapply partial; [|apply unwrap_cases; reflexivity|].
    - eapply or_mono; [exact HF|]. intros F. subst u. destruct F as [_ (c1 & n1 & F1 & _ & _ & _ & _ & F2 & _)].
      rewrite En in F1. injection F1 as <- <-. specialize (F2 eq_refl). destruct (arguments _); [congruence|discriminate].
    - intros a E. apply IHl; [exact Hi'|]. intros x [= <-]. destruct (arguments u) as [|a0 l0] eqn:Ea; [discriminate|]. injection E as ->.
      assert (Hin : In a (arguments u)) by (rewrite Ea; now left).
      right. exists u. split; [exact Hu|]. split; [now apply arguments_children|]. right. split; [exact Ek|]. now apply arguments_kind in Hin.
  Qed.
  Lemma figure_restores k tn s : tkind t = ItemEnv -> state_ok s -> cwp (convert_env_figure rec t k tn s) (fun r => same_context s (fst r)) R.
  Proof.
    intros Ek Hs. unfold convert_env_figure. apply cwp_bind. eapply cwp_mono; [apply find_caption_cwp; [exact Ek|apply incl_refl|discriminate]|].
    intros caption Hc. cbv zeta. pose proof (state_ok_enter k s Hs) as Hs1.
    apply cwp_bind. eapply cwp_mono with (P := fun r => same_context (enter_env k s) (fst r)).
    - destruct caption as [c|]; [|apply same_context_refl]. apply cwp_bind.
      eapply cwp_mono; [apply IH; [now apply Hc|exact Hs1]|]. intros [s1 o1] H. exact H.
    - intros [s1 o1] H1. apply cwp_bind. eapply cwp_mono.
      + apply each_restores; [|eapply state_ok_context; eauto]. intros u Hu s2 Hs2. unfold figure_child. destruct (is_begin_end u); [apply same_context_refl|].
        apply named_arg_cwp; [now apply fine_child|]. intros [|] _; [apply same_context_refl|]. apply rec_child; [clear_kind|exact Hu|exact Hs2].
      + intros [s2 o2] H2. cbn [fst] in *. pose proof (same_context_trans _ _ _ H1 H2) as H3.
        apply cwp_bind. eapply cwp_mono; [eapply exit_restores; [exact H3|reflexivity]|]. intros a Ha. exact Ha.
  Qed.
  Lemma cells_restores l : tkind t = ItemEnv -> incl l (children t) -> forall ext s, state_ok s -> cwp (table_cells rec ext l s) (fun r => same_context s (fst r)) R.
  Proof.
    intros Ekt. induction l as [|u l IHl]; intros Hi ext s Hs; [apply same_context_refl|]. cbn [table_cells].
    assert (Hu : In u (children t)) by (apply Hi; now left).
    assert (Hi' : incl l (children t)) by (intros x Hx; apply Hi; now right).
    destruct (is_begin_end u); [now apply IHl|]. apply cwp_bind.
    assert (Z : forall (e : bool) (o0 : list N), cwp (let! (exterior, s1, o1) :=
        if e then COk (true, s, []) else match tkind u with
             | TokenAmpersand => COk (true, s, tx "], ")
             | ItemNewLine => COk (true, s, tx "]," ++ [10%N])
             | _ => let! (s, o) := rec u s in COk (false, s, o)
             end in
      let! (s2, o2) := table_cells rec exterior l s1 in COk (s2, o0 ++ o1 ++ o2)) (fun r => same_context s (fst r)) R).
    { intros e o0. apply cwp_bind. eapply cwp_mono with (P := fun r => same_context s (snd (fst r))).
      - destruct e; [apply same_context_refl|].
        assert (Z : cwp (let! (s, o) := rec u s in COk (false, s, o)) (fun r => same_context s (snd (fst r))) R).
        { apply cwp_bind. eapply cwp_mono; [apply rec_child; [clear_kind|exact Hu|exact Hs]|]. intros [s1 o1] H. exact H. }
        destruct (tkind u); try exact Z; apply same_context_refl.
      - intros [[e2 s2] o2] H2. cbn [fst snd] in H2. apply cwp_bind. eapply cwp_mono; [apply IHl; [exact Hi'|eapply state_ok_context; eauto]|].
        intros [s3 o3] H3. cbn [cwp fst snd] in *. eapply same_context_trans; eauto. }
    eapply cwp_mono with (P := fun _ => True); [|intros [e o0] _; apply Z].
    destruct ext; [|exact I]. unfold preprocess_exterior. destruct (tkind u) eqn:Ek; try exact I.
    apply name_cwp; [reflexivity|exact Ek|now apply fine_child|]. intros c n _. destruct (rule_text n); exact I.
  Qed.
  Lemma table_restores k tn s : tkind t = ItemEnv -> environment_is sp t FTable -> state_ok s ->
    cwp (convert_env_table rec t k tn s) (fun r => same_context s (fst r)) R.
  Proof.
    intros Ek He Hs. unfold convert_env_table.
    assert (F : may_panic \/ exists a r, env_arguments t = a :: r /\ quoted (tree_text a)).
    { eapply or_mono; [exact fine_here|]. intros F. destruct t as [k' x|k' ch]; cbn in Ek; subst k'; destruct F as [F1 F2]; [exfalso; revert F1; notin|now apply F2]. }
    eapply partial; [|apply unwrap_cases; reflexivity|].
    { eapply or_mono; [exact F|]. intros (a & r & -> & _). discriminate. }
    intros a Ea. eapply partial; [|apply strip_ends_cases; reflexivity|].
    { eapply or_mono; [exact F|]. intros (a' & r & E & Hq). rewrite E in Ea. injection Ea as ->. exact Hq. }
    intros b Eb. pose proof (table_columns_error (trim b) 0) as Ht. destruct (table_columns 0 (trim b)) as [[al vl]|e|p|]; cbn [cwp] in Ht.
    2:{ destruct Ht as (c & E & Hc & Hn). cbn. rewrite E. apply HE. split; [exact He|]. split; [exact Hn|].
        destruct (env_arguments t) as [|a0 r]; [discriminate|]. injection Ea as ->. apply strip_ends_ok in Eb as (b0 & e0 & Et & H1 & H2).
        exists a, r, b0, b, e0. auto. }
    2,3: (destruct Ht as (c & E & _); discriminate).
    cbn [cbind]. cbv zeta.
    apply cwp_bind. eapply cwp_mono; [apply cells_restores; [exact Ek|apply incl_refl|now apply state_ok_enter]|]. intros [s1 o1] H1. cbn [fst] in *.
    apply cwp_bind. eapply cwp_mono; [eapply exit_restores; [exact H1|reflexivity]|]. intros c H. exact H.
  Qed.
  Lemma flush_context s s' o : flush_label s = (s', o) -> same_context s s'.
  Proof. unfold flush_label. destruct (c_mode s), (c_label s); intros [= <- <-]; repeat split. Qed.
  Lemma env_restores s : tkind t = ItemEnv -> state_ok s -> cwp (convert_env sp rec t s) (fun r => same_context s (fst r)) R.
  Proof.
    intros Ek Hs. unfold convert_env. eapply partial; [|apply unwrap_cases; reflexivity|].
    { eapply or_mono; [exact fine_here|]. intros F. destruct t as [k' x|k' ch]; cbn in Ek; subst k'; destruct F as [F1 F2]; [exfalso; revert F1; notin|].
      destruct F2 as [(name & ->) _]. discriminate. }
    intros n En. assert (Hn : environment_named t (trim n)).
    { split; [exact Ek|]. exists n. split; [|reflexivity]. destruct (env_name_tok t); [now injection En as ->|discriminate]. }
    cbv zeta. destruct (get_env _ _) as [shape|] eqn:Eg; [|apply HE; now split].
    set (tn := alias_or _ _). clearbody tn.
    assert (Hf : environment_is sp t (en_feature shape)).
    { exists (trim n). split; [exact Hn|]. now rewrite Eg. }
    set (f := en_feature shape) in *. clearbody f. set (k := env_of_feature f).
    assert (Hb : forall u, In u (body_of t) -> restores rec u) by (intros u Hu; apply rec_child; [clear_kind|now apply body_children]).
    assert (L : forall k' (g : text -> text), cwp (let! (s0, o) := each rec (body_of t) (enter_env k' s) in let! s1 := exit_env (c_env s) s0 in
             COk (s1, g o)) (fun r => same_context s (fst r)) R).
    { intros k' g. apply cwp_bind. eapply cwp_mono; [apply each_restores; [exact Hb|now apply state_ok_enter]|]. intros [s0 o0] H.
      apply cwp_bind. eapply cwp_mono; [eapply exit_restores; [exact H|reflexivity]|]. intros c Hc. exact Hc. }
    destruct (is_list_env k) eqn:El; [apply (L k (fun o => o))|].
    apply cwp_bind. eapply cwp_mono with (P := fun r => same_context s (fst r)).
    - destruct (is_math_env k).
      + assert (Hs1 : state_ok (set_mode MMath (enter_env k s))) by (apply state_ok_mode; now apply state_ok_enter).
        apply cwp_bind. eapply cwp_mono; [apply named_restores; [intros u; apply env_arguments_under, Ek|exact Hs1]|]. intros [s1 o1] H1.
        apply cwp_bind. eapply cwp_mono; [apply each_restores; [exact Hb|eapply state_ok_context; eauto]|]. intros [s2 o2] H. cbn [fst] in *.
        pose proof (same_context_trans _ _ _ H1 H) as H2. apply cwp_bind.
        eapply cwp_mono; [eapply (exit_restores _ (set_mode MMath s) k); [exact H2|reflexivity]|].
        intros a (A1 & A2 & A3). cbn [cwp fst]. unfold is_math. destruct (c_mode s) eqn:Em; cbn in *; repeat split; cbn; congruence.
      + specialize (L k (fun o => tx "#" ++ tn ++ tx "[" ++ o ++ tx "];")).
        destruct f; try exact L; [now apply figure_restores|now apply table_restores].
    - intros [s1 o1] H1. cbn [fst] in *. destruct (flush_label s1) as [s2 o2] eqn:Ef. cbn [cwp fst].
      eapply same_context_trans; [exact H1|]. eapply flush_context; eauto.
  Qed.
  Lemma find_arg_cases k l : (exists a, find_arg k l = COk a) \/ (exists p, find_arg k l = CPanic p /\ underflow p = false /\ ~ Forall (fun a => first_child a <> None) l).
  Proof.
    induction l as [|a l IHl]; [left; eexists; reflexivity|]. cbn. destruct (first_child a) as [c|] eqn:E; cbn.
    - destruct (has_kind k c); [eauto|]. destruct IHl as [[b Hb]|(p & Hp & Hu & Hn)]; [left; eauto|]. right. exists p. split; [exact Hp|]. split; [exact Hu|].
      intros H. inversion H. contradiction.
    - right. eexists. split; [reflexivity|]. split; [reflexivity|]. intros H. inversion H. contradiction.
  Qed.
  Lemma find_arg_in k l a : find_arg k l = COk (Some a) -> In a l.
  Proof.
    induction l as [|b l IHl]; [discriminate|]. cbn. destruct (first_child b) as [c|]; [|discriminate]. cbn.
    destruct (has_kind k c); [intros [= ->]; now left|]. intros H. right. now apply IHl.
  Qed.
  Lemma find_arg_some k l : find_arg k l = COk None -> forall a, In a l -> option_map tkind (first_child a) <> Some k.
  Proof.
    induction l as [|b l IHl]; [contradiction|]. cbn. destruct (first_child b) as [c|] eqn:E; [|discriminate]. cbn.
    unfold has_kind, kind_eqb. destruct (kind_eq_dec (tkind c) k); [discriminate|]. intros H a [-> |Ha]; [rewrite E; cbn; congruence|now apply IHl].
  Qed.
  Lemma graphics_restores s :
    (may_panic \/ (Forall (fun a => quoted (tree_text a) /\ first_child a <> None) (arguments t) /\
     exists a, In a (arguments t) /\ option_map tkind (first_child a) = Some ItemCurly)) ->
    cwp (convert_command_includegraphics t s) (fun r => same_context s (fst r)) R.
  Proof.
    intros HF. unfold convert_command_includegraphics.
    assert (F1 : may_panic \/ Forall (fun a => first_child a <> None) (arguments t)).
    { eapply or_mono; [exact HF|]. intros [H _]. eapply Forall_impl; [|exact H]. now intros a [_ Ha]. }
    assert (F2 : forall a, In a (arguments t) -> may_panic \/ quoted (tree_text a)).
    { intros a Ha. eapply or_mono; [exact HF|]. intros [H _]. rewrite Forall_forall in H. now apply H. }
    eapply partial; [exact F1|apply find_arg_cases|]. intros o Eo.
    eapply partial; [exact F1|apply find_arg_cases|]. intros a Ea.
    eapply partial; [|apply unwrap_cases; reflexivity|].
    { eapply or_mono; [exact HF|]. intros (_ & b & Hb & Ek). destruct a; [discriminate|]. exfalso. eapply find_arg_some; eauto. }
    intros a1 Ea1. destruct a as [a'|]; [|discriminate]. injection Ea1 as ->.
    eapply partial; [|apply strip_ends_cases; reflexivity|]. { apply F2. eapply find_arg_in; eauto. }
    intros b Eb. apply cwp_bind. eapply cwp_mono with (P := fun _ => True); [|intros; apply same_context_refl].
    destruct o as [o|]; [|exact I]. eapply partial; [|apply strip_ends_cases; reflexivity|]. { apply F2. eapply find_arg_in; eauto. }
    intros x _. exact I.
  Qed.
  Lemma command_restores s : tkind t = ItemCmd -> state_ok s -> cwp (convert_cmd sp rec t s) (fun r => same_context s (fst r)) R.
  Proof.
    intros Ek Hs. pose proof fine_here as HF. unfold convert_cmd. destruct (is_node t) eqn:Et.
    2:{ destruct t as [k x|]; [|discriminate]. cbn in Ek. subst k. destruct HF as [L|[L _]]; [now apply L|exfalso; revert L; notin]. }
    assert (Z : cwp (let! name := cmd_name t in let! n := tail1 "converter.rs:248 str slice" name in
      if teqb n (tx "item") then convert_command_item s
      else if teqb n (tx "label") then convert_command_label t s
      else if teqb n (tx "includegraphics") then convert_command_includegraphics t s
      else if teqb n (tx "color") || teqb n (tx "textcolor") || teqb n (tx "colorbox")
      then convert_command_color sp rec t s
      else convert_normal_command sp rec t s) (fun r => same_context s (fst r)) R); [|destruct t; [discriminate|exact Z]].
    apply name_cwp; [reflexivity|exact Ek|exact HF|]. intros c n En.
    assert (HC : may_panic \/ (c < 128)%N /\ command_fine sp n t).
    { eapply or_mono; [exact HF|]. intros F. destruct t as [k x|k ch]; cbn in Ek; subst k; destruct F as [F1 F2]; [exfalso; revert F1; notin|].
      destruct F2 as (c' & n' & F2 & Hc & F3). rewrite En in F2. injection F2 as <- <-. auto. }
    destruct (teqb n (tx "item")) eqn:E1. apply teqb_eq in E1; subst n.
    { unfold convert_command_item. destruct (c_env s) eqn:E; try (apply HE; split; eauto; fail);
        (destruct (Nat.ltb_spec (c_indent s) 2); [|apply same_context_refl]);
        (destruct Hs as [L|L]; [apply L|]; rewrite E in L; specialize (L eq_refl); lia). }
    destruct (teqb n (tx "label")) eqn:E2. apply teqb_eq in E2; subst n.
    { assert (HL : may_panic \/ exists a r, arguments t = a :: r /\ quoted (tree_text a)).
      { eapply or_mono; [exact HC|]. intros (_ & H & _). now apply H. }
      unfold convert_command_label. eapply partial; [|apply unwrap_cases; reflexivity|].
      { eapply or_mono; [exact HL|]. intros (a & r & -> & _). discriminate. }
      intros a Ea. eapply partial; [|apply strip_ends_cases; reflexivity|].
      { eapply or_mono; [exact HL|]. intros (a' & r & E & Hq). rewrite E in Ea. injection Ea as ->. exact Hq. }
      intros l _. cbv zeta. destruct (c_env s) eqn:Ee, (c_mode s) eqn:Em; repeat split; cbn; congruence. }
    destruct (teqb n (tx "includegraphics")) eqn:E3. apply teqb_eq in E3; subst n.
    { apply graphics_restores. eapply or_mono; [exact HC|]. intros (_ & _ & H & _). now apply H. }
    destruct (_ || _) eqn:E4.
    - apply color_restores; [exact Ek| |exact Hs]. eapply or_mono; [exact HC|]. intros (_ & _ & _ & H & _) E. rewrite En in E. apply H.
      change (tx "\color") with (92%N :: tx "color") in E. now injection E as -> ->.
    - assert (Hsn : ~ In n special_names).
      { apply teqb_neq in E1, E2, E3.
        apply orb_false_elim in E4 as [E4 E6]. apply orb_false_elim in E4 as [E4 E5]. apply teqb_neq in E4, E5, E6.
        unfold special_names. cbn [map]. intros [G|[G|[G|[G|[G|[G|[]]]]]]]; symmetry in G; contradiction. }
      apply normal_restores; [exact Ek| | |exact Hs]. { intros c' n' En'. rewrite En in En'. now injection En' as <- <-. }
      eapply or_mono; [exact HC|]. intros (_ & _ & _ & _ & _ & H) c' n' En' Eg.
      rewrite En in En'. injection En' as <- <-. now apply H.
  Qed.
  Lemma token_text_cases : (exists a, token_text t = COk a) \/ (exists p, token_text t = CPanic p /\ underflow p = false /\ ~ is_node t = false).
  Proof. destruct t; [left; eexists; reflexivity|right]. eexists. split; [reflexivity|]. split; [reflexivity|]. discriminate. Qed.
  Lemma step_restores : restores (convert_step sp rec) t.
  Proof.
    intros s Hs. unfold convert_step.
    set (s1 := match tkind t with TokenWhiteSpace => s | _ => set_skip false s end).
    assert (E : same_context s s1) by (unfold s1; destruct (tkind t); repeat split).
    clearbody s1. cbv zeta.
    eapply cwp_mono with (P := fun r => same_context s1 (fst r)); [|intros a Ha; eapply same_context_trans; eauto].
    pose proof (state_ok_context _ _ Hs E) as Hs1. clear E s Hs. rename s1 into s, Hs1 into Hs.
    assert (K : ~ leaf_kind (tkind t) -> ~ opaque_kind (tkind t) -> cwp (let! ch := node_children t in each rec ch s) (fun r => same_context s (fst r)) R).
    { intros Hk Hop. eapply partial; [apply kind_is_node, Hk|exact node_children_cases|]. intros ch E. apply node_children_ok in E. subst ch.
      apply each_restores; [apply rec_child, Hop|exact Hs]. }
    assert (T : forall f : text -> cout, ~ node_kind (tkind t) -> (forall x, cwp (f x) (fun r => same_context s (fst r)) R) ->
      cwp (let! x := token_text t in f x) (fun r => same_context s (fst r)) R).
    { intros f Hk Hf. eapply partial; [apply kind_is_leaf, Hk|exact token_text_cases|]. intros x _. apply Hf. }
    destruct (tkind t) eqn:Ek; try apply same_context_refl;
      auto using formula_restores, curly_restores, clause_lr_restores, attach_restores, env_restores, command_restores;
      try (apply K; notin; fail).
    - apply HE. now split.
    - apply T; [notin|]. repeat split.
    - destruct (c_skip s); [repeat split|]. apply T; [notin|]. repeat split.
    - destruct (is_math s); repeat split.
    - apply T; [notin|]. intros x. destruct (is_math s); repeat split.
    - destruct (c_env s); repeat split.
    - unfold convert_command_sym. pose proof fine_here as HF. destruct t as [k x|k ch]; cbn in Ek; subst k.
      + eapply partial; [|apply tail1_cases; reflexivity|]. { eapply or_mono; [exact HF|]. intros [_ H]. now apply H. }
        intros n En. apply tail1_ok in En as [c ->]. destruct (get_cmd sp n) eqn:Eg; [repeat split|]. apply HE. split; [|exact Eg]. right. eauto.
      + destruct HF as [L|[L _]]; [now apply L|exfalso; revert L; notin].
    - apply HE. exact Ek.
    - destruct (c_env s); repeat split.
    - apply HE. now left.
    - apply HE. now right.
    - pose proof fine_here as HF. destruct t as [k x|k ch]; [|repeat split]. cbn in Ek. subst k.
      destruct HF as [L|[L _]]; [now apply L|exfalso; revert L; notin].
  Qed.
End Pass.
