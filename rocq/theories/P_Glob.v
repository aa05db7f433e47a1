(** Properties C43-C47: glob matching of argument lists. *)
From Verif Require Import Glob GlobFacts BaseFacts LexClass LexFacts DefaultSpec ArgMatch.
Local Open Scope nat_scope.

(** ** C45.  Every access to the pattern, the path and the brace stack is in
    bounds: the matcher never panics, whatever the pattern and the path. *)
Theorem C45_no_panic : forall fuel glob path is_prefix site,
  glob_internal fuel glob path is_prefix <> Panic site.
Proof.
  intros fuel glob path is_prefix site. unfold glob_internal.
  destruct (leading_bangs glob 0 false) as [i neg] eqn:E. apply start_in_range in E.
  apply gloop_safe; [unfold in_range; simpl; lia|constructor].
Qed.
Print Assumptions C45_no_panic.

(** ** C46.  Matching need not end: on this pattern and path the loop runs
    forever (the state of the first alternative survives into the second). *)
Fixpoint steps glob path is_prefix neg (n : nat) (st : gstate) (bs : bstack) : option (gstate * bstack) :=
  match n with
  | O => Some (st, bs)
  | S n => match gstep glob path is_prefix neg st bs with
           | Ok (GCont st bs) => steps glob path is_prefix neg n st bs
           | _ => None
           end
  end.
Lemma steps_loop glob path is_prefix neg n : forall st bs st' bs' k,
  steps glob path is_prefix neg n st bs = Some (st', bs') ->
  gloop glob path is_prefix neg (n + k) st bs = gloop glob path is_prefix neg k st' bs'.
Proof.
  induction n as [|n IH]; intros st bs st' bs' k; cbn [steps]; [now intros [= <- <-]|].
  intros H. cbn [Nat.add gloop]. destruct (gstep _ _ _ _ st bs) as [[b|a c|a c]| |]; try discriminate. cbn [bind].
  now apply IH.
Qed.
Lemma loop_forever glob path is_prefix neg n m st bs :
  (forall k, gloop glob path is_prefix neg (n + k) (mk_gst 0 0 wc0 wc0) (mk_bs [] None) = gloop glob path is_prefix neg k st bs) ->
  (forall k, gloop glob path is_prefix neg (S m + k) st bs = gloop glob path is_prefix neg k st bs) ->
  forall fuel b, gloop glob path is_prefix neg fuel (mk_gst 0 0 wc0 wc0) (mk_bs [] None) <> Ok b.
Proof.
  intros H1 H2 fuel b H0. pose proof (gloop_mono _ _ _ _ _ _ _ _ H0 (n + fuel) ltac:(lia)) as H. clear H0.
  rewrite H1 in H. clear H1. induction fuel as [fuel IH] using lt_wf_ind.
  destruct (le_lt_dec (S m) fuel) as [Hl|Hl].
  - apply (IH (fuel - S m)); [lia|]. rewrite <- H2. now replace (S m + (fuel - S m)) with fuel by lia.
  - assert (H0 : gloop glob path is_prefix neg (S m + 0) st bs = Ok b) by (eapply gloop_mono; [exact H|lia]).
    rewrite H2 in H0. discriminate.
Qed.
Theorem C46_refuted : forall fuel is_prefix,
  glob_internal fuel (tx "{/**/x,*}") (tx "/a") is_prefix = Fuel.
Proof.
  intros fuel is_prefix. destruct (glob_internal fuel (tx "{/**/x,*}") (tx "/a") is_prefix) as [b|s|] eqn:E; [exfalso| |reflexivity].
  - revert E. unfold glob_internal.
    replace (leading_bangs (tx "{/**/x,*}") 0 false) with (0, false) by reflexivity.
    apply (loop_forever _ _ _ _ 6 6
       (mk_gst 0 7 (mk_wc 2 3) (mk_wc 2 3)) (mk_bs [mk_gst 0 0 wc0 wc0] None)); intros k; apply steps_loop;
       destruct is_prefix; vm_compute; reflexivity.
  - now apply C45_no_panic in E.
Qed.
Print Assumptions C46_refuted.
(** It ends, with an answer, whenever the path has no separator - the case of
    argument lists, whose paths are strings of argument kinds.
    Missing: paths with '/'. *)
Theorem C46_terminates_partial : forall glob path is_prefix, ~ In 47%N path ->
  exists b, forall fuel, 2 ^ glob_bits glob path <= fuel -> glob_internal fuel glob path is_prefix = Ok b.
Proof.
  intros glob path is_prefix H. destruct (glob_run_ends glob path is_prefix H) as [b E]. exists b.
  exact (glob_run_loop _ _ _ _ E).
Qed.
Print Assumptions C46_terminates_partial.
(** ... and [glob_match_prefix]/[glob_match] return that answer *)
Theorem C46_answer : forall glob path b fuel, ~ In 47%N (utf8 path) ->
  (glob_internal fuel (utf8 glob) (utf8 path) true = Ok b -> glob_match_prefix glob path = b) /\
  (glob_internal fuel (utf8 glob) (utf8 path) false = Ok b -> glob_match glob path = b).
Proof.
  intros glob path b fuel Hn. split; intros H; apply glob_internal_run in H; auto;
    unfold glob_match_prefix, glob_match; now rewrite H.
Qed.
Print Assumptions C46_answer.

(** ** C43, C44: following the loop *)
Definition special (c : N) : Prop := In c [42; 63; 91; 123; 92; 33]%N.
Definition plain (c : N) : Prop := ~ special c /\ ~ In c [44; 125; 93]%N.

(** an answer of the loop within 2^bits iterations is [glob_run]'s *)
Lemma iter2_gloop_conv glob path is_prefix neg k : forall st bs n b, in_range glob st -> Forall (in_range glob) (b_stack bs) ->
  gloop glob path is_prefix neg n st bs = Ok b -> n <= 2 ^ k ->
  iter2 k (gstep glob path is_prefix neg) st bs = Ok (GRet b).
Proof.
  intros st bs n b Hr Hb H Hn.
  assert (Hit : safe (iter2 k (gstep glob path is_prefix neg) st bs) (fun o => out_range glob o /\ forall x y, o <> GFail x y)).
  { clear -Hr Hb. revert st bs Hr Hb. induction k as [|k IH]; intros st bs Hr Hb; cbn [iter2]; [now apply gstep_safe|].
    destruct (IH st bs Hr Hb) as (o & -> & Ho & Hf). cbn [bind]. destruct o as [b|st' bs'|st' bs'].
    - apply safe_ok. split; [exact I|discriminate].
    - destruct Ho. now apply IH.
    - now specialize (Hf st' bs'). }
  destruct Hit as (o & E & _ & Hf). pose proof (iter2_gloop _ _ _ _ _ _ _ _ E) as Hg. rewrite E.
  destruct o as [b'|st' bs'|st' bs']; [| |now specialize (Hf st' bs')].
  - specialize (Hg (2 ^ k) (le_n _)). pose proof (gloop_mono _ _ _ _ _ _ _ _ H (2 ^ k) Hn). congruence.
  - specialize (Hg 0). pose proof (gloop_mono _ _ _ _ _ _ _ _ H (2 ^ k + 0) ltac:(lia)) as Hx.
    rewrite Hx in Hg. discriminate.
Qed.
Lemma glob_run_conv glob path is_prefix n b : glob_internal n glob path is_prefix = Ok b ->
  n <= 2 ^ glob_bits glob path -> glob_run glob path is_prefix = Ok b.
Proof.
  unfold glob_internal, glob_run. destruct (leading_bangs glob 0 false) as [i neg] eqn:E. apply start_in_range in E.
  intros H Hn. erewrite iter2_gloop_conv; [reflexivity| | |exact H|exact Hn].
  - unfold in_range. simpl. lia.
  - constructor.
Qed.

Section Follow.
  Variables glob path : list N.
  Local Notation G := (List.length glob).
  Local Notation P := (List.length path).
  Variable is_prefix : bool.
  Local Notation step := (gstep glob path is_prefix false).
  Local Notation loop := (gloop glob path is_prefix false).

  Lemma nth_middle (pre : list N) c r : nth_error (pre ++ c :: r) (List.length pre) = Some c.
  Proof. rewrite nth_error_app2 by lia. now rewrite Nat.sub_diag. Qed.
  Lemma lit_arm c st bs : nth_error glob (g_glob st) = Some c -> ~ special c ->
    (b_stack bs <> [] -> c <> 44 /\ c <> 125)%N ->
    arm glob path st bs = if Nat.ltb (g_path st) P then arm_literal glob path c st bs else Ok (GFail st bs).
  Proof.
    intros Hc Hs Hb. unfold arm, at_. rewrite Hc. cbn [bind].
    unfold special in Hs. cbn [In] in Hs.
    assert (forall k, In k [42; 63; 91; 123; 92; 33]%N -> (c =? k)%N = false) as Hk.
    { intros k Hk. apply N.eqb_neq. intros ->. apply Hs. simpl in Hk. intuition. }
    rewrite (Hk 42%N), (Hk 63%N), (Hk 91%N), (Hk 123%N) by (simpl; tauto). cbn [andb].
    destruct (b_stack bs) as [|top r].
    - rewrite !andb_false_r. reflexivity.
    - destruct Hb as [H1 H2]; [discriminate|]. apply N.eqb_neq in H1, H2. rewrite H1, H2. reflexivity.
  Qed.
  (** a literal step outside braces *)
  Lemma lit_step c x st : nth_error glob (g_glob st) = Some c -> ~ special c -> nth_error path (g_path st) = Some x ->
    arm glob path st (mk_bs [] None) =
      if (x =? c)%N then Ok (GCont (mk_gst (S (g_path st)) (S (g_glob st)) (g_wild st)
                         (if (c =? 47)%N then g_star st else mk_wc (w_glob (g_star st)) 0)) (mk_bs [] None))
      else Ok (GFail st (mk_bs [] None)).
  Proof.
    intros Hc Hs Hx. rewrite (lit_arm c) by (simpl; auto; congruence).
    assert (g_path st < P) as Hp by (apply nth_error_Some; congruence). destruct (Nat.ltb_spec (g_path st) P); [|lia].
    unfold arm_literal, unescape. destruct (N.eqb_spec c 92) as [->|_]; [exfalso; apply Hs; unfold special; simpl; auto 10|].
    unfold at_. cbn [g_path]. rewrite Hx. cbn [bind].
    replace (if (c =? 47)%N then is_sep x else (x =? c)%N) with (x =? c)%N.
    2:{ destruct (N.eqb_spec c 47) as [->|]; reflexivity. }
    destruct (N.eqb_spec x c) as [->|]; [|destruct st; reflexivity]. reflexivity.
  Qed.
  Lemma step_arm st bs : g_glob st < G -> step st bs =
    bind (arm glob path st bs) (fun o => match o with GFail st bs => no_match glob path is_prefix false st bs | o => Ok o end).
  Proof. intros H. unfold gstep. destruct (Nat.ltb_spec (g_glob st) G); [|lia]. reflexivity. Qed.
  Lemma fail_out st : w_path (g_wild st) = 0 -> no_match glob path is_prefix false st (mk_bs [] None) = Ok (GRet (give_up path is_prefix false st)).
  Proof. intros H. unfold no_match, can_backtrack. rewrite H. reflexivity. Qed.
End Follow.

(** ** C43.  A pattern without special characters matches exactly itself, and
    prefix-matches exactly its prefixes (equality and prefix of strings are those
    of their UTF-8 bytes). *)
Section Literal.
  Variables is_prefix : bool.
  Definition literal_answer (g p : list N) : bool :=
    if is_prefix then match strip_prefix p g with Some _ => true | None => false end
    else teqb g p.
  Lemma literal_loop g : forall pre p0 p star, Forall (fun c => ~ special c) g ->
    gloop (pre ++ g) (p0 ++ p) is_prefix false (S (List.length g)) (mk_gst (List.length p0) (List.length pre) wc0 star) (mk_bs [] None)
      = Ok (literal_answer g p).
  Proof.
    induction g as [|c g IH]; intros pre p0 p star Hs; cbn [gloop].
    - rewrite app_nil_r. destruct p as [|x p].
      + unfold gstep. simpl g_glob. simpl g_path. rewrite app_nil_r, !Nat.ltb_irrefl. cbn. unfold literal_answer.
        destruct is_prefix; reflexivity.
      + unfold gstep. simpl g_glob. simpl g_path. rewrite Nat.ltb_irrefl, app_length. simpl List.length.
        destruct (Nat.ltb_spec (List.length p0) (List.length p0 + S (List.length p))); [|lia]. cbn [orb bind].
        rewrite fail_out by reflexivity. cbn [bind]. unfold give_up, literal_answer. simpl. rewrite app_length. simpl.
        destruct (Nat.eqb_spec (List.length p0) (List.length p0 + S (List.length p))); [lia|]. destruct is_prefix; reflexivity.
    - inversion Hs as [|? ? Hc Hg]; subst.
      rewrite step_arm by (simpl; rewrite app_length; simpl; lia).
      destruct p as [|x p].
      + rewrite (lit_arm _ _ c) by (simpl; auto using nth_middle; congruence). simpl g_path. rewrite app_nil_r, Nat.ltb_irrefl.
        cbn [bind]. rewrite fail_out by reflexivity. cbn [bind]. unfold give_up, literal_answer. simpl.
        rewrite Nat.eqb_refl. destruct is_prefix; reflexivity.
      + rewrite (lit_step _ _ c x) by (simpl; auto using nth_middle). 
        destruct (N.eqb_spec x c) as [->|Hx]; cbn [bind].
        * specialize (IH (pre ++ [c]) (p0 ++ [c]) p). rewrite <- !app_assoc in IH. cbn [app] in IH.
          rewrite !app_length in IH. cbn [List.length] in IH. rewrite !Nat.add_1_r in IH.
          simpl g_path. simpl g_glob. simpl g_wild. rewrite IH by assumption. unfold literal_answer. simpl. rewrite N.eqb_refl.
          reflexivity.
        * rewrite fail_out by reflexivity. cbn [bind]. unfold give_up, literal_answer. simpl. rewrite app_length. simpl.
          destruct (Nat.eqb_spec (List.length p0) (List.length p0 + S (List.length p))); [lia|].
          apply N.eqb_neq in Hx. rewrite Hx, N.eqb_sym, Hx. destruct is_prefix; reflexivity.
  Qed.
End Literal.
Lemma no_bang g i b : (forall r, g <> 33%N :: r) -> leading_bangs g i b = (i, b).
Proof.
  intros H. destruct g as [|c g]; [reflexivity|]. destruct c as [|c]; [reflexivity|].
  repeat (destruct c as [c|c|]; try reflexivity). now specialize (H g).
Qed.
Lemma literal_run is_prefix g p : Forall (fun c => ~ special c) g ->
  glob_run g p is_prefix = Ok (literal_answer is_prefix g p).
Proof.
  intros Hs. apply (glob_run_conv _ _ _ (S (List.length g))).
  - unfold glob_internal. rewrite no_bang.
    + apply (literal_loop is_prefix g [] [] p wc0 Hs).
    + intros r ->. inversion Hs as [|? ? H _]; subst. apply H. unfold special. simpl. auto 10.
  - unfold glob_bits. pose proof (succ_le_pow2 (12 * (8 + (2 * List.length g + List.length p)))). lia.
Qed.
Theorem C43_literal : forall glob path, Forall (fun c => ~ special c) (utf8 glob) ->
  (glob_match glob path = true <-> utf8 glob = utf8 path) /\
  (glob_match_prefix glob path = true <-> exists rest, utf8 glob = utf8 path ++ rest).
Proof.
  intros glob path H. unfold glob_match, glob_match_prefix. rewrite !literal_run by assumption.
  unfold literal_answer. split; [apply teqb_eq|]. split.
  - destruct (strip_prefix (utf8 path) (utf8 glob)) eqn:E; [|discriminate]. intros _.
    apply strip_prefix_app in E. eauto.
  - intros [r ->]. now rewrite strip_prefix_intro.
Qed.
Print Assumptions C43_literal.
Example C43_example : Forall (fun c => ~ special c) (utf8 (tx "tbt,}")) /\ glob_match_prefix (tx "tbt,}") (tx "tb") = true /\
  glob_match_prefix (tx "tbt,}") (tx "tt") = false.
Proof.
  split; [|split; vm_compute; reflexivity]. vm_compute.
  repeat (constructor; [intros H; repeat destruct H as [H|H]; try discriminate; contradiction|]). constructor.
Qed.

(** ** C44.  Patterns of required kinds [c] and optional kinds [{,c}] *)
Inductive item := Required (c : N) | Optional (c : N).
Definition kind (i : item) : N := match i with Required c | Optional c => c end.
Definition render (items : list item) : list N :=
  flat_map (fun i => match i with Required c => [c] | Optional c => [123; 44; c; 125]%N end) items.
(** greedy reading: an optional argument is taken when it is offered *)
Inductive accepts : list item -> list N -> Prop :=
| a_end items : accepts items []
| a_required c items l : accepts items l -> accepts (Required c :: items) (c :: l)
| a_taken c items l : accepts items l -> accepts (Optional c :: items) (c :: l)
| a_absent c x items l : x <> c -> accepts items (x :: l) -> accepts (Optional c :: items) (x :: l).
(** the complete argument lists a pattern describes *)
Inductive complete : list item -> list N -> Prop :=
| c_nil : complete [] []
| c_required c items l : complete items l -> complete (Required c :: items) (c :: l)
| c_given c items l : complete items l -> complete (Optional c :: items) (c :: l)
| c_omitted c items l : complete items l -> complete (Optional c :: items) l.
(** no optional kind could also be what comes right after it *)
Fixpoint firsts (items : list item) : list N :=
  match items with
  | [] => []
  | Required c :: _ => [c]
  | Optional c :: r => c :: firsts r
  end.
Fixpoint unambiguous (items : list item) : Prop :=
  match items with
  | [] => True
  | Required _ :: r => unambiguous r
  | Optional c :: r => ~ In c (firsts r) /\ unambiguous r
  end.

Fixpoint acceptsb (items : list item) (l : list N) {struct l} : bool :=
  match l with
  | [] => true
  | x :: l' =>
    (fix go items := match items with
      | [] => false
      | Required c :: r => (x =? c)%N && acceptsb r l'
      | Optional c :: r => if (x =? c)%N then acceptsb r l' else go r
      end) items
  end.
Lemma acceptsb_nil l : acceptsb [] l = match l with [] => true | _ => false end.
Proof. destruct l; reflexivity. Qed.
Lemma acceptsb_required c r x l : acceptsb (Required c :: r) (x :: l) = ((x =? c)%N && acceptsb r l).
Proof. reflexivity. Qed.
Lemma acceptsb_optional c r x l : acceptsb (Optional c :: r) (x :: l) = if (x =? c)%N then acceptsb r l else acceptsb r (x :: l).
Proof. reflexivity. Qed.
Lemma accepts_iff items : forall l, accepts items l <-> acceptsb items l = true.
Proof.
  induction items as [|i r IH]; intros l.
  - rewrite acceptsb_nil. destruct l; split; intros H; try constructor; try discriminate; inversion H.
  - destruct l as [|x l]; [split; [reflexivity|constructor]|]. destruct i as [c|c].
    + rewrite acceptsb_required. rewrite andb_true_iff, N.eqb_eq, <- IH. split.
      * intros H. inversion H; subst. auto.
      * intros [-> H]. now constructor.
    + rewrite acceptsb_optional. destruct (N.eqb_spec x c) as [->|Hx]; rewrite <- IH; split.
      * intros H. inversion H; subst; [assumption|contradiction].
      * now constructor.
      * intros H. inversion H; subst; [contradiction|assumption].
      * now constructor.
Qed.

Lemma special_eqb c k : ~ special c -> In k [42; 63; 91; 123; 92; 33]%N -> (c =? k)%N = false.
Proof. intros H Hk. apply N.eqb_neq. intros ->. now apply H. Qed.
Lemma plain_eqb c k : plain c -> In k [42; 63; 91; 123; 92; 33; 44; 125; 93]%N -> (c =? k)%N = false.
Proof.
  intros [H1 H2] Hk. apply N.eqb_neq. intros ->. unfold special in H1. simpl in *. intuition.
Qed.
(** an optional item is passed in at most four iterations *)
Lemma optional_steps c r pre p0 x p star : plain c ->
  let glob := pre ++ 123%N :: 44%N :: c :: 125%N :: r in
  let path := p0 ++ x :: p in
  exists n star', n <= 4 /\ forall k,
  gloop glob path true false (n + k) (mk_gst (List.length p0) (List.length pre) wc0 star) (mk_bs [] None) =
  gloop glob path true false k
    (mk_gst (List.length p0 + (if (x =? c)%N then 1 else 0)) (List.length pre + 4) wc0 star') (mk_bs [] None).
Proof.
  intros Hc glob path.
  assert (Hn : forall j d, nth_error (123%N :: 44%N :: c :: 125%N :: r) j = Some d -> nth_error glob (j + List.length pre) = Some d).
  { intros j d H. unfold glob. rewrite nth_error_app2 by lia. now replace (j + List.length pre - List.length pre) with j by lia. }
  assert (Hx : nth_error path (List.length p0) = Some x) by apply nth_middle.
  assert (HG : List.length pre + 4 <= List.length glob) by (unfold glob; rewrite app_length; simpl; lia).
  assert (HP : List.length p0 < List.length path) by (unfold path; rewrite app_length; simpl; lia).
  set (p0l := List.length p0) in *. set (prel := List.length pre) in *.
  set (s0 := mk_gst p0l prel wc0 star).
  assert (E1 : gstep glob path true false s0 (mk_bs [] None) = Ok (GCont (mk_gst p0l (S prel) wc0 wc0) (mk_bs [s0] None))).
  { rewrite step_arm by (simpl; lia). unfold arm, at_. simpl g_glob. rewrite (Hn 0 123%N eq_refl : nth_error glob prel = _).
    simpl g_path. destruct (Nat.ltb_spec p0l (List.length path)); [|lia]. reflexivity. }
  assert (E2 : gstep glob path true false (mk_gst p0l (S prel) wc0 wc0) (mk_bs [s0] None) =
     Ok (GCont (mk_gst p0l (S (S prel)) wc0 wc0) (mk_bs [s0] (Some p0l)))).
  { rewrite step_arm by (simpl; lia). unfold arm, at_. simpl g_glob. rewrite (Hn 1 44%N eq_refl : nth_error glob (S prel) = _).
    simpl g_path. destruct (Nat.ltb_spec p0l (List.length path)); [|lia]. reflexivity. }
  set (st2 := mk_gst p0l (S (S prel)) wc0 wc0). set (bs2 := mk_bs [s0] (Some p0l)).
  assert (Ec : nth_error glob (S (S prel)) = Some c) by (apply (Hn 2 c eq_refl)).
  assert (E3 : arm glob path st2 bs2 = if (x =? c)%N then Ok (GCont (mk_gst (S p0l) (S (S (S prel))) wc0 
      (if (c =? 47)%N then wc0 else wc0)) bs2) else Ok (GFail st2 bs2)).
  { rewrite (lit_arm _ _ c); [| |apply Hc|].
    - simpl g_path. destruct (Nat.ltb_spec p0l (List.length path)); [|lia]. unfold arm_literal, unescape.
      rewrite (plain_eqb c 92 Hc) by (simpl; auto 10). unfold at_. cbn [g_path st2]. rewrite Hx. cbn [bind].
      replace (if (c =? 47)%N then is_sep x else (x =? c)%N) with (x =? c)%N.
      2:{ destruct (N.eqb_spec c 47) as [->|]; reflexivity. }
      destruct (x =? c)%N; [|reflexivity]. cbn [b_stack bs2]. change (g_glob st2) with (S (S prel)). cbn iota beta.
      rewrite (Hn 1 44%N eq_refl : nth_error glob (S prel) = _). cbn [bind]. reflexivity.
    - exact Ec.
    - intros _. pose proof (plain_eqb c 44 Hc ltac:(simpl; auto 10)). pose proof (plain_eqb c 125 Hc ltac:(simpl; auto 10)).
      now rewrite <- !N.eqb_neq. }
  destruct (N.eqb_spec x c) as [->|Hne].
  - assert (E4 : gstep glob path true false (mk_gst (S p0l) (S (S (S prel))) wc0 (if (c =? 47)%N then wc0 else wc0)) bs2 =
      Ok (GCont (mk_gst (S p0l) (S (S (S (S prel)))) wc0 star) (mk_bs [] None))).
    { rewrite step_arm by (simpl; lia). unfold arm, at_. simpl g_glob. rewrite (Hn 3 125%N eq_refl : nth_error glob (S (S (S prel))) = _).
      simpl. now rewrite Nat.max_r by lia. }
    exists 4, star. split; [lia|]. intros k.
    cbn [Nat.add gloop]. fold s0. rewrite E1. cbn [bind]. rewrite E2. cbn [bind]. fold st2. fold bs2.
    rewrite step_arm by (simpl; lia). rewrite E3. cbn [bind]. rewrite E4. cbn [bind].
    f_equal. f_equal; lia.
  - assert (Es : skip_braces (S (List.length glob)) glob true (S (S prel)) 1 false = Ok (BEndBrace, S (S (S (S prel))))).
    { assert (Hone : forall f i b, nth_error glob i = Some b -> skip_braces (S f) glob true i 1 false =
          (if (b =? 123)%N then skip_braces f glob true (S i) 2 false
           else if (b =? 125)%N then skip_braces f glob true (S i) 0 false
           else if (b =? 44)%N then Ok (BComma, S i)
           else if (b =? 42)%N || (b =? 63)%N || (b =? 91)%N then
             skip_braces (S f) glob true i 1 false
           else if (b =? 93)%N then skip_braces f glob true (S i) 1 false
           else if (b =? 92)%N then skip_braces f glob true (S (S i)) 1 false
           else skip_braces f glob true (S i) 1 false)).
      { intros f i b Hb. cbn [skip_braces].
        assert (Nat.ltb i (List.length glob) = true) as -> by (apply Nat.ltb_lt, nth_error_Some; congruence).
        unfold at_. rewrite Hb. cbn [negb orb Nat.eqb bind andb]. rewrite !andb_true_r.
        destruct (b =? 123)%N; [reflexivity|]. destruct (b =? 125)%N; [reflexivity|].
        destruct (b =? 44)%N; [reflexivity|]. destruct (_ || _ || _)%bool; reflexivity. }
      assert (exists g, List.length glob = S g) as [g ->] by (destruct (List.length glob); [lia|eauto]).
      rewrite (Hone (S g) _ c Ec).
      rewrite (plain_eqb c 123 Hc), (plain_eqb c 125 Hc), (plain_eqb c 44 Hc), (plain_eqb c 42 Hc), (plain_eqb c 63 Hc),
        (plain_eqb c 91 Hc), (plain_eqb c 93 Hc), (plain_eqb c 92 Hc) by (simpl; auto 10). cbn [orb].
      rewrite (Hone g (S (S (S prel))) 125%N (Hn 3 125%N eq_refl)). cbn [N.eqb Pos.eqb].
      destruct g; cbn [skip_braces]; rewrite orb_true_r; reflexivity. }
    exists 3, star. split; [lia|]. intros k.
    cbn [Nat.add gloop]. fold s0. rewrite E1. cbn [bind]. rewrite E2. cbn [bind]. fold st2. fold bs2.
    rewrite step_arm by (simpl; lia). rewrite E3. cbn [bind]. unfold no_match. simpl can_backtrack. cbn [b_stack bs2].
    simpl g_glob. rewrite Es. cbn. f_equal. f_equal; lia.
Qed.
Lemma items_loop items : forall pre p0 p star, Forall (fun i => plain (kind i)) items ->
  exists n, n <= 1 + 4 * List.length items /\
  gloop (pre ++ render items) (p0 ++ p) true false n (mk_gst (List.length p0) (List.length pre) wc0 star) (mk_bs [] None)
    = Ok (acceptsb items p).
Proof.
  induction items as [|i r IH]; intros pre p0 p star Hs.
  - exists 1. split; [lia|]. rewrite (literal_loop true []) by constructor. rewrite acceptsb_nil. destruct p; reflexivity.
  - inversion Hs as [|? ? Hi Hr]; subst.
    assert (Hlen : List.length pre < List.length (pre ++ render (i :: r))).
    { rewrite app_length. destruct i; simpl; lia. }
    destruct p as [|x p].
    { (* nothing more is offered *)
      exists 1. split; [lia|]. cbn [gloop]. rewrite step_arm by exact Hlen. rewrite app_nil_r.
      assert (arm (pre ++ render (i :: r)) p0 (mk_gst (List.length p0) (List.length pre) wc0 star) (mk_bs [] None) =
        Ok (GFail (mk_gst (List.length p0) (List.length pre) wc0 star) (mk_bs [] None))) as ->.
      { unfold arm, at_. simpl g_glob. simpl g_path. rewrite Nat.ltb_irrefl.
        destruct i as [c|c]; simpl render; rewrite nth_middle; cbn [bind];
          [rewrite (plain_eqb c 42 Hi) by (simpl; auto 10)|]; rewrite ?andb_false_r; reflexivity. }
      cbn [bind]. rewrite fail_out by reflexivity. cbn [bind]. unfold give_up. simpl. now rewrite Nat.eqb_refl. }
    destruct i as [c|c]; simpl kind in Hi.
    + rewrite acceptsb_required. simpl render. destruct Hi as [Hi1 Hi2].
      destruct (N.eqb_spec x c) as [->|Hx].
      * destruct (IH (pre ++ [c]) (p0 ++ [c]) p (if (c =? 47)%N then star else mk_wc (w_glob star) 0) Hr) as (n & Hn & E).
        exists (S n). split; [simpl; lia|]. cbn [gloop]. rewrite step_arm by exact Hlen.
        rewrite (lit_step _ _ c c) by (simpl; auto using nth_middle). rewrite N.eqb_refl. cbn [bind].
        simpl g_path. simpl g_glob. simpl g_wild. simpl g_star. cbn [andb].
        rewrite <- !app_assoc in E. cbn [app] in E. rewrite !app_length in E. cbn [List.length] in E.
        rewrite !Nat.add_1_r in E. exact E.
      * exists 1. split; [lia|]. cbn [gloop]. rewrite step_arm by exact Hlen.
        rewrite (lit_step _ _ c x) by (simpl; auto using nth_middle). apply N.eqb_neq in Hx. rewrite Hx. cbn [bind].
        rewrite fail_out by reflexivity. cbn [bind andb]. unfold give_up. simpl. rewrite app_length. simpl.
        destruct (Nat.eqb_spec (List.length p0) (List.length p0 + S (List.length p))); [lia|]. reflexivity.
    + rewrite acceptsb_optional.
      change (render (Optional c :: r)) with (123%N :: 44%N :: c :: 125%N :: render r).
      destruct (optional_steps c (render r) pre p0 x p star Hi) as (n1 & star' & Hn1 & E1). cbv zeta in E1.
      destruct (N.eqb_spec x c) as [->|Hx].
      * destruct (IH (pre ++ [123; 44; c; 125]%N) (p0 ++ [c]) p star' Hr) as (n & Hn & E).
        exists (n1 + n). split; [simpl; lia|]. rewrite E1.
        rewrite <- !app_assoc in E. cbn [app] in E. rewrite !app_length in E. cbn [List.length] in E. exact E.
      * destruct (IH (pre ++ [123; 44; c; 125]%N) p0 (x :: p) star' Hr) as (n & Hn & E).
        exists (n1 + n). split; [simpl; lia|]. rewrite E1, Nat.add_0_r.
        rewrite <- !app_assoc in E. cbn [app] in E. rewrite !app_length in E. cbn [List.length] in E. exact E.
Qed.
Theorem C44_greedy : forall pattern items path, utf8 pattern = render items -> Forall (fun i => plain (kind i)) items ->
  (glob_match_prefix pattern path = true <-> accepts items (utf8 path)).
Proof.
  intros pattern items path Hp Hi. rewrite accepts_iff. unfold glob_match_prefix. rewrite Hp.
  destruct (items_loop items [] [] (utf8 path) wc0 Hi) as (n & Hn & E). cbn [app List.length] in E.
  rewrite (glob_run_conv _ _ _ n (acceptsb items (utf8 path))); [reflexivity| |].
  - unfold glob_internal. rewrite no_bang; [exact E|]. intros r Hr. destruct items as [|[c|c] items]; try discriminate.
    injection Hr as -> _. inversion Hi as [|? ? [H _] _]; subst. apply H. unfold special. simpl. auto 10.
  - assert (List.length items <= List.length (render items)).
    { clear. induction items as [|[c|c] r IH]; simpl; lia. }
    unfold glob_bits. pose proof (succ_le_pow2 (12 * (8 + (2 * List.length (render items) + List.length (utf8 path))))). lia.
Qed.
Print Assumptions C44_greedy.
(** For unambiguous patterns: exactly the prefixes of the described lists *)
Lemma complete_firsts items l x r : complete items l -> l = x :: r -> In x (firsts items).
Proof. induction 1; intros E; simpl; try discriminate; try (injection E as -> _; now left). auto. Qed.
Theorem C44_optional : forall pattern items path, utf8 pattern = render items ->
  Forall (fun i => plain (kind i)) items -> unambiguous items ->
  (glob_match_prefix pattern path = true <-> exists rest, complete items (utf8 path ++ rest)).
Proof.
  intros pattern items path Hp Hi Hu. rewrite (C44_greedy _ _ _ Hp Hi). clear Hp Hi pattern.
  generalize (utf8 path). clear path. induction items as [|i r IH]; intros l.
  - split; [intros H; inversion H; exists []; constructor|]. intros [rest H]. inversion H.
    destruct l; [constructor|discriminate].
  - split.
    + intros H. inversion H as [|c its l' H'|c its l' H'|c x its l' Hne H']; subst; simpl in Hu.
      * assert (exists w, complete (i :: r) w) as [w Hw]; [|now exists w].
        clear. induction (i :: r) as [|[c|c] its [w IHw]]; [exists []; constructor|exists (c :: w); now constructor|exists (c :: w); now constructor].
      * apply IH in H' as [rest H']; [|assumption]. exists rest. simpl. now constructor.
      * apply IH in H' as [rest H']; [|apply Hu]. exists rest. simpl. now constructor.
      * apply IH in H' as [rest H']; [|apply Hu]. exists rest. now apply c_omitted.
    + intros [rest H]. destruct l as [|x l]; [constructor|]. inversion H as [|c its l' H' |c its l' H'|c its l' H']; subst; simpl in Hu.
      * constructor. apply IH; eauto.
      * constructor. apply IH; [apply Hu|eauto].
      * assert (x <> c). { intros ->. apply (proj1 Hu). eapply complete_firsts; [exact H'|reflexivity]. }
        apply a_absent; [assumption|]. apply IH; [apply Hu|eauto].
Qed.
Print Assumptions C44_optional.
(** All glob patterns of the built-in specification are of this kind: [{,b}],
    [{,b}t] and [{,b}tt] accept exactly the prefixes of: an optional bracket
    and the given number of terms. *)
Definition pattern_of (it : spec_item) : option text :=
  match it with
  | SICmd c => match cs_args c with SRight (PGlob p) => Some p | _ => None end
  | SIEnv v => match en_args v with PGlob p => Some p | _ => None end
  end.
Definition bracket_then (n : nat) : list item := Optional 98%N :: repeat (Required 116%N) n.
Theorem C44_builtin : forall name it p, DEFAULT_SPEC name = Some it -> pattern_of it = Some p ->
  exists n, utf8 p = render (bracket_then n) /\
  forall path, glob_match_prefix p path = true <->
    exists k, k <= n /\ (utf8 path = repeat 116%N k \/ utf8 path = 98%N :: repeat 116%N k).
Proof.
  assert (Hall : forallb (fun e => match pattern_of (snd e) with
     | Some p => teqb p (tx "{,b}") || teqb p (tx "{,b}t") || teqb p (tx "{,b}tt") | None => true end) default_items = true)
    by (vm_compute; reflexivity).
  intros name it p Hin Hp. unfold DEFAULT_SPEC, spec_of in Hin.
  assert (In (name, it) default_items) as Hi.
  { revert Hin. clear. induction default_items as [|[k v] l IH]; simpl; [discriminate|].
    destruct (teqb name k) eqn:E; [apply teqb_eq in E; intros [= <-]; subst; auto|auto]. }
  rewrite forallb_forall in Hall. specialize (Hall _ Hi). simpl in Hall. rewrite Hp in Hall.
  assert (exists n, utf8 p = render (bracket_then n)) as [n Hn].
  { apply orb_true_iff in Hall as [Hall|Hall]; [apply orb_true_iff in Hall as [Hall|Hall]|]; apply teqb_eq in Hall; subst p.
    - now exists 0.
    - now exists 1.
    - now exists 2. }
  exists n. split; [exact Hn|]. intros path.
  assert (Hpl : Forall (fun i => plain (kind i)) (bracket_then n)).
  { assert (plain 98 /\ plain 116) as [H1 H2].
    { split; split; intros H; repeat destruct H as [H|H]; try discriminate; contradiction. }
    constructor; [exact H1|]. clear -H2. induction n; simpl; constructor; auto. }
  assert (Hu : unambiguous (bracket_then n)).
  { simpl. split; [destruct n; simpl; [tauto|intros [H|[]]; discriminate]|]. clear. induction n; simpl; auto. }
  rewrite (C44_optional p (bracket_then n) path Hn Hpl Hu).
  assert (Hr : forall m l, complete (repeat (Required 116%N) m) l <-> l = repeat 116%N m).
  { clear. induction m as [|m IH]; intros l; simpl.
    - split; [now inversion 1|intros ->; constructor].
    - split; [inversion 1; subst; f_equal; now apply IH|intros ->; constructor; now apply IH]. }
  assert (Hs : forall m l, (exists rest, l ++ rest = repeat 116%N m) <-> exists k, k <= m /\ l = repeat 116%N k).
  { clear. induction m as [|m IH]; intros l; simpl.
    - split; [intros [rest H]; apply app_eq_nil in H as [-> _]; exists 0; auto|].
      intros (k & Hk & ->). assert (k = 0) as -> by lia. now exists [].
    - split.
      + intros [rest H]. destruct l as [|x l]; [exists 0; split; [lia|reflexivity]|]. injection H as -> H.
        destruct (proj1 (IH l)) as (k & Hk & ->); [eauto|]. exists (S k). split; [lia|reflexivity].
      + intros ([|k] & Hk & ->); [exists (116%N :: repeat 116%N m); reflexivity|].
        destruct (proj2 (IH (repeat 116%N k))) as [rest H]; [exists k; split; [lia|reflexivity]|].
        exists rest. simpl. now rewrite H. }
  split.
  - intros [rest H]. unfold bracket_then in H. inversion H as [| |c its l' H' E1 E2|c its l' H' E1 E2]; subst.
    + destruct (utf8 path) as [|x l]; [exists 0; split; [lia|auto]|]. injection E2 as <- ->.
      apply Hr in H'. destruct (proj1 (Hs n l)) as (k & Hk & ->); [eauto|]. eauto.
    + apply Hr in H'. destruct (proj1 (Hs n (utf8 path))) as (k & Hk & ->); [eauto|]. eauto.
  - intros (k & Hk & [-> | ->]).
    + destruct (proj2 (Hs n (repeat 116%N k))) as [rest H]; [eauto|]. exists rest. apply c_omitted. now apply Hr.
    + destruct (proj2 (Hs n (repeat 116%N k))) as [rest H]; [eauto|]. exists rest. simpl. apply c_given. now apply Hr.
Qed.
Print Assumptions C44_builtin.
Example C44_example : exists it, DEFAULT_SPEC (tx "sqrt") = Some it /\ pattern_of it = Some (tx "{,b}t").
Proof. eexists. split; vm_compute; reflexivity. Qed.

(** ** C47.  A pattern with braces should match iff some choice of alternatives
    does.  It does not: [{,b}b] would match [b] by the empty alternative;
    [{a{b}c,d}] would match [abc]; and [{a{b}x,c}d] matches [abd], which no choice
    gives. *)
Theorem C47_refuted :
  glob_match (tx "{,b}b") (tx "b") = false /\ glob_match (tx "b") (tx "b") = true /\
  glob_match (tx "{a{b}c,d}") (tx "abc") = false /\ glob_match (tx "abc") (tx "abc") = true /\
  glob_match (tx "{a{b}x,c}d") (tx "abd") = true /\
  glob_match (tx "abxd") (tx "abd") = false /\ glob_match (tx "cd") (tx "abd") = false.
Proof. repeat split; vm_compute; reflexivity. Qed.
Print Assumptions C47_refuted.
