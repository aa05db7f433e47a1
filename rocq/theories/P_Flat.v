(** C47, the positive part: patterns of literals and flat brace groups.  The
    matcher takes, at every group, the longest alternative that fits; hence it
    does try every choice when no alternative of a group is a prefix of another. *)
From Verif Require Import Base BaseFacts Glob GlobFacts P_Glob.
From Coq Require Import List NArith Lia Bool.
Import ListNotations.
Local Open Scope nat_scope.

(* ------------------------------------------------------------------ *)
(** * Specification *)

(** a literal byte, or a group of alternatives *)
Inductive piece := Lit (c : N) | Alt (alts : list (list N)).
Fixpoint commas (alts : list (list N)) : list N :=
  match alts with
  | [] => []
  | [a] => a
  | a :: r => a ++ [44%N] ++ commas r
  end.
Definition written (ps : list piece) : list N :=
  flat_map (fun p => match p with Lit c => [c] | Alt alts => [123%N] ++ commas alts ++ [125%N] end) ps.
(** literals only, at least one alternative *)
Definition flat (p : piece) : Prop :=
  match p with Lit c => plain c | Alt alts => alts <> [] /\ Forall (Forall plain) alts end.

(** some choice of alternatives gives [l] *)
Inductive chosen : list piece -> list N -> Prop :=
| ch_nil : chosen [] []
| ch_lit c ps l : chosen ps l -> chosen (Lit c :: ps) (c :: l)
| ch_alt alts a ps l : In a alts -> chosen ps l -> chosen (Alt alts :: ps) (a ++ l).

(** [a] is the longest of the alternatives that [l] begins with *)
Definition longest (alts : list (list N)) (a l : list N) : Prop :=
  In a alts /\ (exists r, l = a ++ r) /\
  forall b r, In b alts -> l = b ++ r -> List.length b <= List.length a.
(** what the matcher does: at every group it takes the longest alternative, and
    a group is not entered at the end of the path.  [whole]: the pattern must be
    used up too. *)
Inductive greedy (whole : bool) : list piece -> list N -> Prop :=
| gr_nil : greedy whole [] []
| gr_stop ps : whole = false -> greedy whole ps []
| gr_lit c ps l : greedy whole ps l -> greedy whole (Lit c :: ps) (c :: l)
| gr_alt alts a ps l : a ++ l <> [] -> longest alts a (a ++ l) -> greedy whole ps l ->
    greedy whole (Alt alts :: ps) (a ++ l).
(** no alternative is a prefix of a different one *)
Definition prefix_free (p : piece) : Prop :=
  match p with
  | Lit _ => True
  | Alt alts => ~ In [] alts /\ forall a b r, In a alts -> In b alts -> b = a ++ r -> r = []
  end.

(* ------------------------------------------------------------------ *)
(** * The matcher on such patterns *)

Lemma steps_app glob path ip neg n m st bs st1 bs1 o :
  steps glob path ip neg n st bs = Some (st1, bs1) -> steps glob path ip neg m st1 bs1 = o ->
  steps glob path ip neg (n + m) st bs = o.
Proof.
  revert st bs. induction n as [|n IH]; intros st bs H1 H2; cbn [steps] in H1.
  - injection H1 as <- <-. exact H2.
  - cbn [Nat.add steps]. destruct (gstep _ _ _ _ st bs) as [[b|a c|a c]| |]; try discriminate H1. eapply IH; eassumption.
Qed.

(** skipping the rest of an alternative *)
Lemma skip_one glob f i b : nth_error glob i = Some b -> plain b ->
  skip_braces (S f) glob true i 1 false = skip_braces f glob true (S i) 1 false.
Proof.
  intros Hb Hp. cbn [skip_braces].
  assert (Nat.ltb i (List.length glob) = true) as -> by (apply Nat.ltb_lt, nth_error_Some; congruence).
  unfold at_. rewrite Hb. cbn [negb orb Nat.eqb bind].
  rewrite (plain_eqb b 123 Hp), (plain_eqb b 125 Hp), (plain_eqb b 44 Hp), (plain_eqb b 42 Hp), (plain_eqb b 63 Hp),
        (plain_eqb b 91 Hp), (plain_eqb b 93 Hp), (plain_eqb b 92 Hp) by (simpl; auto 10). reflexivity.
Qed.
Lemma skip_plain a : forall pre suf f, Forall plain a ->
  skip_braces (List.length a + f) (pre ++ a ++ suf) true (List.length pre) 1 false =
  skip_braces f (pre ++ a ++ suf) true (List.length pre + List.length a) 1 false.
Proof.
  induction a as [|c a IH]; intros pre suf f H.
  - simpl. now rewrite Nat.add_0_r.
  - inversion H as [|? ? Hc Ha]; subst. cbn [List.length Nat.add].
    rewrite (skip_one _ _ _ c) by (auto; apply P_Glob.nth_middle).
    specialize (IH (pre ++ [c]) suf f Ha). rewrite <- app_assoc in IH. cbn [app] in *.
    rewrite app_length in IH. cbn [List.length] in IH. rewrite Nat.add_1_r in IH. rewrite IH.
    f_equal. lia.
Qed.
Lemma skip_comma pre a suf : Forall plain a ->
  let glob := pre ++ a ++ 44%N :: suf in
  skip_braces (S (List.length glob)) glob true (List.length pre) 1 false =
  Ok (BComma, S (List.length pre + List.length a)).
Proof.
  intros H glob. assert (S (List.length glob) = List.length a + S (S (List.length pre + List.length suf))) as ->.
  { unfold glob. rewrite !app_length. simpl. lia. }
  unfold glob. rewrite skip_plain by assumption. cbn [skip_braces].
  rewrite app_assoc. rewrite <- app_length.
  assert (Nat.ltb (List.length (pre ++ a)) (List.length ((pre ++ a) ++ 44%N :: suf)) = true) as ->.
  { apply Nat.ltb_lt. rewrite (app_length (pre ++ a)). simpl. lia. }
  unfold at_. rewrite P_Glob.nth_middle. reflexivity.
Qed.
Lemma skip_end pre a suf : Forall plain a ->
  let glob := pre ++ a ++ 125%N :: suf in
  skip_braces (S (List.length glob)) glob true (List.length pre) 1 false =
  Ok (BEndBrace, S (List.length pre + List.length a)).
Proof.
  intros H glob. assert (S (List.length glob) = List.length a + S (S (List.length pre + List.length suf))) as ->.
  { unfold glob. rewrite !app_length. simpl. lia. }
  unfold glob. rewrite skip_plain by assumption. cbn [skip_braces].
  rewrite app_assoc. rewrite <- app_length.
  assert (Nat.ltb (List.length (pre ++ a)) (List.length ((pre ++ a) ++ 125%N :: suf)) = true) as ->.
  { apply Nat.ltb_lt. rewrite (app_length (pre ++ a)). simpl. lia. }
  unfold at_. rewrite P_Glob.nth_middle. cbn [bind N.eqb Pos.eqb negb orb andb Nat.eqb Nat.sub skip_braces].
  rewrite orb_true_r. reflexivity.
Qed.

Section Group.
  Variables (glob path : list N) (ip : bool).
  Variable top : gstate.
  Hypothesis top_wild : g_wild top = wc0.
  Notation step := (gstep glob path ip false).
  Notation run := (steps glob path ip false).

  (** a literal of an alternative *)
  Lemma in_literal c d pre suf p star L : glob = pre ++ d :: c :: suf -> plain c -> d <> 125%N ->
    let st := mk_gst p (S (List.length pre)) wc0 star in
    step st (mk_bs [top] L) =
      match nth_error path p with
      | Some x => if (x =? c)%N then Ok (GCont (mk_gst (S p) (S (S (List.length pre))) wc0
                        (if (c =? 47)%N then star else mk_wc (w_glob star) 0)) (mk_bs [top] L))
                  else no_match glob path ip false st (mk_bs [top] L)
      | None => no_match glob path ip false st (mk_bs [top] L)
      end.
  Proof.
    intros Eg Hc Hd st.
    assert (En : nth_error glob (S (List.length pre)) = Some c).
    { subst glob. replace (pre ++ d :: c :: suf) with ((pre ++ [d]) ++ c :: suf) by (now rewrite <- app_assoc).
      replace (S (List.length pre)) with (List.length (pre ++ [d])) by (rewrite app_length; simpl; lia). apply P_Glob.nth_middle. }
    assert (Ed : nth_error glob (List.length pre) = Some d) by (subst glob; apply P_Glob.nth_middle).
    assert (Hl : S (List.length pre) < List.length glob) by (apply nth_error_Some; congruence).
    rewrite step_arm by exact Hl.
    rewrite (lit_arm _ _ c).
    2: exact En. 2: apply Hc.
    2:{ intros _. pose proof (plain_eqb c 44 Hc ltac:(simpl; auto 10)). pose proof (plain_eqb c 125 Hc ltac:(simpl; auto 10)).
        now rewrite <- !N.eqb_neq. }
    change (g_path st) with p. destruct (nth_error path p) as [x|] eqn:Ex.
    - assert (p < List.length path) as Hp by (apply nth_error_Some; congruence).
      destruct (Nat.ltb_spec p (List.length path)); [|lia].
      unfold arm_literal, unescape. rewrite (plain_eqb c 92 Hc) by (simpl; auto 10).
      unfold at_ at 1. change (g_path st) with p. cbn [g_path]. rewrite Ex. cbn [bind].
      replace (if (c =? 47)%N then is_sep x else (x =? c)%N) with (x =? c)%N.
      2:{ destruct (N.eqb_spec c 47) as [->|]; reflexivity. }
      destruct (x =? c)%N; [|reflexivity]. cbn [b_stack]. change (g_glob st) with (S (List.length pre)). cbn iota beta.
      unfold at_. rewrite Ed. cbn [bind]. apply N.eqb_neq in Hd. rewrite Hd. reflexivity.
    - apply nth_error_None in Ex. destruct (Nat.ltb_spec p (List.length path)); [lia|]. reflexivity.
  Qed.
  (** an alternative that fits *)
  Lemma alt_fits a : forall d pre suf p0 l star L, glob = pre ++ d :: a ++ suf -> path = p0 ++ a ++ l ->
    Forall plain a -> d <> 125%N ->
    exists star', run (List.length a) (mk_gst (List.length p0) (S (List.length pre)) wc0 star) (mk_bs [top] L) =
      Some (mk_gst (List.length p0 + List.length a) (S (List.length pre + List.length a)) wc0 star', mk_bs [top] L).
  Proof.
    induction a as [|c a IH]; intros d pre suf p0 l star L Eg Ep Ha Hd.
    - exists star. simpl. now rewrite !Nat.add_0_r.
    - apply Forall_cons_iff in Ha as [Hc Ha']. cbn [List.length steps].
      rewrite (in_literal c d pre (a ++ suf)) by assumption.
      assert (nth_error path (List.length p0) = Some c) as -> by (rewrite Ep; apply P_Glob.nth_middle).
      rewrite N.eqb_refl.
      destruct (IH c (pre ++ [d]) suf (p0 ++ [c]) l (if (c =? 47)%N then star else mk_wc (w_glob star) 0) L) as (star' & E).
      + rewrite <- app_assoc. exact Eg.
      + rewrite <- app_assoc. exact Ep.
      + assumption.
      + intros ->. pose proof (plain_eqb _ 125 Hc ltac:(simpl; auto 10)). discriminate.
      + exists star'. rewrite !app_length in E. cbn [List.length] in E. rewrite !Nat.add_1_r in E.
        rewrite E. f_equal. f_equal. f_equal; lia.
  Qed.
  (** an alternative that does not: it is left at its first byte that differs *)
  Lemma alt_differs a : forall d pre suf p0 l star L, glob = pre ++ d :: a ++ suf -> path = p0 ++ l ->
    Forall plain a -> d <> 125%N -> (forall r, l <> a ++ r) ->
    exists a1 a2 star' p', a = a1 ++ a2 /\ a2 <> [] /\
      (let st := mk_gst p' (S (List.length pre + List.length a1)) wc0 star' in
       run (List.length a1) (mk_gst (List.length p0) (S (List.length pre)) wc0 star) (mk_bs [top] L) = Some (st, mk_bs [top] L) /\
       step st (mk_bs [top] L) = no_match glob path ip false st (mk_bs [top] L)).
  Proof.
    induction a as [|c a IH]; intros d pre suf p0 l star L Eg Ep Ha Hd Hn.
    - exfalso. exact (Hn l eq_refl).
    - apply Forall_cons_iff in Ha as [Hc Ha'].
      assert (Hcase : (exists l', l = c :: l') \/ step (mk_gst (List.length p0) (S (List.length pre)) wc0 star) (mk_bs [top] L) =
                no_match glob path ip false (mk_gst (List.length p0) (S (List.length pre)) wc0 star) (mk_bs [top] L)).
      { rewrite (in_literal c d pre (a ++ suf)) by assumption. rewrite Ep. destruct l as [|x l].
        - right. rewrite app_nil_r. now rewrite (proj2 (nth_error_None p0 _) (le_n _)).
        - rewrite P_Glob.nth_middle. destruct (N.eqb_spec x c) as [->|]; [left; eauto|right; reflexivity]. }
      destruct Hcase as [(l' & ->)|Hs].
      + destruct (IH c (pre ++ [d]) suf (p0 ++ [c]) l' (if (c =? 47)%N then star else mk_wc (w_glob star) 0) L)
          as (a1 & a2 & star' & p' & E & N & E1 & E2).
        * rewrite <- app_assoc. exact Eg.
        * rewrite <- app_assoc. exact Ep.
        * assumption.
        * intros ->. pose proof (plain_eqb _ 125 Hc ltac:(simpl; auto 10)). discriminate.
        * intros r ->. exact (Hn r eq_refl).
        * assert (Hl1 : List.length (pre ++ [d]) = S (List.length pre)) by (rewrite app_length; simpl; lia).
          assert (Hl2 : List.length (p0 ++ [c]) = S (List.length p0)) by (rewrite app_length; simpl; lia).
          rewrite ?Hl1, ?Hl2 in E1. rewrite ?Hl1, ?Hl2 in E2.
          exists (c :: a1), a2, star', p'. split; [now rewrite E|]. split; [assumption|].
          cbv zeta. cbn [List.length]. rewrite Nat.add_succ_r. cbn [Nat.add] in E1, E2. split; [|exact E2].
          cbn [steps]. rewrite (in_literal c d pre (a ++ suf)) by assumption. rewrite Ep, P_Glob.nth_middle, N.eqb_refl. 
          rewrite <- Ep. exact E1.
      + exists [], (c :: a), star, (List.length p0). split; [reflexivity|]. split; [discriminate|].
        cbv zeta. cbn [List.length]. rewrite Nat.add_0_r. split; [reflexivity|exact Hs].
  Qed.
  (** the longest match after trying the alternatives from path index [p] *)
  Fixpoint best (p : nat) (l : list N) (alts : list (list N)) (L : option nat) : option nat :=
    match alts with
    | [] => L
    | a :: r => best p l r (match strip_prefix a l with Some _ => opt_max L (p + List.length a) | None => L end)
    end.
  Lemma best_cons p l a r L : best p l (a :: r) L =
    best p l r (match strip_prefix a l with Some _ => opt_max L (p + List.length a) | None => L end).
  Proof. reflexivity. Qed.
  Lemma not_prefix a (l : list N) : strip_prefix a l = None -> forall r, l <> a ++ r.
  Proof. intros H r ->. rewrite strip_prefix_intro in H. discriminate. Qed.
  Lemma pop_top st l : bs_pop st (mk_bs [top] (Some l)) = Ok (mk_gst l (g_glob st) wc0 (g_star top), mk_bs [] None).
  Proof. unfold bs_pop. simpl. now rewrite top_wild. Qed.

  Lemma alts_run alts : forall a d pre suf p0 l star L,
    glob = pre ++ d :: commas (a :: alts) ++ 125%N :: suf -> path = p0 ++ l ->
    g_path top = List.length p0 -> Forall (Forall plain) (a :: alts) -> d <> 125%N ->
    let len := List.length (commas (a :: alts)) in
    let st := mk_gst (List.length p0) (S (List.length pre)) wc0 star in
    exists n, n <= S len /\
    match best (List.length p0) l (a :: alts) L with
    | Some m => run n st (mk_bs [top] L) =
        Some (mk_gst m (List.length pre + len + 2) wc0 (g_star top), mk_bs [] None)
    | None => gloop glob path ip false n st (mk_bs [top] L) = Ok (give_up path ip false top)
    end.
  Proof.
    induction alts as [|b alts IH]; intros a d pre suf p0 l star L Eg Ep Et Ha Hd len st.
    - (* the last alternative *)
      cbn [commas] in Eg, len. apply Forall_cons_iff in Ha as [Ha1 _]. cbn [best].
      destruct (strip_prefix a l) as [r|] eqn:E.
      + apply strip_prefix_app in E. subst l.
        destruct (alt_fits a d pre (125%N :: suf) p0 r star L Eg Ep Ha1 Hd) as (star' & R).
        exists (List.length a + 1). split; [unfold len; lia|]. cbn [opt_max].
        eapply steps_app; [exact R|]. cbn [steps].
        assert (En : nth_error glob (S (List.length pre + List.length a)) = Some 125%N).
        { rewrite Eg. replace (pre ++ d :: a ++ 125%N :: suf) with ((pre ++ d :: a) ++ 125%N :: suf) by (now rewrite <- app_assoc).
          replace (S (List.length pre + List.length a)) with (List.length (pre ++ d :: a)) by (rewrite app_length; simpl; lia).
          apply P_Glob.nth_middle. }
        rewrite step_arm by (cbn [g_glob]; apply nth_error_Some; congruence).
        unfold arm, at_. cbn [g_glob]. rewrite En. cbn [bind N.eqb Pos.eqb andb b_stack b_longest].
        unfold opt_max at 1. rewrite pop_top. cbn [bind g_glob g_path]. do 3 f_equal; unfold len; lia.
      + destruct (alt_differs a d pre (125%N :: suf) p0 l star L Eg Ep Ha1 Hd (not_prefix _ _ E))
          as (a1 & a2 & star' & p' & Ea & Na & R & S1). cbv zeta in R, S1.
        assert (Hlt : List.length a1 < List.length a) by (rewrite Ea, app_length; destruct a2; [congruence|simpl; lia]).
        assert (Sk : skip_braces (S (List.length glob)) glob true (S (List.length pre + List.length a1)) 1 false =
                  Ok (BEndBrace, S (S (List.length pre + List.length a)))).
        { pose proof (skip_end (pre ++ d :: a1) a2 suf) as K. cbv zeta in K.
          replace ((pre ++ d :: a1) ++ a2 ++ 125%N :: suf) with glob in K.
          2:{ rewrite Eg, Ea, <- !app_assoc. reflexivity. }
          rewrite !app_length in K. cbn [List.length] in K. rewrite Nat.add_succ_r in K. rewrite K.
          - do 3 f_equal. rewrite Ea, app_length. lia.
          - rewrite Ea in Ha1. now apply Forall_app in Ha1. }
        exists (List.length a1 + 1). split; [unfold len; lia|].
        destruct L as [m|].
        * eapply steps_app; [exact R|]. cbn [steps]. rewrite S1. unfold no_match, can_backtrack.
          cbn [g_wild w_path Nat.ltb Nat.leb andb b_stack g_glob wc0]. rewrite Sk. cbn [bind b_longest].
          rewrite pop_top. cbn [bind g_glob]. do 2 f_equal. f_equal. unfold len. lia.
        * unfold st. rewrite (steps_loop _ _ _ _ _ _ _ _ _ 1 R). cbn [gloop]. rewrite S1. unfold no_match, can_backtrack.
          cbn [g_wild w_path Nat.ltb Nat.leb andb b_stack g_glob wc0]. rewrite Sk. cbn [bind b_longest].
          rewrite top_wild. reflexivity.
    - (* another one follows *)
      cbn [commas] in Eg. apply Forall_cons_iff in Ha as [Ha1 Ha2].
      assert (El : len = List.length a + 1 + List.length (commas (b :: alts))).
      { unfold len. cbn [commas]. rewrite !app_length. simpl. lia. }
      assert (Eg2 : glob = pre ++ d :: a ++ 44%N :: commas (b :: alts) ++ 125%N :: suf).
      { rewrite Eg. rewrite <- !app_assoc. reflexivity. }
      assert (Eg3 : glob = (pre ++ d :: a) ++ 44%N :: commas (b :: alts) ++ 125%N :: suf).
      { rewrite Eg2. now rewrite <- app_assoc. }
      assert (Hl : List.length (pre ++ d :: a) = S (List.length pre + List.length a)) by (rewrite app_length; simpl; lia).
      rewrite best_cons. destruct (strip_prefix a l) as [r|] eqn:E.
      + pose proof E as E'. apply strip_prefix_app in E'.
        assert (Ep' : path = p0 ++ a ++ r) by (now rewrite <- E').
        destruct (alt_fits a d pre (44%N :: commas (b :: alts) ++ 125%N :: suf) p0 r star L Eg2 Ep' Ha1 Hd) as (star' & R).
        destruct (IH b 44%N (pre ++ d :: a) suf p0 l wc0 (opt_max L (List.length p0 + List.length a)) Eg3 Ep Et Ha2) as (n & Hn & Q).
        { discriminate. }
        exists (List.length a + (1 + n)). split; [lia|].
        assert (R1 : run (List.length a + 1) st (mk_bs [top] L) = Some (mk_gst (List.length p0) (S (List.length (pre ++ d :: a))) wc0 wc0,
                        mk_bs [top] (opt_max L (List.length p0 + List.length a)))).
        { eapply steps_app; [exact R|]. cbn [steps].
          assert (En : nth_error glob (S (List.length pre + List.length a)) = Some 44%N).
          { rewrite Eg3, <- Hl. apply P_Glob.nth_middle. }
          rewrite step_arm by (cbn [g_glob]; apply nth_error_Some; congruence).
          unfold arm, at_. cbn [g_glob]. rewrite En. cbn [bind N.eqb Pos.eqb andb b_stack b_longest bs_last g_path].
          rewrite Et, Hl. reflexivity. }
        destruct (best _ l (b :: alts) _) as [m|].
        * rewrite Nat.add_assoc. eapply steps_app; [exact R1|]. rewrite Q. do 3 f_equal. lia.
        * rewrite Nat.add_assoc. unfold st in *. now rewrite (steps_loop _ _ _ _ _ _ _ _ _ n R1).
      + destruct (alt_differs a d pre (44%N :: commas (b :: alts) ++ 125%N :: suf) p0 l star L Eg2 Ep Ha1 Hd (not_prefix _ _ E))
          as (a1 & a2 & star' & p' & Ea & Na & R & S1). cbv zeta in R, S1.
        assert (Hlt : List.length a1 < List.length a) by (rewrite Ea, app_length; destruct a2; [congruence|simpl; lia]).
        assert (Sk : skip_braces (S (List.length glob)) glob true (S (List.length pre + List.length a1)) 1 false =
                  Ok (BComma, S (S (List.length pre + List.length a)))).
        { pose proof (skip_comma (pre ++ d :: a1) a2 (commas (b :: alts) ++ 125%N :: suf)) as K. cbv zeta in K.
          replace ((pre ++ d :: a1) ++ a2 ++ 44%N :: commas (b :: alts) ++ 125%N :: suf) with glob in K.
          2:{ rewrite Eg2, Ea, <- !app_assoc. reflexivity. }
          rewrite !app_length in K. cbn [List.length] in K. rewrite Nat.add_succ_r in K. rewrite K.
          - do 3 f_equal. rewrite Ea, app_length. lia.
          - rewrite Ea in Ha1. now apply Forall_app in Ha1. }
        destruct (IH b 44%N (pre ++ d :: a) suf p0 l star' L Eg3 Ep Et Ha2) as (n & Hn & Q).
        { discriminate. }
        assert (R1 : run (List.length a1 + 1) st (mk_bs [top] L) = Some (mk_gst (List.length p0) (S (List.length (pre ++ d :: a))) wc0 star',
                        mk_bs [top] L)).
        { eapply steps_app; [exact R|]. cbn [steps]. rewrite S1. unfold no_match, can_backtrack.
          cbn [g_wild w_path Nat.ltb Nat.leb andb b_stack g_glob wc0]. rewrite Sk. cbn [bind g_star g_wild].
          rewrite Et, Hl. reflexivity. }
        exists (List.length a1 + 1 + n). split; [lia|].
        destruct (best _ l (b :: alts) _) as [m|].
        * eapply steps_app; [exact R1|]. rewrite Q. do 3 f_equal. lia.
        * unfold st in *. now rewrite (steps_loop _ _ _ _ _ _ _ _ _ n R1).
  Qed.
End Group.

(** the group as a whole *)
Lemma group_run alts : forall ip pre suf p0 l star, alts <> [] -> Forall (Forall plain) alts -> l <> [] ->
  let glob := pre ++ [123%N] ++ commas alts ++ [125%N] ++ suf in
  let path := p0 ++ l in
  let st := mk_gst (List.length p0) (List.length pre) wc0 star in
  exists n, n <= List.length (commas alts) + 2 /\
  match best (List.length p0) l alts None with
  | Some m => steps glob path ip false n st (mk_bs [] None) =
      Some (mk_gst m (List.length pre + List.length (commas alts) + 2) wc0 star, mk_bs [] None)
  | None => gloop glob path ip false n st (mk_bs [] None) = Ok false
  end.
Proof.
  intros ip pre suf p0 l star Ha Hp Hl glob path st. destruct alts as [|a alts]; [congruence|].
  assert (En : nth_error glob (List.length pre) = Some 123%N) by (apply P_Glob.nth_middle).
  assert (Hlp : List.length p0 < List.length path) by (unfold path; rewrite app_length; destruct l; [congruence|simpl; lia]).
  assert (S1 : gstep glob path ip false st (mk_bs [] None) =
     Ok (GCont (mk_gst (List.length p0) (S (List.length pre)) wc0 wc0) (mk_bs [st] None))).
  { rewrite step_arm by (cbn [g_glob st]; apply nth_error_Some; unfold st; cbn [g_glob]; congruence).
    unfold arm, at_. unfold st. cbn [g_glob g_path]. rewrite En. cbn [bind].
    destruct (Nat.ltb_spec (List.length p0) (List.length path)); [|lia]. reflexivity. }
  destruct (alts_run glob path ip st eq_refl alts a 123%N pre suf p0 l wc0 None eq_refl eq_refl eq_refl Hp)
    as (n & Hn & Q); [discriminate|].
  exists (S n). split; [lia|]. destruct (best _ l (a :: alts) None) as [m|].
  - cbn [steps]. rewrite S1. exact Q.
  - cbn [gloop]. rewrite S1. cbn [bind]. rewrite Q. unfold give_up, st. cbn [g_path].
    destruct (Nat.eqb_spec (List.length p0) (List.length path)); [lia|]. destruct ip; reflexivity.
Qed.

Lemma best_spec p l alts : forall L,
  (forall m, L = Some m -> p <= m) ->
  match best p l alts L with
  | None => L = None /\ forall a r, In a alts -> l <> a ++ r
  | Some m =>
    (L = Some m \/ exists a r, In a alts /\ l = a ++ r /\ m = p + List.length a) /\
    (forall k, L = Some k -> k <= m) /\
    (forall a r, In a alts -> l = a ++ r -> p + List.length a <= m)
  end.
Proof.
  induction alts as [|a alts IH]; intros L HL; cbn [best].
  - destruct L as [m|]; [|split; auto]. split; [auto|]. split; [intros k [= ->]; lia|contradiction].
  - destruct (strip_prefix a l) as [r0|] eqn:E.
    + pose proof (strip_prefix_app _ _ _ E) as E'.
      assert (HL' : forall m, opt_max L (p + List.length a) = Some m -> p <= m).
      { unfold opt_max. intros m [= <-]. destruct L; lia. }
      specialize (IH _ HL'). destruct (best p l alts (opt_max L (p + List.length a))) as [m|].
      * destruct IH as (H1 & H2 & H3). specialize (H2 _ eq_refl). split; [|split].
        -- destruct H1 as [H1|(b & r & Hb & Eb & Em)].
           ++ unfold opt_max in H1. injection H1 as H1. destruct L as [k|].
              ** destruct (Nat.max_spec k (p + List.length a)) as [[Hm Em]|[Hm Em]]; rewrite Em in H1.
                 --- right. exists a, r0. subst m. simpl; auto.
                 --- left. now subst.
              ** right. exists a, r0. subst m. simpl; auto.
           ++ right. exists b, r. simpl; auto.
        -- intros k ->. lia.
        -- intros b r [->|Hb] Eb; [destruct L; lia|eauto].
      * destruct IH as [IH _]. discriminate.
    + specialize (IH _ HL). destruct (best p l alts L) as [m|].
      * destruct IH as (H1 & H2 & H3). split; [|split; [assumption|]].
        -- destruct H1 as [H1|(b & r & Hb & Eb & Em)]; [auto|]. right. exists b, r. simpl; auto.
        -- intros b r [->|Hb] Eb; [exfalso; exact (not_prefix _ _ E r Eb)|eauto].
      * destruct IH as (H1 & H2). split; [assumption|]. intros b r [->|Hb]; [apply (not_prefix _ _ E)|auto].
Qed.

Lemma flat_loop ps : forall ip pre p0 l star, Forall flat ps ->
  exists n b, n <= S (List.length (written ps)) /\
  gloop (pre ++ written ps) (p0 ++ l) ip false n (mk_gst (List.length p0) (List.length pre) wc0 star) (mk_bs [] None) = Ok b /\
  (b = true <-> greedy (negb ip) ps l).
Proof.
  induction ps as [|q ps IH]; intros ip pre p0 l star Hs.
  - exists 1, (literal_answer ip [] l). split; [simpl; lia|]. split; [apply literal_loop; constructor|].
    unfold literal_answer. destruct ip, l as [|x l]; cbn [negb teqb strip_prefix]; split; intros H;
      try discriminate; try constructor; try reflexivity; try inversion H.
  - apply Forall_cons_iff in Hs as [Hq Hs].
    assert (Hlt : List.length pre < List.length (pre ++ written (q :: ps))).
    { rewrite app_length. destruct q; cbn [written flat_map]; rewrite !app_length; simpl; lia. }
    destruct l as [|x l].
    { (* the path is over *)
      exists 1, ip. split; [simpl; lia|]. split.
      - cbn [gloop]. rewrite step_arm by exact Hlt. rewrite app_nil_r.
        assert (arm (pre ++ written (q :: ps)) p0 (mk_gst (List.length p0) (List.length pre) wc0 star) (mk_bs [] None) =
          Ok (GFail (mk_gst (List.length p0) (List.length pre) wc0 star) (mk_bs [] None))) as ->.
        { unfold arm, at_. cbn [g_glob g_path]. rewrite Nat.ltb_irrefl.
          destruct q as [c|alts]; cbn [written flat_map app]; rewrite P_Glob.nth_middle; cbn [bind];
            [rewrite (plain_eqb c 42 Hq) by (simpl; auto 10)|]; cbn [b_stack]; rewrite ?andb_false_r; reflexivity. }
        cbn [bind]. rewrite fail_out by reflexivity. cbn [bind]. unfold give_up. cbn [g_path]. rewrite Nat.eqb_refl.
        destruct ip; reflexivity.
      - destruct ip; cbn [negb]; split; intros H; try discriminate; try reflexivity.
        + now constructor.
        + inversion H as [| |c ps' l'|alts a ps' l' Hn]; subst; try discriminate. congruence. }
    destruct q as [c|alts].
    + cbn [flat] in Hq.
      change (written (Lit c :: ps)) with (c :: written ps).
      destruct (N.eqb_spec x c) as [->|Hx].
      * destruct (IH ip (pre ++ [c]) (p0 ++ [c]) l (if (c =? 47)%N then star else mk_wc (w_glob star) 0) Hs) as (n & b & Hn & E & Hb).
        exists (S n), b. split; [simpl; lia|]. split.
        -- cbn [gloop]. rewrite step_arm by exact Hlt.
           rewrite (lit_step _ _ c c) by (try apply Hq; apply P_Glob.nth_middle). rewrite N.eqb_refl. cbn [bind].
           cbn [g_path g_glob g_wild g_star].
           rewrite <- !app_assoc in E. cbn [app] in E. rewrite !app_length in E. cbn [List.length] in E.
           rewrite !Nat.add_1_r in E. exact E.
        -- rewrite Hb. split; intros H; [now constructor|]. inversion H; subst; assumption.
      * exists 1, false. split; [simpl; lia|]. split.
        -- cbn [gloop]. rewrite step_arm by exact Hlt.
           rewrite (lit_step _ _ c x) by (try apply Hq; apply P_Glob.nth_middle). apply N.eqb_neq in Hx. rewrite Hx. cbn [bind].
           rewrite fail_out by reflexivity. cbn [bind]. unfold give_up. cbn [g_path]. rewrite app_length. cbn [List.length].
           destruct (Nat.eqb_spec (List.length p0) (List.length p0 + S (List.length l))); [lia|]. destruct ip; reflexivity.
        -- split; [discriminate|]. intros H. inversion H; subst. congruence.
    + destruct Hq as [Ha Hp]. set (l0 := x :: l).
      assert (Hw : pre ++ written (Alt alts :: ps) = pre ++ [123%N] ++ commas alts ++ [125%N] ++ written ps).
      { cbn [written flat_map]. now rewrite <- !app_assoc. }
      rewrite Hw. assert (Hlw : List.length (written (Alt alts :: ps)) = List.length (commas alts) + 2 + List.length (written ps)).
      { apply (f_equal (@List.length N)) in Hw. rewrite !app_length in Hw. simpl in Hw. simpl. lia. }
      destruct (group_run alts ip pre (written ps) p0 l0 star Ha Hp ltac:(discriminate)) as (n & Hn & Q). cbv zeta in Q.
      pose proof (best_spec (List.length p0) l0 alts None ltac:(discriminate)) as B.
      destruct (best (List.length p0) l0 alts None) as [m|].
      * destruct B as ([B|(a & r & Ia & El & ->)] & _ & Bm); [discriminate|].
        destruct (IH ip (pre ++ [123%N] ++ commas alts ++ [125%N]) (p0 ++ a) r star Hs) as (n2 & b & Hn2 & E & Hb).
        exists (n + n2), b. split; [lia|]. split.
        -- rewrite (steps_loop _ _ _ _ _ _ _ _ _ n2 Q).
           rewrite <- !app_assoc in E. rewrite <- El in E. rewrite <- E. f_equal.
           rewrite !app_length. cbn [List.length]. f_equal; lia.
        -- rewrite Hb. clear -Ia El Bm. rewrite El. split.
           ++ intros H. constructor; [now rewrite <- El|split; [assumption|split; [eauto|]]|assumption].
              intros b' r' Ib Eb. rewrite <- El in Eb. specialize (Bm b' r' Ib Eb). lia.
           ++ intros H. rewrite <- El in H. unfold l0 in *. inversion H as [| |c ps' l'|alts' a' ps' l' Hn (I' & _ & Hlong) Hg]; subst.
              assert (List.length a' = List.length a).
              { pose proof (Hlong a r Ia ltac:(congruence)). pose proof (Bm a' l' I' ltac:(congruence)). lia. }
              assert (a' = a /\ l' = r) as [-> ->]; [|assumption].
              assert (E2 : a' ++ l' = a ++ r) by congruence.
              revert E2 H0. clear. revert a. induction a' as [|y a' IH]; intros [|z a] E L; simpl in *; try lia; auto.
              injection E as -> E. destruct (IH a E ltac:(lia)) as [-> ->]. auto.
      * exists n, false. split; [lia|]. split; [exact Q|]. split; [discriminate|].
        intros H. exfalso. destruct B as [_ B]. unfold l0 in *.
        inversion H as [| |c ps' l'|alts' a' ps' l' Hn' (I' & _ & Hlong) Hg]; subst. apply (B a' l' I'). congruence.
Qed.
Lemma flat_run ps ip l : Forall flat ps -> exists b,
  glob_run (written ps) l ip = Ok b /\ (b = true <-> greedy (negb ip) ps l).
Proof.
  intros H. destruct (flat_loop ps ip [] [] l wc0 H) as (n & b & Hn & E & Hb). exists b. split; [|assumption].
  apply (glob_run_conv _ _ _ n).
  - unfold glob_internal. rewrite no_bang; [exact E|]. intros r Er. destruct ps as [|q ps]; [discriminate|].
    apply Forall_cons_iff in H as [Hq _]. destruct q as [c|alts]; [|discriminate].
    injection Er as -> _. destruct Hq as [Hq _]. apply Hq. unfold special. simpl. auto 10.
  - unfold glob_bits. pose proof (succ_le_pow2 (12 * (8 + (2 * List.length (written ps) + List.length l)))). lia.
Qed.

(** What the matcher does with flat patterns, for every path: it takes the
    longest alternative of each group. *)
Theorem C47_flat : forall ps glob path, Forall flat ps -> utf8 glob = written ps ->
  (glob_match glob path = true <-> greedy true ps (utf8 path)) /\
  (glob_match_prefix glob path = true <-> greedy false ps (utf8 path)).
Proof.
  intros ps glob path H E. unfold glob_match, glob_match_prefix. rewrite E. split.
  - destruct (flat_run ps false (utf8 path) H) as (b & -> & Hb). exact Hb.
  - destruct (flat_run ps true (utf8 path) H) as (b & -> & Hb). exact Hb.
Qed.
Print Assumptions C47_flat.

Lemma prefix_pair (a b r s : list N) : a ++ r = b ++ s -> List.length a <= List.length b -> exists t, b = a ++ t.
Proof.
  revert b. induction a as [|x a IH]; intros b E L; [exists b; reflexivity|].
  destruct b as [|y b]; simpl in *; [lia|]. injection E as -> E. destruct (IH b E ltac:(lia)) as (t & ->). eauto.
Qed.
Lemma greedy_chosen ps l : greedy true ps l -> chosen ps l.
Proof.
  induction 1 as [|ps E|c ps l H IH|alts a ps l N (I & _) H IH]; [constructor|discriminate|now constructor|now constructor].
Qed.
Lemma chosen_greedy ps l : Forall prefix_free ps -> chosen ps l -> greedy true ps l.
Proof.
  intros F H. revert F. induction H as [|c ps l H IH|alts a ps l I H IH]; intros F; [constructor| |];
    apply Forall_cons_iff in F as [Fq F].
  - constructor; auto.
  - destruct Fq as [Fn Fq]. constructor.
    + intros E. apply app_eq_nil in E as [-> _]. contradiction.
    + split; [assumption|]. split; [eauto|]. intros b r Ib Eb.
      destruct (Nat.le_gt_cases (List.length b) (List.length a)) as [|Hgt]; [assumption|exfalso].
      destruct (prefix_pair a b l r Eb ltac:(lia)) as (t & Et). 
      rewrite (Fq a b t I Ib Et) in Et. subst b. rewrite app_nil_r in Hgt. lia.
    + auto.
Qed.
(** A flat pattern never matches what no choice gives; and it matches whatever
    some choice of alternatives gives when no alternative of a group is a prefix
    of another one of it (so none is empty).
    Missing: nested groups and wildcards inside groups, where C47 is refuted in
    both directions, and groups with an alternative that begins another. *)
Theorem C47_flat_partial : forall ps glob path, Forall flat ps -> utf8 glob = written ps ->
  (glob_match glob path = true -> chosen ps (utf8 path)) /\
  (Forall prefix_free ps -> (glob_match glob path = true <-> chosen ps (utf8 path))).
Proof.
  intros ps glob path H E. destruct (C47_flat ps glob path H E) as [C _]. rewrite C. split.
  - apply greedy_chosen.
  - intros F. split; [apply greedy_chosen|now apply chosen_greedy].
Qed.
Print Assumptions C47_flat_partial.
Example C47_flat_example :
  let ps := [Lit 120; Alt [[97; 98]; [99]; [100]]; Lit 121; Alt [[97]; [98]]]%N in
  utf8 (tx "x{ab,c,d}y{a,b}") = written ps /\ Forall flat ps /\ Forall prefix_free ps /\
  chosen ps (utf8 (tx "xaby" ++ tx "b")) /\ glob_match (tx "x{ab,c,d}y{a,b}") (tx "xabyb") = true.
Proof.
  cbv zeta.
  assert (P : forall c, In c [97; 98; 99; 100; 120; 121]%N -> plain c).
  { intros c Hc. split; intros H; simpl in Hc, H; unfold special in H; simpl in H; intuition (subst; discriminate). }
  split; [reflexivity|]. split; [|split; [|split]].
  - repeat (apply Forall_cons || apply Forall_nil); cbn [flat];
      try (apply P; simpl; tauto); (split; [discriminate|]); repeat (apply Forall_cons || apply Forall_nil); apply P; simpl; tauto.
  - repeat (apply Forall_cons || apply Forall_nil); cbn [prefix_free]; auto.
    + split; [simpl; intuition discriminate|]. intros a b r Ha Hb E. simpl in Ha, Hb.
      repeat destruct Ha as [<-|Ha]; try contradiction; repeat destruct Hb as [<-|Hb]; try contradiction;
        cbn [app] in E; try discriminate E; injection E as E; now symmetry.
    + split; [simpl; intuition discriminate|]. intros a b r Ha Hb E. simpl in Ha, Hb.
      repeat destruct Ha as [<-|Ha]; try contradiction; repeat destruct Hb as [<-|Hb]; try contradiction;
        cbn [app] in E; try discriminate E; injection E as E; now symmetry.
  - apply ch_lit. apply (ch_alt _ [97; 98]%N); [simpl; auto|]. apply ch_lit. apply (ch_alt _ [98]%N _ []); [simpl; auto|]. constructor.
  - vm_compute. reflexivity.
Qed.
