(** C60: brace-free patterns.  A pattern of literals, [?] and [*] matches
    exactly the paths it describes, whatever the backtracking does. *)
From Verif Require Import Base BaseFacts Glob GlobFacts P_Glob.
From Coq Require Import List NArith Lia Bool.
Import ListNotations.
Local Open Scope nat_scope.

(* ------------------------------------------------------------------ *)
(** * Specification *)

(** [*] stands for any string without a separator, [?] for one byte that is no
    separator, and every other byte for itself *)
Inductive describes : list N -> list N -> Prop :=
| d_nil : describes [] []
| d_star s g l : ~ In 47%N s -> describes g l -> describes (42%N :: g) (s ++ l)
| d_any x g l : x <> 47%N -> describes g l -> describes (63%N :: g) (x :: l)
| d_literal c g l : c <> 42%N -> c <> 63%N -> describes g l -> describes (c :: g) (c :: l).
(** no class, group, escape, leading negation or double star *)
Definition simple (g : list N) : Prop :=
  (forall c, In c [91; 123; 92]%N -> ~ In c g) /\ (forall r, g <> 33%N :: r) /\
  (forall a b, g <> a ++ 42%N :: 42%N :: b).

(* ------------------------------------------------------------------ *)
(** * Facts about the specification *)

Definition one (c x : N) : Prop := c <> 42%N /\ if (c =? 63)%N then x <> 47%N else x = c.
Lemma one_sep c x : one c x -> (x = 47%N <-> c = 47%N).
Proof.
  intros [_ H]. destruct (N.eqb_spec c 63) as [->|]; [|subst; tauto]. split; [contradiction|discriminate].
Qed.
Lemma one_cons c x g l : one c x -> describes g l -> describes (c :: g) (x :: l).
Proof.
  intros [H1 H] D. destruct (N.eqb_spec c 63) as [->|]; [now constructor|]. subst. now constructor.
Qed.
Lemma cons_inv c g l : c <> 42%N -> describes (c :: g) l -> exists x l', l = x :: l' /\ one c x /\ describes g l'.
Proof.
  intros Hc H. inversion H as [|s g' l' Hs D|x g' l' Hx D|c' g' l' H1 H2 D]; subst.
  - congruence.
  - exists x, l'. split; [reflexivity|]. split; [|assumption]. split; [assumption|exact Hx].
  - exists c, l'. split; [reflexivity|]. split; [|assumption]. split; [assumption|].
    destruct (N.eqb_spec c 63); congruence.
Qed.
Lemma star_inv g l : describes (42%N :: g) l -> exists s l', l = s ++ l' /\ ~ In 47%N s /\ describes g l'.
Proof.
  intros H. inversion H as [|s g' l' Hs D|x g' l' Hx D|c' g' l' H1 H2 D]; subst; [eauto|congruence].
Qed.
(** every pattern describes something *)
Lemma describes_some g : exists l, describes g l.
Proof.
  induction g as [|c g (l & IH)]; [exists []; constructor|].
  destruct (N.eq_dec c 42) as [->|H1]; [exists ([] ++ l); constructor; auto; simpl; tauto|].
  destruct (N.eq_dec c 63) as [->|H2]; [exists (0%N :: l); constructor; [discriminate|assumption]|].
  exists (c :: l). now constructor.
Qed.

(** what is asked: to be described, or to begin something described *)
Definition asked (ip : bool) (g l : list N) : Prop :=
  if ip then exists rest, describes g (l ++ rest) else describes g l.
Lemma asked_nil ip l : asked ip [] l <-> l = [].
Proof.
  destruct ip; cbn [asked]; split.
  - intros (rest & H). assert (K : forall m, describes [] m -> m = []) by (intros m D; now inversion D).
    apply K in H. now apply app_eq_nil in H as [-> _].
  - intros ->. exists []. constructor.
  - now inversion 1.
  - intros ->. constructor.
Qed.
Lemma asked_end ip c g : c <> 42%N -> (asked ip (c :: g) [] <-> ip = true).
Proof.
  intros Hc. destruct ip; cbn [asked]; split; intros H; try discriminate; try reflexivity.
  - destruct (describes_some (c :: g)) as (l & D). exists l. exact D.
  - destruct (cons_inv _ _ _ Hc H) as (x & l' & E & _). discriminate.
Qed.
Lemma asked_cons ip c g x l : c <> 42%N -> (asked ip (c :: g) (x :: l) <-> one c x /\ asked ip g l).
Proof.
  intros Hc. destruct ip; cbn [asked]; split.
  - intros (rest & H). destruct (cons_inv _ _ _ Hc H) as (x' & l' & [= <- <-] & O & D). eauto.
  - intros (O & rest & D). exists rest. cbn [app]. now apply one_cons.
  - intros H. destruct (cons_inv _ _ _ Hc H) as (x' & l' & [= <- <-] & O & D). eauto.
  - intros (O & D). now apply one_cons.
Qed.
Lemma asked_absorb g l : ~ In 47%N l -> asked true (42%N :: g) l.
Proof.
  intros H. destruct (describes_some g) as (l' & D). exists l'. now constructor.
Qed.
Lemma asked_star ip g l : asked ip (42%N :: g) l <->
  asked ip g l \/ exists x l', l = x :: l' /\ x <> 47%N /\ asked ip (42%N :: g) l'.
Proof.
  split.
  - destruct ip; cbn [asked].
    + intros (rest & H). destruct l as [|x l].
      { left. destruct (describes_some g) as (l' & D). exists l'. exact D. }
      destruct (star_inv _ _ H) as (s & l' & E & Hs & D). destruct s as [|y s].
      * left. cbn [app] in E. rewrite <- E in D. exists rest. exact D.
      * right. cbn [app] in E. injection E as <- E. exists x, l. split; [reflexivity|].
        split; [intros ->; apply Hs; simpl; auto|]. exists rest. rewrite E. constructor; [|assumption].
        intros I. apply Hs. simpl; auto.
    + intros H. destruct (star_inv _ _ H) as (s & l' & -> & Hs & D). destruct s as [|y s]; [left; exact D|].
      right. exists y, (s ++ l'). split; [reflexivity|]. split; [intros ->; apply Hs; simpl; auto|].
      constructor; [|assumption]. intros I. apply Hs. simpl; auto.
  - intros [H|(x & l' & -> & Hx & H)].
    + destruct ip; cbn [asked] in *.
      * destruct H as (rest & D). exists rest. apply (d_star [] g (l ++ rest)); [simpl; tauto|assumption].
      * apply (d_star [] g l); [simpl; tauto|assumption].
    + assert (K : forall m, describes (42%N :: g) m -> describes (42%N :: g) (x :: m)).
      { intros m D. destruct (star_inv _ _ D) as (s & m' & -> & Hs & D'). apply (d_star (x :: s) g m'); [|assumption].
        intros [I|I]; [now apply Hx|contradiction]. }
      destruct ip; cbn [asked] in *; [|auto]. destruct H as (rest & D). exists rest. cbn [app]. auto.
Qed.
Lemma asked_star_many ip g l : asked ip (42%N :: g) l -> 
  (exists s l', l = s ++ l' /\ ~ In 47%N s /\ asked ip g l').
Proof.
  revert g. induction l as [|x l IH]; intros g H; apply asked_star in H as [H|(x' & l' & E & Hx & H)].
  - exists [], []. simpl; auto.
  - discriminate.
  - exists [], (x :: l). simpl; auto.
  - injection E as <- <-. destruct (IH g H) as (s & l' & -> & Hs & D). exists (x :: s), l'.
    split; [reflexivity|]. split; [|assumption]. intros [I|I]; [now apply Hx|contradiction].
Qed.
Lemma asked_star_intro ip g s l : ~ In 47%N s -> asked ip (42%N :: g) l -> asked ip (42%N :: g) (s ++ l).
Proof.
  induction s as [|x s IH]; intros Hs H; [exact H|]. cbn [app]. apply asked_star. right.
  exists x, (s ++ l). split; [reflexivity|]. split; [intros ->; apply Hs; simpl; auto|].
  apply IH; [intros I; apply Hs; simpl; auto|assumption].
Qed.
(** a part without stars *)
Lemma asked_mid ip mid g : Forall (fun c => c <> 42%N) mid -> forall l, asked ip (mid ++ g) l ->
  (exists m l', l = m ++ l' /\ Forall2 one mid m /\ asked ip g l') \/
  (ip = true /\ exists mid1 mid2, mid = mid1 ++ mid2 /\ mid2 <> [] /\ Forall2 one mid1 l).
Proof.
  induction 1 as [|c mid Hc Hm IH]; intros l H.
  - left. exists [], l. repeat split; auto.
  - cbn [app] in H. destruct l as [|x l].
    + apply asked_end in H; [|assumption]. right. split; [assumption|]. exists [], (c :: mid). 
      split; [reflexivity|]. split; [discriminate|constructor].
    + apply asked_cons in H as [O H]; [|assumption]. destruct (IH l H) as [(m & l' & -> & F & A)|(-> & m1 & m2 & -> & N & F)].
      * left. exists (x :: m), l'. split; [reflexivity|]. split; [now constructor|assumption].
      * right. split; [reflexivity|]. exists (c :: m1), m2. split; [reflexivity|]. split; [assumption|now constructor].
Qed.
Lemma Forall2_length {A B} (R : A -> B -> Prop) a b : Forall2 R a b -> List.length a = List.length b.
Proof. induction 1; simpl; congruence. Qed.
(** where the first separator is *)
Fixpoint sep_at (l : list N) : option nat :=
  match l with
  | [] => None
  | x :: r => if (x =? 47)%N then Some 0 else option_map S (sep_at r)
  end.
Lemma sep_none l : sep_at l = None <-> ~ In 47%N l.
Proof.
  induction l as [|x l IH]; simpl; [tauto|]. destruct (N.eqb_spec x 47) as [->|H].
  - split; [discriminate|tauto].
  - destruct (sep_at l); simpl; split; intros K; try discriminate; try tauto.
    exfalso. apply K. right. destruct (In_dec N.eq_dec 47%N l) as [I|I]; [exact I|exfalso; apply IH in I; discriminate].
Qed.
Lemma sep_app_in l r k : sep_at l = Some k -> sep_at (l ++ r) = Some k.
Proof.
  revert k. induction l as [|x l IH]; intros k; simpl; [discriminate|]. destruct (x =? 47)%N; [auto|].
  destruct (sep_at l); [|discriminate]. intros [= <-]. rewrite (IH _ eq_refl). reflexivity.
Qed.
Lemma sep_app_out l r : ~ In 47%N l -> sep_at (l ++ r) = option_map (Nat.add (List.length l)) (sep_at r).
Proof.
  induction l as [|x l IH]; intros H; [cbn [app List.length]; destruct (sep_at r); reflexivity|]. cbn [app sep_at].
  destruct (N.eqb_spec x 47) as [->|]; [exfalso; apply H; simpl; auto|].
  rewrite IH by (intros I; apply H; simpl; auto). destruct (sep_at r); reflexivity.
Qed.
Lemma sep_one mid m : Forall2 one mid m -> sep_at m = sep_at mid.
Proof.
  induction 1 as [|c x mid m O _ IH]; [reflexivity|]. cbn [sep_at]. rewrite IH.
  pose proof (one_sep _ _ O) as H. destruct (N.eqb_spec x 47), (N.eqb_spec c 47); tauto || reflexivity.
Qed.
Lemma app_len (a b c d : list N) : a ++ b = c ++ d -> List.length a <= List.length c ->
  exists e, c = a ++ e /\ b = e ++ d.
Proof.
  revert c. induction a as [|x a IH]; intros c E L; [exists c; auto|].
  destruct c as [|y c]; simpl in *; [lia|]. injection E as -> E. destruct (IH c E ltac:(lia)) as (e & -> & ->). eauto.
Qed.
(** a later star makes the earlier one unnecessary *)
Lemma drop_star ip mid g e u' m0 l : Forall2 one mid m0 -> e <> [] -> ~ In 47%N e ->
  m0 ++ l = e ++ u' -> asked ip (mid ++ 42%N :: g) u' -> asked ip (42%N :: g) l.
Proof.
  intros F Ne He E A.
  assert (Hm : Forall (fun c => c <> 42%N) mid).
  { clear -F. induction F as [|c x mid m [O _] _ IH]; constructor; auto. }
  destruct (asked_mid ip mid (42%N :: g) Hm u' A) as [(m1 & l1 & -> & F1 & A1)|(-> & mid1 & mid2 & -> & N2 & F1)].
  - pose proof (Forall2_length _ _ _ F) as L0. pose proof (Forall2_length _ _ _ F1) as L1.
    destruct (app_len m0 l (e ++ m1) l1) as (t & Et & ->); [rewrite E; now rewrite app_assoc|rewrite app_length; lia|].
    apply asked_star_intro; [|assumption].
    assert (K : ~ In 47%N m1).
    { apply sep_none. rewrite (sep_one _ _ F1). destruct (sep_at mid) as [j|] eqn:J; [exfalso|reflexivity].
      pose proof (sep_app_in m0 (t ++ l1) j) as Q1. rewrite (sep_one _ _ F) in Q1. specialize (Q1 J).
      rewrite E, (sep_app_out e) in Q1 by assumption. rewrite (sep_app_in m1 l1 j) in Q1 by (now rewrite (sep_one _ _ F1)).
      cbn in Q1. injection Q1 as Q1. destruct e; [congruence|simpl in Q1; lia]. }
    intros I. assert (I' : In 47%N (e ++ m1)) by (rewrite Et; apply in_or_app; auto).
    apply in_app_or in I' as [I'|I']; contradiction.
  - apply asked_absorb.
    assert (K : sep_at (e ++ u') = None).
    { rewrite sep_app_out by assumption. destruct (sep_at u') as [j|] eqn:J; [exfalso|reflexivity].
      rewrite (sep_one _ _ F1) in J.
      pose proof (sep_app_in mid1 mid2 j J) as Q1. rewrite <- (sep_one _ _ F) in Q1.
      pose proof (sep_app_in m0 l j Q1) as Q2. rewrite E, sep_app_out in Q2 by assumption.
      rewrite (sep_one _ _ F1), J in Q2. cbn in Q2. injection Q2 as Q2. destruct e; [congruence|simpl in Q2; lia]. }
    rewrite <- E in K. apply sep_none in K. intros I. apply K. apply in_or_app. auto.
Qed.

(* ------------------------------------------------------------------ *)
(** * The matcher *)

Section Wild.
  Variables (glob path : list N) (ip : bool).
  Hypothesis Hclass : forall c, In c [91; 123; 92]%N -> ~ In c glob.
  Hypothesis Hstars : forall a b, glob <> a ++ 42%N :: 42%N :: b.
  (** prefixes of paths with separators are left out *)
  Hypothesis Hsep : ip = true -> ~ In 47%N path.
  Notation G := (List.length glob).
  Notation P := (List.length path).
  Notation step := (gstep glob path ip false).
  Notation loop := (gloop glob path ip false).
  Notation none := (mk_bs [] None).

  (** the wildcard: absent, or the last star, which has taken [p0] so far *)
  Definition resumes (pre p0 u : list N) (w : wildcard) : Prop :=
    exists pre', pre = pre' ++ [42%N] /\ w = mk_wc (List.length pre') (S (List.length p0)) /\
      match u with x :: _ => x <> 47%N | [] => True end.

  (** the star step *)
  Lemma star_step pre g p0 l wild star : glob = pre ++ 42%N :: g -> path = p0 ++ l -> w_path star = 0 ->
    exists w', (match l with
                | x :: _ => if (x =? 47)%N then w_path w' = 0 else w' = mk_wc (List.length pre) (S (List.length p0))
                | [] => w' = mk_wc (List.length pre) (S (List.length p0))
                end) /\
    step (mk_gst (List.length p0) (List.length pre) wild star) none =
      Ok (GCont (mk_gst (List.length p0) (S (List.length pre)) w' star) none).
  Proof.
    intros Eg Ep Hs.
    assert (En : nth_error glob (List.length pre) = Some 42%N) by (rewrite Eg; apply P_Glob.nth_middle).
    assert (E1 : match nth_error glob (S (List.length pre)) with Some 42%N => true | _ => false end = false).
    { destruct (nth_error glob (S (List.length pre))) as [c|] eqn:E; [|reflexivity].
      destruct (N.eq_dec c 42) as [->|Hc].
      - exfalso. rewrite Eg in E. replace (S (List.length pre)) with (List.length pre + 1) in E by lia.
        rewrite nth_error_app2 in E by lia. replace (List.length pre + 1 - List.length pre) with 1 in E by lia. simpl in E.
        destruct g as [|y g]; [discriminate|]. injection E as ->. exact (Hstars _ _ Eg).
      - destruct c as [|c]; [reflexivity|]. repeat (destruct c as [c|c|]; try reflexivity). congruence. }
    rewrite step_arm by (cbn [g_glob]; apply nth_error_Some; congruence).
    unfold arm, at_. cbn [g_glob]. rewrite En. cbn [bind N.eqb Pos.eqb]. unfold arm_star. cbn [g_glob g_path g_star].
    cbv zeta. rewrite E1. cbn [bind]. rewrite Hs. cbn [w_path]. rewrite Nat.add_1_r. cbn [Nat.eqb negb andb b_stack].
    destruct l as [|x l].
    - assert (Nat.ltb (List.length p0) P = false) as ->.
      { apply Nat.ltb_ge. rewrite Ep, app_nil_r. lia. }
      eexists. split; [reflexivity|]. reflexivity.
    - assert (Nat.ltb (List.length p0) P = true) as ->.
      { apply Nat.ltb_lt. rewrite Ep, app_length. simpl. lia. }
      assert (nth_error path (List.length p0) = Some x) as Ex by (rewrite Ep; apply P_Glob.nth_middle).
      unfold at_. rewrite Ex. cbn [bind]. unfold is_sep.
      destruct (N.eqb_spec x 47) as [->|Hx]; eexists; (split; [|reflexivity]); reflexivity.
  Qed.
  (** a byte that must be there *)
  Lemma byte_step pre c g p0 l wild star : glob = pre ++ c :: g -> path = p0 ++ l -> c <> 42%N -> w_path star = 0 ->
    let st := mk_gst (List.length p0) (List.length pre) wild star in
    (exists x l' star', l = x :: l' /\ one c x /\ w_path star' = 0 /\
       step st none = Ok (GCont (mk_gst (S (List.length p0)) (S (List.length pre)) wild star') none)) \/
    ((forall x l', l = x :: l' -> ~ one c x) /\ step st none = no_match glob path ip false st none).
  Proof.
    intros Eg Ep Hc Hs st.
    assert (En : nth_error glob (List.length pre) = Some c) by (rewrite Eg; apply P_Glob.nth_middle).
    assert (Ic : In c glob) by (eapply nth_error_In; eassumption).
    assert (Hk : forall k, In k [91; 123; 92]%N -> (c =? k)%N = false).
    { intros k Hk. apply N.eqb_neq. intros ->. exact (Hclass _ Hk Ic). }
    assert (E42 : (c =? 42)%N = false) by (now apply N.eqb_neq).
    rewrite step_arm by (cbn [g_glob st]; apply nth_error_Some; unfold st; cbn [g_glob]; congruence).
    unfold arm, at_. change (g_glob st) with (List.length pre). change (g_path st) with (List.length p0). rewrite En. cbn [bind].
    rewrite E42, (Hk 91%N), (Hk 123%N) by (simpl; tauto). cbn [andb b_stack]. rewrite !andb_false_r.
    destruct l as [|x l].
    - right. split; [discriminate|].
      assert (Nat.ltb (List.length p0) P = false) as ->.
      { apply Nat.ltb_ge. rewrite Ep, app_nil_r. lia. }
      rewrite andb_false_r. reflexivity.
    - assert (Nat.ltb (List.length p0) P = true) as ->.
      { apply Nat.ltb_lt. rewrite Ep, app_length. simpl. lia. }
      assert (nth_error path (List.length p0) = Some x) as Ex by (rewrite Ep; apply P_Glob.nth_middle).
      rewrite andb_true_r. destruct (N.eqb_spec c 63) as [->|H63].
      + unfold at_. rewrite Ex. cbn [bind]. unfold is_sep. destruct (N.eqb_spec x 47) as [->|Hx]; cbn [negb].
        * right. split; [|reflexivity]. intros y l' [= <- <-] [_ O]. cbn in O. congruence.
        * left. exists x, l, star. split; [reflexivity|]. split; [split; [assumption|exact Hx]|]. split; [assumption|reflexivity].
      + unfold arm_literal, unescape. rewrite (Hk 92%N) by (simpl; tauto). unfold at_, st. cbn [g_path g_glob g_wild g_star].
        rewrite Ex. cbn [bind].
        replace (if (c =? 47)%N then is_sep x else (x =? c)%N) with (x =? c)%N.
        2:{ destruct (N.eqb_spec c 47) as [->|]; reflexivity. }
        destruct (N.eqb_spec x c) as [->|Hx].
        * left. exists c, l, (if (c =? 47)%N then star else mk_wc (w_glob star) 0). split; [reflexivity|]. split.
          { split; [assumption|]. apply N.eqb_neq in H63. now rewrite H63. }
          split; [destruct (c =? 47)%N; [assumption|reflexivity]|]. reflexivity.
        * right. split; [|reflexivity]. intros y l' [= <- <-] [_ O]. apply N.eqb_neq in H63. rewrite H63 in O. congruence.
  Qed.

  Lemma wild_loop : forall k pre mid g p0 m0 l wild star,
    (List.length (m0 ++ l) + 1) * (G + 2) + List.length g <= k ->
    glob = pre ++ mid ++ g -> path = p0 ++ m0 ++ l -> Forall2 one mid m0 -> w_path star = 0 ->
    (w_path wild = 0 \/ resumes pre p0 (m0 ++ l) wild) ->
    exists n b, n <= S k /\
      loop n (mk_gst (List.length (p0 ++ m0)) (List.length (pre ++ mid)) wild star) none = Ok b /\
      (b = true <-> asked ip g l \/
         (resumes pre p0 (m0 ++ l) wild /\ exists x u, m0 ++ l = x :: u /\ asked ip (42%N :: mid ++ g) u)).
  Proof.
    induction k as [k IHk] using lt_wf_ind. intros pre mid g p0 m0 l wild star Hk Eg Ep F Hs Hw.
    set (st := mk_gst (List.length (p0 ++ m0)) (List.length (pre ++ mid)) wild star).
    assert (Eg2 : glob = (pre ++ mid) ++ g) by (now rewrite <- app_assoc).
    assert (Ep2 : path = (p0 ++ m0) ++ l) by (now rewrite <- app_assoc).
    assert (LG : G = List.length pre + List.length mid + List.length g) by (rewrite Eg, !app_length; lia).
    assert (LP : P = List.length p0 + List.length (m0 ++ l)) by (rewrite Ep, !app_length; lia).
    (* when the rest does not match here *)
    assert (Fail : step st none = no_match glob path ip false st none ->
      (~ asked ip g l \/ (l = [] /\ ip = true)) -> (l = [] -> ip = true -> asked ip g l) ->
      exists n b, n <= S k /\ loop n st none = Ok b /\
      (b = true <-> asked ip g l \/
         (resumes pre p0 (m0 ++ l) wild /\ exists x u, m0 ++ l = x :: u /\ asked ip (42%N :: mid ++ g) u))).
    { intros S1 HA HB. unfold no_match, can_backtrack in S1. change (g_wild st) with wild in S1.
      destruct Hw as [Hw0|(pre' & Epre & Ew & Hu)].
      - (* nothing to go back to *)
        rewrite Hw0 in S1. cbn in S1. exists 1, (give_up path ip false st). split; [lia|]. split.
        { cbn [gloop]. rewrite S1. reflexivity. }
        assert (NR : ~ resumes pre p0 (m0 ++ l) wild). { intros (q & _ & Ew & _). rewrite Ew in Hw0. discriminate. }
        unfold give_up. change (g_path st) with (List.length (p0 ++ m0)). 
        destruct ip.
        + destruct (Nat.eqb_spec (List.length (p0 ++ m0)) P) as [Eq|Ne].
          * assert (l = []) as -> by (rewrite app_length in Eq; rewrite LP, app_length in Eq; destruct l; [reflexivity|simpl in Eq; lia]).
            split; [intros _; left; auto|reflexivity].
          * split; [discriminate|]. intros [H|[H _]]; [|contradiction]. destruct HA as [HA|[-> _]]; [contradiction|].
            exfalso. apply Ne. rewrite Ep2, app_nil_r. reflexivity.
        + split; [discriminate|]. intros [H|[H _]]; [|contradiction]. destruct HA as [HA|[_ HA]]; [contradiction|discriminate].
      - assert (Hr : resumes pre p0 (m0 ++ l) wild) by (exists pre'; auto).
        rewrite Ew in S1. cbn [w_path Nat.ltb Nat.leb andb] in S1.
        destruct (m0 ++ l) as [|x u] eqn:Eu; cbn [List.length] in LP, Hk.
        + (* the star has taken the whole path *)
          destruct P as [|P'] eqn:EP; [|destruct (Nat.leb_spec (List.length p0) P'); [simpl in LP; lia|]];
            cbn in S1.
          all: apply app_eq_nil in Eu as [-> ->].
          all: exists 1, (give_up path ip false st); (split; [lia|]); (split; [cbn [gloop]; rewrite S1; reflexivity|]).
          all: unfold give_up; change (g_path st) with (List.length (p0 ++ [])); rewrite app_nil_r.
          all: assert (Eq : List.length p0 = P) by (rewrite LP || idtac; simpl in *; lia).
          all: rewrite Eq, Nat.eqb_refl; destruct ip; split; intros Hy; try discriminate; try reflexivity.
          all: try (left; auto).
          all: destruct Hy as [Hx|(_ & ? & ? & Hx & _)]; [|discriminate Hx].
          all: destruct HA as [HA|[_ HA]]; [contradiction|discriminate].
        + (* go back: the star takes one byte more *)
          destruct P as [|P'] eqn:EP; [simpl in LP; lia|]. 
          destruct (Nat.leb_spec (List.length p0) P') as [Hle|]; [|simpl in LP; lia]. cbn in S1.
          assert (Eg3 : glob = pre' ++ 42%N :: mid ++ g) by (rewrite Eg, Epre, <- app_assoc; reflexivity).
          assert (Ep3 : path = (p0 ++ [x]) ++ u) by (rewrite Ep, <- app_assoc; reflexivity).
          assert (Ep4 : path = (p0 ++ [x]) ++ [] ++ u) by exact Ep3.
          destruct (star_step pre' (mid ++ g) (p0 ++ [x]) u (mk_wc (List.length pre') (S (List.length p0))) star Eg3 Ep3 Hs)
            as (w' & Hw' & S2).
          assert (Eg4 : glob = pre ++ [] ++ mid ++ g) by exact Eg.
          assert (Hm : (List.length ([] ++ u) + 1) * (G + 2) + List.length (mid ++ g) <= k - 2).
          { cbn [app]. rewrite app_length.
            assert (K : (S (List.length u) + 1) * (G + 2) = (List.length u + 1) * (G + 2) + (G + 2)) by ring.
            rewrite K in Hk. lia. }
          assert (Hw2 : w_path w' = 0 \/ resumes pre (p0 ++ [x]) ([] ++ u) w').
          { cbn [app]. destruct u as [|y u]; [right; exists pre'; auto|]. destruct (N.eqb_spec y 47); [left; auto|].
            right. exists pre'. auto. }
          assert (Hk2 : 2 <= k) by (cbn [List.length] in Hk; lia).
          destruct (IHk (k - 2) ltac:(lia) pre [] (mid ++ g) (p0 ++ [x]) [] u w' star Hm Eg4 Ep4 ltac:(constructor) Hs Hw2)
            as (n & b & Hn & E & Hb). rewrite !app_nil_r in E.
          exists (S (S n)), b. split; [lia|]. split.
          * cbn [gloop]. rewrite S1. cbn [bind]. unfold backtrack. cbn [g_wild w_path w_glob g_star st].
            unfold st. cbn [g_wild g_star]. rewrite Ew. cbn [w_path w_glob].
            replace (S (List.length p0)) with (List.length (p0 ++ [x])) at 1 by (rewrite app_length; simpl; lia).
            rewrite S2. cbn [bind]. replace (S (List.length pre')) with (List.length pre) by (rewrite Epre, app_length; simpl; lia).
            exact E.
          * rewrite Hb. clear Hb E S2.
            assert (Star : (asked ip (mid ++ g) u \/ (resumes pre (p0 ++ [x]) ([] ++ u) w' /\
                       exists x0 u0, [] ++ u = x0 :: u0 /\ asked ip (42%N :: [] ++ mid ++ g) u0)) <->
                      asked ip (42%N :: mid ++ g) u).
            { rewrite (asked_star ip (mid ++ g) u). cbn [app]. split.
              - intros [A|((q & _ & _ & Hh) & y & u0 & -> & A)]; [auto|]. right. exists y, u0. auto.
              - intros [A|(y & u0 & -> & Hy & A)]; [auto|]. right. split; [|eauto].
                apply N.eqb_neq in Hy. rewrite Hy in Hw'. exists pre'. split; [assumption|]. split; [assumption|]. now apply N.eqb_neq. }
            rewrite Star. split.
            -- intros A. right. split; [assumption|]. exists x, u. auto.
            -- intros [A|(_ & y & u0 & [= <- <-] & A)]; [|assumption].
               destruct HA as [HA|[-> Hip]]; [contradiction|]. 
               (* the path is over: a star takes the rest *)
               rewrite Hip in *. apply asked_absorb. specialize (Hsep eq_refl). intros I. apply Hsep.
               rewrite Ep3. apply in_or_app. auto. }
    destruct g as [|c g].
    - (* the pattern is over *)
      destruct l as [|x l].
      + exists 1, true. split; [lia|]. split.
        * cbn [gloop]. unfold gstep, st. cbn [g_glob g_path].
          assert (Nat.ltb (List.length (pre ++ mid)) G = false) as -> by (apply Nat.ltb_ge; rewrite Eg2, app_nil_r; lia).
          assert (Nat.ltb (List.length (p0 ++ m0)) P = false) as -> by (apply Nat.ltb_ge; rewrite Ep2, app_nil_r; lia).
          reflexivity.
        * split; [|reflexivity]. intros _. left. now apply asked_nil.
      + apply Fail.
        * unfold gstep, st. cbn [g_glob g_path].
          assert (Nat.ltb (List.length (pre ++ mid)) G = false) as -> by (apply Nat.ltb_ge; rewrite Eg2, app_nil_r; lia).
          assert (Nat.ltb (List.length (p0 ++ m0)) P = true) as ->.
          { apply Nat.ltb_lt. rewrite Ep2, (app_length (p0 ++ m0)). simpl. lia. }
          reflexivity.
        * left. rewrite asked_nil. discriminate.
        * discriminate.
    - destruct (N.eq_dec c 42) as [->|Hc].
      + (* a star *)
        destruct (star_step (pre ++ mid) g (p0 ++ m0) l wild star Eg2 Ep2 Hs) as (w' & Hw' & S1).
        assert (Eg5 : glob = (pre ++ mid ++ [42%N]) ++ [] ++ g) by (rewrite Eg, <- !app_assoc; reflexivity).
        assert (Ep5 : path = (p0 ++ m0) ++ [] ++ l) by exact Ep2.
        assert (Hm : (List.length ([] ++ l) + 1) * (G + 2) + List.length g <= k - 1).
        { rewrite app_length in Hk. cbn [app List.length] in *.
          assert (K : (List.length l + 1) * (G + 2) <= (List.length m0 + List.length l + 1) * (G + 2)) by (apply Nat.mul_le_mono_r; lia).
          lia. }
        assert (Hk2 : 1 <= k) by (cbn [List.length] in Hk; lia).
        assert (Hw2 : w_path w' = 0 \/ resumes (pre ++ mid ++ [42%N]) (p0 ++ m0) ([] ++ l) w').
        { cbn [app]. assert (R : w' = mk_wc (List.length (pre ++ mid)) (S (List.length (p0 ++ m0))) ->
                   match l with y :: _ => y <> 47%N | [] => True end -> resumes (pre ++ mid ++ [42%N]) (p0 ++ m0) l w').
          { intros A B. exists (pre ++ mid). split; [now rewrite app_assoc|]. auto. }
          destruct l as [|y l]; [right; auto|]. destruct (N.eqb_spec y 47); [left; auto|]. right. auto. }
        destruct (IHk (k - 1) ltac:(lia) (pre ++ mid ++ [42%N]) [] g (p0 ++ m0) [] l w' star Hm Eg5 Ep5 ltac:(constructor) Hs Hw2)
            as (n & b & Hn & E & Hb). rewrite !app_nil_r in E.
        exists (S n), b. split; [lia|]. split.
        * cbn [gloop]. unfold st. rewrite S1. cbn [bind].
          replace (S (List.length (pre ++ mid))) with (List.length (pre ++ mid ++ [42%N])) by (rewrite !app_length; simpl; lia).
          exact E.
        * rewrite Hb. clear Hb E S1.
          assert (Star : (asked ip g l \/ (resumes (pre ++ mid ++ [42%N]) (p0 ++ m0) ([] ++ l) w' /\
                       exists x0 u0, [] ++ l = x0 :: u0 /\ asked ip (42%N :: [] ++ g) u0)) <->
                      asked ip (42%N :: g) l).
          { rewrite (asked_star ip g l). cbn [app]. split.
              - intros [A|((q & _ & _ & Hh) & y & u0 & -> & A)]; [auto|]. right. exists y, u0. auto.
              - intros [A|(y & u0 & -> & Hy & A)]; [auto|]. right. split; [|eauto].
                apply N.eqb_neq in Hy. rewrite Hy in Hw'. exists (pre ++ mid). split; [now rewrite app_assoc|].
                split; [assumption|]. now apply N.eqb_neq. }
          rewrite Star. split; [auto|]. intros [A|((q & _ & _ & Hh) & y & u0 & Eu & A)]; [assumption|].
          rewrite Eu in Hh. destruct (asked_star_many _ _ _ A) as (s & l' & -> & Hs' & A').
          apply (drop_star ip mid g (y :: s) l' m0 l F); [discriminate| |exact Eu|exact A'].
          intros [I|I]; [now apply Hh|contradiction].
      + (* a byte *)
        destruct (byte_step (pre ++ mid) c g (p0 ++ m0) l wild star Eg2 Ep2 Hc Hs) as [(x & l' & star' & -> & O & Hs' & S1)|[HN S1]].
        * assert (Eg5 : glob = pre ++ (mid ++ [c]) ++ g) by (rewrite Eg, <- !app_assoc; reflexivity).
          assert (Ep5 : path = p0 ++ (m0 ++ [x]) ++ l') by (rewrite Ep, <- !app_assoc; reflexivity).
          assert (Em : (m0 ++ [x]) ++ l' = m0 ++ x :: l') by (now rewrite <- app_assoc).
          assert (Hm : (List.length ((m0 ++ [x]) ++ l') + 1) * (G + 2) + List.length g <= k - 1).
          { rewrite Em. cbn [List.length] in Hk. lia. }
          assert (Hk2 : 1 <= k) by (cbn [List.length] in Hk; lia).
          assert (F' : Forall2 one (mid ++ [c]) (m0 ++ [x])) by (apply Forall2_app; [assumption|constructor; [assumption|constructor]]).
          assert (Hw2 : w_path wild = 0 \/ resumes pre p0 ((m0 ++ [x]) ++ l') wild) by (now rewrite Em).
          destruct (IHk (k - 1) ltac:(lia) pre (mid ++ [c]) g p0 (m0 ++ [x]) l' wild star' Hm Eg5 Ep5 F' Hs' Hw2)
            as (n & b & Hn & E & Hb).
          exists (S n), b. split; [lia|]. split.
          -- cbn [gloop]. unfold st. rewrite S1. cbn [bind].
             replace (S (List.length (pre ++ mid))) with (List.length (pre ++ mid ++ [c])) by (rewrite !app_length; simpl; lia).
             replace (S (List.length (p0 ++ m0))) with (List.length (p0 ++ m0 ++ [x])) by (rewrite !app_length; simpl; lia).
             exact E.
          -- rewrite Hb, Em. rewrite (asked_cons ip c g x l' Hc). rewrite <- (app_assoc mid [c] g). cbn [app].
             split; intros [A|A]; auto; try (left; tauto).
        * apply Fail; [exact S1| |].
          -- destruct l as [|x l].
             ++ destruct ip; [right; auto|]. left. rewrite asked_end by assumption. discriminate.
             ++ left. rewrite asked_cons by assumption. intros [O _]. exact (HN x l eq_refl O).
          -- intros -> Hip. now apply asked_end.
  Qed.
End Wild.

Lemma wild_run ip g l : simple g -> (ip = true -> ~ In 47%N l) ->
  exists b, glob_run g l ip = Ok b /\ (b = true <-> asked ip g l).
Proof.
  intros (H1 & H2 & H3) H4.
  destruct (wild_loop g l ip H1 H3 H4 _ [] [] g [] [] l wc0 wc0 (le_n _) eq_refl eq_refl ltac:(constructor) eq_refl ltac:(left; reflexivity))
    as (n & b & Hn & E & Hb).
  exists b. split.
  - apply (glob_run_conv _ _ _ n).
    + unfold glob_internal. rewrite no_bang by assumption. exact E.
    + cbn [app] in Hn. pose proof (glob_bits_enough g l) as K. 
      assert (S ((List.length l + 1) * (List.length g + 2) + List.length g) <= (B g l + 1) ^ 11); [|lia].
      apply Nat.le_trans with ((B g l + 1) ^ 2); [|apply Nat.pow_le_mono_r; lia].
      unfold B. cbn [Nat.pow]. nia.
  - rewrite Hb. split; [|auto]. intros [A|((q & _ & Ew & _) & _)]; [assumption|discriminate].
Qed.

(** A pattern of literals, [?] and [*] matches exactly the paths it describes,
    separators included. *)
Theorem C60_match : forall glob path, simple (utf8 glob) ->
  (glob_match glob path = true <-> describes (utf8 glob) (utf8 path)).
Proof.
  intros glob path H. unfold glob_match.
  destruct (wild_run false (utf8 glob) (utf8 path) H ltac:(discriminate)) as (b & -> & Hb). exact Hb.
Qed.
Print Assumptions C60_match.
(** It prefix-matches exactly the beginnings of what it describes, among the
    paths without separators. *)
Theorem C60_prefix : forall glob path, simple (utf8 glob) -> ~ In 47%N (utf8 path) ->
  (glob_match_prefix glob path = true <-> exists rest, describes (utf8 glob) (utf8 path ++ rest)).
Proof.
  intros glob path H Hp. unfold glob_match_prefix.
  destruct (wild_run true (utf8 glob) (utf8 path) H (fun _ => Hp)) as (b & -> & Hb). exact Hb.
Qed.
Print Assumptions C60_prefix.
(** With a separator in the path it does not: [a/] begins [a/b]. *)
Theorem C60_prefix_separator :
  glob_match_prefix (tx "*a/b") (tx "a/") = false /\ describes (utf8 (tx "*a/b")) (utf8 (tx "a/") ++ utf8 (tx "b")).
Proof.
  split; [vm_compute; reflexivity|]. change (describes (42 :: [97; 47; 98])%N ([] ++ [97; 47; 98])%N).
  apply d_star; [simpl; tauto|]. repeat (apply d_literal; [discriminate|discriminate|]). constructor.
Qed.
Print Assumptions C60_prefix_separator.
Example C60_example : simple (utf8 (tx "a*t?b*")) /\ glob_match (tx "a*t?b*") (tx "attxtbbb") = true /\
  describes (utf8 (tx "a*t?b*")) (utf8 (tx "attxbbb")).
Proof.
  split; [|split; [vm_compute; reflexivity|]].
  - split; [|split].
    + intros c Hc H. simpl in Hc. vm_compute in H. intuition (subst; discriminate).
    + vm_compute. discriminate.
    + intros a b H. change (utf8 (tx "a*t?b*")) with [97; 42; 116; 63; 98; 42]%N in H.
      do 7 (destruct a as [|? a]; [discriminate H|try (injection H as -> H)]); discriminate.
  - change (describes [97; 42; 116; 63; 98; 42]%N ([97]%N ++ [116]%N ++ [116; 120; 98]%N ++ [98; 98]%N ++ [])).
    apply d_literal; [discriminate|discriminate|]. apply d_star; [simpl; intuition discriminate|].
    apply d_literal; [discriminate|discriminate|]. apply d_any; [discriminate|]. apply d_literal; [discriminate|discriminate|].
    apply d_star; [simpl; intuition discriminate|constructor].
Qed.

(* ------------------------------------------------------------------ *)
(** * Leading negations *)

Section Negation.
  Variables (glob path : list N) (ip : bool).
  Hypothesis Hclass : forall c, In c [91; 123; 92]%N -> ~ In c glob.
  Notation none := (mk_bs [] None).

  Definition flip (r : res gout) : res gout :=
    match r with Ok (GRet b) => Ok (GRet (negb b)) | r => r end.
  Lemma give_up_flip st : give_up path ip true st = negb (give_up path ip false st).
  Proof. unfold give_up. destruct ip; reflexivity. Qed.
  Lemma no_match_flip st : no_match glob path ip true st none = flip (no_match glob path ip false st none).
  Proof. unfold no_match. destruct (can_backtrack path st); [reflexivity|]. cbn [b_stack flip]. now rewrite give_up_flip. Qed.
  (** outside groups, without classes and escapes, no pattern byte is invalid *)
  Lemma arm_simple st : g_glob st < List.length glob ->
    (exists st', arm glob path st none = Ok (GCont st' none)) \/ (exists st', arm glob path st none = Ok (GFail st' none)) \/
    (exists s, arm glob path st none = Panic s) \/ arm glob path st none = Fuel.
  Proof.
    intros Hl. destruct (nth_error glob (g_glob st)) as [c|] eqn:En; [|apply nth_error_None in En; lia].
    assert (Ic : In c glob) by (eapply nth_error_In; eassumption).
    assert (Hk : forall k, In k [91; 123; 92]%N -> (c =? k)%N = false).
    { intros k Hk. apply N.eqb_neq. intros ->. exact (Hclass _ Hk Ic). }
    unfold arm, at_. rewrite En. cbn [bind]. rewrite (Hk 91%N), (Hk 123%N) by (simpl; tauto).
    cbn [andb b_stack]. rewrite !andb_false_r.
    destruct (c =? 42)%N.
    - unfold arm_star. cbv zeta. cbn [b_stack].
      repeat match goal with
      | |- context [bind (if ?b then _ else _) _] => destruct b
      | |- context [bind ?x _] => destruct x as [?|?|]; cbn [bind]
      | |- context [let '(_, _) := ?p in _] => destruct p
      | |- context [if ?b then _ else _] => destruct b
      end; cbn [bind]; eauto 6.
    - destruct (c =? 63)%N; cbn [andb].
      + destruct (Nat.ltb (g_path st) (List.length path)); [|eauto].
        destruct (nth_error path (g_path st)); cbn [bind]; [|eauto]. destruct (negb _); eauto.
      + destruct (Nat.ltb (g_path st) (List.length path)); [|eauto].
        unfold arm_literal, unescape. rewrite (Hk 92%N) by (simpl; tauto). cbv zeta. unfold at_.
        destruct (nth_error path _); cbn [bind]; [|eauto]. cbn [b_stack].
        match goal with |- context [if ?b then bind _ _ else _] => destruct b end; [|eauto].
        cbn [bind]. eauto.
  Qed.
  Lemma step_flip st : gstep glob path ip true st none = flip (gstep glob path ip false st none).
  Proof.
    unfold gstep. destruct (_ || _)%bool eqn:O; [|reflexivity].
    destruct (Nat.ltb_spec (g_glob st) (List.length glob)) as [Hl|Hl].
    - destruct (arm_simple st Hl) as [(st' & E)|[(st' & E)|[(s & E)|E]]]; rewrite E; cbn [bind flip]; try reflexivity.
      apply no_match_flip.
    - cbn [bind]. apply no_match_flip.
  Qed.
  Lemma step_none neg st st' bs' : gstep glob path ip neg st none = Ok (GCont st' bs') -> bs' = none.
  Proof.
    unfold gstep. destruct (_ || _)%bool eqn:O; [|cbn; discriminate].
    assert (K : forall s, no_match glob path ip neg s none = Ok (GCont st' bs') -> bs' = none).
    { intros s. unfold no_match. destruct (can_backtrack path s); [now intros [= _ <-]|cbn; discriminate]. }
    destruct (Nat.ltb_spec (g_glob st) (List.length glob)) as [Hl|Hl].
    - destruct (arm_simple st Hl) as [(s & E)|[(s & E)|[(s & E)|E]]]; rewrite E; cbn [bind]; try discriminate.
      + now intros [= _ <-].
      + apply K.
    - cbn [bind]. apply K.
  Qed.
  Lemma loop_flip n : forall st b, gloop glob path ip false n st none = Ok b ->
    gloop glob path ip true n st none = Ok (negb b).
  Proof.
    induction n as [|n IH]; intros st b; cbn [gloop]; [discriminate|]. rewrite step_flip.
    destruct (gstep glob path ip false st none) as [[b'|st' bs'|st' bs']| |] eqn:E; cbn [bind flip]; try discriminate.
    - now intros [= <-].
    - apply step_none in E as ->. apply IH.
  Qed.
End Negation.

Lemma bangs k g : (forall r, g <> 33%N :: r) -> forall i b,
  leading_bangs (repeat 33%N k ++ g) i b = (k + i, if Nat.even k then b else negb b).
Proof.
  intros H. induction k as [|k IH]; intros i b.
  - cbn [repeat app]. now rewrite no_bang.
  - cbn [repeat app leading_bangs]. rewrite IH. f_equal; [lia|]. rewrite Nat.even_succ, <- Nat.negb_even.
    destruct (Nat.even k), b; reflexivity.
Qed.
Lemma negated_run ip k g l : simple g -> (ip = true -> ~ In 47%N l) ->
  exists b, glob_run (repeat 33%N k ++ g) l ip = Ok b /\
    (b = true <-> if Nat.even k then asked ip g l else ~ asked ip g l).
Proof.
  intros (H1 & H2 & H3) H4. set (glob := repeat 33%N k ++ g).
  assert (H1' : forall c, In c [91; 123; 92]%N -> ~ In c glob).
  { intros c Hc I. apply in_app_or in I as [I|I]; [|exact (H1 c Hc I)]. apply repeat_spec in I. subst c.
    simpl in Hc. intuition discriminate. }
  assert (H3' : forall a b, glob <> a ++ 42%N :: 42%N :: b).
  { unfold glob. intros a b E. clear glob H1'. revert a E. induction k as [|k IH]; intros a E; [exact (H3 a b E)|].
    destruct a as [|x a]; [discriminate|]. injection E as _ E. exact (IH a E). }
  destruct (wild_loop glob l ip H1' H3' H4 _ (repeat 33%N k) [] g [] [] l wc0 wc0 (le_n _) eq_refl eq_refl ltac:(constructor) eq_refl ltac:(left; reflexivity))
    as (n & b & Hn & E & Hb).
  assert (Hb' : b = true <-> asked ip g l).
  { rewrite Hb. split; [|auto]. intros [A|((q & _ & Ew & _) & _)]; [assumption|discriminate]. }
  rewrite (app_nil_r (repeat 33%N k)), repeat_length in E. cbn [app List.length] in E.
  assert (Hbits : n <= 2 ^ glob_bits glob l).
  { cbn [app] in Hn. pose proof (glob_bits_enough glob l) as K.
    assert (List.length g <= List.length glob) by (unfold glob; rewrite app_length; lia).
    assert (S ((List.length l + 1) * (List.length glob + 2) + List.length g) <= (B glob l + 1) ^ 11); [|lia].
    apply Nat.le_trans with ((B glob l + 1) ^ 2); [|apply Nat.pow_le_mono_r; lia].
    unfold B. cbn [Nat.pow]. nia. }
  exists (if Nat.even k then b else negb b). split.
  - apply (glob_run_conv _ _ _ n); [|exact Hbits].
    unfold glob_internal, glob. rewrite bangs by assumption. rewrite Nat.add_0_r.
    destruct (Nat.even k); cbn [negb]; [exact E|]. apply loop_flip; assumption.
  - destruct (Nat.even k); [assumption|]. rewrite <- Hb'. destruct b; split; intros H; try discriminate; try reflexivity.
    congruence.
Qed.
(** Every leading [!] negates: with an even number of them the pattern matches
    what the rest describes, with an odd number everything else. *)
Theorem C60_negation : forall k glob g path, utf8 glob = repeat 33%N k ++ g -> simple g ->
  (glob_match glob path = true <->
     if Nat.even k then describes g (utf8 path) else ~ describes g (utf8 path)) /\
  (~ In 47%N (utf8 path) ->
   (glob_match_prefix glob path = true <->
     if Nat.even k then exists rest, describes g (utf8 path ++ rest)
     else ~ exists rest, describes g (utf8 path ++ rest))).
Proof.
  intros k glob g path E H. unfold glob_match, glob_match_prefix. rewrite E. split.
  - destruct (negated_run false k g (utf8 path) H ltac:(discriminate)) as (b & -> & Hb). exact Hb.
  - intros Hp. destruct (negated_run true k g (utf8 path) H (fun _ => Hp)) as (b & -> & Hb). exact Hb.
Qed.
Print Assumptions C60_negation.
Example C60_negation_example : glob_match (tx "!!a*") (tx "ab") = true /\ glob_match (tx "!a*") (tx "ab") = false.
Proof. split; vm_compute; reflexivity. Qed.
