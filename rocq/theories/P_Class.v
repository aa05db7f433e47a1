(** C66: patterns with character classes and escapes.  A pattern of literals, escapes,
    [?], [*] and character classes matches exactly the paths its elements
    describe, whatever the backtracking does. *)
From Verif Require Import Base BaseFacts Glob GlobFacts P_Glob P_Wild.
From Coq Require Import List NArith Lia Bool.
Import ListNotations.
Local Open Scope nat_scope.

(* ------------------------------------------------------------------ *)
(** * Specification *)

(** The elements of a pattern *)
Inductive elt :=
| Star                                        (* any string without a separator *)
| AnyByte                                     (* one byte that is no separator *)
| Exactly (v : N)                             (* this byte *)
| OneOf (neg : bool) (ranges : list (N * N)). (* one byte in (or in none) of these ranges *)
Definition in_ranges (rs : list (N * N)) (x : N) : Prop :=
  exists lo hi, In (lo, hi) rs /\ (lo <= x <= hi)%N.
Definition holds (e : elt) (x : N) : Prop :=
  match e with
  | Star => False
  | AnyByte => x <> 47%N
  | Exactly v => x = v
  | OneOf neg rs => if neg then ~ in_ranges rs x else in_ranges rs x
  end.
Inductive fits : list elt -> list N -> Prop :=
| fits_nil : fits [] []
| fits_star s es l : ~ In 47%N s -> fits es l -> fits (Star :: es) (s ++ l)
| fits_one e x es l : holds e x -> fits es l -> fits (e :: es) (x :: l).

(** How elements are written.  An escaped byte stands for itself, except the
    four control characters *)
Definition unescaped (e : N) : N :=
  match e with 98 => 8 | 110 => 10 | 114 => 13 | 116 => 9 | e => e end%N.
(** a byte in a class, plain or escaped *)
Inductive atom : list N -> N -> Prop :=
| atom_plain c : c <> 92%N -> atom [c] c
| atom_escaped e : atom [92%N; e] (unescaped e).
(** the inside of a class; [first]: a [\]] may come first and is then a member.
    A dash is a range when bytes stand on both sides *)
Inductive members : bool -> list N -> list (N * N) -> Prop :=
| members_end : members false [] []
| members_byte first t v r rs : atom t v -> (first = false -> t <> [93%N]) ->
    (forall h r', r <> 45%N :: h :: r') -> members false r rs -> members first (t ++ r) ((v, v) :: rs)
| members_range first t lo u hi r rs : atom t lo -> (first = false -> t <> [93%N]) -> atom u hi -> u <> [93%N] ->
    members false r rs -> members first (t ++ 45%N :: u ++ r) ((lo, hi) :: rs).
Inductive piece : list N -> elt -> Prop :=
| piece_star : piece [42%N] Star
| piece_any : piece [63%N] AnyByte
| piece_literal c : ~ In c [42; 63; 91; 92; 123]%N -> piece [c] (Exactly c)
| piece_escape e : piece [92%N; e] (Exactly (unescaped e))
| piece_class t rs : members true t rs -> (forall r, t <> 33%N :: r) -> (forall r, t <> 94%N :: r) ->
    piece (91%N :: t ++ [93%N]) (OneOf false rs)
| piece_not_class c t rs : c = 33%N \/ c = 94%N -> members true t rs ->
    piece (91%N :: c :: t ++ [93%N]) (OneOf true rs).
(** a pattern without groups and double stars, cut into its elements *)
Definition reads (g : list N) (es : list elt) : Prop :=
  exists ts, Forall2 piece ts es /\ g = List.concat ts /\ forall a b, es <> a ++ Star :: Star :: b.

(* ------------------------------------------------------------------ *)
(** * Facts about the specification *)

Lemma fits_cons e es l : e <> Star -> fits (e :: es) l -> exists x l', l = x :: l' /\ holds e x /\ fits es l'.
Proof.
  intros He H. inversion H as [|s g' l' Hs D|e' x g' l' Hx D]; subst; [congruence|eauto].
Qed.
Lemma fits_star_inv es l : fits (Star :: es) l -> exists s l', l = s ++ l' /\ ~ In 47%N s /\ fits es l'.
Proof.
  intros H. inversion H as [|s g' l' Hs D|e' x g' l' Hx D]; subst; [eauto|destruct Hx].
Qed.
(** what is asked: to fit, or to fit a front part of the pattern *)
Definition wanted (ip : bool) (es : list elt) (l : list N) : Prop :=
  if ip then exists e1 e2, es = e1 ++ e2 /\ fits e1 l else fits es l.
Lemma wanted_nil ip l : wanted ip [] l <-> l = [].
Proof.
  assert (K : forall m, fits [] m -> m = []) by (intros m D; now inversion D).
  destruct ip; cbn [wanted]; split.
  - intros (e1 & e2 & E & H). symmetry in E. apply app_eq_nil in E as [-> ->]. auto.
  - intros ->. exists [], []. split; [reflexivity|constructor].
  - auto.
  - intros ->. constructor.
Qed.
Lemma wanted_end ip e es : e <> Star -> (wanted ip (e :: es) [] <-> ip = true).
Proof.
  intros He. destruct ip; cbn [wanted]; split; intros H; try discriminate; try reflexivity.
  - exists [], (e :: es). split; [reflexivity|constructor].
  - destruct (fits_cons _ _ _ He H) as (x & l' & E & _). discriminate.
Qed.
Lemma wanted_cons ip e es x l : e <> Star -> (wanted ip (e :: es) (x :: l) <-> holds e x /\ wanted ip es l).
Proof.
  intros He. destruct ip; cbn [wanted]; split.
  - intros (e1 & e2 & E & H). destruct e1 as [|e' e1]; [inversion H|]. injection E as <- ->.
    destruct (fits_cons _ _ _ He H) as (x' & l' & [= <- <-] & O & D). eauto 6.
  - intros (O & e1 & e2 & -> & D). exists (e :: e1), e2. split; [reflexivity|now constructor].
  - intros H. destruct (fits_cons _ _ _ He H) as (x' & l' & [= <- <-] & O & D). auto.
  - intros (O & D). now constructor.
Qed.
Lemma wanted_absorb es l : ~ In 47%N l -> wanted true (Star :: es) l.
Proof.
  intros H. exists [Star], es. split; [reflexivity|]. rewrite <- (app_nil_r l). constructor; [assumption|constructor].
Qed.
Lemma wanted_star ip es l : wanted ip (Star :: es) l <->
  wanted ip es l \/ exists x l', l = x :: l' /\ x <> 47%N /\ wanted ip (Star :: es) l'.
Proof.
  assert (K1 : forall e l, fits (Star :: e) l -> fits e l \/ exists x l', l = x :: l' /\ x <> 47%N /\ fits (Star :: e) l').
  { intros e m H. destruct (fits_star_inv _ _ H) as (s & l' & -> & Hs & D). destruct s as [|y s]; [left; exact D|].
    right. exists y, (s ++ l'). split; [reflexivity|]. split; [intros ->; apply Hs; simpl; auto|].
    constructor; [|assumption]. intros I. apply Hs. simpl; auto. }
  assert (K2 : forall e x m, x <> 47%N -> fits (Star :: e) m -> fits (Star :: e) (x :: m)).
  { intros e x m Hx D. destruct (fits_star_inv _ _ D) as (s & m' & -> & Hs & D'). apply (fits_star (x :: s) e m'); [|assumption].
    intros [I|I]; [now apply Hx|contradiction]. }
  assert (K3 : forall e m, fits e m -> fits (Star :: e) m).
  { intros e m D. apply (fits_star [] e m); [simpl; tauto|assumption]. }
  split.
  - destruct ip; cbn [wanted]; [|auto]. intros (e1 & e2 & E & H). destruct e1 as [|e' e1].
    + inversion H; subst. left. exists [], es. split; [reflexivity|constructor].
    + injection E as <- ->. destruct (K1 _ _ H) as [A|(x & l' & -> & Hx & A)]; [left; eauto|].
      right. exists x, l'. split; [reflexivity|]. split; [assumption|]. exists (Star :: e1), e2. auto.
  - intros [H|(x & l' & -> & Hx & H)].
    + destruct ip; cbn [wanted] in *; [|auto]. destruct H as (e1 & e2 & -> & D). exists (Star :: e1), e2. auto.
    + destruct ip; cbn [wanted] in *; [|auto]. destruct H as (e1 & e2 & E & D). destruct e1 as [|e' e1].
      * inversion D; subst. exists [Star], es. split; [reflexivity|]. apply K2; [assumption|]. apply K3. constructor.
      * injection E as <- ->. exists (Star :: e1), e2. auto.
Qed.
Lemma wanted_star_many ip es l : wanted ip (Star :: es) l ->
  exists s l', l = s ++ l' /\ ~ In 47%N s /\ wanted ip es l'.
Proof.
  induction l as [|x l IH]; intros H; apply wanted_star in H as [H|(x' & l' & E & Hx & H)].
  - exists [], []. simpl; auto.
  - discriminate.
  - exists [], (x :: l). simpl; auto.
  - injection E as <- <-. destruct (IH H) as (s & l' & -> & Hs & D). exists (x :: s), l'.
    split; [reflexivity|]. split; [|assumption]. intros [I|I]; [now apply Hx|contradiction].
Qed.
Lemma wanted_star_intro ip es s l : ~ In 47%N s -> wanted ip (Star :: es) l -> wanted ip (Star :: es) (s ++ l).
Proof.
  induction s as [|x s IH]; intros Hs H; [exact H|]. cbn [app]. apply wanted_star. right.
  exists x, (s ++ l). split; [reflexivity|]. split; [intros ->; apply Hs; simpl; auto|].
  apply IH; [intros I; apply Hs; simpl; auto|assumption].
Qed.
Lemma holds_star e x : holds e x -> e <> Star.
Proof. now intros H ->. Qed.
(** a part without stars *)
Lemma wanted_mid ip mid es : Forall (fun e => e <> Star) mid -> forall l, wanted ip (mid ++ es) l ->
  (exists m l', l = m ++ l' /\ Forall2 holds mid m /\ wanted ip es l') \/
  (ip = true /\ exists mid1 mid2, mid = mid1 ++ mid2 /\ mid2 <> [] /\ Forall2 holds mid1 l).
Proof.
  induction 1 as [|e mid He Hm IH]; intros l H.
  - left. exists [], l. repeat split; auto.
  - cbn [app] in H. destruct l as [|x l].
    + apply wanted_end in H; [|assumption]. right. split; [assumption|]. exists [], (e :: mid).
      split; [reflexivity|]. split; [discriminate|constructor].
    + apply wanted_cons in H as [O H]; [|assumption]. destruct (IH l H) as [(m & l' & -> & F & A)|(-> & m1 & m2 & -> & N & F)].
      * left. exists (x :: m), l'. split; [reflexivity|]. split; [now constructor|assumption].
      * right. split; [reflexivity|]. exists (e :: m1), m2. split; [reflexivity|]. split; [assumption|now constructor].
Qed.
(** elements whose bytes show whether they are separators *)
Definition tame (e : elt) : Prop := match e with OneOf _ _ => ~ holds e 47%N | _ => True end.
Definition mark (e : elt) : N := match e with Exactly v => v | _ => 0%N end.
Lemma sep_holds mid m : Forall tame mid -> Forall2 holds mid m -> sep_at m = sep_at (map mark mid).
Proof.
  intros T F. induction F as [|e x mid m O _ IH]; [reflexivity|]. apply Forall_cons_iff in T as [T1 T].
  cbn [sep_at map]. rewrite (IH T).
  assert (H : x = 47%N <-> mark e = 47%N).
  { destruct e; cbn [holds mark tame] in *.
    - destruct O.
    - split; [contradiction|discriminate].
    - now subst.
    - split; [|discriminate]. intros ->. contradiction. }
  destruct (N.eqb_spec x 47), (N.eqb_spec (mark e) 47); tauto || reflexivity.
Qed.
(** a later star makes the earlier one unnecessary *)
Lemma later_star ip mid es e u' m0 l : (~ In 47%N (m0 ++ l) \/ Forall tame mid) ->
  Forall2 holds mid m0 -> e <> [] -> ~ In 47%N e ->
  m0 ++ l = e ++ u' -> wanted ip (mid ++ Star :: es) u' -> wanted ip (Star :: es) l.
Proof.
  intros T F Ne He E A.
  assert (Hm : Forall (fun c => c <> Star) mid).
  { clear -F. induction F as [|c x mid m O _ IH]; constructor; auto. exact (holds_star _ _ O). }
  destruct (wanted_mid ip mid (Star :: es) Hm u' A) as [(m1 & l1 & -> & F1 & A1)|(-> & mid1 & mid2 & -> & N2 & F1)].
  - pose proof (Forall2_length _ _ _ F) as L0. pose proof (Forall2_length _ _ _ F1) as L1.
    destruct (app_len m0 l (e ++ m1) l1) as (t & Et & ->); [rewrite E; now rewrite app_assoc|rewrite app_length; lia|].
    apply wanted_star_intro; [|assumption].
    assert (K : ~ In 47%N m1).
    { destruct T as [T|T]; [intros I; apply T; rewrite E; apply in_or_app; right; apply in_or_app; auto|].
      apply sep_none. rewrite (sep_holds _ _ T F1). destruct (sep_at (map mark mid)) as [j|] eqn:J; [exfalso|reflexivity].
      pose proof (sep_app_in m0 (t ++ l1) j) as Q1. rewrite (sep_holds _ _ T F) in Q1. specialize (Q1 J).
      rewrite E, (sep_app_out e) in Q1 by assumption. rewrite (sep_app_in m1 l1 j) in Q1 by (now rewrite (sep_holds _ _ T F1)).
      cbn in Q1. injection Q1 as Q1. destruct e; [congruence|simpl in Q1; lia]. }
    intros I. assert (I' : In 47%N (e ++ m1)) by (rewrite Et; apply in_or_app; auto).
    apply in_app_or in I' as [I'|I']; contradiction.
  - apply wanted_absorb. destruct T as [T|T]; [intros I; apply T; apply in_or_app; auto|].
    assert (T1 : Forall tame mid1) by (apply Forall_app in T; tauto).
    assert (K : sep_at (e ++ u') = None).
    { rewrite sep_app_out by assumption. destruct (sep_at u') as [j|] eqn:J; [exfalso|reflexivity].
      rewrite (sep_holds _ _ T1 F1) in J.
      pose proof (sep_app_in (map mark mid1) (map mark mid2) j J) as Q1. rewrite <- map_app, <- (sep_holds _ _ T F) in Q1.
      pose proof (sep_app_in m0 l j Q1) as Q2. rewrite E, sep_app_out in Q2 by assumption.
      rewrite (sep_holds _ _ T1 F1), J in Q2. cbn in Q2. injection Q2 as Q2. destruct e; [congruence|simpl in Q2; lia]. }
    rewrite <- E in K. apply sep_none in K. intros I. apply K. apply in_or_app. auto.
Qed.

(* ------------------------------------------------------------------ *)
(** * The matcher *)

Lemma unescaped_is e : (if e =? 97 then 0x61 else if e =? 98 then 8 else if e =? 110 then 10
             else if e =? 114 then 13 else if e =? 116 then 9 else e)%N = unescaped e.
Proof.
  destruct (N.eqb_spec e 97) as [->|H1]; [reflexivity|]. destruct (N.eqb_spec e 98) as [->|H2]; [reflexivity|].
  destruct (N.eqb_spec e 110) as [->|H3]; [reflexivity|]. destruct (N.eqb_spec e 114) as [->|H4]; [reflexivity|].
  destruct (N.eqb_spec e 116) as [->|H5]; [reflexivity|].
  unfold unescaped. destruct e as [|p]; [reflexivity|].
  repeat (destruct p as [p|p|]; try reflexivity); congruence.
Qed.
Lemma nth_second (pre : list N) a b r : nth_error (pre ++ a :: b :: r) (S (List.length pre)) = Some b.
Proof.
  replace (S (List.length pre)) with (List.length pre + 1) by lia. rewrite nth_error_app2 by lia.
  replace (List.length pre + 1 - List.length pre) with 1 by lia. reflexivity.
Qed.
Lemma unescape_escaped glob pre e r : glob = pre ++ 92%N :: e :: r ->
  unescape 92%N glob (List.length pre) = Some (unescaped e, S (List.length pre)).
Proof. intros ->. unfold unescape. rewrite nth_second. cbn [N.eqb Pos.eqb]. now rewrite unescaped_is. Qed.
Lemma atom_read t v glob pre r : atom t v -> glob = pre ++ t ++ r ->
  exists c u, t = c :: u /\ nth_error glob (List.length pre) = Some c /\
    unescape c glob (List.length pre) = Some (v, List.length pre + List.length u).
Proof.
  intros A E. destruct A as [c Hc|e].
  - exists c, []. split; [reflexivity|]. split; [rewrite E; apply P_Glob.nth_middle|].
    unfold unescape. apply N.eqb_neq in Hc. rewrite Hc, Nat.add_0_r. reflexivity.
  - exists 92%N, [e]. split; [reflexivity|]. cbn [app] in E. split; [rewrite E; apply P_Glob.nth_middle|].
    rewrite (unescape_escaped glob pre e r E). do 2 f_equal. simpl. lia.
Qed.
Definition in_rangesb (rs : list (N * N)) (x : N) : bool :=
  existsb (fun p => (fst p <=? x)%N && (x <=? snd p)%N) rs.
Lemma in_ranges_b rs x : in_rangesb rs x = true <-> in_ranges rs x.
Proof.
  unfold in_rangesb, in_ranges. rewrite existsb_exists. split.
  - intros ((lo & hi) & I & H). apply andb_true_iff in H as [H1 H2]. apply N.leb_le in H1, H2. simpl in *. eauto 6.
  - intros (lo & hi & I & H1 & H2). exists (lo, hi). split; [assumption|]. apply andb_true_iff. split; now apply N.leb_le.
Qed.
Lemma members_loop glob c r : forall first u rs, members first u rs -> forall fuel m pre,
  glob = pre ++ u ++ 93%N :: r -> List.length u < fuel ->
  class_loop glob fuel c first m (List.length pre) = Ok (Some (List.length pre + List.length u, m || in_rangesb rs c)).
Proof.
  assert (W : forall (first : bool) (t : list N) (x : N) u, t = x :: u -> (forall v, atom t v -> (first = false -> t <> [93%N]) -> negb first && (x =? 93)%N = false)).
  { intros first t x u -> v A H. destruct first; [reflexivity|]. cbn [negb andb]. apply N.eqb_neq. intros ->.
    inversion A; subst. now apply (H eq_refl). }
  induction 1 as [|first t v u rs A H1 H2 M IH|first t lo w hi u rs A H1 A2 H2 M IH]; intros fuel m pre E Hf.
  - destruct fuel as [|fuel]; [simpl in Hf; lia|]. cbn [class_loop]. cbn [app] in E.
    assert (En : nth_error glob (List.length pre) = Some 93%N) by (rewrite E; apply P_Glob.nth_middle).
    assert (Nat.ltb (List.length pre) (List.length glob) = true) as ->.
    { apply Nat.ltb_lt. apply nth_error_Some. congruence. }
    unfold at_. rewrite En. cbn [bind]. cbn [List.length in_rangesb existsb]. rewrite Nat.add_0_r, orb_false_r. reflexivity.
  - rewrite <- app_assoc in E.
    destruct (atom_read t v glob pre (u ++ 93%N :: r) A E) as (x & t' & Et & En & Eu).
    destruct fuel as [|fuel]; [lia|]. cbn [class_loop].
    assert (Nat.ltb (List.length pre) (List.length glob) = true) as ->.
    { apply Nat.ltb_lt. apply nth_error_Some. congruence. }
    unfold at_ at 1. rewrite En. cbn [bind]. rewrite (W first t x t' Et v A H1), Eu.
    assert (Er : match nth_error glob (S (List.length pre + List.length t')), nth_error glob (S (S (List.length pre + List.length t'))) with
                 | Some a, Some b => (a =? 45)%N && negb (b =? 93)%N | _, _ => false end = false).
    { replace (S (List.length pre + List.length t')) with (List.length (pre ++ t)) by (rewrite app_length, Et; simpl; lia).
      rewrite app_assoc in E. destruct u as [|y u].
      - cbn [app] in E. rewrite E at 1. rewrite P_Glob.nth_middle. destruct (nth_error glob (S (List.length (pre ++ t)))); reflexivity.
      - cbn [app] in E. rewrite E at 1. rewrite P_Glob.nth_middle. destruct (N.eqb_spec y 45) as [->|Hy].
        + destruct u as [|h u]; [|exfalso; exact (H2 h u eq_refl)]. cbn [app] in E. rewrite E, nth_second. reflexivity.
        + destruct (nth_error glob (S (List.length (pre ++ t)))); reflexivity. }
    rewrite Er. cbn [bind].
    replace (S (List.length pre + List.length t')) with (List.length (pre ++ t)) by (rewrite app_length, Et; simpl; lia).
    rewrite app_length in Hf. assert (Lt : List.length t = S (List.length t')) by (now rewrite Et).
    rewrite (IH fuel _ (pre ++ t)) by (rewrite <- ?app_assoc; auto; lia).
    unfold in_rangesb. cbn [existsb fst snd]. rewrite orb_assoc, !app_length, Nat.add_assoc. reflexivity.
  - rewrite <- app_assoc in E. cbn [app] in E. rewrite <- app_assoc in E.
    destruct (atom_read t lo glob pre (45%N :: w ++ u ++ 93%N :: r) A E) as (x & t' & Et & En & Eu).
    destruct fuel as [|fuel]; [lia|]. cbn [class_loop].
    assert (Nat.ltb (List.length pre) (List.length glob) = true) as ->.
    { apply Nat.ltb_lt. apply nth_error_Some. congruence. }
    unfold at_ at 1. rewrite En. cbn [bind]. rewrite (W first t x t' Et lo A H1), Eu.
    replace (S (List.length pre + List.length t')) with (List.length (pre ++ t)) by (rewrite app_length, Et; simpl; lia).
    assert (E2 : glob = ((pre ++ t) ++ [45%N]) ++ w ++ u ++ 93%N :: r) by (rewrite <- !app_assoc; exact E).
    destruct (atom_read w hi glob ((pre ++ t) ++ [45%N]) (u ++ 93%N :: r) A2 E2) as (y & w' & Ew & En2 & Eu2).
    assert (E45 : nth_error glob (List.length (pre ++ t)) = Some 45%N).
    { rewrite app_assoc in E. rewrite E. apply P_Glob.nth_middle. }
    replace (S (List.length (pre ++ t))) with (List.length ((pre ++ t) ++ [45%N])) by (rewrite (app_length (pre ++ t)); simpl; lia).
    rewrite E45, En2.
    assert (Hy : (y =? 93)%N = false).
    { apply N.eqb_neq. intros ->. inversion A2; subst; congruence. }
    rewrite Hy. cbn [andb negb N.eqb Pos.eqb]. unfold at_. rewrite En2. cbn [bind]. rewrite Eu2. cbn [bind].
    replace (S (List.length ((pre ++ t) ++ [45%N]) + List.length w')) with (List.length (((pre ++ t) ++ [45%N]) ++ w))
      by (rewrite !app_length, Ew; simpl; lia).
    rewrite !app_length in Hf. cbn [List.length] in Hf. rewrite app_length in Hf.
    assert (Lt : List.length t = S (List.length t')) by (now rewrite Et).
    rewrite (IH fuel _ (((pre ++ t) ++ [45%N]) ++ w)); [|rewrite <- !app_assoc; exact E|lia].
    unfold in_rangesb. cbn [existsb fst snd]. rewrite orb_assoc. do 3 f_equal. rewrite !app_length. cbn [List.length]. rewrite app_length. lia.
Qed.
Lemma members_nonempty first t rs : members first t rs -> first = true -> exists c r, t = c :: r.
Proof. intros [|? ? ? ? ? [] ? ? ?|? ? ? ? ? ? ? [] ? ? ? ?]; simpl; try discriminate; eauto. Qed.

Lemma piece_nonempty t e : piece t e -> t <> [].
Proof. now intros []. Qed.
Lemma piece_head t e : piece t e -> e <> Star -> forall r, t <> 42%N :: r.
Proof. intros K H r. destruct K as [ | |c Hc|e|t rs M _ _|c t rs _ M]; try discriminate; try congruence. intros [= -> _]. simpl in Hc. tauto. Qed.

Section Classes.
  Variables (glob path : list N) (ip neg : bool).
  (** prefixes of paths with separators are left out *)
  Hypothesis Hsep : ip = true -> ~ In 47%N path.
  Notation G := (List.length glob).
  Notation P := (List.length path).
  Notation step := (gstep glob path ip neg).
  Notation loop := (gloop glob path ip neg).
  Notation none := (mk_bs [] None).

  Lemma step_at st bs : g_glob st < G -> step st bs =
    bind (arm glob path st bs) (fun o => match o with GFail st bs => no_match glob path ip neg st bs | o => Ok o end).
  Proof. intros H. unfold gstep. destruct (Nat.ltb_spec (g_glob st) G); [|lia]. reflexivity. Qed.

  Lemma star_steps pre g p0 l wild star : glob = pre ++ 42%N :: g -> (forall r, g <> 42%N :: r) -> path = p0 ++ l -> w_path star = 0 ->
    exists w', (match l with
                | x :: _ => if (x =? 47)%N then w_path w' = 0 else w' = mk_wc (List.length pre) (S (List.length p0))
                | [] => w' = mk_wc (List.length pre) (S (List.length p0))
                end) /\
    step (mk_gst (List.length p0) (List.length pre) wild star) none =
      Ok (GCont (mk_gst (List.length p0) (S (List.length pre)) w' star) none).
  Proof.
    intros Eg Hg Ep Hs.
    assert (En : nth_error glob (List.length pre) = Some 42%N) by (rewrite Eg; apply P_Glob.nth_middle).
    assert (E1 : match nth_error glob (S (List.length pre)) with Some 42%N => true | _ => false end = false).
    { destruct (nth_error glob (S (List.length pre))) as [c|] eqn:E; [|reflexivity].
      destruct (N.eq_dec c 42) as [->|Hc].
      - exfalso. rewrite Eg in E. replace (S (List.length pre)) with (List.length pre + 1) in E by lia.
        rewrite nth_error_app2 in E by lia. replace (List.length pre + 1 - List.length pre) with 1 in E by lia. simpl in E.
        destruct g as [|y g]; [discriminate|]. injection E as ->. exact (Hg _ eq_refl).
      - destruct c as [|c]; [reflexivity|]. repeat (destruct c as [c|c|]; try reflexivity). congruence. }
    rewrite step_at by (cbn [g_glob]; apply nth_error_Some; congruence).
    unfold arm, at_. cbn [g_glob]. rewrite En. cbn [bind N.eqb Pos.eqb]. unfold arm_star. cbn [g_glob g_path g_star].
    cbv zeta. rewrite E1. cbn [bind]. rewrite Hs. cbn [w_path]. rewrite Nat.add_1_r. cbn [Nat.eqb negb andb b_stack].
    destruct l as [|x l].
    - assert (Nat.ltb (List.length p0) P = false) as ->.
      { apply Nat.ltb_ge. rewrite Ep, app_nil_r. lia. }
      eexists. split; [reflexivity|]. reflexivity.
    - assert (Nat.ltb (List.length p0) P = true) as ->.
      { apply Nat.ltb_lt. rewrite Ep, app_length. simpl. lia. }
      assert (nth_error path (List.length p0) = Some x) as Ex by (rewrite Ep; apply P_Glob.nth_middle).
      unfold at_. rewrite Ex. cbn [bind]. unfold is_sep.
      destruct (N.eqb_spec x 47) as [->|Hx]; eexists; (split; [|reflexivity]); reflexivity.
  Qed.

  (** the class arm on a well-formed class *)
  Lemma class_arm pre c0 t rs (ng : bool) r p0 x l wild star : glob = pre ++ 91%N :: c0 ++ t ++ 93%N :: r -> path = p0 ++ x :: l ->
    members true t rs ->
    (ng = true /\ (c0 = [33%N] \/ c0 = [94%N]) \/ ng = false /\ c0 = [] /\ (forall r, t <> 33%N :: r) /\ (forall r, t <> 94%N :: r)) ->
    let st' p := mk_gst p (List.length (pre ++ 91%N :: c0 ++ t ++ [93%N])) wild star in
    arm_class glob path (mk_gst (List.length p0) (List.length pre) wild star) none =
      Ok (if xorb (in_rangesb rs x) ng then GCont (st' (S (List.length p0))) none else GFail (st' (List.length p0)) none).
  Proof.
    intros Eg Ep M Hc st'. unfold arm_class. cbn [g_glob g_path g_wild g_star].
    assert (nth_error path (List.length p0) = Some x) as Ex by (rewrite Ep; apply P_Glob.nth_middle).
    unfold at_ at 1. rewrite Ex. cbn [bind].
    assert (E1 : (match nth_error glob (S (List.length pre)) with
                  | Some y => if (y =? 94)%N || (y =? 33)%N then (true, S (S (List.length pre))) else (false, S (List.length pre))
                  | None => (false, S (List.length pre)) end) = (ng, List.length (pre ++ 91%N :: c0))).
    { destruct Hc as [(-> & [-> | ->])|(-> & -> & H1 & H2)].
      - cbn [app] in Eg. rewrite Eg, nth_second. cbn. f_equal. rewrite app_length. simpl. lia.
      - cbn [app] in Eg. rewrite Eg, nth_second. cbn. f_equal. rewrite app_length. simpl. lia.
      - cbn [app] in Eg. destruct (members_nonempty _ _ _ M eq_refl) as (c & u & ->). cbn [app] in Eg.
        rewrite Eg, nth_second. destruct (N.eqb_spec c 94) as [->|]; [exfalso; exact (H2 _ eq_refl)|].
        destruct (N.eqb_spec c 33) as [->|]; [exfalso; exact (H1 _ eq_refl)|]. cbn. f_equal. rewrite app_length. simpl. lia. }
    rewrite E1.
    assert (Eg2 : glob = (pre ++ 91%N :: c0) ++ t ++ 93%N :: r) by (rewrite <- app_assoc; exact Eg).
    assert (Lg : G = List.length (pre ++ 91%N :: c0) + List.length t + S (List.length r)).
    { rewrite Eg2, !app_length. cbn [List.length]. lia. }
    rewrite (members_loop glob x r true t rs M (S G) false (pre ++ 91%N :: c0) Eg2) by lia.
    cbn [bind orb]. destruct (Nat.ltb_spec (List.length (pre ++ 91%N :: c0) + List.length t) G); [|lia]. cbn [negb].
    replace (S (List.length (pre ++ 91%N :: c0) + List.length t)) with (List.length (pre ++ 91%N :: c0 ++ t ++ [93%N])).
    2:{ rewrite !app_length. cbn [List.length]. rewrite !app_length. cbn [List.length]. lia. }
    unfold st'. destruct (xorb (in_rangesb rs x) ng); reflexivity.
  Qed.

  (** an element that takes one byte *)
  Lemma piece_step pre t e g p0 l wild star : glob = pre ++ t ++ g -> path = p0 ++ l -> piece t e -> e <> Star -> w_path star = 0 ->
    let st := mk_gst (List.length p0) (List.length pre) wild star in
    (exists x l' star', l = x :: l' /\ holds e x /\ w_path star' = 0 /\
       step st none = Ok (GCont (mk_gst (S (List.length p0)) (List.length (pre ++ t)) wild star') none)) \/
    ((forall x l', l = x :: l' -> ~ holds e x) /\ exists i star', w_path star' = 0 /\
       step st none = no_match glob path ip neg (mk_gst (List.length p0) i wild star') none).
  Proof.
    intros Eg Ep Hp He Hs st.
    assert (exists c t', t = c :: t' /\ c <> 42%N /\ c <> 123%N) as (c & t' & Et & H42 & H123).
    { destruct Hp as [ | |c Hc|e|t rs|c t rs]; try congruence; try (do 2 eexists; (split; [reflexivity|split; discriminate])).
      exists c, []. split; [reflexivity|]. simpl in Hc. split; intros ->; tauto. }
    assert (En : nth_error glob (List.length pre) = Some c) by (rewrite Eg, Et; apply P_Glob.nth_middle).
    rewrite step_at by (unfold st; cbn [g_glob]; apply nth_error_Some; congruence).
    assert (Ea : at_ glob (List.length pre) = Ok c) by (unfold at_; now rewrite En).
    unfold arm. change (g_glob st) with (List.length pre). change (g_path st) with (List.length p0). rewrite Ea. cbn [bind].
    apply N.eqb_neq in H42, H123. rewrite H42, H123. cbn [andb b_stack]. rewrite !andb_false_r.
    destruct l as [|x l].
    - right. split; [discriminate|].
      assert (Nat.ltb (List.length p0) P = false) as ->.
      { apply Nat.ltb_ge. rewrite Ep, app_nil_r. lia. }
      rewrite !andb_false_r. exists (List.length pre), star. split; [assumption|reflexivity].
    - assert (Nat.ltb (List.length p0) P = true) as ->.
      { apply Nat.ltb_lt. rewrite Ep, app_length. simpl. lia. }
      assert (nth_error path (List.length p0) = Some x) as Ex by (rewrite Ep; apply P_Glob.nth_middle).
      rewrite !andb_true_r.
      assert (Class : forall c0 w rs ng, t = 91%N :: c0 ++ w ++ [93%N] -> members true w rs ->
        (ng = true /\ (c0 = [33%N] \/ c0 = [94%N]) \/ ng = false /\ c0 = [] /\ (forall r, w <> 33%N :: r) /\ (forall r, w <> 94%N :: r)) ->
        arm_class glob path st none = Ok (if xorb (in_rangesb rs x) ng then
          GCont (mk_gst (S (List.length p0)) (List.length (pre ++ t)) wild star) none
          else GFail (mk_gst (List.length p0) (List.length (pre ++ t)) wild star) none)).
      { intros c0 w rs ng E M Hc. rewrite E. refine (class_arm pre c0 w rs ng g p0 x l wild star _ Ep M Hc).
        rewrite Eg, E. cbn [app]. rewrite <- !app_assoc. reflexivity. }
      assert (Lit : forall v, unescape c glob (List.length pre) = Some (v, List.length pre + List.length t') -> 
        (exists i star', w_path star' = 0 /\ arm_literal glob path c st none =
          Ok (if (x =? v)%N then GCont (mk_gst (S (List.length p0)) (List.length (pre ++ t)) wild star') none
              else GFail (mk_gst (List.length p0) i wild star') none))).
      { intros v Eu. exists (List.length pre + List.length t'), (if (x =? v)%N then if (v =? 47)%N then star else mk_wc (w_glob star) 0 else star).
        split; [destruct (x =? v)%N, (v =? 47)%N; assumption || reflexivity|].
        unfold arm_literal. change (g_glob st) with (List.length pre). rewrite Eu. cbn [g_path g_glob g_wild g_star st].
        unfold st. cbn [g_path g_wild g_star]. unfold at_. rewrite Ex. cbn [bind].
        replace (if (v =? 47)%N then is_sep x else (x =? v)%N) with (x =? v)%N.
        2:{ destruct (N.eqb_spec v 47) as [->|]; reflexivity. }
        replace (List.length (pre ++ t)) with (S (List.length pre + List.length t')) by (rewrite app_length, Et; simpl; lia).
        destruct (N.eqb_spec x v) as [->|Hx]; [|reflexivity]. cbn [bind b_stack g_path g_glob g_wild g_star]. destruct (v =? 47)%N; reflexivity. }
      assert (Done : forall v, unescape c glob (List.length pre) = Some (v, List.length pre + List.length t') -> 
        (exists x0 l' star', x :: l = x0 :: l' /\ holds (Exactly v) x0 /\ w_path star' = 0 /\
         bind (arm_literal glob path c st none) (fun o => match o with GFail st bs => no_match glob path ip neg st bs | o => Ok o end) = Ok (GCont (mk_gst (S (List.length p0)) (List.length (pre ++ t)) wild star') none)) \/
        ((forall x0 l', x :: l = x0 :: l' -> ~ holds (Exactly v) x0) /\ exists i star', w_path star' = 0 /\
         bind (arm_literal glob path c st none) (fun o => match o with GFail st bs => no_match glob path ip neg st bs | o => Ok o end) = no_match glob path ip neg (mk_gst (List.length p0) i wild star') none)).
      { intros v Eu. destruct (Lit v Eu) as (i & star' & Hs' & El). rewrite El. destruct (N.eqb_spec x v) as [->|Hx].
        - left. exists v, l, star'. split; [reflexivity|]. split; [reflexivity|]. split; [assumption|reflexivity].
        - right. split; [intros y l' [= <- <-]; exact Hx|]. exists i, star'. split; [assumption|reflexivity]. }
      clear Lit. destruct Hp as [ | |c' Hc|e|w rs M H1 H2|c' w rs Hc M]; [congruence| | | | |].
      + injection Et as <- <-. cbn [N.eqb Pos.eqb andb]. unfold at_. rewrite Ex. cbn [bind]. unfold is_sep.
        destruct (N.eqb_spec x 47) as [->|Hx]; cbn [negb bind].
        * right. split; [intros y l' [= <- <-] O; now apply O|]. exists (List.length pre), star. split; [assumption|reflexivity].
        * left. exists x, l, star. split; [reflexivity|]. split; [exact Hx|]. split; [assumption|].
          rewrite app_length. cbn [List.length]. rewrite Nat.add_1_r. reflexivity.
      + injection Et as <- <-. assert (Hk : forall k, In k [42; 63; 91; 92; 123]%N -> (c' =? k)%N = false).
        { intros k Hk. apply N.eqb_neq. intros ->. contradiction. }
        rewrite (Hk 63%N), (Hk 91%N) by (simpl; tauto). apply Done. unfold unescape. rewrite (Hk 92%N) by (simpl; tauto).
        cbn [List.length]. now rewrite Nat.add_0_r.
      + injection Et as <- <-. cbn [N.eqb Pos.eqb andb]. apply Done.
        rewrite (unescape_escaped glob pre e g Eg). do 2 f_equal. simpl. lia.
      + injection Et as <- Et'. cbn [N.eqb Pos.eqb andb].
        rewrite (Class [] w rs false eq_refl M ltac:(right; auto)). rewrite xorb_false_r.
        pose proof (in_ranges_b rs x) as Q. destruct (in_rangesb rs x); cbn [bind].
        * left. exists x, l, star. split; [reflexivity|]. split; [now apply Q|]. split; [assumption|reflexivity].
        * right. split; [intros y l' [= <- <-] O; apply Q in O; discriminate|]. do 2 eexists. split; [|reflexivity]. assumption.
      + injection Et as <- Et'. cbn [N.eqb Pos.eqb andb].
        rewrite (Class [c'] w rs true eq_refl M ltac:(left; split; [reflexivity|destruct Hc as [-> | ->]; auto])). rewrite xorb_true_r.
        pose proof (in_ranges_b rs x) as Q. destruct (in_rangesb rs x); cbn [negb bind].
        * right. split; [intros y l' [= <- <-] O; apply O; now apply Q|]. do 2 eexists. split; [|reflexivity]. assumption.
        * left. exists x, l, star. split; [reflexivity|]. split; [intros O; apply Q in O; discriminate|]. split; [assumption|reflexivity].
  Qed.

  (** the pattern from some element on *)
  Definition shown (ps : list (list N * elt)) : list N := List.concat (map fst ps).
  Definition proper (ps : list (list N * elt)) : Prop :=
    Forall (fun p => piece (fst p) (snd p)) ps /\ (forall a b, map snd ps <> a ++ Star :: Star :: b) /\
    (~ In 47%N path \/ Forall tame (map snd ps)).
  Lemma proper_app a b : proper (a ++ b) -> proper b.
  Proof.
    intros (H1 & H2 & H3). split; [apply Forall_app in H1; tauto|]. rewrite map_app in *. split.
    - intros x y E. apply (H2 (map snd a ++ x) y). rewrite E. now rewrite app_assoc.
    - destruct H3 as [H3|H3]; [auto|]. right. apply Forall_app in H3. tauto.
  Qed.
  Lemma shown_app a b : shown (a ++ b) = shown a ++ shown b.
  Proof. unfold shown. now rewrite map_app, concat_app. Qed.
  Lemma shown_length ps : Forall (fun p => piece (fst p) (snd p)) ps -> List.length ps <= List.length (shown ps).
  Proof.
    induction 1 as [|p ps H _ IH]; [simpl; lia|]. unfold shown in *. cbn [map List.concat List.length]. rewrite app_length.
    apply piece_nonempty in H. destruct (fst p); [congruence|]. simpl. lia.
  Qed.
  Lemma give_up_is i w s n : give_up path ip neg (mk_gst n i w s) = xorb neg (ip && Nat.eqb n P).
  Proof. unfold give_up. cbn [g_path]. destruct ip, neg; cbn; try reflexivity; destruct (Nat.eqb n P); reflexivity. Qed.

  Lemma class_loop_run : forall k pre mid g p0 m0 l wild star,
    (List.length (m0 ++ l) + 1) * (G + 2) + List.length g <= k ->
    glob = pre ++ shown mid ++ shown g -> path = p0 ++ m0 ++ l -> proper (mid ++ g) -> Forall2 holds (map snd mid) m0 -> w_path star = 0 ->
    (w_path wild = 0 \/ (resumes pre p0 (m0 ++ l) wild /\ forall t r, mid ++ g <> (t, Star) :: r)) ->
    exists n b, n <= S k /\
      loop n (mk_gst (List.length (p0 ++ m0)) (List.length (pre ++ shown mid)) wild star) none = Ok (xorb neg b) /\
      (b = true <-> wanted ip (map snd g) l \/
         (resumes pre p0 (m0 ++ l) wild /\ exists x u, m0 ++ l = x :: u /\ wanted ip (Star :: map snd mid ++ map snd g) u)).
  Proof.
    induction k as [k IHk] using lt_wf_ind. intros pre mid g p0 m0 l wild star Hk Eg Ep Hpr F Hs Hw.
    set (st := mk_gst (List.length (p0 ++ m0)) (List.length (pre ++ shown mid)) wild star).
    assert (Eg2 : glob = (pre ++ shown mid) ++ shown g) by (now rewrite <- app_assoc).
    assert (Ep2 : path = (p0 ++ m0) ++ l) by (now rewrite <- app_assoc).
    assert (LG : G = List.length pre + List.length (shown mid) + List.length (shown g)) by (rewrite Eg, !app_length; lia).
    assert (LP : P = List.length p0 + List.length (m0 ++ l)) by (rewrite Ep, !app_length; lia).
    assert (LM : List.length (mid ++ g) <= List.length (shown mid) + List.length (shown g)).
    { rewrite <- app_length, <- shown_app. apply shown_length. apply Hpr. }
    (* when the rest does not match here *)
    assert (Fail : (exists i star', w_path star' = 0 /\ step st none = no_match glob path ip neg (mk_gst (List.length (p0 ++ m0)) i wild star') none) ->
      (~ wanted ip (map snd g) l \/ (l = [] /\ ip = true)) -> (l = [] -> ip = true -> wanted ip (map snd g) l) ->
      exists n b, n <= S k /\ loop n st none = Ok (xorb neg b) /\
      (b = true <-> wanted ip (map snd g) l \/
         (resumes pre p0 (m0 ++ l) wild /\ exists x u, m0 ++ l = x :: u /\ wanted ip (Star :: map snd mid ++ map snd g) u))).
    { intros (i & star' & Hs1 & S1) HA HB. unfold no_match, can_backtrack in S1. cbn [g_wild] in S1.
      destruct Hw as [Hw0|((pre' & Epre & Ew & Hu) & Hhead)].
      - (* nothing to go back to *)
        rewrite Hw0 in S1. cbn [Nat.ltb Nat.leb andb b_stack] in S1. rewrite give_up_is in S1.
        exists 1, (ip && Nat.eqb (List.length (p0 ++ m0)) P). split; [lia|]. split.
        { cbn [gloop]. rewrite S1. reflexivity. }
        assert (NR : ~ resumes pre p0 (m0 ++ l) wild). { intros (q & _ & Ew & _). rewrite Ew in Hw0. discriminate. }
        destruct ip; cbn [andb].
        + destruct (Nat.eqb_spec (List.length (p0 ++ m0)) P) as [Eq|Ne].
          * assert (l = []) as -> by (rewrite app_length in Eq; rewrite LP, app_length in Eq; destruct l; [reflexivity|simpl in Eq; lia]).
            split; [intros _; left; auto|reflexivity].
          * split; [discriminate|]. intros [H|[H _]]; [|contradiction]. destruct HA as [HA|[-> _]]; [contradiction|].
            exfalso. apply Ne. rewrite Ep2, app_nil_r. reflexivity.
        + split; [discriminate|]. intros [H|[H _]]; [|contradiction]. destruct HA as [HA|[_ HA]]; [contradiction|discriminate].
      - assert (Hr : resumes pre p0 (m0 ++ l) wild) by (exists pre'; auto).
        rewrite Ew in S1. cbn [w_path Nat.ltb Nat.leb andb] in S1.
        destruct (m0 ++ l) as [|x u] eqn:Eu; cbn [List.length] in LP, Hk.
        + (* the star has taken the whole path *)
          assert (Hnb : match P with 0 => false | S m' => Nat.leb (List.length p0) m' end = false).
          { destruct P as [|P']; [reflexivity|]. apply Nat.leb_gt. simpl in LP. lia. }
          rewrite Hnb in S1. cbn [b_stack] in S1. rewrite give_up_is in S1.
          apply app_eq_nil in Eu as [-> ->].
          exists 1, (ip && Nat.eqb (List.length (p0 ++ [])) P). split; [lia|]. split; [cbn [gloop]; rewrite S1; reflexivity|].
          assert (Eq : List.length (p0 ++ []) = P) by (rewrite app_nil_r; lia).
          rewrite Eq, Nat.eqb_refl. destruct ip; split; intros Hy; try discriminate; try reflexivity.
          * left; auto.
          * destruct Hy as [Hx|(_ & ? & ? & Hx & _)]; [|discriminate Hx].
            destruct HA as [HA|[_ HA]]; [contradiction|discriminate].
        + (* go back: the star takes one byte more *)
          assert (Hnb : match P with 0 => false | S m' => Nat.leb (List.length p0) m' end = true).
          { destruct P as [|P']; [simpl in LP; lia|]. apply Nat.leb_le. simpl in LP. lia. }
          rewrite Hnb in S1.
          assert (Eg3 : glob = pre' ++ 42%N :: shown (mid ++ g)) by (rewrite Eg, Epre, shown_app, <- app_assoc; reflexivity).
          assert (Hh : forall r, shown (mid ++ g) <> 42%N :: r).
          { destruct (mid ++ g) as [|[t e] r0] eqn:Emg; [discriminate|]. unfold shown. cbn [map fst List.concat].
            destruct Hpr as (Hp1 & _). apply Forall_cons_iff in Hp1 as [Hp1 _]. cbn [fst snd] in Hp1.
            assert (He : e <> Star) by (intros ->; exact (Hhead _ _ eq_refl)).
            pose proof (piece_head t e Hp1 He) as Hph. pose proof (piece_nonempty t e Hp1) as Hpn.
            destruct t as [|c t]; [congruence|]. cbn [app]. intros r [= -> _]. exact (Hph _ eq_refl). }
          assert (Ep3 : path = (p0 ++ [x]) ++ u) by (rewrite Ep, <- app_assoc; reflexivity).
          assert (Ep4 : path = (p0 ++ [x]) ++ [] ++ u) by exact Ep3.
          destruct (star_steps pre' (shown (mid ++ g)) (p0 ++ [x]) u (mk_wc (List.length pre') (S (List.length p0))) star' Eg3 Hh Ep3 Hs1)
            as (w' & Hw' & S2).
          assert (Eg4 : glob = pre ++ shown [] ++ shown (mid ++ g)) by (rewrite shown_app; exact Eg).
          assert (Hm : (List.length ([] ++ u) + 1) * (G + 2) + List.length (mid ++ g) <= k - 2).
          { cbn [app].
            assert (K : (S (List.length u) + 1) * (G + 2) = (List.length u + 1) * (G + 2) + (G + 2)) by ring.
            rewrite K in Hk. lia. }
          assert (Hw2 : w_path w' = 0 \/ (resumes pre (p0 ++ [x]) ([] ++ u) w' /\ forall t r, [] ++ mid ++ g <> (t, Star) :: r)).
          { cbn [app]. destruct u as [|y u]; [right; split; [exists pre'; auto|exact Hhead]|]. destruct (N.eqb_spec y 47); [left; auto|].
            right. split; [|exact Hhead]. exists pre'. auto. }
          assert (Hk2 : 2 <= k) by (cbn [List.length] in Hk; lia).
          destruct (IHk (k - 2) ltac:(lia) pre [] (mid ++ g) (p0 ++ [x]) [] u w' star' Hm Eg4 Ep4 Hpr ltac:(constructor) Hs1 Hw2)
            as (n & b & Hn & E & Hb). change (shown []) with (@nil N) in E. rewrite !app_nil_r in E.
          exists (S (S n)), b. split; [lia|]. split.
          * cbn [gloop]. rewrite S1. cbn [bind]. unfold backtrack. cbn [g_wild w_path w_glob g_star].
            replace (S (List.length p0)) with (List.length (p0 ++ [x])) at 1 by (rewrite app_length; simpl; lia).
            rewrite S2. cbn [bind]. replace (S (List.length pre')) with (List.length pre) by (rewrite Epre, app_length; simpl; lia).
            exact E.
          * rewrite Hb. clear Hb E S2. rewrite map_app. cbn [map].
            assert (StarE : (wanted ip (map snd mid ++ map snd g) u \/ (resumes pre (p0 ++ [x]) ([] ++ u) w' /\
                       exists x0 u0, [] ++ u = x0 :: u0 /\ wanted ip (Star :: [] ++ map snd mid ++ map snd g) u0)) <->
                      wanted ip (Star :: map snd mid ++ map snd g) u).
            { rewrite (wanted_star ip (map snd mid ++ map snd g) u). cbn [app]. split.
              - intros [A|((q & _ & _ & Hq) & y & u0 & -> & A)]; [auto|]. right. exists y, u0. auto.
              - intros [A|(y & u0 & -> & Hy & A)]; [auto|]. right. split; [|eauto].
                apply N.eqb_neq in Hy. rewrite Hy in Hw'. exists pre'. split; [assumption|]. split; [assumption|]. now apply N.eqb_neq. }
            rewrite StarE. split.
            -- intros A. right. split; [assumption|]. exists x, u. auto.
            -- intros [A|(_ & y & u0 & [= <- <-] & A)]; [|assumption].
               destruct HA as [HA|[-> Hip]]; [contradiction|].
               (* the path is over: a star takes the rest *)
               rewrite Hip in *. apply wanted_absorb. specialize (Hsep eq_refl). intros I. apply Hsep.
               rewrite Ep3. apply in_or_app. auto. }
    destruct g as [|[t e] g].
    - (* the pattern is over *)
      unfold shown in Eg2 at 2. cbn [map List.concat] in Eg2. destruct l as [|x l].
      + exists 1, true. split; [lia|]. split.
        * cbn [gloop]. unfold gstep, st. cbn [g_glob g_path].
          assert (Nat.ltb (List.length (pre ++ shown mid)) G = false) as -> by (apply Nat.ltb_ge; rewrite Eg2, app_nil_r; lia).
          assert (Nat.ltb (List.length (p0 ++ m0)) P = false) as -> by (apply Nat.ltb_ge; rewrite Ep2, app_nil_r; lia).
          cbn [orb b_stack bind]. now rewrite xorb_true_r.
        * split; [|reflexivity]. intros _. left. now apply wanted_nil.
      + apply Fail.
        * exists (List.length (pre ++ shown mid)), star. split; [assumption|]. unfold gstep, st. cbn [g_glob g_path].
          assert (Nat.ltb (List.length (pre ++ shown mid)) G = false) as -> by (apply Nat.ltb_ge; rewrite Eg2, app_nil_r; lia).
          assert (Nat.ltb (List.length (p0 ++ m0)) P = true) as ->.
          { apply Nat.ltb_lt. rewrite Ep2, (app_length (p0 ++ m0)). simpl. lia. }
          reflexivity.
        * left. cbn [map]. rewrite wanted_nil. discriminate.
        * discriminate.
    - assert (Hp : piece t e). { destruct Hpr as (Hp1 & _). apply Forall_app in Hp1 as [_ Hp1]. now apply Forall_cons_iff in Hp1 as [Hp1 _]. }
      assert (De : e = Star \/ e <> Star) by (destruct e; auto; right; discriminate).
      assert (Esh : shown ((t, e) :: g) = t ++ shown g) by reflexivity. rewrite Esh in Eg2, LG, LM.
      destruct De as [->|He].
      + (* a star *)
        assert (t = [42%N]) as -> by (now inversion Hp). cbn [app] in Eg2.
        assert (Hhead : forall t r, g <> (t, Star) :: r).
        { intros t r ->. destruct Hpr as (_ & H2 & _). apply (H2 (map snd mid) (map snd r)). now rewrite map_app. }
        assert (Hh : forall r, shown g <> 42%N :: r).
        { destruct g as [|[t e] r0]; [discriminate|]. unfold shown. cbn [map fst List.concat].
          destruct Hpr as (Hp1 & _). apply Forall_app in Hp1 as [_ Hp1]. apply Forall_cons_iff in Hp1 as [_ Hp1]. apply Forall_cons_iff in Hp1 as [Hp1 _]. cbn [fst snd] in Hp1.
          assert (He : e <> Star) by (intros ->; exact (Hhead _ _ eq_refl)).
          pose proof (piece_head t e Hp1 He) as Hph. pose proof (piece_nonempty t e Hp1) as Hpn.
          destruct t as [|c t]; [congruence|]. cbn [app]. intros r [= -> _]. exact (Hph _ eq_refl). }
        destruct (star_steps (pre ++ shown mid) (shown g) (p0 ++ m0) l wild star Eg2 Hh Ep2 Hs) as (w' & Hw' & S1).
        assert (Eg5 : glob = (pre ++ shown mid ++ [42%N]) ++ shown [] ++ shown g) by (rewrite Eg2, <- !app_assoc; reflexivity).
        assert (Ep5 : path = (p0 ++ m0) ++ [] ++ l) by exact Ep2.
        assert (Hm : (List.length ([] ++ l) + 1) * (G + 2) + List.length g <= k - 1).
        { rewrite app_length in Hk. cbn [app List.length] in *.
          assert (K : (List.length l + 1) * (G + 2) <= (List.length m0 + List.length l + 1) * (G + 2)) by (apply Nat.mul_le_mono_r; lia).
          lia. }
        assert (Hk2 : 1 <= k) by (cbn [List.length] in Hk; lia).
        assert (Hw2 : w_path w' = 0 \/ (resumes (pre ++ shown mid ++ [42%N]) (p0 ++ m0) ([] ++ l) w' /\ forall t r, [] ++ g <> (t, Star) :: r)).
        { cbn [app]. assert (R : w' = mk_wc (List.length (pre ++ shown mid)) (S (List.length (p0 ++ m0))) ->
                   match l with y :: _ => y <> 47%N | [] => True end -> resumes (pre ++ shown mid ++ [42%N]) (p0 ++ m0) l w').
          { intros A B. exists (pre ++ shown mid). split; [now rewrite app_assoc|]. auto. }
          destruct l as [|y l]; [right; auto|]. destruct (N.eqb_spec y 47); [left; auto|]. right. auto. }
        assert (Hpr2 : proper ([] ++ g)). { cbn [app]. apply (proper_app (mid ++ [([42%N], Star)])). rewrite <- app_assoc. exact Hpr. }
        destruct (IHk (k - 1) ltac:(lia) (pre ++ shown mid ++ [42%N]) [] g (p0 ++ m0) [] l w' star Hm Eg5 Ep5 Hpr2 ltac:(constructor) Hs Hw2)
            as (n & b & Hn & E & Hb). change (shown []) with (@nil N) in E. rewrite !app_nil_r in E.
        exists (S n), b. split; [lia|]. split.
        * cbn [gloop]. unfold st. rewrite S1. cbn [bind].
          replace (S (List.length (pre ++ shown mid))) with (List.length (pre ++ shown mid ++ [42%N])) by (rewrite !app_length; simpl; lia).
          exact E.
        * rewrite Hb. clear Hb E S1. cbn [map snd].
          assert (StarE : (wanted ip (map snd g) l \/ (resumes (pre ++ shown mid ++ [42%N]) (p0 ++ m0) ([] ++ l) w' /\
                       exists x0 u0, [] ++ l = x0 :: u0 /\ wanted ip (Star :: [] ++ map snd g) u0)) <->
                      wanted ip (Star :: map snd g) l).
          { rewrite (wanted_star ip (map snd g) l). cbn [app]. split.
              - intros [A|((q & _ & _ & Hq) & y & u0 & -> & A)]; [auto|]. right. exists y, u0. auto.
              - intros [A|(y & u0 & -> & Hy & A)]; [auto|]. right. split; [|eauto].
                apply N.eqb_neq in Hy. rewrite Hy in Hw'. exists (pre ++ shown mid). split; [now rewrite app_assoc|].
                split; [assumption|]. now apply N.eqb_neq. }
          rewrite StarE. split; [auto|]. intros [A|((q & _ & _ & Hq) & y & u0 & Eu & A)]; [assumption|].
          rewrite Eu in Hq. destruct (wanted_star_many _ _ _ A) as (s & l' & -> & Hs' & A').
          apply (later_star ip (map snd mid) (map snd g) (y :: s) l' m0 l); [|exact F|discriminate| |exact Eu|exact A'].
          -- destruct Hpr as (_ & _ & [T|T]).
             ++ left. intros I. apply T. rewrite Ep. apply in_or_app. auto.
             ++ right. rewrite map_app in T. apply Forall_app in T. tauto.
          -- intros [I|I]; [now apply Hq|contradiction].
      + (* an element that takes one byte *)
        destruct (piece_step (pre ++ shown mid) t e (shown g) (p0 ++ m0) l wild star Eg2 Ep2 Hp He Hs) as [(x & l' & star' & -> & O & Hs' & S1)|[HN S1]].
        * assert (Esm : shown (mid ++ [(t, e)]) = shown mid ++ t).
          { rewrite shown_app. unfold shown at 2. cbn [map fst List.concat]. now rewrite app_nil_r. }
          assert (Eg5 : glob = pre ++ shown (mid ++ [(t, e)]) ++ shown g) by (rewrite Esm, Eg2, <- !app_assoc; reflexivity).
          assert (Ep5 : path = p0 ++ (m0 ++ [x]) ++ l') by (rewrite Ep, <- !app_assoc; reflexivity).
          assert (Em : (m0 ++ [x]) ++ l' = m0 ++ x :: l') by (now rewrite <- app_assoc).
          assert (Emg : (mid ++ [(t, e)]) ++ g = mid ++ (t, e) :: g) by (now rewrite <- app_assoc).
          assert (Hm : (List.length ((m0 ++ [x]) ++ l') + 1) * (G + 2) + List.length g <= k - 1).
          { rewrite Em. cbn [List.length] in Hk. lia. }
          assert (Hk2 : 1 <= k) by (cbn [List.length] in Hk; lia).
          assert (F' : Forall2 holds (map snd (mid ++ [(t, e)])) (m0 ++ [x])).
          { rewrite map_app. apply Forall2_app; [assumption|constructor; [assumption|constructor]]. }
          assert (Hw2 : w_path wild = 0 \/ (resumes pre p0 ((m0 ++ [x]) ++ l') wild /\ forall t0 r, (mid ++ [(t, e)]) ++ g <> (t0, Star) :: r)) by (now rewrite Em, Emg).
          assert (Hpr2 : proper ((mid ++ [(t, e)]) ++ g)) by (now rewrite Emg).
          destruct (IHk (k - 1) ltac:(lia) pre (mid ++ [(t, e)]) g p0 (m0 ++ [x]) l' wild star' Hm Eg5 Ep5 Hpr2 F' Hs' Hw2)
            as (n & b & Hn & E & Hb).
          exists (S n), b. split; [lia|]. split.
          -- cbn [gloop]. unfold st. rewrite S1. cbn [bind]. rewrite <- app_assoc, <- Esm.
             replace (S (List.length (p0 ++ m0))) with (List.length (p0 ++ m0 ++ [x])) by (rewrite !app_length; simpl; lia).
             exact E.
          -- rewrite Hb, Em. cbn [map snd]. rewrite (wanted_cons ip e (map snd g) x l' He). rewrite map_app, <- app_assoc. cbn [map snd app].
             split; intros [A|A]; auto; try (left; tauto).
        * apply Fail; [exact S1| |].
          -- cbn [map snd]. destruct l as [|x l].
             ++ destruct ip; [right; auto|]. left. rewrite wanted_end by assumption. discriminate.
             ++ left. rewrite wanted_cons by assumption. intros [O _]. exact (HN x l eq_refl O).
          -- intros -> Hip. now apply wanted_end.
  Qed.
End Classes.

Lemma reads_pieces g es : reads g es -> exists ps, g = shown ps /\ es = map snd ps /\ Forall (fun p => piece (fst p) (snd p)) ps.
Proof.
  intros (ts & F & -> & _). induction F as [|t e ts es H _ IH].
  - exists []. repeat split; auto.
  - destruct IH as (ps & E & -> & A). exists ((t, e) :: ps). unfold shown in *. cbn [map fst snd List.concat]. rewrite E.
    repeat split; auto.
Qed.
(** no class of the pattern admits a separator *)
Definition no_class_separator (es : list elt) : Prop :=
  forall neg rs, In (OneOf neg rs) es -> ~ holds (OneOf neg rs) 47%N.
Lemma no_class_tame es : no_class_separator es -> Forall tame es.
Proof. intros H. apply Forall_forall. intros [] I; cbn [tame]; auto. Qed.
Lemma class_run ip k g es l : reads g es -> (~ In 47%N l \/ no_class_separator es) -> (forall r, g <> 33%N :: r) ->
  (ip = true -> ~ In 47%N l) ->
  exists b, glob_run (repeat 33%N k ++ g) l ip = Ok b /\
    (b = true <-> if Nat.even k then wanted ip es l else ~ wanted ip es l).
Proof.
  intros R HN Hg Hip. destruct (reads_pieces g es R) as (ps & Eg & Ees & Hp). subst es.
  set (glob := repeat 33%N k ++ g).
  assert (Hpr : proper l ([] ++ ps)).
  { split; [exact Hp|]. split; [destruct R as (ts & _ & _ & D); exact D|]. destruct HN as [H|H]; [auto|right; now apply no_class_tame]. }
  assert (E1 : glob = repeat 33%N k ++ shown [] ++ shown ps) by (unfold glob; now rewrite Eg).
  destruct (class_loop_run glob l ip (if Nat.even k then false else true) Hip _ (repeat 33%N k) [] ps [] [] l wc0 wc0 (le_n _) E1 eq_refl Hpr ltac:(constructor) eq_refl ltac:(left; reflexivity))
    as (n & b & Hn & E & Hb).
  assert (Hb' : b = true <-> wanted ip (map snd ps) l).
  { rewrite Hb. split; [|auto]. intros [A|((q & _ & Ew & _) & _)]; [assumption|discriminate]. }
  change (shown []) with (@nil N) in E. rewrite (app_nil_r (repeat 33%N k)), repeat_length in E. cbn [app List.length] in E.
  assert (Hbits : n <= 2 ^ glob_bits glob l).
  { cbn [app] in Hn. pose proof (glob_bits_enough glob l) as K.
    assert (List.length ps <= List.length glob).
    { pose proof (shown_length ps Hp) as L. unfold glob. rewrite app_length, Eg. lia. }
    assert (S ((List.length l + 1) * (List.length glob + 2) + List.length ps) <= (B glob l + 1) ^ 11); [|lia].
    apply Nat.le_trans with ((B glob l + 1) ^ 2); [|apply Nat.pow_le_mono_r; lia].
    unfold B. cbn [Nat.pow]. nia. }
  exists (xorb (if Nat.even k then false else true) b). split.
  - apply (glob_run_conv _ _ _ n); [|exact Hbits].
    unfold glob_internal, glob. rewrite bangs by assumption. rewrite Nat.add_0_r. exact E.
  - destruct (Nat.even k); [destruct b; exact Hb'|]. rewrite <- Hb'.
    destruct b; cbn; split; intros H; try discriminate; try reflexivity. congruence.
Qed.

(** A pattern of literals, escapes, [?], [*] and classes matches exactly the
    paths its elements describe (every leading [!] negates); for paths with
    separators, no class may admit one. *)
Theorem C66_match : forall k glob g es path, utf8 glob = repeat 33%N k ++ g -> (forall r, g <> 33%N :: r) ->
  reads g es -> ~ In 47%N (utf8 path) \/ no_class_separator es ->
  (glob_match glob path = true <-> if Nat.even k then fits es (utf8 path) else ~ fits es (utf8 path)).
Proof.
  intros k glob g es path E Hg R HN. unfold glob_match. rewrite E.
  destruct (class_run false k g es (utf8 path) R HN Hg ltac:(discriminate)) as (b & -> & Hb). exact Hb.
Qed.
Print Assumptions C66_match.
(** It prefix-matches exactly the paths that a front part of the pattern
    describes, among the paths without separators *)
Theorem C66_fronts : forall k glob g es path, utf8 glob = repeat 33%N k ++ g -> (forall r, g <> 33%N :: r) ->
  reads g es -> ~ In 47%N (utf8 path) ->
  (glob_match_prefix glob path = true <->
     if Nat.even k then exists e1 e2, es = e1 ++ e2 /\ fits e1 (utf8 path)
     else ~ exists e1 e2, es = e1 ++ e2 /\ fits e1 (utf8 path)).
Proof.
  intros k glob g es path E Hg R HN. unfold glob_match_prefix. rewrite E.
  destruct (class_run true k g es (utf8 path) R (or_introl HN) Hg (fun _ => HN)) as (b & -> & Hb). exact Hb.
Qed.
Print Assumptions C66_fronts.
(** when every element admits something, these are the beginnings of what the
    pattern describes *)
Lemma fits_some es : (forall e, In e es -> e = Star \/ exists x, holds e x) -> exists l, fits es l.
Proof.
  induction es as [|e es IH]; intros H; [exists []; constructor|].
  destruct IH as (l & D); [intros e' I; apply H; simpl; auto|].
  destruct (H e (or_introl eq_refl)) as [->|(x & O)]; [exists ([] ++ l); constructor; auto; simpl; tauto|].
  exists (x :: l). now constructor.
Qed.
Lemma fits_app a la : fits a la -> forall b lb, fits b lb -> fits (a ++ b) (la ++ lb).
Proof.
  induction 1 as [|s es l Hs _ IH|e x es l O _ IH]; intros b lb Db; cbn [app].
  - exact Db.
  - rewrite <- app_assoc. constructor; [assumption|auto].
  - constructor; [assumption|auto].
Qed.
Lemma fits_front es : forall l rest, fits es (l ++ rest) -> exists e1 e2, es = e1 ++ e2 /\ fits e1 l.
Proof.
  induction es as [|e es IH]; intros l rest D.
  - exists [], []. split; [reflexivity|]. assert (K : forall m, fits [] m -> m = []) by (intros m Dm; now inversion Dm). apply K in D. apply app_eq_nil in D as [-> _]. constructor.
  - destruct l as [|x l]; [exists [], (e :: es); split; [reflexivity|constructor]|].
    assert (De : e = Star \/ e <> Star) by (destruct e; auto; right; discriminate). destruct De as [->|He].
    + apply fits_star_inv in D as (s & l' & E & Hs & D).
      destruct (Nat.le_ge_cases (List.length s) (List.length (x :: l))) as [L|L].
      * destruct (app_len s l' (x :: l) rest) as (u & Eu & ->); [now symmetry|assumption|].
        destruct (IH u rest D) as (e1 & e2 & -> & D1). exists (Star :: e1), e2. split; [reflexivity|]. rewrite Eu. now constructor.
      * destruct (app_len (x :: l) rest s l') as (u & -> & _); [assumption|assumption|].
        exists [Star], es. split; [reflexivity|]. rewrite <- (app_nil_r (x :: l)). constructor; [|constructor].
        intros I. apply Hs. apply in_or_app. auto.
    + apply fits_cons in D as (y & l' & E & O & D); [|assumption]. cbn [app] in E. injection E as <- <-.
      destruct (IH l rest D) as (e1 & e2 & -> & D1). exists (e :: e1), e2. split; [reflexivity|now constructor].
Qed.
Theorem C66_prefix : forall glob es path, (forall r, utf8 glob <> 33%N :: r) ->
  reads (utf8 glob) es -> (forall e, In e es -> e = Star \/ exists x, holds e x) -> ~ In 47%N (utf8 path) ->
  (glob_match_prefix glob path = true <-> exists rest, fits es (utf8 path ++ rest)).
Proof.
  intros glob es path Hg R Ha HN. rewrite (C66_fronts 0 glob (utf8 glob) es path eq_refl Hg R HN). cbn [Nat.even]. split.
  - intros (e1 & e2 & -> & D). destruct (fits_some e2) as (l & D2); [intros e I; apply Ha; apply in_or_app; auto|].
    exists l. now apply fits_app.
  - intros (rest & D). now apply fits_front in D.
Qed.
Print Assumptions C66_prefix.
(** A class that admits a separator is matched by one, but not when a later
    star has to go back over it: [*\[^a\]*b] describes [c/b]. *)
Theorem C66_separator :
  glob_match (tx "[^a]b") (tx "/b") = true /\ glob_match (tx "*[^a]*b") (tx "c/b") = false /\
  exists es, reads (utf8 (tx "*[^a]*b")) es /\ fits es (utf8 (tx "c/b")).
Proof.
  split; [vm_compute; reflexivity|]. split; [vm_compute; reflexivity|].
  exists [Star; OneOf true [(97, 97)]; Star; Exactly 98]%N. split.
  - exists [[42]; 91 :: 94 :: [97] ++ [93]; [42]; [98]]%N. split; [|split; [reflexivity|]].
    + constructor; [constructor|]. constructor.
      { apply piece_not_class; [auto|]. apply (members_byte true [97%N] 97%N [] []); [now constructor|discriminate|discriminate|constructor]. }
      constructor; [constructor|]. constructor; [|constructor]. constructor. simpl. intuition discriminate.
    + intros a b. do 5 (destruct a as [|? a]; try discriminate).
  - change (fits [Star; OneOf true [(97, 97)]; Star; Exactly 98]%N ([99] ++ 47 :: [] ++ [98])%N).
    apply fits_star; [simpl; intuition discriminate|]. apply fits_one.
    + cbn [holds]. intros (lo & hi & [[= <- <-]|[]] & H1 & H2). now apply H1.
    + apply fits_star; [simpl; tauto|]. apply fits_one; [reflexivity|constructor].
Qed.
Print Assumptions C66_separator.
Example C66_example : reads (utf8 (tx "[]a-c\-]\**")) [OneOf false [(93, 93); (97, 99); (45, 45)]; Exactly 42; Star]%N /\
  no_class_separator [OneOf false [(93, 93); (97, 99); (45, 45)]; Exactly 42; Star]%N /\
  glob_match (tx "[]a-c\-]\**") (tx "b*zz") = true /\ glob_match (tx "[]a-c\-]\**") (tx "d*zz") = false.
Proof.
  split; [|split; [|split; vm_compute; reflexivity]].
  - exists [91 :: ([93] ++ [97] ++ 45 :: [99] ++ [92; 45] ++ []) ++ [93]; [92; 42]; [42]]%N. split; [|split; [reflexivity|]].
    + constructor; [|constructor; [exact (piece_escape 42)|constructor; [constructor|constructor]]].
      constructor; [|discriminate|discriminate].
      apply members_byte; [now constructor|discriminate|discriminate|].
      apply members_range; [now constructor|intros _; discriminate|now constructor|discriminate|].
      apply members_byte; [exact (atom_escaped 45)|intros _; discriminate|discriminate|constructor].
    + intros a b. do 4 (destruct a as [|? a]; try discriminate).
  - intros neg rs [[= <- <-]|[H|[H|[]]]]; try discriminate. intros (lo & hi & I & H1 & H2).
    simpl in I. destruct I as [[= <- <-]|[[= <- <-]|[[= <- <-]|[]]]]; now apply H1 || now apply H2.
Qed.
