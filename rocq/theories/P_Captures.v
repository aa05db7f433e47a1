(** C68: the captures of a match ([glob_match_with_captures]). *)
From Verif Require Import Base BaseFacts Glob GlobFacts P_Glob P_Wild P_Class GlobCaps CapFacts.
From Coq Require Import List NArith Lia Bool.
Import ListNotations.
Local Open Scope nat_scope.

(* ------------------------------------------------------------------ *)
(** * Invariants of the loop *)

Definition all {A} (r : res A) (Q : A -> Prop) : Prop := forall a, r = Ok a -> Q a.
Lemma all_ok {A} (a : A) (Q : A -> Prop) : Q a -> all (Ok a) Q.
Proof. intros H b [= <-]. exact H. Qed.
Lemma all_bind {A B} (x : res A) (f : A -> res B) R Q : all x R -> (forall a, R a -> all (f a) Q) -> all (bind x f) Q.
Proof. intros H K b. destruct x as [a| |]; [|discriminate|discriminate]. cbn [bind]. apply K. now apply H. Qed.
Lemma all_any {A B} (x : res A) (f : A -> res B) Q : (forall a, x = Ok a -> all (f a) Q) -> all (bind x f) Q.
Proof. intros H. apply (all_bind x f (fun a => x = Ok a)); [intros a E; exact E|exact H]. Qed.
Lemma at_lt l i c : at_ l i = Ok c -> i < List.length l.
Proof. unfold at_. destruct (nth_error l i) eqn:E; [|discriminate]. intros _. apply nth_error_Some. congruence. Qed.

(** a property of states, and what it says about an outcome *)
Definition outcome (I : cstate -> cstack -> captures -> Prop) (R : captures -> Prop) (o : cout) : Prop :=
  match o with
  | CRet b cs => b = true -> R cs
  | CCont st bs cs => I st bs cs
  | CFail _ _ _ => False
  end.
Lemma citer_inv (I : cstate -> cstack -> captures -> Prop) (R : captures -> Prop) f : (forall st bs cs, I st bs cs -> all (f st bs cs) (outcome I R)) ->
  forall k st bs cs, I st bs cs -> all (citer k f st bs cs) (outcome I R).
Proof.
  intros H. induction k as [|k IH]; intros st bs cs Hi; cbn [citer]; [now apply H|].
  eapply all_bind; [now apply IH|]. intros [b c|s b c|s b c] Ho; [now apply all_ok|now apply IH|contradiction].
Qed.
Lemma run_inv (I : cstate -> cstack -> captures -> Prop) (R : captures -> Prop) glob path :
  (forall ng st bs cs, I st bs cs -> all (cstep glob path false ng st bs cs) (outcome I R)) ->
  (forall i ng, leading_bangs glob 0 false = (i, ng) -> I (mk_cs 0 i 0 cw0 cw0) (mk_ck [] None) (Some [])) ->
  forall k cs, cglob_run k glob path (Some []) false = Ok (true, cs) -> R cs.
Proof.
  intros H H0 k cs. unfold cglob_run. destruct (leading_bangs glob 0 false) as [i ng]. specialize (H0 i ng eq_refl).
  pose proof (citer_inv I R _ (H ng) k _ _ _ H0) as K.
  destruct (citer k _ _ _ _) as [[b c|s b c|s b c]| |]; try discriminate. cbn [bind]. intros [= -> <-].
  exact (K _ eq_refl eq_refl).
Qed.

(** ** Lists of captures *)
Lemma set_nth_length i x l : List.length (set_nth i x l) = List.length l.
Proof. revert i. induction l as [|y l IH]; intros [|i]; cbn [set_nth List.length]; auto. Qed.
Lemma nth_set_nth i x l j : nth_error (set_nth i x l) j = if Nat.eqb i j then match nth_error l j with Some _ => Some x | None => None end else nth_error l j.
Proof.
  revert i j. induction l as [|y l IH]; intros [|i] [|j]; cbn; try reflexivity.
  - now destruct (Nat.eqb i j).
  - apply IH.
Qed.
Lemma set_nth_Forall (Q : capture -> Prop) i x l : Q x -> Forall Q l -> Forall Q (set_nth i x l).
Proof. intros Hx H. revert i. induction H as [|y l Hy Hl IH]; intros [|i]; cbn [set_nth]; constructor; auto. Qed.
Lemma nth_Forall (Q : capture -> Prop) l i x : Forall Q l -> nth_error l i = Some x -> Q x.
Proof. intros H E. apply nth_error_In in E. rewrite Forall_forall in H. auto. Qed.
Lemma begin_Forall (Q : capture -> Prop) i x l : Q x -> Forall Q l ->
  Forall Q (if Nat.ltb i (List.length l) then set_nth i x l else l ++ [x]).
Proof. intros Hx H. destruct (Nat.ltb _ _); [now apply set_nth_Forall|]. apply Forall_app. auto. Qed.

(* ------------------------------------------------------------------ *)
(** ** Bounds *)
Section Bounds.
  Variables glob path : list N.
  Local Notation P := (List.length path).
  Definition bounded (c : capture) : Prop := fst c <= P /\ snd c <= P.
  Definition fine (cs : captures) : Prop := exists l, cs = Some l /\ Forall bounded l.
  Definition inside (st : cstate) (bs : cstack) (cs : captures) : Prop :=
    s_path st <= P /\ Forall (fun s => s_path s <= P) (ck_stack bs) /\ (forall l, ck_longest bs = Some l -> l <= P) /\ fine cs.
  Definition ended (o : cout) : Prop :=
    match o with CRet _ cs => fine cs | CCont st bs cs | CFail st bs cs => inside st bs cs end.

  Lemma begin_fine i x cs : bounded x -> fine cs -> fine (begin_capture i x cs).
  Proof. intros Hx (l & -> & H). eexists. split; [reflexivity|]. now apply begin_Forall. Qed.
  Lemma extend_fine i e cs : e <= P -> fine cs -> fine (extend_capture i e cs).
  Proof.
    intros He (l & -> & H). eexists. split; [reflexivity|]. destruct (nth_error l i) as [[a b]|] eqn:E; [|assumption].
    apply (nth_Forall _ _ _ _ H) in E. apply set_nth_Forall; [split; [apply E|exact He]|assumption].
  Qed.
  Lemma skip_fine stop p : p <= P -> forall fuel i br ib ci cs, fine cs ->
    all (cskip_braces fuel glob stop p i br ib ci cs) (fun r => fine (snd r)).
  Proof.
    intros Hp. induction fuel as [|fuel IH]; intros i br ib ci cs H; cbn [cskip_braces];
      (destruct (negb _ || _); [now apply all_ok|]); [intros ? [=]|].
    apply all_any. intros c _. cbv zeta.
    destruct (_ && negb ib); [now apply IH|]. destruct (_ && negb ib); [now apply IH|].
    destruct (_ && stop && _ && _); [now apply all_ok|].
    destruct ((_ || _ || _) && negb ib).
    - assert (E : exists ci' cs', (match cs with None => (ci, cs) | Some _ => (S ci, begin_capture ci (p, p) cs) end) = (ci', cs') /\ fine cs').
      { pose proof (begin_fine ci (p, p) cs (conj Hp Hp) H) as B. destruct H as (l & -> & H). eauto. }
      destruct E as (ci' & cs' & -> & H'). destruct (c =? 42)%N; [|now apply IH].
      destruct (nth_error glob (S i)) as [x|]; [|now apply IH].
      destruct (N.eq_dec x 42) as [->|Hx].
      + apply all_any. intros j _. now apply IH.
      + assert (F : forall A (a b : A), match x with 42%N => a | _ => b end = b).
        { intros A a b. destruct x as [|q]; [reflexivity|]. repeat (destruct q as [q|q|]; try reflexivity). congruence. }
        rewrite F. now apply IH.
    - destruct (c =? 93)%N; [now apply IH|]. destruct (c =? 92)%N; now apply IH.
  Qed.
  Lemma pop_inside st bs cs : inside st bs cs -> all (ck_pop st bs cs) (fun '(st, bs, cs) => inside st bs cs).
  Proof.
    intros (H1 & H2 & H3 & H4). unfold ck_pop. destruct (ck_stack bs) as [|top rest]; [intros ? [=]|].
    destruct (ck_longest bs) as [l|] eqn:El; [|intros ? [=]]. specialize (H3 l eq_refl).
    apply Forall_cons_iff in H2 as [_ H2]. apply all_ok. unfold inside. cbn [s_path ck_stack ck_longest].
    split; [assumption|]. split; [assumption|]. split; [|now apply extend_fine].
    intros m Em. destruct rest; [discriminate|]. injection Em as <-. assumption.
  Qed.
  Lemma star_inside st bs cs : inside st bs cs -> all (carm_star glob path st bs cs) ended.
  Proof.
    intros (H1 & H2 & H3 & H4). unfold carm_star. cbv zeta. apply all_any. intros i _.
    set (fresh := match cs with None => false | Some l => _ end).
    set (cs' := if fresh then _ else extend_capture (s_cap st) (s_path st) cs).
    assert (Hc : fine cs').
    { unfold cs'. destruct fresh; [apply begin_fine; [split; assumption|assumption]|now apply extend_fine]. }
    clearbody cs' fresh. apply all_any. intros [[i1 star] ci] _. apply all_any. intros sep _.
    match goal with |- context [if sep then ?A else ?B] => destruct (if sep then A else B) as [[i2 wild] ci2] end.
    destruct (match ck_stack bs with [] => _ | _ => _ end).
    - eapply all_bind; [now apply skip_fine|]. intros [[b j] cs2] Hs. cbn [snd] in Hs. destruct b; apply all_ok; [exact Hs| |]; unfold ended, inside; auto.
    - apply all_ok. unfold ended, inside. auto.
  Qed.
  Lemma char_fine p i cs : p < P -> fine cs -> fine (snd (add_char_capture p i cs)).
  Proof. intros Hp H. unfold add_char_capture. cbn [snd]. apply begin_fine; [split; simpl; lia|assumption]. Qed.
  Lemma arm_inside st bs cs : inside st bs cs -> all (carm glob path st bs cs) ended.
  Proof.
    intros H. pose proof H as (H1 & H2 & H3 & H4). unfold carm. cbv zeta. apply all_any. intros c _.
    destruct (c =? 42)%N; [now apply star_inside|].
    destruct (_ && _).
    { apply all_any. intros x Ex. apply at_lt in Ex. destruct (negb (is_sep x)); [|now apply all_ok].
      pose proof (char_fine (s_path st) (s_cap st) cs Ex H4) as Hc. destruct (add_char_capture _ _ _) as [ci cs'].
      apply all_ok. unfold ended, inside. cbn [s_path]. auto. }
    destruct (_ && _).
    { unfold carm_class. apply all_any. intros x Ex. apply at_lt in Ex.
      destruct (match nth_error glob (S (s_glob st)) with Some y => _ | None => _ end) as [ng i]. apply all_any. intros [[j m]|] _; [|now apply all_ok].
      destruct (negb _); [now apply all_ok|]. destruct (xorb m ng); [|now apply all_ok].
      pose proof (char_fine (s_path st) (s_cap st) cs Ex H4) as Hc. destruct (add_char_capture _ _ _) as [ci cs'].
      apply all_ok. unfold ended, inside. cbn [s_path]. auto. }
    destruct (_ && _).
    { destruct (Nat.leb _ _); [now apply all_ok|]. cbn [ck_push]. apply all_ok. unfold ended, inside. cbn [s_path ck_stack ck_longest].
      split; [assumption|]. split; [constructor; [exact H1|assumption]|]. split; [assumption|]. apply begin_fine; [split; assumption|assumption]. }
    assert (Hm : forall l, opt_max (ck_longest bs) (s_path st) = Some l -> l <= P).
    { intros l [= <-]. destruct (ck_longest bs) as [m|]; [|assumption]. specialize (H3 m eq_refl). lia. }
    destruct (_ && _).
    { eapply all_bind; [apply (pop_inside (mk_cs (s_path st) (S (s_glob st)) (s_cap st) (s_wild st) (s_star st)) (mk_ck (ck_stack bs) (opt_max (ck_longest bs) (s_path st))) cs)|].
      - unfold inside. cbn [s_path ck_stack ck_longest]. auto.
      - intros [[st' bs'] cs'] Hi. now apply all_ok. }
    destruct (_ && _).
    { apply all_any. intros top Et. apply all_ok. unfold ended, inside. cbn [s_path ck_stack ck_longest].
      unfold ck_last in Et. cbn [ck_stack] in Et. destruct (ck_stack bs) as [|t r]; [discriminate|]. injection Et as <-.
      split; [|auto]. now apply Forall_cons_iff in H2 as [H2 _]. }
    destruct (Nat.ltb _ _); [|now apply all_ok].
    unfold carm_literal. destruct (unescape c glob (s_glob st)) as [[v i]|]; [|now apply all_ok]. cbn [s_path].
    apply all_any. intros x Ex. apply at_lt in Ex. destruct (if (v =? 47)%N then is_sep x else (x =? v)%N); [|now apply all_ok].
    cbv zeta. cbn [s_cap s_wild s_star s_path]. apply all_any. intros after _.
    apply (all_bind _ _ (fun '(st', bs', cs') => inside st' bs' cs' /\ s_path st' = s_path st)).
    - destruct after.
      + intros [[st' bs'] cs'] E. split.
        * refine (pop_inside _ _ _ _ _ E). unfold inside. cbn [s_path ck_stack ck_longest]. split; [assumption|].
          split; [assumption|]. split; [|assumption]. intros l [= <-]. assumption.
        * unfold ck_pop in E. cbn [ck_stack ck_longest] in E. destruct (ck_stack bs); [discriminate|]. injection E as <- _ _. reflexivity.
      + apply all_ok. split; [|reflexivity]. unfold inside. cbn [s_path]. auto.
    - intros [[st' bs'] cs'] ((A & B & C & D) & E). apply all_ok. unfold ended, inside. cbn [s_path].
      split; [lia|]. auto.
  Qed.
  Lemma no_match_inside ng st bs cs : inside st bs cs -> all (cno_match glob path false ng st bs cs) (outcome inside fine).
  Proof.
    assert (Hback : forall s, ccan_backtrack path s = true -> s_path (cbacktrack s) <= P).
    { intros s E. unfold ccan_backtrack in E. apply andb_true_iff in E as [_ E]. apply Nat.leb_le in E. exact E. }
    intros (H1 & H2 & H3 & H4). unfold cno_match. destruct (ccan_backtrack path st) eqn:Eb.
    { apply all_ok. unfold outcome, inside. auto. }
    destruct (ck_stack bs) as [|top rest] eqn:Es; [apply all_ok; intros _; assumption|].
    eapply all_bind; [now apply skip_fine|]. intros [[b i] cs'] Hc. cbn [snd] in Hc. cbv zeta.
    pose proof H2 as Hr. apply Forall_cons_iff in Hr as [Ht Hr].
    destruct b; [apply all_ok; intros _; assumption| |].
    - apply all_ok. unfold outcome, inside. cbn [s_path]. rewrite Es. auto.
    - destruct (ck_longest bs) as [l|] eqn:El.
      + eapply all_bind; [apply (pop_inside (mk_cs (s_path st) i (s_cap st) (s_wild st) (s_star st)) bs cs')|].
        * unfold inside. cbn [s_path]. rewrite Es, El. auto.
        * intros [[st' bs'] cs2] Hi. now apply all_ok.
      + assert (Hf : fine (option_map (firstn (s_cap top)) cs')).
        { destruct Hc as (l & -> & Hl). eexists. split; [reflexivity|]. rewrite <- (firstn_skipn (s_cap top) l) in Hl. now apply Forall_app in Hl as [Hl _]. }
        destruct (ccan_backtrack path top) eqn:Et; [|apply all_ok; intros _; assumption].
        apply all_ok. unfold outcome, inside. cbn [ck_stack ck_longest]. split; [now apply Hback|]. split; [assumption|].
        split; [discriminate|assumption].
  Qed.
  Lemma step_inside ng st bs cs : inside st bs cs -> all (cstep glob path false ng st bs cs) (outcome inside fine).
  Proof.
    intros H. unfold cstep. destruct (Nat.ltb (s_glob st) _ || _).
    - apply (all_bind _ _ ended).
      + destruct (Nat.ltb _ _); [now apply arm_inside|now apply all_ok].
      + intros [b c|s b c|s b c] Ho; [apply all_ok; intros _; exact Ho|now apply all_ok|now apply no_match_inside].
    - apply all_any. intros after _. destruct after; [|apply all_ok; intros _; apply H].
      destruct H as (H1 & H2 & H3 & H4).
      apply (all_bind _ _ fine).
      + eapply all_bind; [apply (pop_inside st (mk_ck (ck_stack bs) (Some (s_path st))) cs)|].
        * unfold inside. cbn [ck_stack ck_longest]. split; [assumption|]. split; [assumption|]. split; [intros l [= <-]; assumption|assumption].
        * intros [[st' bs'] cs'] (_ & _ & _ & Hi). now apply all_ok.
      + intros c Hc. apply all_ok. intros _. exact Hc.
  Qed.
  Lemma run_fine k cs : cglob_run k glob path (Some []) false = Ok (true, cs) -> fine cs.
  Proof.
    apply (run_inv inside fine); [apply step_inside|]. intros i ng _. unfold inside. cbn [s_path ck_stack ck_longest].
    split; [lia|]. split; [constructor|]. split; [discriminate|]. exists []. auto.
  Qed.
End Bounds.

(** A path matches with captures exactly when it matches *)
Theorem C68_agrees : forall glob path,
  (exists l, glob_match_with_captures glob path = Some l) <-> glob_match glob path = true.
Proof.
  intros glob path. unfold glob_match_with_captures, glob_match.
  pose proof (cglob_run_of (utf8 glob) (utf8 path) (Some []) false) as E. rewrite <- E.
  destruct (cglob_run _ _ _ _ _) as [[[|] cs]| |] eqn:Er; cbn [rmap fst].
  - apply run_fine in Er as (l & -> & _). split; [reflexivity|eauto].
  - split; [intros (l & H)|intros H]; discriminate.
  - split; [intros (l & H)|intros H]; discriminate.
  - split; [intros (l & H)|intros H]; discriminate.
Qed.
Print Assumptions C68_agrees.

(** Every capture lies within the path, whatever the pattern *)
Theorem C68_bounds : forall glob path l a b, glob_match_with_captures glob path = Some l -> In (a, b) l ->
  a <= List.length (utf8 path) /\ b <= List.length (utf8 path).
Proof.
  intros glob path l a b. unfold glob_match_with_captures.
  destruct (cglob_run _ _ _ _ _) as [[[|] cs]| |] eqn:Er; try discriminate.
  intros -> I. apply run_fine in Er as (l' & [= <-] & H). rewrite Forall_forall in H. exact (H _ I).
Qed.
Print Assumptions C68_bounds.

(* ------------------------------------------------------------------ *)
(** ** Order of the ends, for patterns without groups *)
Section Order.
  Variables glob path : list N.
  Hypothesis no_group : ~ In 123%N glob.
  Definition upright (c : capture) : Prop := fst c <= snd c.
  (** the capture [i] starts at or before [p] *)
  Definition begun (l : list capture) (i p : nat) : Prop := exists a b, nth_error l i = Some (a, b) /\ a <= p.
  Definition ordered (st : cstate) (bs : cstack) (cs : captures) : Prop :=
    exists l, cs = Some l /\ ck_stack bs = [] /\ Forall upright l /\ s_cap st <= List.length l /\
    (0 < k_path (s_wild st) -> begun l (k_cap (s_wild st)) (k_path (s_wild st)) /\ k_cap (s_wild st) <= s_cap st) /\
    (0 < k_path (s_star st) -> begun l (k_cap (s_star st)) (s_path st) /\ k_cap (s_star st) <= s_cap st /\
       (0 < k_path (s_wild st) -> begun l (k_cap (s_star st)) (k_path (s_wild st)) /\ k_cap (s_star st) <= k_cap (s_wild st))) /\
    k_glob (s_wild st) <= s_glob st /\
    (k_glob (s_wild st) < s_glob st \/ l = [] \/ (s_cap st = k_cap (s_wild st) /\ begun l (s_cap st) (s_path st))).
  Definition ordered_captures (cs : captures) : Prop := exists l, cs = Some l /\ Forall upright l.
  (** what a failed element leaves: only the pattern position is off *)
  Definition left_behind (o : cout) : Prop :=
    match o with
    | CRet _ cs => ordered_captures cs
    | CCont st bs cs => ordered st bs cs
    | CFail st bs cs => exists i, ordered (mk_cs (s_path st) i (s_cap st) (s_wild st) (s_star st)) bs cs
    end.
  Lemma ordered_done st bs cs : ordered st bs cs -> ordered_captures cs.
  Proof. intros (l & -> & _ & H & _). exists l. auto. Qed.

  Lemma begun_lt l i p : begun l i p -> i < List.length l.
  Proof. intros (a & b & E & _). apply nth_error_Some. congruence. Qed.
  Lemma begun_le l i p q : begun l i p -> p <= q -> begun l i q.
  Proof. intros (a & b & E & H) Hq. exists a, b. split; [assumption|lia]. Qed.
  (** writing a capture *)
  Definition written (i : nat) (x : capture) (l : list capture) := if Nat.ltb i (List.length l) then set_nth i x l else l ++ [x].
  Lemma written_nth i x l j : i <= List.length l -> nth_error (written i x l) j = if Nat.eqb i j then Some x else nth_error l j.
  Proof.
    intros Hi. unfold written. destruct (Nat.ltb_spec i (List.length l)) as [Hl|Hl].
    - rewrite nth_set_nth. destruct (Nat.eqb_spec i j) as [<-|]; [|reflexivity].
      destruct (nth_error l i) eqn:E; [reflexivity|]. apply nth_error_None in E. lia.
    - assert (i = List.length l) as -> by lia. destruct (Nat.eqb_spec (List.length l) j) as [<-|Hj].
      + rewrite nth_error_app2, Nat.sub_diag by lia. reflexivity.
      + destruct (Nat.lt_ge_cases j (List.length l)) as [Hj2|Hj2]; [now rewrite nth_error_app1|].
        rewrite nth_error_app2 by lia. destruct (nth_error l j) eqn:E; [assert (j < List.length l) by (apply nth_error_Some; congruence); lia|].
        destruct (j - List.length l) as [|[|m]] eqn:Em; [lia|reflexivity|reflexivity].
  Qed.
  Lemma written_length i x l : i <= List.length l -> List.length (written i x l) = Nat.max (S i) (List.length l).
  Proof.
    intros Hi. unfold written. destruct (Nat.ltb_spec i (List.length l)); [rewrite set_nth_length; lia|].
    rewrite app_length. cbn [List.length]. lia.
  Qed.
  Lemma written_upright i x l : upright x -> Forall upright l -> Forall upright (written i x l).
  Proof. apply begin_Forall. Qed.
  Lemma begun_written i x l j p : i <= List.length l -> begun l j p -> (i = j -> fst x <= p) -> begun (written i x l) j p.
  Proof.
    intros Hi (a & b & E & H) Hx. destruct (Nat.eqb_spec i j) as [->|Hj].
    - exists (fst x), (snd x). rewrite written_nth, Nat.eqb_refl by assumption. split; [now destruct x|auto].
    - exists a, b. rewrite written_nth by assumption. apply Nat.eqb_neq in Hj. rewrite Hj. auto.
  Qed.
  Lemma begun_new i x l p : i <= List.length l -> fst x <= p -> begun (written i x l) i p.
  Proof.
    intros Hi Hx. exists (fst x), (snd x). rewrite written_nth, Nat.eqb_refl by assumption. split; [now destruct x|auto].
  Qed.

  Lemma star_ordered st bs cs : ordered st bs cs -> all (carm_star glob path st bs cs) left_behind.
  Proof.
    intros (l & -> & Hb & Hu & Hc & Hw & Hs & Hg & Hf). unfold carm_star. cbv zeta.
    set (gs := match nth_error glob (S (s_glob st)) with Some 42%N => true | _ => false end).
    apply (all_bind _ _ (fun i => s_glob st <= i)).
    { destruct gs; [|apply all_ok; lia]. intros i E.
      unfold skip_globstars in E. destruct (Nat.ltb _ _); [discriminate|]. cbn [bind] in E. injection E as <-.
      assert (K : forall r k, k <= skip_globstars_go r k).
      { clear. induction r as [r IH] using (induction_ltof1 _ (@List.length N)). unfold ltof in IH. intros k.
        destruct r as [|a [|b [|c r]]]; cbn [skip_globstars_go]; try lia.
        destruct (_ && _)%bool; [|lia]. specialize (IH r ltac:(simpl; lia) (3 + k)). lia. }
      specialize (K (skipn (s_glob st + 2) glob) (s_glob st + 2)). lia. }
    intros i Hi. set (p := s_path st) in *. set (c := s_cap st) in *.
    set (fresh := Nat.eqb (List.length l) 0 || negb (Nat.eqb i (k_glob (s_wild st)))).
    (* after this the capture [c] is there *)
    assert (E : exists l', (if fresh then begin_capture c (p, p) (Some l) else extend_capture c p (Some l)) = Some l' /\
        (if fresh then c else k_cap (s_wild st)) = c /\ Forall upright l' /\ begun l' c p /\ c < List.length l' /\
        (0 < k_path (s_star st) -> begun l' (k_cap (s_star st)) p)).
    { destruct fresh eqn:Ef.
      - exists (written c (p, p) l). split; [reflexivity|]. split; [reflexivity|]. split; [apply written_upright; [unfold upright; simpl; lia|assumption]|].
        split; [apply begun_new; [assumption|simpl; lia]|]. split; [rewrite written_length by assumption; lia|].
        intros H. apply begun_written; [assumption|apply Hs; assumption|simpl; lia].
      - unfold fresh in Ef. apply orb_false_iff in Ef as [E1 E2]. apply Nat.eqb_neq in E1. apply negb_false_iff, Nat.eqb_eq in E2.
        destruct Hf as [Hf|[->|(Ec & a & b & En & Ha)]]; [lia|simpl in E1; lia|]. fold c in Ec, En. fold p in Ha.
        exists (set_nth c (a, p) l). cbn [extend_capture]. rewrite En. split; [reflexivity|]. split; [symmetry; exact Ec|].
        split; [apply set_nth_Forall; [exact Ha|assumption]|].
        assert (Hn : forall j q, begun l j q -> begun (set_nth c (a, p) l) j q).
        { intros j q (a' & b' & Ej & Hq). destruct (Nat.eqb_spec c j) as [<-|Hj].
          - rewrite En in Ej. injection Ej as <- <-. exists a, p. rewrite nth_set_nth, Nat.eqb_refl, En. auto.
          - exists a', b'. rewrite nth_set_nth. apply Nat.eqb_neq in Hj. rewrite Hj. auto. }
        split; [apply Hn; exists a, b; auto|]. split; [rewrite set_nth_length; apply nth_error_Some; congruence|].
        intros H. apply Hn. now apply Hs. }
    destruct E as (l' & E1 & E2 & Hu' & Hbc & Hcl & Hst).
    match goal with |- context [if fresh then begin_capture c (p, p) (Some l) else extend_capture c p (Some l)] =>
      replace (if fresh then begin_capture c (p, p) (Some l) else extend_capture c p (Some l)) with (Some l') by (symmetry; exact E1) end.
    replace (if fresh then c else k_cap (s_wild st)) with c by (symmetry; exact E2).
    clearbody fresh. clear E1 E2.
    apply (all_bind _ _ (fun '(i1, star, ci) => i < i1 /\ c <= ci <= List.length l' /\ (0 < k_path star -> begun l' (k_cap star) p /\ k_cap star <= c))).
    { assert (H0 : forall i1, i < i1 -> all (Ok (i1, s_star st, c)) (fun '(i1, star, ci) => i < i1 /\ c <= ci <= List.length l' /\ (0 < k_path star -> begun l' (k_cap star) p /\ k_cap star <= c))).
      { intros i1 H1. apply all_ok. split; [assumption|]. split; [lia|]. intros H. split; [auto|]. now apply Hs. }
      assert (H0' : forall i1 ci, i < i1 -> c <= ci <= List.length l' -> all (Ok (i1, mk_cw i (p + 1) c, ci)) (fun '(i1, star, ci) => i < i1 /\ c <= ci <= List.length l' /\ (0 < k_path star -> begun l' (k_cap star) p /\ k_cap star <= c))).
      { intros i1 ci H1 H2. apply all_ok. split; [assumption|]. split; [assumption|]. intros H. cbn [k_cap]. split; [auto|lia]. }
      destruct gs; [|apply H0; lia]. destruct (Nat.eqb (List.length glob) (i + 2)); [apply H0'; lia|].
      apply all_any. intros c1 _. apply all_any. intros c2 _. destruct (_ && _)%N; [|apply H0; lia].
      apply all_any. intros skip _. destruct skip; apply H0'; try lia.
      cbn [end_capture]. destruct (Nat.ltb_spec c (List.length l')); lia. }
    intros [[i1 star] ci] (Hi1 & Hci & Hstar). apply all_any. intros sep _.
    assert (Fin : forall i2 wild ci2, ordered (mk_cs p i2 ci2 wild star) bs (Some l') ->
      all (if match ck_stack bs with [] => false | _ => match nth_error glob i2 with Some c => ((c =? 44) || (c =? 125))%N | None => false end end
           then bind (cskip_braces (S (List.length glob)) glob false p i2 1 false (S ci2) (Some l')) (fun '(b, i, cs) =>
             match b with BInvalid => Ok (CRet false cs) | _ => Ok (CCont (mk_cs p i ci2 wild star) bs cs) end)
           else Ok (CCont (mk_cs p i2 ci2 wild star) bs (Some l'))) left_behind).
    { intros i2 wild ci2 H. rewrite Hb. now apply all_ok. }
    assert (Ho : ordered (mk_cs p i1 ci (mk_cw i (p + 1) c) star) bs (Some l')).
    { exists l'. cbn [s_path s_glob s_cap s_wild s_star k_path k_glob k_cap]. split; [reflexivity|]. split; [assumption|]. split; [assumption|]. split; [lia|].
      split; [intros _; split; [apply (begun_le _ _ p); [assumption|lia]|lia]|].
      split; [intros H; specialize (Hstar H) as [A B]; split; [assumption|]; split; [lia|]; intros _; split; [apply (begun_le _ _ p); [assumption|lia]|lia]|].
      split; [lia|]. left. lia. }
    destruct sep; [|apply Fin; exact Ho].
    destruct (Nat.ltb 0 (k_path star) && Nat.ltb (p + 1) (List.length path)) eqn:Eb.
    - apply andb_true_iff in Eb as [Eb _]. apply Nat.ltb_lt in Eb. destruct (Hstar Eb) as [A B]. apply Fin.
      exists l'. cbn [s_path s_glob s_cap s_wild s_star k_path k_glob k_cap]. split; [reflexivity|]. split; [assumption|]. split; [assumption|]. split; [lia|].
      assert (A' : begun l' (k_cap star) (p + 1)) by (apply (begun_le _ _ p); [assumption|lia]).
      split; [intros _; split; [assumption|lia]|].
      split; [intros _; split; [assumption|]; split; [lia|]; intros _; split; [assumption|lia]|].
      split; [lia|]. right. right. split; [reflexivity|assumption].
    - apply Fin. exists l'. cbn [s_path s_glob s_cap s_wild s_star k_path k_glob k_cap]. split; [reflexivity|]. split; [assumption|]. split; [assumption|]. split; [lia|].
      split; [lia|].
      split; [intros H; specialize (Hstar H) as [A B]; split; [assumption|]; split; [lia|]; lia|].
      split; [lia|]. left. lia.
  Qed.
  (** an element that takes a byte and captures it *)
  Lemma char_ordered st bs cs i : ordered st bs cs -> s_glob st < i ->
    let '(ci, cs') := add_char_capture (s_path st) (s_cap st) cs in
    ordered (mk_cs (S (s_path st)) i ci (s_wild st) (s_star st)) bs cs'.
  Proof.
    intros (l & -> & Hb & Hu & Hc & Hw & Hs & Hg & Hf) Hi. unfold add_char_capture. cbn [end_capture begin_capture].
    set (c := s_cap st) in *. set (k := if Nat.ltb c (List.length l) then S c else c).
    assert (Hk : c <= k <= List.length l /\ (k = c -> c = List.length l)).
    { unfold k. destruct (Nat.ltb_spec c (List.length l)); lia. }
    fold (written k (s_path st, S (s_path st)) l).
    assert (Hn : forall j q, j <= c -> begun l j q -> begun (written k (s_path st, S (s_path st)) l) j q).
    { intros j q Hj Hq. apply begun_written; [lia|assumption|]. intros <-. apply begun_lt in Hq. lia. }
    exists (written k (s_path st, S (s_path st)) l). cbn [s_path s_glob s_cap s_wild s_star]. split; [reflexivity|]. split; [assumption|].
    split; [apply written_upright; [unfold upright; simpl; lia|assumption]|].
    split; [rewrite written_length by lia; lia|].
    split; [intros H; specialize (Hw H) as [A B]; split; [now apply Hn|lia]|].
    split.
    { intros H. specialize (Hs H) as (A & B & C). split; [apply (begun_le _ _ (s_path st)); [now apply Hn|lia]|].
      split; [lia|]. intros H'. specialize (C H') as [C D]. split; [now apply Hn|assumption]. }
    split; [lia|]. left. lia.
  Qed.
  Lemma arm_ordered st bs cs : ordered st bs cs -> all (carm glob path st bs cs) left_behind.
  Proof.
    intros H. unfold carm. cbv zeta. apply all_any. intros c Ec.
    destruct (c =? 42)%N; [now apply star_ordered|].
    assert (Hfail : forall i, left_behind (CFail (mk_cs (s_path st) i (s_cap st) (s_wild st) (s_star st)) bs cs)).
    { intros i. exists (s_glob st). cbn [s_path s_glob s_cap s_wild s_star]. destruct st; exact H. }
    assert (Hfail' : left_behind (CFail st bs cs)). { exists (s_glob st). destruct st; exact H. }
    destruct (_ && _).
    { apply all_any. intros x _. destruct (negb (is_sep x)); [|now apply all_ok].
      pose proof (char_ordered st bs cs (S (s_glob st)) H ltac:(lia)) as Hc. destruct (add_char_capture _ _ _) as [ci cs'].
      now apply all_ok. }
    destruct (_ && _).
    { unfold carm_class. apply all_any. intros x _.
      destruct (match nth_error glob (S (s_glob st)) with Some y => _ | None => _ end) as [ng i] eqn:Ei.
      assert (Hi : s_glob st < i).
      { destruct (nth_error glob (S (s_glob st))) as [y|]; [|injection Ei as _ <-; lia].
        destruct (_ || _)%bool; injection Ei as _ <-; lia. }
      apply all_any. intros [[j m]|] Ej; [|apply all_ok; now apply ordered_done in H].
      assert (Hj : i <= j).
      { destruct (Nat.le_gt_cases i (List.length glob)) as [L|L].
        - destruct (class_loop_safe glob (S (List.length glob)) x true false i ltac:(lia) L) as (r & Er & Hr).
          rewrite Ej in Er. injection Er as <-. now apply (Hr _ _ eq_refl).
        - cbn [class_loop] in Ej. destruct (Nat.ltb_spec i (List.length glob)); [lia|]. injection Ej as <- <-. lia. }
      destruct (negb _); [apply all_ok; now apply ordered_done in H|]. destruct (xorb m ng); [|apply all_ok; apply Hfail].
      pose proof (char_ordered st bs cs (S j) H ltac:(lia)) as Hc. destruct (add_char_capture _ _ _) as [ci cs'].
      now apply all_ok. }
    assert ((c =? 123)%N = false) as ->.
    { apply N.eqb_neq. intros ->. apply no_group. unfold at_ in Ec. destruct (nth_error glob (s_glob st)) eqn:E; [|discriminate].
      injection Ec as ->. now apply nth_error_In in E. }
    pose proof H as (l & -> & Hb & Hu & Hc & Hw & Hs & Hg & Hf). rewrite Hb. rewrite !andb_false_r. cbn [andb].
    destruct (Nat.ltb _ _); [|apply all_ok; exact Hfail'].
    unfold carm_literal. destruct (unescape c glob (s_glob st)) as [[v i]|] eqn:Eu; [|apply all_ok; exists l; auto]. cbn [s_path].
    assert (Hi : s_glob st <= i).
    { unfold unescape in Eu. destruct (c =? 92)%N; [|injection Eu as _ <-; lia]. destruct (nth_error glob _); [injection Eu as _ <-; lia|discriminate]. }
    apply all_any. intros x _. destruct (if (v =? 47)%N then is_sep x else (x =? v)%N); [|apply all_ok; apply Hfail].
    rewrite Hb. cbn [bind s_path s_glob s_cap s_wild s_star end_capture]. apply all_ok.
    exists l. cbn [s_path s_glob s_cap s_wild s_star]. split; [reflexivity|]. split; [assumption|]. split; [assumption|].
    assert (Hk : s_cap st <= (if Nat.ltb (s_cap st) (List.length l) then S (s_cap st) else s_cap st) <= List.length l).
    { destruct (Nat.ltb_spec (s_cap st) (List.length l)); lia. }
    split; [lia|]. split; [intros Q; specialize (Hw Q) as [A B]; split; [assumption|lia]|].
    split.
    { intros Q. assert (0 < k_path (s_star st)) as Q' by (destruct (v =? 47)%N; [exact Q|cbn [k_path] in Q; lia]).
      assert (k_cap (if (v =? 47)%N then s_star st else mk_cw (k_glob (s_star st)) 0 (k_cap (s_star st))) = k_cap (s_star st)) as -> by (now destruct (v =? 47)%N).
      specialize (Hs Q') as (A & B & C). split; [apply (begun_le _ _ (s_path st)); [assumption|lia]|]. split; [lia|assumption]. }
    split; [lia|]. left. lia.
  Qed.
  Lemma no_match_ordered ng i st bs cs : ordered (mk_cs (s_path st) i (s_cap st) (s_wild st) (s_star st)) bs cs ->
    all (cno_match glob path false ng st bs cs) (outcome ordered ordered_captures).
  Proof.
    intros H. unfold cno_match. destruct (ccan_backtrack path st) eqn:Eb.
    - apply all_ok. destruct H as (l & -> & Hb & Hu & Hc & Hw & Hs & Hg & Hf). cbn [s_path s_glob s_cap s_wild s_star] in *.
      unfold ccan_backtrack in Eb. apply andb_true_iff in Eb as [Eb _]. apply Nat.ltb_lt in Eb. destruct (Hw Eb) as [A B].
      exists l. cbn [cbacktrack s_path s_glob s_cap s_wild s_star]. split; [reflexivity|]. split; [assumption|]. split; [assumption|].
      split; [apply begun_lt in A; lia|]. split; [intros _; split; [assumption|lia]|].
      split; [intros Q; destruct (Hs Q) as (_ & _ & C); specialize (C Eb) as [C D]; split; [assumption|]; split; [assumption|]; auto|].
      split; [lia|]. right. right. auto.
    - pose proof H as (l & -> & Hb & Hu & _). rewrite Hb. apply all_ok. intros _. exists l. auto.
  Qed.
  Lemma step_ordered ng st bs cs : ordered st bs cs -> all (cstep glob path false ng st bs cs) (outcome ordered ordered_captures).
  Proof.
    intros H. unfold cstep. destruct (Nat.ltb (s_glob st) _ || _).
    - apply (all_bind _ _ left_behind).
      + destruct (Nat.ltb _ _); [now apply arm_ordered|apply all_ok]. exists (s_glob st). destruct st; exact H.
      + intros [b c|s b c|s b c] Ho; [apply all_ok; intros _; exact Ho|now apply all_ok|]. destruct Ho as (i & Ho).
        now apply no_match_ordered with i.
    - pose proof H as (l & -> & Hb & Hu & _). rewrite Hb. apply all_ok. intros _. exists l. auto.
  Qed.
  Lemma run_ordered k cs : cglob_run k glob path (Some []) false = Ok (true, cs) -> ordered_captures cs.
  Proof.
    apply (run_inv ordered ordered_captures); [apply step_ordered|]. intros i ng _. exists []. cbn [s_path s_glob s_cap s_wild s_star cw0 k_path k_glob k_cap ck_stack List.length].
    split; [reflexivity|]. split; [reflexivity|]. split; [constructor|]. split; [lia|]. split; [lia|]. split; [lia|]. split; [lia|]. auto.
  Qed.
End Order.

(** Full statement: every capture (a, b) of a match is a range of the path,
    [a <= b <= length], so that it can be sliced.  Proved for patterns without
    groups; with groups it is false (C68_ranges_refuted). *)
Theorem C68_ranges_partial : forall glob path l a b, ~ In 123%N (utf8 glob) ->
  glob_match_with_captures glob path = Some l -> In (a, b) l -> a <= b <= List.length (utf8 path).
Proof.
  intros glob path l a b Hg E I. pose proof (C68_bounds glob path l a b E I) as [_ Hb].
  unfold glob_match_with_captures in E. destruct (cglob_run _ _ _ _ _) as [[[|] cs]| |] eqn:Er; try discriminate.
  subst cs. apply run_ordered in Er as (l' & [= <-] & H); [|assumption]. rewrite Forall_forall in H. specialize (H _ I). exact (conj H Hb).
Qed.
Print Assumptions C68_ranges_partial.
(** A group can leave a capture that ends before it starts *)
Theorem C68_ranges_refuted : exists glob path l a b,
  glob_match_with_captures glob path = Some l /\ In (a, b) l /\ b < a.
Proof.
  exists (tx "?{,,?*}{a*}*"), (tx "aab"). eexists. exists 2, 1. split; [vm_compute; reflexivity|]. split; [|lia].
  simpl. tauto.
Qed.
Print Assumptions C68_ranges_refuted.

(* ------------------------------------------------------------------ *)
(** ** Which parts are captured *)

(** Each wildcard with the part of the path it stands for; literals are not
    captured *)
Inductive parts : nat -> list elt -> list N -> list capture -> Prop :=
| parts_nil pos : parts pos [] [] []
| parts_star pos s es l cs : ~ In 47%N s -> parts (pos + List.length s) es l cs ->
    parts pos (Star :: es) (s ++ l) ((pos, pos + List.length s) :: cs)
| parts_literal pos v es l cs : parts (S pos) es l cs -> parts pos (Exactly v :: es) (v :: l) cs
| parts_one pos e x es l cs : (forall v, e <> Exactly v) -> holds e x -> parts (S pos) es l cs ->
    parts pos (e :: es) (x :: l) ((pos, S pos) :: cs).
(** only literals and stars after the first star *)
Definition stars_last (es : list elt) : Prop :=
  forall a b, es = a ++ Star :: b -> Forall (fun e => e = Star \/ exists v, e = Exactly v) b.

Lemma parts_app pos es1 l1 c1 : parts pos es1 l1 c1 -> forall es2 l2 c2, parts (pos + List.length l1) es2 l2 c2 ->
  parts pos (es1 ++ es2) (l1 ++ l2) (c1 ++ c2).
Proof.
  induction 1 as [pos|pos s es l cs Hs _ IH|pos v es l cs _ IH|pos e x es l cs He O _ IH]; intros es2 l2 c2 H; cbn [app List.length] in *.
  - rewrite Nat.add_0_r in H. exact H.
  - rewrite <- app_assoc. constructor; [assumption|]. apply IH. rewrite app_length in H. now rewrite <- Nat.add_assoc.
  - constructor. apply IH. now rewrite Nat.add_succ_l, <- Nat.add_succ_r.
  - constructor; [assumption|assumption|]. apply IH. now rewrite Nat.add_succ_l, <- Nat.add_succ_r.
Qed.
Lemma parts_literals pos es l : Forall (fun e => exists v, e = Exactly v) es -> Forall2 holds es l -> parts pos es l [].
Proof.
  intros H F. revert pos. induction F as [|e x es l O _ IH]; intros pos; [constructor|].
  apply Forall_cons_iff in H as [(v & ->) H]. cbn [holds] in O. subst x. constructor. auto.
Qed.

Section Parts.
  Variables glob path : list N.
  Local Notation G := (List.length glob).
  Local Notation P := (List.length path).
  Local Notation step := (cstep glob path false false).

  Definition caught (e : elt) (p c : nat) (cs : captures) : nat * captures :=
    match e with Exactly _ => (end_capture c cs, cs) | _ => add_char_capture p c cs end.

  Lemma fail_out ng st bs cs o : ck_stack bs = [] -> cno_match glob path false ng st bs cs = Ok o ->
    o = CRet ng cs \/
    (0 < k_path (s_wild st) <= P /\ o = CCont (mk_cs (k_path (s_wild st)) (k_glob (s_wild st)) (k_cap (s_wild st)) (s_wild st) (s_star st)) bs cs).
  Proof.
    intros Hb E. unfold cno_match in E. rewrite Hb in E. destruct (ccan_backtrack path st) eqn:Eb.
    - injection E as <-. right. unfold ccan_backtrack in Eb. apply andb_true_iff in Eb as [E1 E2].
      apply Nat.ltb_lt in E1. apply Nat.leb_le in E2. auto.
    - injection E as <-. left. reflexivity.
  Qed.
  (** an element that takes a byte: what becomes of the captures *)
  Lemma piece_captures pre t e g st bs cs o : glob = pre ++ t ++ g -> piece t e -> e <> Star -> ck_stack bs = [] -> s_glob st = List.length pre ->
    step st bs cs = Ok o ->
    (exists i star ci cs', caught e (s_path st) (s_cap st) cs = (ci, cs') /\ s_glob st < i /\
       o = CCont (mk_cs (S (s_path st)) i ci (s_wild st) star) bs cs') \/
    o = CRet false cs \/
    (0 < k_path (s_wild st) <= P /\ exists star, o = CCont (mk_cs (k_path (s_wild st)) (k_glob (s_wild st)) (k_cap (s_wild st)) (s_wild st) star) bs cs).
  Proof.
    intros Eg Hp He Hb Hg E.
    assert (exists c t', t = c :: t' /\ c <> 42%N /\ c <> 123%N) as (c & t' & Et & H42 & H123).
    { destruct Hp as [ | |c Hc|e|t rs|c t rs]; try congruence; try (do 2 eexists; (split; [reflexivity|split; discriminate])).
      exists c, []. split; [reflexivity|]. simpl in Hc. split; intros ->; tauto. }
    assert (En : nth_error glob (s_glob st) = Some c) by (rewrite Hg, Eg, Et; apply P_Glob.nth_middle).
    assert (Hlt : s_glob st < G) by (apply nth_error_Some; congruence).
    unfold cstep in E. apply Nat.ltb_lt in Hlt. rewrite Hlt in E. cbn [orb] in E.
    assert (Ea : at_ glob (s_glob st) = Ok c) by (unfold at_; now rewrite En).
    assert (K : forall x, carm glob path st bs cs = Ok x ->
      (exists i star ci cs', caught e (s_path st) (s_cap st) cs = (ci, cs') /\ s_glob st < i /\
         x = CCont (mk_cs (S (s_path st)) i ci (s_wild st) star) bs cs') \/ x = CRet false cs \/
      exists i, x = CFail (mk_cs (s_path st) i (s_cap st) (s_wild st) (s_star st)) bs cs).
    2:{ destruct (carm glob path st bs cs) as [x| |]; [|discriminate|discriminate]. cbn [bind] in E.
        destruct (K x eq_refl) as [(i & star & ci & cs' & Ec & Hi & ->)|[->|(i & ->)]].
        - injection E as <-. left. exists i, star, ci, cs'. auto.
        - injection E as <-. auto.
        - right. apply fail_out in E as [E|(H1 & E)]; [auto| |assumption]. right. cbn [s_wild s_star] in *. eauto. }
    clear E o. intros o E. unfold carm in E. rewrite Ea in E. cbn [bind] in E.
    apply N.eqb_neq in H42, H123. rewrite H42, H123 in E. rewrite Hb in E. rewrite !andb_false_r in E. cbn [andb] in E.
    assert (St : st = mk_cs (s_path st) (s_glob st) (s_cap st) (s_wild st) (s_star st)) by (now destruct st).
    destruct (Nat.ltb_spec (s_path st) P) as [Hlt2|Hge].
    2:{ rewrite !andb_false_r in E. cbn [andb] in E. injection E as <-. right. right. exists (s_glob st). now rewrite <- St. }
    rewrite !andb_true_r in E.
    assert (Char : forall i, caught e (s_path st) (s_cap st) cs = add_char_capture (s_path st) (s_cap st) cs -> s_glob st < i ->
      (let '(ci, cs') := add_char_capture (s_path st) (s_cap st) cs in Ok (CCont (mk_cs (S (s_path st)) i ci (s_wild st) (s_star st)) bs cs')) = Ok o ->
      exists i star ci cs', caught e (s_path st) (s_cap st) cs = (ci, cs') /\ s_glob st < i /\ o = CCont (mk_cs (S (s_path st)) i ci (s_wild st) star) bs cs').
    { intros i Ec Hi Eo. rewrite Ec. destruct (add_char_capture _ _ _) as [ci cs']. injection Eo as <-. exists i, (s_star st), ci, cs'. auto. }
    assert (Hclass : c = 91%N -> (forall v, e <> Exactly v) -> carm_class glob path st bs cs = Ok o ->
      (exists i star ci cs', caught e (s_path st) (s_cap st) cs = (ci, cs') /\ s_glob st < i /\
         o = CCont (mk_cs (S (s_path st)) i ci (s_wild st) star) bs cs') \/ o = CRet false cs \/
      exists i, o = CFail (mk_cs (s_path st) i (s_cap st) (s_wild st) (s_star st)) bs cs).
    { intros _ Hv E'. unfold carm_class in E'. destruct (at_ path (s_path st)) as [x| |]; [|discriminate|discriminate]. cbn [bind] in E'.
      destruct (match nth_error glob (S (s_glob st)) with Some y => _ | None => _ end) as [ng i] eqn:Ei.
      assert (Hi : s_glob st < i).
      { destruct (nth_error glob (S (s_glob st))) as [y|]; [|injection Ei as _ <-; lia].
        destruct (_ || _)%bool; injection Ei as _ <-; lia. }
      destruct (class_loop _ _ _ _ _ _) as [r| |] eqn:Ej; [|discriminate|discriminate]. cbn [bind] in E'.
      destruct r as [[j m]|]; [|injection E' as <-; auto].
      assert (Hj : i <= j).
      { destruct (Nat.le_gt_cases i (List.length glob)) as [L|L].
        - destruct (class_loop_safe glob (S (List.length glob)) x true false i ltac:(lia) L) as (r & Er & Hr).
          rewrite Ej in Er. injection Er as <-. now apply (Hr _ _ eq_refl).
        - cbn [class_loop] in Ej. destruct (Nat.ltb_spec i (List.length glob)); [lia|]. injection Ej as <- <-. lia. }
      destruct (negb _); [injection E' as <-; auto|]. destruct (xorb m ng).
      - left. apply (Char (S j)); [|lia|exact E']. destruct e; try reflexivity. exfalso. exact (Hv _ eq_refl).
      - injection E' as <-. right. right. eauto. }
    assert (Hlit : forall v, e = Exactly v -> carm_literal glob path c st bs cs = Ok o ->
      (exists i star ci cs', caught e (s_path st) (s_cap st) cs = (ci, cs') /\ s_glob st < i /\
         o = CCont (mk_cs (S (s_path st)) i ci (s_wild st) star) bs cs') \/ o = CRet false cs \/
      exists i, o = CFail (mk_cs (s_path st) i (s_cap st) (s_wild st) (s_star st)) bs cs).
    { intros v -> E'. unfold carm_literal in E'. destruct (unescape c glob (s_glob st)) as [[u i]|] eqn:Eu; [|injection E' as <-; auto].
      assert (Hi : s_glob st <= i).
      { unfold unescape in Eu. destruct (c =? 92)%N; [|injection Eu as _ <-; lia]. destruct (nth_error glob (S (s_glob st))); [injection Eu as _ <-; lia|discriminate]. }
      cbv zeta in E'. cbn [s_path s_glob s_cap s_wild s_star] in E'. destruct (at_ path (s_path st)) as [x| |]; [|discriminate|discriminate]. cbn [bind] in E'.
      destruct (if (u =? 47)%N then is_sep x else (x =? u)%N); [|injection E' as <-; right; right; eauto].
      rewrite Hb in E'. cbn [bind s_path s_glob s_cap s_wild s_star] in E'. injection E' as <-. left.
      exists (S i). eexists. exists (end_capture (s_cap st) cs), cs. split; [reflexivity|]. split; [lia|reflexivity]. }
    destruct Hp as [ | |c' Hc|e|w rs M H1 H2|c' w rs Hc M]; [congruence| | | | |].
    - injection Et as <- <-. cbn [N.eqb Pos.eqb] in E. destruct (at_ path (s_path st)) as [x| |]; [|discriminate|discriminate]. cbn [bind] in E.
      destruct (negb (is_sep x)).
      + left. apply (Char (S (s_glob st))); [reflexivity|lia|exact E].
      + injection E as <-. right. right. exists (s_glob st). now rewrite <- St.
    - injection Et as <- <-. assert (Hk : forall k, In k [42; 63; 91; 92; 123]%N -> (c' =? k)%N = false).
      { intros k Hk. apply N.eqb_neq. intros ->. contradiction. }
      rewrite (Hk 63%N), (Hk 91%N) in E by (simpl; tauto). exact (Hlit _ eq_refl E).
    - injection Et as <- <-. cbn [N.eqb Pos.eqb] in E. exact (Hlit _ eq_refl E).
    - injection Et as <- Et'. cbn [N.eqb Pos.eqb] in E. exact (Hclass eq_refl ltac:(discriminate) E).
    - injection Et as <- Et'. cbn [N.eqb Pos.eqb] in E. exact (Hclass eq_refl ltac:(discriminate) E).
  Qed.
  Definition idle (w : cwild) := k_path w = 0.
  Lemma out_state st bs cs g b : out_of (CCont st bs cs) = GCont g b ->
    s_path st = g_path g /\ s_glob st = g_glob g /\ k_path (s_star st) = w_path (g_star g).
  Proof. intros [= <- _]. auto. Qed.
  Lemma piece_out pre t e g p0 l st bs cs o : glob = pre ++ t ++ g -> path = p0 ++ l -> piece t e -> e <> Star -> ck_stack bs = [] -> idle (s_star st) ->
    s_glob st = List.length pre -> s_path st = List.length p0 -> k_glob (s_wild st) <= List.length pre -> ck_longest bs = None ->
    step st bs cs = Ok o ->
    (exists x l' star ci cs', l = x :: l' /\ holds e x /\ caught e (s_path st) (s_cap st) cs = (ci, cs') /\ idle star /\
       o = CCont (mk_cs (List.length (p0 ++ [x])) (List.length (pre ++ t)) ci (s_wild st) star) bs cs') \/
    o = CRet false cs \/
    (0 < k_path (s_wild st) <= P /\ exists star, idle star /\ o = CCont (mk_cs (k_path (s_wild st)) (k_glob (s_wild st)) (k_cap (s_wild st)) (s_wild st) star) bs cs).
  Proof.
    intros Eg Ep Hp He Hb Hs Hg Hpth Hwg Hlo E.
    pose proof (piece_captures pre t e g st bs cs o Eg Hp He Hb Hg E) as K.
    pose proof (cstep_of glob path false false st bs cs) as Q. rewrite E in Q. cbn [rmap] in Q.
    assert (Est : state_of st = mk_gst (List.length p0) (List.length pre) (wild_of (s_wild st)) (wild_of (s_star st))).
    { unfold state_of. now rewrite Hg, Hpth. }
    assert (Ebs : stack_of bs = mk_bs [] None) by (unfold stack_of; now rewrite Hb, Hlo).
    rewrite Est, Ebs in Q.
    assert (Ht : 0 < List.length t) by (apply piece_nonempty in Hp; destruct t; [congruence|simpl; lia]).
    destruct (piece_step glob path false false pre t e g p0 l (wild_of (s_wild st)) (wild_of (s_star st)) Eg Ep Hp He Hs)
      as [(x & l' & star' & El & O & Hs' & S1)|(Hn & i & star' & Hs' & S1)]; cbv zeta in S1; rewrite S1 in Q.
    - assert (Q' : out_of o = GCont (mk_gst (S (List.length p0)) (List.length (pre ++ t)) (wild_of (s_wild st)) star') (mk_bs [] None)) by (now injection Q).
      destruct K as [(i & star & ci & cs' & Ec & Hi & ->)|[->|(Hw & star & ->)]].
      + left. apply out_state in Q' as (_ & Q2 & Q4). cbn [s_glob s_star g_glob g_star] in Q2, Q4. exists x, l', star, ci, cs'. split; [assumption|]. split; [assumption|]. split; [assumption|].
        split; [unfold idle; now rewrite Q4|]. rewrite Q2. replace (List.length (p0 ++ [x])) with (S (s_path st)) by (rewrite Hpth, app_length; simpl; lia). reflexivity.
      + discriminate.
      + exfalso. apply out_state in Q' as (_ & Q2 & _). cbn [s_glob g_glob] in Q2. rewrite app_length in Q2. lia.
    - right. unfold no_match in Q.
      assert (Q' : out_of o = GRet (give_up path false false (mk_gst (List.length p0) i (wild_of (s_wild st)) star')) \/
                   out_of o = GCont (backtrack (mk_gst (List.length p0) i (wild_of (s_wild st)) star')) (mk_bs [] None)).
      { destruct (can_backtrack path _); cbn [b_stack] in Q; [right|left]; now injection Q. }
      destruct K as [(j & star & ci & cs' & Ec & Hj & ->)|[->|(Hw & star & ->)]].
      + exfalso. destruct Q' as [Q'|Q']; [discriminate|]. apply out_state in Q' as (_ & Q2 & _). cbn in Q2. lia.
      + auto.
      + right. split; [assumption|]. exists star. split; [|reflexivity].
        destruct Q' as [Q'|Q']; [discriminate|]. apply out_state in Q' as (_ & _ & Q4). unfold idle. cbn in Q4. now rewrite Q4.
  Qed.
  (** a star *)
  Lemma star_out pre g p0 l st bs cs lc : glob = pre ++ 42%N :: g -> (forall r, g <> 42%N :: r) -> path = p0 ++ l -> ck_stack bs = [] -> idle (s_star st) ->
    s_glob st = List.length pre -> s_path st = List.length p0 -> cs = Some lc ->
    let fresh := Nat.eqb (List.length lc) 0 || negb (Nat.eqb (List.length pre) (k_glob (s_wild st))) in
    exists wild, k_glob wild = List.length pre /\ k_cap wild = (if fresh then s_cap st else k_cap (s_wild st)) /\
      (idle wild \/ k_path wild = S (List.length p0) /\ forall r, l <> 47%N :: r) /\
      step st bs cs = Ok (CCont (mk_cs (List.length p0) (List.length (pre ++ [42%N])) (s_cap st) wild (s_star st)) bs
        (if fresh then begin_capture (s_cap st) (s_path st, s_path st) cs else extend_capture (s_cap st) (s_path st) cs)).
  Proof.
    intros Eg Hg Ep Hb Hs Hgl Hpa -> fresh.
    assert (En : nth_error glob (s_glob st) = Some 42%N) by (rewrite Hgl, Eg; apply P_Glob.nth_middle).
    assert (Hlt : s_glob st < G) by (apply nth_error_Some; congruence).
    assert (E1 : match nth_error glob (S (s_glob st)) with Some 42%N => true | _ => false end = false).
    { rewrite Hgl. destruct (nth_error glob (S (List.length pre))) as [c|] eqn:E; [|reflexivity].
      destruct (N.eq_dec c 42) as [->|Hc].
      - exfalso. rewrite Eg in E. replace (S (List.length pre)) with (List.length pre + 1) in E by lia.
        rewrite nth_error_app2 in E by lia. replace (List.length pre + 1 - List.length pre) with 1 in E by lia. simpl in E.
        destruct g as [|y g]; [discriminate|]. injection E as ->. exact (Hg _ eq_refl).
      - destruct c as [|c]; [reflexivity|]. repeat (destruct c as [c|c|]; try reflexivity). congruence. }
    unfold cstep. apply Nat.ltb_lt in Hlt. rewrite Hlt. cbn [orb]. unfold carm.
    assert (Ea : at_ glob (s_glob st) = Ok 42%N) by (unfold at_; now rewrite En). rewrite Ea. cbn [bind N.eqb Pos.eqb].
    unfold carm_star. cbv zeta. rewrite E1. cbn [bind]. rewrite Hs. cbn [k_path]. rewrite Nat.add_1_r. cbn [Nat.eqb negb andb]. rewrite Hb.
    rewrite Hgl, Hpa. fold fresh. replace (List.length (pre ++ [42%N])) with (S (List.length pre)) by (rewrite app_length; simpl; lia).
    destruct l as [|x l].
    - assert (Nat.ltb (List.length p0) P = false) as ->.
      { apply Nat.ltb_ge. rewrite Ep, app_nil_r. lia. }
      eexists. split; [|split; [|split; [|reflexivity]]]; [reflexivity|reflexivity|]. right. split; [reflexivity|discriminate].
    - assert (Nat.ltb (List.length p0) P = true) as ->.
      { apply Nat.ltb_lt. rewrite Ep, app_length. simpl. lia. }
      assert (at_ path (List.length p0) = Ok x) as ->.
      { unfold at_. rewrite Ep, P_Glob.nth_middle. reflexivity. }
      cbn [bind]. unfold is_sep.
      destruct (N.eqb_spec x 47) as [->|Hx]; eexists; (split; [|split; [|split; [|reflexivity]]]; [reflexivity|reflexivity|]).
      + left. reflexivity.
      + right. split; [reflexivity|]. intros r [= ->]. congruence.
  Qed.

  Variable ps : list (list N * elt).
  Hypothesis shows : glob = shown ps.
  Hypothesis pieces : Forall (fun p => piece (fst p) (snd p)) ps.
  Hypothesis apart : forall a b, map snd ps <> a ++ Star :: Star :: b.
  Hypothesis last : stars_last (map snd ps).
  Definition exactly (e : elt) : Prop := exists v, e = Exactly v.

  (** before the first star *)
  Definition ahead (done : list (list N * elt)) (pre rest : list N) (st : cstate) (l : list capture) : Prop :=
    s_wild st = cw0 /\ Forall (fun e => e <> Star) (map snd done) /\ parts 0 (map snd done) pre l /\ s_cap st = List.length l.
  (** after a star and some literals *)
  Definition behind (done : list (list N * elt)) (pre rest : list N) (st : cstate) (l : list capture) : Prop :=
    exists A B a s b l0, done = A ++ ([42%N], Star) :: B /\ pre = a ++ s ++ b /\ parts 0 (map snd A) a l0 /\ ~ In 47%N s /\
      Forall exactly (map snd B) /\ Forall2 holds (map snd B) b /\ l = l0 ++ [(List.length a, List.length (a ++ s))] /\
      s_cap st = (match B with [] => List.length l0 | _ => S (List.length l0) end) /\
      k_glob (s_wild st) = List.length (shown A) /\ k_cap (s_wild st) = List.length l0 /\
      (idle (s_wild st) \/ k_path (s_wild st) = S (List.length (a ++ s)) /\ forall r, b ++ rest <> 47%N :: r).
  (** back at a star that takes one byte more *)
  Definition again (done : list (list N * elt)) (todo : list (list N * elt)) (pre : list N) (st : cstate) (l : list capture) : Prop :=
    exists a s l0 e r, pre = a ++ s /\ parts 0 (map snd done) a l0 /\ ~ In 47%N s /\ l = l0 ++ [(List.length a, e)] /\
      todo = ([42%N], Star) :: r /\
      s_cap st = List.length l0 /\ k_glob (s_wild st) = List.length (shown done) /\ k_cap (s_wild st) = List.length l0.
  Definition tracked (st : cstate) (bs : cstack) (cs : captures) : Prop :=
    ck_stack bs = [] /\ ck_longest bs = None /\ idle (s_star st) /\
    exists done todo pre rest l, ps = done ++ todo /\ path = pre ++ rest /\ s_glob st = List.length (shown done) /\
      s_path st = List.length pre /\ cs = Some l /\
      (ahead done pre rest st l \/ behind done pre rest st l \/ again done todo pre st l).
  Definition captured (cs : captures) : Prop := exists l, cs = Some l /\ parts 0 (map snd ps) path l.

  Lemma behind_parts done pre rest st l : behind done pre rest st l -> parts 0 (map snd done) pre l.
  Proof.
    intros (A & B & a & s & b & l0 & -> & -> & Hpa & Hs & He & F & -> & _). rewrite map_app. cbn [map snd].
    apply parts_app; [assumption|]. cbn [Nat.add]. rewrite app_length. constructor; [assumption|]. now apply parts_literals.
  Qed.
  Lemma go_back done todo pre rest st bs l star : ck_stack bs = [] -> ck_longest bs = None -> idle star -> ps = done ++ todo -> path = pre ++ rest ->
    ahead done pre rest st l \/ behind done pre rest st l -> 0 < k_path (s_wild st) <= P ->
    tracked (mk_cs (k_path (s_wild st)) (k_glob (s_wild st)) (k_cap (s_wild st)) (s_wild st) star) bs (Some l).
  Proof.
    intros Hb Hlo Hst Eps Epath Hm [Hk1 Hk2]. destruct Hm as [(Hw & _)|Hm]; [rewrite Hw in Hk1; simpl in Hk1; lia|].
    destruct Hm as (A & B & a & s & b & l0 & -> & -> & Hpa & Hs & He & F & -> & Hc & Hwg & Hwc & [Hi|[Hwp Hr]]); [unfold idle in Hi; lia|].
    split; [assumption|]. split; [assumption|]. split; [exact Hst|]. cbn [s_glob s_path s_cap s_wild].
    assert (exists x u, b ++ rest = x :: u) as (x & u & Eu).
    { destruct (b ++ rest) as [|x u] eqn:E; [|eauto]. exfalso. rewrite Epath in Hk2. rewrite <- !app_assoc in Hk2. rewrite E, app_nil_r in Hk2. lia. }
    exists A, (([42%N], Star) :: B ++ todo), (a ++ s ++ [x]), u, (l0 ++ [(List.length a, List.length (a ++ s))]).
    split; [rewrite Eps, <- app_assoc; reflexivity|].
    split; [rewrite Epath, <- !app_assoc, Eu; reflexivity|].
    split; [exact Hwg|]. split; [rewrite Hwp, !app_length; simpl; lia|]. split; [reflexivity|].
    right. right. exists a, (s ++ [x]), l0, (List.length (a ++ s)), (B ++ todo). cbn [s_cap s_wild].
    split; [reflexivity|]. split; [assumption|]. split; [|split; [reflexivity|]; split; [reflexivity|]; auto].
    intros I. apply in_app_or in I as [I|[->|[]]]; [contradiction|]. exact (Hr _ Eu).
  Qed.
  Lemma step_tracked st bs cs : tracked st bs cs -> all (step st bs cs) (outcome tracked captured).
  Proof.
    intros (Hb & Hlo & Hst & done & todo & pre & rest & l & Eps & Epath & Hg & Hp & -> & Hm).
    assert (Eg : glob = shown done ++ shown todo) by (rewrite shows, Eps; apply shown_app).
    destruct todo as [|[t e] todo].
    - (* the pattern is over *)
      assert (Hm' : ahead done pre rest st l \/ behind done pre rest st l).
      { destruct Hm as [Hm|[Hm|(a & s & l0 & e & r & _ & _ & _ & _ & E & _)]]; [auto|auto|discriminate]. }
      assert (EG : s_glob st = G) by (rewrite Hg, Eg; unfold shown at 3; cbn; now rewrite app_nil_r).
      unfold cstep. rewrite EG, Nat.ltb_irrefl. cbn [orb]. destruct rest as [|x rest].
      + assert (Nat.ltb (s_path st) P = false) as -> by (apply Nat.ltb_ge; rewrite Hp, Epath, app_nil_r; lia).
        rewrite Hb. cbn [bind]. apply all_ok. intros _. exists l. split; [reflexivity|].
        rewrite app_nil_r in Eps, Epath. rewrite Eps, Epath. destruct Hm' as [(_ & _ & H & _)|H]; [exact H|now apply behind_parts in H].
      + assert (Nat.ltb (s_path st) P = true) as -> by (apply Nat.ltb_lt; rewrite Hp, Epath, app_length; simpl; lia).
        cbn [bind]. intros o E. apply fail_out in E as [->|(Hk & ->)]; [discriminate| |assumption].
        exact (go_back _ _ _ _ _ _ _ _ Hb Hlo Hst Eps Epath Hm' Hk).
    - assert (Hpc : piece t e). { rewrite Eps in pieces. apply Forall_app in pieces as [_ H]. now apply Forall_cons_iff in H as [H _]. }
      assert (Esh : shown ((t, e) :: todo) = t ++ shown todo) by reflexivity. rewrite Esh in Eg. clear Esh.
      assert (De : e = Star \/ e <> Star) by (destruct e; auto; right; discriminate).
      destruct De as [->|He].
      + (* a star *)
        assert (t = [42%N]) as -> by (now inversion Hpc). cbn [app] in Eg.
        assert (Hh : forall r, shown todo <> 42%N :: r).
        { destruct todo as [|[t e] r0]; [discriminate|]. unfold shown. cbn [map fst List.concat].
          rewrite Eps in pieces. apply Forall_app in pieces as [_ Hp1]. apply Forall_cons_iff in Hp1 as [_ Hp1]. apply Forall_cons_iff in Hp1 as [Hp1 _]. cbn [fst snd] in Hp1.
          assert (He : e <> Star).
          { intros ->. apply (apart (map snd done) (map snd r0)). rewrite Eps, map_app. reflexivity. }
          pose proof (piece_head t e Hp1 He) as Hph. pose proof (piece_nonempty t e Hp1) as Hpn.
          destruct t as [|c t]; [congruence|]. cbn [app]. intros r [= -> _]. exact (Hph _ eq_refl). }
        destruct (star_out (shown done) (shown todo) pre rest st bs (Some l) l Eg Hh Epath Hb Hst Hg Hp eq_refl)
          as (wild & Hwg & Hwc & Hwp & E). rewrite E. clear E. apply all_ok. cbn [outcome].
        assert (Eps' : ps = (done ++ [([42%N], Star)]) ++ todo) by (rewrite Eps, <- app_assoc; reflexivity).
        assert (Fin : forall lc l0 a s, parts 0 (map snd done) a l0 -> ~ In 47%N s -> pre = a ++ s -> lc = l0 ++ [(List.length a, List.length pre)] ->
          s_cap st = List.length l0 -> k_cap wild = List.length l0 ->
          tracked (mk_cs (List.length pre) (List.length (shown done ++ [42%N])) (s_cap st) wild (s_star st)) bs (Some lc)).
        { intros lc l0 a s Hpa Hs -> -> Hc Hk. split; [assumption|]. split; [assumption|]. split; [exact Hst|]. cbn [s_glob s_path s_cap s_wild s_star].
          exists (done ++ [([42%N], Star)]), todo, (a ++ s), rest. eexists. split; [exact Eps'|]. split; [exact Epath|].
          split; [rewrite shown_app; reflexivity|]. split; [reflexivity|]. split; [reflexivity|].
          right. left. exists done, [], a, s, [], l0. split; [reflexivity|]. split; [now rewrite app_nil_r|]. split; [assumption|]. split; [assumption|].
          split; [constructor|]. split; [constructor|]. split; [reflexivity|]. cbn [s_cap s_wild]. auto. }
        destruct Hm as [(Hw & Hns & Hpa & Hc)|[Hm|(a & s & l0 & e & r & -> & Hpa & Hs & -> & _ & Hc & Hg' & Hk)]].
        * (* the first star *)
          assert (Ef : Nat.eqb (List.length l) 0 || negb (Nat.eqb (List.length (shown done)) (k_glob (s_wild st))) = true).
          { rewrite Hw. cbn [k_glob cw0]. destruct done as [|[t0 e0] done].
            - inversion Hpa; subst. reflexivity.
            - apply orb_true_iff. right. apply negb_true_iff, Nat.eqb_neq. unfold shown. cbn [map fst List.concat]. rewrite app_length.
              rewrite Eps in pieces. apply Forall_cons_iff in pieces as [H0 _]. apply piece_nonempty in H0. cbn [fst] in H0. destruct t0; [congruence|simpl; lia]. }
          rewrite Ef in *. cbn [begin_capture]. rewrite Hc, Nat.ltb_irrefl. rewrite <- Hc. apply (Fin _ l pre []); auto; [now rewrite app_nil_r|now rewrite Hp|congruence].
        * (* another star *)
          pose proof (behind_parts _ _ _ _ _ Hm) as Hpa.
          destruct Hm as (A & B & a & s & b & l0 & -> & -> & _ & Hs & He & F & -> & Hc & Hg' & Hk & _).
          assert (HB : B <> []).
          { intros ->. apply (apart (map snd A) (map snd todo)). rewrite Eps, !map_app. cbn [map snd app]. rewrite <- app_assoc. reflexivity. }
          assert (Hc' : s_cap st = List.length (l0 ++ [(List.length a, List.length (a ++ s))])).
          { rewrite app_length, Hc. destruct B; [congruence|]. simpl. lia. }
          assert (Ef : negb (Nat.eqb (List.length (shown (A ++ ([42%N], Star) :: B))) (k_glob (s_wild st))) = true).
          { apply negb_true_iff, Nat.eqb_neq. rewrite Hg', shown_app, app_length. unfold shown at 2. cbn [map fst List.concat]. rewrite app_length. simpl. lia. }
          rewrite Ef in *. rewrite orb_true_r in *. cbn [begin_capture]. rewrite Hc', Nat.ltb_irrefl. rewrite <- Hc'.
          apply (Fin _ _ _ [] Hpa); [simpl; tauto|now rewrite app_nil_r|now rewrite Hp|assumption|congruence].
        * (* the same star *)
          assert (Ef : Nat.eqb (List.length (l0 ++ [(List.length a, e)])) 0 || negb (Nat.eqb (List.length (shown done)) (k_glob (s_wild st))) = false).
          { rewrite Hg', Nat.eqb_refl, app_length. cbn [negb List.length]. rewrite orb_false_r, Nat.add_1_r. reflexivity. }
          rewrite Ef in *.
          cbn [extend_capture]. rewrite Hc. rewrite nth_error_app2, Nat.sub_diag by lia. cbn [nth_error].
          assert (Es : forall y z (q : list capture), set_nth (List.length q) y (q ++ [z]) = q ++ [y]).
          { intros y z q. induction q as [|w q IH]; [reflexivity|]. cbn [List.length set_nth app]. now rewrite IH. }
          rewrite Es. rewrite <- Hc. apply (Fin _ l0 a s); auto; [now rewrite Hp|congruence].
      + (* an element that takes a byte *)
        assert (Hm' : ahead done pre rest st l \/ behind done pre rest st l).
        { destruct Hm as [Hm|[Hm|(a & s & l0 & e' & r & _ & _ & _ & _ & E & _)]]; [auto|auto|]. injection E as -> -> _. congruence. }
        assert (Hwg : k_glob (s_wild st) <= List.length (shown done)).
        { destruct Hm' as [(Hw & _)|(A & B & a & s & b & l0 & -> & _ & _ & _ & _ & _ & _ & _ & Hg' & _)]; [rewrite Hw; simpl; lia|].
          rewrite Hg', shown_app, app_length. lia. }
        intros o E. destruct (piece_out (shown done) t e (shown todo) pre rest st bs (Some l) o Eg Epath Hpc He Hb Hst Hg Hp Hwg Hlo E)
          as [(x & r & star & ci & cs' & -> & O & Ec & Hs' & ->)|[->|(Hk & star & Hs' & ->)]].
        2:{ discriminate. }
        2:{ exact (go_back _ _ _ _ _ _ _ _ Hb Hlo Hs' Eps Epath Hm' Hk). }
        cbn [outcome]. split; [assumption|]. split; [assumption|]. split; [exact Hs'|]. cbn [s_glob s_path s_cap s_wild s_star].
        assert (Eps' : ps = (done ++ [(t, e)]) ++ todo) by (rewrite Eps, <- app_assoc; reflexivity).
        assert (Epath' : path = (pre ++ [x]) ++ r) by (rewrite Epath, <- app_assoc; reflexivity).
        assert (Egl : List.length (shown done ++ t) = List.length (shown (done ++ [(t, e)]))).
        { rewrite shown_app. unfold shown at 3. cbn [map fst List.concat]. now rewrite app_nil_r. }
        destruct Hm' as [(Hw & Hns & Hpa & Hc)|(A & B & a & s & b & l0 & -> & -> & Hpa & Hs & Hex & F & -> & Hc & Hg' & Hk & Hwp)].
        * assert (K : exists l', cs' = Some l' /\ ci = List.length l' /\ parts 0 (map snd (done ++ [(t, e)])) (pre ++ [x]) l').
          { assert (One : (forall v, e <> Exactly v) -> parts 0 (map snd (done ++ [(t, e)])) (pre ++ [x]) (l ++ [(List.length pre, S (List.length pre))])).
            { intros Hv. rewrite map_app. apply parts_app; [assumption|]. cbn [map snd Nat.add]. constructor; [assumption|assumption|constructor]. }
            assert (Char : add_char_capture (s_path st) (s_cap st) (Some l) = (S (List.length l), Some (l ++ [(List.length pre, S (List.length pre))]))).
            { unfold add_char_capture. cbn [end_capture begin_capture]. rewrite Hc, Nat.ltb_irrefl, Hp, Nat.ltb_irrefl. reflexivity. }
            destruct e as [| |v|ng rs]; cbn [caught] in Ec.
            - congruence.
            - rewrite Char in Ec. injection Ec as <- <-. eexists. split; [reflexivity|]. split; [rewrite app_length; simpl; lia|]. apply One. discriminate.
            - cbn [end_capture] in Ec. rewrite Hc, Nat.ltb_irrefl in Ec. injection Ec as <- <-. exists l. split; [reflexivity|]. split; [reflexivity|].
              rewrite map_app. rewrite <- (app_nil_r l). apply parts_app; [assumption|]. cbn [map snd]. cbn [holds] in O. subst x. constructor. constructor.
            - rewrite Char in Ec. injection Ec as <- <-. eexists. split; [reflexivity|]. split; [rewrite app_length; simpl; lia|]. apply One. discriminate. }
          destruct K as (l' & -> & -> & Hpa'). exists (done ++ [(t, e)]), todo, (pre ++ [x]), r, l'.
          split; [exact Eps'|]. split; [exact Epath'|]. split; [exact Egl|]. split; [reflexivity|]. split; [reflexivity|]. left.
          split; [exact Hw|]. split; [|split; [assumption|reflexivity]]. rewrite map_app. apply Forall_app. split; [assumption|]. constructor; [exact He|constructor].
        * assert (exists v, e = Exactly v) as (v & ->).
          { assert (H : Forall (fun e => e = Star \/ exists v, e = Exactly v) (map snd B ++ e :: map snd todo)).
            { apply (last (map snd A)). rewrite Eps, !map_app. cbn [map snd]. rewrite <- app_assoc. reflexivity. }
            apply Forall_app in H as [_ H]. apply Forall_cons_iff in H as [[H|H] _]; [contradiction|exact H]. }
          cbn [caught] in Ec. injection Ec as <- <-.
          eexists. exists todo, ((a ++ s ++ b) ++ [x]), r. eexists. split; [exact Eps'|]. split; [exact Epath'|]. split; [exact Egl|]. split; [reflexivity|]. split; [reflexivity|].
          right. left. exists A, (B ++ [(t, Exactly v)]), a, s, (b ++ [x]), l0. split; [rewrite <- app_assoc; reflexivity|]. split; [rewrite <- !app_assoc; reflexivity|].
          split; [assumption|]. split; [assumption|]. split; [rewrite map_app; apply Forall_app; split; [assumption|constructor; [exists v; reflexivity|constructor]]|].
          split; [rewrite map_app; apply Forall2_app; [assumption|constructor; [exact O|constructor]]|]. split; [reflexivity|]. cbn [s_cap s_wild].
          split.
          { cbn [end_capture]. rewrite app_length. cbn [List.length]. rewrite Hc. destruct B as [|p0 B]; cbn [app].
            - destruct (Nat.ltb_spec (List.length l0) (List.length l0 + 1)); lia.
            - destruct (Nat.ltb_spec (S (List.length l0)) (List.length l0 + 1)); lia. }
          split; [assumption|]. split; [assumption|]. destruct Hwp as [Hi|[Hi Hr]]; [auto|right]. split; [assumption|]. intros q. rewrite <- app_assoc. apply Hr.
  Qed.
  Lemma run_tracked k cs : (forall r, glob <> 33%N :: r) -> cglob_run k glob path (Some []) false = Ok (true, cs) -> captured cs.
  Proof.
    intros Hbang. unfold cglob_run. rewrite no_bang by assumption.
    assert (H0 : tracked (mk_cs 0 0 0 cw0 cw0) (mk_ck [] None) (Some [])).
    { split; [reflexivity|]. split; [reflexivity|]. split; [reflexivity|]. exists [], ps, [], path, []. repeat split.
      left. repeat split; constructor. }
    pose proof (citer_inv tracked captured _ step_tracked k _ _ _ H0) as K.
    destruct (citer k _ _ _ _) as [[b c|s b c|s b c]| |]; try discriminate. cbn [bind]. intros [= -> <-].
    exact (K _ eq_refl eq_refl).
  Qed.
End Parts.

(** Full statement: the captures of a match are the parts of the path that the
    wildcards of the pattern stand for, in order.  Proved for patterns of
    elements (no groups, double stars or leading negation) in which only
    literals and stars follow the first star.  Without that it is false
    (C68_parts_refuted). *)
Theorem C68_parts_partial : forall glob es path l, (forall r, utf8 glob <> 33%N :: r) -> reads (utf8 glob) es -> stars_last es ->
  glob_match_with_captures glob path = Some l -> parts 0 es (utf8 path) l.
Proof.
  intros glob es path l Hb R Hl E. pose proof R as (ts & _ & _ & Hap). destruct (reads_pieces _ _ R) as (ps & Eg & -> & Hp).
  unfold glob_match_with_captures in E. destruct (cglob_run _ _ _ _ _) as [[[|] cs]| |] eqn:Er; try discriminate. subst cs.
  destruct (run_tracked (utf8 glob) (utf8 path) ps Eg Hp Hap Hl _ _ Hb Er) as (l' & [= <-] & H). exact H.
Qed.
Print Assumptions C68_parts_partial.
(** A byte matched by a [?] after a star leaves its capture behind when the
    star takes more: three captures for the two wildcards of [*ab?c] *)
Theorem C68_parts_refuted : exists glob es path l, (forall r, utf8 glob <> 33%N :: r) /\ reads (utf8 glob) es /\
  glob_match_with_captures glob path = Some l /\ ~ parts 0 es (utf8 path) l.
Proof.
  exists (tx "*ab?c"), [Star; Exactly 97; Exactly 98; AnyByte; Exactly 99]%N, (tx "abxabyc"), [(0, 3); (2, 3); (5, 6)].
  split; [discriminate|]. split; [|split; [vm_compute; reflexivity|]].
  - exists [[42]; [97]; [98]; [63]; [99]]%N. split; [|split; [reflexivity|]].
    + constructor; [constructor|]. constructor; [constructor; simpl; intuition discriminate|].
      constructor; [constructor; simpl; intuition discriminate|]. constructor; [constructor|].
      constructor; [constructor; simpl; intuition discriminate|constructor].
    + intros a b. do 6 (destruct a as [|? a]; try discriminate).
  - assert (K : forall pos es l cs, parts pos es l cs ->
      List.length cs = List.length (filter (fun e => match e with Exactly _ => false | _ => true end) es)).
    { induction 1 as [pos|pos s es l cs _ _ IH|pos v es l cs _ IH|pos e x es l cs He _ _ IH]; cbn [List.length filter]; auto.
      destruct e; cbn [List.length]; auto. exfalso. exact (He _ eq_refl). }
    intros H. apply K in H. discriminate H.
Qed.
Print Assumptions C68_parts_refuted.

(** The ranges count bytes: they need not fall on characters, and slicing the
    path there panics.  [i] is a character boundary of a text *)
Definition boundary (t : text) (i : nat) : Prop := exists a b, t = a ++ b /\ i = List.length (utf8 a).
Theorem C68_boundary_refuted : exists glob path l a b,
  glob_match_with_captures glob path = Some l /\ In (a, b) l /\ ~ boundary path b.
Proof.
  exists (tx "??"), [233%N], [(0, 1); (1, 2)], 0, 1. split; [vm_compute; reflexivity|]. split; [simpl; auto|].
  intros (a & b & E & L). destruct a as [|c a]; [discriminate L|]. injection E as <- E.
  symmetry in E. apply app_eq_nil in E as [-> ->]. discriminate L.
Qed.
Print Assumptions C68_boundary_refuted.

Example C68_example : reads (utf8 (tx "?a*b*")) [AnyByte; Exactly 97; Star; Exactly 98; Star]%N /\
  stars_last [AnyByte; Exactly 97; Star; Exactly 98; Star]%N /\
  glob_match_with_captures (tx "?a*b*") (tx "xaccbcbd") = Some [(0, 1); (2, 4); (5, 8)].
Proof.
  split; [|split; [|vm_compute; reflexivity]].
  - exists [[63]; [97]; [42]; [98]; [42]]%N. split; [|split; [reflexivity|]].
    + constructor; [constructor|]. constructor; [constructor; simpl; intuition discriminate|].
      constructor; [constructor|]. constructor; [constructor; simpl; intuition discriminate|]. constructor; [constructor|constructor].
    + intros a b. do 6 (destruct a as [|? a]; try discriminate).
  - intros a b E.
    assert (K : b = [Exactly 98; Star]%N \/ b = []).
    { destruct a as [|? a]; [discriminate|]. destruct a as [|? a]; [discriminate|]. destruct a as [|? a]; [injection E as _ _ <-; auto|].
      destruct a as [|? a]; [discriminate|]. destruct a as [|? a]; [injection E as _ _ _ _ <-; auto|]. destruct a; discriminate. }
    destruct K as [->| ->]; [|constructor]. constructor; [eauto|]. constructor; [auto|constructor].
Qed.

(** The project's own tests of captures, lib.rs:2042-2170 *)
Definition sliced (path : text) (c : capture) : list N := firstn (snd c - fst c) (skipn (fst c) (utf8 path)).
Local Open Scope string_scope.
Definition capture_tests : list (string * string * list string) := [
  ("a/b", "a/b", []);
  ("a/*/c", "a/bx/c", ["bx"]);
  ("a/*/c", "a/test/c", ["test"]);
  ("a/*/c/*/e", "a/b/c/d/e", ["b"; "d"]);
  ("a/*/c/*/e", "a/b/c/d/e", ["b"; "d"]);
  ("a/{b,x}/c", "a/b/c", ["b"]);
  ("a/{b,x}/c", "a/x/c", ["x"]);
  ("a/?/c", "a/b/c", ["b"]);
  ("a/*?x/c", "a/yybx/c", ["yy"; "b"]);
  ("a/*[a-z]x/c", "a/yybx/c", ["yy"; "b"]);
  ("a/{b*c,c}y", "a/bdcy", ["bdc"; "d"]);
  ("a/{b*,c}y", "a/bdy", ["bd"; "d"]);
  ("a/{b*c,c}", "a/bdc", ["bdc"; "d"]);
  ("a/{b*,c}", "a/bd", ["bd"; "d"]);
  ("a/{b*,c}", "a/c", ["c"; ""]);
  ("a/{b{c,d},c}y", "a/bdy", ["bd"; "d"]);
  ("a/{b*,c*}y", "a/bdy", ["bd"; "d"; ""]);
  ("a/{b*,c*}y", "a/cdy", ["cd"; ""; "d"]);
  ("a/{b,c}", "a/b", ["b"]);
  ("a/{b,c}", "a/c", ["c"]);
  ("a/{b,c[}]*}", "a/b", ["b"; ""; ""]);
  ("a/{b,c[}]*}", "a/c}xx", ["c}xx"; "}"; "xx"]);
  ("test/*", "test/foo", ["foo"]);
  ("test/*/bar", "test/foo/bar", ["foo"]);
  ("test/*/bar/*", "test/foo/bar/baz", ["foo"; "baz"]);
  ("test/*.js", "test/foo.js", ["foo"]);
  ("test/*-controller.js", "test/foo-controller.js", ["foo"]);
  ("test/**/*.js", "test/a.js", [""; "a"]);
  ("test/**/*.js", "test/dir/a.js", ["dir"; "a"]);
  ("test/**/*.js", "test/dir/test/a.js", ["dir/test"; "a"]);
  ("**/*.js", "test/dir/a.js", ["test/dir"; "a"]);
  ("**/**/**/**/a", "foo/bar/baz/a", ["foo/bar/baz"]);
  ("a/{b/**/y,c/**/d}", "a/b/y", ["b/y"; ""; ""]);
  ("a/{b/**/y,c/**/d}", "a/b/x/x/y", ["b/x/x/y"; "x/x"; ""]);
  ("a/{b/**/y,c/**/d}", "a/c/x/x/d", ["c/x/x/d"; ""; "x/x"]);
  ("a/{b/**/**/y,c/**/**/d}", "a/b/x/x/x/x/x/y", ["b/x/x/x/x/x/y"; "x/x/x/x/x"; ""]);
  ("a/{b/**/**/y,c/**/**/d}", "a/c/x/x/x/x/x/d", ["c/x/x/x/x/x/d"; ""; "x/x/x/x/x"]);
  ("some/**/{a,b,c}/**/needle.txt", "some/path/a/to/the/needle.txt", ["path"; "a"; "to/the"])
].
Definition capture_test_ok (t : string * string * list string) : bool :=
  let '(g, p, want) := t in
  match glob_match_with_captures (tx g) (tx p) with
  | Some l => if list_eq_dec (list_eq_dec N.eq_dec) (map (sliced (tx p)) l) (map (fun s => utf8 (tx s)) want) then true else false
  | None => false
  end.
Example C68_tests : forallb capture_test_ok capture_tests = true.
Proof. vm_compute. reflexivity. Qed.
