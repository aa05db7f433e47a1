(** C50 exactly: the default output of the compile command for every input
    path, trailing separators and [.] components included, and for the paths
    that name no file. *)
From Verif Require Import Base BaseFacts Spec Cli P_Misc.
From Coq Require Import List NArith Lia Bool.
Import ListNotations.
Local Open Scope N_scope.

(* ------------------------------------------------------------------ *)
(** * Specification *)

(** separators and [.] components after the last component: [/], [//], [/.], [/./] ... *)
Definition trailing (t : text) : Prop :=
  exists ts, t = concat ts /\ Forall (fun x => x = tx "/" \/ x = tx "/.") ts.
(** [p] names the file [n] in the directory prefix [dir], followed by [t] *)
Definition names (p dir n t : text) : Prop :=
  p = dir ++ n ++ t /\ names_file (dir ++ n) dir n /\ trailing t.
(** the name without its extension: what precedes the last dot, unless there
    is none or nothing precedes it *)
Definition stem_of (n s : text) : Prop :=
  (exists e, n = s ++ tx "." ++ e /\ s <> [] /\ ~ In 46 e) \/
  (s = n /\ forall a e, n = a ++ tx "." ++ e -> ~ In 46 e -> a = []).

(* ------------------------------------------------------------------ *)
(** * Proofs *)

Lemma drop_trailing_app t r : trailing t -> drop_trailing (rev t ++ r) = drop_trailing r.
Proof.
  intros (ts & -> & F). revert r. induction F as [|x ts Hx F IH]; intros r; [reflexivity|].
  simpl concat. rewrite rev_app_distr, <- app_assoc, IH. destruct Hx as [-> | ->]; reflexivity.
Qed.
Lemma trailing_snoc t x : trailing t -> x = tx "/" \/ x = tx "/." -> trailing (t ++ x).
Proof.
  intros (ts & -> & F) H. exists (ts ++ [x]). split.
  - rewrite concat_app. simpl. now rewrite app_nil_r.
  - apply Forall_app. auto.
Qed.
Lemma trailing_cons t x : trailing t -> x = tx "/" \/ x = tx "/." -> trailing (x ++ t).
Proof.
  intros (ts & -> & F) H. exists (x :: ts). split; [reflexivity|]. now constructor.
Qed.
Lemma drop_trailing_split rp : exists t, trailing t /\ rp = rev t ++ drop_trailing rp.
Proof.
  remember (List.length rp) as k eqn:K. revert rp K.
  induction k as [k IH] using lt_wf_ind. intros rp K. destruct rp as [|c r].
  - exists []. split; [exists []; auto|reflexivity].
  - cbn [drop_trailing]. destruct (N.eqb_spec c 47) as [->|].
    + destruct (IH (List.length r) ltac:(simpl in K; lia) r eq_refl) as (t & T & E).
      exists (t ++ tx "/"). split; [apply trailing_snoc; auto|].
      rewrite rev_app_distr. simpl. now rewrite <- E.
    + destruct (N.eqb_spec c 46) as [->|].
      * destruct r as [|c' r'].
        -- exists []. split; [exists []; auto|reflexivity].
        -- destruct (N.eqb_spec c' 47) as [->|].
           ++ destruct (IH (List.length r') ltac:(simpl in K; lia) r' eq_refl) as (t & T & E).
              exists (t ++ tx "/."). split; [apply trailing_snoc; auto|].
              rewrite rev_app_distr. simpl. now rewrite <- E.
           ++ exists []. split; [exists []; auto|reflexivity].
      * exists []. split; [exists []; auto|reflexivity].
Qed.
Lemma file_name_names p dir n t : names p dir n t -> file_name p = Some (dir, n).
Proof.
  intros (-> & H & T). rewrite <- (file_name_ok _ _ _ H). unfold file_name.
  rewrite app_assoc, rev_app_distr, drop_trailing_app by assumption. reflexivity.
Qed.
Lemma file_name_some p dir n : file_name p = Some (dir, n) -> exists t, names p dir n t.
Proof.
  unfold file_name. intros H. destruct (drop_trailing_split (rev p)) as (t & T & E).
  destruct (span (fun c => negb (c =? 47)) (drop_trailing (rev p))) as [rn rd] eqn:S.
  destruct (teqbP (rev rn) []) as [|N1]; [discriminate|].
  destruct (teqbP (rev rn) (tx ".")) as [|N2]; [discriminate|].
  destruct (teqbP (rev rn) (tx "..")) as [|N3]; [discriminate|].
  injection H as <- <-. pose proof (span_app _ _ _ _ S) as S1.
  pose proof (span_all _ _ _ _ S) as S2. pose proof (span_stop _ _ _ _ S) as S3.
  exists t. split; [|split; [|assumption]].
  - rewrite <- (rev_involutive p), E, S1, !rev_app_distr, rev_involutive. now rewrite app_assoc.
  - split; [reflexivity|]. split; [|split; [assumption|split; [assumption|split; [assumption|]]]].
    + destruct rd as [|c rd]; [left; reflexivity|]. right. exists (rev rd).
      apply negb_false_iff, N.eqb_eq in S3. subst c. reflexivity.
    + intros I. apply in_rev in I. rewrite Forall_forall in S2. specialize (S2 _ I). discriminate.
Qed.
Lemma stem_file_stem n s : stem_of n s -> file_stem n = s.
Proof.
  intros [(e & -> & H1 & H2)|(-> & H)]; [now apply file_stem_dot|].
  destruct (file_stem_cases n) as [(a & e & E & N & D)|E]; [|assumption].
  exfalso. apply N. exact (H a e E D).
Qed.
Lemma dot_split (a b e f : text) : a ++ 46 :: e = b ++ 46 :: f -> ~ In 46 e -> ~ In 46 f -> a = b /\ e = f.
Proof.
  revert b. induction a as [|x a IH]; intros [|y b] E He Hf; simpl in E.
  - injection E as ->. auto.
  - injection E as <- ->. exfalso. apply He. apply in_or_app. simpl. auto.
  - injection E as -> <-. exfalso. apply Hf. apply in_or_app. simpl. auto.
  - injection E as -> E. destruct (IH b E He Hf) as [-> ->]. auto.
Qed.
Lemma stem_exists n : exists s, stem_of n s.
Proof.
  unfold stem_of, file_stem. 
  destruct (span (fun c => negb (c =? 46)) (rev n)) as [a b] eqn:E.
  pose proof (span_app _ _ _ _ E) as E1. pose proof (span_all _ _ _ _ E) as E2.
  pose proof (span_stop _ _ _ _ E) as E3.
  assert (Ha : ~ In 46 (rev a)).
  { intros H. apply in_rev in H. rewrite Forall_forall in E2. specialize (E2 _ H). discriminate. }
  assert (En : n = rev b ++ rev a) by now rewrite <- (rev_involutive n), E1, rev_app_distr.
  destruct b as [|d b].
  - exists n. right. split; [reflexivity|]. intros a' e -> _. exfalso. apply Ha.
    simpl in En. rewrite <- En. apply in_or_app. simpl. auto.
  - apply negb_false_iff, N.eqb_eq in E3. subst d.
    assert (En' : n = rev b ++ 46 :: rev a) by (rewrite En; simpl; now rewrite <- app_assoc).
    destruct b as [|c b].
    + exists n. right. split; [reflexivity|]. intros a' e E' D. rewrite En' in E'.
      symmetry. exact (proj1 (dot_split _ _ _ _ E' Ha D)).
    + exists (rev (c :: b)). left. exists (rev a). split; [exact En'|]. split; [|assumption].
      simpl. intros H. apply app_eq_nil in H as [_ H]. discriminate.
Qed.

(** What the input path names is determined by it. *)
Theorem C50_path : forall p dir n t dir' n' t',
  names p dir n t -> names p dir' n' t' -> dir = dir' /\ n = n' /\ t = t'.
Proof.
  intros p dir n t dir' n' t' H H'. pose proof (file_name_names _ _ _ _ H) as E.
  rewrite (file_name_names _ _ _ _ H') in E. injection E as -> ->.
  destruct H as (E & _), H' as (E' & _). rewrite E in E'.
  now apply app_inv_head, app_inv_head in E'.
Qed.
Print Assumptions C50_path.

(** For every input path the default output is this one: the file of the same
    directory called like the input with [tex] for extension, and trailing
    separators dropped; or the input path itself when it names no file. *)
Theorem C50_default : forall p out, p <> [] ->
  (process_opts (mk_args [] [] [p]) = CliOk p out <->
   (exists dir n t s, names p dir n t /\ stem_of n s /\ out = dir ++ s ++ tx ".tex") \/
   (out = p /\ forall dir n t, ~ names p dir n t)) /\
  process_opts (mk_args p [] []) = process_opts (mk_args [] [] [p]).
Proof.
  intros p out Np. unfold process_opts. cbn [a_input a_output a_positional].
  destruct p as [|c p]; [congruence|]. split; [|reflexivity]. clear Np.
  remember (c :: p) as q eqn:Q. clear Q.
  split.
  - intros [= <-]. unfold with_extension. destruct (file_name q) as [[dir n]|] eqn:F.
    + left. destruct (file_name_some _ _ _ F) as (t & H). destruct (stem_exists n) as (s & S).
      exists dir, n, t, s. rewrite (stem_file_stem _ _ S). auto.
    + right. split; [reflexivity|]. intros dir n t H. apply file_name_names in H. congruence.
  - intros [(dir & n & t & s & H & S & ->)|(-> & H)]; f_equal; unfold with_extension.
    + rewrite (file_name_names _ _ _ _ H), (stem_file_stem _ _ S). reflexivity.
    + destruct (file_name q) as [[dir n]|] eqn:F; [|reflexivity].
      destruct (file_name_some _ _ _ F) as (t & G). exfalso. exact (H _ _ _ G).
Qed.
Print Assumptions C50_default.

(** Exactly the inputs whose default output is the input itself, so that a
    successful compilation overwrites the source: those called [stem.tex] with
    nothing after it, and those that name no file. *)
Theorem C50_exact : forall p, p <> [] ->
  (process_opts (mk_args [] [] [p]) = CliOk p p <->
   (exists dir s, names p dir (s ++ tx ".tex") [] /\ s <> []) \/
   (forall dir n t, ~ names p dir n t)).
Proof.
  intros p Np. rewrite (proj1 (C50_default p p Np)). split.
  - intros [(dir & n & t & s & H & S & E)|(_ & H)]; [|auto]. left. exists dir, s.
    destruct H as (Ep & H & T). rewrite Ep in E. apply app_inv_head in E.
    assert (En : n = s ++ tx ".tex" /\ t = [] /\ s <> []).
    { destruct S as [(e & -> & N & D)|(-> & D)].
      - rewrite <- !app_assoc in E. apply app_inv_head in E. simpl in E. injection E as E.
        (* e ++ t = tex: t starts with a separator *)
        destruct T as (ts & -> & F). destruct F as [|x ts Hx F].
        + simpl in *. rewrite app_nil_r in E. subst e. auto.
        + exfalso. assert (I : In 47 (tx "tex")).
          { change (tx "tex") with [116; 101; 120]. rewrite <- E. apply in_or_app. right.
            destruct Hx as [-> | ->]; simpl; auto. }
          simpl in I. intuition discriminate.
      - apply app_inv_head in E. exfalso. destruct T as (ts & -> & F).
        destruct F as [|x ts Hx F]; [discriminate|]. destruct Hx as [-> | ->]; discriminate. }
    destruct En as (-> & -> & N). split; [|assumption]. split; [assumption|]. split; assumption.
  - intros [(dir & s & H & N)|H]; [left|right; auto]. exists dir, (s ++ tx ".tex"), [], s.
    split; [assumption|]. split.
    + left. exists (tx "tex"). split; [reflexivity|]. split; [assumption|]. simpl. intuition discriminate.
    + destruct H as (-> & _). now rewrite app_nil_r.
Qed.
Print Assumptions C50_exact.

(** The paths that name no file: nothing but separators and dots at the end. *)
Theorem C50_no_file : forall p,
  (forall dir n t, ~ names p dir n t) <->
  exists q t, p = q ++ t /\ trailing t /\
    (q = [] \/ q = tx "." \/ q = tx ".." \/ exists d, q = d ++ tx "/..").
Proof.
  intros p. split.
  - intros H. destruct (drop_trailing_split (rev p)) as (t & T & E).
    exists (rev (drop_trailing (rev p))), t. split; [|split; [assumption|]].
    { rewrite <- (rev_involutive p) at 1. rewrite E at 1. now rewrite rev_app_distr, rev_involutive. }
    destruct (file_name p) as [[dir n]|] eqn:F.
    { destruct (file_name_some _ _ _ F) as (t' & G). exfalso. exact (H _ _ _ G). }
    unfold file_name in F.
    assert (Hd : drop_trailing (rev p) = [] \/
              exists c r, drop_trailing (rev p) = c :: r /\ c <> 47 /\ (c = 46 -> forall r', r <> 47 :: r')).
    { clear. generalize (rev p) as r. intros r. remember (List.length r) as k eqn:K. revert r K.
      induction k as [k IH] using lt_wf_ind. intros r K. destruct r as [|c r]; [auto|].
      cbn [drop_trailing]. destruct (N.eqb_spec c 47) as [->|].
      - apply (IH (List.length r)); [simpl in K; lia|reflexivity].
      - destruct (N.eqb_spec c 46) as [->|].
        + destruct r as [|c' r']; [right; exists 46, []; repeat split; congruence|].
          destruct (N.eqb_spec c' 47) as [->|].
          * apply (IH (List.length r')); [simpl in K; lia|reflexivity].
          * right. exists 46, (c' :: r'). repeat split; congruence.
        + right. exists c, r. repeat split; congruence. }
    destruct (span (fun c => negb (c =? 47)) (drop_trailing (rev p))) as [rn rd] eqn:S.
    pose proof (span_app _ _ _ _ S) as S1. pose proof (span_stop _ _ _ _ S) as S3.
    rewrite S1, rev_app_distr.
    destruct (teqbP (rev rn) []) as [N1|N1].
    { assert (rn = []) as -> by (rewrite <- (rev_involutive rn), N1; reflexivity).
      destruct Hd as [Hd|(c & r & Hd & Hc & _)].
      - rewrite Hd in S1. simpl in S1. subst rd. auto.
      - rewrite Hd in S1. simpl in S1. subst rd. exfalso. apply Hc.
        now apply negb_false_iff, N.eqb_eq in S3. }
    destruct (teqbP (rev rn) (tx ".")) as [N2|N2].
    { assert (rn = [46]) as -> by (rewrite <- (rev_involutive rn), N2; reflexivity).
      destruct rd as [|c rd]; [auto|]. apply negb_false_iff, N.eqb_eq in S3. subst c.
      destruct Hd as [Hd|(c & r & Hd & Hc & Hr)]; rewrite Hd in S1; [discriminate|].
      simpl in S1. injection S1 as -> ->. exfalso. exact (Hr eq_refl _ eq_refl). }
    destruct (teqbP (rev rn) (tx "..")) as [N3|N3]; [|discriminate].
    rewrite N3. destruct rd as [|c rd]; [auto|]. apply negb_false_iff, N.eqb_eq in S3. subst c.
    right; right; right. exists (rev rd). simpl. now rewrite <- app_assoc.
  - intros (q & t & -> & T & Q) dir n t' H. apply file_name_names in H.
    unfold file_name in H. rewrite rev_app_distr, drop_trailing_app in H by assumption.
    destruct Q as [-> |[-> |[-> |(d & ->)]]]; try discriminate H.
    rewrite rev_app_distr in H. discriminate H.
Qed.
Print Assumptions C50_no_file.

Example C50_paths : 
  names (tx "doc/main.latex/./") (tx "doc/") (tx "main.latex") (tx "/./") /\
  stem_of (tx "main.latex") (tx "main") /\
  process_opts (mk_args [] [] [tx "doc/main.latex/./"]) = CliOk (tx "doc/main.latex/./") (tx "doc/main.tex") /\
  process_opts (mk_args [] [] [tx "a.tex/."]) = CliOk (tx "a.tex/.") (tx "a.tex") /\
  process_opts (mk_args [] [] [tx "../"]) = CliOk (tx "../") (tx "../") /\
  process_opts (mk_args [] [] [tx ".tex"]) = CliOk (tx ".tex") (tx ".tex.tex").
Proof.
  split; [|split; [|repeat split]].
  - split; [reflexivity|]. split.
    + split; [reflexivity|]. split; [right; exists (tx "doc"); reflexivity|].
      repeat split; try discriminate. simpl. intuition discriminate.
    + exists [tx "/."; tx "/"]. split; [reflexivity|]. auto.
  - left. exists (tx "latex"). split; [reflexivity|]. split; [discriminate|]. simpl. intuition discriminate.
Qed.
