(** C61: what is on the disk whenever the compile command stops - by finishing,
    by failing, or by being killed at any moment. *)
From Verif Require Import BaseFacts P_Misc P_Path.
From Verif Require Import CliRun.
Local Open Scope N_scope.

(* ------------------------------------------------------------------ *)
(** * The claim's vocabulary *)

(** The file at [path] holds the text [src] (in UTF-8) *)
Definition holds (resolve : text -> N) (d : disk) (path src : text) : Prop :=
  Forall scalar src /\ d (resolve path) = Some (utf8 src).
(** One list is the beginning of the other *)
Definition begins {A} (p l : list A) : Prop := exists q, l = p ++ q.
(** The document that compiling the file at [path] is to produce, in bytes *)
Definition compiled (resolve : text -> N) (conv : text -> cres text) (items : list (text * spec_item))
  (d : disk) (path : text) (doc : list N) : Prop :=
  exists src o, holds resolve d path src /\ conv src = COk o /\ doc = utf8 (document items o).
(** The process has written and not been refused *)
Definition granted (a : io) : Prop := exists n, a = IoDone (S n).

(* ------------------------------------------------------------------ *)
Section Proofs.
  Variable resolve : text -> N.
  Variable conv : text -> cres text.
  Variable items : list (text * spec_item).
  Variables (input output : text) (d : disk).
  Notation step := (cli_step resolve conv items input output).
  Notation compiled' := (compiled resolve conv items d input).

  Definition same (d' : disk) : Prop := forall f, d' f = d f.
  Definition put (d' : disk) (b : list N) : Prop :=
    (forall f, f <> resolve output -> d' f = d f) /\ d' (resolve output) = Some b.

  Definition inv (s : cli_state) : Prop :=
    match s with
    | KRead d' => d' = d
    | KConvert d' src => d' = d /\ holds resolve d input src
    | KCreate d' doc => d' = d /\ compiled' doc
    | KWrite d' rest => exists w, put d' w /\ compiled' (w ++ rest)
    | KExit0 d' => exists doc, put d' doc /\ compiled' doc
    | KExitError d' => d' = d \/ exists w rest, put d' w /\ compiled' (w ++ rest)
    | KPanic d' => d' = d /\ exists src p, holds resolve d input src /\ conv src = CPanic p
    end.

  Lemma put_set : put (disk_set d (resolve output) []) [].
  Proof.
    unfold put, disk_set. split.
    - intros f N. apply N.eqb_neq in N. now rewrite N.
    - now rewrite N.eqb_refl.
  Qed.
  Lemma put_append d' w b : put d' w -> put (disk_append d' (resolve output) b) (w ++ b).
  Proof.
    intros [H1 H2]. unfold put, disk_append, disk_set. split.
    - intros f N. rewrite (H1 f N) || idtac. apply N.eqb_neq in N as N'. rewrite N'. auto.
    - now rewrite N.eqb_refl, H2.
  Qed.

  Lemma inv_step a s : inv s -> inv (step a s).
  Proof.
    destruct s as [d'|d' src|d' doc|d' rest|d'|d'|d']; cbn [cli_step]; try (intros H; exact H).
    - intros ->. destruct a as [n| |]; cbn [inv]; auto.
      destruct (d (resolve input)) as [b|] eqn:E; [|cbn; auto].
      destruct (utf8_decode b) as [src|] eqn:D; cbn; auto.
      apply C53_utf8 in D as [S D]. split; [reflexivity|]. split; [assumption|]. congruence.
    - intros [-> H]. destruct (conv src) eqn:E; cbn [inv]; auto.
      + split; [reflexivity|]. exists src, a0. auto.
      + split; [reflexivity|]. eauto.
    - intros [-> H]. destruct a as [n| |]; cbn [inv]; auto.
      exists []. split; [apply put_set|assumption].
    - intros (w & P & H). destruct rest as [|x rest].
      { cbn [inv]. exists w. rewrite app_nil_r in H. auto. }
      destruct a as [[|n]| |]; cbn [inv]; eauto.
      exists (w ++ firstn (S n) (x :: rest)). split; [now apply put_append|].
      now rewrite <- app_assoc, firstn_skipn.
  Qed.

  Lemma inv_run answers : inv (cli_run resolve conv items input output answers d).
  Proof.
    unfold cli_run. enough (forall s, inv s -> inv (fold_left (fun s a => step a s) answers s)) as K.
    { apply K. reflexivity. }
    induction answers as [|a l IH]; intros s H; [assumption|]. apply IH. now apply inv_step.
  Qed.
End Proofs.

(** Whenever the process stops - after any number of calls, answered in any way -
    every file other than the output is as it was, and the output file is as it
    was or holds a beginning of the right document. *)
Theorem C61_interrupted : forall resolve conv items input output answers d,
  let d' := disk_of (cli_run resolve conv items input output answers d) in
  (forall f, f <> resolve output -> d' f = d f) /\
  (d' (resolve output) = d (resolve output) \/
   exists doc w, compiled resolve conv items d input doc /\ begins w doc /\
     d' (resolve output) = Some w).
Proof.
  intros resolve conv items input output answers d.
  pose proof (inv_run resolve conv items input output d answers) as H.
  destruct (cli_run resolve conv items input output answers d) as [d'|d' src|d' doc|d' rest|d'|d'|d'];
    cbn [inv disk_of] in *.
  - subst. auto.
  - destruct H as [-> _]. auto.
  - destruct H as [-> _]. auto.
  - destruct H as (w & [P1 P2] & C). split; [assumption|]. right. exists (w ++ rest), w. unfold begins. eauto.
  - destruct H as (w & [P1 P2] & C). split; [assumption|]. right. exists w, w.
    split; [assumption|]. split; [exists []; now rewrite app_nil_r|assumption].
  - destruct H as [->|(w & rest & [P1 P2] & C)]; [auto|]. split; [assumption|]. right.
    exists (w ++ rest), w. unfold begins. eauto.
  - destruct H as [-> _]. auto.
Qed.
Print Assumptions C61_interrupted.

(** In particular a source kept in another file than the output is never
    touched. *)
Theorem C61_source_kept : forall resolve conv items input output answers d,
  resolve input <> resolve output ->
  disk_of (cli_run resolve conv items input output answers d) (resolve input) = d (resolve input).
Proof.
  intros. now apply (proj1 (C61_interrupted resolve conv items input output answers d)).
Qed.
Print Assumptions C61_source_kept.

(** Exit status 0 means: the whole document is in the output file. *)
Theorem C61_success : forall resolve conv items input output answers d d',
  cli_run resolve conv items input output answers d = KExit0 d' ->
  exists doc, compiled resolve conv items d input doc /\ d' (resolve output) = Some doc /\
    forall f, f <> resolve output -> d' f = d f.
Proof.
  intros resolve conv items input output answers d d' E.
  pose proof (inv_run resolve conv items input output d answers) as H. rewrite E in H.
  destruct H as (w & [P1 P2] & C). eauto.
Qed.
Print Assumptions C61_success.

(** When the source cannot be read as text or cannot be converted, nothing at all
    is changed and the exit status is not 0, whatever the operating system
    answers. *)
Theorem C61_failure : forall resolve conv items input output answers d,
  (forall doc, ~ compiled resolve conv items d input doc) ->
  (forall f, disk_of (cli_run resolve conv items input output answers d) f = d f) /\
  (forall d', cli_run resolve conv items input output answers d <> KExit0 d').
Proof.
  intros resolve conv items input output answers d No.
  pose proof (inv_run resolve conv items input output d answers) as H.
  destruct (cli_run resolve conv items input output answers d) as [d'|d' src|d' doc|d' rest|d'|d'|d'];
    cbn [inv disk_of] in *; split; try discriminate; intros f.
  - now subst.
  - now destruct H as [-> _].
  - now destruct H as [-> _].
  - destruct H as (w & _ & C). now destruct (No _ C).
  - destruct H as (w & _ & C). now destruct (No _ C).
  - destruct H as (w & _ & C). now destruct (No _ C).
  - destruct H as [->|(w & rest & _ & C)]; [reflexivity|]. now destruct (No _ C).
  - now destruct H as [-> _].
Qed.
Print Assumptions C61_failure.

(** And when it can be, and the operating system refuses nothing - it may
    interrupt calls - it is done after as many calls are answered as the document
    has bytes and four more, at the latest. *)
Definition answered (a : io) : bool := match a with IoDone (S _) => true | _ => false end.
Theorem C61_completes : forall resolve conv items input output answers d doc,
  compiled resolve conv items d input doc ->
  Forall (fun a => granted a \/ a = IoInterrupted) answers ->
  (List.length (filter answered answers) >= List.length doc + 4)%nat ->
  exists d', cli_run resolve conv items input output answers d = KExit0 d'.
Proof.
  intros resolve conv items input output answers d doc (src & o & (S & E) & C & D) G L.
  unfold cli_run.
  assert (Fin : forall l d', fold_left (fun s a => cli_step resolve conv items input output a s) l (KExit0 d') = KExit0 d').
  { induction l; [reflexivity|assumption]. }
  assert (W : forall l rest d', (List.length (filter answered l) >= List.length rest + 1)%nat ->
     Forall (fun a => granted a \/ a = IoInterrupted) l ->
     exists d'', fold_left (fun s a => cli_step resolve conv items input output a s) l (KWrite d' rest) = KExit0 d'').
  { clear - Fin. induction l as [|a l IH]; intros rest d' Hl G; [simpl in Hl; lia|].
    apply Forall_cons_iff in G as [Ga G]. cbn [fold_left cli_step]. destruct rest as [|x rest]; [rewrite Fin; eauto|].
    destruct Ga as [[m ->]| ->].
    - apply IH; [|assumption]. cbn [filter answered List.length] in Hl. rewrite skipn_length. simpl in Hl |- *. lia.
    - apply IH; [|assumption]. exact Hl. }
  assert (Cr : forall l d', (List.length (filter answered l) >= List.length doc + 2)%nat ->
     Forall (fun a => granted a \/ a = IoInterrupted) l ->
     exists d'', fold_left (fun s a => cli_step resolve conv items input output a s) l (KCreate d' doc) = KExit0 d'').
  { clear - W. induction l as [|a l IH]; intros d' Hl G; [simpl in Hl; lia|].
    apply Forall_cons_iff in G as [Ga G]. cbn [fold_left cli_step]. destruct Ga as [[m ->]| ->].
    - apply W; [|assumption]. cbn [filter answered List.length] in Hl. lia.
    - apply IH; [|assumption]. exact Hl. }
  assert (DE : utf8_decode (utf8 src) = Some src) by (apply C53_utf8; auto).
  assert (Cv : forall l, (List.length (filter answered l) >= List.length doc + 3)%nat ->
     Forall (fun a => granted a \/ a = IoInterrupted) l ->
     exists d'', fold_left (fun s a => cli_step resolve conv items input output a s) l (KConvert d src) = KExit0 d'').
  { intros [|a l] Hl Gl; [simpl in Hl; lia|]. apply Forall_cons_iff in Gl as [Ga Gl]. cbn [fold_left]. unfold cli_step at 2. rewrite C, <- D.
    apply Cr; [|assumption]. cbn [filter] in Hl. destruct (answered a); cbn [List.length] in Hl; lia. }
  revert L. induction answers as [|a l IH]; intros L; [simpl in L; lia|].
  apply Forall_cons_iff in G as [Ga G]. cbn [fold_left]. unfold cli_step at 2. destruct Ga as [[m ->]| ->].
  - rewrite E, DE. apply Cv; [|assumption]. cbn [filter answered List.length] in L. lia.
  - apply IH; [assumption|]. exact L.
Qed.
Print Assumptions C61_completes.

(** The document command: what is compiled is the conversion of the source with
    the built-in specification, under the prelude of C51; the options are those of
    C49; a version request or a refused command line touches nothing. *)
Theorem C61_main : forall resolve fuel version a answers d,
  let s := main_compile resolve (compile_document fuel) default_items version a answers d in
  (forall e, process_opts a = CliErr e -> s = KExitError d) /\
  (forall i o, process_opts a = CliOk i o -> version = true -> s = KExit0 d) /\
  (forall i o, process_opts a = CliOk i o -> version = false ->
     (forall f, f <> resolve o -> disk_of s f = d f) /\
     forall d', s = KExit0 d' -> exists src out, holds resolve d i src /\
       convert_text fuel PAGE src (Some DEFAULT_SPEC) = COk out /\
       d' (resolve o) = Some (utf8 (document default_items out))).
Proof.
  intros resolve fuel version a answers d. unfold main_compile. cbv zeta. split; [|split].
  - now intros e ->.
  - now intros i o -> ->.
  - intros i o -> ->. split.
    + apply C61_interrupted.
    + intros d' E. apply C61_success in E as (doc & (src & out & H & C & ->) & W & _). eauto.
Qed.
Print Assumptions C61_main.

(** Refuted: the source survives an interruption of the compilation.  For every
    source called [stem.tex] that can be compiled, with the output not given, the
    process killed right after its third call leaves the source file empty: it is
    neither the source nor its translation. *)
Theorem C61_source_refuted : forall resolve conv items p dir stem src o d,
  names_file p dir (stem ++ tx ".tex") -> stem <> [] ->
  holds resolve d p src -> src <> [] -> conv src = COk o ->
  let d' := disk_of (main_compile resolve conv items false (mk_args [] [] [p])
                       [IoDone 0; IoDone 0; IoDone 0] d) in
  d' (resolve p) = Some [] /\ d (resolve p) <> Some [].
Proof.
  intros resolve conv items p dir stem src o d H Hs [S E] Ns C.
  unfold main_compile. rewrite (proj1 (C50_refuted p dir stem H Hs)).
  assert (DE : utf8_decode (utf8 src) = Some src) by (apply C53_utf8; auto).
  unfold cli_run. cbn [fold_left]. unfold cli_step at 3. rewrite E, DE. unfold cli_step at 2. rewrite C.
  cbn [cli_step disk_of]. unfold disk_set. rewrite N.eqb_refl. split; [reflexivity|].
  intros E'. injection E' as E'. apply Ns. apply utf8_inj; [assumption|constructor|assumption].
Qed.
Print Assumptions C61_source_refuted.
(** Refuted likewise: a failed run keeps the output of the last good one.  The
    file is emptied before anything is written. *)
Theorem C61_output_refuted : forall resolve conv items input output d doc,
  compiled resolve conv items d input doc ->
  exists d', cli_run resolve conv items input output [IoDone 0; IoDone 0; IoDone 0; IoError; IoError] d = KExitError d' /\
    d' (resolve output) = Some [].
Proof.
  intros resolve conv items input output d doc (src & o & (S & E) & C & D).
  assert (DE : utf8_decode (utf8 src) = Some src) by (apply C53_utf8; auto).
  unfold cli_run. cbn [fold_left]. unfold cli_step at 5. rewrite E, DE. unfold cli_step at 4. rewrite C.
  unfold cli_step at 3.
  assert (Nn : exists x r, utf8 (document items o) = x :: r) by (unfold document; cbn; eauto).
  destruct Nn as (x & r & ->). cbn [cli_step]. eexists. split; [reflexivity|].
  unfold disk_set. now rewrite N.eqb_refl.
Qed.
Print Assumptions C61_output_refuted.

(** A source, two file names, and a run killed while writing *)
Example C61_example :
  let res := fun p => if teqb p (tx "a.tex") then 0 else 1 in
  let d := fun f => if f =? 0 then Some (utf8 (tx "$x$")) else None in
  let run := fun l => cli_run res (compile_document 200) [] (tx "a.tex") (tx "a.typ") l d in
  let doc := utf8 (document [] (tx "#math.equation(block: false, $x $);")) in
  compiled res (compile_document 200) [] d (tx "a.tex") doc /\
  disk_of (run [IoDone 0; IoDone 0; IoInterrupted; IoDone 0; IoDone 7; IoError]) 1 = Some (firstn 7 doc) /\
  disk_of (run [IoDone 0; IoDone 0; IoDone 0; IoDone 999; IoDone 0]) 1 = Some doc.
Proof.
  cbv zeta. split; [|split; vm_compute; reflexivity].
  exists (tx "$x$"), (tx "#math.equation(block: false, $x $);"). split; [|split; vm_compute; reflexivity].
  split; [|reflexivity]. repeat constructor.
Qed.
