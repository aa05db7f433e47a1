(** Facts about the look-ahead cache and the inner stream (Stream.v). *)
From Verif Require Export LexClass Stream.

(** ** Paging of the plain lexer *)
(** What reading a stream to its end gives *)
Fixpoint run_stream (s : lstream) : res (list tok) :=
  match s with
  | SNil => Ok []
  | SPanic e => Panic e
  | SCons t r => let* ts := run_stream r in Ok (t :: ts)
  end.
Lemma run_stream_toks s : stream_panics s = false -> run_stream s = Ok (stream_toks s).
Proof.
  induction s as [|e|t s IH]; simpl; [reflexivity|discriminate|]. intros H. now rewrite IH.
Qed.
Lemma run_stream_push ts s : run_stream (push_front ts s) =
  let* r := run_stream s in Ok (ts ++ r).
Proof.
  induction ts as [|t ts IH]; simpl; [now destruct (run_stream s)|].
  rewrite IH. now destruct (run_stream s).
Qed.

(** [take_page] cuts the stream; an empty page means the end *)
Lemma take_page_spec page s :
  match take_page page s with
  | Ok (ts, r) => s = push_front ts r /\ (ts = [] -> page = O \/ r = SNil)
  | Panic e => run_stream s = Panic e
  | Fuel => False
  end.
Proof.
  revert s; induction page as [|p IH]; intros s; simpl; [auto|].
  destruct s as [|e|t s]; simpl; [auto|reflexivity|].
  specialize (IH s). destruct (take_page p s) as [[ts r]|e|]; simpl in *.
  - destruct IH as [-> _]. split; [reflexivity|discriminate].
  - now rewrite IH.
  - assumption.
Qed.

(** the tokens still to be delivered by a lexer state *)
Definition lx_view (l : lexer lstream) : lstream :=
  match lx_peeked l with
  | Some t => SCons t (push_front (lx_buf l) (lx_b l))
  | None => SNil
  end.
Definition lx_inv (l : lexer lstream) : Prop :=
  lx_peeked l = None -> lx_buf l = [] /\ lx_b l = SNil.

Lemma push_front_app a b s : push_front (a ++ b) s = push_front a (push_front b s).
Proof. unfold push_front. now rewrite fold_right_app. Qed.

Lemma lx_next_spec page p l : (0 < page)%nat ->
  match lx_next (plain_bump page) (mk_lexer p (lx_buf l) (lx_b l)) with
  | Ok l' => lx_view l' = push_front (lx_buf l) (lx_b l) /\ lx_inv l'
  | Panic e => run_stream (push_front (lx_buf l) (lx_b l)) = Panic e
  | Fuel => False
  end.
Proof.
  intros Hp. unfold lx_next, lx_inv. simpl. destruct (lx_buf l) as [|t r] eqn:Eb; simpl.
  - unfold plain_bump. pose proof (take_page_spec page (lx_b l)) as H.
    destruct (take_page page (lx_b l)) as [[[|t ts] r]|e|]; simpl in *; try assumption.
    + destruct H as [-> H]. destruct (H eq_refl) as [->|Hr]; [lia|]. simpl. rewrite Hr.
      split; [reflexivity|]. auto.
    + destruct H as [-> H]. split; [reflexivity|]. discriminate.
  - split; [reflexivity|]. discriminate.
Qed.
Lemma lx_eat_spec page l : (0 < page)%nat -> lx_inv l ->
  match lx_eat (plain_bump page) l with
  | Ok (None, l') => lx_view l = SNil /\ l' = l
  | Ok (Some t, l') => lx_view l = SCons t (lx_view l') /\ lx_inv l'
  | Panic e => run_stream (lx_view l) = Panic e
  | Fuel => False
  end.
Proof.
  intros Hp Hi. unfold lx_eat. destruct (lx_peeked l) as [t|] eqn:E;
    [|unfold lx_view; rewrite E; auto].
  assert (lx_view l = SCons t (push_front (lx_buf l) (lx_b l))) as -> by (unfold lx_view; now rewrite E).
  pose proof (lx_next_spec page None l Hp) as H.
  destruct (lx_next (plain_bump page) _) as [l'|e|]; simpl in *.
  - destruct H as [-> H]. auto.
  - now rewrite H.
  - assumption.
Qed.
Lemma lx_drain_spec page n : (0 < page)%nat -> forall l, lx_inv l ->
  (List.length (stream_toks (lx_view l)) < n)%nat ->
  lx_drain (plain_bump page) n l = run_stream (lx_view l).
Proof.
  intros Hp. induction n as [|n IH]; intros l Hi Hn; [lia|]. simpl.
  pose proof (lx_eat_spec page l Hp Hi) as H.
  destruct (lx_eat (plain_bump page) l) as [[[t|] l']|e|]; simpl in *.
  - destruct H as [Hv Hi']. rewrite Hv in *. simpl in *. rewrite IH by (assumption || lia). reflexivity.
  - destruct H as [-> ->]. reflexivity.
  - now rewrite H.
  - contradiction.
Qed.
Lemma lx_new_spec page s : (0 < page)%nat ->
  match lx_new (plain_bump page) s with
  | Ok l => lx_view l = s /\ lx_inv l
  | Panic e => run_stream s = Panic e
  | Fuel => False
  end.
Proof. intros Hp. exact (lx_next_spec page None (mk_lexer None [] s) Hp). Qed.

(** reading all tokens of a source *)
Definition read_all (page n : nat) (sp : spec) (src : text) : res (list tok) :=
  let* l := plain_new page sp src in lx_drain (plain_bump page) n l.
Lemma read_all_spec page n sp src : (0 < page)%nat ->
  (List.length (stream_toks (lex_stream sp src)) < n)%nat ->
  read_all page n sp src = run_stream (lex_stream sp src).
Proof.
  intros Hp Hn. unfold read_all, plain_new.
  pose proof (lx_new_spec page (lex_stream sp src) Hp) as H.
  destruct (lx_new (plain_bump page) (lex_stream sp src)) as [l|e|]; simpl in *.
  - destruct H as [Hv Hi]. rewrite <- Hv in Hn |- *. apply lx_drain_spec; assumption.
  - now rewrite H.
  - contradiction.
Qed.

(** ** Reachable lexer states *)
Inductive reachable (page : nat) (sp : spec) (src : text) : lexer lstream -> Prop :=
| r_new l : plain_new page sp src = Ok l -> reachable page sp src l
| r_eat l t l' : reachable page sp src l -> lx_eat (plain_bump page) l = Ok (t, l') ->
    reachable page sp src l'
| r_consume l n l' : reachable page sp src l -> lx_consume (plain_bump page) n l = Ok l' ->
    reachable page sp src l'.
Lemma reachable_inv page sp src l : (0 < page)%nat -> reachable page sp src l -> lx_inv l.
Proof.
  intros Hp. induction 1 as [l E|l t l' Hr IH E|l n l' Hr IH E].
  - pose proof (lx_new_spec page (lex_stream sp src) Hp) as H. unfold plain_new in E. rewrite E in H. tauto.
  - pose proof (lx_eat_spec page l Hp IH) as H. rewrite E in H. destruct t; [tauto|].
    destruct H as [_ ->]. assumption.
  - unfold lx_consume in E. destruct (lx_peeked l) as [[k s]|] eqn:Ep.
    + destruct (Nat.leb (blen s) n).
      * pose proof (lx_next_spec page (lx_peeked l) l Hp) as H.
        replace (mk_lexer (lx_peeked l) (lx_buf l) (lx_b l)) with l in H by now destruct l.
        rewrite E in H. tauto.
      * destruct (split_bytes n s) as [[? s']|]; [|discriminate]. injection E as <-.
        unfold lx_inv. simpl. discriminate.
    + injection E as <-. assumption.
Qed.

(** The tokens a lexer state still delivers, by the API alone *)
Definition delivers (page : nat) (l : lexer lstream) (toks : list tok) : Prop :=
  exists n, lx_drain (plain_bump page) n l = Ok toks.
Lemma run_stream_ok s ts : run_stream s = Ok ts -> stream_toks s = ts /\ stream_panics s = false.
Proof.
  revert ts; induction s as [|e|t s IH]; simpl; intros ts H; [injection H as <-; auto|discriminate|].
  apply bind_ok in H as (ts' & H & [= <-]). apply IH in H as [-> ->]. auto.
Qed.
Lemma lx_drain_mono page n : forall l ts, lx_drain (plain_bump page) n l = Ok ts ->
  forall m, (n <= m)%nat -> lx_drain (plain_bump page) m l = Ok ts.
Proof.
  induction n as [|n IH]; intros l ts H m Hm; [discriminate|]. destruct m as [|m]; [lia|]. simpl in *.
  apply bind_ok in H as ([t l'] & H & H1). rewrite H. simpl. destruct t as [t|]; [|assumption].
  apply bind_ok in H1 as (ts' & H1 & [= <-]). rewrite (IH _ _ H1 m) by lia. reflexivity.
Qed.
Lemma delivers_view page l ts : (0 < page)%nat -> lx_inv l ->
  delivers page l ts <-> run_stream (lx_view l) = Ok ts.
Proof.
  intros Hp Hi. split.
  - intros [n Hn]. rewrite <- (lx_drain_spec page (n + S (List.length (stream_toks (lx_view l)))) Hp l Hi).
    + eapply lx_drain_mono; [eassumption|lia].
    + lia.
  - intros H. exists (S (List.length (stream_toks (lx_view l)))). rewrite lx_drain_spec; auto.
Qed.

(** a panic-free remaining stream stays so *)
Lemma lx_next_ok page l ts p : (0 < page)%nat ->
  run_stream (push_front (lx_buf l) (lx_b l)) = Ok ts ->
  exists l', lx_next (plain_bump page) (mk_lexer p (lx_buf l) (lx_b l)) = Ok l' /\ lx_inv l' /\
    run_stream (lx_view l') = Ok ts.
Proof.
  intros Hp Hr. pose proof (lx_next_spec page p l Hp) as H.
  destruct (lx_next (plain_bump page) _) as [l'|e|]; [|congruence|contradiction].
  destruct H as [Hv Hi]. exists l'. rewrite Hv. auto.
Qed.

(** ** peek / eat / consume *)
Lemma peek_eat page l ts : (0 < page)%nat -> lx_inv l -> delivers page l ts ->
  match ts with
  | [] => lx_peek l = None /\ lx_peek_text l = None /\ lx_eat (plain_bump page) l = Ok (None, l)
  | t :: ts' => lx_peek l = Some (fst t) /\ lx_peek_text l = Some (snd t) /\
      exists l', lx_eat (plain_bump page) l = Ok (Some t, l') /\ delivers page l' ts'
  end.
Proof.
  intros Hp Hi Hd. apply (delivers_view _ _ _ Hp Hi) in Hd.
  unfold lx_peek, lx_peek_text, lx_view in *. destruct (lx_peeked l) as [t|] eqn:E.
  - simpl in Hd. apply bind_ok in Hd as (ts' & Hd & [= <-]). simpl. repeat split; auto.
    destruct (lx_next_ok page l ts' None Hp Hd) as (l' & En & Hi' & Hv).
    exists l'. unfold lx_eat. rewrite E, En. split; [reflexivity|].
    apply delivers_view; auto.
  - simpl in Hd. injection Hd as <-. unfold lx_eat. rewrite E. auto.
Qed.
Lemma consume_spec page l k s ts cnt : (0 < page)%nat -> lx_inv l ->
  delivers page l ((k, s) :: ts) ->
  ((blen s <= cnt)%nat -> exists l', lx_consume (plain_bump page) cnt l = Ok l' /\ delivers page l' ts) /\
  (forall a b, s = a ++ b -> b <> [] -> blen a = cnt ->
     exists l', lx_consume (plain_bump page) cnt l = Ok l' /\ delivers page l' ((k, b) :: ts)) /\
  ((cnt < blen s)%nat -> (forall a b, s = a ++ b -> blen a <> cnt) ->
     exists e, lx_consume (plain_bump page) cnt l = Panic e).
Proof.
  intros Hp Hi Hd. apply (delivers_view _ _ _ Hp Hi) in Hd.
  unfold lx_view in *. destruct (lx_peeked l) as [t|] eqn:E; [|discriminate].
  simpl in Hd. apply bind_ok in Hd as (ts' & Hd & [= -> ->]). unfold lx_consume. rewrite E.
  split; [|split].
  - intros Hle. apply Nat.leb_le in Hle. rewrite Hle.
    destruct (lx_next_ok page l ts (lx_peeked l) Hp Hd) as (l' & En & Hi' & Hv).
    replace (mk_lexer (lx_peeked l) (lx_buf l) (lx_b l)) with l in En by now destruct l.
    exists l'. split; [assumption|]. apply delivers_view; auto.
  - intros a b -> Hb <-.
    destruct (Nat.leb_spec (blen (a ++ b)) (blen a)) as [Hle|_].
    { rewrite blen_app in Hle. destruct b as [|c b]; [contradiction|]. simpl in Hle.
      pose proof (utf8_len_pos c). lia. }
    rewrite split_bytes_intro. eexists. split; [reflexivity|].
    apply delivers_view; [assumption|unfold lx_inv; simpl; discriminate|].
    unfold lx_view. simpl. rewrite Hd. reflexivity.
  - intros Hlt Hn. destruct (Nat.leb_spec (blen s) cnt); [lia|].
    destruct (split_bytes cnt s) as [[a b]|] eqn:Es; [|eauto].
    apply split_bytes_app in Es as [Es Hl]. now apply Hn in Es.
Qed.

(** ** The inner stream with its two components
    [StreamContext.peek_inner] as in the code (stream.rs:6-43, 94-150): the
    peeked token, the stack [buf] (head = top) and the logos lexer. *)
Record ictx2 := mk_ictx2 { i2_peeked : option tok; i2_buf : list tok; i2_lex : lstream }.
(** the merged representation used by the macro engine model *)
Definition merge (c : ictx2) : ictx := mk_ictx (i2_peeked c) (push_front (i2_buf c) (i2_lex c)).

(** stream.rs:96-103 *)
Definition next_token2 (c : ictx2) : res ictx2 :=
  match i2_buf c with
  | t :: r => Ok (mk_ictx2 (Some t) r (i2_lex c))
  | [] =>
    match i2_lex c with
    | SNil => Ok (mk_ictx2 None [] SNil)
    | SPanic e => Panic e
    | SCons t r => Ok (mk_ictx2 (Some t) [] r)
    end
  end.
(** stream.rs:27-42 [LexCache::extend]; the iterator yields [ts] reversed, so
    that pushing one after the other leaves the first of [ts] on top *)
Definition extend2 (ts : list tok) (c : ictx2) : ictx2 :=
  let '(buf, peeking) :=
    match i2_peeked c with
    | Some t => (t :: i2_buf c, true)
    | None => (i2_buf c, false)
    end in
  let buf := fold_left (fun b t => t :: b) (rev ts) buf in
  if peeking then
    match buf with
    | t :: r => mk_ictx2 (Some t) r (i2_lex c)
    | [] => mk_ictx2 None [] (i2_lex c)
    end
  else mk_ictx2 (i2_peeked c) buf (i2_lex c).

Definition map_res {A B} (f : A -> B) (r : res A) : res B :=
  match r with Ok a => Ok (f a) | Panic e => Panic e | Fuel => Fuel end.
Lemma next_token_merge c : map_res merge (next_token2 c) = next_token (merge c).
Proof.
  destruct c as [p [|t r] s]; unfold next_token, merge; simpl; [|reflexivity].
  destruct s; reflexivity.
Qed.
Lemma fold_push ts b : fold_left (fun b (t : tok) => t :: b) (rev ts) b = ts ++ b.
Proof. revert b; induction ts as [|t ts IH]; intros b; simpl; [reflexivity|].
  rewrite fold_left_app, IH. reflexivity. Qed.
Lemma extend_merge ts c : merge (extend2 ts c) = extend_inner ts (merge c).
Proof.
  destruct c as [[t|] buf s]; unfold extend2, extend_inner, merge; simpl; rewrite fold_push.
  - destruct ts as [|t' ts]; simpl; [reflexivity|]. fold (push_front ts (SCons t (push_front buf s))).
    change (fold_right SCons s (ts ++ t :: buf)) with (push_front (ts ++ t :: buf) s).
    rewrite push_front_app. reflexivity.
  - now rewrite push_front_app.
Qed.
