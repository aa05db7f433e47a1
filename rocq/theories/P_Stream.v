(** Properties C06, C07: reading tokens through the public lexer. *)
From Verif Require Import StreamFacts DefaultSpec.
Local Open Scope N_scope.

(** C06.  Creating a lexer and eating until [None] yields the tokens of the
    source in order, for every page size; if some token cannot be produced
    (C02), every page size panics the same way. *)
Theorem C06_page_independence : forall sp src page, (0 < page)%nat ->
  (stream_panics (lex_stream sp src) = false ->
     exists l, plain_new page sp src = Ok l /\
       delivers page l (stream_toks (lex_stream sp src))) /\
  (forall page' n, (0 < page')%nat -> (List.length (stream_toks (lex_stream sp src)) < n)%nat ->
     read_all page n sp src = read_all page' n sp src).
Proof.
  intros sp src page Hp. split.
  - intros Hn. apply run_stream_toks in Hn.
    pose proof (lx_new_spec page (lex_stream sp src) Hp) as H. unfold plain_new.
    destruct (lx_new (plain_bump page) (lex_stream sp src)) as [l|e|]; [|congruence|contradiction].
    destruct H as [Hv Hi]. exists l. split; [reflexivity|]. apply delivers_view; auto. now rewrite Hv.
  - intros page' n Hp' Hn. now rewrite !read_all_spec.
Qed.
Print Assumptions C06_page_independence.

(** Once [eat] has returned [None] it always does, and changes nothing. *)
Theorem C06_none_forever : forall page sp src l l', (0 < page)%nat ->
  reachable page sp src l -> lx_eat (plain_bump page) l = Ok (None, l') ->
  l' = l /\ lx_peek l = None.
Proof.
  intros page sp src l l' Hp Hr H. unfold lx_eat, lx_peek in *.
  destruct (lx_peeked l); [apply bind_ok in H as (? & _ & H); discriminate|]. injection H as <-. auto.
Qed.
Print Assumptions C06_none_forever.

(** C07.  In every reachable state that still delivers [toks]: peeking shows
    exactly what eating returns, and eating leaves exactly the rest. *)
Theorem C07_peek_eat : forall page sp src l toks, (0 < page)%nat ->
  reachable page sp src l -> delivers page l toks ->
  match toks with
  | [] => lx_peek l = None /\ lx_peek_text l = None /\ lx_eat (plain_bump page) l = Ok (None, l)
  | t :: toks' => lx_peek l = Some (fst t) /\ lx_peek_text l = Some (snd t) /\
      exists l', lx_eat (plain_bump page) l = Ok (Some t, l') /\ delivers page l' toks'
  end.
Proof.
  intros page sp src l toks Hp Hr Hd. apply peek_eat; auto. eapply reachable_inv; eauto.
Qed.
Print Assumptions C07_peek_eat.

(** Consuming bytes removes exactly them from the front of the peeked token
    (the whole token when there are not more); an offset inside a character is a
    panic. *)
Theorem C07_consume : forall page sp src l kind txt toks cnt, (0 < page)%nat ->
  reachable page sp src l -> delivers page l ((kind, txt) :: toks) ->
  ((blen txt <= cnt)%nat ->
     exists l', lx_consume (plain_bump page) cnt l = Ok l' /\ delivers page l' toks) /\
  (forall a b, txt = a ++ b -> b <> [] -> blen a = cnt ->
     exists l', lx_consume (plain_bump page) cnt l = Ok l' /\ delivers page l' ((kind, b) :: toks)) /\
  ((cnt < blen txt)%nat -> (forall a b, txt = a ++ b -> blen a <> cnt) ->
     exists e, lx_consume (plain_bump page) cnt l = Panic e).
Proof.
  intros page sp src l kind txt toks cnt Hp Hr Hd. apply consume_spec; auto. eapply reachable_inv; eauto.
Qed.
Print Assumptions C07_consume.

(** The remaining sequence is well defined *)
Theorem C07_delivers_functional : forall page sp src l t1 t2, (0 < page)%nat ->
  reachable page sp src l -> delivers page l t1 -> delivers page l t2 -> t1 = t2.
Proof.
  intros page sp src l t1 t2 Hp Hr H1 H2. pose proof (reachable_inv _ _ _ _ Hp Hr) as Hi.
  apply (delivers_view _ _ _ Hp Hi) in H1, H2. congruence.
Qed.
Print Assumptions C07_delivers_functional.

Example C07_example : exists l l' l'', plain_new 2 DEFAULT_SPEC (tx "ab\frac{x}") = Ok l /\
  lx_consume (plain_bump 2) 1 l = Ok l' /\ delivers 2 l' [(Word, tx "b"); (CommandName Generic, tx "\frac");
     (TLeft Curly, tx "{"); (Word, tx "x"); (TRight Curly, tx "}")]
  /\ lx_eat (plain_bump 2) l' = Ok (Some (Word, tx "b"), l'').
Proof.
  eexists _, _, _. split; [vm_compute; reflexivity|]. split; [vm_compute; reflexivity|].
  split; [exists 10%nat; vm_compute; reflexivity | vm_compute; reflexivity].
Qed.

(** The one-component inner stream used by the macro engine model is exact with
    respect to the code's look-ahead stack in front of the logos lexer. *)
Theorem inner_stream_merge_exact : forall c ts,
  map_res merge (next_token2 c) = next_token (merge c) /\
  merge (extend2 ts c) = extend_inner ts (merge c).
Proof. intros c ts. split; [apply next_token_merge | apply extend_merge]. Qed.
Print Assumptions inner_stream_merge_exact.
