(** Every tree built by the parser is well formed (C24, C25, C28). *)
From Verif Require Export ParserText TreeSpec.
Local Open Scope nat_scope.

Ltac isin := repeat first [left; reflexivity | right].

Section Shape.
  Variable gm : text -> text -> bool.
  Variable sp : spec.
  Notation wf := (wf_tree gm sp).

  (** ** Elements of a list in a given scope *)
  Definition row_safe (sc : scope) (t : tree) : Prop := sc = Environment -> rows_ok sp t.
  (** items; [amp]/[nl]: may it be an alignment mark / a row separator? *)
  Definition itm (sc : scope) (amp nl : bool) (t : tree) : Prop :=
    item t /\ row_safe sc t /\ (amp = false -> not_leaf TokenAmpersand t) /\ (nl = false -> not_leaf ItemNewLine t).
  (** what an argument taken from the left may consist of *)
  Definition itm' (sc : scope) (t : tree) : Prop :=
    (item t \/ is_argument t \/
      match t with Leaf k _ => In k [TokenUnderscore; TokenCaret] | _ => False end) /\ row_safe sc t.
  Lemma itm_itm' sc a n t : itm sc a n t -> itm' sc t.
  Proof. intros (H1 & H2 & _). split; auto. Qed.
  Lemma itm_weaken sc a n a' n' t : (a = true -> a' = true) -> (n = true -> n' = true) ->
    itm sc a n t -> itm sc a' n' t.
  Proof.
    intros Ha Hn (H1 & H2 & H3 & H4). split; [assumption|]. split; [assumption|].
    split; intros E; subst; [destruct a|destruct n]; auto; discriminate (Ha eq_refl) || discriminate (Hn eq_refl).
  Qed.
  Lemma itm_item sc a n t : itm sc a n t -> item t. Proof. now intros (H & _). Qed.
  Lemma Forall_item sc a n l : Forall (itm sc a n) l -> Forall item l.
  Proof. apply Forall_impl. intros t. apply itm_item. Qed.

  (** ** Builder steps as equations *)
  (** [St ps sc so lo C st]: open nodes [ps], scope [sc], children [C]; the
      checkpoints are those given or have been cleared *)
  Definition sub (o' o : option nat) : Prop := o' = None \/ o' = o.
  Lemma sub_refl o : sub o o. Proof. now right. Qed.
  Lemma sub_trans a b c : sub a b -> sub b c -> sub a c.
  Proof. unfold sub. intuition congruence. Qed.
  Definition St (ps : list (kind * nat)) (sc : scope) (so lo : option nat) (C : list tree) (st : lpst) : Prop :=
    par st = ps /\ p_scope st = sc /\ sub (p_start st) so /\ sub (p_last st) lo /\ chd st = C.
  Lemma St_self (st : lpst) : St (par st) (p_scope st) (p_start st) (p_last st) (chd st) st.
  Proof. repeat split; apply sub_refl. Qed.

  Lemma St_start k ps sc so lo C (st : lpst) :
    St ps sc so lo C st -> St ((k, List.length C) :: ps) sc so lo C (start_node k st).
  Proof. intros (<- & <- & H1 & H2 & <-). repeat split; assumption. Qed.
  Lemma St_eat ps sc so lo C (st : lpst) : St ps sc so lo C st -> wp True True (leat st) (fun st' => exists t,
    p_lex st = t :: p_lex st' /\ p_trivia st' = p_trivia st /\
    St ps sc so lo (C ++ [Leaf (kind_of_token (fst t)) (snd t)]) st').
  Proof.
    destruct st as [lx b h s l scc]. unfold St, eat, lex_eat. simpl. intros (<- & <- & H1 & H2 & <-).
    destruct lx as [|t ts]; simpl; [exact I|]. exists t. repeat split; assumption.
  Qed.
  Lemma St_eat_at t ts ps sc so lo C (st : lpst) : St ps sc so lo C st -> p_lex st = t :: ts ->
    wp True True (leat st) (fun st' => p_trivia st' = p_trivia st /\ p_lex st' = ts /\
      St ps sc so lo (C ++ [Leaf (kind_of_token (fst t)) (snd t)]) st').
  Proof.
    intros H E. eapply wp_mono; [apply (St_eat _ _ _ _ _ _ H)|]. intros a (t' & E' & Ht & Ha).
    rewrite E in E'. injection E' as <- <-. auto.
  Qed.
  Lemma St_finish k ps sc so lo C ch (st : lpst) : St ((k, List.length C) :: ps) sc so lo (C ++ ch) st ->
    wp True True (finish_node st) (fun st' =>
      p_lex st' = p_lex st /\ p_trivia st' = p_trivia st /\ St ps sc so lo (C ++ [Node k ch]) st').
  Proof.
    destruct st as [lx [ps0 ch0] h s l scc]. unfold St, finish_node. simpl. intros (-> & <- & H1 & H2 & ->). simpl.
    rewrite firstn_app, firstn_all, Nat.sub_diag, skipn_app, skipn_all, Nat.sub_diag. simpl. rewrite app_nil_r.
    repeat split; assumption.
  Qed.
  Lemma St_start_at cp k ps sc so lo C (st : lpst) : St ps sc so lo C st ->
    wp True True (start_node_at cp k st) (fun st' =>
      cp <= List.length C /\ (forall k' n ps', ps = (k', n) :: ps' -> n <= cp) /\
      p_lex st' = p_lex st /\ p_trivia st' = p_trivia st /\ St ((k, cp) :: ps) sc so lo C st').
  Proof.
    destruct st as [lx [ps0 ch0] h s l scc]. unfold St, start_node_at, b_start_at. simpl.
    intros (<- & <- & H1 & H2 & <-).
    destruct (Nat.ltb_spec (List.length ch0) cp); simpl; [exact I|].
    destruct ps0 as [|[k' n] ps0]; simpl; [repeat split; auto; discriminate|].
    destruct (Nat.ltb_spec cp n); simpl; [exact I|]. repeat split; auto. intros ? ? ? [= <- <- <-]. lia.
  Qed.

  (** ** Invariants and postconditions *)
  (** content may be called: the recorded checkpoints delimit items *)
  Definition CI (st : lpst) : Prop :=
    (forall x y, p_start st = Some x -> p_last st = Some y -> x <= y) /\
    (forall x, p_start st = Some x \/ p_last st = Some x ->
       x <= List.length (chd st) /\ Forall (itm' (p_scope st)) (skipn x (chd st))) /\
    Forall wf (chd st).
  Definition below (o : option nat) (n : nat) : Prop := forall x, o = Some x -> x <= n.
  (** a new element wrapped around the children from [n] on *)
  Definition wraps (st st' : lpst) : Prop :=
    exists n ch nd, (p_start st = Some n \/ p_last st = Some n) /\
      (forall k f ps, par st = (k, f) :: ps -> f <= n) /\ n <= List.length (chd st) /\
      (nd = Node ItemCmd ch \/ nd = Node ItemAttachComponent ch) /\
      chd st' = firstn n (chd st) ++ [nd] /\ row_safe (p_scope st) nd /\
      below (p_start st') n /\ below (p_last st') n.
  Definition appends (amp nl : bool) (st st' : lpst) : Prop :=
    exists new, chd st' = chd st ++ new /\ Forall (itm (p_scope st) amp nl) new.
  Definition cpost (st : lpst) (r : bool) (st' : lpst) : Prop :=
    par st' = par st /\ p_scope st' = p_scope st /\
    sub (p_start st') (p_start st) /\ sub (p_last st') (p_last st) /\
    Forall wf (chd st') /\
    (appends (match p_peek list_pk st with Some Ampersand => true | _ => false end)
             (match p_peek list_pk st with Some NewLine => true | _ => false end) st st'
     \/ r = false /\ wraps st st').

  (** inside a list that began at [base] *)
  Definition LI (base : nat) (amp nl : bool) (st : lpst) : Prop :=
    base <= List.length (chd st) /\
    (p_start st = None \/ p_start st = Some base) /\
    (forall x, p_last st = Some x -> base <= x <= List.length (chd st)) /\
    Forall (itm (p_scope st) amp nl) (skipn base (chd st)) /\
    Forall wf (chd st).
  Definition lpost (base : nat) (amp nl : bool) (st st' : lpst) : Prop :=
    par st' = par st /\ p_scope st' = p_scope st /\ base <= List.length (chd st') /\
    firstn base (chd st') = firstn base (chd st) /\
    Forall (itm (p_scope st) amp nl) (skipn base (chd st')) /\ Forall wf (chd st').

  (** the matcher [m] of pattern [p] has accepted arguments of kinds [cs] *)
  Definition mstate (p : arg_pattern) (m : matcher) (cs : text) : Prop :=
    match p with
    | PNone => m = AMNone /\ cs = []
    | PFixed n | PRange _ n =>
      (m = AMNone \/ m = AMAtMost n (N.of_nat (List.length cs))) /\
      Forall (eq ARG_TERM) cs /\ (N.of_nat (List.length cs) <= n)%N
    | PGlob re => m = AMGlob re cs /\ allowed gm (PGlob re) cs
    | PGreedy => False
    end.
  (** only leaves of certain kinds are added *)
  Definition adds (P : kind -> Prop) (st st' : lpst) : Prop :=
    exists new, chd st' = chd st ++ new /\ Forall (fun t => match t with Leaf k _ => P k | _ => False end) new /\
      par st' = par st /\ p_scope st' = p_scope st /\ p_start st' = p_start st /\ p_last st' = p_last st.

  Definition nl_ok (st : lpst) : bool := match p_scope st with Environment => false | _ => true end.

  (** arguments have been added to those of kinds [cs] *)
  Definition mpost (p : arg_pattern) (cs : text) (st st' : lpst) : Prop :=
    exists args, St (par st) (p_scope st) None None (chd st ++ args) st' /\ Forall right_argument args /\
      Forall (row_safe (p_scope st)) args /\ Forall wf args /\ allowed gm p (cs ++ map argument_kind args).
  Definition spre (c : call) (st : lpst) : Prop :=
    hpre c st /\
    match c with
    | KContent _ => CI st
    | KList cur => cur = List.length (chd st)
    | KMatch false _ _ => p_start st = None /\ p_last st = None /\ Forall wf (chd st)
    | _ => True
    end.
  Definition spost (c : call) (st : lpst) (r : bool) (st' : lpst) : Prop :=
    match c with
    | KContent _ => cpost st r st'
    | KList _ =>
        (forall base, LI base true true st -> lpost base true true st st' /\
        (p_lex st' = [] \/ exists k, p_peek list_pk st' = Some k /\ stop_by_scope (p_scope st) k = true))
    | KMatch true m _ => is_greedy m = true ->
        forall base, LI base false (nl_ok st) st -> lpost base false (nl_ok st) st st'
    | KMatch false m _ =>
        forall p cs, mstate p m cs -> mpost p cs st st'
    | KTrivia => adds (fun k => In k [TokenLineBreak; TokenWhiteSpace; TokenComment]) st st'
    | KText => adds (fun k => In k [TokenLineBreak; TokenWhiteSpace; TokenComment; TokenWord; TokenComma]) st st'
    | KIfs _ => adds (fun _ => True) st st'
    end.
  Definition sspec (rec : lrec) : Prop :=
    forall c st, spre c st -> wp True True (rec c st) (fun x => spost c st (fst x) (snd x)).

  (** ** Facts about the invariants *)
  Lemma skipn_skipn_ {A} (a b : nat) (l : list A) : skipn a (skipn b l) = skipn (a + b) l.
  Proof.
    revert l. induction b as [|b IH]; intros l; [now rewrite Nat.add_0_r|].
    rewrite Nat.add_succ_r. destruct l as [|x l]; [now rewrite !skipn_nil|]. simpl. apply IH.
  Qed.
  Lemma LI_CI base amp nl st : LI base amp nl st -> CI st.
  Proof.
    intros (H1 & H2 & H3 & H4 & H5). split; [|split; [|assumption]].
    - intros x y Hx Hy. destruct H2 as [H2|H2]; [congruence|]. rewrite H2 in Hx. injection Hx as <-. now apply H3.
    - assert (I : forall x, base <= x -> Forall (itm' (p_scope st)) (skipn x (chd st))).
      { intros x Hx. replace x with ((x - base) + base) by lia. rewrite <- skipn_skipn_.
        assert (F : Forall (itm' (p_scope st)) (skipn base (chd st))) by (eapply Forall_impl; [|exact H4]; intros; eapply itm_itm'; eauto).
        rewrite <- (firstn_skipn (x - base)) in F. now apply Forall_app in F. }
      intros x [Hx|Hx].
      + destruct H2 as [H2|H2]; [congruence|]. rewrite H2 in Hx. injection Hx as <-. split; [assumption|]. now apply I.
      + apply H3 in Hx. split; [lia|]. now apply I.
  Qed.
  Lemma skipn_firstn_app (base n : nat) (C : list tree) nd :
    base <= n -> n <= List.length C ->
    skipn base (firstn n C ++ [nd]) = skipn base (firstn n C) ++ [nd].
  Proof.
    intros H1 H2. rewrite skipn_app. rewrite firstn_length_le by assumption.
    replace (base - n) with 0 by lia. reflexivity.
  Qed.
  Lemma firstn_firstn_app (base n : nat) (C : list tree) l :
    base <= n -> n <= List.length C -> firstn base (firstn n C ++ l) = firstn base C.
  Proof.
    intros H1 H2. rewrite firstn_app, firstn_length_le by assumption.
    replace (base - n) with 0 by lia. simpl. rewrite app_nil_r, firstn_firstn. f_equal. lia.
  Qed.
  Lemma Forall_skipn_firstn {A} (P : A -> Prop) (b n : nat) l : Forall P (skipn b l) -> Forall P (skipn b (firstn n l)).
  Proof.
    intros H. destruct (le_lt_dec b n).
    - rewrite <- (firstn_skipn n l) in H. rewrite skipn_app in H. now apply Forall_app in H.
    - rewrite skipn_all2; [constructor|]. rewrite firstn_length. lia.
  Qed.
  Lemma Forall_firstn {A} (P : A -> Prop) (n : nat) l : Forall P l -> Forall P (firstn n l).
  Proof. intros H. rewrite <- (firstn_skipn n l) in H. now apply Forall_app in H. Qed.
  Lemma Forall_skipn {A} (P : A -> Prop) (n : nat) l : Forall P l -> Forall P (skipn n l).
  Proof. intros H. rewrite <- (firstn_skipn n l) in H. now apply Forall_app in H. Qed.

  (** one element of a list *)
  Lemma LI_step base amp nl st r st' : LI base amp nl st -> cpost st r st' ->
    (p_peek list_pk st = Some Ampersand -> amp = true) -> (p_peek list_pk st = Some NewLine -> nl = true) ->
    LI base amp nl (if r then with_last (Some (List.length (chd st))) st' else st') /\
    LI base amp nl st' /\ lpost base amp nl st st'.
  Proof.
    intros L (P1 & P2 & P3 & P4 & P5 & P6) Ha Hn. pose proof L as (L1 & L2 & L3 & L4 & L5).
    assert (K : base <= List.length (chd st') /\ firstn base (chd st') = firstn base (chd st) /\
       Forall (itm (p_scope st) amp nl) (skipn base (chd st')) /\
       (forall x, p_last st' = Some x -> base <= x <= List.length (chd st')) /\
       (r = true -> List.length (chd st) <= List.length (chd st'))).
    { destruct P6 as [(new & E & F)|(-> & n & ch & nd & Hn1 & _ & Hn2 & Hnd & E & Rs & B1 & B2)]; rewrite E.
      - assert (F' : Forall (itm (p_scope st) amp nl) new).
        { eapply Forall_impl; [|exact F]. intros t. apply itm_weaken; intros X.
          - destruct (p_peek list_pk st) as [[]|]; try discriminate; auto.
          - destruct (p_peek list_pk st) as [[]|]; try discriminate; auto. }
        rewrite app_length. split; [lia|]. split; [|split; [|split]].
        + rewrite firstn_app. replace (base - List.length (chd st)) with 0 by lia. simpl. now rewrite app_nil_r.
        + rewrite skipn_app. replace (base - List.length (chd st)) with 0 by lia. simpl. apply Forall_app. auto.
        + intros x Hx. destruct P4 as [P4|P4]; rewrite P4 in Hx; [discriminate|]. apply L3 in Hx. lia.
        + intros _. lia.
      - assert (Hb : base <= n).
        { destruct Hn1 as [Hs|Hl]; [destruct L2 as [L2|L2]; rewrite L2 in Hs; [discriminate|injection Hs as <-; lia]|].
          apply L3 in Hl. lia. }
        rewrite app_length, firstn_length_le by assumption. simpl. split; [lia|]. split; [|split; [|split]].
        + now apply firstn_firstn_app.
        + rewrite skipn_firstn_app by assumption. apply Forall_app. split; [now apply Forall_skipn_firstn|].
          constructor; [|constructor].
          destruct Hnd as [-> | ->]; (split; [cbn; isin|]; split; [assumption|]; split; intros _; exact I).
        + intros x Hx. split; [|pose proof (B2 _ Hx); lia].
          destruct P4 as [P4|P4]; rewrite P4 in Hx; [discriminate|]. apply L3 in Hx. lia.
        + discriminate. }
    destruct K as (K1 & K2 & K3 & K4 & K5).
    assert (LL : LI base amp nl st').
    { split; [assumption|]. split; [destruct P3 as [P3|P3]; rewrite P3; auto|]. split; [assumption|].
      split; [rewrite P2; assumption|assumption]. }
    split; [|split; [assumption|repeat split; assumption]].
    destruct r; [|assumption]. destruct LL as (M1 & M2 & M3 & M4 & M5).
    split; [assumption|]. split; [assumption|]. split; [|split; assumption].
    simpl. intros x [= <-]. specialize (K5 eq_refl). lia.
  Qed.
  Lemma lpost_trans base amp nl a b c :
    lpost base amp nl a b -> p_scope b = p_scope a -> lpost base amp nl b c -> lpost base amp nl a c.
  Proof.
    intros (A1 & A2 & A3 & A4 & A5 & A6) E (B1 & B2 & B3 & B4 & B5 & B6).
    split; [congruence|]. split; [congruence|]. split; [assumption|]. split; [congruence|].
    split; [rewrite <- E; assumption|assumption].
  Qed.
  Lemma lpost_refl base amp nl st : LI base amp nl st -> lpost base amp nl st st.
  Proof. intros (L1 & L2 & L3 & L4 & L5). repeat split; assumption. Qed.
  (** a list that begins here *)
  Lemma LI_new st s : Forall wf (chd st) -> (s = None \/ s = Some (List.length (chd st))) -> forall sc amp nl,
    LI (List.length (chd st)) amp nl (with_list s None sc st).
  Proof.
    intros H Hs sc amp nl. split; [simpl; lia|]. split; [exact Hs|]. split; [discriminate|].
    split; [simpl; rewrite skipn_all; constructor|assumption].
  Qed.
  Lemma wf_new k ch C : Forall wf C -> Forall wf ch -> node_ok gm sp k ch -> Forall wf (C ++ [Node k ch]).
  Proof.
    intros H1 H2 H3. apply Forall_app. split; [assumption|]. constructor; [|constructor].
    apply every_node. auto.
  Qed.

  (** ** The functions of the parser *)
  Notation leafy P := (Forall (fun t => match t with Leaf k _ => P k | _ => False end)).
  Lemma adds_refl P st : adds P st st.
  Proof. exists []. rewrite app_nil_r. repeat split; constructor. Qed.
  Lemma adds_trans P a b c : adds P a b -> adds P b c -> adds P a c.
  Proof.
    intros (n1 & A1 & A2 & A3 & A4 & A5 & A6) (n2 & B1 & B2 & B3 & B4 & B5 & B6). exists (n1 ++ n2).
    rewrite B1, A1, <- app_assoc. split; [reflexivity|]. split; [apply Forall_app; auto|]. repeat split; congruence.
  Qed.
  Lemma adds_eat (P : kind -> Prop) (st : lpst) : (forall k, p_peek list_pk st = Some k -> P (kind_of_token k)) ->
    wp True True (leat st) (fun st' => adds P st st' /\ p_trivia st' = p_trivia st).
  Proof.
    destruct st as [lx b h s l sc]. unfold eat, lex_eat, p_peek. simpl. destruct lx as [|t ts]; simpl; [intros; exact I|].
    intros H. split; [|reflexivity]. exists [Leaf (kind_of_token (fst t)) (snd t)]. simpl. repeat split.
    constructor; [|constructor]. now apply H.
  Qed.
  Lemma adds_St (P : kind -> Prop) ps sc so lo C st st' : St ps sc so lo C st -> adds P st st' ->
    exists new, leafy P new /\ St ps sc so lo (C ++ new) st'.
  Proof.
    intros (<- & <- & H1 & H2 & <-) (new & A1 & A2 & A3 & A4 & A5 & A6). exists new. split; [assumption|].
    split; [assumption|]. split; [assumption|]. rewrite A5, A6. repeat split; assumption.
  Qed.
  Lemma leafy_wf (P : kind -> Prop) (new : list tree) : leafy P new -> Forall wf new.
  Proof. apply Forall_impl. now intros [k s|k ch]. Qed.
  Lemma leafy_item (P : kind -> Prop) sc (amp nl : bool) (new : list tree) : (forall k, P k -> item_leaf k) ->
    (amp = false -> ~ P TokenAmpersand) -> (nl = false -> ~ P ItemNewLine) ->
    leafy P new -> Forall (itm sc amp nl) new.
  Proof.
    intros H Ha Hn. apply Forall_impl. intros [k s|k ch]; [|contradiction]. intros Hk.
    split; [apply H, Hk|]. split; [intros _; exact I|]. split; intros E; simpl; intros ->; [now apply Ha|now apply Hn].
  Qed.
  Notation triv st := (Forall (fun t => is_trivia (fst t) = true) (p_trivia st)).
  Lemma triv_leaves (h : list tok) : Forall (fun t => is_trivia (fst t) = true) h ->
    leafy (fun k => In k [TokenLineBreak; TokenWhiteSpace; TokenComment])
      (map (fun t => Leaf (kind_of_token (fst t)) (snd t)) h).
  Proof.
    induction 1 as [|t h Ht Hh IHh]; simpl; constructor; auto.
    destruct t as [k s]. simpl in *. destruct k; try discriminate; simpl; auto.
  Qed.
  Lemma tv_item_leaf k : In k [TokenLineBreak; TokenWhiteSpace; TokenComment] -> item_leaf k.
  Proof. intros [<- |[<- |[<- |[]]]]; cbn; isin. Qed.
  Lemma tv_items sc amp nl new : leafy (fun k => In k [TokenLineBreak; TokenWhiteSpace; TokenComment]) new ->
    Forall (itm sc amp nl) new.
  Proof.
    apply leafy_item; [apply tv_item_leaf| |]; intros _ H; simpl in H; intuition discriminate.
  Qed.
  Lemma St_extract ps sc so lo C st : St ps sc so lo C st ->
    St ps sc so lo (C ++ map (fun t => Leaf (kind_of_token (fst t)) (snd t)) (p_trivia st)) (extract_holding_trivia st).
  Proof.
    intros (<- & <- & H1 & H2 & <-). unfold extract_holding_trivia.
    destruct (fold_tokens (p_trivia st) st) as (E1 & E2 & E3 & E4 & E5 & E6 & E7).
    split; [exact E6|]. split; [exact E4|]. simpl. rewrite E2, E3, E7. repeat split; assumption.
  Qed.
  (** a single new element *)
  Lemma itm_node sc amp nl k ch : item_node k -> same_level k = false -> itm sc amp nl (Node k ch).
  Proof.
    intros H E. split; [exact H|]. split; [|split; intros _; exact I].
    intros _. apply rows_node. rewrite E. discriminate.
  Qed.
  Lemma St_cpost r (st st' : lpst) new : Forall wf (chd st) ->
    St (par st) (p_scope st) (p_start st) (p_last st) (chd st ++ new) st' ->
    Forall wf new -> Forall (itm (p_scope st) false false) new -> cpost st r st'.
  Proof.
    intros W (H1 & H2 & H3 & H4 & H5) F1 F2. split; [assumption|]. split; [assumption|].
    split; [assumption|]. split; [assumption|]. rewrite H5. split; [apply Forall_app; auto|].
    left. exists new. split; [assumption|]. eapply Forall_impl; [|exact F2].
    intros t. apply itm_weaken; discriminate.
  Qed.
  Lemma wf_app C new : Forall wf C -> Forall wf new -> Forall wf (C ++ new).
  Proof. intros. apply Forall_app. auto. Qed.
  Lemma wf_leaf k s : wf (Leaf k s). Proof. exact I. Qed.
  Lemma wf_node k ch : node_ok gm sp k ch -> Forall wf ch -> wf (Node k ch).
  Proof. intros. apply every_node. auto. Qed.

  Section Fun.
    Variable rec : lrec.
    Hypothesis IHt : @rspec sp True rec.
    Hypothesis IH : sspec rec.

    Lemma trivia_shape st : p_trivia st = [] ->
      wp True True (trivia_loop list_pk list_nx rec st) (fun x => spost KTrivia st (fst x) (snd x)).
    Proof.
      intros H. unfold trivia_loop. destruct (p_peek list_pk st) as [k|] eqn:E; [|apply adds_refl].
      destruct (is_trivia k) eqn:Ek; [|apply adds_refl].
      apply wp_bind. eapply wp_mono; [apply (adds_eat (fun k => In k [TokenLineBreak; TokenWhiteSpace; TokenComment]))|].
      { intros k' E'. rewrite E in E'. injection E' as <-. destruct k; try discriminate; simpl; auto. }
      intros a [A T]. eapply wp_mono; [apply (IH KTrivia a); split; [simpl; congruence|exact I]|].
      intros [r b] B. eapply adds_trans; eauto.
    Qed.
    Lemma text_shape st : p_trivia st = [] ->
      wp True True (text_loop list_pk list_nx rec st) (fun x => spost KText st (fst x) (snd x)).
    Proof.
      intros H. unfold text_loop. destruct (p_peek list_pk st) as [k|] eqn:E; [|apply adds_refl].
      destruct (is_text_component k) eqn:Ek; [|apply adds_refl].
      apply wp_bind. eapply wp_mono; [apply (adds_eat (fun k => In k [TokenLineBreak; TokenWhiteSpace; TokenComment; TokenWord; TokenComma]))|].
      { intros k' E'. rewrite E in E'. injection E' as <-. destruct k; try discriminate; simpl; auto 6. }
      intros a [A T]. eapply wp_mono; [apply (IH KText a); split; [simpl; congruence|exact I]|].
      intros [r b] B. eapply adds_trans; eauto.
    Qed.
    Lemma adds_drop (st : lpst) : wp True True (drop_ list_pk list_nx st) (fun st' => adds (fun _ => True) st st').
    Proof.
      destruct st as [lx b h s l sc]. unfold drop_, lex_eat. simpl. destruct lx as [|t ts]; simpl;
      (exists []; simpl; rewrite app_nil_r; repeat split; constructor).
    Qed.
    Lemma ifs_shape n st : p_trivia st = [] ->
      wp True True (ifs_loop list_pk list_nx rec n st) (fun x => spost (KIfs n) st (fst x) (snd x)).
    Proof.
      intros H. unfold ifs_loop.
      assert (E : forall n', wp True True (let* st0 := leat st in rec (KIfs n') st0) (fun x => spost (KIfs n) st (fst x) (snd x))).
      { intros n'. apply wp_bind. eapply wp_mono; [apply (adds_eat (fun _ => True)); auto|]. intros a [A T].
        eapply wp_mono; [apply (IH (KIfs n') a); split; [simpl; congruence|exact I]|]. intros [r b] B.
        eapply adds_trans; eauto. }
      destruct (p_peek list_pk st) as [k|]; [|apply adds_refl].
      destruct k; try exact (E n). destruct c; try exact (E n); try exact (E (S n)).
      destruct n as [|n]; [|exact (E n)].
      apply wp_bind. eapply wp_mono; [apply adds_drop|]. intros a Ha. exact Ha.
    Qed.

    Lemma list_shape cur st : p_trivia st = [] -> cur = List.length (chd st) ->
      wp True True (list_loop list_pk rec cur st) (fun x => spost (KList cur) st (fst x) (snd x)).
    Proof.
      intros H Hc. unfold list_loop.
      destruct (p_peek list_pk st) as [k|] eqn:E.
      2:{ intros base L. split; [now apply lpost_refl|]. left. unfold p_peek, list_pk in E. cbn [snd].
          destruct (p_lex st); [reflexivity|discriminate]. }
      destruct (stop_by_scope (p_scope st) k) eqn:Es.
      { intros base L. split; [now apply lpost_refl|]. right. eauto. }
      apply wp_bind.
      destruct (rec (KContent true) st) as [[r a]|?|] eqn:Er; try exact I. cbn [wp].
      pose proof (IHt (KContent true) st H) as T. rewrite Er in T. destruct T as (T & _). simpl in T.
      set (a' := if r then with_last (Some cur) a else a).
      assert (Ta : p_trivia a' = []) by (unfold a'; destruct r; exact T).
      eapply wp_mono; [apply (IH (KList (checkpoint a')) a'); split; [exact Ta|reflexivity]|].
      intros [r' b] B base L. cbn [fst snd] in *.
      pose proof (IH (KContent true) st (conj H (LI_CI _ _ _ _ L))) as S. rewrite Er in S. cbn [wp fst snd] in S.
      destruct (LI_step base true true st r a L S) as (L1 & L2 & L3); auto.
      rewrite <- Hc in L1. fold a' in L1. destruct (B base L1) as [B1 B2].
      assert (Sc : p_scope a' = p_scope st) by (destruct L3 as (_ & -> & _) || (unfold a'; destruct r; apply L3)).
      split.
      - apply (lpost_trans base true true st a' b); [|exact Sc|exact B1].
        unfold a'. destruct r; exact L3.
      - rewrite Sc in B2. exact B2.
    Qed.
    Lemma item_list_shape sc ps sc0 so lo C st : St ps sc0 so lo C st -> p_trivia st = [] -> Forall wf C ->
      wp True True (item_list rec sc st) (fun st' => exists body,
        Forall (itm sc true true) body /\ Forall wf body /\ St ps sc0 so lo (C ++ body) st' /\
        (p_lex st' = [] \/ exists k, p_peek list_pk st' = Some k /\ stop_by_scope sc k = true)).
    Proof.
      intros (<- & <- & H1 & H2 & <-) T W. unfold item_list. cbv zeta. apply wp_bind. unfold rec_. apply wp_bind.
      eapply wp_mono; [apply (IH (KList (checkpoint st)) (with_list (Some (checkpoint st)) None sc st)); split; [exact T|reflexivity]|].
      intros [r a] A. cbn [wp]. specialize (A (List.length (chd st)) (LI_new st _ W (or_intror eq_refl) sc true true)).
      destruct A as ((A1 & A2 & A3 & A4 & A5 & A6) & A7). cbn [fst snd p_scope p_b p_lex with_list] in *.
      exists (skipn (List.length (chd st)) (chd a)).
      rewrite firstn_all in A4. split; [assumption|]. split; [now apply Forall_skipn|]. split.
      - split; [assumption|]. split; [reflexivity|]. split; [assumption|]. split; [assumption|].
        cbn. rewrite <- (firstn_skipn (List.length (chd st)) (chd a)) at 1. now rewrite A4.
      - exact A7.
    Qed.
    Lemma St_eat_if k ps sc so lo C st : St ps sc so lo C st ->
      wp True True (eat_if_ list_pk list_nx k st) (fun st' => exists s close,
        optional (Leaf (kind_of_token k) s) close /\ St ps sc so lo (C ++ close) st').
    Proof.
      intros H. unfold eat_if_. assert (N : exists s close, optional (Leaf (kind_of_token k) s) close /\ St ps sc so lo (C ++ close) st).
      { exists [], []. rewrite app_nil_r. split; [now left|assumption]. }
      destruct (p_peek list_pk st) as [k'|] eqn:E; [|exact N]. destruct (token_eqb k' k) eqn:Ek; [|exact N].
      unfold token_eqb in Ek. destruct (token_eq_dec k' k) as [->|]; [|discriminate].
      eapply wp_mono; [exact (St_eat _ _ _ _ _ _ H)|]. intros a (t & Et & _ & Ha).
      unfold p_peek, list_pk in E. rewrite Et in E. cbn in E. injection E as E. rewrite E in Ha.
      exists (snd t), [Leaf (kind_of_token k) (snd t)]. split; [now right|assumption].
    Qed.
    Lemma peek_cons (st : lpst) k : p_peek list_pk st = Some k -> exists s ts, p_lex st = (k, s) :: ts.
    Proof.
      unfold p_peek, list_pk. destruct (p_lex st) as [|[k' s] ts]; [discriminate|]. simpl. intros [= ->]. eauto.
    Qed.

    Definition group_of (sc : scope) : option (token * kind) :=
      match sc with
      | CurlyItem => Some (TLeft Curly, ItemCurly)
      | BracketItem => Some (TLeft Bracket, ItemBracket)
      | ParenItem => Some (TLeft Paren, ItemParen)
      | DollarFormula => Some (Dollar, ItemFormula)
      | CmdFormula => Some (CommandName BeginMath, ItemFormula)
      | _ => None
      end.
    Lemma item_group_shape sc k g ps sc0 so lo C st : St ps sc0 so lo C st -> p_trivia st = [] -> Forall wf C ->
      group_of sc = Some (k, g) -> p_peek list_pk st = Some k ->
      wp True True (item_group list_pk list_nx rec sc st) (fun st' => exists ch,
        wf (Node g ch) /\ St ps sc0 so lo (C ++ [Node g ch]) st').
    Proof.
      intros H T W Hg Hp. unfold item_group. apply wp_bind. destruct (peek_cons _ _ Hp) as (s & ts & El).
      assert (K : forall e, opening g (kind_of_token k) (kind_of_token e) ->
        wp True True (let* st0 := leat (start_node g st) in
         let* st1 := item_list rec sc st0 in let* st2 := eat_if_ list_pk list_nx e st1 in finish_node st2)
         (fun st' => exists ch, wf (Node g ch) /\ St ps sc0 so lo (C ++ [Node g ch]) st')).
      { intros e O. apply wp_bind.
        eapply wp_mono; [exact (St_eat_at (k, s) ts _ _ _ _ _ _ (St_start g _ _ _ _ _ _ H) El)|].
        intros a (Ta & _ & Ha). cbn [fst snd] in Ha.
        apply wp_bind. eapply wp_mono; [eapply (item_list_shape sc _ _ _ _ _ a Ha)|].
        { rewrite Ta. exact T. } { apply wf_app; [assumption|repeat constructor]. }
        intros b (body & B1 & B2 & B3 & _).
        apply wp_bind. eapply wp_mono; [exact (St_eat_if e _ _ _ _ _ _ B3)|]. intros c (s' & close & Ec & Hc).
        rewrite <- !app_assoc in Hc.
        eapply wp_mono; [exact (St_finish _ _ _ _ _ _ _ _ Hc)|]. intros d (_ & _ & D).
        exists ([Leaf (kind_of_token k) s] ++ body ++ close). split; [|exact D].
        apply wf_node.
        - cbn [app]. apply (ok_group gm sp g (kind_of_token k) (kind_of_token e) s s'); auto. eapply Forall_item; eauto.
        - cbn [app]. constructor; [exact I|]. apply Forall_app. split; [assumption|].
          destruct Ec as [-> | ->]; repeat constructor. }
      destruct sc; try discriminate; injection Hg as <- <-; cbn [wp]; apply K; cbn; isin.
    Qed.
    Lemma p_text_shape ps sc so lo C st k : St ps sc so lo C st -> p_trivia st = [] ->
      p_peek list_pk st = Some k -> k = Word \/ k = Comma ->
      wp True True (p_text list_pk list_nx rec st) (fun st' => exists ch,
        wf (Node ItemText ch) /\ St ps sc so lo (C ++ [Node ItemText ch]) st').
    Proof.
      intros H T Hp Hk. unfold p_text. cbv zeta. destruct (peek_cons _ _ Hp) as (s & ts & El).
      apply wp_bind. eapply wp_mono; [exact (St_eat_at (k, s) ts _ _ _ _ _ _ (St_start ItemText _ _ _ _ _ _ H) El)|].
      intros a (Ta & _ & Ha). cbn [fst snd] in Ha.
      unfold rec_. apply wp_bind. apply wp_bind. eapply wp_mono; [apply (IH KText a); split; [simpl; rewrite Ta; exact T|exact I]|].
      intros [r b] B. cbn [wp]. destruct (adds_St _ _ _ _ _ _ _ _ Ha B) as (new & N1 & N2). cbn [fst snd] in *.
      rewrite <- app_assoc in N2.
      eapply wp_mono; [exact (St_finish _ _ _ _ _ _ _ _ N2)|]. intros d (_ & _ & D).
      eexists. split; [|exact D]. cbn [app]. apply wf_node.
      - apply ok_text; [destruct Hk as [-> | ->]; cbn; isin|exact N1].
      - constructor; [exact I|]. exact (leafy_wf _ _ N1).
    Qed.

    (** *** matching arguments *)
    Lemma mstate_step p m cs c m' : mstate p m cs -> try_match gm m c = (true, m') -> mstate p m' (cs ++ [c]).
    Proof.
      intros H E. assert (A : forall n, (m = AMNone \/ m = AMAtMost n (N.of_nat (List.length cs))) /\
         Forall (eq ARG_TERM) cs /\ (N.of_nat (List.length cs) <= n)%N ->
         (m' = AMNone \/ m' = AMAtMost n (N.of_nat (List.length (cs ++ [c])))) /\
         Forall (eq ARG_TERM) (cs ++ [c]) /\ (N.of_nat (List.length (cs ++ [c])) <= n)%N).
      { intros n ([-> | ->] & F & L); [discriminate|]. unfold try_match in E.
        destruct (N.eqb_spec c ARG_TERM) as [->|]; [|discriminate]. cbn [negb] in E.
        injection E as E <-. apply N.ltb_lt in E. rewrite app_length. simpl.
        split; [right; f_equal; lia|]. split; [apply Forall_app; auto|lia]. }
      destruct p; cbn [mstate] in *; try (apply A; exact H); try contradiction; clear A.
      - destruct H as [H1 H2]. subst m. discriminate.
      - destruct H as [H1 Ha]. subst m. unfold try_match in E. cbv zeta in E. injection E as E <-. split; [reflexivity|].
        simpl. intros a b Eab Hna. destruct b as [|x b] using rev_ind.
        + rewrite app_nil_r in Eab. now subst a.
        + clear IHb. rewrite app_assoc in Eab. apply app_inj_tail in Eab. destruct Eab as [Eab _].
          exact (Ha a b Eab Hna).
    Qed.
    Lemma mstate_not_greedy p m cs : mstate p m cs -> is_greedy m = false.
    Proof. destruct p; simpl; intros H; decompose [and or] H; subst; try reflexivity; contradiction. Qed.
    (** a bracket taken as an argument *)
    Lemma mstate_left p m cs c modi m' : mstate p m cs -> In c [ARG_TERM; ARG_BRACKET; ARG_PAREN] ->
      match_as_term gm m c = (Some modi, m') ->
      (modi = true /\ c <> ARG_TERM /\ mstate p m' (cs ++ [ARG_TERM])) \/ (modi = false /\ mstate p m' (cs ++ [c])).
    Proof.
      intros H Hc E. pose proof (mstate_not_greedy _ _ _ H) as G. destruct m as [|mx ct| |re pre]; try discriminate.
      - unfold match_as_term in E. destruct (try_match gm (AMAtMost mx ct) ARG_TERM) as [ok m2] eqn:Et.
        destruct ok; [|discriminate]. injection E as <- <-. pose proof (mstate_step _ _ _ _ _ H Et) as S.
        destruct (N.eqb_spec c ARG_TERM) as [->|]; cbn [negb]; auto.
      - unfold match_as_term in E. destruct (try_match gm (AMGlob re pre) c) as [ok m2] eqn:Et.
        destruct ok; [|discriminate]. injection E as <- <-. right. split; [reflexivity|].
        exact (mstate_step _ _ _ _ _ H Et).
    Qed.
    Lemma mstate_start p : is_greedy (start_match p) = false -> mstate p (start_match p) [].
    Proof.
      destruct p; simpl; intros H; auto; try discriminate.
      - destruct (N.eqb_spec len 0); simpl in *; repeat split; auto; lia.
      - destruct (N.eqb_spec max 0); simpl in *; repeat split; auto; lia.
      - split; [reflexivity|]. intros a b E Ha. apply eq_sym, app_eq_nil in E. destruct E. contradiction.
    Qed.

    (** the state of [KMatch false] after an argument *)
    Lemma arg_shape_ (f : lpst -> lpres) (st : lpst) (body : list tree -> Prop) :
      p_start st = None -> p_last st = None ->
      (forall ps sc C s, St ps sc None None C s -> p_trivia s = [] -> C = chd st -> sc = p_scope st -> p_lex s = p_lex st ->
         wp True True (f s) (fun x => exists ch, body ch /\ St ps sc None None (C ++ ch) (snd x))) ->
      wp True True (p_arg false f st) (fun x => exists ch, body ch /\
        St (par st) (p_scope st) None None (chd st ++ [Node ClauseArgument ch]) (snd x)).
    Proof.
      intros H1 H2 Hf. unfold p_arg. cbv zeta. apply wp_bind.
      assert (S0 : St (par st) (p_scope st) None None (chd st) (ignore_holding_trivia st)).
      { repeat split; simpl; rewrite ?H1, ?H2; now left. }
      eapply wp_mono; [apply (Hf _ _ _ _ (St_start ClauseArgument _ _ _ _ _ _ S0)); reflexivity|].
      intros [r a] (ch & B & A). cbn [snd] in A. apply wp_bind.
      eapply wp_mono; [exact (St_finish _ _ _ _ _ _ _ _ A)|]. intros b (_ & _ & Hb). cbn [wp snd]. eauto.
    Qed.
    Lemma St_none ps sc C st : St ps sc None None C st -> p_start st = None /\ p_last st = None.
    Proof. intros (_ & _ & [H1|H1] & [H2|H2] & _); auto. Qed.

    (** what the arguments added so far look like *)
    Definition args_done (p : arg_pattern) (cs : text) (st : lpst) (args : list tree) (m : matcher) (st' : lpst) : Prop :=
      St (par st) (p_scope st) None None (chd st ++ args) st' /\
      Forall right_argument args /\ Forall (row_safe (p_scope st)) args /\ Forall wf args /\
      mstate p m (cs ++ map argument_kind args).
    Lemma arg_term_row sc ch : Forall (row_safe sc) ch -> row_safe sc (Node ClauseArgument ch).
    Proof.
      intros H E. apply rows_node. intros _. split; [discriminate|]. eapply Forall_impl; [|exact H]. intros t Ht. now apply Ht.
    Qed.
    Lemma items_kind ch : Forall item ch -> argument_kind (Node ClauseArgument ch) = ARG_TERM.
    Proof.
      intros H. destruct ch as [|[k s|k c] [|? ?]]; try reflexivity; inversion_clear H as [|? ? Hi _];
      destruct k; try reflexivity; exfalso; cbn in Hi; intuition discriminate.
    Qed.
    Lemma ok_arg_items ch : Forall item ch -> node_ok gm sp ClauseArgument ch.
    Proof. intros H. apply ok_arg. eapply Forall_impl; [|exact H]. auto. Qed.

    Lemma mstate_allowed p m cs : mstate p m cs -> allowed gm p cs.
    Proof. destruct p; simpl; intuition. Qed.
    Lemma word_args_shape p s : forall m cs cnt st, mstate p m cs ->
      p_start st = None -> p_last st = None ->
      wp True True (word_args gm s m cnt st) (fun x => let '(stopped, m', _, st') := x in
        exists args, St (par st) (p_scope st) None None (chd st ++ args) st' /\
          Forall right_argument args /\ Forall (row_safe (p_scope st)) args /\ Forall wf args /\
          allowed gm p (cs ++ map argument_kind args) /\
          (stopped = false -> mstate p m' (cs ++ map argument_kind args))).
    Proof.
      induction s as [|c s IHs]; intros m cs cnt st H H1 H2; cbn [word_args].
      { cbn [wp]. exists []. simpl. rewrite !app_nil_r. split; [repeat split; rewrite ?H1, ?H2; now left|].
        repeat split; auto. eapply mstate_allowed; eauto. }
      destruct (try_match gm m ARG_TERM) as [ok m'] eqn:Em. destruct ok; cbn [negb].
      2:{ cbn [wp]. exists []. simpl. rewrite !app_nil_r. split; [repeat split; rewrite ?H1, ?H2; now left|].
        repeat split; auto; [eapply mstate_allowed; eauto|discriminate]. }
      apply wp_bind.
      eapply wp_mono; [apply (arg_shape_ _ st (fun ch => ch = [Leaf TokenWord [c]]) H1 H2)|].
      { intros ps sc C s0 (<- & <- & S1 & S2 & S3) _ _ _ _. cbn [wp]. eexists. split; [reflexivity|].
        cbn [snd]. repeat split; try assumption. cbn. now rewrite S3. }
      intros [r a] (ch & -> & A). cbn [snd] in A. pose proof (St_none _ _ _ _ A) as [N1 N2].
      pose proof A as (A1 & A2 & _ & _ & A5).
      eapply wp_mono; [apply (IHs m' (cs ++ [ARG_TERM]) _ a (mstate_step _ _ _ _ _ H Em) N1 N2)|].
      intros [[[stopped m2] cnt'] st'] (args & B1 & B2 & B3 & B4 & B5 & B6).
      rewrite A1, A2, A5, <- app_assoc in B1. rewrite <- app_assoc in B5, B6. rewrite A2 in B3.
      exists (Node ClauseArgument [Leaf TokenWord [c]] :: args). split; [exact B1|].
      split; [constructor; [constructor; [discriminate|constructor]|assumption]|]. split; [constructor; [|assumption]|].
      { apply arg_term_row. repeat constructor. }
      split; [constructor; [|assumption]|split; [exact B5|exact B6]].
      apply wf_node; [|constructor; [exact I|constructor]]. apply ok_arg_items. constructor; [cbn; isin|constructor].
    Qed.

    Lemma wp_forall {A B} (x : res A) (Q : B -> A -> Prop) :
      (forall b, wp True True x (Q b)) -> wp True True x (fun a => forall b, Q b a).
    Proof. destruct x; simpl; auto. Qed.

    Lemma content_none (st : lpst) : p_trivia st = [] -> p_start st = None -> p_last st = None -> Forall wf (chd st) ->
      p_peek list_pk st <> Some Ampersand ->
      wp True True (rec (KContent true) st) (fun x => exists ch,
        ((Forall item ch /\ Forall (not_leaf TokenAmpersand) ch) /\ Forall (row_safe (p_scope st)) ch /\ Forall wf ch) /\
        St (par st) (p_scope st) None None (chd st ++ ch) (snd x)).
    Proof.
      intros T H1 H2 W Hamp. eapply wp_mono; [apply (IH (KContent true) st); split; [exact T|]|].
      { split; [rewrite H1; discriminate|]. split; [rewrite H1, H2; intros x [?|?]; discriminate|exact W]. }
      intros [r a] (A1 & A2 & A3 & A4 & A5 & A6). cbn [fst snd] in *.
      destruct A6 as [(ch & E & F)|(_ & n & ch & nd & [Hn|Hn] & _)]; [|congruence|congruence].
      exists ch. split.
      - split; [split; [eapply Forall_item; eauto|]|].
        { eapply Forall_impl; [|exact F]. intros t (_ & _ & Ht & _). apply Ht.
          destruct (p_peek list_pk st) as [[]|]; try reflexivity. now contradiction Hamp. }
        split; [eapply Forall_impl; [|exact F]; intros t Ht; apply Ht|].
        rewrite E in A5. now apply Forall_app in A5.
      - rewrite H1 in A3. rewrite H2 in A4. repeat split; assumption.
    Qed.

    Lemma match_shape_false m cur st : triv st -> p_start st = None -> p_last st = None -> Forall wf (chd st) ->
      wp True True (match_loop list_pk list_nx list_set gm rec false m cur st)
        (fun x => spost (KMatch false m cur) st (fst x) (snd x)).
    Proof.
      intros T H1 H2 W. apply wp_forall. intros p. apply wp_forall. intros cs. apply wp_intro. intros x Ex M.
      revert x Ex. cut (wp True True (match_loop list_pk list_nx list_set gm rec false m cur st) (fun x => mpost p cs st (snd x))).
      { intros HW x Ex. exact (wp_ok _ _ _ HW Ex). }
      assert (Sself : St (par st) (p_scope st) None None (chd st) st).
      { repeat split; rewrite ?H1, ?H2; now left. }
      assert (Stop : mpost p cs st st).
      { exists []. simpl. rewrite !app_nil_r. repeat split; auto; try (rewrite ?H1, ?H2; now left).
        eapply mstate_allowed; eauto. }
      assert (Back : forall m' cur' a args, args_done p cs st args m' a -> triv a ->
        wp True True (rec (KMatch false m' cur') a) (fun x => mpost p cs st (snd x))).
      { intros m' cur' a args (A1 & A2 & A3 & A4 & A5) Ta. pose proof (St_none _ _ _ _ A1) as [N1 N2].
        pose proof A1 as (P1 & P2 & _ & _ & P5).
        eapply wp_mono; [apply (IH (KMatch false m' cur') a); split; [exact Ta|]|].
        { split; [exact N1|]. split; [exact N2|]. rewrite P5. now apply wf_app. }
        intros [r b] B. destruct (B p _ A5) as (args' & B1 & B2 & B3 & B4 & B5). cbn [fst snd] in *.
        exists (args ++ args'). rewrite P1, P2, P5, <- app_assoc in B1. rewrite P2 in B3.
        split; [exact B1|]. split; [apply Forall_app; split; assumption|]. split; [apply Forall_app; split; assumption|].
        split; [apply Forall_app; split; assumption|]. rewrite map_app, app_assoc. exact B5. }
      assert (One : forall m' cur' k g a, St (par st) (p_scope st) None None (chd st ++ [Node ClauseArgument g]) a ->
        argument_kind (Node ClauseArgument g) = k -> Forall (not_leaf TokenAmpersand) g -> row_safe (p_scope st) (Node ClauseArgument g) ->
        wf (Node ClauseArgument g) -> mstate p m' (cs ++ [k]) -> triv a ->
        wp True True (rec (KMatch false m' cur') a) (fun x => mpost p cs st (snd x))).
      { intros m' cur' k g a A <- Na R Wg Mg Ta. apply (Back _ _ a [Node ClauseArgument g]); [|assumption].
        repeat split; try apply A; try (constructor; [assumption|constructor]).
        - exact Mg. }
      assert (Rest : forall k, p_peek list_pk st = Some k -> k <> Ampersand -> wp True True
        (if stop_by_scope (p_scope st) k then Ok (true, st)
         else let '(ok, m0) := try_match gm m ARG_TERM in
              if negb ok then Ok (true, st)
              else let* (attachable, st0) := p_arg false (rec (KContent true)) st in
                   rec (KMatch false m0 cur) (if false && attachable then with_last (Some cur) st0 else st0))
        (fun x => mpost p cs st (snd x))).
      { intros k Hpk Hamp. destruct (stop_by_scope _ k); [exact Stop|].
        destruct (try_match gm m ARG_TERM) as [ok m0] eqn:Em. destruct ok; [|exact Stop]. cbn [negb].
        apply wp_bind. eapply wp_mono.
        { apply wp_and.
          - apply (arg_shape_ _ st (fun ch => (Forall item ch /\ Forall (not_leaf TokenAmpersand) ch) /\ Forall (row_safe (p_scope st)) ch /\ Forall wf ch) H1 H2).
            intros ps sc C s Hs Ts Ec Esc Elx. pose proof (St_none _ _ _ _ Hs) as [N1 N2]. pose proof Hs as (<- & <- & _ & _ & <-).
            rewrite <- Esc. apply content_none; auto; [rewrite Ec; exact W|].
            unfold p_peek in Hpk |- *. rewrite Elx, Hpk. congruence.
          - apply (p_arg_spec (sp := sp) (takes := True) false _ st T). intros s Hs. now apply content_step. }
        intros [r a] [(ch & ((F1 & F0) & F2 & F3) & A) [Ta _]]. cbn [snd andb] in *.
        apply (One m0 cur ARG_TERM ch a A); auto.
        - now apply items_kind.
        - now apply arg_term_row.
        - apply wf_node; [now apply ok_arg_items|assumption].
        - exact (mstate_step _ _ _ _ _ M Em).
        - now apply nil_triv. }
      unfold match_loop. cbv zeta.
      unfold list_pk. destruct (p_lex st) as [|[k s] ts] eqn:El; cbn [hd_error]; [exact Stop|].
      assert (Triv : is_trivia k = true -> wp True True
        (let* st0 := hold_trivia list_pk list_nx st in rec (KMatch false m cur) st0) (fun x => mpost p cs st (snd x))).
      { intros Hk. apply wp_bind. eapply wp_mono; [apply wp_and; [exact (hold_spec (sp := sp) (takes := True) st (k, s) ts El Hk T)|]|].
        - instantiate (1 := fun a => St (par st) (p_scope st) None None (chd st) a).
          unfold hold_trivia, lex_eat, list_pk. rewrite El. cbn. repeat split; rewrite ?H1, ?H2; now left.
        - intros a [[H3 _] H4]. apply (Back _ _ a []); [|assumption].
          repeat split; rewrite ?app_nil_r; try apply H4; try constructor. exact M. }
      assert (Pk : p_peek list_pk st = Some k) by (unfold p_peek, list_pk; rewrite El; reflexivity).
      destruct k; try (refine (Rest _ Pk _); discriminate); try exact Stop; try (apply Triv; reflexivity).
      - (* TLeft *)
        destruct (match b with Curly => _ | Bracket => _ | Paren => _ end) as [encoded sc] eqn:Eb.
        destruct (match_as_term gm m encoded) as [r m'] eqn:Em. destruct r as [modi|]; [|exact Stop].
        apply wp_bind.
        assert (Enc : In encoded [ARG_TERM; ARG_BRACKET; ARG_PAREN]) by (destruct b; injection Eb as <- <-; cbn; auto).
        pose proof (mstate_left _ _ _ _ _ _ M Enc Em) as ML.
        eapply wp_mono.
        { apply wp_and; [|apply (p_arg_spec (sp := sp) (takes := True) false _ st T)].
          - apply (arg_shape_ _ st (fun ch =>
              if modi then exists k s, ch = [Leaf k s] /\ (k = TokenLBracket \/ k = TokenLParen)
              else exists g c, ch = [Node g c] /\ wf (Node g c) /\
                (g = ItemCurly /\ encoded = ARG_TERM \/ g = ItemBracket /\ encoded = ARG_BRACKET \/ g = ItemParen /\ encoded = ARG_PAREN)) H1 H2).
            intros ps sc0 C s0 Hs Ts Ec Esc Elx. apply wp_bind.
            pose proof (eq_trans Elx El) as El0.
            destruct modi.
            + eapply wp_mono; [exact (St_eat_at _ _ _ _ _ _ _ _ Hs El0)|]. intros a (_ & _ & A). cbn [wp snd fst] in *.
              eexists. split; [|exact A]. eexists _, s. split; [reflexivity|].
              destruct ML as [(_ & X & _)|(X & _)]; [|discriminate].
              destruct b; injection Eb as <- <-; cbn; auto; contradiction.
            + assert (G : group_of sc = Some (TLeft b, match b with Curly => ItemCurly | Bracket => ItemBracket | Paren => ItemParen end)).
              { destruct b; injection Eb as <- <-; reflexivity. }
              eapply wp_mono; [eapply (item_group_shape sc _ _ _ _ _ _ _ s0 Hs Ts ltac:(rewrite Ec; exact W) G)|].
              { unfold p_peek, list_pk. rewrite El0. reflexivity. }
              intros a (ch & Wc & A). cbn [wp snd]. eexists. split; [|exact A].
              eexists _, ch. split; [reflexivity|]. split; [exact Wc|]. destruct b; injection Eb as <- <-; auto.
          - intros s0 Hs. apply wp_bind. destruct modi.
            + eapply wp_mono; [exact (eat_spec (sp := sp) (takes := True) s0 Hs)|]. intros a [Ha _]. cbn [wp snd]. now apply eats_step.
            + eapply wp_mono; [exact (item_group_spec rec IHt sc s0 Hs)|]. intros a Ha. cbn [wp snd]. now apply eats_step. }
        intros [r a] [(ch & B & A) [Ta _]]. cbn [snd] in *. apply nil_triv in Ta.
        destruct modi.
        + destruct B as (k & s0 & -> & Hk). destruct ML as [(_ & _ & ML)|(X & _)]; [|discriminate].
          apply (One m' cur ARG_TERM _ a A); auto.
          * constructor; [destruct Hk as [-> | ->]; discriminate|constructor].
          * apply arg_term_row. repeat constructor.
          * apply wf_node; [|repeat constructor]. apply ok_arg_items. constructor; [|constructor].
            destruct Hk as [-> | ->]; cbn; isin.
        + destruct ML as [(X & _)|(_ & ML)]; [discriminate|].
          destruct B as (g & c & -> & Wg & Hg).
          apply (One m' cur encoded _ a A); auto.
          * destruct Hg as [[-> ->]|[[-> ->]|[-> ->]]]; reflexivity.
          * constructor; [exact I|constructor].
          * apply arg_term_row. constructor; [|constructor]. intros _. apply rows_node.
            destruct Hg as [[-> _]|[[-> _]|[-> _]]]; discriminate.
          * apply wf_node; [|constructor; [exact Wg|constructor]].
            destruct Hg as [[-> _]|[[-> _]|[-> _]]]; [|apply ok_arg_bracket|apply ok_arg_paren].
            apply ok_arg_items. constructor; [cbn; isin|constructor].
      - (* Word *)
        apply wp_bind. eapply wp_mono; [apply wp_and; [exact (word_args_spec gm s m 0 st T)|exact (word_args_shape p s m cs 0 st M H1 H2)]|].
        intros [[[stopped m'] cnt] a] [(u & v & Hs & Hcnt & Hl & Hlv & Ht & Hst) (args & A1 & A2 & A3 & A4 & A5 & A6)].
        simpl in Hcnt. subst cnt. apply wp_bind.
        assert (K : wp True True (if Nat.ltb 0 (blen u) then lex_consume (@hd_error tok) list_nx list_set (blen u) a else Ok a)
                     (fun st' => triv st' /\ St (par st) (p_scope st) None None (chd st ++ args) st')).
        { destruct u as [|c u].
          - cbn [blen]. simpl. split; [rewrite Ht; exact T|exact A1].
          - destruct (Nat.ltb_spec 0 (blen (c :: u))) as [_|Hb]; [|simpl in Hb; pose proof (utf8_len_pos c); lia].
            assert (El2 : p_lex a = (Word, (c :: u) ++ v) :: ts) by (rewrite Hl, El, Hs; reflexivity).
            eapply wp_mono; [exact (consume_spec a (c :: u) v ts El2)|]. intros st' ->.
            split; [simpl; rewrite Ht; constructor|exact A1]. }
        eapply wp_mono; [exact K|]. intros st' [Ht' Hr]. destruct stopped.
        + cbn [wp snd]. exists args. repeat split; try apply Hr; assumption.
        + apply (Back _ _ st' args); [|assumption]. repeat split; try apply Hr; auto.
    Qed.

    Lemma match_shape_true m cur st : p_trivia st = [] ->
      wp True True (match_loop list_pk list_nx list_set gm rec true m cur st)
        (fun x => spost (KMatch true m cur) st (fst x) (snd x)).
    Proof.
      intros T. apply wp_forall. intros G. destruct m; try discriminate. clear G.
      apply wp_forall. intros base. apply wp_forall. intros L.
      set (nl := nl_ok st) in *.
      assert (Stop : lpost base false nl st st) by (now apply lpost_refl).
      pose proof L as (_ & _ & _ & _ & W).
      assert (Back : forall r a cur', cpost st r a -> p_trivia a = [] ->
        p_peek list_pk st <> Some Ampersand -> (p_peek list_pk st = Some NewLine -> nl = true) ->
        wp True True (rec (KMatch true AMGreedy cur') (if r then with_last (Some (List.length (chd st))) a else a))
          (fun x => lpost base false nl st (snd x))).
      { intros r a cur' A Ta Pa Pn. destruct (LI_step base false nl st r a L A) as (L1 & L2 & L3); [intros; contradiction|exact Pn|].
        set (a' := if r then _ else a) in *.
        assert (Sc : p_scope a' = p_scope st) by (unfold a'; destruct r; apply L3).
        assert (Nl : nl_ok a' = nl) by (unfold nl, nl_ok; now rewrite Sc).
        eapply wp_mono; [apply (IH (KMatch true AMGreedy cur') a'); split; [unfold a'; destruct r; exact Ta|exact I]|].
        intros [r' b] B. cbn [fst snd] in *. specialize (B eq_refl base). rewrite Nl in B. specialize (B L1).
        apply (lpost_trans base false nl st a' b); [unfold a'; destruct r; exact L3|exact Sc|exact B]. }
      assert (Rest : forall k, p_peek list_pk st = Some k -> k <> Ampersand -> (k = NewLine -> nl = true) -> wp True True
        (if stop_by_scope (p_scope st) k then Ok (true, st)
         else let '(ok, m0) := try_match gm AMGreedy ARG_TERM in
              if negb ok then Ok (true, st)
              else let* (attachable, st0) := p_arg true (rec (KContent true)) st in
                   rec (KMatch true m0 (checkpoint st)) (if true && attachable then with_last (Some (checkpoint st)) st0 else st0))
        (fun x => lpost base false nl st (snd x))).
      { intros k Ek Ka Kn. destruct (stop_by_scope _ k); [exact Stop|]. cbn [try_match negb p_arg].
        apply wp_bind. eapply wp_mono; [apply wp_and; [exact (IH (KContent true) st (conj T (LI_CI _ _ _ _ L)))|exact (content_step rec IHt true st T)]|].
        intros [r a] [A [Ta _]]. cbn [fst snd andb] in *. apply Back; auto; rewrite Ek; [congruence|intros [= ->]; auto]. }
      unfold match_loop. cbv zeta.
      unfold list_pk. destruct (p_lex st) as [|[k s] ts] eqn:El; cbn [hd_error]; [exact Stop|].
      assert (Pk : p_peek list_pk st = Some k) by (unfold p_peek, list_pk; rewrite El; reflexivity).
      assert (Triv : is_trivia k = true -> wp True True
        (let* st0 := leat st in rec (KMatch true AMGreedy cur) st0) (fun x => lpost base false nl st (snd x))).
      { intros Hk. apply wp_bind. eapply wp_mono; [exact (St_eat_at _ _ _ _ _ _ _ _ (St_self st) El)|].
        intros a (Ta & _ & A). cbn [fst snd] in A. apply (Back false a cur).
        - eapply St_cpost; [exact W|exact A|repeat constructor|]. constructor; [|constructor].
          destruct k; try discriminate; (split; [cbn; isin|split; [intros _; exact I|split; intros _; discriminate]]).
        - congruence.
        - destruct k; try discriminate; rewrite Pk; discriminate.
        - destruct k; try discriminate; rewrite Pk; discriminate. }
      assert (R : k <> Ampersand -> k <> NewLine -> wp True True
        (if stop_by_scope (p_scope st) k then Ok (true, st)
         else let '(ok, m0) := try_match gm AMGreedy ARG_TERM in
              if negb ok then Ok (true, st)
              else let* (attachable, st0) := p_arg true (rec (KContent true)) st in
                   rec (KMatch true m0 (checkpoint st)) (if true && attachable then with_last (Some (checkpoint st)) st0 else st0))
        (fun x => lpost base false nl st (snd x))).
      { intros K1 K2. apply Rest; [exact Pk|exact K1|]. intros E. contradiction (K2 E). }
      destruct k; try exact Stop; try (apply Triv; reflexivity); try (apply R; discriminate).
      - (* TLeft *)
        assert (Pn : p_peek list_pk st = Some NewLine -> nl = true) by (rewrite Pk; discriminate).
        assert (Pa : p_peek list_pk st <> Some Ampersand) by (rewrite Pk; discriminate).
        assert (D : forall e g sc, group_of sc = Some (TLeft b, g) -> item_node g \/ e <> ARG_TERM ->
           (e <> ARG_TERM -> b <> Curly) -> item_node g \/ negb (N.eqb e ARG_TERM) = true ->
           (negb (N.eqb e ARG_TERM) = false -> same_level g = false) ->
           wp True True (let* (_, st0) := p_arg true (fun st0 => let* st1 := (if negb (N.eqb e ARG_TERM) then leat st0 else item_group list_pk list_nx rec sc st0) in Ok (true, st1)) st in
             rec (KMatch true AMGreedy (checkpoint st)) (with_last (Some (checkpoint st)) st0))
           (fun x => lpost base false nl st (snd x))).
        { intros e g sc Hg Hi Hc Hi2 Hs. cbn [p_arg]. apply wp_bind. apply wp_bind.
          destruct (N.eqb_spec e ARG_TERM) as [->|Ne]; cbn [negb] in *.
          - eapply wp_mono; [apply wp_and; [exact (item_group_shape sc _ _ _ _ _ _ _ st (St_self st) T W Hg Pk)|exact (item_group_spec rec IHt sc st T)]|].
            intros a [(ch & Wc & A) (Ta & _)]. cbn [wp]. apply (Back true a); auto.
            eapply St_cpost; [exact W|exact A|constructor; [exact Wc|constructor]|].
            constructor; [|constructor]. apply itm_node; [destruct Hi2; [assumption|discriminate]|auto].
          - eapply wp_mono; [exact (St_eat_at _ _ _ _ _ _ _ _ (St_self st) El)|]. intros a (Ta & _ & A). cbn [wp fst snd] in *.
            apply (Back true a); auto; [|congruence].
            eapply St_cpost; [exact W|exact A|repeat constructor|]. constructor; [|constructor].
            specialize (Hc Ne). destruct b; [contradiction| |]; (split; [cbn; isin|split; [intros _; exact I|split; intros _; discriminate]]). }
        destruct b; cbn [match_as_term].
        + apply (D ARG_TERM ItemCurly CurlyItem); auto; try reflexivity; try (left; cbn; isin).
        + apply (D ARG_BRACKET ItemBracket BracketItem); auto; try reflexivity; try (right; discriminate); try discriminate; try (right; reflexivity).
        + apply (D ARG_PAREN ItemParen ParenItem); auto; try reflexivity; try (right; discriminate); try discriminate; try (right; reflexivity).
      - (* NewLine *)
        destruct (true && match p_scope st with Environment => true | _ => false end) eqn:Ee; [exact Stop|].
        apply Rest; auto; [discriminate|]. intros _. unfold nl, nl_ok. destruct (p_scope st); try reflexivity; discriminate.
    Qed.

    (** *** commands *)
    Lemma match_args_false p ps sc so lo C st : St ps sc so lo C st -> p_trivia st = [] -> Forall wf C ->
      is_greedy (start_match p) = false ->
      wp True True (match_arguments rec false (start_match p) st) (fun st' => exists args,
        arguments_ok gm p args /\ Forall (row_safe sc) args /\ Forall wf args /\ St ps sc so None (C ++ args) st').
    Proof.
      intros (<- & <- & H1 & H2 & <-) T W G. unfold match_arguments. cbv zeta. rewrite G. cbn [Bool.eqb negb].
      apply wp_bind. unfold rec_. apply wp_bind.
      set (s0 := with_start None (with_last None st)).
      eapply wp_mono; [apply (IH (KMatch false (start_match p) (checkpoint s0)) s0); split; [simpl; rewrite T; constructor|]|].
      { split; [reflexivity|]. split; [reflexivity|exact W]. }
      intros [r a] A. cbn [wp]. destruct (A p [] (mstate_start _ G)) as (args & A1 & A2 & A3 & A4 & A5). cbn [fst snd app] in *.
      exists args. split; [split; assumption|]. split; [exact A3|]. split; [exact A4|].
      destruct A1 as (P1 & P2 & P3 & P4 & P5).
      split; [exact P1|]. split; [exact P2|]. split; [exact H1|]. split; [now left|]. exact P5.
    Qed.
    Lemma match_args_true ps sc so lo C st : St ps sc so lo C st -> p_trivia st = [] -> Forall wf C ->
      wp True True (match_arguments rec true AMGreedy st) (fun st' => exists a,
        Forall (itm sc false (match sc with Environment => false | _ => true end)) a /\ Forall wf a /\
        St ps sc so None (C ++ a) st').
    Proof.
      intros (<- & <- & H1 & H2 & <-) T W. unfold match_arguments. cbv zeta. cbn [is_greedy Bool.eqb negb].
      apply wp_bind. unfold rec_. apply wp_bind.
      set (s0 := with_start (Some (checkpoint (with_last None st))) (with_last None st)).
      eapply wp_mono; [apply (IH (KMatch true AMGreedy (checkpoint s0)) s0); split; [exact T|exact I]|].
      intros [r a] A. cbn [wp]. specialize (A eq_refl (List.length (chd st))). cbn [fst snd] in *.
      assert (L : LI (List.length (chd st)) false (nl_ok s0) s0).
      { split; [simpl; lia|]. split; [right; reflexivity|]. split; [discriminate|]. split; [simpl; rewrite skipn_all; constructor|exact W]. }
      destruct (A L) as (A1 & A2 & A3 & A4 & A5 & A6).
      change (chd s0) with (chd st) in *. rewrite firstn_all in A4.
      exists (skipn (List.length (chd st)) (chd a)). split; [exact A5|]. split; [now apply Forall_skipn|].
      split; [exact A1|]. split; [exact A2|]. split; [exact H1|]. split; [now left|].
      cbn. rewrite <- (firstn_skipn (List.length (chd st)) (chd a)) at 1. now rewrite A4.
    Qed.

    Lemma right_greedy_shape k s ts ps sc so lo C pre st :
      St ((ItemCmd, List.length C) :: ps) sc so lo (C ++ pre) st -> p_trivia st = [] -> Forall wf (C ++ pre) ->
      p_lex st = (k, s) :: ts -> kind_of_token k = ClauseCommandName ->
      wp True True (right_command list_pk list_nx rec PGreedy st) (fun x => fst x = false /\ exists a,
        Forall (itm sc false (match sc with Environment => false | _ => true end)) a /\ Forall wf a /\
        St ps sc so None (C ++ [Node ItemCmd (pre ++ [Leaf ClauseCommandName s; Node ClauseArgument a])]) (snd x)).
    Proof.
      intros H T W El Ek. unfold right_command. cbv zeta. cbn [start_match is_greedy].
      apply wp_bind. eapply wp_mono; [exact (St_eat_at _ _ _ _ _ _ _ _ H El)|]. intros a (Ta & _ & A). cbn [fst snd] in A.
      rewrite Ek in A. apply wp_bind. apply wp_bind.
      assert (W' : Forall wf ((C ++ pre) ++ [Leaf ClauseCommandName s])) by (apply wf_app; [assumption|repeat constructor]).
      eapply wp_mono; [apply wp_and; [apply (match_args_true _ _ _ _ _ _ (St_start ClauseArgument _ _ _ _ _ _ A)); [|exact W']|
        apply (match_arguments_spec rec IHt true AMGreedy (start_node ClauseArgument a))]|]; try (simpl; congruence).
      intros b [(g & G1 & G2 & B) [Tb _]].
      eapply wp_mono; [exact (St_finish _ _ _ _ _ _ _ _ B)|]. intros c (_ & Tc & Hc).
      rewrite <- !app_assoc in Hc. cbn [app] in Hc.
      apply wp_bind. eapply wp_mono; [exact (St_finish _ _ _ _ _ _ _ _ Hc)|]. intros d (_ & Td & Hd). cbn [wp].
      split; [reflexivity|]. exists g. split; [exact G1|]. split; [exact G2|].
      pose proof (St_extract _ _ _ _ _ _ Hd) as E. rewrite Td, Tc, Tb in E. cbn [map snd] in *. rewrite app_nil_r in E. exact E.
    Qed.
    Lemma right_plain_shape p k s ts ps sc so lo C st :
      is_greedy (start_match p) = false ->
      St ((ItemCmd, List.length C) :: ps) sc so lo C st -> p_trivia st = [] -> Forall wf C ->
      p_lex st = (k, s) :: ts -> kind_of_token k = ClauseCommandName ->
      wp True True (right_command list_pk list_nx rec p st) (fun x => fst x = true /\ exists args tr,
        arguments_ok gm p args /\ Forall (row_safe sc) args /\ Forall wf args /\
        leafy (fun k => In k [TokenLineBreak; TokenWhiteSpace; TokenComment]) tr /\
        St ps sc so None (C ++ [Node ItemCmd (Leaf ClauseCommandName s :: args)] ++ tr) (snd x)).
    Proof.
      intros G H T W El Ek. unfold right_command. cbv zeta. rewrite G.
      apply wp_bind. eapply wp_mono; [exact (St_eat_at _ _ _ _ _ _ _ _ H El)|]. intros a (Ta & _ & A). cbn [fst snd] in A.
      rewrite Ek in A. apply wp_bind.
      assert (W' : Forall wf (C ++ [Leaf ClauseCommandName s])) by (apply wf_app; [assumption|repeat constructor]).
      eapply wp_mono; [apply wp_and; [apply (match_args_false p _ _ _ _ _ _ A); [|exact W'|exact G]|
        apply (match_arguments_spec rec IHt false (start_match p) a)]|]; try congruence.
      intros b [(args & G1 & G2 & G3 & B) [Tb _]].
      rewrite <- !app_assoc in B. cbn [app] in B.
      apply wp_bind. eapply wp_mono; [exact (St_finish _ _ _ _ _ _ _ _ B)|]. intros d (_ & Td & Hd). cbn [wp].
      split; [reflexivity|]. exists args. eexists. split; [exact G1|]. split; [exact G2|]. split; [exact G3|]. cbn [snd].
      pose proof (St_extract _ _ _ _ _ _ Hd) as E. rewrite Td in E. rewrite <- app_assoc in E. split; [|exact E].
      now apply triv_leaves.
    Qed.

    Lemma start_at_shape cp ps sc so lo C st : St ps sc so lo C st ->
      wp True True (start_command_at (Some cp) st) (fun st' =>
        cp <= List.length C /\ (forall k' n ps', ps = (k', n) :: ps' -> n <= cp) /\
        p_lex st' = p_lex st /\ p_trivia st' = p_trivia st /\
        St ((ItemCmd, List.length (firstn cp C)) :: ps) sc so lo (firstn cp C ++ [Node ClauseArgument (skipn cp C)]) st').
    Proof.
      intros H. unfold start_command_at. apply wp_bind. eapply wp_mono; [exact (St_start_at cp ItemCmd _ _ _ _ _ _ H)|].
      intros a (A1 & A2 & A3 & A4 & A5). apply wp_bind. eapply wp_mono; [exact (St_start_at cp ClauseArgument _ _ _ _ _ _ A5)|].
      intros b (_ & _ & B3 & B4 & B5).
      rewrite firstn_length_le by assumption. rewrite <- (firstn_skipn cp C) in B5.
      assert (B6 : St ((ClauseArgument, List.length (firstn cp C)) :: (ItemCmd, cp) :: ps) sc so lo (firstn cp C ++ skipn cp C) b)
        by (now rewrite firstn_length_le by assumption).
      eapply wp_mono; [exact (St_finish _ _ _ _ _ _ _ _ B6)|]. intros c (C1 & C2 & C3).
      repeat split; try assumption; try congruence; apply C3.
    Qed.
    (** what a command takes from the left is fine as an argument *)
    Lemma left_arg_ok sc n C : Forall (itm' sc) (skipn n C) -> Forall wf C ->
      wf (Node ClauseArgument (skipn n C)) /\ row_safe sc (Node ClauseArgument (skipn n C)).
    Proof.
      intros F W. split.
      - apply wf_node; [|now apply Forall_skipn]. apply ok_arg. eapply Forall_impl; [|exact F]. now intros t [Ht _].
      - apply arg_term_row. eapply Forall_impl; [|exact F]. now intros t [_ Ht].
    Qed.
    (** the only name in a command *)
    Lemma greedy_command_only ch s name : (forall s', In (Leaf ClauseCommandName s') ch -> s' = s) -> s = 92%N :: name ->
      option_map cs_args (get_cmd sp name) <> Some (SRight PGreedy) ->
      option_map cs_args (get_cmd sp name) <> Some SInfixGreedy -> ~ greedy_command sp ch.
    Proof.
      intros H -> H1 H2 (n & Hin & Hn). apply H in Hin. injection Hin as ->. tauto.
    Qed.
    Lemma args_no_leaf args k s : Forall right_argument args -> ~ In (Leaf k s) args.
    Proof. intros H Hi. rewrite Forall_forall in H. exact (H _ Hi). Qed.

    Lemma wraps_cpost (st st' : lpst) n ch nd r : CI st -> r = false -> nd = Node ItemCmd ch \/ nd = Node ItemAttachComponent ch ->
      (p_start st = Some n \/ p_last st = Some n) -> (forall k f ps, par st = (k, f) :: ps -> f <= n) ->
      n <= List.length (chd st) ->
      St (par st) (p_scope st) (p_start st) (p_last st) (firstn n (chd st) ++ [nd]) st' ->
      wf nd -> row_safe (p_scope st) nd -> below (p_start st') n -> below (p_last st') n -> cpost st r st'.
    Proof.
      intros (_ & _ & W) -> Hnd Hn Hf Hl (P1 & P2 & P3 & P4 & P5) Wn Rn B1 B2.
      split; [assumption|]. split; [assumption|]. split; [assumption|]. split; [assumption|].
      split; [rewrite P5; apply wf_app; [now apply Forall_firstn|repeat constructor; exact Wn]|].
      right. split; [reflexivity|]. exists n, ch, nd. repeat split; assumption.
    Qed.
    Lemma sub_some o o' x : sub o o' -> o = Some x -> o' = Some x.
    Proof. intros [-> | ->]; congruence. Qed.

    Lemma strip_backslash s name : strip_prefix (tx "\") s = Some name -> s = 92%N :: name.
    Proof.
      intros H. apply strip_prefix_app in H. exact H.
    Qed.

    Lemma command_shape k st : CI st -> p_trivia st = [] -> p_peek list_pk st = Some k -> kind_of_token k = ClauseCommandName ->
      wp True True (command list_pk list_nx sp rec st) (fun x => cpost st (fst x) (snd x)).
    Proof.
      intros Hc T Hp Ek. pose proof Hc as (C1 & C2 & W). destruct (peek_cons _ _ Hp) as (s & ts & El).
      unfold command, list_pk. rewrite El. cbn [hd_error].
      destruct (strip_prefix (tx "\") s) as [name|] eqn:Es; [|exact I]. apply strip_backslash in Es.
      (* a command without arguments *)
      assert (Plain : forall p, option_map cs_args (get_cmd sp name) = p ->
        match p with None | Some (SRight PNone) | Some (SRight (PFixed 0)) => True | _ => False end ->
        wp True True (let* st0 := leat (start_node ItemCmd st) in let* st1 := finish_node st0 in Ok (true, st1))
          (fun x => cpost st (fst x) (snd x))).
      { intros p Ep Hpp. apply wp_bind.
        eapply wp_mono; [exact (St_eat_at _ _ _ _ _ _ _ _ (St_start ItemCmd _ _ _ _ _ _ (St_self st)) El)|].
        intros a (_ & _ & A). cbn [fst snd] in A. rewrite Ek in A.
        apply wp_bind. eapply wp_mono; [exact (St_finish _ _ _ _ _ _ _ _ A)|]. intros b (_ & _ & B). cbn [wp].
        eapply St_cpost; [exact W|exact B| |].
        - constructor; [|constructor]. apply wf_node; [|repeat constructor]. apply (ok_cmd gm sp name).
          rewrite Ep, <- Es. destruct p as [[p| |]|]; try contradiction; [|apply co_unknown].
          apply (co_right gm p s []). split; [constructor|]. destruct p as [|[|n]| | |]; try contradiction; simpl; auto.
          split; [constructor|lia].
        - constructor; [|constructor]. split; [cbn; isin|]. split; [|split; intros _; exact I].
          intros _. apply rows_node. intros _. split; [|repeat constructor]. intros _ Hg. exfalso. revert Hg.
          apply (greedy_command_only _ s name); auto.
          + intros s' [[= <-]|[]]. reflexivity.
          + rewrite Ep. intros ->. contradiction.
          + rewrite Ep. intros ->. contradiction. }
      assert (Right : forall p, option_map cs_args (get_cmd sp name) = Some (SRight p) -> p <> PGreedy ->
        wp True True (right_command list_pk list_nx rec p (start_node ItemCmd st)) (fun x => cpost st (fst x) (snd x))).
      { intros p Ep Hpp. assert (G : is_greedy (start_match p) = false).
        { destruct p; try contradiction; simpl; auto; destruct (N.eqb _ _); reflexivity. }
        eapply wp_mono; [exact (right_plain_shape p k s ts _ _ _ _ _ _ G (St_start ItemCmd _ _ _ _ _ _ (St_self st)) T W El Ek)|].
        intros [r a] (-> & args & tr & A1 & A2 & A3 & A4 & A5). cbn [fst snd] in *.
        assert (A6 : St (par st) (p_scope st) (p_start st) (p_last st) (chd st ++ [Node ItemCmd (Leaf ClauseCommandName s :: args)] ++ tr) a).
        { destruct A5 as (P1 & P2 & P3 & P4 & P5). repeat split; auto. destruct P4; now left. }
        eapply St_cpost; [exact W|exact A6| |].
        - constructor; [|exact (leafy_wf _ _ A4)]. apply wf_node; [|constructor; [exact I|exact A3]].
          apply (ok_cmd gm sp name). rewrite Ep, <- Es. now apply co_right.
        - constructor; [|now apply tv_items]. split; [cbn; isin|]. split; [|split; intros _; exact I].
          intros Esc. apply rows_node. intros _. split.
          + intros _ Hg. exfalso. revert Hg. apply (greedy_command_only _ s name); auto.
            * intros s' [[= <-]|Hi]; [reflexivity|]. exfalso. eapply args_no_leaf; [apply A1|exact Hi].
            * rewrite Ep. congruence.
            * rewrite Ep. discriminate.
          + constructor; [exact I|]. eapply Forall_impl; [|exact A2]. intros t Ht. now apply Ht. }
      assert (RowG : forall pre a, Forall (row_safe (p_scope st)) pre ->
        Forall (itm (p_scope st) false (match p_scope st with Environment => false | _ => true end)) a ->
        row_safe (p_scope st) (Node ItemCmd (pre ++ [Leaf ClauseCommandName s; Node ClauseArgument a]))).
      { intros pre a Hpre Ha Esc. apply rows_node. intros _. split.
        - intros _ _. exists (pre ++ [Leaf ClauseCommandName s]), a. split; [now rewrite <- app_assoc|].
          rewrite Esc in Ha. eapply Forall_impl; [|exact Ha]. intros t (_ & _ & _ & Ht). now apply Ht.
        - apply Forall_app. split; [eapply Forall_impl; [|exact Hpre]; intros t Ht; now apply Ht|].
          constructor; [exact I|]. constructor; [|constructor].
          assert (Ra : Forall (row_safe (p_scope st)) a) by (eapply Forall_impl; [|exact Ha]; intros t Ht; apply Ht).
          exact (arg_term_row _ _ Ra Esc). }
      assert (GreedyNew : forall sh st0, option_map cs_args (get_cmd sp name) = Some sh -> sh = SRight PGreedy \/ sh = SInfixGreedy ->
        St (par st) (p_scope st) (p_start st) (p_last st) (chd st) st0 -> p_trivia st0 = [] -> p_lex st0 = p_lex st ->
        wp True True (right_command list_pk list_nx rec PGreedy (start_node ItemCmd st0)) (fun x => cpost st (fst x) (snd x))).
      { intros sh st0 Esh Hsh S0 T0 L0.
        assert (S1 : St ((ItemCmd, List.length (chd st)) :: par st) (p_scope st) (p_start st) (p_last st) (chd st ++ []) (start_node ItemCmd st0)).
        { rewrite app_nil_r. now apply St_start. }
        eapply wp_mono; [apply (right_greedy_shape k s ts _ _ _ _ _ [] _ S1); [exact T0|rewrite app_nil_r; exact W|exact (eq_trans L0 El)|exact Ek]|].
        intros [r a] (-> & g & G1 & G2 & G3). cbn [fst snd app] in *.
        assert (G4 : St (par st) (p_scope st) (p_start st) (p_last st) (chd st ++ [Node ItemCmd [Leaf ClauseCommandName s; Node ClauseArgument g]]) a).
        { destruct G3 as (P1 & P2 & P3 & P4 & P5). repeat split; auto. destruct P4; now left. }
        eapply St_cpost; [exact W|exact G4| |].
        - constructor; [|constructor]. apply wf_node.
          + apply (ok_cmd gm sp name). rewrite Esh, <- Es.
            assert (Na : Forall (not_leaf TokenAmpersand) g) by (eapply Forall_impl; [|exact G1]; intros t (_ & _ & Ht & _); now apply Ht).
            destruct Hsh as [-> | ->]; [now apply co_greedy|now apply co_infix0].
          + constructor; [exact I|]. constructor; [|constructor]. apply wf_node; [|exact G2].
            apply ok_arg_items. eapply Forall_item; eauto.
        - constructor; [|constructor]. split; [cbn; isin|]. split; [|split; intros _; exact I].
          apply (RowG [] g); [constructor|exact G1]. }
      destruct (option_map cs_args (get_cmd sp name)) as [[p| |]|] eqn:Ep.
      - assert (RightP : wp True True (right_command list_pk list_nx rec p (start_node ItemCmd st)) (fun x => cpost st (fst x) (snd x))).
        { destruct p; try (apply (Right _ eq_refl); discriminate). apply (GreedyNew (SRight PGreedy) st); auto; [apply St_self]. }
        destruct p as [|[|n]| | |]; try exact RightP; apply (Plain _ eq_refl I).
      - (* postfix *)
        destruct (match p_last st with Some p => Some p | None => p_start st end) as [n|] eqn:En.
        + assert (Hn : p_start st = Some n \/ p_last st = Some n) by (destruct (p_last st); auto).
          destruct (C2 n Hn) as [Hl Hf].
          apply wp_bind. eapply wp_mono; [exact (start_at_shape n _ _ _ _ _ _ (St_self st))|]. intros a (_ & A2 & A3 & A4 & A5).
          apply wp_bind. eapply wp_mono; [exact (St_eat_at _ _ _ _ _ _ _ _ A5 (eq_trans A3 El))|].
          intros b (_ & _ & B). cbn [fst snd] in B. rewrite Ek, <- app_assoc in B.
          apply wp_bind. eapply wp_mono; [exact (St_finish _ _ _ _ _ _ _ _ B)|]. intros c (_ & _ & D). cbn [wp fst snd].
          destruct (left_arg_ok _ _ _ Hf W) as [La Lr].
          assert (Bs : forall x, p_start st = Some x -> x <= n).
          { intros x Hx. destruct (p_last st) as [y|] eqn:Ey; [injection En as <-; apply (C1 x y Hx); congruence|]. assert (Some x = Some n) by congruence. injection H as ->. lia. }
          assert (Bl : forall x, p_last st = Some x -> x <= n).
          { intros x Hx. rewrite Hx in En. injection En as <-. lia. }
          eapply (wraps_cpost st c n _ _ false Hc eq_refl (or_introl eq_refl) Hn); [exact A2|exact Hl|exact D| | | |].
          * apply wf_node; [|constructor; [exact La|constructor; [exact I|constructor]]].
            apply (ok_cmd gm sp name). rewrite Ep, <- Es. apply co_left1.
          * intros Esc. apply rows_node. intros _. split; [|constructor; [now apply Lr|constructor; [exact I|constructor]]].
            intros _ Hg. exfalso. revert Hg. apply (greedy_command_only _ s name); auto; try (rewrite Ep; discriminate).
            intros s' [Hi|[[= <-]|[]]]; [discriminate|reflexivity].
          * intros x Hx. apply Bs. destruct D as (_ & _ & D & _). now apply (sub_some _ _ _ D).
          * intros x Hx. apply Bl. destruct D as (_ & _ & _ & D & _). now apply (sub_some _ _ _ D).
        + apply wp_bind. cbn [start_command_at wp]. apply wp_bind.
          eapply wp_mono; [exact (St_eat_at _ _ _ _ _ _ _ _ (St_start ItemCmd _ _ _ _ _ _ (St_self st)) El)|].
          intros a (_ & _ & A). cbn [fst snd] in A. rewrite Ek in A.
          apply wp_bind. eapply wp_mono; [exact (St_finish _ _ _ _ _ _ _ _ A)|]. intros b (_ & _ & B). cbn [wp].
          eapply St_cpost; [exact W|exact B| |].
          * constructor; [|constructor]. apply wf_node; [|repeat constructor]. apply (ok_cmd gm sp name).
            rewrite Ep, <- Es. apply co_left0.
          * constructor; [|constructor]. split; [cbn; isin|]. split; [|split; intros _; exact I].
            intros _. apply rows_node. intros _. split; [|repeat constructor]. intros _ Hg. exfalso. revert Hg.
            apply (greedy_command_only _ s name); auto; try (rewrite Ep; discriminate).
            intros s' [[= <-]|[]]. reflexivity.
      - (* infix *)
        destruct (p_start st) as [n|] eqn:En.
        + assert (Hn : p_start st = Some n \/ p_last st = Some n) by auto.
          destruct (C2 n (or_introl eq_refl)) as [Hl Hf].
          assert (S0 : St (par st) (p_scope st) None (p_last st) (chd st) (with_start None st)).
          { repeat split; now right. }
          apply wp_bind. eapply wp_mono; [exact (start_at_shape n _ _ _ _ _ _ S0)|]. intros a (_ & A2 & A3 & A4 & A5).
          destruct (left_arg_ok _ _ _ Hf W) as [La Lr].
          eapply wp_mono; [apply (right_greedy_shape k s ts _ _ _ _ _ _ _ A5); [rewrite A4; exact T| |rewrite A3; exact El|exact Ek]|].
          { apply wf_app; [now apply Forall_firstn|]. constructor; [exact La|constructor]. }
          intros [r b] (-> & g & G1 & G2 & G3). cbn [fst snd] in *.
          pose proof G3 as (P1 & P2 & P3 & P4 & P5).
          assert (N1 : p_start b = None) by (destruct P3; assumption). assert (N2 : p_last b = None) by (destruct P4; assumption).
          eapply (wraps_cpost st b n _ _ false Hc eq_refl (or_introl eq_refl) Hn); [exact A2|exact Hl| | | | |].
          * split; [exact P1|]. split; [exact P2|]. split; [left; exact N1|]. split; [left; exact N2|exact P5].
          * apply wf_node.
            -- apply (ok_cmd gm sp name). rewrite Ep, <- Es. apply co_infix1.
               eapply Forall_impl; [|exact G1]; intros t (_ & _ & Ht & _); now apply Ht.
            -- constructor; [exact La|]. constructor; [exact I|]. constructor; [|constructor]. apply wf_node; [|exact G2].
               apply ok_arg_items. eapply Forall_item; eauto.
          * apply (RowG [Node ClauseArgument (skipn n (chd st))] g); [constructor; [exact Lr|constructor]|exact G1].
          * intros x Hx. congruence.
          * intros x Hx. congruence.
        + apply wp_bind. cbn [start_command_at wp].
          apply (GreedyNew SInfixGreedy (with_start None st)); auto. repeat split; simpl; [now right|now right].
      - apply (Plain _ eq_refl I).
    Qed.

    (** *** environments, left-right pairs, conditionals, scripts *)
    Lemma environment_shape ps sc so lo C st : St ps sc so lo C st -> p_trivia st = [] -> Forall wf C ->
      p_peek list_pk st = Some (CommandName BeginEnvironment) ->
      wp True True (environment list_pk list_nx sp rec st) (fun st' => exists ch,
        wf (Node ItemEnv ch) /\ St ps sc so lo (C ++ [Node ItemEnv ch]) st').
    Proof.
      intros H T W Hp. destruct (peek_cons _ _ Hp) as (name & ts & El). unfold environment. cbv zeta.
      unfold list_pk at 1. cbn [p_lex start_node with_b]. rewrite El. cbn [hd_error].
      pose proof (St_start ItemBegin _ _ _ _ _ _ (St_start ItemEnv _ _ _ _ _ _ H)) as H2.
      apply wp_bind. eapply wp_mono; [exact (St_eat_at _ _ _ _ _ _ _ _ H2 El)|]. intros a (Ta & _ & A). cbn [fst snd kind_of_token] in A.
      change (p_trivia (start_node ItemBegin (start_node ItemEnv st))) with (p_trivia st) in Ta.
      assert (W1 : Forall wf (C ++ [Leaf TokenCommandSym name])) by (apply wf_app; [assumption|repeat constructor]).
      (* the arguments *)
      apply wp_bind. eapply wp_mono with (P := fun b => triv b /\ exists args lo',
        (match option_map en_args (get_env sp name) with None => args = [] | Some p => arguments_ok gm p args end) /\
        Forall wf args /\ sub lo' lo /\
        St ((ItemBegin, List.length C) :: (ItemEnv, List.length C) :: ps) sc so lo' ((C ++ [Leaf TokenCommandSym name]) ++ args) b).
      { assert (Z : forall (P : list tree -> Prop), P [] -> triv a /\ exists args lo', P args /\
          Forall wf args /\ sub lo' lo /\
          St ((ItemBegin, List.length C) :: (ItemEnv, List.length C) :: ps) sc so lo' ((C ++ [Leaf TokenCommandSym name]) ++ args) a).
        { intros P HP. split; [rewrite Ta, T; constructor|]. exists [], lo. rewrite app_nil_r.
          split; [assumption|]. split; [constructor|]. split; [apply sub_refl|exact A]. }
        assert (M : forall p, wp True True (match_arguments rec false (start_match p) a) (fun b => triv b /\ exists args lo',
           arguments_ok gm p args /\ Forall wf args /\ sub lo' lo /\
           St ((ItemBegin, List.length C) :: (ItemEnv, List.length C) :: ps) sc so lo' ((C ++ [Leaf TokenCommandSym name]) ++ args) b)).
        { intros p. destruct (is_greedy (start_match p)) eqn:G.
          { unfold match_arguments. cbv zeta. rewrite G. exact I. }
          eapply wp_mono; [apply wp_and; [apply (match_args_false p _ _ _ _ _ _ A); [congruence|exact W1|exact G]|
             apply (match_arguments_spec rec IHt false (start_match p) a); congruence]|].
          intros b [(args & G1 & G2 & G3 & B) [Tb _]]. split; [exact Tb|]. exists args, None.
          split; [assumption|]. split; [assumption|]. split; [now left|exact B]. }
        destruct (option_map en_args (get_env sp name)) as [[|[|n]| | |]|]; try apply M; cbn [wp]; apply Z.
        - split; [constructor|reflexivity].
        - split; [constructor|split; [constructor|simpl; lia]].
        - reflexivity. }
      intros b (Tb & args & lo' & Ha & Wa & Hlo & B).
      rewrite <- app_assoc in B. cbn [app] in B.
      apply wp_bind. eapply wp_mono; [exact (St_finish _ _ _ _ _ _ _ _ B)|]. intros c (_ & Tc & Hc).
      pose proof (St_extract _ _ _ _ _ _ Hc) as Hc2. set (c' := extract_holding_trivia c) in *.
      set (tr := map (fun t => Leaf (kind_of_token (fst t)) (snd t)) (p_trivia c)) in *.
      assert (Ht : leafy (fun k => In k [TokenLineBreak; TokenWhiteSpace; TokenComment]) tr) by (apply triv_leaves; rewrite Tc; exact Tb).
      set (bg := Node ItemBegin (Leaf TokenCommandSym name :: args)) in *.
      assert (Wb : wf bg).
      { apply wf_node; [now apply ok_begin|]. constructor; [exact I|exact Wa]. }
      apply wp_bind. eapply wp_mono; [apply (item_list_shape Environment _ _ _ _ _ _ Hc2); [reflexivity|]|].
      { apply wf_app; [apply wf_app; [assumption|constructor; [exact Wb|constructor]]|exact (leafy_wf _ _ Ht)]. }
      intros d (body & D1 & D2 & D3 & _). rewrite <- !app_assoc in D3.
      apply wp_bind. eapply wp_mono with (P := fun e => exists close s', optional (Node ItemEnd [Leaf TokenCommandSym s']) close /\
        St ((ItemEnv, List.length C) :: ps) sc so lo' (C ++ [bg] ++ tr ++ body ++ close) e).
      { assert (Z : exists close s', optional (Node ItemEnd [Leaf TokenCommandSym s']) close /\
          St ((ItemEnv, List.length C) :: ps) sc so lo' (C ++ [bg] ++ tr ++ body ++ close) d).
        { exists [], []. rewrite app_nil_r. split; [now left|exact D3]. }
        destruct (p_peek list_pk d) as [k|] eqn:Ed; [|exact Z].
        destruct k; try exact Z. destruct c0; try exact Z. clear Z.
        destruct (peek_cons _ _ Ed) as (s' & ts' & Eld).
        apply wp_bind. eapply wp_mono; [exact (St_eat_at _ _ _ _ _ _ _ _ (St_start ItemEnd _ _ _ _ _ _ D3) Eld)|].
        intros e (_ & _ & He). cbn [fst snd kind_of_token] in He.
        eapply wp_mono; [exact (St_finish _ _ _ _ _ _ _ _ He)|]. intros f (_ & _ & Hf).
        exists [Node ItemEnd [Leaf TokenCommandSym s']], s'. split; [now right|]. rewrite <- !app_assoc in Hf. exact Hf. }
      intros e (close & s' & Hcl & He).
      eapply wp_mono; [exact (St_finish _ _ _ _ _ _ _ _ He)|]. intros f (_ & _ & Hf).
      exists ([bg] ++ tr ++ body ++ close). split.
      2:{ destruct Hf as (P1 & P2 & P3 & P4 & P5). repeat split; try assumption. eapply sub_trans; eauto. }
      assert (Hi : Forall (itm Environment true true) (tr ++ body)) by (apply Forall_app; split; [now apply tv_items|exact D1]).
      cbn [app]. rewrite app_assoc. apply wf_node.
      - apply (ok_env gm sp name args s'); auto.
        + eapply Forall_item; eauto.
        + eapply Forall_impl; [|exact Hi]. intros t (_ & Hr & _). now apply Hr.
      - constructor; [exact Wb|]. apply Forall_app. split; [apply wf_app; [exact (leafy_wf _ _ Ht)|exact D2]|].
        destruct Hcl as [-> | ->]; [constructor|]. constructor; [|constructor].
        apply wf_node; [apply ok_end|repeat constructor].
    Qed.

    Lemma clause_lr_shape k ps sc so lo C st : St ps sc so lo C st -> p_trivia st = [] ->
      p_peek list_pk st = Some k -> kind_of_token k = ClauseCommandName ->
      wp True True (clause_lr list_pk list_nx list_set rec st) (fun st' => exists ch,
        wf (Node ClauseLR ch) /\ St ps sc so lo (C ++ [Node ClauseLR ch]) st').
    Proof.
      intros H T Hp Ek. destruct (peek_cons _ _ Hp) as (s & ts & El). unfold clause_lr. cbv zeta.
      apply wp_bind. eapply wp_mono; [exact (St_eat_at _ _ _ _ _ _ _ _ (St_start ClauseLR _ _ _ _ _ _ H) El)|].
      intros a (Ta & _ & A). cbn [fst snd] in A. rewrite Ek in A.
      unfold rec_. apply wp_bind. apply wp_bind. eapply wp_mono; [apply (IH KTrivia a); split; [simpl; rewrite Ta; exact T|exact I]|].
      intros [r b] B. cbn [wp]. destruct (adds_St _ _ _ _ _ _ _ _ A B) as (tr & Tr & B2). cbn [fst snd] in *.
      apply wp_bind. eapply wp_mono with (P := fun c => exists sym, (sym = [] \/ exists k s', sym = [Leaf k s']) /\
        St ((ClauseLR, List.length C) :: ps) sc so lo (((C ++ [Leaf ClauseCommandName s]) ++ tr) ++ sym) c).
      { assert (Z : exists sym, (sym = [] \/ exists k s', sym = [Leaf k s']) /\
          St ((ClauseLR, List.length C) :: ps) sc so lo (((C ++ [Leaf ClauseCommandName s]) ++ tr) ++ sym) b).
        { exists []. rewrite (app_nil_r (_ ++ tr)). split; [now left|exact B2]. }
        assert (E : wp True True (leat b) (fun c => exists sym, (sym = [] \/ exists k s', sym = [Leaf k s']) /\
          St ((ClauseLR, List.length C) :: ps) sc so lo (((C ++ [Leaf ClauseCommandName s]) ++ tr) ++ sym) c)).
        { eapply wp_mono; [exact (St_eat _ _ _ _ _ _ B2)|]. intros c (t & _ & _ & Hc). eexists. split; [right|exact Hc]. eauto. }
        destruct (p_peek list_pk b) as [k'|] eqn:Eb; [|exact Z].
        destruct k'; try exact E; try exact Z.
        - (* Word *) destruct (peek_cons _ _ Eb) as (w & ts' & Elb). unfold single_char, list_pk. rewrite Elb. cbn [hd_error].
          destruct w as [|c w]; [exact Z|].
          pose proof (consume_spec (token_ TokenWord [c] b) [c] w ts' Elb) as X.
          simpl blen in X. rewrite Nat.add_0_r in X.
          eapply wp_mono; [exact X|]. intros st' ->. exists [Leaf TokenWord [c]]. split; [right; eauto|].
          destruct B2 as (P1 & P2 & P3 & P4 & P5). repeat split; try assumption. cbn. now rewrite P5.
        - (* CommandName *) destruct c; try exact Z.
          unfold eat_as, lex_eat, list_pk. destruct (peek_cons _ _ Eb) as (w & ts' & Elb). rewrite Elb. cbn.
          exists [Leaf TokenCommandSym w]. split; [right; eauto|].
          destruct B2 as (P1 & P2 & P3 & P4 & P5). repeat split; try assumption. cbn. now rewrite P5. }
      intros c (sym & Hs & Hc). rewrite <- !app_assoc in Hc.
      eapply wp_mono; [exact (St_finish _ _ _ _ _ _ _ _ Hc)|]. intros d (_ & _ & D).
      eexists. split; [|exact D]. cbn [app]. apply wf_node.
      - apply ok_clause; [|assumption]. eapply Forall_impl; [|exact Tr]. intros [k' s'|k' c']; auto.
      - constructor; [exact I|]. apply wf_app; [exact (leafy_wf _ _ Tr)|].
        destruct Hs as [-> |(k' & s' & ->)]; repeat constructor.
    Qed.
    Lemma item_lr_shape ps sc so lo C st : St ps sc so lo C st -> p_trivia st = [] -> Forall wf C ->
      p_peek list_pk st = Some (CommandName CLeft) ->
      wp True True (item_lr list_pk list_nx list_set rec st) (fun st' => exists ch,
        wf (Node ItemLR ch) /\ St ps sc so lo (C ++ [Node ItemLR ch]) st').
    Proof.
      intros H T W Hp. unfold item_lr. cbv zeta.
      pose proof (St_start ItemLR _ _ _ _ _ _ H) as H2.
      apply wp_bind. eapply wp_mono; [apply wp_and; [exact (clause_lr_shape _ _ _ _ _ _ _ H2 T Hp eq_refl)|
        exact (clause_lr_spec rec IHt (start_node ItemLR st) T)]|].
      intros a [(c1 & W1 & A) (Ta & _)].
      apply wp_bind. eapply wp_mono; [apply wp_and; [apply (item_list_shape LR _ _ _ _ _ _ A Ta); apply wf_app; [assumption|constructor; [exact W1|constructor]]|
        exact (item_list_spec rec IHt LR a Ta)]|].
      intros b [(body & B1 & B2 & B3 & _) (Tb & _)].
      apply wp_bind. eapply wp_mono with (P := fun c => exists close, (close = [] \/ exists c2, close = [Node ClauseLR c2]) /\ Forall wf close /\
        St ((ItemLR, List.length C) :: ps) sc so lo (((C ++ [Node ClauseLR c1]) ++ body) ++ close) c).
      { assert (Z : exists close, (close = [] \/ exists c2, close = [Node ClauseLR c2]) /\ Forall wf close /\
        St ((ItemLR, List.length C) :: ps) sc so lo (((C ++ [Node ClauseLR c1]) ++ body) ++ close) b).
        { exists []. rewrite (app_nil_r (_ ++ body)). split; [now left|]. split; [constructor|exact B3]. }
        destruct (p_peek list_pk b) as [k|] eqn:Eb; [|exact Z]. destruct k; try exact Z. destruct c; try exact Z.
        eapply wp_mono; [exact (clause_lr_shape _ _ _ _ _ _ _ B3 Tb Eb eq_refl)|]. intros c (c2 & W2 & Hc).
        eexists. split; [right; eauto|]. split; [|exact Hc]. constructor; [exact W2|constructor]. }
      intros c (close & K1 & K2 & Hc). rewrite <- !app_assoc in Hc.
      eapply wp_mono; [exact (St_finish _ _ _ _ _ _ _ _ Hc)|]. intros d (_ & _ & D).
      eexists. split; [|exact D]. cbn [app]. apply wf_node.
      - apply ok_lr; [eapply Forall_item; eauto|assumption].
      - constructor; [exact W1|]. apply wf_app; assumption.
    Qed.
    Lemma if_block_shape k ps sc so lo C st : St ps sc so lo C st -> p_trivia st = [] ->
      k = ItemBlockComment \/ k = ItemTypstCode ->
      wp True True (if_block list_pk list_nx rec k st) (fun st' => exists ch,
        wf (Node k ch) /\ St ps sc so lo (C ++ [Node k ch]) st').
    Proof.
      intros H T Hk. unfold if_block. cbv zeta. apply wp_bind.
      eapply wp_mono with (P := fun a => p_trivia a = [] /\ St ((k, List.length C) :: ps) sc so lo C a).
      { pose proof (St_start k _ _ _ _ _ _ H) as H2. revert H2.
        generalize (start_node k st) (eq_refl : p_trivia (start_node k st) = p_trivia st). intros st0 E0 H2.
        destruct st0 as [lx b h s l sc']. unfold drop_, lex_eat. simpl in *. destruct lx as [|t ts]; simpl; (split; [congruence|exact H2]). }
      intros a [Ta A]. unfold rec_. apply wp_bind. apply wp_bind. eapply wp_mono; [apply (IH (KIfs 0) a); split; [exact Ta|exact I]|].
      intros [r b] B. cbn [wp]. destruct (adds_St _ _ _ _ _ _ _ _ A B) as (ch & Tr & B2). cbn [fst snd] in *.
      eapply wp_mono; [exact (St_finish _ _ _ _ _ _ _ _ B2)|]. intros d (_ & _ & D).
      exists ch. split; [|exact D]. assert (L : Forall (fun t => is_node t = false) ch).
      { eapply Forall_impl; [|exact Tr]. intros [k' s|k' c]; [reflexivity|contradiction]. }
      apply wf_node; [destruct Hk as [-> | ->]; [now apply ok_comment|now apply ok_code]|].
      exact (leafy_wf _ _ Tr).
    Qed.
    Lemma error_shape k ps sc so lo C st : St ps sc so lo C st ->
      p_peek list_pk st = Some k -> In (kind_of_token k) [TokenRBrace; TokenWord; TokenCommandSym; TokenEndMath] ->
      wp True True (error_node list_pk list_nx st) (fun st' => exists ch,
        wf (Node TokenError ch) /\ St ps sc so lo (C ++ [Node TokenError ch]) st').
    Proof.
      intros H Hp Hk. destruct (peek_cons _ _ Hp) as (s & ts & El). unfold error_node. cbv zeta.
      apply wp_bind. eapply wp_mono; [exact (St_eat_at _ _ _ _ _ _ _ _ (St_start TokenError _ _ _ _ _ _ H) El)|].
      intros a (_ & _ & A). cbn [fst snd] in A.
      eapply wp_mono; [exact (St_finish _ _ _ _ _ _ _ _ A)|]. intros d (_ & _ & D).
      eexists. split; [|exact D]. apply wf_node; [now apply ok_error|repeat constructor].
    Qed.
    Lemma St_weak ps sc so lo C st so' lo' : sub so so' -> sub lo lo' -> St ps sc so lo C st -> St ps sc so' lo' C st.
    Proof. intros H1 H2 (P1 & P2 & P3 & P4 & P5). repeat split; try assumption; eapply sub_trans; eauto. Qed.

    Lemma script_row sc ch : Forall (row_safe sc) ch -> row_safe sc (Node ItemAttachComponent ch).
    Proof.
      intros H E. apply rows_node. intros _. split; [discriminate|]. eapply Forall_impl; [|exact H]. intros t Ht. now apply Ht.
    Qed.
    Lemma itm'_leaf sc k s : item_leaf k \/ In k [TokenUnderscore; TokenCaret] -> itm' sc (Leaf k s).
    Proof. intros [H|H]; split; auto; intros _; exact I. Qed.

    (** the script after the marker: what precedes at [cp], the marker, then *)
    Lemma script_shape k s ts ps sc so lo cp C pre st :
      St ((ItemAttachComponent, cp) :: ps) sc so lo (C ++ pre) st -> cp = List.length C ->
      (pre = [] \/ exists c, pre = [Node ClauseArgument c]) -> Forall (itm' sc) pre -> Forall wf (C ++ pre) ->
      (forall x y, so = Some x -> lo = Some y -> x <= y) ->
      (forall x, so = Some x \/ lo = Some x -> x <= cp /\ Forall (itm' sc) (skipn x C)) ->
      p_trivia st = [] -> p_lex st = (k, s) :: ts -> In (kind_of_token k) [TokenUnderscore; TokenCaret] ->
      wp True True (let* st0 := leat st in
         let* st1 := (let* st2 := rec_ rec KTrivia st0 in rec_ rec (KContent false) st2) in finish_node st1)
        (fun st' => exists ch, St ps sc so lo (C ++ [Node ItemAttachComponent ch]) st' /\
           wf (Node ItemAttachComponent ch) /\ row_safe sc (Node ItemAttachComponent ch)).
    Proof.
      intros H -> Hpre Fpre W O1 O2 T El Hk.
      apply wp_bind. eapply wp_mono; [exact (St_eat_at _ _ _ _ _ _ _ _ H El)|]. intros a (Ta & _ & A). cbn [fst snd] in A.
      apply wp_bind. apply wp_bind. unfold rec_ at 1. apply wp_bind.
      eapply wp_mono; [apply wp_and; [apply (IH KTrivia a); split; [simpl; rewrite Ta; exact T|exact I]|
        apply (IHt KTrivia a); simpl; rewrite Ta; exact T]|].
      intros [r b] [B [Tb _]]. cbn [wp]. destruct (adds_St _ _ _ _ _ _ _ _ A B) as (tr & Tr & B2). cbn [fst snd hpre] in *.
      rewrite <- !app_assoc in B2.
      set (mid := pre ++ [Leaf (kind_of_token k) s] ++ tr) in *.
      assert (Fmid : Forall (itm' sc) mid).
      { unfold mid. apply Forall_app. split; [assumption|]. constructor; [apply itm'_leaf; auto|].
        eapply Forall_impl; [|exact Tr]. intros [k' s'|k' c']; [|contradiction]. intros Hk'. apply itm'_leaf. left. now apply tv_item_leaf. }
      assert (Wmid : Forall wf mid).
      { apply Forall_app in W. unfold mid. apply wf_app; [apply W|]. constructor; [exact I|exact (leafy_wf _ _ Tr)]. }
      pose proof B2 as (P1 & P2 & P3 & P4 & P5).
      assert (CIb : CI b).
      { split; [|split].
        - intros x y Hx Hy. apply O1; [exact (sub_some _ _ _ P3 Hx)|exact (sub_some _ _ _ P4 Hy)].
        - intros x Hx. assert (Hx' : so = Some x \/ lo = Some x).
          { destruct Hx as [Hx|Hx]; [left; exact (sub_some _ _ _ P3 Hx)|right; exact (sub_some _ _ _ P4 Hx)]. }
          destruct (O2 x Hx') as [Hl Hf]. rewrite P5, P2, app_length. split; [lia|].
          rewrite skipn_app. replace (x - List.length C) with 0 by lia. simpl. apply Forall_app. auto.
        - rewrite P5. apply Forall_app in W. apply wf_app; [apply W|assumption]. }
      unfold rec_. apply wp_bind. eapply wp_mono; [apply (IH (KContent false) b); split; [exact Tb|exact CIb]|].
      intros [r' c] (Q1 & Q2 & Q3 & Q4 & Q5 & Q6). cbn [wp fst snd] in *.
      rewrite P1 in Q1. rewrite P2 in Q2.
      destruct Q6 as [(new & E & F)|(_ & n & ch & nd & Hn & Hf & Hl & Hnd & E & Rn & B1 & Bl)].
      - rewrite P5 in E.
        assert (Sc : St ((ItemAttachComponent, List.length C) :: ps) sc so lo (C ++ mid ++ new) c).
        { split; [exact Q1|]. split; [exact Q2|]. split; [exact (sub_trans _ _ _ Q3 P3)|]. split; [exact (sub_trans _ _ _ Q4 P4)|].
          rewrite E. now rewrite <- app_assoc. }
        eapply wp_mono; [exact (St_finish _ _ _ _ _ _ _ _ Sc)|]. intros d (_ & _ & D).
        exists (mid ++ new). split; [exact D|].
        assert (Wn : Forall wf new) by (rewrite E in Q5; now apply Forall_app in Q5).
        split.
        + apply wf_node; [|now apply wf_app]. unfold mid. rewrite <- !app_assoc. cbn [app].
          apply ok_script; [exact Hpre|exact Hk|exact Tr|eapply Forall_item; eauto].
        + apply script_row. apply Forall_app. split; [eapply Forall_impl; [|exact Fmid]; intros t Ht; apply Ht|].
          rewrite P2 in F. eapply Forall_impl; [|exact F]. intros t Ht; apply Ht.
      - assert (En : n = List.length C).
        { pose proof (Hf _ _ _ P1). assert (Hx' : so = Some n \/ lo = Some n).
          { destruct Hn as [Hn|Hn]; [left; exact (sub_some _ _ _ P3 Hn)|right; exact (sub_some _ _ _ P4 Hn)]. }
          destruct (O2 n Hx'). lia. }
        subst n. rewrite P5, firstn_app, firstn_all, Nat.sub_diag in E. simpl in E. rewrite app_nil_r in E.
        assert (Sc : St ((ItemAttachComponent, List.length C) :: ps) sc so lo (C ++ [nd]) c).
        { split; [exact Q1|]. split; [exact Q2|]. split; [exact (sub_trans _ _ _ Q3 P3)|]. split; [exact (sub_trans _ _ _ Q4 P4)|exact E]. }
        eapply wp_mono; [exact (St_finish _ _ _ _ _ _ _ _ Sc)|]. intros d (_ & _ & D).
        exists [nd]. split; [exact D|].
        assert (Wn : Forall wf [nd]) by (rewrite E in Q5; now apply Forall_app in Q5).
        split.
        + apply wf_node; [|exact Wn]. apply ok_script_of. exists ch. destruct Hnd; auto.
        + apply script_row. constructor; [|constructor]. rewrite P2 in Rn. exact Rn.
    Qed.

    Lemma attach_shape (has : bool) k (st : lpst) : CI st -> p_trivia st = [] -> p_peek list_pk st = Some k ->
      (if has then In (kind_of_token k) [TokenUnderscore; TokenCaret] else k = Apostrophe) ->
      wp True True (attach_component list_pk list_nx rec has st) (fun st' => cpost st false st').
    Proof.
      intros Hc T Hp Hk. pose proof Hc as (C1 & C2 & W). destruct (peek_cons _ _ Hp) as (s & ts & El).
      unfold attach_component. cbv zeta.
      destruct (p_last st) as [cp|] eqn:El0.
      - destruct (C2 cp (or_intror eq_refl)) as [Hl Hf].
        apply wp_bind. eapply wp_mono; [exact (St_start_at cp ItemAttachComponent _ _ _ _ _ _ (St_self st))|].
        intros a (_ & A2 & A3 & A4 & A5).
        apply wp_bind. eapply wp_mono; [exact (St_start_at cp ClauseArgument _ _ _ _ _ _ A5)|].
        intros b (_ & _ & B3 & B4 & B5). rewrite <- (firstn_skipn cp (chd st)) in B5.
        assert (Lc : List.length (firstn cp (chd st)) = cp) by (now apply firstn_length_le).
        rewrite <- Lc in B5 at 1.
        apply wp_bind. eapply wp_mono; [exact (St_finish _ _ _ _ _ _ _ _ B5)|]. intros c (D1 & D2 & D3).
        destruct (left_arg_ok _ _ _ Hf W) as [La Lr].
        assert (Elc : p_lex c = (k, s) :: ts) by (rewrite D1, B3, A3; exact El).
        assert (Tc : p_trivia c = []) by congruence.
        assert (Wf : Forall wf (firstn cp (chd st) ++ [Node ClauseArgument (skipn cp (chd st))])).
        { apply wf_app; [now apply Forall_firstn|]. constructor; [exact La|constructor]. }
        assert (Bs : forall x, p_start st = Some x -> x <= cp) by (intros x Hx; apply (C1 x cp Hx); congruence).
        assert (Fin : forall st' ch, St (par st) (p_scope st) (p_start st) (p_last st) (firstn cp (chd st) ++ [Node ItemAttachComponent ch]) st' ->
          wf (Node ItemAttachComponent ch) -> row_safe (p_scope st) (Node ItemAttachComponent ch) -> cpost st false st').
        { intros st' ch S1 S2 S3.
          eapply (wraps_cpost st st' cp ch _ false Hc eq_refl (or_intror eq_refl) (or_intror El0)); [exact A2|exact Hl|exact S1|exact S2|exact S3| |].
          - intros x Hx. apply Bs. destruct S1 as (_ & _ & S1 & _). exact (sub_some _ _ _ S1 Hx).
          - intros x Hx. destruct S1 as (_ & _ & _ & S1 & _). apply (sub_some _ _ _ S1) in Hx. assert (Some cp = Some x) by congruence. injection H as ->. lia. }
        destruct has.
        + eapply wp_mono; [apply (script_shape k s ts (par st) (p_scope st) (p_start st) (Some cp) cp (firstn cp (chd st))
            [Node ClauseArgument (skipn cp (chd st))] c)|].
          * try rewrite El0 in D3. exact D3.
          * now symmetry.
          * right. eauto.
          * constructor; [|constructor]. split; [right; left; exact I|exact Lr].
          * exact Wf.
          * intros x y Hx [= <-]. now apply Bs.
          * intros x [Hx|[= <-]].
            -- split; [now apply Bs|]. destruct (C2 x (or_introl Hx)) as [_ Hx2]. now apply Forall_skipn_firstn.
            -- split; [lia|]. rewrite skipn_all2 by lia. constructor.
          * exact Tc.
          * exact Elc.
          * exact Hk.
          * intros st' (ch & S1 & S2 & S3). try rewrite <- El0 in S1. exact (Fin st' ch S1 S2 S3).
        + subst k. apply wp_bind. eapply wp_mono; [exact (St_eat_at _ _ _ _ _ _ _ _ D3 Elc)|]. intros d (_ & _ & D4).
          cbn [fst snd kind_of_token] in D4. rewrite <- app_assoc in D4. cbn [app] in D4.
          cbn [bind]. rewrite <- Lc in D4 at 1.
          eapply wp_mono; [exact (St_finish _ _ _ _ _ _ _ _ D4)|]. intros e (_ & _ & E4).
          apply (Fin e _ E4).
          * apply wf_node; [apply ok_prime|]. constructor; [exact La|repeat constructor].
          * apply script_row. constructor; [exact Lr|]. constructor; [intros _; exact I|constructor].
      - destruct has; cbn [negb].
        + eapply wp_mono; [apply (script_shape k s ts (par st) (p_scope st) (p_start st) None (List.length (chd st)) (chd st) [] (start_node ItemAttachComponent st))|].
          * rewrite app_nil_r. pose proof (St_start ItemAttachComponent _ _ _ _ _ _ (St_self st)) as X. try rewrite El0 in X. exact X.
          * reflexivity.
          * now left.
          * constructor.
          * rewrite app_nil_r. exact W.
          * discriminate.
          * intros x [Hx|Hx]; [|discriminate]. apply C2. now left.
          * exact T.
          * exact El.
          * exact Hk.
          * intros st' (ch & S1 & S2 & S3). try rewrite <- El0 in S1.
            eapply St_cpost; [exact W|exact S1|constructor; [exact S2|constructor]|].
            constructor; [|constructor]. split; [cbn; isin|]. split; [exact S3|split; intros _; exact I].
        + subst k. eapply wp_mono; [exact (St_eat_at _ _ _ _ _ _ _ _ (St_self st) El)|]. intros a (_ & _ & A). cbn [fst snd] in A.
          eapply St_cpost; [exact W|exact A|repeat constructor|].
          constructor; [|constructor]. split; [cbn; isin|]. split; [intros _; exact I|split; intros _; discriminate].
    Qed.

    Lemma content_shape b st : CI st -> p_trivia st = [] ->
      wp True True (content list_pk list_nx list_set sp rec b st) (fun x => cpost st (fst x) (snd x)).
    Proof.
      intros Hc T. pose proof Hc as (_ & _ & W). unfold content. cbv zeta.
      assert (Y : forall r k (x : res lpst), item_node k -> same_level k = false ->
        wp True True x (fun st' => exists ch, wf (Node k ch) /\
          St (par st) (p_scope st) (p_start st) (p_last st) (chd st ++ [Node k ch]) st') ->
        wp True True (let* s := x in Ok (r, s)) (fun x => cpost st (fst x) (snd x))).
      { intros r k x Hi Hs Hx. apply wp_bind. eapply wp_mono; [exact Hx|]. intros a (ch & Wn & A). cbn [wp fst snd].
        eapply St_cpost; [exact W|exact A|constructor; [exact Wn|constructor]|].
        constructor; [|constructor]. now apply itm_node. }
      assert (E : forall r k, p_peek list_pk st = Some k -> item_leaf (kind_of_token k) ->
        wp True True (let* s := leat st in Ok (r, s)) (fun x => cpost st (fst x) (snd x))).
      { intros r k Hp Hi. destruct (peek_cons _ _ Hp) as (s & ts & El).
        apply wp_bind. eapply wp_mono; [exact (St_eat_at _ _ _ _ _ _ _ _ (St_self st) El)|]. intros a (_ & _ & A). cbn [wp fst snd] in *.
        destruct A as (P1 & P2 & P3 & P4 & P5). split; [exact P1|]. split; [exact P2|]. split; [exact P3|]. split; [exact P4|].
        split; [rewrite P5; apply wf_app; [exact W|repeat constructor]|]. left. exists [Leaf (kind_of_token k) s]. split; [exact P5|].
        constructor; [|constructor]. split; [exact Hi|]. split; [intros _; exact I|]. rewrite Hp.
        destruct k; split; intros X; try discriminate X; cbn; try discriminate; repeat match goal with |- context [match ?x with _ => _ end] => destruct x end; discriminate. }
      assert (C : forall k, p_peek list_pk st = Some k -> kind_of_token k = ClauseCommandName ->
        wp True True (command list_pk list_nx sp rec st) (fun x => cpost st (fst x) (snd x))).
      { intros k Hp Ek. now apply (command_shape k). }
      destruct (p_peek list_pk st) as [k|] eqn:Hp.
      2:{ cbn [wp fst snd]. eapply (St_cpost true st st []); [exact W|rewrite app_nil_r; apply St_self|constructor|constructor]. }
      assert (S := St_self st).
      destruct k; try (eapply E; [reflexivity|cbn; isin]).
      all: try (apply (Y _ TokenError); [cbn; isin|reflexivity|]; apply (error_shape _ _ _ _ _ _ _ S Hp); cbn; isin).
      all: try (apply wp_bind; eapply wp_mono; [eapply (attach_shape true); [exact Hc|exact T|exact Hp|cbn; isin]|]; intros a Ha; exact Ha).
      - (* TLeft *) destruct b0; try (eapply E; [reflexivity|cbn; isin]).
        apply (Y _ ItemCurly); [cbn; isin|reflexivity|]. exact (item_group_shape CurlyItem _ _ _ _ _ _ _ _ S T W eq_refl Hp).
      - (* TRight *) destruct b0; try (eapply E; [reflexivity|cbn; isin]).
        apply (Y _ TokenError); [cbn; isin|reflexivity|]. apply (error_shape _ _ _ _ _ _ _ S Hp); cbn; isin.
      - (* Comma *) apply (Y _ ItemText); [cbn; isin|reflexivity|]. apply (p_text_shape _ _ _ _ _ _ _ S T Hp). auto.
      - (* Apostrophe *) apply wp_bind. eapply wp_mono; [eapply (attach_shape false); [exact Hc|exact T|exact Hp|reflexivity]|]. intros a Ha. exact Ha.
      - (* Word *) destruct b.
        + apply (Y _ ItemText); [cbn; isin|reflexivity|]. apply (p_text_shape _ _ _ _ _ _ _ S T Hp). auto.
        + destruct (peek_cons _ _ Hp) as (w & ts' & Elb). unfold single_char, list_pk. rewrite Elb. cbn [hd_error].
          destruct w as [|c w].
          { cbn. eapply (St_cpost true st st []); [exact W|rewrite app_nil_r; apply St_self|constructor|constructor]. }
          pose proof (consume_spec (token_ TokenWord [c] st) [c] w ts' Elb) as X.
          simpl blen in X. rewrite Nat.add_0_r in X.
          apply wp_bind. eapply wp_mono; [exact X|]. intros st' ->. cbn [wp fst snd].
          eapply (St_cpost true st _ [Leaf TokenWord [c]]); [exact W| |repeat constructor|].
          * repeat split; now right.
          * constructor; [|constructor]. split; [cbn; isin|]. split; [intros _; exact I|split; intros _; discriminate].
      - (* Dollar *) apply (Y _ ItemFormula); [cbn; isin|reflexivity|]. exact (item_group_shape DollarFormula _ _ _ _ _ _ _ _ S T W eq_refl Hp).
      - (* CommandName *) destruct c; try (eapply E; [reflexivity|cbn; isin]); try (eapply C; [reflexivity|reflexivity]).
        all: try (apply (Y _ TokenError); [cbn; isin|reflexivity|]; apply (error_shape _ _ _ _ _ _ _ S Hp); cbn; isin).
        + apply (Y _ ItemEnv); [cbn; isin|reflexivity|]. exact (environment_shape _ _ _ _ _ _ S T W Hp).
        + apply (Y _ ItemFormula); [cbn; isin|reflexivity|]. exact (item_group_shape CmdFormula _ _ _ _ _ _ _ _ S T W eq_refl Hp).
        + destruct i; try (eapply C; [reflexivity|reflexivity]).
          * apply (Y _ ItemTypstCode); [cbn; isin|reflexivity|]. exact (if_block_shape _ _ _ _ _ _ _ S T (or_intror eq_refl)).
          * apply (Y _ ItemBlockComment); [cbn; isin|reflexivity|]. exact (if_block_shape _ _ _ _ _ _ _ S T (or_introl eq_refl)).
        + apply (Y _ ItemLR); [cbn; isin|reflexivity|]. exact (item_lr_shape _ _ _ _ _ _ S T W Hp).
    Qed.
    Lemma dispatch_shape c st : spre c st ->
      wp True True (dispatch list_pk list_nx list_set gm sp rec c st) (fun x => spost c st (fst x) (snd x)).
    Proof.
      intros [H1 H2]. destruct c as [b|cur|g m cur| | |n]; cbn [dispatch].
      - now apply content_shape.
      - now apply list_shape.
      - destruct g; [now apply match_shape_true|]. destruct H2 as (? & ? & ?). now apply match_shape_false.
      - now apply trivia_shape.
      - now apply text_shape.
      - now apply ifs_shape.
    Qed.
  End Fun.

  Lemma run_sspec fuel : sspec (run list_pk list_nx list_set gm sp fuel).
  Proof.
    induction fuel as [|fuel IH]; intros c st H; cbn [run]; [exact I|].
    apply dispatch_shape; [apply run_rspec|exact IH|exact H].
  Qed.

  (** ** The whole parser *)
  Lemma parse_shape fuel ts t : parse_list gm sp fuel ts = Ok t -> wf t /\ tkind t = ScopeRoot /\ spells (Exists (takes_right sp) ts) ts (leaves t).
  Proof.
    unfold parse_list, parse. cbv zeta. set (rec := run list_pk list_nx list_set gm sp fuel).
    set (s0 := start_node ScopeRoot (pst_new ts)).
    pose proof (item_list_shape rec (run_sspec fuel) Root [(ScopeRoot, 0)] Root None None [] s0) as H.
    pose proof (item_list_spec (takes := Exists (takes_right sp) ts) rec (run_rspec gm fuel) Root s0 eq_refl) as H2.
    assert (S0 : St [(ScopeRoot, 0)] Root None None [] s0) by (repeat split; now left).
    specialize (H S0 eq_refl ltac:(constructor)).
    destruct (item_list rec Root s0) as [a| |]; try discriminate. cbn [wp bind] in *.
    destruct H as (body & B1 & B2 & B3 & B4). destruct H2 as [T R].
    assert (El : p_lex a = []) by (destruct B4 as [B4|(k & _ & B4)]; [assumption|discriminate]).
    destruct a as [lx [ps ch] h s l sc]. destruct B3 as (P1 & P2 & _ & _ & P5). simpl in *. subst.
    cbn. intros [= <-]. split; [|split; [reflexivity|]].
    - apply every_node. split; [|exact B2]. apply ok_root. eapply Forall_item; eauto.
    - destruct R as [_ R]. destruct (R ltac:(apply Forall_forall; intros t Ht Ht'; apply Exists_exists; eauto) [] (sp_nil _)) as (ls & Hs & E). unfold lv in E. simpl in *.
      rewrite app_nil_r in E. now subst ls.
  Qed.
End Shape.
