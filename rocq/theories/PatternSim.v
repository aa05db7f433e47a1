(** Two runs of the parser side by side whose specifications give the same
    commands different argument patterns that answer alike (C65).  The proofs
    follow ParserSim, with matchers related instead of equal. *)
From Verif Require Export Parser BaseFacts.
From Verif Require Import ParserSim.
Local Open Scope nat_scope.

(** the letter of a group (spec/lib.rs:166-173) *)
Definition enc_of (b : brace) : char := match b with Curly => ARG_TERM | Bracket => ARG_BRACKET | Paren => ARG_PAREN end.
(** the patterns for which the parser does not look for arguments at all
    (parser.rs:497-500, 556-557) *)
Definition no_pattern (p : arg_pattern) : bool :=
  match p with PNone | PFixed 0 => true | _ => false end.

Section Sim.
  Context {L1 L2 : Type}.
  Variables (pk1 : L1 -> option tok) (nx1 : L1 -> res L1) (set1 : text -> L1 -> L1) (sp1 : spec).
  Variables (pk2 : L2 -> option tok) (nx2 : L2 -> res L2) (set2 : text -> L2 -> L2) (sp2 : spec).
  Variable gm : text -> text -> bool.
  Variable R : L1 -> L2 -> Prop.
  Variable loose : Prop.
  Hypothesis Hpk : forall a b, R a b -> pk1 a = pk2 b.
  Hypothesis Hnx : forall a b, R a b -> pk1 a <> None -> rres loose R (nx1 a) (nx2 b).
  Hypothesis Hset : forall a b s s', R a b -> pk1 a = Some (Word, s) -> R (set1 s' a) (set2 s' b).
  (** related matchers answer alike *)
  Variable MR : matcher -> matcher -> Prop.
  Hypothesis Mrefl : forall m, MR m m.
  Hypothesis Mgreedy : forall m n, MR m n -> is_greedy m = is_greedy n.
  Hypothesis Mterm : forall m n, MR m n -> fst (try_match gm m ARG_TERM) = fst (try_match gm n ARG_TERM) /\
    MR (snd (try_match gm m ARG_TERM)) (snd (try_match gm n ARG_TERM)).
  Hypothesis Mleft : forall m n a b k s, MR m n -> R a b -> pk1 a = Some (TLeft k, s) ->
    fst (match_as_term gm m (enc_of k)) = fst (match_as_term gm n (enc_of k)) /\
    MR (snd (match_as_term gm m (enc_of k))) (snd (match_as_term gm n (enc_of k))).
  (** related patterns *)
  Definition AR (p q : arg_pattern) : Prop := p = q \/ (no_pattern p = false /\ no_pattern q = false /\ MR (start_match p) (start_match q)).
  Definition SR (p q : option arg_shape) : Prop :=
    p = q \/ exists x y, p = Some (SRight x) /\ q = Some (SRight y) /\ AR x y.
  Definition ER (p q : option arg_pattern) : Prop :=
    p = q \/ exists x y, p = Some x /\ q = Some y /\ AR x y.
  Hypothesis Hcmd : forall a b k name, R a b -> pk1 a = Some (k, 92%N :: name) -> kind_of_token k = ClauseCommandName ->
    SR (option_map cs_args (get_cmd sp1 name)) (option_map cs_args (get_cmd sp2 name)).
  Hypothesis Henv : forall a b name, R a b -> pk1 a = Some (CommandName BeginEnvironment, name) ->
    ER (option_map en_args (get_env sp1 name)) (option_map en_args (get_env sp2 name)).
  Inductive CR : call -> call -> Prop :=
  | cr_same c : CR c c
  | cr_match g m n cur : MR m n -> CR (KMatch g m cur) (KMatch g n cur).

  Notation pst1 := (@pst L1). Notation pst2 := (@pst L2).
  Definition PR (a : pst1) (b : pst2) : Prop :=
    R (p_lex a) (p_lex b) /\ p_b a = p_b b /\ p_trivia a = p_trivia b /\ p_start a = p_start b /\
    p_last a = p_last b /\ p_scope a = p_scope b.
  Definition BR (a : bool * pst1) (b : bool * pst2) : Prop := fst a = fst b /\ PR (snd a) (snd b).
  Notation rp := (rres loose PR).
  Notation rb := (rres loose BR).

  Lemma PR_mk a b bb t s l sc : R a b -> PR (mk_pst a bb t s l sc) (mk_pst b bb t s l sc).
  Proof. intros H. repeat split; assumption. Qed.
  Lemma PR_inv (P : pst1 -> pst2 -> Prop) :
    (forall a b bb t s l sc, R a b -> P (mk_pst a bb t s l sc) (mk_pst b bb t s l sc)) -> forall a b, PR a b -> P a b.
  Proof.
    intros H [a bb t s l sc] [b bb' t' s' l' sc'] (H1 & H2 & H3 & H4 & H5 & H6). simpl in *. subst. now apply H.
  Qed.
  Lemma peek_sim a b : PR a b -> p_peek pk1 a = p_peek pk2 b.
  Proof. intros (H & _). unfold p_peek. now rewrite (Hpk _ _ H). Qed.
  Lemma pk_sim a b : PR a b -> pk1 (p_lex a) = pk2 (p_lex b).
  Proof. intros (H & _). exact (Hpk _ _ H). Qed.

  Ltac pr := repeat split; simpl; try assumption; try reflexivity; try congruence.
  Lemma lex_eat_sim a b : PR a b -> rres loose (fun x y => fst x = fst y /\ PR (snd x) (snd y)) (lex_eat pk1 nx1 a) (lex_eat pk2 nx2 b).
  Proof.
    intros H. unfold lex_eat. rewrite <- (pk_sim _ _ H). destruct (pk1 (p_lex a)) as [t|] eqn:E; [|reflexivity].
    eapply rres_bind; [apply Hnx; [apply H|congruence]|]. intros l l' Hl. simpl. split; [reflexivity|].
    destruct H as (H1 & H2 & H3 & H4 & H5 & H6). pr.
  Qed.
  Lemma eat_sim a b : PR a b -> rp (eat pk1 nx1 a) (eat pk2 nx2 b).
  Proof.
    intros H. unfold eat. eapply rres_bind; [exact (lex_eat_sim _ _ H)|]. intros [t a'] [t' b'] [E (H1 & H2 & H3 & H4 & H5 & H6)].
    simpl in *. subst. pr.
  Qed.
  Lemma eat_as_sim k a b : PR a b -> rp (eat_as pk1 nx1 k a) (eat_as pk2 nx2 k b).
  Proof.
    intros H. unfold eat_as. eapply rres_bind; [exact (lex_eat_sim _ _ H)|]. intros [t a'] [t' b'] [E (H1 & H2 & H3 & H4 & H5 & H6)].
    simpl in *. subst. pr.
  Qed.
  Lemma drop_sim a b : PR a b -> rp (drop_ pk1 nx1 a) (drop_ pk2 nx2 b).
  Proof.
    intros H. unfold drop_. rewrite <- (pk_sim _ _ H). destruct (pk1 (p_lex a)); [|exact H].
    eapply rres_bind; [exact (lex_eat_sim _ _ H)|]. intros [t' a'] [t'' b'] [_ E]. exact E.
  Qed.
  Lemma eat_if_sim k a b : PR a b -> rp (eat_if_ pk1 nx1 k a) (eat_if_ pk2 nx2 k b).
  Proof.
    intros H. unfold eat_if_. rewrite <- (peek_sim _ _ H). destruct (p_peek pk1 a) as [k'|]; [|exact H].
    destruct (token_eqb k' k); [now apply eat_sim|exact H].
  Qed.
  Lemma hold_sim a b : PR a b -> rp (hold_trivia pk1 nx1 a) (hold_trivia pk2 nx2 b).
  Proof.
    intros H. unfold hold_trivia. eapply rres_bind; [exact (lex_eat_sim _ _ H)|]. intros [t a'] [t' b'] [E (H1 & H2 & H3 & H4 & H5 & H6)].
    simpl in *. subst. pr.
  Qed.
  Lemma token_sim k s a b : PR a b -> PR (token_ k s a) (token_ k s b).
  Proof. intros (H1 & H2 & H3 & H4 & H5 & H6). pr. Qed.
  Lemma start_sim k a b : PR a b -> PR (start_node k a) (start_node k b).
  Proof. intros (H1 & H2 & H3 & H4 & H5 & H6). pr. Qed.
  Lemma ignore_sim a b : PR a b -> PR (ignore_holding_trivia a) (ignore_holding_trivia b).
  Proof. intros (H1 & H2 & H3 & H4 & H5 & H6). pr. Qed.
  Lemma last_sim x a b : PR a b -> PR (with_last x a) (with_last x b).
  Proof. intros (H1 & H2 & H3 & H4 & H5 & H6). pr. Qed.
  Lemma wstart_sim x a b : PR a b -> PR (with_start x a) (with_start x b).
  Proof. intros (H1 & H2 & H3 & H4 & H5 & H6). pr. Qed.
  Lemma list_sim_ x y z a b : PR a b -> PR (with_list x y z a) (with_list x y z b).
  Proof. intros (H1 & H2 & H3 & H4 & H5 & H6). pr. Qed.
  Lemma checkpoint_sim a b : PR a b -> checkpoint a = checkpoint b.
  Proof. intros (H1 & H2 & _). unfold checkpoint. now rewrite H2. Qed.
  Lemma extract_sim a b : PR a b -> PR (extract_holding_trivia a) (extract_holding_trivia b).
  Proof.
    intros H. unfold extract_holding_trivia. assert (E : p_trivia a = p_trivia b) by apply H. rewrite E. clear E.
    assert (K : forall h a b, PR a b -> PR (fold_left (fun st (t : tok) => token_ (kind_of_token (fst t)) (snd t) st) h a)
      (fold_left (fun st (t : tok) => token_ (kind_of_token (fst t)) (snd t) st) h b)).
    { induction h as [|t h IH]; intros x y Hx; [exact Hx|]. cbn. apply IH. now apply token_sim. }
    specialize (K (p_trivia b) a b H). destruct K as (H1 & H2 & H3 & H4 & H5 & H6). pr.
  Qed.
  Lemma finish_sim a b : PR a b -> rp (finish_node a) (finish_node b).
  Proof.
    intros (H1 & H2 & H3 & H4 & H5 & H6). unfold finish_node. rewrite H2. destruct (b_finish_node (p_b b)); simpl; auto. pr.
  Qed.
  Lemma start_at_sim cp k a b : PR a b -> rp (start_node_at cp k a) (start_node_at cp k b).
  Proof.
    intros (H1 & H2 & H3 & H4 & H5 & H6). unfold start_node_at. rewrite H2. destruct (b_start_at cp k (p_b b)); simpl; auto. pr.
  Qed.
  Lemma consume_sim cnt s a b : PR a b -> pk1 (p_lex a) = Some (Word, s) ->
    rp (lex_consume pk1 nx1 set1 cnt a) (lex_consume pk2 nx2 set2 cnt b).
  Proof.
    intros H E. unfold lex_consume. rewrite <- (pk_sim _ _ H), E.
    destruct (Nat.leb (blen s) cnt).
    - eapply rres_bind; [apply Hnx; [apply H|congruence]|]. intros l l' Hl.
      destruct H as (H1 & H2 & H3 & H4 & H5 & H6). pr.
    - destruct (split_bytes cnt s) as [[x y]|]; [|reflexivity]. destruct H as (H1 & H2 & H3 & H4 & H5 & H6). pr.
      eapply Hset; eauto.
  Qed.
  Lemma single_sim a b : PR a b -> p_peek pk1 a = Some Word ->
    rp (single_char pk1 nx1 set1 a) (single_char pk2 nx2 set2 b).
  Proof.
    intros H Hp. unfold single_char. rewrite <- (pk_sim _ _ H). unfold p_peek in Hp.
    destruct (pk1 (p_lex a)) as [[k [|c s]]|] eqn:E; try exact H. simpl in Hp. injection Hp as ->.
    apply (consume_sim _ (c :: s)); [now apply token_sim|exact E].
  Qed.

  Section Fun.
    Variables (rec1 : call -> pst1 -> @pres L1) (rec2 : call -> pst2 -> @pres L2).
    Hypothesis IH2 : forall c d a b, CR c d -> PR a b -> rb (rec1 c a) (rec2 d b).
    Lemma IH : forall c a b, PR a b -> rb (rec1 c a) (rec2 c b).
    Proof. intros c a b H. apply IH2; [apply cr_same|exact H]. Qed.

    Lemma rec__sim c a b : PR a b -> rp (rec_ rec1 c a) (rec_ rec2 c b).
    Proof. intros H. unfold rec_. eapply rres_bind; [exact (IH c _ _ H)|]. intros [x a'] [y b'] [_ E]. exact E. Qed.
    Ltac bnd L := eapply rres_bind; [exact L|].
    Lemma trivia_sim a b : PR a b -> rb (trivia_loop pk1 nx1 rec1 a) (trivia_loop pk2 nx2 rec2 b).
    Proof.
      intros H. unfold trivia_loop. rewrite <- (peek_sim _ _ H). destruct (p_peek pk1 a) as [k|]; [|now split].
      destruct (is_trivia k); [|now split]. bnd (eat_sim _ _ H). intros a' b' H'. now apply IH.
    Qed.
    Lemma text_sim a b : PR a b -> rb (text_loop pk1 nx1 rec1 a) (text_loop pk2 nx2 rec2 b).
    Proof.
      intros H. unfold text_loop. rewrite <- (peek_sim _ _ H). destruct (p_peek pk1 a) as [k|]; [|now split].
      destruct (is_text_component k); [|now split]. bnd (eat_sim _ _ H). intros a' b' H'. now apply IH.
    Qed.
    Lemma ifs_sim n a b : PR a b -> rb (ifs_loop pk1 nx1 rec1 n a) (ifs_loop pk2 nx2 rec2 n b).
    Proof.
      intros H. unfold ifs_loop. rewrite <- (peek_sim _ _ H).
      assert (K : forall m, rb (let* st := eat pk1 nx1 a in rec1 (KIfs m) st) (let* st := eat pk2 nx2 b in rec2 (KIfs m) st)).
      { intros m. bnd (eat_sim _ _ H). intros a' b' H'. now apply IH. }
      destruct (p_peek pk1 a) as [k|]; [|now split]. destruct k; try apply K. destruct c; try apply K. destruct n; try apply K.
      bnd (drop_sim _ _ H). intros a' b' H'. now split.
    Qed.
    Lemma list_sim cur a b : PR a b -> rb (list_loop pk1 rec1 cur a) (list_loop pk2 rec2 cur b).
    Proof.
      intros H. unfold list_loop. rewrite <- (peek_sim _ _ H). destruct (p_peek pk1 a) as [k|]; [|now split].
      assert (E : p_scope a = p_scope b) by apply H. rewrite <- E. destruct (stop_by_scope _ k); [now split|].
      bnd (IH (KContent true) _ _ H). intros [x a'] [y b'] [Ex H']. simpl in Ex, H'. subst y.
      assert (H2 : PR (if x then with_last (Some cur) a' else a') (if x then with_last (Some cur) b' else b')).
      { destruct x; [now apply last_sim|exact H']. }
      rewrite (checkpoint_sim _ _ H2). now apply IH.
    Qed.
    Lemma item_list_sim sc a b : PR a b -> rp (item_list rec1 sc a) (item_list rec2 sc b).
    Proof.
      intros H. unfold item_list. rewrite (checkpoint_sim _ _ H).
      eapply rres_bind; [apply rec__sim; apply list_sim_; exact H|]. intros a' b' H'. cbn.
      destruct H as (H1 & H2 & H3 & H4 & H5 & H6). rewrite H4, H5, H6. now apply list_sim_.
    Qed.
    Lemma item_group_sim sc a b : PR a b -> rp (item_group pk1 nx1 rec1 sc a) (item_group pk2 nx2 rec2 sc b).
    Proof.
      intros H. unfold item_group.
      eapply (rres_bind _ eq); [destruct sc; reflexivity|]. intros [e g] ? <-. cbv zeta.
      bnd (eat_sim _ _ (start_sim g _ _ H)). intros a1 b1 H1. bnd (item_list_sim sc _ _ H1). intros a2 b2 H2.
      bnd (eat_if_sim e _ _ H2). intros a3 b3 H3. now apply finish_sim.
    Qed.
    Lemma p_text_sim a b : PR a b -> rp (p_text pk1 nx1 rec1 a) (p_text pk2 nx2 rec2 b).
    Proof.
      intros H. unfold p_text. cbv zeta. bnd (eat_sim _ _ (start_sim ItemText _ _ H)). intros a1 b1 H1.
      bnd (rec__sim KText _ _ H1). intros a2 b2 H2. now apply finish_sim.
    Qed.
    Lemma start_command_sim pos a b : PR a b -> rp (start_command_at pos a) (start_command_at pos b).
    Proof.
      intros H. destruct pos as [cp|]; simpl; [|now apply start_sim].
      bnd (start_at_sim cp ItemCmd _ _ H). intros a1 b1 H1. bnd (start_at_sim cp ClauseArgument _ _ H1). intros a2 b2 H2. now apply finish_sim.
    Qed.
    Lemma p_arg_sim g f1 f2 a b : (forall a b, PR a b -> p_lex a = p_lex a -> rb (f1 a) (f2 b)) -> PR a b -> rb (p_arg g f1 a) (p_arg g f2 b).
    Proof.
      intros Hf H. unfold p_arg. destruct g; [now apply Hf|]. cbv zeta.
      eapply rres_bind; [apply Hf; [apply start_sim; apply ignore_sim; exact H|reflexivity]|]. intros [x a'] [y b'] [Ex H']. simpl in *. subst.
      bnd (finish_sim _ _ H'). intros a2 b2 H2. now split.
    Qed.
    Definition WR (x : bool * matcher * nat * pst1) (y : bool * matcher * nat * pst2) : Prop :=
      fst (fst (fst x)) = fst (fst (fst y)) /\ MR (snd (fst (fst x))) (snd (fst (fst y))) /\ snd (fst x) = snd (fst y) /\ PR (snd x) (snd y).
    Lemma word_args_sim cs : forall m m' cnt a b, MR m m' -> PR a b ->
      rres loose (fun x y => WR x y /\ p_lex (snd x) = p_lex a) (word_args gm cs m cnt a) (word_args gm cs m' cnt b).
    Proof.
      induction cs as [|c cs IHc]; intros m n cnt a b HM H; cbn [word_args]; [split; [|reflexivity]; split; [reflexivity|]; split; [exact HM|]; split; [reflexivity|exact H]|].
      pose proof (Mterm _ _ HM) as [E1 E2].
      destruct (try_match gm m ARG_TERM) as [ok m'], (try_match gm n ARG_TERM) as [ok' n']. cbn [fst snd] in E1, E2. subst ok'.
      destruct ok; cbn [negb]; [|split; [|reflexivity]; split; [reflexivity|]; split; [exact E2|]; split; [reflexivity|exact H]].
      eapply (rres_bind _ (fun x y => BR x y /\ p_lex (snd x) = p_lex a)).
      { revert a b H. apply (PR_inv (fun a b => _)). intros a b bb t s l sc H. destruct bb as [ps ch]. cbn. repeat split; assumption. }
      intros [x a'] [y b'] [[_ H'] El]. simpl in *. rewrite <- El. now apply IHc.
    Qed.

    Lemma match_sim g m m' cur a b : MR m m' -> PR a b ->
      rb (match_loop pk1 nx1 set1 gm rec1 g m cur a) (match_loop pk2 nx2 set2 gm rec2 g m' cur b).
    Proof.
      intros HM H. unfold match_loop. cbv zeta. rewrite <- (pk_sim _ _ H).
      assert (Esc : p_scope a = p_scope b) by apply H.
      assert (Done : rb (Ok (true, a)) (Ok (true, b))) by now split.
      assert (Rest : forall k, rb
        (if stop_by_scope (p_scope a) k then Ok (true, a) else let '(ok, m0) := try_match gm m ARG_TERM in
          if negb ok then Ok (true, a) else
            let* (attachable, st0) := p_arg g (rec1 (KContent true)) a in
            rec1 (KMatch g m0 (if g then checkpoint a else cur)) (if g && attachable then with_last (Some (if g then checkpoint a else cur)) st0 else st0))
        (if stop_by_scope (p_scope b) k then Ok (true, b) else let '(ok, m0) := try_match gm m' ARG_TERM in
          if negb ok then Ok (true, b) else
            let* (attachable, st0) := p_arg g (rec2 (KContent true)) b in
            rec2 (KMatch g m0 (if g then checkpoint b else cur)) (if g && attachable then with_last (Some (if g then checkpoint b else cur)) st0 else st0))).
      { intros k. rewrite <- Esc. destruct (stop_by_scope _ k); [exact Done|].
        pose proof (Mterm _ _ HM) as [E1 E2].
        destruct (try_match gm m ARG_TERM) as [ok m0], (try_match gm m' ARG_TERM) as [ok' m0']. cbn [fst snd] in E1, E2. subst ok'.
        destruct (negb ok); [exact Done|].
        rewrite <- (checkpoint_sim _ _ H).
        eapply rres_bind; [apply p_arg_sim; [intros; now apply IH|exact H]|]. intros [x a'] [y b'] [Ex H']. simpl in *. subst y.
        apply IH2; [now apply cr_match|]. destruct (g && x); [now apply last_sim|exact H']. }
      assert (Triv : rb (let* st := if g then eat pk1 nx1 a else hold_trivia pk1 nx1 a in rec1 (KMatch g m cur) st)
                        (let* st := if g then eat pk2 nx2 b else hold_trivia pk2 nx2 b in rec2 (KMatch g m' cur) st)).
      { eapply rres_bind; [destruct g; [exact (eat_sim _ _ H)|exact (hold_sim _ _ H)]|]. intros a' b' H'. apply IH2; [now apply cr_match|exact H']. }
      destruct (pk1 (p_lex a)) as [[k s]|] eqn:E; [|exact Done].
      destruct k; try exact Done; try exact Triv; try apply Rest.
      - (* TLeft *)
        pose proof (Mleft _ _ _ _ _ _ HM (proj1 H) E) as [E1 E2].
        assert (K : forall sc, rb
          (let '(r, m0) := match_as_term gm m (enc_of b0) in match r with None => Ok (true, a) | Some mt =>
             let* (_, st) := p_arg g (fun st => let* st := if (mt : bool) then eat pk1 nx1 st else item_group pk1 nx1 rec1 sc st in Ok (true, st)) a in
             rec1 (KMatch g m0 (if g then checkpoint a else cur)) (if g then with_last (Some (if g then checkpoint a else cur)) st else st) end)
          (let '(r, m0) := match_as_term gm m' (enc_of b0) in match r with None => Ok (true, b) | Some mt =>
             let* (_, st) := p_arg g (fun st => let* st := if (mt : bool) then eat pk2 nx2 st else item_group pk2 nx2 rec2 sc st in Ok (true, st)) b in
             rec2 (KMatch g m0 (if g then checkpoint b else cur)) (if g then with_last (Some (if g then checkpoint b else cur)) st else st) end)).
        { intros sc. destruct (match_as_term gm m (enc_of b0)) as [r m1], (match_as_term gm m' (enc_of b0)) as [r' m1']. cbn [fst snd] in E1, E2. subst r'.
          destruct r as [mt|]; [|exact Done].
          rewrite <- (checkpoint_sim _ _ H).
          eapply rres_bind; [apply p_arg_sim; [|exact H]|].
          { intros x y Hx _. eapply rres_bind; [destruct mt; [exact (eat_sim _ _ Hx)|exact (item_group_sim sc _ _ Hx)]|]. intros a' b' H'. now split. }
          intros [x a'] [y b'] [_ H']. simpl in *. apply IH2; [now apply cr_match|]. destruct g; [now apply last_sim|exact H']. }
        destruct b0; [exact (K CurlyItem)|exact (K BracketItem)|exact (K ParenItem)].
      - (* Caret *) destruct (negb g); [exact Done|apply Rest].
      - (* Underscore *) destruct (negb g); [exact Done|apply Rest].
      - (* Word *) destruct g; [apply Rest|]. eapply rres_bind; [exact (word_args_sim s m m' 0 _ _ HM H)|].
        intros [[[st1 m1] c1] a'] [[[st2 m2] c2] b'] [(Ee1 & Ee2 & Ee3 & H') El]. cbn [fst snd] in *. subst st2 c2.
        eapply (rres_bind _ PR).
        + destruct (Nat.ltb 0 c1); [|exact H']. eapply consume_sim; [exact H'|]. rewrite El. exact E.
        + intros a2 b2 H2. destruct st1; [now split|]. apply IH2; [now apply cr_match|exact H2].
      - (* NewLine *) rewrite <- Esc. destruct (g && _); [exact Done|]. rewrite Esc at 2. apply Rest.
    Qed.
    Lemma match_arguments_sim g m m' a b : MR m m' -> PR a b -> rp (match_arguments rec1 g m a) (match_arguments rec2 g m' b).
    Proof.
      intros HM H. unfold match_arguments. cbv zeta. rewrite <- (Mgreedy _ _ HM). destruct (negb _); [reflexivity|].
      pose proof (last_sim None _ _ H) as H1. rewrite (checkpoint_sim _ _ H1).
      pose proof (wstart_sim (if g then Some (checkpoint (with_last None b)) else None) _ _ H1) as H2.
      rewrite (checkpoint_sim _ _ H2).
      eapply (rres_bind _ PR).
      { unfold rec_. eapply rres_bind; [apply IH2; [apply cr_match; exact HM|exact H2]|]. intros [x a'] [y b'] [_ E]. exact E. }
      intros a' b' H'. cbn. replace (p_start a) with (p_start b) by (symmetry; apply H). apply last_sim. now apply wstart_sim.
    Qed.
    Lemma right_sim p q a b : MR (start_match p) (start_match q) -> PR a b -> rb (right_command pk1 nx1 rec1 p a) (right_command pk2 nx2 rec2 q b).
    Proof.
      intros HM H. unfold right_command. cbv zeta. rewrite <- (Mgreedy _ _ HM). bnd (eat_sim _ _ H). intros a1 b1 H1.
      eapply (rres_bind _ PR).
      - destruct (is_greedy (start_match p)).
        + bnd (match_arguments_sim true (start_match p) (start_match q) _ _ HM (start_sim ClauseArgument _ _ H1)). intros a2 b2 H2. now apply finish_sim.
        + now apply match_arguments_sim.
      - intros a2 b2 H2. bnd (finish_sim _ _ H2). intros a3 b3 H3. split; [reflexivity|now apply extract_sim].
    Qed.
    Lemma strip_bs s name : strip_prefix (tx "\") s = Some name -> s = 92%N :: name.
    Proof.
      intros H. apply strip_prefix_app in H. exact H.
    Qed.
    Lemma command_sim k a b : PR a b -> p_peek pk1 a = Some k -> kind_of_token k = ClauseCommandName ->
      rb (command pk1 nx1 sp1 rec1 a) (command pk2 nx2 sp2 rec2 b).
    Proof.
      intros H Hp Hk. unfold command. rewrite <- (pk_sim _ _ H). unfold p_peek in Hp.
      destruct (pk1 (p_lex a)) as [[k' s]|] eqn:E; [|reflexivity]. simpl in Hp. injection Hp as ->.
      destruct (strip_prefix (tx "\") s) as [name|] eqn:Es; [|reflexivity]. apply strip_bs in Es. subst s.
      pose proof (Hcmd _ _ _ _ (proj1 H) E Hk) as HS.
      assert (Plain : rb (let* st := eat pk1 nx1 (start_node ItemCmd a) in let* st := finish_node st in Ok (true, st))
                         (let* st := eat pk2 nx2 (start_node ItemCmd b) in let* st := finish_node st in Ok (true, st))).
      { bnd (eat_sim _ _ (start_sim ItemCmd _ _ H)). intros a1 b1 H1. bnd (finish_sim _ _ H1). intros a2 b2 H2. now split. }
      assert (Right : forall p q, MR (start_match p) (start_match q) -> rb (right_command pk1 nx1 rec1 p (start_node ItemCmd a)) (right_command pk2 nx2 rec2 q (start_node ItemCmd b))).
      { intros p q HM. apply right_sim; [exact HM|]. now apply start_sim. }
      assert (Right0 : forall p, rb (right_command pk1 nx1 rec1 p (start_node ItemCmd a)) (right_command pk2 nx2 rec2 p (start_node ItemCmd b))).
      { intros p. apply Right. apply Mrefl. }
      assert (E1 : p_last a = p_last b) by apply H. assert (E2 : p_start a = p_start b) by apply H.
      destruct HS as [HS|(x & y & HS1 & HS2 & HA)];
        [rewrite <- HS|rewrite HS1, HS2; destruct HA as [<-|(N1 & N2 & HM)];
          [destruct x as [|[|q]| | |]; first [exact Plain|apply Right0]
          |destruct x as [|[|p1]| | |]; try discriminate N1; destruct y as [|[|p2]| | |]; try discriminate N2; now apply Right]].
      destruct (option_map cs_args (get_cmd sp1 name)) as [[p| |]|]; cbv iota zeta.
      - destruct p as [|[|q]| | |]; first [exact Plain|apply Right0].
      - rewrite E1, E2. bnd (start_command_sim (match p_last b with Some p => Some p | None => p_start b end) _ _ H). intros a1 b1 H1.
        bnd (eat_sim _ _ H1). intros a2 b2 H2. bnd (finish_sim _ _ H2). intros a3 b3 H3. now split.
      - rewrite E2. bnd (start_command_sim (p_start b) _ _ (wstart_sim None _ _ H)). intros a1 b1 H1. apply right_sim; [apply Mrefl|exact H1].
      - exact Plain.
    Qed.
    Lemma environment_sim a b : PR a b -> p_peek pk1 a = Some (CommandName BeginEnvironment) ->
      rp (environment pk1 nx1 sp1 rec1 a) (environment pk2 nx2 sp2 rec2 b).
    Proof.
      intros H Hp. unfold environment. cbv zeta.
      pose proof (start_sim ItemBegin _ _ (start_sim ItemEnv _ _ H)) as H0.
      rewrite <- (pk_sim _ _ H0). unfold p_peek in Hp. cbn [p_lex start_node with_b].
      destruct (pk1 (p_lex a)) as [[k' s]|] eqn:E; [|reflexivity]. simpl in Hp. injection Hp as ->.
      bnd (eat_sim _ _ H0). intros a1 b1 H1. pose proof (Henv _ _ _ (proj1 H) E) as HE.
      eapply (rres_bind _ PR).
      { destruct HE as [HE|(x & y & HS1 & HS2 & HA)];
          [rewrite <- HE|rewrite HS1, HS2; destruct HA as [<-|(N1 & N2 & HM)];
            [destruct x as [|[|q]| | |]; try exact H1; apply match_arguments_sim; try apply Mrefl; exact H1
            |destruct x as [|[|p1]| | |]; try discriminate N1; destruct y as [|[|p2]| | |]; try discriminate N2; now apply match_arguments_sim]].
        destruct (option_map en_args (get_env sp1 s)) as [[|[|q]| | |]|]; try exact H1; apply match_arguments_sim; try apply Mrefl; exact H1. }
      intros a2 b2 H2. bnd (finish_sim _ _ H2). intros a3 b3 H3.
      bnd (item_list_sim Environment _ _ (extract_sim _ _ H3)). intros a4 b4 H4.
      eapply (rres_bind _ PR).
      { rewrite <- (peek_sim _ _ H4). destruct (p_peek pk1 a4) as [[]|]; try exact H4. destruct c; try exact H4.
        bnd (eat_sim _ _ (start_sim ItemEnd _ _ H4)). intros a5 b5 H5. now apply finish_sim. }
      intros a5 b5 H5. now apply finish_sim.
    Qed.
    Lemma clause_lr_sim a b : PR a b -> rp (clause_lr pk1 nx1 set1 rec1 a) (clause_lr pk2 nx2 set2 rec2 b).
    Proof.
      intros H. unfold clause_lr. cbv zeta. bnd (eat_sim _ _ (start_sim ClauseLR _ _ H)). intros a1 b1 H1.
      bnd (rec__sim KTrivia _ _ H1). intros a2 b2 H2. eapply (rres_bind _ PR).
      { rewrite <- (peek_sim _ _ H2). destruct (p_peek pk1 a2) as [k|] eqn:E; [|exact H2].
        destruct k; try exact H2; try now apply eat_sim.
        - now apply single_sim.
        - destruct c; try exact H2. now apply eat_as_sim. }
      intros a3 b3 H3. now apply finish_sim.
    Qed.
    Lemma item_lr_sim a b : PR a b -> rp (item_lr pk1 nx1 set1 rec1 a) (item_lr pk2 nx2 set2 rec2 b).
    Proof.
      intros H. unfold item_lr. cbv zeta. bnd (clause_lr_sim _ _ (start_sim ItemLR _ _ H)). intros a1 b1 H1.
      bnd (item_list_sim LR _ _ H1). intros a2 b2 H2. eapply (rres_bind _ PR).
      { rewrite <- (peek_sim _ _ H2). destruct (p_peek pk1 a2) as [[]|]; try exact H2. destruct c; try exact H2. now apply clause_lr_sim. }
      intros a3 b3 H3. now apply finish_sim.
    Qed.
    Lemma if_block_sim k a b : PR a b -> rp (if_block pk1 nx1 rec1 k a) (if_block pk2 nx2 rec2 k b).
    Proof.
      intros H. unfold if_block. cbv zeta. bnd (drop_sim _ _ (start_sim k _ _ H)). intros a1 b1 H1.
      bnd (rec__sim (KIfs 0) _ _ H1). intros a2 b2 H2. now apply finish_sim.
    Qed.
    Lemma error_sim a b : PR a b -> rp (error_node pk1 nx1 a) (error_node pk2 nx2 b).
    Proof.
      intros H. unfold error_node. cbv zeta. bnd (eat_sim _ _ (start_sim TokenError _ _ H)). intros a1 b1 H1. now apply finish_sim.
    Qed.
    Lemma attach_sim has a b : PR a b -> rp (attach_component pk1 nx1 rec1 has a) (attach_component pk2 nx2 rec2 has b).
    Proof.
      intros H. unfold attach_component. cbv zeta.
      assert (K : forall a b, PR a b -> rp
        (let* st := eat pk1 nx1 a in let* st := if has then let* st := rec_ rec1 KTrivia st in rec_ rec1 (KContent false) st else Ok st in finish_node st)
        (let* st := eat pk2 nx2 b in let* st := if has then let* st := rec_ rec2 KTrivia st in rec_ rec2 (KContent false) st else Ok st in finish_node st)).
      { clear a b H. intros a b H. bnd (eat_sim _ _ H). intros a1 b1 H1. eapply (rres_bind _ PR).
        - destruct has; [|exact H1]. bnd (rec__sim KTrivia _ _ H1). intros a2 b2 H2. now apply rec__sim.
        - intros a2 b2 H2. now apply finish_sim. }
      assert (E1 : p_last a = p_last b) by apply H. rewrite E1. destruct (p_last b) as [cp|].
      - bnd (start_at_sim cp ItemAttachComponent _ _ H). intros a1 b1 H1. bnd (start_at_sim cp ClauseArgument _ _ H1). intros a2 b2 H2.
        bnd (finish_sim _ _ H2). intros a3 b3 H3. now apply K.
      - destruct (negb has); [now apply eat_sim|]. apply K. now apply start_sim.
    Qed.
    Lemma content_sim ns a b : PR a b -> rb (content pk1 nx1 set1 sp1 rec1 ns a) (content pk2 nx2 set2 sp2 rec2 ns b).
    Proof.
      intros H. unfold content. cbv zeta. rewrite <- (peek_sim _ _ H).
      assert (Y : forall r (x : res pst1) (y : res pst2), rp x y -> rb (let* st := x in Ok (r, st)) (let* st := y in Ok (r, st))).
      { intros r x y Hx. bnd Hx. intros a' b' H'. now split. }
      destruct (p_peek pk1 a) as [k|] eqn:E; [|now split].
      pose proof (Y true _ _ (eat_sim _ _ H)) as Y1. pose proof (Y false _ _ (eat_sim _ _ H)) as Y2.
      pose proof (Y true _ _ (error_sim _ _ H)) as Y3.
      pose proof (Y false _ _ (attach_sim true _ _ H)) as Y4.
      destruct k; try assumption.
      - destruct b0; try assumption. apply Y. now apply item_group_sim.
      - destruct b0; try assumption.
      - apply Y. now apply p_text_sim.
      - apply Y. now apply attach_sim.
      - apply Y. destruct ns; [now apply p_text_sim|now apply single_sim].
      - apply Y. now apply item_group_sim.
      - destruct c; try assumption; try (now apply (command_sim _ _ _ H E)); try (apply Y; now apply item_group_sim).
        + apply Y. now apply environment_sim.
        + destruct i; try (now apply (command_sim _ _ _ H E)); apply Y; now apply if_block_sim.
        + apply Y. now apply item_lr_sim.
    Qed.
    Lemma dispatch_sim c d a b : CR c d -> PR a b -> rb (dispatch pk1 nx1 set1 gm sp1 rec1 c a) (dispatch pk2 nx2 set2 gm sp2 rec2 d b).
    Proof.
      intros HC H. destruct HC as [c|g m n cur HM]; [|cbn [dispatch]; now apply match_sim]. destruct c; cbn [dispatch].
      - now apply content_sim.
      - now apply list_sim.
      - apply match_sim; [apply Mrefl|exact H].
      - now apply trivia_sim.
      - now apply text_sim.
      - now apply ifs_sim.
    Qed.
  End Fun.

  Lemma run_sim : forall f1 f2 c d a b, f1 <= f2 -> (loose \/ f1 = f2) -> CR c d -> PR a b ->
    rb (run pk1 nx1 set1 gm sp1 f1 c a) (run pk2 nx2 set2 gm sp2 f2 d b).
  Proof.
    induction f1 as [|f1 IHf]; intros [|f2] c d a b Hle Hl HC H; cbn [run].
    - exact I.
    - destruct Hl as [Hl|Hl]; [|discriminate]. simpl. destruct (dispatch _ _ _ _ _ _ _ _); exact Hl || exact I.
    - lia.
    - apply dispatch_sim; [|exact HC|exact H]. intros c' d' a' b' HC' H'. apply IHf; [lia| |exact HC'|exact H']. destruct Hl; [now left|right; lia].
  Qed.
  Lemma parse_sim f1 f2 l1 l2 : f1 <= f2 -> (loose \/ f1 = f2) -> R l1 l2 ->
    rres loose eq (parse pk1 nx1 set1 gm sp1 f1 l1) (parse pk2 nx2 set2 gm sp2 f2 l2).
  Proof.
    intros Hle Hl H. unfold parse. cbv zeta.
    eapply rres_bind; [apply item_list_sim; [intros; now apply run_sim|apply start_sim; now apply PR_mk]|]. intros a1 b1 H1.
    eapply rres_bind; [exact (finish_sim _ _ H1)|]. intros a2 b2 H2.
    replace (p_b a2) with (p_b b2) by (symmetry; apply H2). destruct (b_finish (p_b b2)); reflexivity.
  Qed.
End Sim.
