(** The parser reads its lexer to the end: whenever it answers with a tree, the
    lexer has delivered all its tokens without panicking. *)
From Verif Require Export ParserSource.
Local Open Scope nat_scope.

Section End.
  Context {L : Type}.
  Variable pk : L -> option tok.
  Variable nx : L -> res L.
  Variable set_text : text -> L -> L.
  Variable gm : text -> text -> bool.
  Variable sp : spec.
  Notation pst := (@pst L).

  Definition sk (sc : scope) (r : res pst) : Prop := part r (fun st => p_scope st = sc).
  Definition skb (sc : scope) (r : res (bool * pst)) : Prop := part r (fun x => p_scope (snd x) = sc).
  Lemma sk_bind sc (x : res pst) f : sk sc x -> (forall st, p_scope st = sc -> sk sc (f st)) -> sk sc (bind x f).
  Proof. unfold sk. destruct x; simpl; auto. Qed.
  Lemma sk_bindb sc (x : res pst) f : sk sc x -> (forall st, p_scope st = sc -> skb sc (f st)) -> skb sc (bind x f).
  Proof. unfold sk, skb. destruct x; simpl; auto. Qed.
  Lemma skb_bind sc (x : res (bool * pst)) f : skb sc x -> (forall b st, p_scope st = sc -> skb sc (f (b, st))) -> skb sc (bind x f).
  Proof. unfold skb. destruct x as [[? ?]| |]; simpl; auto. Qed.
  Lemma skb_bind_ sc (x : res (bool * pst)) f : skb sc x -> (forall b st, p_scope st = sc -> sk sc (f (b, st))) -> sk sc (bind x f).
  Proof. unfold sk, skb. destruct x as [[? ?]| |]; simpl; auto. Qed.

  Lemma lex_eat_sk sc st : p_scope st = sc -> part (lex_eat pk nx st) (fun x => p_scope (snd x) = sc).
  Proof. intros H. unfold lex_eat. destruct (pk _); simpl; auto. destruct (nx _); simpl; auto. Qed.
  Lemma eat_sk sc st : p_scope st = sc -> sk sc (eat pk nx st).
  Proof. intros H. unfold eat, sk. eapply part_bind; [exact (lex_eat_sk sc st H)|]. intros [? ?] E. exact E. Qed.
  Lemma eat_as_sk k sc st : p_scope st = sc -> sk sc (eat_as pk nx k st).
  Proof. intros H. unfold eat_as, sk. eapply part_bind; [exact (lex_eat_sk sc st H)|]. intros [? ?] E. exact E. Qed.
  Lemma drop_sk sc st : p_scope st = sc -> sk sc (drop_ pk nx st).
  Proof. intros H. unfold drop_, sk. destruct (pk _); [|exact H]. eapply part_bind; [exact (lex_eat_sk sc st H)|]. intros [? ?] E. exact E. Qed.
  Lemma eat_if_sk k sc st : p_scope st = sc -> sk sc (eat_if_ pk nx k st).
  Proof. intros H. unfold eat_if_. destruct (p_peek _ _) as [k'|]; [|exact H]. destruct (token_eqb k' k); [now apply eat_sk|exact H]. Qed.
  Lemma hold_sk sc st : p_scope st = sc -> sk sc (hold_trivia pk nx st).
  Proof. intros H. unfold hold_trivia, sk. eapply part_bind; [exact (lex_eat_sk sc st H)|]. intros [? ?] E. exact E. Qed.
  Lemma finish_sk sc st : p_scope st = sc -> sk sc (@finish_node L st).
  Proof. intros H. unfold finish_node, sk. destruct (b_finish_node _); simpl; auto. Qed.
  Lemma start_at_sk cp k sc st : p_scope st = sc -> sk sc (@start_node_at L cp k st).
  Proof. intros H. unfold start_node_at, sk. destruct (b_start_at _ _ _); simpl; auto. Qed.
  Lemma consume_sk n sc st : p_scope st = sc -> sk sc (lex_consume pk nx set_text n st).
  Proof.
    intros H. unfold lex_consume, sk. destruct (pk _) as [[k s]|]; [|exact H]. destruct (Nat.leb _ _).
    - destruct (nx _); simpl; auto.
    - destruct (split_bytes n s) as [[? ?]|]; simpl; auto.
  Qed.
  Lemma single_sk sc st : p_scope st = sc -> sk sc (single_char pk nx set_text st).
  Proof. intros H. unfold single_char. destruct (pk _) as [[k [|c s]]|]; try exact H. now apply consume_sk. Qed.
  Lemma extract_sk sc (st : pst) : p_scope st = sc -> p_scope (extract_holding_trivia st) = sc.
  Proof.
    intros H. unfold extract_holding_trivia. simpl. generalize (p_trivia st). intros l. revert st H.
    induction l as [|t l IH]; intros st H; simpl; auto.
  Qed.

  Section Rec.
    Variable rec : call -> pst -> res (bool * pst).
    Hypothesis Hrec : forall c sc st, p_scope st = sc -> skb sc (rec c st).
    Lemma rec_sk c sc st : p_scope st = sc -> sk sc (rec_ rec c st).
    Proof. intros H. unfold rec_. eapply skb_bind_; [now apply Hrec|]. intros b st' E. exact E. Qed.

    Ltac go := first
      [ eapply sk_bind; [|intros ? ?]
      | eapply sk_bindb; [|intros ? ?]
      | eapply skb_bind; [|intros ? ? ?]
      | eapply skb_bind_; [|intros ? ? ?]
      | apply eat_sk | apply eat_as_sk | apply drop_sk | apply eat_if_sk | apply hold_sk | apply finish_sk
      | apply start_at_sk | apply consume_sk | apply single_sk | apply rec_sk | apply Hrec ]; try assumption; try exact I.
    Ltac gos := cbv zeta; repeat go; try assumption; try (unfold sk, skb; simpl; assumption).

    Lemma item_list_sk s sc st : p_scope st = sc -> sk sc (item_list rec s st).
    Proof.
      intros H. unfold item_list. cbv zeta. unfold sk. pose proof (rec_sk (KList (checkpoint st)) s (with_list (Some (checkpoint st)) None s st) eq_refl) as K.
      destruct (rec_ _ _ _); simpl; auto.
    Qed.
    Lemma item_group_sk s sc st : p_scope st = sc -> sk sc (item_group pk nx rec s st).
    Proof.
      intros H. unfold item_group.
      assert (K : forall e k, sk sc (let st := start_node k st in let* st := eat pk nx st in let* st := item_list rec s st in
         let* st := eat_if_ pk nx e st in finish_node st)).
      { intros e k. cbv zeta. eapply sk_bind; [now apply eat_sk|intros s1 H1]. eapply sk_bind; [now apply item_list_sk|intros s2 H2]. gos. }
      destruct s; try exact I; apply K.
    Qed.
    Lemma text_sk sc st : p_scope st = sc -> sk sc (p_text pk nx rec st).
    Proof. intros H. unfold p_text. gos. Qed.
    Lemma start_command_sk pos sc st : p_scope st = sc -> sk sc (@start_command_at L pos st).
    Proof. intros H. unfold start_command_at. destruct pos; gos. Qed.
    Lemma arg_sk g (f : pst -> res (bool * pst)) sc st : p_scope st = sc -> (forall st, p_scope st = sc -> skb sc (f st)) ->
      skb sc (p_arg g f st).
    Proof.
      intros H Hf. unfold p_arg. destruct g; [auto|]. cbv zeta. eapply skb_bind; [now apply Hf|intros b s1 H1].
      gos.
    Qed.
    Lemma word_args_sk sc cs : forall m n (st : pst), p_scope st = sc -> part (word_args gm cs m n st) (fun '(_, _, _, st) => p_scope st = sc).
    Proof.
      induction cs as [|c cs IH]; intros m n st H; [exact H|]. cbn [word_args].
      destruct (try_match gm m ARG_TERM) as [ok m']. destruct (negb ok); [exact H|].
      eapply part_bind; [apply (arg_sk false (fun st => Ok (true, token_ TokenWord [c] st)) sc st H); intros s1 H1; exact H1|].
      intros [b s1] H1. apply IH. exact H1.
    Qed.
    Lemma match_sk g m cur sc st : p_scope st = sc -> skb sc (match_loop pk nx set_text gm rec g m cur st).
    Proof.
      intros H. unfold match_loop. cbv zeta.
      match goal with |- context [if stop_by_scope (p_scope st) ?x then _ else _] => idtac | _ => idtac end.
      assert (Hr : forall k, skb sc (if stop_by_scope (p_scope st) k then Ok (true, st) else
        let '(ok, m) := try_match gm m ARG_TERM in
        if negb ok then Ok (true, st) else
          let* (attachable, st0) := p_arg g (rec (KContent true)) st in
          rec (KMatch g m (if g then checkpoint st else cur)) (if g && attachable then with_last (Some (if g then checkpoint st else cur)) st0 else st0))).
      { intros k. destruct (stop_by_scope _ _); [exact H|]. destruct (try_match gm m ARG_TERM) as [ok m']. destruct (negb ok); [exact H|].
        eapply skb_bind; [apply arg_sk; [exact H|intros; now apply Hrec]|]. intros b s1 H1. apply Hrec. destruct (g && b); exact H1. }
      destruct (pk (p_lex st)) as [[k s]|]; [|exact H].
      assert (Htriv : skb sc (let* st0 := if g then eat pk nx st else hold_trivia pk nx st in rec (KMatch g m cur) st0)).
      { eapply sk_bindb; [destruct g; gos|]. intros s1 H1. now apply Hrec. }
      destruct k; try exact (Hr _); try exact Htriv.
      - destruct (match b with Curly => _ | Bracket => _ | Paren => _ end) as [enc scp].
        destruct (match_as_term gm m enc) as [[mt|] m']; [|exact H].
        eapply skb_bind; [apply arg_sk; [exact H|]|].
        + intros s1 H1. destruct mt; (eapply sk_bindb; [|intros ? ?]); try (now apply eat_sk); try (now apply item_group_sk); assumption.
        + intros b0 s1 H1. apply Hrec. destruct g; exact H1.
      - exact H.
      - destruct (negb g); [exact H|exact (Hr _)].
      - destruct (negb g); [exact H|exact (Hr _)].
      - destruct g; [exact (Hr _)|]. unfold skb. eapply part_bind; [exact (word_args_sk sc s m 0 st H)|].
        intros [[[stopped m'] cnt] s1] H1. cbn beta iota in H1.
        assert (K : sk sc (if Nat.ltb 0 cnt then lex_consume pk nx set_text cnt s1 else Ok s1)) by (destruct (Nat.ltb 0 cnt); [now apply consume_sk|exact H1]).
        eapply part_bind; [exact K|]. intros s2 H2. destruct stopped; [exact H2|]. now apply Hrec.
      - destruct (g && _); [exact H|exact (Hr _)].
    Qed.
    Lemma match_arguments_sk g m sc st : p_scope st = sc -> sk sc (match_arguments rec g m st).
    Proof.
      intros H. unfold match_arguments. cbv zeta. destruct (negb _); [exact I|]. eapply sk_bind; [apply rec_sk; exact H|].
      intros s1 H1. exact H1.
    Qed.
    Lemma right_sk p sc st : p_scope st = sc -> skb sc (right_command pk nx rec p st).
    Proof.
      intros H. unfold right_command. cbv zeta. eapply sk_bindb; [now apply eat_sk|intros s1 H1].
      eapply sk_bindb.
      { destruct (is_greedy (start_match p)); [|now apply match_arguments_sk].
        eapply sk_bind; [apply match_arguments_sk; exact H1|intros s2 H2]. gos. }
      intros s2 H2. eapply sk_bindb; [now apply finish_sk|intros s3 H3]. unfold skb. simpl. now apply extract_sk.
    Qed.
    Lemma command_sk sc st : p_scope st = sc -> skb sc (command pk nx sp rec st).
    Proof.
      intros H. unfold command. destruct (pk _) as [[k s]|]; [|exact I]. destruct (strip_prefix _ _) as [name|]; [|exact I].
      assert (K0 : skb sc (let* st0 := eat pk nx (start_node ItemCmd st) in let* st1 := finish_node st0 in Ok (true, st1))) by gos.
      assert (K1 : forall p, skb sc (right_command pk nx rec p (start_node ItemCmd st))) by (intros p; now apply right_sk).
      destruct (option_map cs_args (get_cmd sp name)) as [[p| |]|]; cbv zeta.
      - destruct p as [|n|? ?| |?]; try apply K1; try exact K0. destruct n; [exact K0|apply K1].
      - eapply sk_bindb; [now apply start_command_sk|intros s1 H1]. gos.
      - eapply sk_bindb; [apply start_command_sk; exact H|intros s1 H1]. now apply right_sk.
      - exact K0.
    Qed.
    Lemma environment_sk sc st : p_scope st = sc -> sk sc (environment pk nx sp rec st).
    Proof.
      intros H. unfold environment. cbv zeta. destruct (pk _) as [[k s]|]; [|exact I].
      eapply sk_bind; [apply eat_sk; exact H|intros s1 H1].
      eapply sk_bind.
      { assert (K : forall p, sk sc (match_arguments rec false (start_match p) s1)) by (intros; now apply match_arguments_sk).
        destruct (option_map en_args _) as [[|n|? ?| |?]|]; try exact H1; try apply K. destruct n; [exact H1|apply K]. }
      intros s2 H2. eapply sk_bind; [now apply finish_sk|intros s3 H3].
      eapply sk_bind; [apply item_list_sk; now apply extract_sk|intros s4 H4].
      assert (K : sk sc (match p_peek pk s4 with Some (CommandName EndEnvironment) =>
         let* st := eat pk nx (start_node ItemEnd s4) in finish_node st | _ => Ok s4 end)).
      { destruct (p_peek pk s4) as [[]|]; try exact H4. destruct c; try exact H4. gos. }
      eapply sk_bind; [exact K|intros s5 H5]. gos.
    Qed.
    Lemma clause_sk sc st : p_scope st = sc -> sk sc (clause_lr pk nx set_text rec st).
    Proof.
      intros H. unfold clause_lr. cbv zeta. eapply sk_bind; [now apply eat_sk|intros s1 H1].
      eapply sk_bind; [now apply rec_sk|intros s2 H2].
      match goal with |- sk sc (bind ?x _) => assert (K : sk sc x) end.
      { destruct (p_peek pk s2) as [[]|]; try (now apply eat_sk); try exact H2; try now apply single_sk.
        destruct c; try exact H2. now apply eat_as_sk. }
      eapply sk_bind; [exact K|intros s3 H3]. gos.
    Qed.
    Lemma item_lr_sk sc st : p_scope st = sc -> sk sc (item_lr pk nx set_text rec st).
    Proof.
      intros H. unfold item_lr. cbv zeta. eapply sk_bind; [now apply clause_sk|intros s1 H1].
      eapply sk_bind; [now apply item_list_sk|intros s2 H2].
      match goal with |- sk sc (bind ?x _) => assert (K : sk sc x) end.
      { destruct (p_peek pk s2) as [[]|]; try exact H2. destruct c; try exact H2. now apply clause_sk. }
      eapply sk_bind; [exact K|intros s3 H3]. gos.
    Qed.
    Lemma if_block_sk k sc st : p_scope st = sc -> sk sc (if_block pk nx rec k st).
    Proof. intros H. unfold if_block. gos. Qed.
    Lemma attach_sk b sc st : p_scope st = sc -> sk sc (attach_component pk nx rec b st).
    Proof.
      intros H. unfold attach_component. cbv zeta.
      assert (K : forall st, p_scope st = sc -> sk sc (let* st := eat pk nx st in
        let* st := if b then let* st := rec_ rec KTrivia st in rec_ rec (KContent false) st else Ok st in finish_node st)).
      { intros s H1. eapply sk_bind; [now apply eat_sk|intros s1 H2]. eapply sk_bind; [destruct b; gos|]. intros s2 H3. gos. }
      destruct (p_last st); [do 3 (eapply sk_bind; [gos|intros ? ?]); now apply K|].
      destruct (negb b); [now apply eat_sk|now apply K].
    Qed.
    Lemma error_sk sc st : p_scope st = sc -> sk sc (error_node pk nx st).
    Proof. intros H. unfold error_node. gos. Qed.
    Lemma content_sk ns sc st : p_scope st = sc -> skb sc (content pk nx set_text sp rec ns st).
    Proof.
      intros H. unfold content. cbv zeta.
      assert (K : forall b r, sk sc r -> skb sc (let* st := r in Ok (b, st) : res (bool * pst))).
      { intros b r Hr. eapply sk_bindb; [exact Hr|]. intros s1 H1. exact H1. }
      destruct (p_peek pk st) as [c|]; [|exact H].
      destruct c; try (apply K; first [now apply eat_sk|now apply attach_sk|now apply error_sk|now apply item_group_sk|now apply text_sk]).
      - destruct b; apply K; [now apply item_group_sk|now apply eat_sk|now apply eat_sk].
      - destruct b; apply K; [now apply error_sk|now apply eat_sk|now apply eat_sk].
      - apply K. destruct ns; [now apply text_sk|now apply single_sk].
      - destruct c; try (now apply command_sk); try (apply K; first [now apply environment_sk|now apply eat_sk|now apply error_sk|now apply item_group_sk|now apply item_lr_sk]).
        destruct i; try (now apply command_sk); apply K; now apply if_block_sk.
    Qed.
    Lemma dispatch_sk c sc st : p_scope st = sc -> skb sc (dispatch pk nx set_text gm sp rec c st).
    Proof.
      intros H. destruct c; cbn [dispatch].
      - now apply content_sk.
      - unfold list_loop. destruct (p_peek pk st) as [k|]; [|exact H]. destruct (stop_by_scope _ _); [exact H|].
        eapply skb_bind; [now apply Hrec|]. intros b s1 H1. cbv zeta. apply Hrec. destruct b; exact H1.
      - now apply match_sk.
      - unfold trivia_loop. destruct (p_peek pk st) as [k|]; [|exact H]. destruct (is_trivia k); [gos|exact H].
      - unfold text_loop. destruct (p_peek pk st) as [k|]; [|exact H]. destruct (is_text_component k); [gos|exact H].
      - unfold ifs_loop. destruct (p_peek pk st) as [k|]; [|exact H]. destruct k; try (gos; fail). destruct c; try (gos; fail).
        destruct nested; gos.
    Qed.
  End Rec.
  Lemma run_sk fuel : forall c sc st, p_scope st = sc -> skb sc (Parser.run pk nx set_text gm sp fuel c st).
  Proof. induction fuel as [|n IH]; intros c sc st H; [exact I|]. cbn [Parser.run]. apply dispatch_sk; auto. Qed.
  (** the outermost loop stops only at the end of input *)
  Lemma root_loop fuel : forall cur st, p_scope st = Root ->
    part (Parser.run pk nx set_text gm sp fuel (KList cur) st) (fun x => pk (p_lex (snd x)) = None).
  Proof.
    induction fuel as [|n IH]; intros cur st H; [exact I|]. cbn [Parser.run]. unfold dispatch, list_loop.
    destruct (p_peek pk st) as [k|] eqn:E.
    - rewrite H. cbn [stop_by_scope]. eapply part_bind; [exact (run_sk n (KContent true) Root st H)|].
      intros [b s1] H1. cbv zeta. apply IH. destruct b; exact H1.
    - simpl. unfold p_peek in E. destruct (pk (p_lex st)); [discriminate|reflexivity].
  Qed.
End End.

(** ** The lexer *)
Section Reads.
  Context {B : Type}.
  Variable bump : B -> res (list tok * B).
  Inductive reads : lexer B -> lexer B -> Prop :=
  | rd_refl l : reads l l
  | rd_next l l' l2 : lx_peeked l <> None -> lx_next bump l = Ok l' -> reads l' l2 -> reads l l2
  | rd_set l s s' l2 : lx_peeked l = Some (Word, s) -> reads (lx_set s' l) l2 -> reads l l2.
  Lemma reads_trans a b c : reads a b -> reads b c -> reads a c.
  Proof. induction 1; intros; [assumption|eapply rd_next; eauto|eapply rd_set; eauto]. Qed.
  Lemma reads_drain a b : reads a b -> lx_peeked b = None -> exists n ts, lx_drain bump n a = Ok ts.
  Proof.
    induction 1 as [l|l l' l2 Hp Hn H IH|l s s' l2 Hp H IH]; intros E.
    - exists 1, []. simpl. unfold lx_eat. now rewrite E.
    - destruct (IH E) as (n & ts & Hd). destruct (lx_peeked l) as [t|] eqn:Ep; [|contradiction].
      exists (S n), (t :: ts). simpl. unfold lx_eat. rewrite Ep.
      change (lx_next bump (mk_lexer None (lx_buf l) (lx_b l))) with (lx_next bump l). rewrite Hn. simpl. now rewrite Hd.
    - destruct (IH E) as (n & ts & Hd). destruct n as [|n]; [discriminate|]. simpl in Hd. unfold lx_eat, lx_set in Hd.
      rewrite Hp in Hd. simpl in Hd.
      destruct (lx_next bump _) as [l'|e|] eqn:En; [|discriminate|discriminate]. simpl in Hd.
      apply bind_ok in Hd as (ts' & Hd & _). exists (S n), ((Word, s) :: ts'). simpl. unfold lx_eat. rewrite Hp, En. simpl.
      now rewrite Hd.
  Qed.
  Lemma parse_reads_all gm sp fuel l t : parse_lexer bump gm sp fuel l = Ok t ->
    exists n ts, lx_drain bump n l = Ok ts.
  Proof.
    intros H. unfold parse_lexer, parse in H. cbv zeta in H. apply bind_ok in H as (st & H & _).
    unfold item_list in H. cbv zeta in H. apply bind_ok in H as (st' & H & _). unfold rec_ in H.
    apply bind_ok in H as ([b st2] & H & [= <-]).
    set (s0 := with_list _ _ _ _) in H.
    pose proof (root_loop lx_peeked (lx_next bump) lx_set gm sp fuel (checkpoint (start_node ScopeRoot (pst_new l))) s0 eq_refl) as He.
    rewrite H in He. simpl in He.
    pose proof (ParserSim.run_sim lx_peeked (lx_next bump) lx_set sp lx_peeked (lx_next bump) lx_set sp gm
      (fun a b => a = b /\ reads l a) False) as Hs.
    assert (Hr : reads l (p_lex st2)).
    { specialize (Hs ltac:(now intros ? ? [-> _])).
      assert (H1 : forall a b, a = b /\ reads l a -> lx_peeked a <> None ->
        rres False (fun a b => a = b /\ reads l a) (lx_next bump a) (lx_next bump b)).
      { intros a b0 [<- Ha] Hp. destruct (lx_next bump a) as [a'| |] eqn:En; simpl; auto.
        split; [reflexivity|]. eapply reads_trans; [exact Ha|]. eapply rd_next; [exact Hp|exact En|constructor]. }
      assert (H2 : forall a b s s', a = b /\ reads l a -> lx_peeked a = Some (Word, s) -> lx_set s' a = lx_set s' b /\ reads l (lx_set s' a)).
      { intros a b0 s s' [<- Ha] Hp. split; [reflexivity|]. eapply reads_trans; [exact Ha|]. eapply rd_set; [exact Hp|constructor]. }
      specialize (Hs H1 H2 ltac:(auto) ltac:(auto) fuel fuel (KList (checkpoint (start_node ScopeRoot (pst_new l)))) s0 s0
        (le_n _) (or_intror eq_refl)).
      assert (P0 : PR (fun a b => a = b /\ reads l a) s0 s0) by (repeat split; constructor).
      specialize (Hs P0). rewrite H in Hs. simpl in Hs. apply Hs. }
    exact (reads_drain _ _ Hr He).
  Qed.
End Reads.

(** ** Sources *)
(** the tokens of a source after macro expansion *)
Definition expanded (page : nat) (sp : spec) (src : text) (ts : list tok) : Prop :=
  exists f0, forall f, f0 <= f -> expand_all f page engine_new sp src = Ok ts.
Lemma expand_expanded f page sp src ts : 2 <= page -> expand_all f page engine_new sp src = Ok ts -> expanded page sp src ts.
Proof.
  intros Hp E. unfold expand_all in E. destruct (expand_sound f page engine_new (lex_stream sp src) Hp) as [n Hn]; [congruence|].
  rewrite E in Hn. exists (S n). intros f' Hf. unfold expand_all. rewrite <- Hn. apply expand_complete; auto.
  unfold result in Hn. intros Hr. rewrite Hr in Hn. discriminate.
Qed.
Lemma parse_macro_reads f page sp src t : 2 <= page -> parse_macro f page sp src = Ok t ->
  exists ts, expanded page sp src ts /\ parse_list gm_real sp f ts = Ok t.
Proof.
  intros Hp H. unfold parse_macro in H. apply bind_ok in H as (l & Hl & H).
  destruct (parse_reads_all _ _ _ _ _ _ H) as (m & ts & Hd).
  rewrite (parse_drained _ _ _ _ _ _ _ Hd) in H. exists ts. split; [|exact H].
  unfold macro_new, lx_new in Hl.
  pose proof (mnext_run f page None [] (engine_new, mk_ictx None (lex_stream sp src)) Hp (or_intror (conj eq_refl eq_refl))) as Hr.
  rewrite Hl in Hr. destruct Hr as (Hi & k & Hrun).
  destruct (mdrain_sound f page m Hp l Hi ltac:(congruence)) as [n Hn]. rewrite Hd in Hn.
  specialize (Hrun n). rewrite prepend_nil in Hrun. unfold flat in Hrun. simpl in Hrun.
  exists (S (k + n)). intros f' Hf. unfold expand_all. rewrite <- Hn, <- Hrun. apply expand_complete; auto.
  rewrite Hrun. unfold result in Hn. intros E. rewrite E in Hn. discriminate.
Qed.
Lemma parse_plain_reads f page sp src t : 0 < page -> parse_without_macro f page sp src = Ok t ->
  stream_panics (lex_stream sp src) = false /\ parse_list gm_real sp f (stream_toks (lex_stream sp src)) = Ok t.
Proof.
  intros Hp H. assert (Hs : stream_panics (lex_stream sp src) = false).
  - unfold parse_without_macro, plain_new in H. apply bind_ok in H as (l & Hl & H).
    destruct (parse_reads_all _ _ _ _ _ _ H) as (m & ts & Hd).
    pose proof (lx_new_spec page (lex_stream sp src) Hp) as Hn. rewrite Hl in Hn. destruct Hn as [Hv Hi].
    assert (Hd' : delivers page l ts) by (exists m; exact Hd). apply delivers_view in Hd'; auto. rewrite Hv in Hd'.
    now apply run_stream_ok in Hd'.
  - split; [exact Hs|]. now rewrite <- (parse_plain f page).
Qed.
Lemma expanded_functional page sp src t1 t2 : expanded page sp src t1 -> expanded page sp src t2 -> t1 = t2.
Proof. intros [f1 H1] [f2 H2]. specialize (H1 (f1 + f2) ltac:(lia)). specialize (H2 (f1 + f2) ltac:(lia)). congruence. Qed.
Lemma expanded_page p1 p2 sp src ts : 2 <= p1 -> 2 <= p2 -> expanded p1 sp src ts -> expanded p2 sp src ts.
Proof.
  intros H1 H2 [f0 H]. specialize (H f0 (le_n _)). unfold expand_all in *.
  destruct (expand_sound f0 p1 engine_new (lex_stream sp src) H1) as [n Hn]; [congruence|].
  rewrite H in Hn. exists (S n). intros f' Hf. unfold expand_all. rewrite <- Hn. apply expand_complete; auto.
  unfold result in Hn. intros Hr. rewrite Hr in Hn. discriminate.
Qed.
Lemma expanded_words page sp src ts : 2 <= page -> expanded page sp src ts -> Forall word_ok ts.
Proof. intros Hp [f H]. eapply expand_words; [exact Hp|]. now apply (H f). Qed.
(** with enough fuel *)
Lemma parse_macro_enough page sp src ts : 2 <= page -> expanded page sp src ts ->
  exists f0, forall f, f0 <= f -> parse_macro f page sp src = parse_list gm_real sp (parse_fuel ts) ts.
Proof.
  intros Hp H. pose proof (expanded_words _ _ _ _ Hp H) as Hw. destruct H as [f0 H].
  exists (f0 + parse_fuel ts). intros f Hf. rewrite (parse_expanded f page sp src ts) by (apply H; lia).
  apply parse_enough; auto. lia.
Qed.
