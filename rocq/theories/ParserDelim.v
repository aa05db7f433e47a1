(** The delimiters of [\left] and [\right] in trees made from tokens whose
    command names start with a backslash (C34). *)
From Verif Require Export ParserEnd P_Parser ConvSpec.
Local Open Scope nat_scope.

(** a clause: a command name starting with a backslash, blanks, at most one
    delimiter, which starts with a backslash if it is a command *)
Definition delimiter_ok (t : tree) : Prop :=
  exists k s, t = Leaf k s /\ leaf_kind k /\ (k = TokenCommandSym -> exists r, s = 92%N :: r).
Definition clause_ok (k : kind) (ch : list tree) : Prop :=
  k = ClauseLR -> exists s r, ch = Leaf ClauseCommandName (92%N :: s) :: r /\ Forall delimiter_ok r.

Section Clause.
  Variable gm : text -> text -> bool.
  Variable sp : spec.
  Notation pst := (@Parser.pst (list tok)).

  Definition open_ok (p : kind * nat) : Prop := fst p <> ClauseLR.
  Definition J (st : pst) : Prop :=
    Forall slashed (p_lex st) /\ Forall (every clause_ok) (chd st) /\ Forall open_ok (par st).
  Definition sk (r : res pst) : Prop := part r J.
  Definition skb (r : res (bool * pst)) : Prop := part r (fun x => J (snd x)).
  Lemma sk_bind (x : res pst) f : sk x -> (forall st, J st -> sk (f st)) -> sk (bind x f).
  Proof. unfold sk. destruct x; simpl; auto. Qed.
  Lemma sk_bindb (x : res pst) f : sk x -> (forall st, J st -> skb (f st)) -> skb (bind x f).
  Proof. unfold sk, skb. destruct x; simpl; auto. Qed.
  Lemma skb_bind (x : res (bool * pst)) f : skb x -> (forall b st, J st -> skb (f (b, st))) -> skb (bind x f).
  Proof. unfold skb. destruct x as [[? ?]| |]; simpl; auto. Qed.
  Lemma skb_bind_ (x : res (bool * pst)) f : skb x -> (forall b st, J st -> sk (f (b, st))) -> sk (bind x f).
  Proof. unfold sk, skb. destruct x as [[? ?]| |]; simpl; auto. Qed.

  Lemma tok_J k s st : J st -> J (token_ k s st).
  Proof.
    intros (H1 & H2 & H3). split; [exact H1|]. split; [|exact H3]. cbn. apply Forall_app. split; [exact H2|]. constructor; [exact I|constructor].
  Qed.
  Lemma start_J k st : k <> ClauseLR -> J st -> J (start_node k st).
  Proof. intros Hk (H1 & H2 & H3). split; [exact H1|]. split; [exact H2|]. cbn. constructor; [exact Hk|exact H3]. Qed.
  Lemma next_J st : J st -> J (with_lex (tl (p_lex st)) st).
  Proof. intros (H1 & H2 & H3). split; [|split; assumption]. cbn. destruct (p_lex st); [constructor|]. now inversion H1. Qed.
  Lemma lex_eat_sk st : J st -> part (lex_eat list_pk list_nx st) (fun x => J (snd x)).
  Proof. intros H. unfold lex_eat. destruct (list_pk _); [|exact I]. cbn. now apply next_J. Qed.
  Lemma eat_sk st : J st -> sk (eat list_pk list_nx st).
  Proof. intros H. unfold eat, sk. eapply part_bind; [exact (lex_eat_sk st H)|]. intros [? ?] E. now apply tok_J. Qed.
  Lemma eat_as_sk k st : J st -> sk (eat_as list_pk list_nx k st).
  Proof. intros H. unfold eat_as, sk. eapply part_bind; [exact (lex_eat_sk st H)|]. intros [? ?] E. now apply tok_J. Qed.
  Lemma drop_sk st : J st -> sk (drop_ list_pk list_nx st).
  Proof. intros H. unfold drop_, sk. destruct (list_pk _); [|exact H]. eapply part_bind; [exact (lex_eat_sk st H)|]. intros [? ?] E. exact E. Qed.
  Lemma eat_if_sk k st : J st -> sk (eat_if_ list_pk list_nx k st).
  Proof. intros H. unfold eat_if_. destruct (p_peek _ _) as [k'|]; [|exact H]. destruct (token_eqb k' k); [now apply eat_sk|exact H]. Qed.
  Lemma hold_sk st : J st -> sk (hold_trivia list_pk list_nx st).
  Proof. intros H. unfold hold_trivia, sk. eapply part_bind; [exact (lex_eat_sk st H)|]. intros [? ?] E. exact E. Qed.
  Lemma finish_gen st k n ps : Forall slashed (p_lex st) -> Forall (every clause_ok) (chd st) -> par st = (k, n) :: ps ->
    Forall open_ok ps -> clause_ok k (skipn n (chd st)) -> sk (@finish_node (list tok) st).
  Proof.
    intros H1 H2 E H3 Hc. unfold finish_node, sk, b_finish_node. rewrite E. cbn [bind part]. split; [exact H1|]. cbn. split; [|exact H3].
    pose proof H2 as H2'. rewrite <- (firstn_skipn n (chd st)) in H2'. apply Forall_app in H2' as [Ha Hb].
    apply Forall_app. split; [exact Ha|]. constructor; [|constructor]. apply every_node. split; [exact Hc|exact Hb].
  Qed.
  Lemma finish_sk st : J st -> sk (@finish_node (list tok) st).
  Proof.
    intros (H1 & H2 & H3). destruct (par st) as [|[k n] ps] eqn:E.
    - unfold finish_node, sk, b_finish_node. rewrite E. exact I.
    - inversion H3 as [|? ? Hk Hps]. subst. eapply finish_gen; eauto. intros Ek. now elim Hk.
  Qed.
  Lemma start_at_sk cp k st : k <> ClauseLR -> J st -> sk (@start_node_at (list tok) cp k st).
  Proof.
    intros Hk (H1 & H2 & H3). unfold start_node_at, sk, b_start_at. destruct (Nat.ltb _ _); [exact I|].
    assert (G : J (with_b (mk_builder ((k, cp) :: par st) (chd st)) st)).
    { split; [exact H1|]. split; [exact H2|]. cbn. constructor; [exact Hk|exact H3]. }
    destruct (par st) as [|[k' f'] ps] eqn:E; [exact G|]. destruct (Nat.ltb _ _); [exact I|]. exact G.
  Qed.
  Lemma consume_sk n st s : list_pk (p_lex st) = Some (Word, s) -> J st -> sk (lex_consume list_pk list_nx list_set n st).
  Proof.
    intros Ep H. unfold lex_consume, sk. rewrite Ep. destruct (Nat.leb _ _).
    - cbn. now apply next_J.
    - destruct (split_bytes n s) as [[? s']|]; [|exact I]. cbn. destruct H as (H1 & H2 & H3). split; [|split; assumption].
      cbn. destruct (p_lex st) as [|[k x] rest]; [discriminate|]. injection Ep as -> ->. inversion H1. subst. constructor; [discriminate|assumption].
  Qed.
  Lemma single_sk st : p_peek list_pk st = Some Word -> J st -> sk (single_char list_pk list_nx list_set st).
  Proof.
    intros Ep H. unfold single_char, p_peek in *. destruct (list_pk (p_lex st)) as [[k s]|] eqn:E; [|discriminate]. injection Ep as ->.
    destruct s as [|c s]; [exact H|]. eapply consume_sk; [cbn; exact E|now apply tok_J].
  Qed.
  Lemma extract_sk st : J st -> J (extract_holding_trivia st).
  Proof.
    intros H. unfold extract_holding_trivia. change (J (fold_left (fun st t => token_ (kind_of_token (fst t)) (snd t) st) (p_trivia st) st)).
    generalize (p_trivia st). intros l. revert st H. induction l as [|t l IH]; intros st H; cbn [fold_left]; [exact H|]. apply IH. now apply tok_J.
  Qed.
  (** trivia: leaves *)
  Definition blank_leaf (t : tree) : Prop := exists k s, t = Leaf k s /\ In k [TokenLineBreak; TokenWhiteSpace; TokenComment].
  Definition blanks (st st' : pst) : Prop :=
    Forall slashed (p_lex st) -> Forall slashed (p_lex st') /\ par st' = par st /\ exists l, chd st' = chd st ++ l /\ Forall blank_leaf l.
  Lemma eat_case k s l st : p_lex st = (k, s) :: l -> eat list_pk list_nx st = Ok (token_ (kind_of_token k) s (with_lex l st)).
  Proof. intros E. destruct st as [lx b tr a c sc]. cbn in E. subst lx. reflexivity. Qed.

  Lemma eat_as_case k' k s l st : p_lex st = (k, s) :: l -> eat_as list_pk list_nx k' st = Ok (token_ k' s (with_lex l st)).
  Proof. intros E. destruct st as [lx b tr a c sc]. cbn in E. subst lx. reflexivity. Qed.
  Lemma single_case0 (st : pst) rest : p_lex st = (Word, []) :: rest -> single_char list_pk list_nx list_set st = Ok st.
  Proof. intros E. unfold single_char. destruct st as [lx b tr a c sc]. cbn in *. now subst lx. Qed.
  Lemma single_case1 (st : pst) c s rest : p_lex st = (Word, c :: s) :: rest ->
    let r := single_char list_pk list_nx list_set st in
    r = Ok (with_lex rest (token_ TokenWord [c] st)) \/ (exists p, r = Panic p) \/ exists s', r = Ok (with_lex ((Word, s') :: rest) (token_ TokenWord [c] st)).
  Proof.
    intros E. cbv zeta. unfold single_char, lex_consume. destruct st as [lx b tr a c' sc]. cbn [p_lex] in E. subst lx.
    cbn [p_lex token_ with_b list_pk hd_error]. destruct (Nat.leb _ _); [left; reflexivity|].
    destruct (split_bytes _ _) as [[x y]|]; [right; right; exists y; reflexivity|right; left; eauto].
  Qed.

  Section Rec.
    Variable rec : call -> pst -> res (bool * pst).
    Hypothesis Hrec : forall c st, J st -> skb (rec c st).
    Lemma rec_sk c st : J st -> sk (rec_ rec c st).
    Proof. intros H. unfold rec_. eapply skb_bind_; [now apply Hrec|]. intros b st' E. exact E. Qed.

    Ltac go := first
      [ apply start_J; [discriminate|]
      | apply tok_J
      | apply extract_sk
      | eapply sk_bind; [|intros ? ?]
      | eapply sk_bindb; [|intros ? ?]
      | eapply skb_bind; [|intros ? ? ?]
      | eapply skb_bind_; [|intros ? ? ?]
      | apply eat_sk | apply eat_as_sk | apply drop_sk | apply eat_if_sk | apply hold_sk | apply finish_sk
      | apply start_at_sk; [discriminate|] | apply single_sk | apply rec_sk | apply Hrec ]; try assumption; try exact I.
    Ltac gos := cbv zeta; repeat go; try assumption; try (unfold sk, skb; simpl; assumption).

    Lemma item_list_sk s st : J st -> sk (item_list rec s st).
    Proof.
      intros H. unfold item_list. cbv zeta. unfold sk. pose proof (rec_sk (KList (checkpoint st)) (with_list (Some (checkpoint st)) None s st) H) as K.
      destruct (rec_ _ _ _); simpl; auto.
    Qed.
    Lemma item_group_sk s st : J st -> sk (item_group list_pk list_nx rec s st).
    Proof.
      intros H. unfold item_group.
      assert (K : forall e k, k <> ClauseLR -> sk (let st := start_node k st in let* st := eat list_pk list_nx st in let* st := item_list rec s st in
         let* st := eat_if_ list_pk list_nx e st in finish_node st)).
      { intros e k Hk. cbv zeta. eapply sk_bind; [apply eat_sk; now apply start_J|intros s1 H1]. eapply sk_bind; [now apply item_list_sk|intros s2 H2]. gos. }
      destruct s; try exact I; (apply K; discriminate).
    Qed.
    Lemma text_sk st : J st -> sk (p_text list_pk list_nx rec st).
    Proof. intros H. unfold p_text. gos. Qed.
    Lemma start_command_sk pos st : J st -> sk (@start_command_at (list tok) pos st).
    Proof. intros H. unfold start_command_at. destruct pos; gos. Qed.
    Lemma arg_sk g (f : pst -> res (bool * pst)) st : J st -> (forall st, J st -> skb (f st)) ->
      skb (p_arg g f st).
    Proof.
      intros H Hf. unfold p_arg. destruct g; [auto|]. cbv zeta. eapply skb_bind; [apply Hf; apply start_J; [discriminate|exact H]|intros b s1 H1].
      gos.
    Qed.
    Lemma word_args_sk cs : forall m n (st : pst), J st -> part (word_args gm cs m n st) (fun '(_, _, _, st') => J st' /\ p_lex st' = p_lex st).
    Proof.
      induction cs as [|c cs IH]; intros m n st H; [split; [exact H|reflexivity]|]. cbn [word_args].
      destruct (try_match gm m ARG_TERM) as [ok m']. destruct (negb ok); [split; [exact H|reflexivity]|].
      unfold p_arg. cbn [bind]. set (s0 := start_node ClauseArgument (ignore_holding_trivia st)).
      assert (H0 : J s0) by (apply start_J; [discriminate|exact H]).
      pose proof (finish_sk _ (tok_J TokenWord [c] s0 H0)) as H1. unfold finish_node in *. destruct (b_finish_node _) as [b| |]; try exact I.
      cbn [bind] in *. specialize (IH m' (n + utf8_len c) _ H1). destruct (word_args gm cs m' _ _) as [[[[x1 x2] x3] x4]| |]; try exact I.
      destruct IH as [A B]. split; [exact A|]. now rewrite B.
    Qed.
    Lemma match_sk g m cur st : J st -> skb (match_loop list_pk list_nx list_set gm rec g m cur st).
    Proof.
      intros H. unfold match_loop. cbv zeta.
      match goal with |- context [if stop_by_scope (p_scope st) ?x then _ else _] => idtac | _ => idtac end.
      assert (Hr : forall k, skb (if stop_by_scope (p_scope st) k then Ok (true, st) else
        let '(ok, m) := try_match gm m ARG_TERM in
        if negb ok then Ok (true, st) else
          let* (attachable, st0) := p_arg g (rec (KContent true)) st in
          rec (KMatch g m (if g then checkpoint st else cur)) (if g && attachable then with_last (Some (if g then checkpoint st else cur)) st0 else st0))).
      { intros k. destruct (stop_by_scope _ _); [exact H|]. destruct (try_match gm m ARG_TERM) as [ok m']. destruct (negb ok); [exact H|].
        eapply skb_bind; [apply arg_sk; [exact H|intros; now apply Hrec]|]. intros b s1 H1. apply Hrec. destruct (g && b); exact H1. }
      destruct (list_pk (p_lex st)) as [[k s]|] eqn:Epk; [|exact H].
      assert (Htriv : skb (let* st0 := if g then eat list_pk list_nx st else hold_trivia list_pk list_nx st in rec (KMatch g m cur) st0)).
      { eapply sk_bindb; [destruct g; gos|]. intros s1 H1. now apply Hrec. }
      destruct k; try exact (Hr _); try exact Htriv.
      - destruct (match b with Curly => _ | Bracket => _ | Paren => _ end) as [enc scp].
        destruct (match_as_term gm m enc) as [[mt|] m']; [|exact H].
        eapply skb_bind; [apply arg_sk; [exact H|]|].
        + intros s1 H1. destruct mt; (eapply sk_bindb; [|intros ? ?]); try (now apply eat_sk); try (now apply item_group_sk); assumption.
        + intros b0 s1 H1. apply Hrec. destruct g; exact H1.
      - exact H.
      - destruct (negb g); [exact H|exact (Hr _)].
      - destruct (negb g); [exact H|exact (Hr _)].
      - destruct g; [exact (Hr _)|]. unfold skb. eapply part_bind; [exact (word_args_sk s m 0 st H)|].
        intros [[[stopped m'] cnt] s1] [H1 E1]. 
        assert (K : sk (if Nat.ltb 0 cnt then lex_consume list_pk list_nx list_set cnt s1 else Ok s1)).
        { destruct (Nat.ltb 0 cnt); [|exact H1]. eapply consume_sk; [rewrite E1; exact Epk|exact H1]. }
        eapply part_bind; [exact K|]. intros s2 H2. destruct stopped; [exact H2|]. now apply Hrec.
      - destruct (g && _); [exact H|exact (Hr _)].
    Qed.
    Lemma match_arguments_sk g m st : J st -> sk (match_arguments rec g m st).
    Proof.
      intros H. unfold match_arguments. cbv zeta. destruct (negb _); [exact I|]. eapply sk_bind; [apply rec_sk; exact H|].
      intros s1 H1. exact H1.
    Qed.
    Lemma right_sk p st : J st -> skb (right_command list_pk list_nx rec p st).
    Proof.
      intros H. unfold right_command. cbv zeta. eapply sk_bindb; [now apply eat_sk|intros s1 H1].
      eapply sk_bindb.
      { destruct (is_greedy (start_match p)); [|now apply match_arguments_sk].
        eapply sk_bind; [apply match_arguments_sk; apply start_J; [discriminate|exact H1]|intros s2 H2]. gos. }
      intros s2 H2. eapply sk_bindb; [now apply finish_sk|intros s3 H3]. unfold skb. simpl. now apply extract_sk.
    Qed.
    Lemma command_sk st : J st -> skb (command list_pk list_nx sp rec st).
    Proof.
      intros H. unfold command. destruct (list_pk _) as [[k s]|]; [|exact I]. destruct (strip_prefix _ _) as [name|]; [|exact I].
      assert (K0 : skb (let* st0 := eat list_pk list_nx (start_node ItemCmd st) in let* st1 := finish_node st0 in Ok (true, st1))) by gos.
      assert (K1 : forall p, skb (right_command list_pk list_nx rec p (start_node ItemCmd st))) by (intros p; apply right_sk; apply start_J; [discriminate|exact H]).
      destruct (option_map cs_args (get_cmd sp name)) as [[p| |]|]; cbv zeta.
      - destruct p as [|n|? ?| |?]; try apply K1; try exact K0. destruct n; [exact K0|apply K1].
      - eapply sk_bindb; [now apply start_command_sk|intros s1 H1]. gos.
      - eapply sk_bindb; [apply start_command_sk; exact H|intros s1 H1]. now apply right_sk.
      - exact K0.
    Qed.
    Lemma environment_sk st : J st -> sk (environment list_pk list_nx sp rec st).
    Proof.
      intros H. unfold environment. cbv zeta. destruct (list_pk _) as [[k s]|]; [|exact I].
      eapply sk_bind; [apply eat_sk; do 2 (apply start_J; [discriminate|]); exact H|intros s1 H1].
      eapply sk_bind.
      { assert (K : forall p, sk (match_arguments rec false (start_match p) s1)) by (intros; now apply match_arguments_sk).
        destruct (option_map en_args _) as [[|n|? ?| |?]|]; try exact H1; try apply K. destruct n; [exact H1|apply K]. }
      intros s2 H2. eapply sk_bind; [now apply finish_sk|intros s3 H3].
      eapply sk_bind; [apply item_list_sk; now apply extract_sk|intros s4 H4].
      assert (K : sk (match p_peek list_pk s4 with Some (CommandName EndEnvironment) =>
         let* st := eat list_pk list_nx (start_node ItemEnd s4) in finish_node st | _ => Ok s4 end)).
      { destruct (p_peek list_pk s4) as [[]|]; try exact H4. destruct c; try exact H4. gos. }
      eapply sk_bind; [exact K|intros s5 H5]. gos.
    Qed.
    Hypothesis Htriv : forall st, part (rec KTrivia st) (fun x => blanks st (snd x)).
    Lemma clause_sk st c : (c = CLeft \/ c = CRight) -> p_peek list_pk st = Some (CommandName c) -> J st ->
      sk (clause_lr list_pk list_nx list_set rec st).
    Proof.
      intros Hc Ep (H1 & H2 & H3). unfold clause_lr. cbv zeta. unfold p_peek in Ep. destruct (p_lex st) as [|[k s] l] eqn:El; [discriminate|].
      injection Ep as ->. rewrite (eat_case (CommandName c) s l) by exact El. cbn [bind].
      inversion H1 as [|? ? Hs Hl]. subst. assert (Hk : kind_of_token (CommandName c) = ClauseCommandName) by (destruct Hc as [-> | ->]; reflexivity).
      destruct (Hs Hk) as [name En]. cbn in En. subst s. rewrite Hk. clear Hs Hk.
      set (s1 := token_ _ _ _). unfold rec_. pose proof (Htriv s1) as Ht. destruct (rec KTrivia s1) as [[b s2]| |]; try exact I.
      cbn [bind]. unfold part in Ht. destruct (Ht Hl) as (A1 & A2 & tr & A3 & A4). cbn [snd] in A1, A2, A3.
      assert (E1 : chd s1 = chd st ++ [Leaf ClauseCommandName (92%N :: name)]) by reflexivity.
      assert (E2 : par s1 = (ClauseLR, List.length (chd st)) :: par st) by reflexivity. pose proof (eq_trans A3 (f_equal (fun x => x ++ tr) E1)) as A3'. clear A3. rename A3' into A3. pose proof (eq_trans A2 E2) as A2'. clear A2. rename A2' into A2. cbv beta in A3.
      assert (Hsk : forall l, skipn (List.length (chd st)) (chd st ++ l) = l).
      { intros x. rewrite skipn_app, Nat.sub_diag, skipn_all. reflexivity. }
      assert (Htr : Forall delimiter_ok tr).
      { eapply Forall_impl; [|exact A4]. intros t (k & s & -> & Hk). exists k, s. split; [reflexivity|]. split.
        - repeat destruct Hk as [<-|Hk]; try contradiction; unfold leaf_kind; cbn; tauto.
        - intros ->. repeat destruct Hk as [Hk|Hk]; try discriminate; contradiction. }
      assert (Fin : forall s3 l, Forall slashed (p_lex s3) -> par s3 = par s2 -> chd s3 = chd s2 ++ l -> Forall delimiter_ok l -> sk (finish_node s3)).
      { intros s3 x B1 B2 B3 B4. rewrite A2 in B2. eapply finish_gen; [exact B1| |exact B2|exact H3|].
        - rewrite B3, A3. rewrite <- !app_assoc. apply Forall_app. split; [exact H2|]. apply Forall_app. split; [constructor; [exact I|constructor]|].
          apply Forall_app. split; [eapply Forall_impl; [|exact A4]; intros t (k & s & -> & _); exact I|].
          eapply Forall_impl; [|exact B4]. intros t (k & s & -> & _). exact I.
        - intros _. rewrite B3, A3. rewrite <- !app_assoc, Hsk. exists name, (tr ++ x). split; [reflexivity|]. apply Forall_app. now split. }
      assert (Fin0 : sk (finish_node s2)) by (apply (Fin s2 []); [exact A1|reflexivity|now rewrite app_nil_r|constructor]).
      assert (Fin1 : forall k s rest k', p_lex s2 = (k, s) :: rest -> leaf_kind k' -> (k' = TokenCommandSym -> exists r, s = 92%N :: r) ->
        sk (finish_node (token_ k' s (with_lex rest s2)))).
      { intros k s rest k' B1 B2 B3. apply (Fin _ [Leaf k' s]); [|reflexivity|reflexivity|].
        - rewrite B1 in A1. now inversion A1.
        - constructor; [|constructor]. exists k', s. auto. }
      unfold p_peek. destruct (p_lex s2) as [|[k s] rest] eqn:E3; [exact Fin0|]. cbn [list_pk hd_error option_map fst].
      assert (Eat : leaf_kind (kind_of_token k) -> kind_of_token k <> TokenCommandSym -> sk (let* st0 := leat s2 in finish_node st0)).
      { intros B1 B2. rewrite (eat_case k s rest) by exact E3. cbn [bind]. eapply Fin1; [reflexivity|exact B1|]. intros E. contradiction. }
      destruct k; try (apply Eat; [try destruct b0; unfold leaf_kind; cbn; tauto|try destruct b0; discriminate]); try exact Fin0.
      - (* a word *) destruct s as [|c0 s]; [rewrite (single_case0 _ rest E3); exact Fin0|].
        assert (D : Forall delimiter_ok [Leaf TokenWord [c0]]).
        { constructor; [|constructor]. exists TokenWord, [c0]. split; [reflexivity|]. split; [unfold leaf_kind; cbn; tauto|discriminate]. }
        destruct (single_case1 _ _ _ _ E3) as [E|[[p E]|(s' & E)]]; rewrite E; [|exact I|]; cbn [bind].
        + apply (Fin _ [Leaf TokenWord [c0]]); [|reflexivity|reflexivity|exact D]. cbn. now inversion A1.
        + apply (Fin _ [Leaf TokenWord [c0]]); [|reflexivity|reflexivity|exact D].
          cbn. inversion A1. constructor; [discriminate|assumption].
      - (* a command *) destruct c0; try exact Fin0. rewrite (eat_as_case _ _ _ _ _ E3). cbn [bind].
        eapply Fin1; [reflexivity|unfold leaf_kind; cbn; tauto|]. intros _. inversion A1 as [|? ? Hs Hr]. destruct (Hs eq_refl) as [r Er]. exists r. exact Er.
    Qed.
    Lemma item_lr_sk st : p_peek list_pk st = Some (CommandName CLeft) -> J st -> sk (item_lr list_pk list_nx list_set rec st).
    Proof.
      intros Ep H. unfold item_lr. cbv zeta. eapply sk_bind; [apply (clause_sk _ CLeft); [now left|exact Ep|now apply start_J]|intros s1 H1].
      eapply sk_bind; [now apply item_list_sk|intros s2 H2].
      match goal with |- sk (bind ?x _) => assert (K : sk x) end.
      { destruct (p_peek list_pk s2) as [[]|] eqn:E2; try exact H2. destruct c; try exact H2. apply (clause_sk _ CRight); [now right|exact E2|exact H2]. }
      eapply sk_bind; [exact K|intros s3 H3]. gos.
    Qed.
    Lemma if_block_sk k st : k <> ClauseLR -> J st -> sk (if_block list_pk list_nx rec k st).
    Proof. intros Hk H. unfold if_block. cbv zeta. eapply sk_bind; [apply drop_sk; now apply start_J|intros s1 H1]. gos. Qed.
    Lemma attach_sk b st : J st -> sk (attach_component list_pk list_nx rec b st).
    Proof.
      intros H. unfold attach_component. cbv zeta.
      assert (K : forall st, J st -> sk (let* st := eat list_pk list_nx st in
        let* st := if b then let* st := rec_ rec KTrivia st in rec_ rec (KContent false) st else Ok st in finish_node st)).
      { intros s H1. eapply sk_bind; [now apply eat_sk|intros s1 H2]. eapply sk_bind; [destruct b; gos|]. intros s2 H3. gos. }
      destruct (p_last st); [do 3 (eapply sk_bind; [gos|intros ? ?]); now apply K|].
      destruct (negb b); [now apply eat_sk|apply K; now apply start_J].
    Qed.
    Lemma error_sk st : J st -> sk (error_node list_pk list_nx st).
    Proof. intros H. unfold error_node. gos. Qed.
    Lemma content_sk ns st : J st -> skb (content list_pk list_nx list_set sp rec ns st).
    Proof.
      intros H. unfold content. cbv zeta.
      assert (K : forall b r, sk r -> skb (let* st := r in Ok (b, st) : res (bool * pst))).
      { intros b r Hr. eapply sk_bindb; [exact Hr|]. intros s1 H1. exact H1. }
      destruct (p_peek list_pk st) as [c|] eqn:Ep; [|exact H].
      destruct c; try (apply K; first [now apply eat_sk|now apply attach_sk|now apply error_sk|now apply item_group_sk|now apply text_sk]).
      - destruct b; apply K; [now apply item_group_sk|now apply eat_sk|now apply eat_sk].
      - destruct b; apply K; [now apply error_sk|now apply eat_sk|now apply eat_sk].
      - apply K. destruct ns; [now apply text_sk|apply single_sk; [exact Ep|exact H]].
      - destruct c; try (now apply command_sk); try (apply K; first [now apply environment_sk|now apply eat_sk|now apply error_sk|now apply item_group_sk|now apply item_lr_sk]).
        destruct i; try (now apply command_sk); apply K; (apply if_block_sk; [discriminate|exact H]).
    Qed.
    Lemma dispatch_sk c st : J st -> skb (dispatch list_pk list_nx list_set gm sp rec c st).
    Proof.
      intros H. destruct c; cbn [dispatch].
      - now apply content_sk.
      - unfold list_loop. destruct (p_peek list_pk st) as [k|]; [|exact H]. destruct (stop_by_scope _ _); [exact H|].
        eapply skb_bind; [now apply Hrec|]. intros b s1 H1. cbv zeta. apply Hrec. destruct b; exact H1.
      - now apply match_sk.
      - unfold trivia_loop. destruct (p_peek list_pk st) as [k|]; [|exact H]. destruct (is_trivia k); [gos|exact H].
      - unfold text_loop. destruct (p_peek list_pk st) as [k|]; [|exact H]. destruct (is_text_component k); [gos|exact H].
      - unfold ifs_loop. destruct (p_peek list_pk st) as [k|]; [|exact H]. destruct k; try (gos; fail). destruct c; try (gos; fail).
        destruct nested; gos.
    Qed.
  End Rec.
  Lemma run_trivia fuel : forall st, part (Parser.run list_pk list_nx list_set gm sp fuel KTrivia st) (fun x => blanks st (snd x)).
  Proof.
    induction fuel as [|n IH]; intros st; [exact I|]. cbn [Parser.run dispatch]. unfold trivia_loop, p_peek.
    assert (B : blanks st st) by (intros Hs; split; [exact Hs|]; split; [reflexivity|]; exists []; split; [now rewrite app_nil_r|constructor]).
    destruct (p_lex st) as [|[k s] l] eqn:E; [exact B|]. cbn [list_pk hd_error option_map fst]. destruct (is_trivia k) eqn:Ek; [|exact B].
    rewrite (eat_case k s l st E). cbn [bind]. specialize (IH (token_ (kind_of_token k) s (with_lex l st))).
    destruct (Parser.run _ _ _ _ _ _ _ _) as [[b s2]| |]; try exact I. cbn [part snd] in *. intros Hs. rewrite E in Hs. inversion Hs as [|? ? _ Hl]. subst.
    destruct (IH Hl) as (A1 & A2 & tr & A3 & A4). split; [exact A1|]. split; [exact A2|]. exists (Leaf (kind_of_token k) s :: tr). split.
    - etransitivity; [exact A3|]. cbn. now rewrite <- app_assoc.
    - constructor; [|exact A4]. exists (kind_of_token k), s. split; [reflexivity|]. destruct k; try discriminate Ek; cbn; tauto.
  Qed.
  Lemma run_sk fuel : forall c st, J st -> skb (Parser.run list_pk list_nx list_set gm sp fuel c st).
  Proof. induction fuel as [|n IH]; intros c st H; [exact I|]. cbn [Parser.run]. apply dispatch_sk; [exact IH|apply run_trivia|exact H]. Qed.
  Lemma parse_clauses fuel ts t : Forall slashed ts -> parse_list gm sp fuel ts = Ok t -> every clause_ok t /\ is_node t = true.
  Proof.
    intros Hs H. unfold parse_list, parse in H. cbv zeta in H.
    assert (J0 : J (start_node ScopeRoot (pst_new ts))).
    { apply start_J; [discriminate|]. split; [exact Hs|]. split; constructor. }
    apply bind_ok in H as (s1 & E1 & H). apply bind_ok in H as (s2 & E2 & H).
    pose proof (item_list_sk _ (run_sk fuel) Root _ J0) as K1. rewrite E1 in K1. cbn in K1.
    pose proof (finish_sk _ K1) as K2. rewrite E2 in K2. cbn in K2. destruct K2 as (_ & K2 & _).
    unfold b_finish in H. destruct (chd s2) as [|[|k c] [|? ?]] eqn:Ec; try discriminate H. injection H as <-. split; [now inversion K2|reflexivity].
  Qed.
End Clause.
