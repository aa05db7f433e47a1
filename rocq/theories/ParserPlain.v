(** Trees of token sequences without commands, groups and formulas (C30, C31). *)
From Verif Require Export ParserEnd P_Parser.
Local Open Scope nat_scope.

(** tokens that stand for themselves, and script marks *)
Definition plain (k : token) : bool :=
  match k with
  | LineBreak | Whitespace | LineComment | Comma | Tilde | Slash | Word | Ampersand | Underscore | Caret
  | Apostrophe | Ditto | Semicolon | Hash | Asterisk | AtSign
  | TLeft Bracket | TLeft Paren | TRight Bracket | TRight Paren => true
  | _ => false
  end.
(** a tree that does not begin with a blank *)
Definition solid (t : tree) : Prop := exists k s, first_token t = Some (k, s) /\ k <> TokenWhiteSpace.

Section Plain.
  Variable ok : token -> Prop.
  Hypothesis Hok : forall k, ok k -> plain k = true.
  Inductive good : tree -> Prop :=
  | good_leaf k s : ok k -> good (Leaf (kind_of_token k) s)
  | good_node k x r : In k [ItemText; ItemAttachComponent; ClauseArgument] -> solid x -> Forall good (x :: r) -> good (Node k (x :: r)).

  Variable gm : text -> text -> bool.
  Variable sp : spec.
  Notation pst := (@Parser.pst (list tok)).
  Notation run := (Parser.run list_pk list_nx list_set gm sp).
  Definition okt (t : tok) : Prop := ok (fst t).

  Definition solid_at (n : nat) (C : list tree) : Prop := exists x, nth_error C n = Some x /\ solid x.
  Definition Pre (st : pst) : Prop :=
    Forall okt (p_lex st) /\ Forall good (chd st) /\ (forall cp, p_last st = Some cp -> solid_at cp (chd st)).
  Definition Rel (st st' : pst) : Prop :=
    Pre st' /\ par st' = par st /\ p_last st' = p_last st /\ p_scope st' = p_scope st /\
    match p_last st with
    | Some cp => firstn cp (chd st') = firstn cp (chd st)
    | None => exists X, chd st' = chd st ++ X
    end.
  Definition skr (st : pst) (r : res pst) : Prop := part r (Rel st).

  Lemma Rel_refl st : Pre st -> Rel st st.
  Proof. intros H. repeat split; try apply H; auto. destruct (p_last st); [reflexivity|]. exists []. now rewrite app_nil_r. Qed.
  Lemma Rel_trans a b c : Rel a b -> Rel b c -> Rel a c.
  Proof.
    intros (A1 & A2 & A3 & A4 & A5) (B1 & B2 & B3 & B4 & B5). repeat split; try apply B1; try congruence. rewrite A3 in B5.
    destruct (p_last a); [congruence|]. destruct A5 as [X A5], B5 as [Y B5]. exists (X ++ Y). now rewrite B5, A5, app_assoc.
  Qed.
  Lemma Rel_bind a (x : res pst) f : skr a x -> (forall b, Rel a b -> skr a (f b)) -> skr a (bind x f).
  Proof. unfold skr. destruct x; simpl; auto. Qed.
  Lemma skr_trans a b r : Rel a b -> skr b r -> skr a r.
  Proof. unfold skr. destruct r; simpl; auto. intros H1 H2. eapply Rel_trans; eauto. Qed.

  (** appending an element *)
  Lemma nth_app_l {A} (l : list A) x n y : nth_error l n = Some y -> nth_error (l ++ x) n = Some y.
  Proof. intros H. rewrite nth_error_app1; [exact H|]. apply nth_error_Some. congruence. Qed.
  Lemma solid_app n C X : solid_at n C -> solid_at n (C ++ X).
  Proof. intros (x & H1 & H2). exists x. split; [now apply nth_app_l|exact H2]. Qed.
  Lemma firstn_app_solid n (C X : list tree) : solid_at n C -> firstn n (C ++ X) = firstn n C.
  Proof.
    intros (x & H & _). assert (n < List.length C) by (apply nth_error_Some; congruence). rewrite firstn_app.
    replace (n - List.length C) with 0 by lia. cbn. now rewrite app_nil_r.
  Qed.
  (** a state that has appended good elements and eaten tokens *)
  Definition appends (st st' : pst) (X : list tree) : Prop :=
    Forall okt (p_lex st') /\ par st' = par st /\ p_last st' = p_last st /\ p_scope st' = p_scope st /\
    chd st' = chd st ++ X /\ Forall good X.
  Lemma appends_Rel st st' X : Pre st -> appends st st' X -> Rel st st'.
  Proof.
    intros (H1 & H2 & H3) (A1 & A2 & A3 & A4 & A5 & A6). split; [|split; [exact A2|split; [exact A3|split; [exact A4|]]]].
    - split; [exact A1|]. split; [rewrite A5; apply Forall_app; now split|]. intros cp E. rewrite A3 in E. rewrite A5. apply solid_app. auto.
    - destruct (p_last st) as [cp|]; [|eauto]. rewrite A5. apply firstn_app_solid. auto.
  Qed.
  Lemma eat_case k s l (st : pst) : p_lex st = (k, s) :: l -> eat list_pk list_nx st = Ok (token_ (kind_of_token k) s (with_lex l st)).
  Proof. intros E. destruct st as [lx b tr a c sc]. cbn in E. subst lx. reflexivity. Qed.
  Lemma eat_appends k s l (st : pst) : Forall okt (p_lex st) -> p_lex st = (k, s) :: l ->
    appends st (token_ (kind_of_token k) s (with_lex l st)) [Leaf (kind_of_token k) s].
  Proof.
    intros H E. rewrite E in H. inversion H as [|? ? H1 H2]. subst. repeat split; auto. constructor; [|constructor]. constructor. exact H1.
  Qed.
  Lemma leaf_solid k s : k <> Whitespace -> solid (Leaf (kind_of_token k) s).
  Proof. intros H. exists (kind_of_token k), s. split; [reflexivity|]. destruct k; try discriminate; try (destruct b; discriminate); try (destruct c; discriminate). contradiction. Qed.

  Lemma run_text fuel : forall st, Forall okt (p_lex st) ->
    part (run fuel KText st) (fun x => exists X, appends st (snd x) X).
  Proof.
    induction fuel as [|n IH]; intros st H; [exact I|]. cbn [Parser.run dispatch]. unfold text_loop, p_peek.
    assert (B : exists X, appends st st X) by (exists []; repeat split; auto; now rewrite app_nil_r).
    destruct (p_lex st) as [|[k s] l] eqn:E; [exact B|]. cbn [list_pk hd_error option_map fst]. destruct (is_text_component k) eqn:Ek; [|exact B].
    rewrite (eat_case k s l st E). cbn [bind]. pose proof (eat_appends k s l st) as A. rewrite E in A. destruct (A H eq_refl) as (A1 & A2 & A3 & A4 & A5 & A6).
    specialize (IH _ A1). destruct (run n KText _) as [[b s2]| |]; try exact I. cbn [part snd] in *. destruct IH as (X & B1 & B2 & B3 & B4 & B5 & B6).
    exists (Leaf (kind_of_token k) s :: X). repeat split; try congruence. 
    - rewrite B5, A5, <- app_assoc. reflexivity.
    - inversion A6. now constructor.
  Qed.
  Lemma run_trivia fuel : forall st, Forall okt (p_lex st) ->
    part (run fuel KTrivia st) (fun x => exists X, appends st (snd x) X).
  Proof.
    induction fuel as [|n IH]; intros st H; [exact I|]. cbn [Parser.run dispatch]. unfold trivia_loop, p_peek.
    assert (B : exists X, appends st st X) by (exists []; repeat split; auto; now rewrite app_nil_r).
    destruct (p_lex st) as [|[k s] l] eqn:E; [exact B|]. cbn [list_pk hd_error option_map fst]. destruct (is_trivia k) eqn:Ek; [|exact B].
    rewrite (eat_case k s l st E). cbn [bind]. pose proof (eat_appends k s l st) as A. rewrite E in A. destruct (A H eq_refl) as (A1 & A2 & A3 & A4 & A5 & A6).
    specialize (IH _ A1). destruct (run n KTrivia _) as [[b s2]| |]; try exact I. cbn [part snd] in *. destruct IH as (X & B1 & B2 & B3 & B4 & B5 & B6).
    exists (Leaf (kind_of_token k) s :: X). repeat split; try congruence. 
    - rewrite B5, A5, <- app_assoc. reflexivity.
    - inversion A6. now constructor.
  Qed.

  (** closing a node *)
  Lemma finish_case (st : pst) k n ps : par st = (k, n) :: ps ->
    finish_node st = Ok (with_b (mk_builder ps (firstn n (chd st) ++ [Node k (skipn n (chd st))])) st).
  Proof. intros E. unfold finish_node, b_finish_node. now rewrite E. Qed.
  Lemma skipn_solid n (C : list tree) x : nth_error C n = Some x -> exists r, skipn n C = x :: r.
  Proof.
    revert C. induction n as [|n IH]; intros [|y C] H; try discriminate; cbn in *; [injection H as ->; eauto|]. apply IH. exact H.
  Qed.
  Lemma close_good k n C : In k [ItemText; ItemAttachComponent; ClauseArgument] -> solid_at n C -> Forall good C ->
    good (Node k (skipn n C)) /\ solid (Node k (skipn n C)).
  Proof.
    intros Hk (x & H1 & H2) Hg. destruct (skipn_solid _ _ _ H1) as [r E]. rewrite E.
    rewrite <- (firstn_skipn n C), E in Hg. apply Forall_app in Hg as [_ Hg]. split; [now constructor|].
    destruct H2 as (k' & s & H2 & H3). exists k', s. now split.
  Qed.
  Lemma solid_last C x : solid x -> solid_at (List.length C) (C ++ [x]).
  Proof. intros H. exists x. split; [|exact H]. rewrite nth_error_app2, Nat.sub_diag by lia. reflexivity. Qed.
  Lemma firstn_len (C X : list tree) : firstn (List.length C) (C ++ X) = C.
  Proof. rewrite firstn_app, Nat.sub_diag, firstn_all. cbn. now rewrite app_nil_r. Qed.
  Lemma skipn_len (C X : list tree) : skipn (List.length C) (C ++ X) = X.
  Proof. rewrite skipn_app, Nat.sub_diag, skipn_all. reflexivity. Qed.

  Definition one (st st' : pst) : Prop := exists x, solid x /\ appends st st' [x].
  Lemma text_case fuel st k s l : Forall okt (p_lex st) -> p_lex st = (k, s) :: l -> k <> Whitespace ->
    part (p_text list_pk list_nx (run fuel) st) (one st).
  Proof.
    intros H E Hk. unfold p_text. cbv zeta. rewrite (eat_case k s l) by exact E. cbn [bind]. unfold rec_.
    pose proof (eat_appends k s l (start_node ItemText st) H E) as (A1 & A2 & A3 & A4 & A5 & A6).
    pose proof (run_text fuel _ A1) as R. destruct (run fuel KText _) as [[b s2]| |]; try exact I. cbn [bind part snd] in *.
    destruct R as (X & B1 & B2 & B3 & B4 & B5 & B6).
    assert (Ep : par s2 = (ItemText, List.length (chd st)) :: par st) by (rewrite B2, A2; reflexivity).
    assert (Ec : chd s2 = chd st ++ Leaf (kind_of_token k) s :: X) by (rewrite B5, A5, <- app_assoc; reflexivity).
    rewrite (finish_case _ _ _ _ Ep). cbn [part]. exists (Node ItemText (Leaf (kind_of_token k) s :: X)). 
    assert (Hs : solid (Leaf (kind_of_token k) s)) by now apply leaf_solid. split.
    - destruct Hs as (k' & s' & G1 & G2). exists k', s'. now split.
    - repeat split; cbn [p_lex p_last p_scope with_b p_b b_parents b_children].
      + exact B1.
      + rewrite B3, A3. reflexivity.
      + rewrite B4, A4. reflexivity.
      + now rewrite Ec, firstn_len, skipn_len.
      + constructor; [|constructor]. constructor; [cbn; tauto|exact Hs|]. inversion A6. now constructor.
  Qed.
  Lemma single_case st s l : Forall okt (p_lex st) -> p_lex st = (Word, s) :: l -> s <> [] ->
    part (single_char list_pk list_nx list_set st) (one st).
  Proof.
    intros H E Hs. destruct s as [|c s]; [contradiction|]. unfold single_char. pose proof H as H'. rewrite E in H'. inversion H' as [|? ? Hw Hl]. subst.
    destruct st as [lx b tr a c' sc]. cbn [p_lex] in E. subst lx. cbn [p_lex list_pk hd_error]. unfold lex_consume. cbn [p_lex token_ with_b list_pk hd_error].
    assert (G : good (Leaf TokenWord [c])) by (change TokenWord with (kind_of_token Word); constructor; exact Hw).
    assert (S : solid (Leaf TokenWord [c])) by (exists TokenWord, [c]; split; [reflexivity|discriminate]).
    destruct (Nat.leb _ _); cbn [list_nx tl bind].
    - exists (Leaf TokenWord [c]). split; [exact S|]. repeat split; auto.
    - destruct (split_bytes _ _) as [[x y]|]; [|exact I]. cbn [part]. exists (Leaf TokenWord [c]). split; [exact S|]. repeat split; auto.
      cbn. constructor; [exact Hw|exact Hl].
  Qed.

  Lemma one_Rel st st' : Pre st -> one st st' -> Rel st st'.
  Proof. intros H (x & _ & A). eapply appends_Rel; eauto. Qed.
  Definition opened (st s : pst) (n : nat) : Prop :=
    par s = (ItemAttachComponent, n) :: par st /\ p_last s = p_last st /\ p_scope s = p_scope st /\
    match p_last st with
    | Some cp => n = cp /\ firstn cp (chd s) = firstn cp (chd st)
    | None => n = List.length (chd st) /\ exists X, chd s = chd st ++ X
    end.
  Lemma opened_Rel st s s' n : opened st s n -> Rel s s' -> opened st s' n.
  Proof.
    intros (A1 & A2 & A3 & A4) (_ & B2 & B3 & B4 & B5). unfold opened. rewrite B2, B3, B4. split; [exact A1|]. split; [exact A2|]. split; [exact A3|].
    rewrite A2 in B5. destruct (p_last st) as [cp|].
    - destruct A4 as [-> A4]. split; [reflexivity|congruence].
    - destruct A4 as [-> [X A4]], B5 as [Y B5]. split; [reflexivity|]. exists (X ++ Y). now rewrite B5, A4, app_assoc.
  Qed.
  Lemma solid_Rel st s s' n : opened st s n -> Rel s s' -> solid_at n (chd s) -> solid_at n (chd s').
  Proof.
    intros (A1 & A2 & A3 & A4) (B1 & B2 & B3 & B4 & B5) H. rewrite A2 in B5. destruct (p_last st) as [cp|] eqn:E.
    - destruct A4 as [-> _]. apply B1. congruence.
    - destruct B5 as [X ->]. now apply solid_app.
  Qed.
  Lemma close st s n : Pre s -> opened st s n -> solid_at n (chd s) -> skr st (finish_node s).
  Proof.
    intros (P1 & P2 & P3) (A1 & A2 & A3 & A4) H. rewrite (finish_case _ _ _ _ A1). cbn [skr part].
    destruct (close_good ItemAttachComponent n (chd s)) as [G1 G2]; [cbn; tauto|exact H|exact P2|].
    assert (Hn : n < List.length (chd s)) by (destruct H as (x & H & _); apply nth_error_Some; congruence).
    assert (Hl : List.length (firstn n (chd s)) = n) by (rewrite firstn_length; lia).
    split; [|split; [reflexivity|split; [exact A2|split; [exact A3|]]]].
    - split; [exact P1|]. split.
      + cbn. apply Forall_app. split; [|now constructor]. rewrite <- (firstn_skipn n (chd s)) in P2. now apply Forall_app in P2.
      + intros cp E. cbn in *. rewrite A2 in E. rewrite E in A4. destruct A4 as [-> _]. rewrite <- Hl at 1. now apply solid_last.
    - cbn. destruct (p_last st) as [cp|].
      + destruct A4 as [-> A4]. rewrite firstn_app, Hl, Nat.sub_diag. cbn. rewrite app_nil_r, firstn_firstn, Nat.min_id. exact A4.
      + destruct A4 as [-> [X A4]]. rewrite A4, firstn_len. eauto.
  Qed.
  Lemma open_at cp st : Pre st -> p_last st = Some cp ->
    part (let* st := start_node_at cp ItemAttachComponent st in
          let* st := start_node_at cp ClauseArgument st in finish_node st)
      (fun s => Pre s /\ opened st s cp /\ p_lex s = p_lex st /\ solid_at cp (chd s)).
  Proof.
    intros (P1 & P2 & P3) E. unfold start_node_at, b_start_at. destruct (Nat.ltb _ _) eqn:Elt; [exact I|].
    assert (K : part (let* st0 := Ok (with_b (mk_builder ((ItemAttachComponent, cp) :: par st) (chd st)) st) in
       let* st1 := (let* b := (if Nat.ltb (List.length (b_children (p_b st0))) cp then Panic "rowan: checkpoint no longer valid, was finish_node called early?"
          else match b_parents (p_b st0) with (_, first) :: _ => if Nat.ltb cp first then Panic "rowan: checkpoint no longer valid, was an unmatched start_node_at called?"
            else Ok (mk_builder ((ClauseArgument, cp) :: b_parents (p_b st0)) (b_children (p_b st0))) | [] => Ok (mk_builder ((ClauseArgument, cp) :: b_parents (p_b st0)) (b_children (p_b st0))) end)
          in Ok (with_b b st0)) in finish_node st1) (fun s => Pre s /\ opened st s cp /\ p_lex s = p_lex st /\ solid_at cp (chd s))).
    { cbn [bind p_b with_b b_children b_parents]. rewrite Elt, Nat.ltb_irrefl. cbn [bind]. rewrite (finish_case _ ClauseArgument cp ((ItemAttachComponent, cp) :: par st)) by reflexivity.
      cbn [part]. destruct (close_good ClauseArgument cp (chd st)) as [G1 G2]; [cbn; tauto|auto|exact P2|].
      assert (Hn : cp < List.length (chd st)) by (destruct (P3 _ E) as (x & H & _); apply nth_error_Some; congruence).
      assert (Hl : List.length (firstn cp (chd st)) = cp) by (rewrite firstn_length; lia).
      assert (Hs : solid_at cp (firstn cp (chd st) ++ [Node ClauseArgument (skipn cp (chd st))])) by (rewrite <- Hl at 1; now apply solid_last).
      split; [|split; [|split; [reflexivity|exact Hs]]].
      - split; [exact P1|]. split.
        + cbn. apply Forall_app. split; [|now constructor]. rewrite <- (firstn_skipn cp (chd st)) in P2. now apply Forall_app in P2.
        + intros cp' E'. cbn in *. rewrite E in E'. injection E' as <-. exact Hs.
      - split; [reflexivity|]. split; [reflexivity|]. split; [reflexivity|]. rewrite E. split; [reflexivity|]. cbn.
        rewrite firstn_app, Hl, Nat.sub_diag. cbn. rewrite app_nil_r, firstn_firstn, Nat.min_id. reflexivity. }
    destruct (par st) as [|[k first] ps] eqn:Ep; [exact K|]. destruct (Nat.ltb cp first); [exact I|]. exact K.
  Qed.
  Section Content.
    Variable fuel : nat.
    Hypothesis IHc : forall st, Pre st -> part (run fuel (KContent false) st) (fun x => Rel st (snd x)).
    Lemma attach_case b st k s l : Pre st -> p_lex st = (k, s) :: l -> k <> Whitespace ->
      skr st (attach_component list_pk list_nx (run fuel) b st).
    Proof.
      intros HP E Hk. unfold attach_component. cbv zeta.
      assert (F : forall s0 n, Pre s0 -> opened st s0 n -> p_lex s0 = p_lex st -> solid_at n (chd s0) \/ n = List.length (chd s0) ->
        skr st (let* st := eat list_pk list_nx s0 in let* st := if b then let* st := rec_ (run fuel) KTrivia st in rec_ (run fuel) (KContent false) st else Ok st in finish_node st)).
      { intros s0 n P0 O0 E0 S0. rewrite (eat_case k s l) by congruence. cbn [bind].
        assert (P1 : Forall okt (p_lex s0)) by apply P0.
        pose proof (eat_appends k s l s0 P1 ltac:(congruence)) as A. set (s1 := token_ _ _ _) in *.
        pose proof (appends_Rel _ _ _ P0 A) as R1. pose proof (opened_Rel _ _ _ _ O0 R1) as O1.
        assert (S1 : solid_at n (chd s1)).
        { destruct A as (_ & _ & _ & _ & A5 & _). eapply eq_ind_r with (P := solid_at n); [|exact A5]. destruct S0 as [S0| ->]; [now apply solid_app|]. apply solid_last. now apply leaf_solid. }
        assert (Fin : forall s2, Rel s1 s2 -> skr st (finish_node s2)).
        { intros s2 R2. eapply close; [apply R2|eapply opened_Rel; eauto|eapply solid_Rel; eauto]. }
        destruct b; [|cbn [bind]; apply Fin; apply Rel_refl; apply R1]. unfold rec_.
        pose proof (run_trivia fuel s1 (proj1 (proj1 R1))) as T. destruct (run fuel KTrivia s1) as [[x s2]| |]; try exact I. cbn [bind part snd] in *.
        destruct T as [X T]. apply (appends_Rel _ _ _ (proj1 R1)) in T.
        pose proof (IHc s2 (proj1 T)) as U. destruct (run fuel (KContent false) s2) as [[y s3]| |]; try exact I. cbn [bind part snd] in *.
        apply Fin. eapply Rel_trans; eauto. }
      destruct (p_last st) as [cp|] eqn:El.
      - pose proof (open_at cp st HP El) as O. 
        assert (B : forall (f : pst -> res pst), (forall s, Pre s /\ opened st s cp /\ p_lex s = p_lex st /\ solid_at cp (chd s) -> skr st (f s)) ->
          skr st (let* st := start_node_at cp ItemAttachComponent st in let* st := start_node_at cp ClauseArgument st in let* st := finish_node st in f st)).
        { intros f Hf. destruct (start_node_at cp ItemAttachComponent st) as [s1| |]; try exact I. cbn [bind] in *.
          destruct (start_node_at cp ClauseArgument s1) as [s2| |]; try exact I. cbn [bind] in *.
          destruct (finish_node s2) as [s3| |]; try exact I. cbn [bind part] in *. auto. }
        apply B. intros s0 (O1 & O2 & O3 & O4). apply (F s0 cp); auto.
      - destruct (negb b).
        + rewrite (eat_case k s l) by exact E. cbn [skr part]. eapply appends_Rel; [exact HP|]. apply eat_appends; [apply HP|exact E].
        + apply (F _ (List.length (chd st))); [| |reflexivity|right; reflexivity].
          * destruct HP as (P1 & P2 & P3). repeat split; auto.
          * split; [reflexivity|]. split; [reflexivity|]. split; [reflexivity|]. rewrite El. split; [reflexivity|]. exists []. cbn. now rewrite app_nil_r.
    Qed.
    Lemma content_case ns st : Pre st ->
      part (content list_pk list_nx list_set sp (run fuel) ns st)
        (fun x => Rel st (snd x) /\ (ns = true -> fst x = true -> p_lex st <> [] -> one st (snd x))).
    Proof.
      intros HP. unfold content, p_peek. destruct (p_lex st) as [|[k s] l] eqn:E.
      { cbn. split; [now apply Rel_refl|]. contradiction. }
      cbn [list_pk hd_error option_map fst]. pose proof HP as (P1 & P2 & P3).
      assert (Hk : ok k) by (rewrite E in P1; now inversion P1). apply Hok in Hk.
      assert (No : part (let* st := eat list_pk list_nx st in Ok (false, st)) (fun x : bool * pst => Rel st (snd x) /\ (ns = true -> fst x = true -> (k, s) :: l <> [] -> one st (snd x)))).
      { rewrite (eat_case k s l) by exact E. cbn [bind part]. split; [|discriminate]. eapply appends_Rel; [exact HP|]. apply eat_appends; [exact P1|exact E]. }
      assert (Yes : k <> Whitespace -> part (let* st := eat list_pk list_nx st in Ok (true, st)) (fun x : bool * pst => Rel st (snd x) /\ (ns = true -> fst x = true -> (k, s) :: l <> [] -> one st (snd x)))).
      { intros Hw. rewrite (eat_case k s l) by exact E. cbn [bind part]. 
        assert (A : one st (token_ (kind_of_token k) s (with_lex l st))) by (exists (Leaf (kind_of_token k) s); split; [now apply leaf_solid|apply eat_appends; [exact P1|exact E]]).
        split; [now apply one_Rel|auto]. }
      assert (At : forall b, k <> Whitespace -> part (let* st := attach_component list_pk list_nx (run fuel) b st in Ok (false, st)) (fun x : bool * pst => Rel st (snd x) /\ (ns = true -> fst x = true -> (k, s) :: l <> [] -> one st (snd x)))).
      { intros b Hw. pose proof (attach_case b st k s l HP E Hw) as A. destruct (attach_component _ _ _ _ _); try exact I. cbn [bind part snd fst] in *. split; [exact A|discriminate]. }
      assert (Tx : k <> Whitespace -> part (let* st := p_text list_pk list_nx (run fuel) st in Ok (true, st)) (fun x : bool * pst => Rel st (snd x) /\ (ns = true -> fst x = true -> (k, s) :: l <> [] -> one st (snd x)))).
      { intros Hw. pose proof (text_case fuel st k s l P1 E Hw) as A. destruct (p_text _ _ _ _); try exact I. cbn [bind part snd fst] in *. split; [now apply one_Rel|auto]. }
      destruct k; try discriminate Hk; try exact No; try (apply Yes; discriminate); try (apply At; discriminate); try (apply Tx; discriminate).
      - destruct b; try discriminate Hk; apply Yes; discriminate.
      - destruct b; try discriminate Hk; apply Yes; discriminate.
      - destruct ns; [apply Tx; discriminate|]. destruct s as [|c s].
        + assert (Es : single_char list_pk list_nx list_set st = Ok st) by (unfold single_char; rewrite E; reflexivity). rewrite Es. cbn [bind part snd fst]. split; [now apply Rel_refl|discriminate].
        + pose proof (single_case st (c :: s) l P1 E ltac:(discriminate)) as A. destruct (single_char _ _ _ _); try exact I. cbn [bind part snd fst] in *. split; [now apply one_Rel|discriminate].
    Qed.
  End Content.
  Lemma run_content fuel : forall st, Pre st ->
    part (run fuel (KContent false) st) (fun x => Rel st (snd x)).
  Proof.
    induction fuel as [|n IH]; intros st H; [exact I|]. cbn [Parser.run dispatch].
    pose proof (content_case n IH false st H) as A. destruct (content _ _ _ _ _ _ _) as [[b s]| |]; try exact I. cbn [part] in *. apply A.
  Qed.
  Lemma run_list fuel : forall cur st, Pre st -> p_scope st = Root -> cur = checkpoint st ->
    part (run fuel (KList cur) st) (fun x => Forall good (chd (snd x)) /\ par (snd x) = par st /\ p_lex (snd x) = []).
  Proof.
    induction fuel as [|n IH]; intros cur st H Hs Hc; [exact I|]. cbn [Parser.run]. unfold dispatch, list_loop, p_peek.
    destruct (p_lex st) as [|t l] eqn:E; [cbn; repeat split; [apply H|exact E]|]. cbn [list_pk hd_error option_map]. rewrite Hs. cbn [stop_by_scope].
    destruct n as [|n]; [exact I|]. change (run (S n) (KContent true) st) with (content list_pk list_nx list_set sp (run n) true st).
    pose proof (content_case n (run_content n) true st H) as A. destruct (content _ _ _ _ _ _ _) as [[b s]| |]; try exact I. cbn [bind part] in *.
    cbn [fst snd] in A. destruct A as [(R1 & R2 & R3 & R4 & R5) A]. cbv zeta. set (s' := if b then _ else _).
    assert (Ep : par s' = par st) by (unfold s'; destruct b; exact R2).
    rewrite <- Ep. apply IH; [|unfold s'; destruct b; cbn; congruence|reflexivity].
    unfold s'. destruct b; [|exact R1]. destruct (A eq_refl eq_refl ltac:(congruence)) as (x & X1 & X2). destruct R1 as (P1 & P2 & P3).
    split; [exact P1|]. split; [exact P2|]. intros cp [= <-]. cbn. destruct X2 as (_ & _ & _ & _ & X5 & _). subst cur. eapply eq_ind_r with (P := solid_at _); [|exact X5]. now apply solid_last.
  Qed.
  Lemma parse_plain_good fuel ts t : Forall okt ts -> parse_list gm sp fuel ts = Ok t ->
    exists ch, t = Node ScopeRoot ch /\ Forall good ch.
  Proof.
    intros Hs H. unfold parse_list, parse in H. cbv zeta in H. apply bind_ok in H as (s1 & E1 & H). apply bind_ok in H as (s2 & E2 & H).
    unfold item_list in E1. cbv zeta in E1. apply bind_ok in E1 as (s3 & E3 & [= <-]). unfold rec_ in E3. apply bind_ok in E3 as ([b s4] & E3 & [= <-]).
    set (s0 := with_list _ _ _ _) in E3.
    assert (P0 : Pre s0) by (repeat split; [exact Hs|constructor|discriminate]).
    pose proof (run_list fuel (checkpoint (start_node ScopeRoot (pst_new ts))) s0 P0 eq_refl eq_refl) as R. rewrite E3 in R. cbn [part snd] in R. destruct R as (R1 & R2 & _).
    set (s5 := with_list _ _ _ _) in E2. assert (Ep : par s5 = [(ScopeRoot, 0)]) by exact R2.
    rewrite (finish_case _ _ _ _ Ep) in E2. injection E2 as <-. cbn in H. injection H as <-. exists (chd s4). split; [reflexivity|exact R1].
  Qed.
End Plain.
