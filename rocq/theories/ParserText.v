(** The leaves of the tree spell the tokens (C21), and each item consumes
    input (C22). *)
From Verif Require Export ParserWp.
Local Open Scope nat_scope.

(** ** Specification: how a sequence of leaves spells a sequence of tokens *)

(** the marks of skipped blocks, which may be left out *)
Definition block_mark (k : token) : Prop :=
  k = CommandName (CIf IfFalse) \/ k = CommandName (CIf IfTypst) \/ k = CommandName CEndIf.
(** the first token that is not a blank or a comment *)
Fixpoint skip_trivia (ts : list tok) : list tok :=
  match ts with
  | t :: r => if is_trivia (fst t) then skip_trivia r else ts
  | [] => []
  end.
(** an argument may begin here *)
Definition begins_argument (ts : list tok) : Prop :=
  match ts with
  | [] => False
  | t :: _ => fst t <> Ampersand /\ fst t <> Underscore /\ fst t <> Caret
  end.
(** a command or environment that takes (non-greedy) arguments from the right *)
Definition takes_right (sp : spec) (t : tok) : Prop :=
  (kind_of_token (fst t) = ClauseCommandName /\ exists name p, snd t = 92%N :: name /\
    option_map cs_args (get_cmd sp name) = Some (SRight p) /\ p <> PNone /\ p <> PGreedy) \/
  (fst t = CommandName BeginEnvironment /\ exists p, option_map en_args (get_env sp (snd t)) = Some p /\ p <> PNone).
(** what may be left out before [ts]: block marks; and, provided there is a
    command or environment with arguments ([takes]), blanks and comments before
    something that can begin an argument *)
Definition droppable (takes : Prop) (k : token) (ts : list tok) : Prop :=
  block_mark k \/ (is_trivia k = true /\ takes /\ begins_argument (skip_trivia ts)).

Section Spells.
Variable takes : Prop.
Inductive spells : list tok -> list (kind * text) -> Prop :=
| sp_nil : spells [] []
| sp_whole t ts ls : spells ts ls -> spells (t :: ts) ((kind_of_token (fst t), snd t) :: ls)
(* a command after [\left] or [\right] is kept as a symbol *)
| sp_sym s ts ls : spells ts ls ->
    spells ((CommandName Generic, s) :: ts) ((TokenCommandSym, s) :: ls)
(* a word may be cut in pieces *)
| sp_split a b ts ls : a <> [] -> spells ((Word, b) :: ts) ls ->
    spells ((Word, a ++ b) :: ts) ((TokenWord, a) :: ls)
| sp_drop t ts ls : droppable takes (fst t) ts -> spells ts ls -> spells (t :: ts) ls.
End Spells.

(** the text of a token list / leaf list *)
Definition toks_text (ts : list tok) : text := flat_map snd ts.
Definition leaves_text (ls : list (kind * text)) : text := flat_map snd ls.

(** ** What remains of the input *)
Inductive sfx : list tok -> list tok -> Prop :=
| sfx_refl ts : sfx ts ts
| sfx_drop t ts ts' : sfx ts ts' -> sfx (t :: ts) ts'
| sfx_split a b ts ts' : a <> [] -> b <> [] -> sfx ((Word, b) :: ts) ts' -> sfx ((Word, a ++ b) :: ts) ts'.
Lemma sfx_trans a b c : sfx a b -> sfx b c -> sfx a c.
Proof. induction 1; intros Hc; [exact Hc|apply sfx_drop|apply sfx_split]; auto. Qed.
Lemma sfx_size a b : sfx a b -> toks_size b <= toks_size a.
Proof.
  induction 1 as [|t ts ts' H IH|a b ts ts' Ha Hb H IH]; simpl in *; try lia.
  rewrite app_length. lia.
Qed.
Lemma sfx_nil ts : sfx ts [].
Proof. induction ts; constructor; auto. Qed.

Section Text.
  Variable gm : text -> text -> bool.
  Context {sp : spec}.

  Definition lv (st : lpst) : list (kind * text) := flat_map leaves (chd st).
  Context {takes : Prop}.
  Notation spells := (spells takes).
  Notation okT := (fun t : tok => takes_right sp t -> takes).
  Lemma okT_sfx a b : sfx a b -> Forall okT a -> Forall okT b.
  Proof.
    induction 1 as [|t ts ts' H IH|a b ts ts' Ha Hb H IH]; auto; intros F; inversion_clear F as [|? ? F1 F2]; auto.
    apply IH. constructor; [|exact F2]. intros [[E _]|[E _]]; discriminate.
  Qed.
  Definition rel (st st' : lpst) : Prop :=
    sfx (p_lex st) (p_lex st') /\
    (Forall okT (p_lex st) -> forall ls', spells (p_trivia st' ++ p_lex st') ls' ->
      exists ls, spells (p_trivia st ++ p_lex st) ls /\ lv st ++ ls = lv st' ++ ls').
  (** ... under a condition *)
  Definition rel_if (C : Prop) (st st' : lpst) : Prop := sfx (p_lex st) (p_lex st') /\ (C -> rel st st').
  Lemma rel_rel_if C a b : rel a b -> rel_if C a b.
  Proof. intros H. split; [exact (proj1 H)|auto]. Qed.

  Lemma rel_refl st : rel st st.
  Proof. split; [constructor|]. eauto. Qed.
  Lemma rel_trans a b c : rel a b -> rel b c -> rel a c.
  Proof.
    intros [H1 H2] [H3 H4]. split; [eapply sfx_trans; eauto|].
    intros HT ls' H. destruct (H4 (okT_sfx _ _ H1 HT) _ H) as (l2 & H5 & H6). destruct (H2 HT _ H5) as (l1 & H7 & H8).
    exists l1. split; [assumption|]. congruence.
  Qed.
  Lemma rel_if_trans (C1 C2 C : Prop) a b c : (C -> C1) -> (C -> C2) -> rel_if C1 a b -> rel_if C2 b c -> rel_if C a c.
  Proof.
    intros X1 X2 [H1 H2] [H3 H4]. split; [eapply sfx_trans; eauto|]. intros H. eapply rel_trans; [apply H2|apply H4]; auto.
  Qed.
  (** states with the same input, trivia and leaves *)
  Definition same (st st' : lpst) : Prop :=
    p_lex st = p_lex st' /\ p_trivia st = p_trivia st' /\ lv st = lv st'.
  Lemma same_rel a b : same a b -> rel a b.
  Proof. intros (H1 & H2 & H3). split; [rewrite H1; constructor|]. rewrite H1, H2, H3. eauto. Qed.

  (** ** Primitives *)
  Lemma leaves_finish k n ch :
    flat_map leaves (firstn n ch ++ [Node k (skipn n ch)]) = flat_map leaves ch.
  Proof.
    rewrite flat_map_app. simpl. rewrite app_nil_r, <- flat_map_app, firstn_skipn. reflexivity.
  Qed.
  Lemma finish_same st st' : finish_node st = Ok st' -> same st st'.
  Proof.
    unfold finish_node, b_finish_node. destruct (par st) as [|[k n] ps] eqn:E; [discriminate|].
    simpl. intros [= <-]. split; [reflexivity|]. split; [reflexivity|].
    unfold lv. simpl. now rewrite leaves_finish.
  Qed.
  Lemma start_same k st : same st (start_node k st).
  Proof. repeat split. Qed.
  Lemma start_at_same cp k st st' : start_node_at cp k st = Ok st' -> same st st'.
  Proof.
    unfold start_node_at, b_start_at. destruct (Nat.ltb _ _); [discriminate|].
    destruct (par st) as [|[k' n] ps]; [intros [= <-]; repeat split|].
    destruct (Nat.ltb _ _); [discriminate|]. intros [= <-]. repeat split.
  Qed.
  Lemma with_last_same x st : same st (with_last x st). Proof. repeat split. Qed.
  Lemma with_start_same x st : same st (with_start x st). Proof. repeat split. Qed.
  Lemma with_list_same a b c st : same st (with_list a b c st). Proof. repeat split. Qed.

  Lemma lv_token k s st : lv (token_ k s st) = lv st ++ [(k, s)].
  Proof. unfold lv. simpl. rewrite flat_map_app. reflexivity. Qed.

  (** The outcome of a step that keeps no trivia pending *)
  Definition step (st st' : lpst) : Prop := p_trivia st' = [] /\ rel st st'.
  (** ... and consumes a token *)
  Definition eats (st st' : lpst) : Prop :=
    p_trivia st' = [] /\ rel st st' /\ toks_size (p_lex st') < toks_size (p_lex st).

  Lemma eat_spec st : p_trivia st = [] ->
    wp True True (leat st) (fun st' => eats st st' /\ p_lex st' = tl (p_lex st)
      /\ exists t, p_lex st = t :: p_lex st' /\ st' = with_lex (p_lex st') (token_ (kind_of_token (fst t)) (snd t) st)).
  Proof.
    intros H. unfold eat, lex_eat, list_pk, list_nx. destruct (p_lex st) as [|t ts] eqn:E; simpl; [exact I|].
    simpl. split; [|split; [reflexivity|exists t; split; reflexivity]].
    split; [exact H|]. split.
    - split; simpl; rewrite E; [constructor; constructor|].
      rewrite H. simpl. intros _ ls' Hs. exists ((kind_of_token (fst t), snd t) :: ls').
      split; [now constructor|]. unfold lv. simpl. rewrite flat_map_app, <- app_assoc. reflexivity.
    - rewrite E. simpl. lia.
  Qed.
  Lemma eat_as_spec st : p_trivia st = [] ->
    (exists s ts, p_lex st = (CommandName Generic, s) :: ts) ->
    wp True True (eat_as list_pk list_nx TokenCommandSym st) (fun st' => eats st st').
  Proof.
    destruct st as [lx b h ps l sc]. simpl. intros -> (s & ts & ->). simpl.
    split; [reflexivity|]. split; [|simpl; lia].
    split; simpl; [constructor; constructor|].
    intros _ ls' Hs. exists ((TokenCommandSym, s) :: ls').
    split; [now constructor|]. unfold lv. simpl. rewrite flat_map_app, <- app_assoc. reflexivity.
  Qed.
  Lemma drop_spec st : p_trivia st = [] ->
    (forall t ts, p_lex st = t :: ts -> block_mark (fst t)) ->
    wp True True (drop_ list_pk list_nx st) (fun st' => step st st' /\ (p_lex st <> [] -> eats st st')).
  Proof.
    destruct st as [lx b h ps l sc]. simpl. intros -> D. destruct lx as [|t ts]; simpl.
    { split; [split; [reflexivity|apply rel_refl]|congruence]. }
    assert (S : rel (mk_pst (t :: ts) b [] ps l sc) (mk_pst ts b [] ps l sc)).
    { split; simpl; [constructor; constructor|].
      intros _ ls' Hs. exists ls'. split; [constructor; [left; eauto|assumption]|reflexivity]. }
    split; [split; [reflexivity|exact S]|]. intros _. split; [reflexivity|]. split; [exact S|]. simpl. lia.
  Qed.
  Lemma eat_if_spec k st : p_trivia st = [] ->
    wp True True (eat_if_ list_pk list_nx k st) (fun st' => step st st').
  Proof.
    intros H. unfold eat_if_. destruct (p_peek list_pk st) as [k'|]; [|split; [exact H|apply rel_refl]].
    destruct (token_eqb k' k); [|split; [exact H|apply rel_refl]].
    eapply wp_mono; [exact (eat_spec st H)|]. intros a ((H1 & H2 & _) & _). split; assumption.
  Qed.
  Lemma hold_spec (st : lpst) (t : tok) (ts : list tok) : p_lex st = t :: ts -> is_trivia (fst t) = true ->
    Forall (fun t => is_trivia (fst t) = true) (p_trivia st) ->
    wp True True (hold_trivia list_pk list_nx st)
      (fun st' => Forall (fun t => is_trivia (fst t) = true) (p_trivia st') /\ rel st st').
  Proof.
    destruct st as [lx b h ps l sc]. simpl. intros -> Ht H. simpl. split.
    - apply Forall_app. auto.
    - split; simpl; [constructor; constructor|].
      intros _ ls' Hs. rewrite <- app_assoc in Hs. exists ls'. split; [exact Hs|reflexivity].
  Qed.
  (** the next token can begin an argument *)
  Definition at_arg (st : lpst) : Prop :=
    match p_lex st with
    | t :: _ => is_trivia (fst t) = false /\ fst t <> Ampersand /\ fst t <> Underscore /\ fst t <> Caret
    | [] => False
    end.
  Lemma spells_trivia h : Forall (fun t => is_trivia (fst t) = true) h -> takes ->
    forall ts ls, begins_argument (skip_trivia ts) -> spells ts ls -> spells (h ++ ts) ls.
  Proof.
    intros H Ht ts ls Hb Hs. assert (E : forall h', Forall (fun t => is_trivia (fst t) = true) h' -> skip_trivia (h' ++ ts) = skip_trivia ts).
    { induction 1 as [|t h' H1 _ IH]; simpl; [reflexivity|]. now rewrite H1. }
    induction H as [|t h H1 H2 IH]; simpl; auto. apply sp_drop; [|auto]. right. rewrite E by assumption. auto.
  Qed.
  Lemma ignore_spec st : Forall (fun t => is_trivia (fst t) = true) (p_trivia st) ->
    p_trivia (ignore_holding_trivia st) = [] /\ rel_if (takes /\ at_arg st) st (ignore_holding_trivia st).
  Proof.
    intros H. split; [reflexivity|]. split; [constructor|]. intros [Ht Ha]. split; [constructor|]. simpl. intros _ ls' Hs.
    exists ls'. split; [|reflexivity]. apply spells_trivia; auto.
    unfold at_arg in Ha. destruct (p_lex st) as [|t ts]; [contradiction|]. destruct Ha as (Ha & Hb). simpl. rewrite Ha. exact Hb.
  Qed.
  Lemma fold_tokens h : forall st : lpst,
    let st' := fold_left (fun st t => token_ (kind_of_token (fst t)) (snd t) st) h st in
    p_lex st' = p_lex st /\ p_start st' = p_start st /\ p_last st' = p_last st /\ p_scope st' = p_scope st /\
    p_trivia st' = p_trivia st /\ par st' = par st /\
    chd st' = chd st ++ map (fun t => Leaf (kind_of_token (fst t)) (snd t)) h.
  Proof.
    induction h as [|t h IH]; intros st; simpl.
    - rewrite app_nil_r. repeat split.
    - destruct (IH (token_ (kind_of_token (fst t)) (snd t) st)) as (-> & -> & -> & -> & -> & -> & ->).
      repeat split. simpl. rewrite <- app_assoc. reflexivity.
  Qed.
  Lemma spells_all h : forall ts ls, spells ts ls ->
    spells (h ++ ts) (map (fun t => (kind_of_token (fst t), snd t)) h ++ ls).
  Proof. induction h as [|t h IH]; intros ts ls Hs; simpl; auto. constructor. auto. Qed.
  Lemma extract_spec st : step st (extract_holding_trivia st).
  Proof.
    unfold extract_holding_trivia. destruct (fold_tokens (p_trivia st) st) as (E1 & _ & _ & _ & _ & _ & E2).
    split; [reflexivity|]. split; simpl; rewrite E1; [constructor|]. intros _ ls' Hs.
    exists (map (fun t => (kind_of_token (fst t), snd t)) (p_trivia st) ++ ls').
    split; [now apply spells_all|]. unfold lv. simpl. rewrite E2, flat_map_app, <- app_assoc. f_equal. f_equal.
    clear. induction (p_trivia st) as [|t h IH]; simpl; congruence.
  Qed.
  (** [lex_consume] of the bytes of the first characters of a word *)
  Lemma consume_spec (st : lpst) (a b : text) (ts : list tok) : p_lex st = (Word, a ++ b) :: ts ->
    wp True True (lex_consume list_pk list_nx list_set (blen a) st) (fun st' =>
      st' = with_lex (match b with [] => ts | _ => (Word, b) :: ts end) st).
  Proof.
    destruct st as [lx bb h ps l sc]. simpl. intros ->. unfold lex_consume. simpl.
    destruct (Nat.leb_spec (blen (a ++ b)) (blen a)) as [H|H]; simpl.
    - rewrite blen_app in H. destruct b as [|c b]; [reflexivity|]. simpl in H. pose proof (utf8_len_pos c). lia.
    - rewrite split_bytes_intro. simpl. destruct b as [|c b]; [rewrite app_nil_r in H; lia|]. reflexivity.
  Qed.
  (** the leaves produced for the first characters, then the rest of the word *)
  Lemma word_rel (st st' : lpst) (cs b : text) (ts : list tok) : p_trivia st = [] -> p_lex st = (Word, cs ++ b) :: ts -> cs <> [] ->
    p_trivia st' = [] -> p_lex st' = match b with [] => ts | _ => (Word, b) :: ts end ->
    lv st' = lv st ++ map (fun c => (TokenWord, [c])) cs -> eats st st'.
  Proof.
    intros Ht El Hcs Ht' El' Hl. split; [assumption|]. split.
    - split.
      + rewrite El, El'. destruct b as [|c b]; [constructor; constructor|].
        apply sfx_split; [assumption|discriminate|constructor].
      + rewrite Ht, Ht', El, El', Hl. simpl. intros _ ls' Hs.
        exists (map (fun c => (TokenWord, [c])) cs ++ ls'). split; [|now rewrite <- app_assoc].
        clear - Hs Hcs. revert Hs Hcs. induction cs as [|c cs IH]; intros Hs Hcs; [congruence|].
        destruct cs as [|c' cs].
        * simpl. destruct b as [|d b].
          -- exact (sp_whole _ (Word, [c]) ts ls' Hs).
          -- apply (sp_split _ [c] (d :: b)); [discriminate|assumption].
        * apply (sp_split _ [c] ((c' :: cs) ++ b)); [discriminate|]. apply IH; [assumption|discriminate].
    - rewrite El, El'. destruct cs as [|c cs]; [congruence|].
      destruct b as [|d b]; simpl; rewrite ?app_length; simpl; lia.
  Qed.
  Lemma single_char_spec (st : lpst) (s : text) (ts : list tok) : p_trivia st = [] -> p_lex st = (Word, s) :: ts ->
    wp True True (single_char list_pk list_nx list_set st) (fun st' => step st st' /\ (s <> [] -> eats st st')).
  Proof.
    intros Ht El. unfold single_char, list_pk. rewrite El. destruct s as [|c s]; simpl.
    { split; [split; [assumption|apply rel_refl]|congruence]. }
    assert (El2 : p_lex (token_ TokenWord [c] st) = (Word, [c] ++ s) :: ts) by exact El.
    pose proof (consume_spec (token_ TokenWord [c] st) [c] s ts El2) as H.
    simpl blen in H. rewrite Nat.add_0_r in H.
    eapply wp_mono; [exact H|]. intros st' ->.
    assert (X : eats st (with_lex match s with [] => ts | _ :: _ => (Word, s) :: ts end (token_ TokenWord [c] st))).
    { eapply (word_rel st _ [c] s ts); auto; [discriminate|]. simpl. unfold lv. simpl. now rewrite flat_map_app. }
    split; [|auto]. destruct X as (X1 & X2 & _). split; assumption.
  Qed.

  (** ** The recursive functions *)
  Definition hpre (c : call) (st : lpst) : Prop :=
    match c with
    | KMatch false _ _ => Forall (fun t => is_trivia (fst t) = true) (p_trivia st)
    | _ => p_trivia st = []
    end.
  (** each item of a list consumes input *)
  Definition progress (st st' : lpst) : Prop :=
    p_lex st <> [] -> Forall (fun t => fst t = Word -> snd t <> []) (p_lex st) ->
    toks_size (p_lex st') < toks_size (p_lex st).
  Definition rpost (c : call) (st : lpst) (r : bool * lpst) : Prop :=
    hpre c (snd r) /\
    match c with KMatch false m _ => rel_if (m = AMNone \/ takes) st (snd r) | _ => rel st (snd r) end /\ match c with KContent _ => progress st (snd r) | _ => True end.
  Definition rspec (rec : lrec) : Prop :=
    forall c st, hpre c st -> wp True True (rec c st) (rpost c st).

  Lemma step_rel a b : step a b -> rel a b. Proof. now intros [_ H]. Qed.
  Lemma eats_step a b : eats a b -> step a b. Proof. intros (H1 & H2 & _). now split. Qed.
  Lemma eats_rel a b : eats a b -> rel a b. Proof. now intros (_ & H & _). Qed.
  Lemma eats_progress a b : eats a b -> progress a b. Proof. now intros (_ & _ & H) _ _. Qed.
  Lemma step_trans a b c : step a b -> step b c -> step a c.
  Proof. intros [_ H1] [H2 H3]. split; [assumption|]. eapply rel_trans; eauto. Qed.
  Lemma eats_step_trans a b c : eats a b -> step b c -> eats a c.
  Proof.
    intros (H1 & H2 & H3) [H4 H5]. split; [assumption|]. split; [eapply rel_trans; eauto|].
    destruct H5 as [H5 _]. apply sfx_size in H5. lia.
  Qed.
  Lemma rel_eats a b c : rel a b -> eats b c -> eats a c.
  Proof.
    intros H (H1 & H2 & H3). split; [assumption|]. split; [eapply rel_trans; eauto|].
    destruct H as [H _]. apply sfx_size in H. lia.
  Qed.
  Lemma same_trivia a b : same a b -> p_trivia a = [] -> p_trivia b = [].
  Proof. intros (_ & H & _). congruence. Qed.
  Lemma same_step a b : same a b -> p_trivia a = [] -> step a b.
  Proof. intros H H0. split; [eapply same_trivia; eauto|]. now apply same_rel. Qed.
  Lemma same_trans a b c : same a b -> same b c -> same a c.
  Proof. unfold same. intuition congruence. Qed.
  Lemma step_finish a b st : step a b -> finish_node b = Ok st -> step a st.
  Proof.
    intros H E. apply finish_same in E. eapply step_trans; [exact H|].
    apply same_step; [assumption|]. now destruct H.
  Qed.
  Lemma eats_finish a b st : eats a b -> finish_node b = Ok st -> eats a st.
  Proof.
    intros H E. apply finish_same in E. eapply eats_step_trans; [exact H|].
    apply same_step; [assumption|]. now destruct H.
  Qed.
  Lemma wp_finish st : wp True True (finish_node st) (fun st' => same st st').
  Proof. apply wp_intro. intros a E. now apply finish_same in E. Qed.
  Lemma same_eats a b c : same a b -> eats b c -> eats a c.
  Proof. intros H. apply rel_eats. now apply same_rel. Qed.

  Section Fun.
    Variable rec : lrec.
    Hypothesis IH : rspec rec.

    Lemma rec_step c st : (match c with KMatch false _ _ => False | _ => True end) -> p_trivia st = [] ->
      wp True True (rec_ rec c st) (fun st' => step st st').
    Proof.
      intros Hc H. unfold rec_. apply wp_bind. eapply wp_mono; [apply (IH c st)|].
      - destruct c as [| |[]| | |]; simpl; auto; contradiction.
      - intros [r st'] (H1 & H2 & _). cbn [wp]. split; destruct c as [| |[]| | |]; simpl in H1, H2; auto; contradiction.
    Qed.

    Ltac kont := cbn [snd]; split; [|split; [|exact I]].

    Lemma trivia_loop_spec st : p_trivia st = [] -> wp True True (trivia_loop list_pk list_nx rec st) (rpost KTrivia st).
    Proof.
      intros H. unfold trivia_loop. destruct (p_peek list_pk st) as [k|]; [|kont; [exact H|apply rel_refl]].
      destruct (is_trivia k); [|kont; [exact H|apply rel_refl]].
      apply wp_bind. eapply wp_mono; [exact (eat_spec st H)|]. intros a [(H1 & H2 & H3) _].
      eapply wp_mono; [apply (IH KTrivia a H1)|]. intros [r b] (H4 & H5 & _). kont; [exact H4|].
      eapply rel_trans; eauto.
    Qed.
    Lemma text_loop_spec st : p_trivia st = [] -> wp True True (text_loop list_pk list_nx rec st) (rpost KText st).
    Proof.
      intros H. unfold text_loop. destruct (p_peek list_pk st) as [k|]; [|kont; [exact H|apply rel_refl]].
      destruct (is_text_component k); [|kont; [exact H|apply rel_refl]].
      apply wp_bind. eapply wp_mono; [exact (eat_spec st H)|]. intros a [(H1 & H2 & H3) _].
      eapply wp_mono; [apply (IH KText a H1)|]. intros [r b] (H4 & H5 & _). kont; [exact H4|].
      eapply rel_trans; eauto.
    Qed.
    Lemma list_loop_spec cur st : p_trivia st = [] -> wp True True (list_loop list_pk rec cur st) (rpost (KList cur) st).
    Proof.
      intros H. unfold list_loop. destruct (p_peek list_pk st) as [k|]; [|kont; [exact H|apply rel_refl]].
      destruct (stop_by_scope _ k); [kont; [exact H|apply rel_refl]|].
      apply wp_bind. eapply wp_mono; [exact (IH (KContent true) st H)|]. intros [r a] (H1 & H2 & _).
      cbv zeta. set (a' := if r then with_last (Some cur) a else a).
      assert (S : step a a') by (apply same_step; [unfold a'; destruct r; repeat split|exact H1]).
      destruct S as [S1 S2].
      eapply wp_mono; [apply (IH (KList (checkpoint a')) a' S1)|]. intros [r' b] (H4 & H5 & _). kont; [exact H4|].
      eapply rel_trans; [exact H2|]. eapply rel_trans; eauto.
    Qed.
    Lemma item_list_spec sc st : p_trivia st = [] -> wp True True (item_list rec sc st) (fun st' => step st st').
    Proof.
      intros H. unfold item_list. cbv zeta. apply wp_bind.
      eapply wp_mono; [apply rec_step; [exact I|exact H]|]. intros a Ha. cbn [wp].
      eapply step_trans; [apply same_step; [apply with_list_same|exact H]|].
      eapply step_trans; [exact Ha|]. apply same_step; [apply with_list_same|]. now destruct Ha.
    Qed.
    Lemma item_group_spec sc st : p_trivia st = [] -> wp True True (item_group list_pk list_nx rec sc st) (fun st' => eats st st').
    Proof.
      intros H. unfold item_group. apply wp_bind.
      assert (G : forall e g, wp True True (let* st0 := leat (start_node g st) in
         let* st1 := item_list rec sc st0 in let* st2 := eat_if_ list_pk list_nx e st1 in finish_node st2)
         (fun st' => eats st st')).
      { intros e g. apply wp_bind. eapply wp_mono; [exact (eat_spec (start_node g st) H)|]. intros a [Ha _].
        apply wp_bind. eapply wp_mono; [apply item_list_spec; now destruct Ha|]. intros b Hb.
        apply wp_bind. eapply wp_mono; [apply eat_if_spec; now destruct Hb|]. intros c Hc.
        eapply wp_mono; [apply wp_finish|]. intros d Hd.
        apply (same_eats _ (start_node g st)); [apply start_same|].
        eapply eats_step_trans; [exact Ha|]. eapply step_trans; [exact Hb|]. eapply step_trans; [exact Hc|].
        apply same_step; [assumption|]. now destruct Hc. }
      destruct sc; cbn [wp]; try exact I; apply G.
    Qed.
    Lemma p_text_spec st : p_trivia st = [] -> wp True True (p_text list_pk list_nx rec st) (fun st' => eats st st').
    Proof.
      intros H. unfold p_text. cbv zeta. apply wp_bind.
      eapply wp_mono; [exact (eat_spec (start_node ItemText st) H)|]. intros a [Ha _].
      apply wp_bind. eapply wp_mono; [apply rec_step; [exact I|now destruct Ha]|]. intros b Hb.
      eapply wp_mono; [apply wp_finish|]. intros d Hd.
      apply (same_eats _ (start_node ItemText st)); [apply start_same|].
      eapply eats_step_trans; [exact Ha|]. eapply step_trans; [exact Hb|].
      apply same_step; [assumption|]. now destruct Hb.
    Qed.
    Lemma start_command_at_spec pos st : wp True True (start_command_at pos st) (fun st' => same st st').
    Proof.
      unfold start_command_at. destruct pos as [cp|]; [|apply start_same].
      apply wp_bind. apply wp_intro. intros a Ha. apply start_at_same in Ha.
      apply wp_bind. apply wp_intro. intros b Hb. apply start_at_same in Hb.
      eapply wp_mono; [apply wp_finish|]. intros c Hc.
      eapply same_trans; [exact Ha|]. eapply same_trans; eauto.
    Qed.
    Lemma p_arg_spec (greedy : bool) (f : lpst -> lpres) st :
      (if greedy then p_trivia st = [] else Forall (fun t => is_trivia (fst t) = true) (p_trivia st)) ->
      (forall s, p_trivia s = [] -> wp True True (f s) (fun r => step s (snd r))) ->
      wp True True (p_arg greedy f st) (fun r => p_trivia (snd r) = [] /\
        rel_if (greedy = true \/ takes /\ at_arg st) st (snd r)).
    Proof.
      intros H Hf. unfold p_arg. destruct greedy.
      { eapply wp_mono; [now apply Hf|]. intros r [Hr1 Hr2]. split; [exact Hr1|now apply rel_rel_if]. }
      cbv zeta.
      apply wp_bind. eapply wp_mono; [apply (Hf (start_node ClauseArgument (ignore_holding_trivia st))); reflexivity|].
      intros [r a] Ha. cbn [snd] in Ha. apply wp_bind. eapply wp_mono; [apply wp_finish|]. intros b Hb. cbn [wp snd].
      assert (S : step (ignore_holding_trivia st) b).
      { eapply step_trans; [apply same_step; [apply start_same|reflexivity]|].
        eapply step_trans; [exact Ha|]. apply same_step; [assumption|]. now destruct Ha. }
      destruct S as [S1 S2]. split; [exact S1|].
      apply (rel_if_trans (takes /\ at_arg st) True _ st (ignore_holding_trivia st) b).
      - intros [X|X]; [discriminate|exact X].
      - auto.
      - now apply ignore_spec.
      - exact (rel_rel_if True _ _ S2).
    Qed.
    (** the characters of a word taken one by one: the leaves are there, the
        input is not yet consumed *)
    Lemma word_args_spec cs : forall m cnt st,
      Forall (fun t => is_trivia (fst t) = true) (p_trivia st) ->
      wp True True (word_args gm cs m cnt st) (fun r =>
        let '(stopped, m', cnt', st') := r in
        exists a b, cs = a ++ b /\ cnt' = cnt + blen a /\ p_lex st' = p_lex st /\
          lv st' = lv st ++ map (fun c => (TokenWord, [c])) a /\
          p_trivia st' = (match a with [] => p_trivia st | _ => [] end) /\
          (stopped = false -> b = [])).
    Proof.
      induction cs as [|c cs IHc]; intros m cnt st H; cbn [word_args].
      { cbn [wp]. exists (@nil N), (@nil N). simpl. rewrite app_nil_r, Nat.add_0_r. repeat split. }
      destruct (try_match gm m ARG_TERM) as [ok m']. destruct ok; cbn [negb].
      2:{ cbn [wp]. exists (@nil N), (c :: cs). simpl. rewrite app_nil_r, Nat.add_0_r. repeat split; congruence. }
      apply wp_bind. unfold p_arg. cbv zeta. cbn [bind].
      destruct (finish_node (token_ TokenWord [c] (start_node ClauseArgument (ignore_holding_trivia st)))) as [s1|s1|] eqn:E;
        cbn [bind wp]; try exact I.
      apply finish_same in E. destruct E as (E1 & E2 & E3). cbn in E1, E2.
      eapply wp_mono; [apply (IHc m' (cnt + utf8_len c) s1); rewrite <- E2; constructor|].
      intros [[[stopped m2] cnt'] st'] (a & b & Hcs & Hcnt & Hl & Hlv & Ht & Hs).
      exists (c :: a), b. rewrite Hcs. split; [reflexivity|]. split; [simpl; lia|]. split; [congruence|].
      split; [|split; [|assumption]].
      - rewrite Hlv, <- E3. unfold lv. simpl. rewrite flat_map_app, <- app_assoc. reflexivity.
      - rewrite Ht. destruct a; [now rewrite <- E2|reflexivity].
    Qed.

    Notation triv st := (Forall (fun t => is_trivia (fst t) = true) (p_trivia st)).
    Lemma nil_triv (st : lpst) : p_trivia st = [] -> triv st.
    Proof. intros ->. constructor. Qed.

    Lemma content_step b st : p_trivia st = [] ->
      wp True True (rec (KContent b) st) (fun r => step st (snd r)).
    Proof. intros H. eapply wp_mono; [exact (IH (KContent b) st H)|]. intros r (H1 & H2 & _). now split. Qed.

    Lemma match_loop_spec greedy m cur st : hpre (KMatch greedy m cur) st ->
      wp True True (match_loop list_pk list_nx list_set gm rec greedy m cur st) (rpost (KMatch greedy m cur) st).
    Proof.
      intros H.
      assert (Hg : if greedy then p_trivia st = [] else triv st) by (destruct greedy; exact H).
      assert (Post : forall r b, (if greedy then p_trivia b = [] else triv b) ->
        rel_if (greedy = true \/ m = AMNone \/ takes) st b -> rpost (KMatch greedy m cur) st (r, b)).
      { intros r b H1 [H2 H3]. kont; [destruct greedy; exact H1|]. destruct greedy; [apply H3; now left|].
        split; [exact H2|]. intros H4. apply H3. now right. }
      assert (Stop : rpost (KMatch greedy m cur) st (true, st)) by (apply Post; [exact Hg|apply rel_rel_if, rel_refl]).
      assert (Back : forall m' cur' a, (if greedy then p_trivia a = [] else triv a) ->
        rel_if (greedy = true \/ m = AMNone \/ takes) st a -> (m' = m \/ m <> AMNone) ->
        wp True True (rec (KMatch greedy m' cur') a) (rpost (KMatch greedy m cur) st)).
      { intros m' cur' a Ha R Hm. eapply wp_mono; [apply (IH (KMatch greedy m' cur') a); destruct greedy; exact Ha|].
        intros [r b] (H1 & H2 & _). apply Post; [destruct greedy; exact H1|].
        apply (rel_if_trans (greedy = true \/ m = AMNone \/ takes) (greedy = true \/ m' = AMNone \/ takes) _ st a b); auto.
        - destruct Hm as [-> |Hm]; [auto|]. intros [X|[X|X]]; auto; contradiction.
        - destruct greedy; [now apply rel_rel_if|]. destruct H2 as [H2 H3]. split; [exact H2|].
          intros [X|X]; [discriminate|]. now apply H3. }
      assert (Step : forall a : lpst, p_trivia a = [] -> if greedy then p_trivia a = [] else triv a).
      { intros a Ha. destruct greedy; [assumption|now apply nil_triv]. }
      assert (Weak : forall a a' : lpst, (greedy = true \/ at_arg st) -> m <> AMNone -> same a a' ->
        rel_if (greedy = true \/ takes /\ at_arg st) st a -> rel_if (greedy = true \/ m = AMNone \/ takes) st a').
      { intros a a' Hat Hm Hsame R.
        apply (rel_if_trans (greedy = true \/ takes /\ at_arg st) True _ st a a'); auto.
        - intros [X|[X|X]]; [auto|contradiction|]. destruct Hat; auto.
        - now apply rel_rel_if, same_rel. }
      assert (Rest : forall k, (greedy = true \/ at_arg st) -> wp True True
        (if stop_by_scope (p_scope st) k then Ok (true, st)
         else let '(ok, m0) := try_match gm m ARG_TERM in
              if negb ok then Ok (true, st)
              else let* (attachable, st0) := p_arg greedy (rec (KContent true)) st in
                   rec (KMatch greedy m0 (if greedy then checkpoint st else cur))
                     (if greedy && attachable then with_last (Some (if greedy then checkpoint st else cur)) st0 else st0))
        (rpost (KMatch greedy m cur) st)).
      { intros k Hat. destruct (stop_by_scope _ k); [exact Stop|].
        destruct (try_match gm m ARG_TERM) as [ok m0] eqn:Em. destruct ok; [|exact Stop]. cbn [negb].
        assert (Hm : m <> AMNone) by (intros ->; discriminate).
        apply wp_bind. eapply wp_mono; [apply (p_arg_spec greedy _ st Hg); intros s Hs; now apply content_step|].
        intros [r a] [Ha Hr]. cbn [snd] in Ha, Hr.
        set (a' := if greedy && r then _ else a).
        assert (S : same a a') by (unfold a'; destruct (greedy && r); repeat split).
        apply Back; [apply Step; unfold a'; destruct (greedy && r); exact Ha|now apply (Weak a)|now right]. }
      unfold match_loop. cbv zeta.
      unfold list_pk. destruct (p_lex st) as [|[k s] ts] eqn:El; cbn [hd_error]; [exact Stop|].
      assert (Triv : is_trivia k = true -> wp True True
        (let* st0 := (if greedy then leat st else hold_trivia list_pk list_nx st) in rec (KMatch greedy m cur) st0)
        (rpost (KMatch greedy m cur) st)).
      { intros Hk. apply wp_bind. destruct greedy.
        - eapply wp_mono; [exact (eat_spec st Hg)|]. intros a [(H1 & H2 & _) _]. apply Back; auto. now apply rel_rel_if.
        - eapply wp_mono; [exact (hold_spec st (k, s) ts El Hk Hg)|]. intros a [H1 H2]. apply Back; auto. now apply rel_rel_if. }
      assert (At : is_trivia k = false -> k <> Ampersand -> k <> Underscore -> k <> Caret -> greedy = true \/ at_arg st).
      { intros. right. unfold at_arg. rewrite El. auto. }
      destruct k; try (apply Rest; apply At; first [reflexivity | discriminate]); try exact Stop; try (apply Triv; reflexivity).
      - (* TLeft *)
        destruct (match b with Curly => _ | Bracket => _ | Paren => _ end) as [encoded sc].
        destruct (match_as_term gm m encoded) as [r m'] eqn:Em. destruct r as [modi|]; [|exact Stop].
        assert (Hm : m <> AMNone) by (intros ->; discriminate).
        apply wp_bind. eapply wp_mono.
        { apply (p_arg_spec greedy _ st Hg). intros s0 Hs. apply wp_bind. destruct modi.
          - eapply wp_mono; [exact (eat_spec s0 Hs)|]. intros a [Ha _]. cbn [wp snd]. now apply eats_step.
          - eapply wp_mono; [exact (item_group_spec sc s0 Hs)|]. intros a Ha. cbn [wp snd]. now apply eats_step. }
        intros [r a] [Ha Hr]. cbn [snd] in Ha, Hr.
        set (a' := if greedy then with_last _ a else a).
        assert (S : same a a') by (unfold a'; destruct greedy; repeat split).
        apply Back; [apply Step; unfold a'; destruct greedy; exact Ha| |now right].
        apply (Weak a); auto. apply At; first [reflexivity | discriminate].
      - (* Caret *) destruct greedy; cbn [negb]; [apply Rest; now left|exact Stop].
      - (* Underscore *) destruct greedy; cbn [negb]; [apply Rest; now left|exact Stop].
      - (* Word *)
        destruct greedy; [apply (Rest Word); now left|].
        assert (HM : m = AMNone \/ m <> AMNone) by (destruct m; auto; right; discriminate).
        destruct HM as [-> |Hm].
        { destruct s as [|c s]; cbn; [apply Back; auto; apply rel_rel_if, rel_refl|exact Stop]. }
        apply wp_bind. eapply wp_mono; [exact (word_args_spec s m 0 st Hg)|].
        intros [[[stopped m'] cnt] a] (u & v & Hs & Hcnt & Hl & Hlv & Ht & Hst). simpl in Hcnt. subst cnt.
        apply wp_bind.
        assert (K : wp True True (if Nat.ltb 0 (blen u) then lex_consume (@hd_error tok) list_nx list_set (blen u) a else Ok a)
                     (fun st' => triv st' /\ rel_if (false = true \/ m = AMNone \/ takes) st st')).
        { destruct u as [|c u].
          - cbn [blen]. simpl. split; [rewrite Ht; exact Hg|]. apply rel_rel_if, same_rel.
            split; [now symmetry|]. split; [now symmetry|]. rewrite Hlv. simpl. now rewrite app_nil_r.
          - destruct (Nat.ltb_spec 0 (blen (c :: u))) as [_|Hb]; [|simpl in Hb; pose proof (utf8_len_pos c); lia].
            assert (El2 : p_lex a = (Word, (c :: u) ++ v) :: ts) by (rewrite Hl, El, Hs; reflexivity).
            eapply wp_mono; [exact (consume_spec a (c :: u) v ts El2)|]. intros st' ->.
            split; [simpl; rewrite Ht; constructor|].
            apply (rel_if_trans (takes /\ at_arg st) True _ st (ignore_holding_trivia st)); auto.
            { intros [X|[X|X]]; [discriminate|contradiction|]. split; [exact X|].
              unfold at_arg. rewrite El. repeat split; discriminate. }
            { now apply ignore_spec. }
            apply rel_rel_if, eats_rel. eapply (word_rel _ _ (c :: u) v ts); auto; [simpl; rewrite El, Hs; reflexivity|discriminate]. }
        eapply wp_mono; [exact K|]. intros st' [Ht' Hr]. destruct stopped.
        + cbn [wp]. apply Post; [exact Ht'|exact Hr].
        + apply Back; auto.
      - (* NewLine *) destruct (greedy && _); [exact Stop|apply Rest; apply At; first [reflexivity | discriminate]].
    Qed.

    Lemma match_arguments_spec greedy m st : p_trivia st = [] ->
      wp True True (match_arguments rec greedy m st) (fun st' => (if greedy then p_trivia st' = [] else triv st') /\
        rel_if (greedy = true \/ m = AMNone \/ takes) st st').
    Proof.
      intros H. unfold match_arguments. cbv zeta. destruct (negb _); [exact I|].
      apply wp_bind. unfold rec_. apply wp_bind.
      eapply wp_mono; [apply (IH (KMatch greedy m _)); destruct greedy; [exact H|apply nil_triv; exact H]|].
      intros [r a] (H1 & H2 & _). cbn [snd] in *. cbn [wp].
      split; [destruct greedy; exact H1|].
      assert (X : rel_if (greedy = true \/ m = AMNone \/ takes)
         (with_start (if greedy then Some (checkpoint (with_last None st)) else None) (with_last None st)) a).
      { destruct greedy; [now apply rel_rel_if|]. destruct H2 as [H2 H3]. split; [exact H2|].
        intros [X|X]; [discriminate|now apply H3]. }
      destruct X as [X1 X2]. split; [exact X1|]. intros C. specialize (X2 C).
      eapply rel_trans; [|eapply rel_trans; [exact X2|apply same_rel; repeat split]]. apply same_rel. repeat split.
    Qed.
    Lemma rel_then C a b c : rel a b -> rel_if C b c -> (Forall okT (p_lex a) -> C) -> rel a c.
    Proof.
      intros [H1 H2] [H3 H4] HC. split; [eapply sfx_trans; eauto|]. intros F. specialize (H4 (HC F)).
      eapply rel_trans; [split; [exact H1|exact H2]|exact H4|exact F].
    Qed.
    Lemma right_command_spec p st : p_trivia st = [] ->
      (Forall okT (p_lex st) -> is_greedy (start_match p) = true \/ start_match p = AMNone \/ takes) ->
      wp True True (right_command list_pk list_nx rec p st) (fun r => eats st (snd r)).
    Proof.
      intros H HC. unfold right_command. cbv zeta. apply wp_bind.
      eapply wp_mono; [exact (eat_spec st H)|]. intros a [Ha _]. pose proof Ha as (Ha1 & Ha2 & Ha3).
      apply wp_bind. eapply wp_mono with (P := fun b => rel_if (is_greedy (start_match p) = true \/ start_match p = AMNone \/ takes) a b).
      - destruct (is_greedy (start_match p)).
        + apply wp_bind. eapply wp_mono; [apply match_arguments_spec; exact Ha1|]. intros b [Hb1 [Hb2 Hb3]].
          eapply wp_mono; [apply wp_finish|]. intros c Hc. specialize (Hb3 (or_introl eq_refl)). apply rel_rel_if.
          eapply rel_trans; [|eapply rel_trans; [exact Hb3|now apply same_rel]]. apply same_rel. repeat split.
        + eapply wp_mono; [apply match_arguments_spec; exact Ha1|]. now intros b [_ Hb2].
      - intros b Hb. apply wp_bind. eapply wp_mono; [apply wp_finish|]. intros c Hc. cbn [wp snd].
        assert (R : rel st (extract_holding_trivia c)).
        { eapply rel_trans; [exact (rel_then _ _ _ _ Ha2 Hb HC)|].
          eapply rel_trans; [apply same_rel; exact Hc|]. apply step_rel, extract_spec. }
        split; [apply extract_spec|]. split; [exact R|].
        assert (Z : sfx (p_lex a) (p_lex (extract_holding_trivia c))).
        { eapply sfx_trans; [exact (proj1 Hb)|]. eapply sfx_trans; [exact (proj1 (same_rel _ _ Hc))|].
          exact (proj1 (step_rel _ _ (extract_spec c))). }
        apply sfx_size in Z. lia.
    Qed.
    Lemma command_spec st : p_trivia st = [] ->
      (forall t, list_pk (p_lex st) = Some t -> kind_of_token (fst t) = ClauseCommandName) ->
      wp True True (command list_pk list_nx sp rec st) (fun r => eats st (snd r)).
    Proof.
      intros H Hk. unfold command. destruct (list_pk (p_lex st)) as [[k s]|] eqn:El; [|exact I].
      destruct (strip_prefix (tx "\") s) as [name|] eqn:Es; [|exact I].
      assert (HR : forall p st', p_lex st' = p_lex st -> option_map cs_args (get_cmd sp name) = Some (SRight p) ->
        Forall okT (p_lex st') -> is_greedy (start_match p) = true \/ start_match p = AMNone \/ takes).
      { intros p st' E Hp F. destruct p; try (now (right; left)); try (now left).
        all: right; right; rewrite E in F; unfold list_pk in El; destruct (p_lex st) as [|t ts]; [discriminate|];
          injection El as ->; inversion_clear F as [|? ? F1 _]; apply F1; left;
          (split; [exact (Hk _ eq_refl)|]); exists name; eexists; split; [exact (strip_prefix_app _ _ _ Es)|];
          split; [exact Hp|]; split; discriminate. }
      assert (Sym : wp True True (let st0 := start_node ItemCmd st in let* st1 := leat st0 in
         let* st2 := finish_node st1 in Ok (true, st2)) (fun r => eats st (snd r))).
      { cbv zeta. apply wp_bind. eapply wp_mono; [exact (eat_spec (start_node ItemCmd st) H)|]. intros a [Ha _].
        apply wp_bind. eapply wp_mono; [apply wp_finish|]. intros b Hb. cbn [wp snd].
        apply (same_eats _ (start_node ItemCmd st)); [apply start_same|].
        eapply eats_step_trans; [exact Ha|]. apply same_step; [assumption|]. now destruct Ha. }
      assert (Right : forall p, option_map cs_args (get_cmd sp name) = Some (SRight p) ->
        wp True True (right_command list_pk list_nx rec p (start_node ItemCmd st)) (fun r => eats st (snd r))).
      { intros p Hp. eapply wp_mono; [apply right_command_spec; [exact H|exact (HR p _ eq_refl Hp)]|]. intros r Hr.
        apply (same_eats _ (start_node ItemCmd st)); [apply start_same|assumption]. }
      destruct (option_map cs_args (get_cmd sp name)) as [[p| |]|]; [| | |exact Sym].
      - destruct p as [|[|n]| | |]; first [exact Sym|apply Right; reflexivity].
      - apply wp_bind. eapply wp_mono; [apply start_command_at_spec|]. intros a Ha.
        pose proof (same_trivia _ _ Ha H) as Ht.
        apply wp_bind. eapply wp_mono; [exact (eat_spec a Ht)|]. intros b [Hb _].
        apply wp_bind. eapply wp_mono; [apply wp_finish|]. intros c Hc. cbn [wp snd].
        apply (same_eats _ a); [assumption|]. eapply eats_step_trans; [exact Hb|].
        apply same_step; [assumption|]. now destruct Hb.
      - apply wp_bind. eapply wp_mono; [apply start_command_at_spec|]. intros a Ha.
        assert (Ha' : same st a) by (eapply same_trans; [|exact Ha]; repeat split).
        pose proof (same_trivia _ _ Ha' H) as Ht.
        eapply wp_mono; [apply right_command_spec; [exact Ht|intros _; now left]|]. intros r Hr.
        apply (same_eats _ a); assumption.
    Qed.
    Lemma environment_spec st : p_trivia st = [] ->
      (forall t, list_pk (p_lex st) = Some t -> fst t = CommandName BeginEnvironment) ->
      wp True True (environment list_pk list_nx sp rec st) (fun st' => eats st st').
    Proof.
      intros H Hk. unfold environment. cbv zeta.
      set (st1 := start_node ItemBegin (start_node ItemEnv st)).
      destruct (list_pk (p_lex st1)) as [[k s]|] eqn:El; [|exact I].
      apply wp_bind. eapply wp_mono; [exact (eat_spec st1 H)|]. intros a [Ha _]. pose proof Ha as (Ha1 & Ha2 & Ha3).
      apply wp_bind. eapply wp_mono with (P := fun b => rel st1 b /\ sfx (p_lex a) (p_lex b)).
      { assert (M : forall p, option_map en_args (get_env sp s) = Some p ->
           wp True True (match_arguments rec false (start_match p) a) (fun b => rel st1 b /\ sfx (p_lex a) (p_lex b))).
        { intros p Hp. eapply wp_mono; [apply match_arguments_spec; exact Ha1|]. intros b [_ Hb].
          split; [|exact (proj1 Hb)]. apply (rel_then _ _ _ _ Ha2 Hb). intros F.
          destruct p; try (now (right; left)).
          all: right; right; unfold list_pk in El; destruct (p_lex st1) as [|t ts] eqn:El1; [discriminate|];
            injection El as ->; inversion_clear F as [|? ? F1 _]; apply F1; right;
            (split; [exact (Hk _ (f_equal (@hd_error _) El1))|]); eexists; split; [exact Hp|discriminate]. }
        destruct (option_map en_args (get_env sp s)) as [[|[|n]| | |]|];
          first [apply M; reflexivity | cbn [wp]; split; [exact Ha2|constructor]]. }
      intros b [Hb Zb]. apply wp_bind. eapply wp_mono; [apply wp_finish|]. intros c Hc.
      pose proof (extract_spec c) as He.
      apply wp_bind. eapply wp_mono; [apply item_list_spec; now destruct He|]. intros d Hd.
      assert (Rcd : rel b d).
      { eapply rel_trans; [apply same_rel; exact Hc|]. eapply rel_trans; [exact (step_rel _ _ He)|]. now apply step_rel. }
      assert (S : eats st1 d).
      { split; [now destruct Hd|]. split; [eapply rel_trans; [exact Hb|exact Rcd]|].
        assert (Z : sfx (p_lex a) (p_lex d)) by (eapply sfx_trans; [exact Zb|exact (proj1 Rcd)]).
        apply sfx_size in Z. lia. }
      apply wp_bind. eapply wp_mono with (P := fun e => step d e).
      { assert (D : p_trivia d = []) by now destruct Hd.
        assert (Same : step d d) by (split; [exact D|apply rel_refl]).
        destruct (p_peek list_pk d) as [[]|]; try exact Same. destruct c0; try exact Same.
        cbv zeta. apply wp_bind. eapply wp_mono; [exact (eat_spec (start_node ItemEnd d) D)|]. intros e [He' _].
        eapply wp_mono; [apply wp_finish|]. intros f Hf.
        eapply step_trans; [apply same_step; [apply start_same|exact D]|].
        eapply step_trans; [apply eats_step; exact He'|]. apply same_step; [assumption|]. now destruct He'. }
      intros e He'. eapply wp_mono; [apply wp_finish|]. intros f Hf.
      apply (same_eats _ st1); [repeat split|]. eapply eats_step_trans; [exact S|]. eapply step_trans; [exact He'|]. apply same_step; [assumption|]. now destruct He'.
    Qed.
    Lemma clause_lr_spec st : p_trivia st = [] ->
      wp True True (clause_lr list_pk list_nx list_set rec st) (fun st' => eats st st').
    Proof.
      intros H. unfold clause_lr. cbv zeta. apply wp_bind.
      eapply wp_mono; [exact (eat_spec (start_node ClauseLR st) H)|]. intros a [Ha _]. pose proof Ha as (Ha1 & _).
      apply wp_bind. eapply wp_mono; [apply rec_step; [exact I|exact Ha1]|]. intros b Hb. pose proof Hb as [Hb1 _].
      apply wp_bind. eapply wp_mono with (P := fun c => step b c).
      { assert (Same : step b b) by (split; [exact Hb1|apply rel_refl]).
        assert (E : wp True True (leat b) (fun c => step b c)).
        { eapply wp_mono; [exact (eat_spec b Hb1)|]. intros c [Hc _]. now apply eats_step. }
        unfold p_peek, list_pk. destruct (p_lex b) as [|[k s] ts] eqn:El; cbn [hd_error option_map fst]; [exact Same|].
        destruct k; try exact E; try exact Same.
        - eapply wp_mono; [exact (single_char_spec b s ts Hb1 El)|]. now intros c [Hc _].
        - destruct c; try exact Same. eapply wp_mono; [apply (eat_as_spec b Hb1); eauto|]. intros c Hc. now apply eats_step. }
      intros c Hc. eapply wp_mono; [apply wp_finish|]. intros d Hd.
      apply (same_eats _ (start_node ClauseLR st)); [apply start_same|]. eapply eats_step_trans; [exact Ha|].
      eapply step_trans; [exact Hb|]. eapply step_trans; [exact Hc|]. apply same_step; [assumption|]. now destruct Hc.
    Qed.
    Lemma item_lr_spec st : p_trivia st = [] ->
      wp True True (item_lr list_pk list_nx list_set rec st) (fun st' => eats st st').
    Proof.
      intros H. unfold item_lr. cbv zeta. apply wp_bind.
      eapply wp_mono; [exact (clause_lr_spec (start_node ItemLR st) H)|]. intros a Ha. pose proof Ha as (Ha1 & _).
      apply wp_bind. eapply wp_mono; [apply item_list_spec; exact Ha1|]. intros b Hb. pose proof Hb as [Hb1 _].
      apply wp_bind. eapply wp_mono with (P := fun c => step b c).
      { assert (Same : step b b) by (split; [exact Hb1|apply rel_refl]).
        destruct (p_peek list_pk b) as [[]|]; try exact Same. destruct c; try exact Same.
        eapply wp_mono; [exact (clause_lr_spec b Hb1)|]. intros c Hc. now apply eats_step. }
      intros c Hc. eapply wp_mono; [apply wp_finish|]. intros d Hd.
      apply (same_eats _ (start_node ItemLR st)); [apply start_same|]. eapply eats_step_trans; [exact Ha|].
      eapply step_trans; [exact Hb|]. eapply step_trans; [exact Hc|]. apply same_step; [assumption|]. now destruct Hc.
    Qed.
    Lemma ifs_loop_spec n st : p_trivia st = [] ->
      wp True True (ifs_loop list_pk list_nx rec n st) (rpost (KIfs n) st).
    Proof.
      intros H. unfold ifs_loop.
      assert (E : forall n', wp True True (let* st0 := leat st in rec (KIfs n') st0) (rpost (KIfs n) st)).
      { intros n'. apply wp_bind. eapply wp_mono; [exact (eat_spec st H)|]. intros a [Ha _]. pose proof Ha as (Ha1 & Ha2 & _).
        eapply wp_mono; [exact (IH (KIfs n') a Ha1)|]. intros [r b] (H1 & H2 & _). kont; [exact H1|].
        eapply rel_trans; eauto. }
      unfold p_peek, list_pk. destruct (p_lex st) as [|[k s] ts] eqn:El; cbn [hd_error option_map fst];
        [kont; [exact H|apply rel_refl]|].
      destruct k; try exact (E n). destruct c; try exact (E n); try exact (E (S n)).
      destruct n as [|n]; [|exact (E n)].
      apply wp_bind. eapply wp_mono; [apply (drop_spec st H)|].
      - intros t ts' Et. pose proof (eq_trans (eq_sym El) Et) as Et'. injection Et' as <- _. right. now right.
      - intros a [Ha _]. cbn [wp]. destruct Ha. kont; assumption.
    Qed.
    Lemma if_block_spec k st t ts : p_trivia st = [] -> p_lex st = t :: ts -> block_mark (fst t) ->
      wp True True (if_block list_pk list_nx rec k st) (fun st' => eats st st').
    Proof.
      intros H El D. unfold if_block. cbv zeta. apply wp_bind.
      eapply wp_mono; [apply (drop_spec (start_node k st) H)|].
      - intros t' ts' Et. cbn in Et. pose proof (eq_trans (eq_sym El) Et) as Et'. injection Et' as <- _. exact D.
      - intros a [_ Ha]. cbn in Ha. specialize (Ha ltac:(rewrite El; discriminate)). pose proof Ha as (Ha1 & _).
        apply wp_bind. eapply wp_mono; [apply rec_step; [exact I|exact Ha1]|]. intros b Hb.
        eapply wp_mono; [apply wp_finish|]. intros c Hc.
        apply (same_eats _ (start_node k st)); [apply start_same|]. eapply eats_step_trans; [exact Ha|].
        eapply step_trans; [exact Hb|]. apply same_step; [assumption|]. now destruct Hb.
    Qed.
    Lemma attach_spec b st : p_trivia st = [] ->
      wp True True (attach_component list_pk list_nx rec b st) (fun st' => eats st st').
    Proof.
      intros H. unfold attach_component.
      assert (F : forall a, same st a -> wp True True
        (let* st0 := leat a in
         let* st1 := (if b then let* st2 := rec_ rec KTrivia st0 in rec_ rec (KContent false) st2 else Ok st0) in
         finish_node st1) (fun st' => eats st st')).
      { intros a Ha. pose proof (same_trivia _ _ Ha H) as Ht.
        apply wp_bind. eapply wp_mono; [exact (eat_spec a Ht)|]. intros c [Hc _]. pose proof Hc as (Hc1 & _).
        apply wp_bind. eapply wp_mono with (P := fun d => step c d).
        { destruct b; [|split; [exact Hc1|apply rel_refl]].
          apply wp_bind. eapply wp_mono; [apply rec_step; [exact I|exact Hc1]|]. intros d Hd. pose proof Hd as [Hd1 _].
          eapply wp_mono; [apply rec_step; [exact I|exact Hd1]|]. intros e He. eapply step_trans; eauto. }
        intros d Hd. eapply wp_mono; [apply wp_finish|]. intros e He.
        apply (same_eats _ a); [assumption|]. eapply eats_step_trans; [exact Hc|].
        eapply step_trans; [exact Hd|]. apply same_step; [assumption|]. now destruct Hd. }
      destruct (p_last st) as [cp|].
      - apply wp_bind. apply wp_intro. intros a Ha. apply start_at_same in Ha.
        apply wp_bind. apply wp_intro. intros c Hc. apply start_at_same in Hc.
        apply wp_bind. eapply wp_mono; [apply wp_finish|]. intros d Hd.
        apply F. eapply same_trans; [exact Ha|]. eapply same_trans; eauto.
      - destruct b; cbn [negb]; [apply F; repeat split|].
        eapply wp_mono; [exact (eat_spec st H)|]. now intros a [Ha _].
    Qed.
    Lemma error_node_spec st : p_trivia st = [] ->
      wp True True (error_node list_pk list_nx st) (fun st' => eats st st').
    Proof.
      intros H. unfold error_node. cbv zeta. apply wp_bind.
      eapply wp_mono; [exact (eat_spec (start_node TokenError st) H)|]. intros a [Ha _].
      eapply wp_mono; [apply wp_finish|]. intros b Hb.
      apply (same_eats _ (start_node TokenError st)); [apply start_same|]. eapply eats_step_trans; [exact Ha|].
      apply same_step; [assumption|]. now destruct Ha.
    Qed.
    Lemma content_spec b st : p_trivia st = [] ->
      wp True True (content list_pk list_nx list_set sp rec b st) (rpost (KContent b) st).
    Proof.
      intros H. unfold content. cbv zeta.
      assert (Y : forall r (x : res lpst), wp True True x (fun st' => eats st st') ->
        wp True True (let* s := x in Ok (r, s)) (rpost (KContent b) st)).
      { intros r x Hx. apply wp_bind. eapply wp_mono; [exact Hx|]. intros a Ha. cbn [wp].
        split; [now destruct Ha|]. split; [now apply eats_rel|now apply eats_progress]. }
      assert (E : wp True True (leat st) (fun st' => eats st st')).
      { eapply wp_mono; [exact (eat_spec st H)|]. now intros a [Ha _]. }
      assert (C : (forall t, list_pk (p_lex st) = Some t -> kind_of_token (fst t) = ClauseCommandName) ->
        wp True True (command list_pk list_nx sp rec st) (rpost (KContent b) st)).
      { intros HK. eapply wp_mono; [exact (command_spec st H HK)|]. intros [r a] Ha. cbn [snd] in Ha.
        split; [now destruct Ha|]. split; [now apply eats_rel|now apply eats_progress]. }
      unfold p_peek, list_pk. destruct (p_lex st) as [|[k s] ts] eqn:El; cbn [hd_error option_map fst].
      { cbn [wp]. split; [exact H|]. split; [apply rel_refl|]. intros He. rewrite El in He. contradiction. }
      destruct k; try (apply Y; exact E); try (apply Y; apply error_node_spec; exact H);
        try (apply Y; apply attach_spec; exact H); try (apply Y; apply item_group_spec; exact H).
      - destruct b0; apply Y; [apply item_group_spec; exact H|exact E|exact E].
      - destruct b0; apply Y; [apply error_node_spec; exact H|exact E|exact E].
      - apply Y. apply p_text_spec. exact H.
      - destruct b; [apply Y; apply p_text_spec; exact H|].
        apply wp_bind. eapply wp_mono; [exact (single_char_spec st s ts H El)|]. intros a [Ha1 Ha2]. cbn [wp].
        split; [now destruct Ha1|]. split; [now destruct Ha1|]. intros _ HW. rewrite El in HW.
        inversion_clear HW as [|? ? HW1 _]. destruct (Ha2 (HW1 eq_refl)) as (_ & _ & Hs). exact Hs.
      - assert (C' : kind_of_token (CommandName c) = ClauseCommandName -> wp True True (command list_pk list_nx sp rec st) (rpost (KContent b) st)).
        { intros E0. apply C. intros t Ht. injection Ht as <-. exact E0. }
        destruct c; try (apply C'; reflexivity); try (apply Y; exact E); try (apply Y; apply error_node_spec; exact H);
          try (apply Y; apply item_group_spec; exact H); try (apply Y; apply environment_spec; [exact H|rewrite El; intros t Ht; injection Ht as <-; reflexivity]);
          try (apply Y; apply item_lr_spec; exact H).
        destruct i; try (apply C'; reflexivity); apply Y; (eapply if_block_spec; [exact H|exact El|]); simpl; unfold block_mark; auto.
    Qed.
    Lemma dispatch_spec c st : hpre c st ->
      wp True True (dispatch list_pk list_nx list_set gm sp rec c st) (rpost c st).
    Proof.
      intros H. destruct c; cbn [dispatch].
      - now apply content_spec. - now apply list_loop_spec. - now apply match_loop_spec.
      - now apply trivia_loop_spec. - now apply text_loop_spec. - now apply ifs_loop_spec.
    Qed.
  End Fun.

  Lemma run_rspec fuel : rspec (run list_pk list_nx list_set gm sp fuel).
  Proof.
    induction fuel as [|fuel IH]; intros c st H; cbn [run]; [exact I|]. now apply dispatch_spec.
  Qed.

End Text.
