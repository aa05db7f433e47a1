(** The parser terminates and does not panic (C22, C23). *)
From Verif Require Export ParserShape.
Local Open Scope nat_scope.

(** ** Specification: token sequences the parser handles without panicking *)
Definition is_script (k : token) : bool := match k with Underscore | Caret => true | _ => false end.
(** [t] is a command that takes its argument from the left *)
Definition takes_left (sp : spec) (t : tok) : Prop :=
  kind_of_token (fst t) = ClauseCommandName /\ exists name, snd t = 92%N :: name /\
    (option_map cs_args (get_cmd sp name) = Some SLeft1 \/ option_map cs_args (get_cmd sp name) = Some SInfixGreedy).
(** no such command directly after a script marker *)
Fixpoint scripts_ok (sp : spec) (ts : list tok) : Prop :=
  match ts with
  | [] => True
  | t :: r =>
    (is_script (fst t) = true -> match skip_trivia r with u :: _ => ~ takes_left sp u | [] => True end) /\
    scripts_ok sp r
  end.
(** words are not empty *)
Definition word_ok (t : tok) : Prop := fst t = Word -> snd t <> [].
(** commands begin with a backslash; no environment takes greedy arguments *)
Definition token_ok (sp : spec) (t : tok) : Prop :=
  (kind_of_token (fst t) = ClauseCommandName -> exists name, snd t = 92%N :: name) /\
  (fst t = CommandName BeginEnvironment -> option_map en_args (get_env sp (snd t)) <> Some PGreedy).

Section Total.
  Variable gm : text -> text -> bool.
  Variable sp : spec.
  (** whether a panic is acceptable: [False] gives totality, [True] termination *)
  Variable pn : Prop.
  Notation wf := (wf_tree gm sp).
  Definition total {A} (x : res A) : Prop := wp pn False x (fun _ => True).
  Lemma total_bind {A B} (x : res A) (f : A -> res B) (Q : A -> Prop) :
    total x -> wp True True x Q -> (forall a, Q a -> total (f a)) -> total (bind x f).
  Proof. destruct x; simpl; unfold total; simpl; auto; contradiction. Qed.
  Lemma total_bind2 {A B C} (x : res A) (g : A -> res B) (f : B -> res C) (Q : A -> Prop) :
    total x -> wp True True x Q -> (forall a, Q a -> total (bind (g a) f)) -> total (bind (bind x g) f).
  Proof. destruct x; simpl; unfold total; simpl; auto; contradiction. Qed.
  Lemma total_Ok {A} (a : A) : total (Ok a). Proof. exact I. Qed.

  Definition good (ts : list tok) : Prop :=
    Forall word_ok ts /\ (pn \/ Forall (token_ok sp) ts /\ scripts_ok sp ts).
  Lemma good_sfx a b : sfx a b -> good a -> good b.
  Proof.
    induction 1 as [|t ts ts' H IH|u v ts ts' Hu Hv H IH]; auto; intros [G1 G2]; apply IH.
    - inversion_clear G1. split; [assumption|]. destruct G2 as [G2|[G2 G3]]; [now left|right].
      inversion_clear G2. destruct G3. split; assumption.
    - inversion_clear G1 as [|? ? K1 K2]. split; [constructor; [intros _; exact Hv|assumption]|].
      destruct G2 as [G2|[G2 G3]]; [now left|right]. inversion_clear G2 as [|? ? J1 J2]. destruct G3 as [_ G3]. split.
      + constructor; [|assumption]. split; discriminate.
      + split; [discriminate|assumption].
  Qed.
  Lemma good_words ts : good ts -> Forall (fun t => fst t = Word -> snd t <> []) ts.
  Proof. intros [G _]. exact G. Qed.

  (** ** Primitives *)
  Lemma eat_total (st : lpst) (t : tok) ts : p_lex st = t :: ts -> total (leat st).
  Proof. destruct st as [lx b h s l sc]. simpl. intros ->. exact I. Qed.
  Lemma eat_if_total k (st : lpst) : total (eat_if_ list_pk list_nx k st).
  Proof.
    destruct st as [lx b h s l sc]. unfold eat_if_, p_peek. simpl. destruct lx as [|t ts]; [exact I|]. simpl.
    destruct (token_eqb (fst t) k); exact I.
  Qed.
  Lemma finish_total k n ps sc so lo C (st : lpst) : St ((k, n) :: ps) sc so lo C st -> total (finish_node st).
  Proof. destruct st as [lx [p c] h s l sc']. intros (H & _). simpl in H. subst. exact I. Qed.
  Lemma start_at_total cp k ps sc so lo C (st : lpst) : St ps sc so lo C st -> cp <= List.length C ->
    pn \/ (forall k' n ps', ps = (k', n) :: ps' -> n <= cp) -> total (start_node_at cp k st).
  Proof.
    destruct st as [lx [p c] h s l sc']. intros (H & _ & _ & _ & H2) Hl Hf. simpl in *. subst.
    unfold start_node_at, b_start_at. simpl.
    destruct (Nat.ltb_spec (List.length C) cp); [lia|]. destruct ps as [|[k' n] ps]; [exact I|].
    destruct (Nat.ltb_spec cp n) as [Hn|]; [|exact I]. destruct Hf as [Hf|Hf]; [exact Hf|]. pose proof (Hf _ _ _ eq_refl). lia.
  Qed.
  Lemma drop_total (st : lpst) : total (drop_ list_pk list_nx st).
  Proof. destruct st as [[|t ts] b h s l sc]; exact I. Qed.
  Lemma consume_total (st : lpst) (a b : text) (ts : list tok) : p_lex st = (Word, a ++ b) :: ts ->
    total (lex_consume list_pk list_nx list_set (blen a) st).
  Proof.
    destruct st as [lx bb h ps l sc]. simpl. intros ->. unfold lex_consume. simpl.
    destruct (Nat.leb _ _); [exact I|]. rewrite split_bytes_intro. exact I.
  Qed.
  Lemma single_total (st : lpst) : p_peek list_pk st = Some Word -> total (single_char list_pk list_nx list_set st).
  Proof.
    intros Hp. destruct (peek_cons _ _ Hp) as (s & ts & El). unfold single_char, list_pk. rewrite El. cbn [hd_error].
    destruct s as [|c s]; [exact I|].
    pose proof (consume_total (token_ TokenWord [c] st) [c] s ts El) as X. simpl blen in X. rewrite Nat.add_0_r in X. exact X.
  Qed.
  Lemma hold_total (st : lpst) (t : tok) ts : p_lex st = t :: ts -> total (hold_trivia list_pk list_nx st).
  Proof. destruct st as [lx b h s l sc]. simpl. intros ->. exact I. Qed.

  (** ** The recursive functions *)
  Notation size st := (toks_size (p_lex st)).
  Definition need (c : call) (m : nat) : nat := match c with KContent _ => 2 * m + 1 | _ => 2 * m + 2 end.
  (** the checkpoints lie inside the innermost open node *)
  Definition inside (o : option nat) (st : lpst) : Prop :=
    pn \/ forall x k f ps, o = Some x -> par st = (k, f) :: ps -> f <= x.
  Definition tpre (c : call) (st : lpst) : Prop :=
    spre gm sp c st /\ good (p_lex st) /\
    match c with
    | KContent b => inside (p_last st) st /\
        (if b then inside (p_start st) st
         else pn \/ match p_lex st with t :: _ => ~ takes_left sp t | [] => True end)
    | KList _ => exists base, LI gm sp base true true st /\ inside (Some base) st
    | KMatch true m _ => is_greedy m = true /\ exists base, LI gm sp base false (nl_ok st) st /\ inside (Some base) st
    | KMatch false m _ => exists p cs, mstate gm p m cs
    | _ => True
    end.

  Definition arguments_ok_env (name : text) (args : list tree) : Prop :=
    match option_map en_args (get_env sp name) with None => args = [] | Some p => arguments_ok gm p args end.
  Section Fun.
    Variable n : nat.
    Notation rec := (run list_pk list_nx list_set gm sp n).
    Hypothesis IHn : forall c st, tpre c st -> need c (size st) <= n -> total (rec c st).
    Let IHt : @rspec sp True rec := run_rspec gm n.
    Let IH : sspec gm sp rec := run_sspec gm sp n.

    Lemma rec__total c st : tpre c st -> need c (size st) <= n -> total (rec_ rec c st).
    Proof.
      intros H1 H2. unfold rec_. eapply total_bind; [now apply IHn|apply wp_intro; intros a E; exact E|]. intros [r a] _. exact I.
    Qed.

    Ltac tbind Q := eapply (total_bind _ _ Q).
    (** the leaf loops *)
    Lemma trivia_total st : p_trivia st = [] -> good (p_lex st) -> 2 * size st + 2 <= S n ->
      total (trivia_loop list_pk list_nx rec st).
    Proof.
      intros T G F. unfold trivia_loop. destruct (p_peek list_pk st) as [k|] eqn:E; [|exact I].
      destruct (is_trivia k); [|exact I]. destruct (peek_cons _ _ E) as (s & ts & El).
      eapply total_bind; [exact (eat_total _ _ _ El)|exact (eat_spec (sp := sp) (takes := True) st T)|].
      intros a ((Ta & [Sa _] & Za) & _). apply IHn; [|simpl; lia].
      split; [split; [exact Ta|exact I]|]. split; [exact (good_sfx _ _ Sa G)|exact I].
    Qed.
    Lemma text_total st : p_trivia st = [] -> good (p_lex st) -> 2 * size st + 2 <= S n ->
      total (text_loop list_pk list_nx rec st).
    Proof.
      intros T G F. unfold text_loop. destruct (p_peek list_pk st) as [k|] eqn:E; [|exact I].
      destruct (is_text_component k); [|exact I]. destruct (peek_cons _ _ E) as (s & ts & El).
      eapply total_bind; [exact (eat_total _ _ _ El)|exact (eat_spec (sp := sp) (takes := True) st T)|].
      intros a ((Ta & [Sa _] & Za) & _). apply IHn; [|simpl; lia].
      split; [split; [exact Ta|exact I]|]. split; [exact (good_sfx _ _ Sa G)|exact I].
    Qed.
    Lemma ifs_total k st : p_trivia st = [] -> good (p_lex st) -> 2 * size st + 2 <= S n ->
      total (ifs_loop list_pk list_nx rec k st).
    Proof.
      intros T G F. unfold ifs_loop. destruct (p_peek list_pk st) as [c|] eqn:E; [|exact I].
      destruct (peek_cons _ _ E) as (s & ts & El).
      assert (K : forall k', total (let* st0 := leat st in rec (KIfs k') st0)).
      { intros k'. eapply total_bind; [exact (eat_total _ _ _ El)|exact (eat_spec (sp := sp) (takes := True) st T)|].
        intros a ((Ta & [Sa _] & Za) & _). apply IHn; [|simpl; lia].
        split; [split; [exact Ta|exact I]|]. split; [exact (good_sfx _ _ Sa G)|exact I]. }
      destruct c; try apply K. destruct c; try apply K. destruct k; [|apply K].
      eapply total_bind; [apply drop_total|apply wp_intro; intros a Ea; exact Ea|]. intros; exact I.
    Qed.

    Lemma inside_sub o o' st st' : sub o' o -> par st' = par st -> inside o st -> inside o' st'.
    Proof. intros [-> | ->] E [H|H]; [now left| |now left|]; right; intros x k f ps Hx Hp; [discriminate|]. rewrite E in Hp. eapply H; eauto. Qed.
    Lemma inside_some b st : inside (Some b) st <-> pn \/ forall k f ps, par st = (k, f) :: ps -> f <= b.
    Proof.
      split; (intros [H|H]; [now left|right]).
      - intros k f ps Hp; exact (H b k f ps eq_refl Hp).
      - intros x k f ps [= <-] Hp. eapply H; eauto.
    Qed.
    Lemma LI_inside base amp nl st : LI gm sp base amp nl st -> inside (Some base) st ->
      inside (p_last st) st /\ inside (p_start st) st.
    Proof.
      intros (L1 & L2 & L3 & _) H. rewrite inside_some in H. destruct H as [H|H]; [split; now left|]. split; right; intros x k f ps Hx Hp; specialize (H _ _ _ Hp).
      - apply L3 in Hx. lia.
      - destruct L2 as [L2|L2]; rewrite L2 in Hx; [discriminate|]. injection Hx as <-. exact H.
    Qed.

    Lemma list_total cur st : tpre (KList cur) st -> 2 * size st + 2 <= S n -> total (list_loop list_pk rec cur st).
    Proof.
      intros ((T & Hc) & G & base & L & Ib) F. unfold list_loop. cbn [hpre] in T.
      destruct (p_peek list_pk st) as [k|] eqn:E; [|exact I]. destruct (peek_cons _ _ E) as (s & ts & El).
      destruct (stop_by_scope _ k); [exact I|].
      pose proof (LI_CI _ _ _ _ _ _ L) as CIs. destruct (LI_inside _ _ _ _ L Ib) as [I1 I2].
      eapply total_bind; [apply IHn; [|simpl; lia]|apply wp_and; [exact (IHt (KContent true) st T)|exact (IH (KContent true) st (conj T CIs))]|].
      { split; [split; [exact T|exact CIs]|]. split; [exact G|]. split; assumption. }
      intros [r a] [(Ta & [Sa _] & Pa) S]. cbn [fst snd spost hpre] in *.
      assert (Za : size a < size st) by (apply Pa; [rewrite El; discriminate|now apply good_words]).
      destruct (LI_step gm sp base true true st r a L S) as (L1 & L2 & L3); auto.
      rewrite <- Hc in L1. set (a' := if r then _ else a) in *.
      apply IHn; [|unfold a'; destruct r; simpl; lia].
      split; [split; [unfold a'; destruct r; exact Ta|reflexivity]|].
      split; [unfold a'; destruct r; exact (good_sfx _ _ Sa G)|].
      exists base. split; [exact L1|]. apply inside_some. rewrite inside_some in Ib.
      assert (Ep : par a' = par st) by (unfold a'; destruct r; apply S). now rewrite Ep.
    Qed.

    (** a list inside a node that is open at [|C|] *)
    Lemma item_list_total sc k ps sc0 so lo C pre st : St ((k, List.length C) :: ps) sc0 so lo (C ++ pre) st ->
      p_trivia st = [] -> Forall wf (C ++ pre) -> good (p_lex st) -> 2 * size st + 2 <= n -> total (item_list rec sc st).
    Proof.
      intros S T W G F. pose proof S as (P1 & P2 & _ & _ & P5). unfold item_list. cbv zeta.
      eapply total_bind; [apply rec__total; [|simpl; lia]|apply wp_intro; intros a E; exact E|intros; exact I].
      split; [split; [exact T|reflexivity]|]. split; [exact G|].
      exists (List.length (chd st)). split.
      - apply LI_new; [rewrite P5; exact W|right; reflexivity].
      - apply inside_some. right. cbn. rewrite P1, P5, app_length. intros k' f ps' [= <- <- <-]. lia.
    Qed.
    Lemma item_group_total sc k g ps sc0 so lo C st : St ps sc0 so lo C st -> p_trivia st = [] -> Forall wf C -> good (p_lex st) ->
      group_of sc = Some (k, g) -> p_peek list_pk st = Some k -> 2 * size st <= n ->
      total (item_group list_pk list_nx rec sc st).
    Proof.
      intros S T W G Hg Hp F. unfold item_group. destruct (peek_cons _ _ Hp) as (s & ts & El).
      assert (K : forall e, total (let* st0 := leat (start_node g st) in
         let* st1 := item_list rec sc st0 in let* st2 := eat_if_ list_pk list_nx e st1 in finish_node st2)).
      { intros e. eapply total_bind; [exact (eat_total (start_node g st) _ _ El)|apply wp_and; [exact (eat_spec (sp := sp) (takes := True) (start_node g st) T)|
          exact (St_eat_at (k, s) ts _ _ _ _ _ _ (St_start g _ _ _ _ _ _ S) El)]|].
        intros a [((Ta & [Sa _] & Za) & _) (_ & _ & A)]. cbn [fst snd] in *.
        assert (Wa : Forall wf (C ++ [Leaf (kind_of_token k) s])) by (apply wf_app; [assumption|repeat constructor]).
        change (p_lex (start_node g st)) with (p_lex st) in *. pose proof (good_sfx _ _ Sa G) as Ga.
        eapply total_bind; [apply (item_list_total sc _ _ _ _ _ _ _ _ A Ta Wa Ga); lia|exact (item_list_shape gm sp rec IH sc _ _ _ _ _ a A Ta Wa)|].
        intros b (body & _ & _ & B & _).
        eapply total_bind; [apply eat_if_total|exact (St_eat_if e _ _ _ _ _ _ B)|]. intros c (s' & close & _ & Hc).
        exact (finish_total _ _ _ _ _ _ _ _ Hc). }
      destruct sc; try discriminate; injection Hg as <- <-; cbn [bind]; apply K.
    Qed.
    Lemma p_text_total k st : p_trivia st = [] -> good (p_lex st) -> p_peek list_pk st = Some k -> 2 * size st <= n ->
      total (p_text list_pk list_nx rec st).
    Proof.
      intros T G Hp F. destruct (peek_cons _ _ Hp) as (s & ts & El). unfold p_text. cbv zeta.
      eapply total_bind; [exact (eat_total (start_node ItemText st) _ _ El)|apply wp_and; [exact (eat_spec (sp := sp) (takes := True) (start_node ItemText st) T)|
          exact (St_eat_at (k, s) ts _ _ _ _ _ _ (St_start ItemText _ _ _ _ _ _ (St_self st)) El)]|].
      intros a [((Ta & [Sa _] & Za) & _) (_ & _ & A)]. cbn [fst snd] in *. change (p_lex (start_node ItemText st)) with (p_lex st) in *.
      eapply total_bind; [apply (rec__total KText a); [|simpl; lia]| |].
      - split; [split; [exact Ta|exact I]|]. split; [exact (good_sfx _ _ Sa G)|exact I].
      - unfold rec_. apply wp_bind. eapply wp_mono; [apply (IH KText a); split; [exact Ta|exact I]|].
        intros [r b] B. cbn [wp fst snd] in *. exact (adds_St _ _ _ _ _ _ _ _ A B).
      - intros b (new & _ & B). exact (finish_total _ _ _ _ _ _ _ _ B).
    Qed.

    (** matching arguments *)
    Lemma arg_total (f : lpst -> lpres) (st : lpst) (Q : bool * lpst -> Prop) :
      (forall s, St ((ClauseArgument, List.length (chd st)) :: par st) (p_scope st) (p_start st) (p_last st) (chd st) s ->
         p_trivia s = [] -> p_lex s = p_lex st -> total (f s) /\ wp True True (f s) (fun x => exists k m ps sc so lo C, St ((k, m) :: ps) sc so lo C (snd x))) ->
      total (p_arg false f st).
    Proof.
      intros Hf. unfold p_arg. cbv zeta.
      destruct (Hf (start_node ClauseArgument (ignore_holding_trivia st))) as [H1 H2]; try reflexivity.
      { apply St_start. repeat split; apply sub_refl. }
      eapply total_bind; [exact H1|exact H2|]. intros [r a] (k & m & ps & sc & so & lo & C & A). cbn [snd] in A.
      eapply total_bind; [exact (finish_total _ _ _ _ _ _ _ _ A)|apply wp_intro; intros b E; exact E|]. intros; exact I.
    Qed.
    Lemma word_args_total s : forall m cnt (st : lpst), total (word_args gm s m cnt st).
    Proof.
      induction s as [|c s IHs]; intros m cnt st; cbn [word_args]; [exact I|].
      destruct (try_match gm m ARG_TERM) as [ok m']. destruct ok; cbn [negb]; [|exact I].
      eapply total_bind; [|apply wp_intro; intros b E; exact E|]; [|intros [r a] _; apply IHs].
      destruct st as [lx [ps ch] h so l sc]. exact I.
    Qed.
    Lemma content_none_total (st : lpst) : p_trivia st = [] -> p_start st = None -> p_last st = None -> Forall wf (chd st) ->
      good (p_lex st) -> 2 * size st + 1 <= n -> total (rec (KContent true) st).
    Proof.
      intros T H1 H2 W G F. apply IHn; [|simpl; lia]. split; [split; [exact T|]|].
      - split; [rewrite H1; discriminate|]. split; [rewrite H1, H2; intros x [?|?]; discriminate|exact W].
      - split; [exact G|]. rewrite H1, H2. split; right; intros x k f ps; discriminate.
    Qed.

    Lemma match_false_total m cur st : tpre (KMatch false m cur) st -> 2 * size st + 2 <= S n ->
      total (match_loop list_pk list_nx list_set gm rec false m cur st).
    Proof.
      intros ((T & H1 & H2 & W) & G & p & cs & M) F. cbn [hpre] in T.
      (* the post condition of the last step gives the precondition of the next *)
      assert (Back : forall m' cur' a args, args_done gm sp p cs st args m' a -> Forall (fun t => is_trivia (fst t) = true) (p_trivia a) ->
        sfx (p_lex st) (p_lex a) -> size a < size st -> total (rec (KMatch false m' cur') a)).
      { intros m' cur' a args (A1 & A2 & A3 & A4 & A5) Ta Sa Za. pose proof (St_none _ _ _ _ A1) as [N1 N2].
        pose proof A1 as (P1 & P2 & _ & _ & P5). apply IHn; [|simpl; lia].
        split; [split; [exact Ta|]|].
        - split; [exact N1|]. split; [exact N2|]. rewrite P5. now apply wf_app.
        - split; [exact (good_sfx _ _ Sa G)|]. eauto. }
      (* one step of the loop as a whole: its result is known from the shape theorem *)
      unfold match_loop. cbv zeta. unfold list_pk at 1. destruct (p_lex st) as [|[k s] ts] eqn:El; cbn [hd_error]; [exact I|].
      assert (El' : p_lex st <> []) by (rewrite El; discriminate).
      assert (Rest : forall c, k <> Ampersand -> total
        (if stop_by_scope (p_scope st) c then Ok (true, st)
         else let '(ok, m0) := try_match gm m ARG_TERM in
              if negb ok then Ok (true, st)
              else let* (attachable, st0) := p_arg false (rec (KContent true)) st in
                   rec (KMatch false m0 cur) (if false && attachable then with_last (Some cur) st0 else st0))).
      { intros c Hamp. destruct (stop_by_scope _ c); [exact I|].
        destruct (try_match gm m ARG_TERM) as [ok m0] eqn:Em. destruct ok; [|exact I]. cbn [negb andb].
        eapply total_bind.
        - apply (arg_total _ _ (fun _ => True)). intros s0 S0 T0 L0. pose proof S0 as (P1 & P2 & P3 & P4 & P5).
          rewrite H1 in P3. rewrite H2 in P4.
          assert (N1 : p_start s0 = None) by (destruct P3; assumption). assert (N2 : p_last s0 = None) by (destruct P4; assumption).
          split.
          + apply content_none_total; auto; [rewrite P5; exact W|rewrite L0, El; exact G|assert (F0 : 2 * size s0 + 2 <= S n) by (rewrite L0, El; exact F); lia].
          + eapply wp_mono; [apply (content_none gm sp rec IH s0 T0 N1 N2); [rewrite P5; exact W|]|].
            { unfold p_peek, list_pk. rewrite L0, El. cbn. congruence. }
            intros [r a] (ch & _ & A). rewrite P1 in A. cbn [snd] in *. eexists _, _, _, _, _, _, _. exact A.
        - apply wp_and; [|apply wp_and].
          + apply (arg_shape_ _ st (fun ch => (Forall item ch /\ Forall (not_leaf TokenAmpersand) ch) /\ Forall (row_safe sp (p_scope st)) ch /\ Forall wf ch) H1 H2).
            intros ps sc C s0 Hs Ts Ec Esc Elx. pose proof (St_none _ _ _ _ Hs) as [N1 N2]. pose proof Hs as (<- & <- & _ & _ & <-).
            rewrite <- Esc. apply (content_none gm sp rec IH); auto; [rewrite Ec; exact W|].
            unfold p_peek, list_pk. rewrite Elx, El. cbn. congruence.
          + apply (p_arg_spec (sp := sp) (takes := True) false _ st T). intros s0 Hs. now apply content_step.
          + instantiate (1 := fun x => size (snd x) < size st).
            unfold p_arg. cbv zeta. apply wp_bind.
            eapply wp_mono; [exact (IHt (KContent true) (start_node ClauseArgument (ignore_holding_trivia st)) eq_refl)|].
            intros [r a] (_ & _ & Pa). cbn [snd] in Pa. apply wp_bind. eapply wp_mono; [apply wp_finish|].
            intros b (E1 & _ & _). cbn [wp snd]. rewrite <- E1. apply Pa; [exact El'|].
            change (Forall (fun t => fst t = Word -> snd t <> []) (p_lex st)). rewrite El. exact (good_words _ G).
        - intros [r a] [(ch & ((F1 & F0) & F2 & F3) & A) [[Ta [Sa _]] Za]]. cbn [snd] in *.
          apply (Back m0 cur a [Node ClauseArgument ch]); auto; [|now apply nil_triv|rewrite <- El; exact Sa|rewrite <- El; exact Za].
          split; [exact A|]. split; [constructor; [exact F0|constructor]|]. split; [constructor; [now apply arg_term_row|constructor]|].
          split; [constructor; [apply wf_node; [now apply ok_arg_items|assumption]|constructor]|].
          cbn [map]. rewrite items_kind by assumption. exact (mstate_step gm _ _ _ _ _ M Em). }
      assert (Triv : is_trivia k = true -> total (let* st0 := hold_trivia list_pk list_nx st in rec (KMatch false m cur) st0)).
      { intros Hk. eapply total_bind; [exact (hold_total st _ _ El)|apply wp_and; [exact (hold_spec (sp := sp) (takes := True) st (k, s) ts El Hk T)|]|].
        - instantiate (1 := fun a => St (par st) (p_scope st) None None (chd st) a /\ p_lex a = ts).
          unfold hold_trivia, lex_eat, list_pk. rewrite El. cbn. repeat split; rewrite ?H1, ?H2; now left.
        - intros a [[H3 [Sa _]] [H4 H5]]. apply (Back _ _ a []); auto.
          + repeat split; rewrite ?app_nil_r; try apply H4; try constructor. exact M.
          + rewrite <- El. exact Sa.
          + rewrite H5. simpl. lia. }
      destruct k; try (refine (Rest _ _); discriminate); try exact I; try (apply Triv; reflexivity).
      - (* TLeft *)
        destruct (match b with Curly => _ | Bracket => _ | Paren => _ end) as [encoded sc] eqn:Eb.
        destruct (match_as_term gm m encoded) as [r m'] eqn:Em. destruct r as [modi|]; [|exact I].
        assert (Gr : group_of sc = Some (TLeft b, match b with Curly => ItemCurly | Bracket => ItemBracket | Paren => ItemParen end)).
        { destruct b; injection Eb as <- <-; reflexivity. }
        (* the shape theorem for this whole step *)
        assert (Enc : In encoded [ARG_TERM; ARG_BRACKET; ARG_PAREN]) by (destruct b; injection Eb as <- <-; cbn; auto).
        pose proof (mstate_left gm _ _ _ _ _ _ M Enc Em) as ML.
        eapply total_bind.
        + apply (arg_total _ _ (fun _ => True)). intros s0 S0 T0 L0. pose proof S0 as (P1 & P2 & P3 & P4 & P5).
          assert (El0 : p_lex s0 = (TLeft b, s) :: ts) by (rewrite L0; exact El).
          assert (Pk : p_peek list_pk s0 = Some (TLeft b)) by (unfold p_peek, list_pk; rewrite El0; reflexivity).
          assert (W0 : Forall wf (chd st)) by exact W.
          assert (F0 : 2 * size s0 + 2 <= S n) by (rewrite El0; exact F).
          destruct modi.
          * split; [eapply total_bind; [exact (eat_total s0 _ _ El0)|apply wp_intro; intros x E; exact E|intros; exact I]|].
            apply wp_bind. eapply wp_mono; [exact (St_eat_at _ _ _ _ _ _ _ _ S0 El0)|]. intros a (_ & _ & A). cbn [wp snd].
            eexists _, _, _, _, _, _, _. exact A.
          * split; [eapply total_bind; [apply (item_group_total sc _ _ _ _ _ _ _ _ S0 T0 W0 ltac:(rewrite El0; exact G) Gr Pk); lia|apply wp_intro; intros x E; exact E|intros; exact I]|].
            apply wp_bind. eapply wp_mono; [exact (item_group_shape gm sp rec IH sc _ _ _ _ _ _ _ s0 S0 T0 W0 Gr Pk)|].
            intros a (ch & _ & A). cbn [wp snd]. eexists _, _, _, _, _, _, _. exact A.
        + apply wp_and; [|apply wp_and].
          * apply (arg_shape_ _ st (fun ch =>
              if modi then exists k s, ch = [Leaf k s] /\ (k = TokenLBracket \/ k = TokenLParen)
              else exists g c, ch = [Node g c] /\ wf (Node g c) /\
                (g = ItemCurly /\ encoded = ARG_TERM \/ g = ItemBracket /\ encoded = ARG_BRACKET \/ g = ItemParen /\ encoded = ARG_PAREN)) H1 H2).
            intros ps sc0 C s0 Hs Ts Ec Esc Elx. apply wp_bind.
            pose proof (eq_trans Elx El) as El0.
            destruct modi.
            -- eapply wp_mono; [exact (St_eat_at _ _ _ _ _ _ _ _ Hs El0)|]. intros a (_ & _ & A). cbn [wp snd fst] in *.
               eexists. split; [|exact A]. eexists _, s. split; [reflexivity|].
               destruct ML as [(_ & X & _)|(X & _)]; [|discriminate].
               destruct b; injection Eb as <- <-; cbn; auto; contradiction.
            -- assert (Pk : p_peek list_pk s0 = Some (TLeft b)) by (unfold p_peek, list_pk; rewrite El0; reflexivity).
               eapply wp_mono; [exact (item_group_shape gm sp rec IH sc _ _ _ _ _ _ _ s0 Hs Ts ltac:(rewrite Ec; exact W) Gr Pk)|].
               intros a (ch & Wc & A). cbn [wp snd]. eexists. split; [|exact A].
               eexists _, ch. split; [reflexivity|]. split; [exact Wc|]. destruct b; injection Eb as <- <-; auto.
          * apply (p_arg_spec (sp := sp) (takes := True) false _ st T). intros s0 Hs. apply wp_bind. destruct modi.
            -- eapply wp_mono; [exact (eat_spec (sp := sp) (takes := True) s0 Hs)|]. intros a [Ha _]. cbn [wp snd]. now apply eats_step.
            -- eapply wp_mono; [exact (item_group_spec rec IHt sc s0 Hs)|]. intros a Ha. cbn [wp snd]. now apply eats_step.
          * instantiate (1 := fun x => size (snd x) < size st).
            unfold p_arg. cbv zeta. set (s0 := start_node ClauseArgument (ignore_holding_trivia st)).
            apply wp_bind. apply wp_bind. eapply wp_mono with (P := fun a => size a < size st).
            -- destruct modi.
               ++ eapply wp_mono; [exact (eat_spec (sp := sp) (takes := True) s0 eq_refl)|]. intros a [(_ & _ & Ha) _]. exact Ha.
               ++ eapply wp_mono; [exact (item_group_spec rec IHt sc s0 eq_refl)|]. intros a (_ & _ & Ha). exact Ha.
            -- intros a Ha. cbn [wp]. apply wp_bind. eapply wp_mono; [apply wp_finish|]. intros c (E1 & _). cbn [wp snd]. rewrite <- E1. exact Ha.
        + intros [r a] [(ch & B & A) [[Ta [Sa _]] Za]]. cbn [snd] in *. apply nil_triv in Ta.
          apply (Back m' cur a [Node ClauseArgument ch]); auto; [|rewrite <- El; exact Sa|rewrite <- El; exact Za].
          split; [exact A|]. split; [constructor; [|constructor]|].
          { destruct modi; [destruct B as (k & s0 & -> & [-> | ->])|destruct B as (g & c & -> & _)];
              (constructor; [try exact I; discriminate|constructor]). }
          destruct modi.
          * destruct B as (k & s0 & -> & Hk). destruct ML as [(_ & _ & ML)|(X & _)]; [|discriminate].
            split; [constructor; [|constructor]; apply arg_term_row; repeat constructor|].
            split; [constructor; [|constructor]|exact ML].
            apply wf_node; [|repeat constructor]. apply ok_arg_items. constructor; [|constructor].
            destruct Hk as [-> | ->]; cbn; isin.
          * destruct ML as [(X & _)|(_ & ML)]; [discriminate|].
            destruct B as (g & c & -> & Wg & Hg).
            split; [constructor; [|constructor]|split; [constructor; [|constructor]|]].
            -- apply arg_term_row. constructor; [|constructor]. intros _. apply rows_node.
               destruct Hg as [[-> _]|[[-> _]|[-> _]]]; discriminate.
            -- apply wf_node; [|constructor; [exact Wg|constructor]].
               destruct Hg as [[-> _]|[[-> _]|[-> _]]]; [|apply ok_arg_bracket|apply ok_arg_paren].
               apply ok_arg_items. constructor; [cbn; isin|constructor].
            -- destruct Hg as [[-> ->]|[[-> ->]|[-> ->]]]; exact ML.
      - (* Word *)
        eapply total_bind; [apply word_args_total|apply wp_and; [exact (word_args_spec gm s m 0 st T)|exact (word_args_shape gm sp p s m cs 0 st M H1 H2)]|].
        intros [[[stopped m'] cnt] a] [(u & v & Hs & Hcnt & Hl & Hlv & Ht & Hst) (args & A1 & A2 & A3 & A4 & A5 & A6)].
        simpl in Hcnt. subst cnt.
        assert (Hs0 : s <> []) by (destruct G as [G _]; inversion_clear G as [|? ? G1 _]; now apply G1).
        destruct u as [|c u].
        + cbn [blen Nat.ltb Nat.leb bind]. destruct stopped; [exact I|]. exfalso. apply Hs0. rewrite Hs, (Hst eq_refl). reflexivity.
        + destruct (Nat.ltb_spec 0 (blen (c :: u))) as [_|Hb]; [|simpl in Hb; pose proof (utf8_len_pos c); lia].
          assert (El2 : p_lex a = (Word, (c :: u) ++ v) :: ts) by (rewrite Hl, El, Hs; reflexivity).
          eapply total_bind; [exact (consume_total a (c :: u) v ts El2)|exact (consume_spec a (c :: u) v ts El2)|].
          intros st' ->. destruct stopped; [exact I|]. specialize (Hst eq_refl). subst v.
          apply (Back m' cur _ args).
          * split; [exact A1|]. repeat split; auto.
          * simpl. rewrite Ht. constructor.
          * simpl. constructor. constructor.
          * simpl. lia.
    Qed.

    Lemma match_true_total m cur st : tpre (KMatch true m cur) st -> 2 * size st + 2 <= S n ->
      total (match_loop list_pk list_nx list_set gm rec true m cur st).
    Proof.
      intros ((T & _) & G & Gm & base & L & Ib) F. destruct m; try discriminate. clear Gm. cbn [hpre] in T.
      set (nl := nl_ok st) in *. pose proof L as (_ & _ & _ & _ & W).
      assert (Back : forall r a cur', cpost gm sp st r a -> p_trivia a = [] -> sfx (p_lex st) (p_lex a) -> size a < size st ->
        p_peek list_pk st <> Some Ampersand -> (p_peek list_pk st = Some NewLine -> nl = true) ->
        total (rec (KMatch true AMGreedy cur') (if r then with_last (Some (List.length (chd st))) a else a))).
      { intros r a cur' A Ta Sa Za Pa Pn. destruct (LI_step gm sp base false nl st r a L A) as (L1 & L2 & L3); [intros; contradiction|exact Pn|].
        set (a' := if r then _ else a) in *.
        assert (Sc : p_scope a' = p_scope st) by (unfold a'; destruct r; apply L3).
        assert (Nl : nl_ok a' = nl) by (unfold nl, nl_ok; now rewrite Sc).
        assert (Ep : par a' = par st) by (unfold a'; destruct r; apply A).
        apply IHn; [|unfold a'; destruct r; simpl; lia].
        split; [split; [unfold a'; destruct r; exact Ta|exact I]|].
        split; [unfold a'; destruct r; exact (good_sfx _ _ Sa G)|]. split; [reflexivity|].
        exists base. rewrite Nl. split; [exact L1|]. apply inside_some. rewrite inside_some in Ib. now rewrite Ep. }
      pose proof (LI_CI _ _ _ _ _ _ L) as CIs. destruct (LI_inside _ _ _ _ L Ib) as [I1 I2].
      unfold match_loop. cbv zeta. unfold list_pk at 1. destruct (p_lex st) as [|[k s] ts] eqn:El; cbn [hd_error]; [exact I|].
      assert (Pk : p_peek list_pk st = Some k) by (unfold p_peek, list_pk; rewrite El; reflexivity).
      assert (Fz : 2 * size st + 2 <= S n) by (rewrite El; exact F).
      assert (Ss : forall a, sfx (p_lex st) (p_lex a) -> sfx ((k, s) :: ts) (p_lex a)) by (intros a; rewrite El; auto).
      assert (Zs : forall a, size a < size st -> size a < toks_size ((k, s) :: ts)) by (intros a; rewrite El; auto).
      assert (Rest : k <> Ampersand -> (k = NewLine -> nl = true) -> total
        (if stop_by_scope (p_scope st) k then Ok (true, st)
         else let '(ok, m0) := try_match gm AMGreedy ARG_TERM in
              if negb ok then Ok (true, st)
              else let* (attachable, st0) := p_arg true (rec (KContent true)) st in
                   rec (KMatch true m0 (checkpoint st)) (if true && attachable then with_last (Some (checkpoint st)) st0 else st0))).
      { intros Ka Kn. destruct (stop_by_scope _ k); [exact I|]. cbn [try_match negb p_arg].
        eapply total_bind; [apply IHn; [|simpl; lia]|apply wp_and; [exact (IHt (KContent true) st T)|exact (IH (KContent true) st (conj T CIs))]|].
        { split; [split; [exact T|exact CIs]|]. split; [rewrite El; exact G|]. split; assumption. }
        intros [r a] [(Ta & [Sa _] & Pa) S]. cbn [fst snd spost hpre andb] in *.
        apply Back; auto.
        - apply Zs. apply Pa; [rewrite El; discriminate|rewrite El; now apply good_words].
        - rewrite Pk. congruence.
        - rewrite Pk. intros [= ->]. auto. }
      assert (Triv : is_trivia k = true -> total (let* st0 := leat st in rec (KMatch true AMGreedy cur) st0)).
      { intros Hk. eapply total_bind; [exact (eat_total st _ _ El)|apply wp_and; [exact (eat_spec (sp := sp) (takes := True) st T)|exact (St_eat_at _ _ _ _ _ _ _ _ (St_self st) El)]|].
        intros a [((Ta & [Sa _] & Za) & _) (_ & _ & A)]. cbn [fst snd] in A. apply (Back false a cur); auto.
        - eapply St_cpost; [exact W|exact A|repeat constructor|]. constructor; [|constructor].
          destruct k; try discriminate; (split; [cbn; isin|split; [intros _; exact I|split; intros _; discriminate]]).
        - destruct k; try discriminate; rewrite Pk; discriminate.
        - destruct k; try discriminate; rewrite Pk; discriminate. }
      destruct k; try exact I; try (apply Triv; reflexivity); try (apply Rest; discriminate).
      - (* TLeft *)
        assert (Pn : p_peek list_pk st = Some NewLine -> nl = true) by (rewrite Pk; discriminate).
        assert (Pa : p_peek list_pk st <> Some Ampersand) by (rewrite Pk; discriminate).
        assert (Lf : total (let* (_, st0) := p_arg true (fun st0 => let* st1 := leat st0 in Ok (true, st1)) st in
             rec (KMatch true AMGreedy (checkpoint st)) (with_last (Some (checkpoint st)) st0)) \/ b = Curly).
        { destruct b; [now right| |]; left; cbn [p_arg].
          all: (eapply total_bind2; [exact (eat_total st _ _ El)|apply wp_and; [exact (eat_spec (sp := sp) (takes := True) st T)|exact (St_eat_at _ _ _ _ _ _ _ _ (St_self st) El)]|]).
          all: intros a [((Ta & [Sa _] & Za) & _) (_ & _ & A)]; cbn [fst snd bind] in *; apply (Back true a); auto.
          all: (eapply St_cpost; [exact W|exact A|repeat constructor|]; constructor; [|constructor];
            (split; [cbn; isin|split; [intros _; exact I|split; intros _; discriminate]])). }
        destruct b; cbn [match_as_term]; try (destruct Lf as [Lf|Lf]; [exact Lf|discriminate]).
        cbn [p_arg]. change (negb (N.eqb ARG_TERM ARG_TERM)) with false. cbv iota.
        assert (Gz : good (p_lex st)) by (rewrite El; exact G).
        eapply total_bind2; [apply (item_group_total CurlyItem _ _ _ _ _ _ _ _ (St_self st) T W Gz eq_refl Pk); lia| |].
        { apply wp_and; [exact (item_group_shape gm sp rec IH CurlyItem _ _ _ _ _ _ _ st (St_self st) T W eq_refl Pk)|exact (item_group_spec rec IHt CurlyItem st T)]. }
        intros a [(ch & Wc & A) (Ta & [Sa _] & Za)]. cbn [bind snd] in *. apply (Back true a); auto.
          eapply St_cpost; [exact W|exact A|constructor; [exact Wc|constructor]|].
          constructor; [|constructor]. apply itm_node; [cbn; isin|reflexivity].
      - (* NewLine *)
        destruct (true && match p_scope st with Environment => true | _ => false end) eqn:Ee; [exact I|].
        apply Rest; [discriminate|]. intros _. unfold nl, nl_ok. destruct (p_scope st); try reflexivity; discriminate.
    Qed.

    Lemma match_args_false_total p ps sc so lo C st : St ps sc so lo C st -> p_trivia st = [] -> Forall wf C -> good (p_lex st) ->
      is_greedy (start_match p) = false -> 2 * size st + 2 <= n -> total (match_arguments rec false (start_match p) st).
    Proof.
      intros (<- & <- & H1 & H2 & <-) T W G Gm F. unfold match_arguments. cbv zeta. rewrite Gm. cbn [Bool.eqb negb].
      eapply total_bind; [apply rec__total; [|simpl; lia]|apply wp_intro; intros x E; exact E|intros; exact I].
      split; [split; [simpl; rewrite T; constructor|]|split; [exact G|]].
      - split; [reflexivity|]. split; [reflexivity|exact W].
      - exists p, []. now apply mstate_start.
    Qed.
    Lemma match_args_true_total k ps sc so lo C st : St ((k, List.length C) :: ps) sc so lo C st -> p_trivia st = [] -> Forall wf C -> good (p_lex st) ->
      2 * size st + 2 <= n -> total (match_arguments rec true AMGreedy st).
    Proof.
      intros (P1 & <- & H1 & H2 & <-) T W G F. unfold match_arguments. cbv zeta. cbn [is_greedy Bool.eqb negb].
      eapply total_bind; [apply rec__total; [|simpl; lia]|apply wp_intro; intros x E; exact E|intros; exact I].
      split; [split; [exact T|exact I]|split; [exact G|]]. split; [reflexivity|].
      exists (List.length (chd st)). split.
      - split; [simpl; lia|]. split; [right; reflexivity|]. split; [discriminate|]. split; [simpl; rewrite skipn_all; constructor|exact W].
      - apply inside_some. right. cbn. rewrite P1. intros k' f ps' [= <- <- <-]. lia.
    Qed.

    Lemma right_greedy_total k s ts ps sc so lo C pre st :
      St ((ItemCmd, List.length C) :: ps) sc so lo (C ++ pre) st -> p_trivia st = [] -> Forall wf (C ++ pre) -> good (p_lex st) ->
      p_lex st = (k, s) :: ts -> 2 * size st <= n ->
      total (right_command list_pk list_nx rec PGreedy st).
    Proof.
      intros H T W G El F. unfold right_command. cbv zeta. cbn [start_match is_greedy].
      eapply total_bind; [exact (eat_total _ _ _ El)|apply wp_and; [exact (eat_spec (sp := sp) (takes := True) st T)|exact (St_eat_at _ _ _ _ _ _ _ _ H El)]|].
      intros a [((Ta & [Sa _] & Za) & _) (_ & _ & A)]. cbn [fst snd] in A.
      assert (W' : Forall wf ((C ++ pre) ++ [Leaf (kind_of_token k) s])) by (apply wf_app; [assumption|repeat constructor]).
      pose proof (good_sfx _ _ Sa G) as Ga.
      pose proof (St_start ClauseArgument _ _ _ _ _ _ A) as A2.
      assert (Ta2 : p_trivia (start_node ClauseArgument a) = []) by exact Ta.
      eapply total_bind.
      - eapply total_bind; [apply (match_args_true_total _ _ _ _ _ _ _ A2 Ta2 W' Ga); simpl; lia|exact (match_args_true gm sp rec IH _ _ _ _ _ _ A2 Ta2 W')|].
        intros b (g & _ & _ & B). exact (finish_total _ _ _ _ _ _ _ _ B).
      - apply wp_bind. eapply wp_mono; [exact (match_args_true gm sp rec IH _ _ _ _ _ _ A2 Ta2 W')|]. intros b (g & _ & _ & B).
        eapply wp_mono; [exact (St_finish _ _ _ _ _ _ _ _ B)|]. intros c (_ & _ & Hc).
        exact (ex_intro (fun C' => St ((ItemCmd, List.length C) :: ps) sc so None C' c) _ Hc).
      - intros b (C' & B). eapply total_bind; [exact (finish_total _ _ _ _ _ _ _ _ B)|apply wp_intro; intros x E; exact E|intros; exact I].
    Qed.
    Lemma right_plain_total p k s ts ps sc so lo C st : is_greedy (start_match p) = false ->
      St ((ItemCmd, List.length C) :: ps) sc so lo C st -> p_trivia st = [] -> Forall wf C -> good (p_lex st) ->
      p_lex st = (k, s) :: ts -> 2 * size st <= n ->
      total (right_command list_pk list_nx rec p st).
    Proof.
      intros Gm H T W G El F. unfold right_command. cbv zeta. rewrite Gm.
      eapply total_bind; [exact (eat_total _ _ _ El)|apply wp_and; [exact (eat_spec (sp := sp) (takes := True) st T)|exact (St_eat_at _ _ _ _ _ _ _ _ H El)]|].
      intros a [((Ta & [Sa _] & Za) & _) (_ & _ & A)]. cbn [fst snd] in A.
      assert (W' : Forall wf (C ++ [Leaf (kind_of_token k) s])) by (apply wf_app; [assumption|repeat constructor]).
      pose proof (good_sfx _ _ Sa G) as Ga.
      eapply total_bind; [apply (match_args_false_total p _ _ _ _ _ _ A Ta W' Ga Gm); lia|exact (match_args_false gm sp rec IH p _ _ _ _ _ _ A Ta W' Gm)|].
      intros b (args & _ & _ & _ & B).
      eapply total_bind; [exact (finish_total _ _ _ _ _ _ _ _ B)|apply wp_intro; intros x E; exact E|intros; exact I].
    Qed.
    Lemma start_command_total cp ps sc so lo C st : St ps sc so lo C st -> cp <= List.length C ->
      pn \/ (forall k' f ps', ps = (k', f) :: ps' -> f <= cp) -> total (start_command_at (Some cp) st).
    Proof.
      intros H Hl Hf. unfold start_command_at.
      eapply total_bind; [exact (start_at_total cp ItemCmd _ _ _ _ _ _ H Hl Hf)|exact (St_start_at cp ItemCmd _ _ _ _ _ _ H)|].
      intros a (_ & _ & _ & _ & A).
      eapply total_bind; [apply (start_at_total cp ClauseArgument _ _ _ _ _ _ A Hl)|exact (St_start_at cp ClauseArgument _ _ _ _ _ _ A)|].
      - right. intros k' f ps' [= _ <- _]. lia.
      - intros b (_ & _ & _ & _ & B). exact (finish_total _ _ _ _ _ _ _ _ B).
    Qed.

    Lemma command_total k s ts st : CI gm sp st -> p_trivia st = [] -> good (p_lex st) -> p_lex st = (k, s) :: ts ->
      kind_of_token k = ClauseCommandName ->
      inside (p_last st) st -> (takes_left sp (k, s) -> inside (p_start st) st) -> 2 * size st <= n ->
      total (command list_pk list_nx sp rec st).
    Proof.
      intros Hc T G El Ek I1 I2 F. pose proof Hc as (C1 & C2 & W).
      unfold command, list_pk. rewrite El. cbn [hd_error].
      destruct (strip_prefix (tx "\") s) as [name|] eqn:Es.
      2:{ destruct G as [_ [G|[G _]]]; [exact G|]. exfalso. rewrite El in G. inversion_clear G as [|? ? [G1 _] _].
          destruct (G1 Ek) as [name Hs]. simpl in Hs. subst s. discriminate. }
      apply strip_backslash in Es as ->.
      assert (Plain : total (let* st0 := leat (start_node ItemCmd st) in let* st1 := finish_node st0 in Ok (true, st1))).
      { eapply total_bind; [exact (eat_total (start_node ItemCmd st) _ _ El)|exact (St_eat_at _ _ _ _ _ _ _ _ (St_start ItemCmd _ _ _ _ _ _ (St_self st)) El)|].
        intros a (_ & _ & A). eapply total_bind; [exact (finish_total _ _ _ _ _ _ _ _ A)|apply wp_intro; intros x E; exact E|intros; exact I]. }
      assert (Right : forall p, p <> PGreedy -> total (right_command list_pk list_nx rec p (start_node ItemCmd st))).
      { intros p Hp. assert (Gm : is_greedy (start_match p) = false).
        { destruct p; try contradiction; simpl; auto; destruct (N.eqb _ _); reflexivity. }
        exact (right_plain_total p k (92%N :: name) ts _ _ _ _ _ _ Gm (St_start ItemCmd _ _ _ _ _ _ (St_self st)) T W G El F). }
      assert (GreedyNew : forall st0, St (par st) (p_scope st) (p_start st) (p_last st) (chd st) st0 -> p_trivia st0 = [] -> p_lex st0 = p_lex st ->
        total (right_command list_pk list_nx rec PGreedy (start_node ItemCmd st0))).
      { intros st0 S0 T0 L0.
        assert (S1 : St ((ItemCmd, List.length (chd st)) :: par st) (p_scope st) (p_start st) (p_last st) (chd st ++ []) (start_node ItemCmd st0)).
        { rewrite app_nil_r. now apply St_start. }
        apply (right_greedy_total k (92%N :: name) ts _ _ _ _ _ [] _ S1); [exact T0|rewrite app_nil_r; exact W|cbn; rewrite L0; exact G|exact (eq_trans L0 El)|cbn; rewrite L0; exact F]. }
      destruct (option_map cs_args (get_cmd sp name)) as [[p| |]|] eqn:Ep.
      - assert (RightP : total (right_command list_pk list_nx rec p (start_node ItemCmd st))).
        { destruct p; try (apply Right; discriminate). apply (GreedyNew st); auto. apply St_self. }
        destruct p as [|[|q]| | |]; try exact RightP; exact Plain.
      - (* postfix *)
        assert (TL : takes_left sp (k, 92%N :: name)) by (split; [exact Ek|exists name; auto]).
        specialize (I2 TL).
        destruct (match p_last st with Some p => Some p | None => p_start st end) as [q|] eqn:En.
        + assert (Hn : p_start st = Some q \/ p_last st = Some q) by (destruct (p_last st); auto).
          destruct (C2 q Hn) as [Hl Hf].
          assert (Fi : pn \/ forall k' f ps', par st = (k', f) :: ps' -> f <= q).
          { destruct Hn as [Hn|Hn]; [destruct I2 as [I2|I2]; [now left|]|destruct I1 as [I1|I1]; [now left|]];
              right; intros k' f ps' Hp; [exact (I2 _ _ _ _ Hn Hp)|exact (I1 _ _ _ _ Hn Hp)]. }
          eapply total_bind; [exact (start_command_total q _ _ _ _ _ _ (St_self st) Hl Fi)|exact (start_at_shape q _ _ _ _ _ _ (St_self st))|].
          intros a (_ & _ & A3 & _ & A5).
          eapply total_bind; [exact (eat_total a _ _ (eq_trans A3 El))|exact (St_eat_at _ _ _ _ _ _ _ _ A5 (eq_trans A3 El))|].
          intros b (_ & _ & B). eapply total_bind; [exact (finish_total _ _ _ _ _ _ _ _ B)|apply wp_intro; intros x E; exact E|intros; exact I].
        + cbn [start_command_at bind].
          eapply total_bind; [exact (eat_total (start_node ItemCmd st) _ _ El)|exact (St_eat_at _ _ _ _ _ _ _ _ (St_start ItemCmd _ _ _ _ _ _ (St_self st)) El)|].
          intros b (_ & _ & B). eapply total_bind; [exact (finish_total _ _ _ _ _ _ _ _ B)|apply wp_intro; intros x E; exact E|intros; exact I].
      - (* infix *)
        assert (TL : takes_left sp (k, 92%N :: name)) by (split; [exact Ek|exists name; auto]).
        specialize (I2 TL).
        destruct (p_start st) as [q|] eqn:En.
        + destruct (C2 q (or_introl eq_refl)) as [Hl Hf].
          assert (Fi : pn \/ forall k' f ps', par st = (k', f) :: ps' -> f <= q).
          { destruct I2 as [I2|I2]; [now left|right]. intros k' f ps' Hp; exact (I2 _ _ _ _ eq_refl Hp). }
          assert (S0 : St (par st) (p_scope st) None (p_last st) (chd st) (with_start None st)) by (repeat split; now right).
          eapply total_bind; [exact (start_command_total q _ _ _ _ _ _ S0 Hl Fi)|exact (start_at_shape q _ _ _ _ _ _ S0)|].
          intros a (_ & _ & A3 & A4 & A5). change (p_lex (with_start None st)) with (p_lex st) in A3.
          destruct (left_arg_ok gm sp _ _ _ Hf W) as [La Lr].
          apply (right_greedy_total k (92%N :: name) ts _ _ _ _ _ _ _ A5); [rewrite A4; exact T| |rewrite A3; exact G|exact (eq_trans A3 El)|rewrite A3; exact F].
          apply wf_app; [now apply Forall_firstn|]. constructor; [exact La|constructor].
        + cbn [start_command_at bind]. apply (GreedyNew (with_start None st)); auto. repeat split; simpl; now right.
      - exact Plain.
    Qed.

    Lemma plain_finish_total k ps sc so lo C (st : lpst) (t : tok) ts : St ps sc so lo C st -> p_lex st = t :: ts ->
      total (let* st0 := leat (start_node k st) in finish_node st0).
    Proof.
      intros H El. eapply total_bind; [exact (eat_total (start_node k st) _ _ El)|exact (St_eat_at _ _ _ _ _ _ _ _ (St_start k _ _ _ _ _ _ H) El)|].
      intros a (_ & _ & A). exact (finish_total _ _ _ _ _ _ _ _ A).
    Qed.

    Lemma environment_total st : p_trivia st = [] -> Forall wf (chd st) -> good (p_lex st) ->
      p_peek list_pk st = Some (CommandName BeginEnvironment) -> 2 * size st <= n ->
      total (environment list_pk list_nx sp rec st).
    Proof.
      intros T W G Hp F. destruct (peek_cons _ _ Hp) as (name & ts & El). unfold environment. cbv zeta.
      unfold list_pk at 1. cbn [p_lex start_node with_b]. rewrite El. cbn [hd_error].
      set (C := chd st).
      pose proof (St_start ItemBegin _ _ _ _ _ _ (St_start ItemEnv _ _ _ _ _ _ (St_self st))) as H2.
      eapply total_bind; [exact (eat_total (start_node ItemBegin (start_node ItemEnv st)) _ _ El)|apply wp_and;
        [exact (eat_spec (sp := sp) (takes := True) (start_node ItemBegin (start_node ItemEnv st)) T)|exact (St_eat_at _ _ _ _ _ _ _ _ H2 El)]|].
      intros a [((Ta & [Sa _] & Za) & _) (_ & _ & A)]. cbn [fst snd kind_of_token] in A.
      change (p_lex (start_node ItemBegin (start_node ItemEnv st))) with (p_lex st) in *. fold C in A.
      assert (W1 : Forall wf (C ++ [Leaf TokenCommandSym name])) by (apply wf_app; [assumption|repeat constructor]).
      pose proof (good_sfx _ _ Sa G) as Ga.
      assert (Ng : pn \/ option_map en_args (get_env sp name) <> Some PGreedy).
      { destruct G as [_ [G|[G _]]]; [now left|right]. rewrite El in G. inversion_clear G as [|? ? [_ G1] _]. now apply G1. }
      apply (total_bind _ _ (fun b => sfx (p_lex a) (p_lex b) /\ Forall (fun t => is_trivia (fst t) = true) (p_trivia b) /\ exists args lo', Forall wf (Leaf TokenCommandSym name :: args) /\
        arguments_ok_env name args /\
        St ((ItemBegin, List.length C) :: (ItemEnv, List.length C) :: par st) (p_scope st) (p_start st) lo' (C ++ (Leaf TokenCommandSym name :: args)) b)).
      { assert (M : forall p, p <> PGreedy -> total (match_arguments rec false (start_match p) a)).
        { intros p Hpg. assert (Gm : is_greedy (start_match p) = false).
          { destruct p; try contradiction; simpl; auto; destruct (N.eqb _ _); reflexivity. }
          apply (match_args_false_total p _ _ _ _ _ _ A Ta W1 Ga Gm). lia. }
        destruct (option_map en_args (get_env sp name)) as [[|[|q]| | |]|]; try exact I; try (apply M; discriminate).
        destruct Ng as [Ng|Ng]; [exact Ng|contradiction]. }
      { assert (Z : arguments_ok_env name [] -> sfx (p_lex a) (p_lex a) /\ Forall (fun t => is_trivia (fst t) = true) (p_trivia a) /\ exists args lo', Forall wf (Leaf TokenCommandSym name :: args) /\
          arguments_ok_env name args /\
          St ((ItemBegin, List.length C) :: (ItemEnv, List.length C) :: par st) (p_scope st) (p_start st) lo' (C ++ (Leaf TokenCommandSym name :: args)) a).
        { intros Z. split; [constructor|]. split; [rewrite Ta; constructor|]. exists [], (p_last st). split; [repeat constructor|]. split; [exact Z|exact A]. }
        unfold arguments_ok_env in *.
        destruct (option_map en_args (get_env sp name)) as [p|] eqn:Ee; [|cbn [wp]; now apply Z].
        assert (M : p <> PGreedy -> wp True True (match_arguments rec false (start_match p) a) (fun b => sfx (p_lex a) (p_lex b) /\ Forall (fun t => is_trivia (fst t) = true) (p_trivia b) /\ exists args lo', Forall wf (Leaf TokenCommandSym name :: args) /\
          arguments_ok gm p args /\
          St ((ItemBegin, List.length C) :: (ItemEnv, List.length C) :: par st) (p_scope st) (p_start st) lo' (C ++ (Leaf TokenCommandSym name :: args)) b)).
        { intros Hpg. assert (Gm : is_greedy (start_match p) = false).
          { destruct p; try contradiction; simpl; auto; destruct (N.eqb _ _); reflexivity. }
          eapply wp_mono; [apply wp_and; [exact (match_args_false gm sp rec IH p _ _ _ _ _ _ A Ta W1 Gm)|exact (match_arguments_spec rec IHt false (start_match p) a Ta)]|].
          intros b [(args & G1 & G2 & G3 & B) [Tb Rb]]. split; [exact (proj1 Rb)|]. split; [exact Tb|]. exists args, None.
          split; [constructor; [exact I|exact G3]|]. split; [exact G1|]. rewrite <- app_assoc in B. exact B. }
        destruct p as [|[|q]| | |]; try (apply M; discriminate); try exact I; cbn [wp]; apply Z.
        - split; [constructor|reflexivity].
        - split; [constructor|split; [constructor|simpl; lia]]. }
      intros b (Rb & Tb & args & lo' & Wa & Ha & B).
      eapply total_bind; [exact (finish_total _ _ _ _ _ _ _ _ B)|exact (St_finish _ _ _ _ _ _ _ _ B)|].
      intros c (Lc & Tc & Hc). pose proof (St_extract _ _ _ _ _ _ Hc) as Hc2.
      set (bg := Node ItemBegin (Leaf TokenCommandSym name :: args)) in *.
      assert (Wb : wf bg) by (apply wf_node; [now apply ok_begin|exact Wa]).
      assert (Ht : Forall wf (map (fun t => Leaf (kind_of_token (fst t)) (snd t)) (p_trivia c))).
      { apply Forall_forall. intros x Hx. apply in_map_iff in Hx as (y & <- & _). exact I. }
      set (tr := map (fun t => Leaf (kind_of_token (fst t)) (snd t)) (p_trivia c)) in *.
      pose proof (extract_spec (sp := sp) (takes := True) c) as [Te [Se _]]. set (c' := extract_holding_trivia c) in *.
      rename Rb into Sb. assert (Sc : sfx (p_lex a) (p_lex c')) by (rewrite Lc in Se; eapply sfx_trans; eauto).
      pose proof (good_sfx _ _ Sc Ga) as Gc. pose proof (sfx_size _ _ Sc) as Zc.
      rewrite <- app_assoc in Hc2.
      assert (Wc : Forall wf (C ++ [bg] ++ tr)) by (apply wf_app; [assumption|]; constructor; [exact Wb|exact Ht]).
      eapply total_bind; [apply (item_list_total Environment _ _ _ _ _ _ _ _ Hc2 Te Wc Gc); lia|exact (item_list_shape gm sp rec IH Environment _ _ _ _ _ _ Hc2 Te Wc)|].
      intros d (body & _ & _ & D3 & _).
      eapply (total_bind _ _ (fun e => exists ch, St ((ItemEnv, List.length C) :: par st) (p_scope st) (p_start st) lo' ch e)).
      - destruct (p_peek list_pk d) as [k|] eqn:Ed; [|exact I].
        destruct k; try exact I. destruct c0; try exact I. destruct (peek_cons _ _ Ed) as (s' & ts' & Eld).
        exact (plain_finish_total ItemEnd _ _ _ _ _ _ _ _ D3 Eld).
      - assert (Z : exists ch, St ((ItemEnv, List.length C) :: par st) (p_scope st) (p_start st) lo' ch d) by (eexists; exact D3).
        destruct (p_peek list_pk d) as [k|] eqn:Ed; [|exact Z].
        destruct k; try exact Z. destruct c0; try exact Z. destruct (peek_cons _ _ Ed) as (s' & ts' & Eld).
        apply wp_bind. eapply wp_mono; [exact (St_eat_at _ _ _ _ _ _ _ _ (St_start ItemEnd _ _ _ _ _ _ D3) Eld)|].
        intros e (_ & _ & He). eapply wp_mono; [exact (St_finish _ _ _ _ _ _ _ _ He)|]. intros f (_ & _ & Hf). eexists. exact Hf.
      - intros e (ch & He). exact (finish_total _ _ _ _ _ _ _ _ He).
    Qed.

    Lemma trivia_rec st : p_trivia st = [] -> good (p_lex st) -> 2 * size st + 2 <= n -> total (rec_ rec KTrivia st).
    Proof.
      intros T G F. apply rec__total; [|simpl; lia]. split; [split; [exact T|exact I]|]. split; [exact G|exact I].
    Qed.
    Lemma clause_lr_total k st : p_trivia st = [] -> good (p_lex st) -> p_peek list_pk st = Some k ->
      kind_of_token k = ClauseCommandName -> 2 * size st <= n -> total (clause_lr list_pk list_nx list_set rec st).
    Proof.
      intros T G Hp Ek F. destruct (peek_cons _ _ Hp) as (s & ts & El). unfold clause_lr. cbv zeta.
      eapply total_bind; [exact (eat_total (start_node ClauseLR st) _ _ El)|apply wp_and; [exact (eat_spec (sp := sp) (takes := True) (start_node ClauseLR st) T)|
          exact (St_eat_at (k, s) ts _ _ _ _ _ _ (St_start ClauseLR _ _ _ _ _ _ (St_self st)) El)]|].
      intros a [((Ta & [Sa _] & Za) & _) (_ & _ & A)]. cbn [fst snd] in *. change (p_lex (start_node ClauseLR st)) with (p_lex st) in *.
      pose proof (good_sfx _ _ Sa G) as Ga.
      eapply (total_bind _ _ (fun b => exists C', St ((ClauseLR, List.length (chd st)) :: par st) (p_scope st) (p_start st) (p_last st) C' b)).
      - apply trivia_rec; auto; lia.
      - unfold rec_. apply wp_bind. eapply wp_mono; [apply (IH KTrivia a); split; [exact Ta|exact I]|].
        intros [r b] B. cbn [wp fst snd] in *. destruct (adds_St _ _ _ _ _ _ _ _ A B) as (tr & _ & B2). eauto.
      - intros b (C' & B).
        eapply (total_bind _ _ (fun c => exists C', St ((ClauseLR, List.length (chd st)) :: par st) (p_scope st) (p_start st) (p_last st) C' c)).
        + destruct (p_peek list_pk b) as [k'|] eqn:Eb; [|exact I]. destruct (peek_cons _ _ Eb) as (s' & ts' & Elb).
          destruct k'; try exact I; try exact (eat_total _ _ _ Elb); try exact (single_total _ Eb).
          destruct c; try exact I. destruct b as [lx bb h so l sc]. simpl in Elb. subst lx. exact I.
        + assert (Z : exists C', St ((ClauseLR, List.length (chd st)) :: par st) (p_scope st) (p_start st) (p_last st) C' b) by eauto.
          assert (E : wp True True (leat b) (fun c => exists C', St ((ClauseLR, List.length (chd st)) :: par st) (p_scope st) (p_start st) (p_last st) C' c)).
          { eapply wp_mono; [exact (St_eat _ _ _ _ _ _ B)|]. intros c (t & Hc). decompose [and] Hc. eauto. }
          destruct (p_peek list_pk b) as [k'|] eqn:Eb; [|exact Z]. destruct (peek_cons _ _ Eb) as (s' & ts' & Elb).
          destruct k'; try exact Z; try exact E.
          * destruct B as (P1 & P2 & P3 & P4 & P5). destruct b as [lx bb h so l sc']. simpl in *. subst lx.
            unfold single_char. cbn [list_pk hd_error p_lex]. destruct s' as [|c' s']; [exact Z|].
            unfold lex_consume. cbn [list_pk hd_error p_lex token_ with_b]. destruct (Nat.leb _ _); cbn [list_nx bind wp].
            -- eexists. unfold St. cbn. rewrite P1. repeat split; try assumption; reflexivity.
            -- destruct (split_bytes _ _) as [[? ?]|]; [|exact I]. cbn [wp]. eexists. unfold St. cbn. rewrite P1. repeat split; try assumption; reflexivity.
          * destruct c; try exact Z. destruct B as (P1 & P2 & P3 & P4 & P5). destruct b as [lx bb h so l sc']. simpl in *. subst lx.
            cbn. eexists. unfold St. cbn. rewrite P1. repeat split; try assumption; reflexivity.
        + intros c (C'' & Hc). exact (finish_total _ _ _ _ _ _ _ _ Hc).
    Qed.
    Lemma item_lr_total st : p_trivia st = [] -> Forall wf (chd st) -> good (p_lex st) ->
      p_peek list_pk st = Some (CommandName CLeft) -> 2 * size st <= n -> total (item_lr list_pk list_nx list_set rec st).
    Proof.
      intros T W G Hp F. unfold item_lr. cbv zeta. set (C := chd st).
      pose proof (St_start ItemLR _ _ _ _ _ _ (St_self st)) as H2. fold C in H2.
      eapply total_bind; [apply (clause_lr_total (CommandName CLeft) (start_node ItemLR st) T G Hp eq_refl F)|
        apply wp_and; [exact (clause_lr_shape gm sp rec IH _ _ _ _ _ _ _ H2 T Hp eq_refl)|
        exact (clause_lr_spec rec IHt (start_node ItemLR st) T)]|].
      intros a [(c1 & W1 & A) (Ta & [Sa _] & Za)]. change (p_lex (start_node ItemLR st)) with (p_lex st) in *.
      pose proof (good_sfx _ _ Sa G) as Ga.
      assert (Wa : Forall wf (C ++ [Node ClauseLR c1])) by (apply wf_app; [assumption|constructor; [exact W1|constructor]]).
      eapply total_bind; [apply (item_list_total LR _ _ _ _ _ _ _ _ A Ta Wa Ga); lia|apply wp_and; [exact (item_list_shape gm sp rec IH LR _ _ _ _ _ _ A Ta Wa)|
        exact (item_list_spec rec IHt LR a Ta)]|].
      intros b [(body & B1 & B2 & B3 & _) (Tb & [Sb _])].
      pose proof (good_sfx _ _ Sb Ga) as Gb. pose proof (sfx_size _ _ Sb) as Zb.
      eapply (total_bind _ _ (fun c => exists C', St ((ItemLR, List.length C) :: par st) (p_scope st) (p_start st) (p_last st) C' c)).
      - destruct (p_peek list_pk b) as [k|] eqn:Eb; [|exact I]. destruct k; try exact I. destruct c; try exact I.
        apply (clause_lr_total _ b Tb Gb Eb eq_refl). lia.
      - assert (Z : exists C', St ((ItemLR, List.length C) :: par st) (p_scope st) (p_start st) (p_last st) C' b) by eauto.
        destruct (p_peek list_pk b) as [k|] eqn:Eb; [|exact Z]. destruct k; try exact Z. destruct c; try exact Z.
        eapply wp_mono; [exact (clause_lr_shape gm sp rec IH _ _ _ _ _ _ _ B3 Tb Eb eq_refl)|]. intros c (c2 & _ & Hc). eauto.
      - intros c (C' & Hc). exact (finish_total _ _ _ _ _ _ _ _ Hc).
    Qed.
    Lemma if_block_total k st : p_trivia st = [] -> good (p_lex st) -> p_lex st <> [] -> 2 * size st <= n ->
      total (if_block list_pk list_nx rec k st).
    Proof.
      intros T G Ne F. unfold if_block. cbv zeta.
      destruct (p_lex st) as [|t ts] eqn:El; [contradiction|].
      eapply (total_bind _ _ (fun a => p_trivia a = [] /\ p_lex a = ts /\ St ((k, List.length (chd st)) :: par st) (p_scope st) (p_start st) (p_last st) (chd st) a));
        [apply drop_total| |].
      { destruct st as [lx [p c] h s l sc']. simpl in *. subst lx. cbn. repeat split; auto using sub_refl. }
      intros a (Ta & La & A).
      assert (Sa : sfx (t :: ts) (p_lex a)) by (rewrite La; constructor; constructor).
      pose proof (good_sfx _ _ Sa G) as Ga.
      assert (Za : toks_size (t :: ts) = 1 + List.length (snd t) + size a) by (rewrite La; reflexivity).
      eapply (total_bind _ _ (fun b => exists C', St ((k, List.length (chd st)) :: par st) (p_scope st) (p_start st) (p_last st) C' b)).
      - apply rec__total; [|simpl need; lia]. split; [split; [exact Ta|exact I]|]. split; [exact Ga|exact I].
      - unfold rec_. apply wp_bind. eapply wp_mono; [apply (IH (KIfs 0) a); split; [exact Ta|exact I]|].
        intros [r b] B. cbn [wp fst snd] in *. destruct (adds_St _ _ _ _ _ _ _ _ A B) as (tr & _ & B2). eauto.
      - intros b (C' & B). exact (finish_total _ _ _ _ _ _ _ _ B).
    Qed.

    (** scripts *)
    Lemma trivia_lex st : p_trivia st = [] -> wp True True (rec_ rec KTrivia st) (fun b => p_lex b = skip_trivia (p_lex st)).
    Proof.
      intros T. unfold rec_. clear IHn IHt IH. revert st T. induction n as [|m IHm]; intros st T; [exact I|]. cbn [run dispatch].
      unfold trivia_loop at 1. destruct (p_peek list_pk st) as [k|] eqn:E.
      - destruct (peek_cons _ _ E) as (s & ts & El). rewrite El. cbn [skip_trivia fst].
        destruct (is_trivia k); [|exact El].
        destruct st as [lx bb h so l sc]. simpl in El. subst lx. cbn [leat eat lex_eat list_pk list_nx hd_error p_lex bind tl with_lex token_ with_b].
        apply IHm. exact T.
      - destruct st as [[|t ts] bb h so l sc]; [reflexivity|discriminate].
    Qed.
    Lemma script_total k s ts ps sc so lo cp C pre st :
      St ((ItemAttachComponent, cp) :: ps) sc so lo (C ++ pre) st -> cp = List.length C ->
      Forall (itm' sp sc) pre -> Forall wf (C ++ pre) ->
      (forall x y, so = Some x -> lo = Some y -> x <= y) ->
      (forall x, so = Some x \/ lo = Some x -> x <= cp /\ Forall (itm' sp sc) (skipn x C)) ->
      (forall x, lo = Some x -> x = cp) ->
      p_trivia st = [] -> p_lex st = (k, s) :: ts -> is_script k = true -> good (p_lex st) -> 2 * size st <= n ->
      total (let* st0 := leat st in
         let* st1 := (let* st2 := rec_ rec KTrivia st0 in rec_ rec (KContent false) st2) in finish_node st1).
    Proof.
      intros H -> Fpre W O1 O2 O3 T El Hk G F.
      eapply total_bind; [exact (eat_total _ _ _ El)|apply wp_and; [exact (eat_spec (sp := sp) (takes := True) st T)|exact (St_eat_at _ _ _ _ _ _ _ _ H El)]|].
      intros a [((Ta & [Sa _] & Za) & _) (_ & La & A)]. cbn [fst snd] in A.
      pose proof (good_sfx _ _ Sa G) as Ga.
      assert (B0 : wp True True (rec_ rec KTrivia a) (fun b => (p_lex b = skip_trivia (p_lex a) /\ step (sp:=sp) (takes:=True) a b) /\ exists tr,
        Forall (itm' sp sc) tr /\ Forall wf tr /\
        St ((ItemAttachComponent, List.length C) :: ps) sc so lo (((C ++ pre) ++ [Leaf (kind_of_token k) s]) ++ tr) b)).
      { apply wp_and; [apply wp_and; [exact (trivia_lex a Ta)|exact (rec_step rec IHt KTrivia a I Ta)]|].
        unfold rec_. apply wp_bind. eapply wp_mono; [apply (IH KTrivia a); split; [exact Ta|exact I]|].
        intros [r b] B. cbn [wp fst snd] in *. destruct (adds_St _ _ _ _ _ _ _ _ A B) as (tr & Tr & B2).
        exists tr. split; [|split; [exact (leafy_wf gm sp _ _ Tr)|exact B2]].
        eapply Forall_impl; [|exact Tr]. intros [k' s'|k' c']; [|contradiction]. intros Hk'. apply itm'_leaf. left. now apply tv_item_leaf. }
      assert (C0 : forall b, (p_lex b = skip_trivia (p_lex a) /\ step (sp:=sp) (takes:=True) a b) /\ (exists tr,
        Forall (itm' sp sc) tr /\ Forall wf tr /\
        St ((ItemAttachComponent, List.length C) :: ps) sc so lo (((C ++ pre) ++ [Leaf (kind_of_token k) s]) ++ tr) b) ->
        tpre (KContent false) b /\ need (KContent false) (size b) <= n).
      { intros b ((Lb & Tb & [Sb _]) & tr & Ft & Wt & B). pose proof B as (P1 & P2 & P3 & P4 & P5).
        pose proof (sfx_size _ _ Sb) as Zb. split; [|simpl need; lia].
        assert (Fmid : Forall (itm' sp sc) (pre ++ [Leaf (kind_of_token k) s] ++ tr)).
        { apply Forall_app. split; [assumption|]. constructor; [apply itm'_leaf; destruct k; try discriminate; right; cbn; isin|exact Ft]. }
        split; [split; [exact Tb|]|split; [exact (good_sfx _ _ Sb Ga)|]].
        - split; [|split].
          + intros x y Hx Hy. apply O1; [exact (sub_some _ _ _ P3 Hx)|exact (sub_some _ _ _ P4 Hy)].
          + intros x Hx. assert (Hx' : so = Some x \/ lo = Some x).
            { destruct Hx as [Hx|Hx]; [left; exact (sub_some _ _ _ P3 Hx)|right; exact (sub_some _ _ _ P4 Hx)]. }
            destruct (O2 x Hx') as [O3' O4]. rewrite P5, P2. rewrite <- !app_assoc. split; [rewrite app_length; lia|].
            rewrite skipn_app. replace (x - List.length C) with 0 by lia. apply Forall_app. split; [exact O4|exact Fmid].
          + rewrite P5. apply wf_app; [apply wf_app; [exact W|repeat constructor]|exact Wt].
        - split.
          + right. intros x k' f ps' Hx Hp. apply (sub_some _ _ _ P4) in Hx. apply O3 in Hx. rewrite P1 in Hp. injection Hp as _ <- _. lia.
          + rewrite Lb. destruct G as [_ [G|[_ G]]]; [now left|right]. rewrite El in G. destruct G as [G _]. specialize (G Hk).
            replace (p_lex a) with ts by (rewrite La; reflexivity). exact G. }
      apply (total_bind _ _ (fun b => exists C', St ((ItemAttachComponent, List.length C) :: ps) sc so lo C' b)).
      - eapply total_bind; [apply trivia_rec; [exact Ta|exact Ga|lia]|exact B0|]. intros b Hb. destruct (C0 b Hb) as [C1 C2]. now apply rec__total.
      - apply wp_bind. eapply wp_mono; [exact B0|]. intros b Hb. destruct (C0 b Hb) as [C1 _].
        destruct Hb as (_ & tr & _ & _ & B). pose proof B as (P1 & P2 & P3 & P4 & P5).
        unfold rec_. apply wp_bind. eapply wp_mono; [apply (IH (KContent false) b); apply C1|].
        intros [r c] (Q1 & Q2 & Q3 & Q4 & _). cbn [wp fst snd] in *. eexists. split; [rewrite Q1; exact P1|]. split; [congruence|].
        split; [eapply sub_trans; eauto|]. split; [eapply sub_trans; eauto|reflexivity].
      - intros b (C' & B). exact (finish_total _ _ _ _ _ _ _ _ B).
    Qed.

    Lemma attach_total (has : bool) k (st : lpst) : CI gm sp st -> p_trivia st = [] -> p_peek list_pk st = Some k ->
      (if has then is_script k = true else k = Apostrophe) -> good (p_lex st) -> inside (p_last st) st -> 2 * size st <= n ->
      total (attach_component list_pk list_nx rec has st).
    Proof.
      intros Hc T Hp Hk G I1 F. pose proof Hc as (C1 & C2 & W). destruct (peek_cons _ _ Hp) as (s & ts & El).
      unfold attach_component. cbv zeta.
      destruct (p_last st) as [cp|] eqn:El0.
      - destruct (C2 cp (or_intror eq_refl)) as [Hl Hf].
        assert (Fi : pn \/ forall k' f ps', par st = (k', f) :: ps' -> f <= cp).
        { destruct I1 as [I1|I1]; [now left|right]. intros k' f ps' Hq; exact (I1 _ _ _ _ eq_refl Hq). }
        eapply total_bind; [exact (start_at_total cp ItemAttachComponent _ _ _ _ _ _ (St_self st) Hl Fi)|exact (St_start_at cp ItemAttachComponent _ _ _ _ _ _ (St_self st))|].
        intros a (_ & A2 & A3 & A4 & A5).
        eapply total_bind; [apply (start_at_total cp ClauseArgument _ _ _ _ _ _ A5 Hl)|exact (St_start_at cp ClauseArgument _ _ _ _ _ _ A5)|].
        { right. intros k' f ps' [= _ <- _]. lia. }
        intros b (_ & _ & B3 & B4 & B5). rewrite <- (firstn_skipn cp (chd st)) in B5.
        assert (Lc : List.length (firstn cp (chd st)) = cp) by (now apply firstn_length_le).
        rewrite <- Lc in B5 at 1.
        eapply total_bind; [exact (finish_total _ _ _ _ _ _ _ _ B5)|exact (St_finish _ _ _ _ _ _ _ _ B5)|]. intros c (D1 & D2 & D3).
        destruct (left_arg_ok gm sp _ _ _ Hf W) as [La Lr].
        assert (Lx : p_lex c = p_lex st) by congruence.
        assert (Elc : p_lex c = (k, s) :: ts) by (rewrite Lx; exact El).
        assert (Tc : p_trivia c = []) by congruence.
        assert (Wf : Forall wf (firstn cp (chd st) ++ [Node ClauseArgument (skipn cp (chd st))])).
        { apply wf_app; [now apply Forall_firstn|]. constructor; [exact La|constructor]. }
        assert (Bs : forall x, p_start st = Some x -> x <= cp) by (intros x Hx; apply (C1 x cp Hx); congruence).
        destruct has.
        + apply (script_total k s ts (par st) (p_scope st) (p_start st) (Some cp) cp (firstn cp (chd st))
            [Node ClauseArgument (skipn cp (chd st))] c).
          * try rewrite El0 in D3. exact D3.
          * now symmetry.
          * constructor; [|constructor]. split; [right; left; exact I|exact Lr].
          * exact Wf.
          * intros x y Hx [= <-]. now apply Bs.
          * intros x [Hx|[= <-]].
            -- split; [now apply Bs|]. destruct (C2 x (or_introl Hx)) as [_ Hx2]. now apply Forall_skipn_firstn.
            -- split; [lia|]. rewrite skipn_all2 by lia. constructor.
          * now intros x [= ->].
          * exact Tc.
          * exact Elc.
          * exact Hk.
          * rewrite Lx. exact G.
          * rewrite Lx. exact F.
        + subst k. eapply total_bind; [exact (eat_total _ _ _ Elc)|exact (St_eat_at _ _ _ _ _ _ _ _ D3 Elc)|]. intros d (_ & _ & D4).
          cbn [bind]. exact (finish_total _ _ _ _ _ _ _ _ D4).
      - destruct has; cbn [negb].
        + apply (script_total k s ts (par st) (p_scope st) (p_start st) None (List.length (chd st)) (chd st) [] (start_node ItemAttachComponent st)).
          * rewrite app_nil_r. pose proof (St_start ItemAttachComponent _ _ _ _ _ _ (St_self st)) as X. try rewrite El0 in X. exact X.
          * reflexivity.
          * constructor.
          * rewrite app_nil_r. exact W.
          * discriminate.
          * intros x [Hx|Hx]; [|discriminate]. apply C2. now left.
          * discriminate.
          * exact T.
          * exact El.
          * exact Hk.
          * exact G.
          * exact F.
        + exact (eat_total _ _ _ El).
    Qed.

    Lemma content_total b st : tpre (KContent b) st -> 2 * size st + 1 <= S n ->
      total (content list_pk list_nx list_set sp rec b st).
    Proof.
      intros ((T & Hc) & G & I1 & I2) F. cbn [hpre] in T. pose proof Hc as (_ & _ & W). unfold content. cbv zeta.
      assert (Fz : 2 * size st <= n) by lia.
      assert (Y : forall r (x : res lpst), total x -> total (let* s := x in Ok (r, s) : lpres)).
      { intros r x Hx. eapply total_bind; [exact Hx|apply wp_intro; intros a E; exact E|intros; exact I]. }
      destruct (p_peek list_pk st) as [k|] eqn:Hp; [|exact I].
      destruct (peek_cons _ _ Hp) as (s & ts & El).
      assert (E : forall r, total (let* s := leat st in Ok (r, s) : lpres)) by (intros r; apply Y; exact (eat_total _ _ _ El)).
      assert (Cm : kind_of_token k = ClauseCommandName -> total (command list_pk list_nx sp rec st)).
      { intros Ek. apply (command_total k s ts); auto. destruct b; [auto|]. rewrite El in I2. intros X.
        destruct I2 as [I2|I2]; [now left|contradiction]. }
      assert (Er : total (error_node list_pk list_nx st)) by (exact (plain_finish_total TokenError _ _ _ _ _ _ _ _ (St_self st) El)).
      assert (At : is_script k = true -> total (attach_component list_pk list_nx rec true st)).
      { intros Hk. now apply (attach_total true k). }
      destruct k; try apply E; try (apply Y; exact Er); try (apply Y; apply At; reflexivity).
      - destruct b0; try apply E. apply Y. exact (item_group_total CurlyItem _ _ _ _ _ _ _ _ (St_self st) T W G eq_refl Hp Fz).
      - destruct b0; try apply E. apply Y. exact Er.
      - apply Y. exact (p_text_total _ _ T G Hp Fz).
      - apply Y. now apply (attach_total false Apostrophe).
      - apply Y. destruct b; [exact (p_text_total _ _ T G Hp Fz)|exact (single_total _ Hp)].
      - apply Y. exact (item_group_total DollarFormula _ _ _ _ _ _ _ _ (St_self st) T W G eq_refl Hp Fz).
      - destruct c; try apply E; try (apply Cm; reflexivity); try (apply Y; exact Er).
        + apply Y. now apply environment_total.
        + apply Y. exact (item_group_total CmdFormula _ _ _ _ _ _ _ _ (St_self st) T W G eq_refl Hp Fz).
        + assert (Ne : p_lex st <> []) by (rewrite El; discriminate).
          destruct i; try (apply Cm; reflexivity); apply Y; now apply if_block_total.
        + apply Y. now apply item_lr_total.
    Qed.
    Lemma dispatch_total c st : tpre c st -> need c (size st) <= S n -> total (dispatch list_pk list_nx list_set gm sp rec c st).
    Proof.
      intros H F. destruct c as [b|cur|g m cur| | |k]; cbn [dispatch need] in *.
      - now apply content_total.
      - now apply list_total.
      - destruct g; [now apply match_true_total|now apply match_false_total].
      - destruct H as ([H _] & G & _). now apply trivia_total.
      - destruct H as ([H _] & G & _). now apply text_total.
      - destruct H as ([H _] & G & _). now apply ifs_total.
    Qed.
  End Fun.

  Lemma run_total fuel : forall c st, tpre c st -> need c (size st) <= fuel -> total (run list_pk list_nx list_set gm sp fuel c st).
  Proof.
    induction fuel as [|n IHn]; intros c st H F; [destruct c; simpl in F; lia|].
    cbn [run]. now apply dispatch_total.
  Qed.

  Lemma parse_total_ fuel ts : good ts -> parse_fuel ts <= fuel -> total (parse_list gm sp fuel ts).
  Proof.
    intros G F. unfold parse_list, parse. cbv zeta.
    set (s0 := start_node ScopeRoot (pst_new ts)).
    assert (S0 : St [(ScopeRoot, 0)] Root None None ([] ++ []) s0) by (repeat split; now left).
    assert (W0 : Forall wf ([] ++ [])) by constructor.
    unfold parse_fuel in F.
    eapply total_bind; [exact (item_list_total fuel (run_total fuel) Root ScopeRoot [] Root None None [] [] s0 S0 eq_refl W0 G ltac:(simpl; lia))|
      exact (item_list_shape gm sp _ (run_sspec gm sp fuel) Root _ _ _ _ _ s0 S0 eq_refl W0)|].
    intros a (body & _ & _ & A & _).
    eapply total_bind; [exact (finish_total _ _ _ _ _ _ _ _ A)|exact (St_finish ScopeRoot [] Root None None [] body a A)|].
    intros b (_ & _ & (P1 & _ & _ & _ & P5)). destruct b as [lx [ps ch] h s l sc]. simpl in *. subst. exact I.
  Qed.
End Total.

(** The parser answers with a tree on every good token sequence. *)
Lemma parse_total gm sp fuel ts : Forall word_ok ts -> Forall (token_ok sp) ts -> scripts_ok sp ts ->
  parse_fuel ts <= fuel -> exists t, parse_list gm sp fuel ts = Ok t.
Proof.
  intros H1 H2 H3 F. pose proof (parse_total_ gm sp False fuel ts (conj H1 (or_intror (conj H2 H3))) F) as H.
  unfold total in H. destruct (parse_list gm sp fuel ts) as [t| |]; try contradiction. eauto.
Qed.
(** It always stops. *)
Lemma parse_stops gm sp fuel ts : Forall word_ok ts -> parse_fuel ts <= fuel -> parse_list gm sp fuel ts <> Fuel.
Proof.
  intros H1 F E. pose proof (parse_total_ gm sp True fuel ts (conj H1 (or_introl I)) F) as H.
  unfold total in H. rewrite E in H. exact H.
Qed.
