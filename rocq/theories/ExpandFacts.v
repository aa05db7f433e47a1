(** The macro engine does what ExpandSpec.v says, and nothing else. *)
From Verif Require Export MacroSteps MacroUse MacroDefs ExpandSpec.
Local Open Scope N_scope.

(** the inner stream in front of [l] *)
Definition F (l : list tok) : ictx := at_front (feed l).
Lemma feed_cons t l : feed (t :: l) = SCons t (feed l). Proof. reflexivity. Qed.
Lemma F_cons t l : F (t :: l) = mk_ictx (Some t) (feed l). Proof. reflexivity. Qed.
Lemma F_nil : F [] = mk_ictx None SNil. Proof. reflexivity. Qed.
Lemma flat_F l : flat (F l) = feed l. Proof. apply flat_at_front. Qed.
Lemma F_inj l l' : F l = F l' -> l = l'.
Proof.
  intros H. apply (f_equal flat) in H. rewrite !flat_F in H. revert l' H.
  induction l as [|t l IH]; intros [|t' l'] H; cbn in H; try discriminate; [reflexivity|].
  injection H as -> H. f_equal. now apply IH.
Qed.
Lemma next_F p l : next_token (mk_ictx p (feed l)) = Ok (F l).
Proof. apply next_token_front, quiet_feed. Qed.
Lemma peeked_F l : ic_peeked (F l) = hd_error l. Proof. now destruct l. Qed.

(** ** trivia *)
Fixpoint skip_tr (l : list tok) : list tok :=
  match l with [] => [] | t :: r => if is_trivia (fst t) then skip_tr r else l end.
Lemma find_F l : find_non_trivia (feed l) = Ok (F (skip_tr l)).
Proof.
  induction l as [|t l IH]; [reflexivity|]. cbn [feed push_front fold_right find_non_trivia skip_tr].
  change (fold_right SCons SNil l) with (feed l). destruct (is_trivia (fst t)); [exact IH|reflexivity].
Qed.
Lemma past_iff l r : past_trivia l r <-> r = skip_tr l.
Proof.
  split.
  - intros (w & Hw & -> & Hs). induction Hw as [|t w Ht Hw IH]; cbn [app skip_tr].
    + destruct r as [|t r]; [reflexivity|]. cbn in Hs. cbn [skip_tr]. now rewrite Hs.
    + now rewrite Ht.
  - intros ->. induction l as [|t l IH]; cbn [skip_tr]; [exists []; repeat split; constructor|].
    destruct (is_trivia (fst t)) eqn:E.
    + destruct IH as (w & Hw & Hl & Hs). exists (t :: w). split; [now constructor|]. split; [|exact Hs].
      cbn [app]. now f_equal.
    + exists []. split; [constructor|]. split; [reflexivity|exact E].
Qed.
Lemma past_fun l r r' : past_trivia l r -> past_trivia l r' -> r = r'.
Proof. rewrite !past_iff. congruence. Qed.
Lemma peek_nt_F l : peek_not_trivia (F l) = Ok (F (skip_tr l)).
Proof. unfold peek_not_trivia. rewrite flat_F. apply find_F. Qed.

(** ** looking for a token at depth 0 *)
Fixpoint scan (w : tok -> Z) (stop : token -> bool) (lv : Z) (l : list tok) : list tok * list tok :=
  match l with
  | [] => ([], [])
  | t :: r =>
    if (lv =? 0)%Z && stop (fst t) then ([], l)
    else let '(a, b) := scan w stop (lv + w t) r in (t :: a, b)
  end.
Lemma scan_upto w stop (P : token -> Prop) (HP : forall k, stop k = true <-> P k) l : forall lv a rest,
  scan w stop lv l = (a, rest) <->
  (l = a ++ rest /\
   (forall a1 y b1, a = a1 ++ y :: b1 -> P (fst y) -> (lv + total w a1)%Z <> 0%Z) /\
   match rest with [] => True | y :: _ => P (fst y) /\ (lv + total w a)%Z = 0%Z end).
Proof.
  induction l as [|t l IH]; intros lv a rest; cbn [scan].
  - split.
    + intros [= <- <-]. split; [reflexivity|]. split; [|exact I]. intros [|? ?] y b1 E; discriminate.
    + intros (E & _ & _). symmetry in E. apply app_eq_nil in E as [-> ->]. reflexivity.
  - destruct ((lv =? 0)%Z && stop (fst t)) eqn:Es.
    + apply andb_true_iff in Es as [E0 Est]. apply Z.eqb_eq in E0. subst lv. apply HP in Est. split.
      * intros [= <- <-]. split; [reflexivity|]. split; [|split; [exact Est|reflexivity]].
        intros [|? ?] y b1 E; discriminate.
      * intros (E & H & _). destruct a as [|x a]; [cbn in E; now subst rest|].
        cbn [app] in E. injection E as <- ->. exfalso. now apply (H [] t a).
    + destruct (scan w stop (lv + w t) l) as [a' b'] eqn:Ea. split.
      * intros [= <- <-]. apply IH in Ea as (-> & H & Hr). split; [reflexivity|]. split.
        -- intros [|x a1] y b1 E Hy.
           ++ injection E as <- <-. cbn [total fold_right]. intros E0.
              apply HP in Hy. rewrite Hy, andb_true_r in Es. apply Z.eqb_neq in Es. lia.
           ++ injection E as <- E. specialize (H _ _ _ E Hy). cbn [total fold_right] in *. unfold total in H. lia.
        -- destruct b' as [|y b']; [exact I|]. destruct Hr as [Hr1 Hr2]. split; [exact Hr1|].
           cbn [total fold_right] in *. unfold total in Hr2. lia.
      * intros (E & H & Hr). destruct a as [|x a].
        { cbn in E. subst rest. destruct Hr as [Hr1 Hr2]. apply HP in Hr1. cbn in Hr2.
          rewrite Hr1, andb_true_r in Es. apply Z.eqb_neq in Es. lia. }
        cbn [app] in E. injection E as <- E.
        assert (scan w stop (lv + w t) l = (a, rest)) as E2; [|congruence].
        apply IH. split; [exact E|]. split.
        -- intros a1 y b1 -> Hy E0. apply (H (t :: a1) y b1 eq_refl Hy).
           cbn [total fold_right]. unfold total in E0. lia.
        -- destruct rest as [|y rest]; [exact I|]. destruct Hr as [Hr1 Hr2]. split; [exact Hr1|].
           cbn [total fold_right] in Hr2. unfold total. lia.
Qed.
Lemma upto_scan w stop P (HP : forall k, stop k = true <-> P k) l a rest :
  upto w P l a rest <-> scan w stop 0 l = (a, rest).
Proof. rewrite (scan_upto w stop P HP). unfold upto. cbn [Z.add]. reflexivity. Qed.

Lemma eqb_right bk k : token_eqb k (TRight bk) = true <-> TRight bk = k.
Proof. unfold token_eqb. destruct (token_eq_dec k (TRight bk)); split; congruence. Qed.
Lemma take_F bk l : forall lv,
  take_balanced bk lv (feed l) =
    let '(a, r) := scan curly_weight (fun k => token_eqb k (TRight bk)) lv l in Ok (a, F r).
Proof.
  induction l as [|t l IH]; intros lv; [reflexivity|].
  cbn [feed push_front fold_right take_balanced scan]. change (fold_right SCons SNil l) with (feed l).
  destruct ((lv =? 0)%Z && token_eqb (fst t) (TRight bk)); [reflexivity|].
  assert (match fst t with TLeft Curly => (lv + 1)%Z | TRight Curly => (lv - 1)%Z | _ => lv end
          = (lv + curly_weight t)%Z) as ->.
  { unfold curly_weight. destruct (fst t) as [| | |[]|[] | | | | | | | | | | | | | | | | | |]; lia. }
  rewrite IH. destruct (scan _ _ _ l) as [a b]. reflexivity.
Qed.
Lemma enclosed_iff bk l a rest :
  enclosed bk l a rest <-> read_until_balanced bk (F l) = Ok (a, F rest).
Proof.
  assert (forall k, token_eqb k (TRight bk) = true <-> TRight bk = k) as HP by apply eqb_right.
  unfold enclosed, read_until_balanced. rewrite flat_F, take_F.
  destruct (scan curly_weight (fun k => token_eqb k (TRight bk)) 0 l) as [a' r'] eqn:E.
  pose proof (proj2 (upto_scan curly_weight _ _ HP l a' r') E) as Hu.
  assert (eat_if (TRight bk) (F r') = Ok (F (tl r'))) as Hn.
  { destruct r' as [|y r']; [reflexivity|]. destruct Hu as (_ & _ & Hy & _).
    unfold eat_if, ic_peek. rewrite F_cons. cbn [ic_peeked option_map]. rewrite <- Hy, token_eqb_refl.
    apply next_F. }
  cbn [bind]. rewrite Hn. cbn [bind]. split.
  - intros (r & Hr & ->). apply (upto_scan _ _ _ HP) in Hr. rewrite E in Hr. now injection Hr as -> ->.
  - intros [= -> H]. exists r'. split; [exact Hu|]. symmetry. now apply F_inj.
Qed.
Lemma read_F bk l : exists a rest, read_until_balanced bk (F l) = Ok (a, F rest).
Proof.
  unfold read_until_balanced. rewrite flat_F, take_F.
  destruct (scan curly_weight (fun k => token_eqb k (TRight bk)) 0 l) as [a' r'] eqn:E.
  cbn [bind]. exists a', (tl r'). unfold eat_if, ic_peek. destruct r' as [|y r']; [reflexivity|].
  rewrite F_cons. cbn [ic_peeked option_map tl].
  assert (forall k, token_eqb k (TRight bk) = true <-> TRight bk = k) as HP by apply eqb_right.
  apply (scan_upto _ _ _ HP) in E as (_ & _ & Hy & _). rewrite <- Hy, token_eqb_refl, next_F. reflexivity.
Qed.
Lemma enclosed_ex bk l : exists a rest, enclosed bk l a rest.
Proof. destruct (read_F bk l) as (a & rest & H). exists a, rest. now apply enclosed_iff. Qed.
Lemma enclosed_fun bk l a r a' r' : enclosed bk l a r -> enclosed bk l a' r' -> a = a' /\ r = r'.
Proof. rewrite !enclosed_iff. intros -> [= -> H]. split; [reflexivity|]. now apply F_inj. Qed.

Definition stop_end (k : token) : bool := match k with CommandName EndEnvironment => true | _ => false end.
Lemma stop_end_iff k : stop_end k = true <-> CommandName EndEnvironment = k.
Proof. destruct k as [| | | | | | | | | | | | | | | | | | | |[]| |]; cbn; split; congruence. Qed.
Lemma env_body_F name l : forall bc,
  env_body_go name bc (feed l) =
    let '(a, r) := scan env_weight stop_end (Z.of_nat bc) l in
    match r with
    | [] => Ok (F [], [], None)
    | y :: r' => if teqb (snd y) name then Ok (F r', [], Some a)
                 else Ok (F r, [(TError, tx "unmatched environment")], None)
    end.
Proof.
  induction l as [|t l IH]; intros bc; [reflexivity|].
  cbn [feed push_front fold_right env_body_go scan]. change (fold_right SCons SNil l) with (feed l).
  assert (Hpush : forall bc', (Z.of_nat bc' = Z.of_nat bc + env_weight t)%Z ->
    (let* (c, out, b) := env_body_go name bc' (feed l) in Ok (c, out, option_map (cons t) b)) =
    let '(a, r) := let '(a, b) := scan env_weight stop_end (Z.of_nat bc + env_weight t) l in (t :: a, b) in
    match r with
    | [] => Ok (F [], [], None)
    | y :: r' => if teqb (snd y) name then Ok (F r', [], Some a)
                 else Ok (F r, [(TError, tx "unmatched environment")], None)
    end).
  { intros bc' <-. rewrite IH. destruct (scan env_weight stop_end (Z.of_nat bc') l) as [a r].
    destruct r as [|y r']; [reflexivity|]. destruct (teqb (snd y) name); reflexivity. }
  destruct (stop_end (fst t)) eqn:Es.
  - apply stop_end_iff in Es. rewrite <- Es. destruct bc as [|bc].
    + change (Z.of_nat 0 =? 0)%Z with true. cbn [andb].
      destruct (teqb (snd t) name); cbn [negb]; [|reflexivity]. rewrite next_F. reflexivity.
    + replace (Z.of_nat (S bc) =? 0)%Z with false by (symmetry; apply Z.eqb_neq; lia). cbn [andb].
      apply Hpush. unfold env_weight. rewrite <- Es. lia.
  - rewrite andb_false_r.
    destruct (fst t) as [| | | | | | | | | | | | | | | | | | | |cn| |] eqn:Ek;
      try (apply Hpush; unfold env_weight; rewrite Ek; lia).
    destruct cn; try (apply Hpush; unfold env_weight; rewrite Ek; lia). discriminate.
Qed.
Lemma read_env_body_F name l :
  read_env_body name (F l) =
    let '(a, r) := scan env_weight stop_end 0 l in
    match r with
    | [] => Ok (F [], [], None)
    | y :: r' => if teqb (snd y) name then Ok (F r', [], Some a)
                 else Ok (F r, [(TError, tx "unmatched environment")], None)
    end.
Proof.
  unfold read_env_body. destruct l as [|t l]; [reflexivity|]. rewrite F_cons. cbn [ic_peeked].
  change (flat (mk_ictx (Some t) (feed l))) with (feed (t :: l)). apply (env_body_F name (t :: l) 0).
Qed.

Definition stop_if (k : token) : bool :=
  match k with CommandName CElse | CommandName CEndIf => true | _ => false end.
Lemma stop_if_iff k : stop_if k = true <-> k = CommandName CElse \/ k = CommandName CEndIf.
Proof. destruct k as [| | | | | | | | | | | | | | | | | | | |[]| |]; cbn; intuition congruence. Qed.
Lemma skip_F l : forall n,
  skip_false n (feed l) = let '(a, r) := scan if_weight stop_if (Z.of_nat n) l in Ok (F r).
Proof.
  induction l as [|t l IH]; intros n; [reflexivity|].
  cbn [feed push_front fold_right skip_false scan]. change (fold_right SCons SNil l) with (feed l).
  assert (Hgo : forall n', (Z.of_nat n' = Z.of_nat n + if_weight t)%Z ->
    skip_false n' (feed l) =
    let '(a, r) := let '(a, b) := scan if_weight stop_if (Z.of_nat n + if_weight t) l in (t :: a, b) in Ok (F r)).
  { intros n' <-. rewrite IH. destruct (scan if_weight stop_if (Z.of_nat n') l) as [a r]. reflexivity. }
  destruct (stop_if (fst t)) eqn:Es.
  - destruct n as [|n].
    + change (Z.of_nat 0 =? 0)%Z with true. cbn [andb]. apply stop_if_iff in Es as [-> | ->]; reflexivity.
    + replace (Z.of_nat (S n) =? 0)%Z with false by (symmetry; apply Z.eqb_neq; lia). cbn [andb].
      apply stop_if_iff in Es as [Es | Es]; rewrite Es; apply Hgo; unfold if_weight; rewrite Es; lia.
  - rewrite andb_false_r.
    destruct (fst t) as [| | | | | | | | | | | | | | | | | | | |cn| |] eqn:Ek;
      try (apply Hgo; unfold if_weight; rewrite Ek; lia).
    destruct cn; try (apply Hgo; unfold if_weight; rewrite Ek; lia); discriminate.
Qed.
Lemma skipped_iff l rest : skipped l rest <-> skip_false_tokens (F l) = Ok (F rest).
Proof.
  assert (skip_false_tokens (F l) = skip_false 0 (feed l)) as ->.
  { destruct l as [|t l]; [reflexivity|]. reflexivity. }
  rewrite skip_F. unfold skipped. split.
  - intros [a Ha]. apply (upto_scan _ _ _ stop_if_iff) in Ha. cbn [Z.of_nat]. now rewrite Ha.
  - cbn [Z.of_nat]. destruct (scan if_weight stop_if 0 l) as [a r] eqn:E. intros [= H].
    exists a. apply (upto_scan _ _ _ stop_if_iff). rewrite E. f_equal. now apply F_inj.
Qed.
Lemma skipped_ex l : exists rest, skip_false_tokens (F l) = Ok (F rest).
Proof.
  assert (skip_false_tokens (F l) = skip_false 0 (feed l)) as ->.
  { destruct l as [|t l]; [reflexivity|]. reflexivity. }
  rewrite skip_F. destruct (scan if_weight stop_if (Z.of_nat 0) l) as [a r]. now exists r.
Qed.

(** ** a single token in brackets *)
Definition single_fn (bk : brace) (l : list tok) : option tok * list tok :=
  match skip_tr l with
  | [] => (None, [])
  | t :: l1 =>
    match skip_tr l1 with
    | [] => (None, [])
    | y :: r => (Some t, if token_eqb (fst y) (TRight bk) then r else y :: r)
    end
  end.
Lemma single_iff bk l p rest : single bk l p rest <-> single_fn bk l = (p, rest).
Proof.
  unfold single_fn. split.
  - intros H. destruct H as [l H|l t l1 H H1|l t l1 y rest H H1 Hy|l t l1 y rest H H1 Hy];
      apply past_iff in H; rewrite <- H; [reflexivity|..]; apply past_iff in H1; rewrite <- H1;
      [reflexivity| |].
    + now rewrite Hy, token_eqb_refl.
    + now rewrite token_eqb_neq by exact Hy.
  - destruct (skip_tr l) as [|t l1] eqn:E.
    { intros [= <- <-]. constructor. now apply past_iff. }
    symmetry in E. apply past_iff in E. destruct (skip_tr l1) as [|y r] eqn:E1.
    { intros [= <- <-]. econstructor 2; [exact E|]. now apply past_iff. }
    symmetry in E1. apply past_iff in E1. unfold token_eqb.
    destruct (token_eq_dec (fst y) (TRight bk)) as [Hy|Hy]; intros [= <- <-].
    + econstructor 3; eassumption.
    + econstructor 4; eassumption.
Qed.
Lemma close_F {A} bk (f : option tok -> option A) l :
  close_arg bk (f (ic_peeked (F (skip_tr l)))) (F (skip_tr l)) =
    let '(p, rest) := single_fn bk l in
    Ok (F rest, match p with None => None | Some t => f (Some t) end).
Proof.
  unfold close_arg, single_fn, next_not_trivia. destruct (skip_tr l) as [|t l1]; [reflexivity|].
  rewrite F_cons. cbn [ic_rest]. rewrite find_F. cbn [bind]. unfold ic_peek.
  destruct (skip_tr l1) as [|y r]; [reflexivity|]. rewrite F_cons. cbn [ic_peeked option_map].
  unfold eat_if, ic_peek. cbn [ic_peeked option_map].
  destruct (token_eqb (fst y) (TRight bk)); [rewrite next_F|]; reflexivity.
Qed.

(** ** arguments *)
Lemma split_word_long cs : forall n v, List.length cs = n ->
  split_word n (cs ++ v) = (map (fun c => [(Word, [c])]) cs, v).
Proof.
  induction cs as [|c cs IH]; intros n v <-; cbn [List.length app map split_word]; [now destruct v|].
  now rewrite (IH _ v eq_refl).
Qed.
Lemma split_word_short cs : forall n, (List.length cs < n)%nat ->
  split_word n cs = (map (fun c => [(Word, [c])]) cs, []).
Proof.
  induction cs as [|c cs IH]; intros n H; cbn [List.length map split_word] in *; [now destruct n|].
  destruct n as [|n]; [lia|]. cbn [split_word]. rewrite IH by lia. reflexivity.
Qed.
Lemma args_complete n l args m rest : arguments n l args m rest -> (0 < n)%nat ->
  forall f, (n <= f)%nat -> read_args_loop f n (F l) = Ok (F rest, args, m).
Proof.
  assert (Hgo : forall f n l args m rest (chars : list (list tok)), (n <= f)%nat -> arguments n l args m rest ->
    ((0 < n)%nat -> forall f, (n <= f)%nat -> read_args_loop f n (F l) = Ok (F rest, args, m)) ->
    match S n - 1 with
    | O => Ok (F l, chars, O)
    | S _ as lft' =>
      let* (c, args', lft') := read_args_loop f lft' (F l) in Ok (c, chars ++ args', lft')
    end%nat = Ok (F rest, chars ++ args, m)).
  { intros f n0 l0 args0 m0 rest0 chars Hf Ha IH. cbn [Nat.sub]. rewrite Nat.sub_0_r.
    destruct n0 as [|n0]; [inversion Ha; subst; [now rewrite app_nil_r|lia]|].
    rewrite IH by lia. reflexivity. }
  induction 1 as [l|n l H|n l x l1 a r args m rest H Hx He Ha IH|n l cs v l1 H Hcs|n l cs l1 args m rest H Ha IH
                 |n l t l1 args m rest H Ht Hw Ha IH]; intros Hn f Hf; [lia|..];
    (destruct f as [|f]; [lia|]); cbn [read_args_loop]; rewrite peek_nt_F; cbn [bind];
    apply past_iff in H; rewrite <- H; rewrite peeked_F; cbn [hd_error].
  - reflexivity.
  - destruct x as [k s]. cbn in Hx. subst k. rewrite F_cons, next_F. cbn [bind].
    apply enclosed_iff in He. rewrite He. cbn [bind].
    apply (Hgo f n r args m rest [a]); [lia|assumption|assumption].
  - rewrite (split_word_long cs (S n) v Hcs). rewrite map_length, Hcs, Nat.sub_diag.
    destruct v as [|c v]; cbn [word_or_nothing app].
    + rewrite F_cons, next_F. cbn [bind]. reflexivity.
    + cbn [bind]. reflexivity.
  - rewrite (split_word_short cs (List.length cs + S n)) by lia. rewrite map_length.
    replace (List.length cs + S n - List.length cs)%nat with (S n) by lia.
    rewrite F_cons, next_F. cbn [bind]. apply (Hgo f n l1 args m rest); [lia|assumption|assumption].
  - destruct t as [k s]. cbn in Ht, Hw.
    assert (match S n - 1 with
    | O => Ok (F l1, [[(k, s)]], O)
    | S _ as lft' =>
      let* (c, args', lft') := read_args_loop f lft' (F l1) in Ok (c, [[(k, s)]] ++ args', lft')
    end%nat = Ok (F rest, [(k, s)] :: args, m)) as E.
    { apply (Hgo f n l1 args m rest [[(k, s)]]); [lia|assumption|assumption]. }
    rewrite F_cons, next_F. cbn [bind].
    destruct k as [| | |[]|[] | | | | | | | | | | | | | | | | | |]; try exact E; congruence.
Qed.
Lemma args_total : forall n l, exists args m rest, arguments n l args m rest.
Proof.
  intros n. induction n as [n IH] using (well_founded_induction Wf_nat.lt_wf). intros l.
  destruct n as [|n]; [exists [], 0%nat, l; constructor|].
  destruct (skip_tr l) as [|t l1] eqn:E; symmetry in E; apply past_iff in E.
  { exists [], (S n), []. now constructor. }
  destruct (token_eq_dec (fst t) (TLeft Curly)) as [Hl|Hl].
  { destruct (enclosed_ex Curly l1) as (a & r & He). destruct (IH n ltac:(lia) r) as (args & m & rest & Ha).
    exists (a :: args), m, rest. econstructor; eassumption. }
  destruct (token_eq_dec (fst t) Word) as [Hw|Hw].
  { destruct t as [k s]. cbn in Hw. subst k.
    destruct (Nat.le_gt_cases (S n) (List.length s)) as [Hs|Hs].
    - exists (map (fun c => [(Word, [c])]) (firstn (S n) s)), 0%nat, (word_or_nothing (skipn (S n) s) ++ l1).
      apply ar_long_word; [rewrite firstn_skipn; exact E|]. rewrite firstn_length. lia.
    - destruct (IH (S n - List.length s - 1)%nat ltac:(lia) l1) as (args & m & rest & Ha).
      exists (map (fun c => [(Word, [c])]) s ++ args), m, rest.
      replace (S n) with (List.length s + S (S n - List.length s - 1))%nat by lia.
      now apply ar_short_word with (l1 := l1). }
  destruct (IH n ltac:(lia) l1) as (args & m & rest & Ha). exists ([t] :: args), m, rest. now econstructor 6; try eassumption.
Qed.
Lemma args_zero l args m rest : arguments 0 l args m rest -> args = [] /\ m = 0%nat /\ rest = l.
Proof. intros H. inversion H; subst; [auto|lia]. Qed.
Lemma args_fun n l a m r a' m' r' : arguments n l a m r -> arguments n l a' m' r' -> a = a' /\ m = m' /\ r = r'.
Proof.
  intros H1 H2. destruct n as [|n].
  - apply args_zero in H1 as (-> & -> & ->), H2 as (-> & -> & ->). auto.
  - pose proof (args_complete _ _ _ _ _ H1 ltac:(lia) (S n) (le_n _)) as E1.
    pose proof (args_complete _ _ _ _ _ H2 ltac:(lia) (S n) (le_n _)) as E2.
    rewrite E1 in E2. injection E2 as E ? ?. apply F_inj in E. auto.
Qed.
(** the arguments of a call, with the default; [None]: an error *)
Definition too_few : tok := (TError, tx "invalid number of arguments").
Lemma macro_args n num o l found m rest : n = N.to_nat num -> arguments n l found m rest ->
  forall res, supplied o found m res ->
  read_macro_args (F l) num o =
    Ok (F rest, match res with None => [too_few] | Some _ => [] end, res).
Proof.
  intros -> Ha res Hs. unfold read_macro_args. destruct (N.eqb_spec num 0) as [->|Hn].
  - apply args_zero in Ha as (-> & -> & ->). inversion Hs; subst. reflexivity.
  - rewrite (args_complete _ _ _ _ _ Ha) by lia. cbn [bind].
    destruct Hs as [args|args oo ->|args ->|args m0]; reflexivity.
Qed.
Lemma supplied_total o args m : exists res, supplied o args m res.
Proof.
  destruct m as [|[|m]]; [eexists; constructor| |eexists; constructor].
  destruct o as [d|]; eexists; [now apply su_default|now apply su_no_default].
Qed.
Lemma supplied_fun o args m r r' : supplied o args m r -> supplied o args m r' -> r = r'.
Proof. intros H1 H2. destruct H1; inversion H2; subst; congruence. Qed.
