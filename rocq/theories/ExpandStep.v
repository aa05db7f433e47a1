(** One step of the macro engine is one rewriting step of ExpandSpec.v. *)
From Verif Require Export ExpandFacts.
Local Open Scope N_scope.

(** ** numbers *)
Lemma digits_low s : forall acc k, parse_digits s acc = Some k -> acc <= k.
Proof.
  induction s as [|c s IH]; intros acc k; cbn [parse_digits]; [intros [= ->]; lia|].
  destruct (is_ascii_digit c); [|discriminate]. destruct (255 <? _); [discriminate|].
  intros H. apply IH in H. lia.
Qed.
Lemma digits_small s : forall acc k, parse_digits s acc = Some k -> k <= 9 -> s <> [] ->
  exists zeros c, s = zeros ++ [c] /\ Forall (eq 48) zeros /\ 48 <= c <= 57 /\ acc = 0 /\ k = c - 48.
Proof.
  induction s as [|c s IH]; intros acc k; [congruence|]. cbn [parse_digits].
  destruct (is_ascii_digit c) eqn:Ed; [|discriminate]. destruct (255 <? _); [discriminate|].
  intros H Hk _. unfold is_ascii_digit in Ed. apply andb_true_iff in Ed as [E1 E2].
  apply N.leb_le in E1, E2. pose proof (digits_low _ _ _ H) as Hl.
  assert (acc = 0) as -> by lia. destruct s as [|c' s].
  - cbn in H. injection H as <-. exists [], c. repeat split; try lia. constructor.
  - apply IH in H as (zeros & c2 & E & Hz & Hc & H0 & ->); [|assumption|discriminate].
    exists (c :: zeros), c2. rewrite E. repeat split; try lia. constructor; [lia|exact Hz].
Qed.
Lemma digits_back zeros c : Forall (eq 48) zeros -> 48 <= c <= 57 ->
  parse_digits (zeros ++ [c]) 0 = Some (c - 48).
Proof.
  intros Hz Hc. induction Hz as [|z zeros <- Hz IH]; cbn [app parse_digits].
  - replace (is_ascii_digit c) with true.
    2:{ symmetry. unfold is_ascii_digit. apply andb_true_iff. split; apply N.leb_le; lia. }
    replace (255 <? 0 * 10 + (c - 48)) with false by (symmetry; apply N.ltb_ge; lia).
    f_equal; lia.
  - exact IH.
Qed.
Lemma small_iff s n :
  small_number s n <-> exists k, parse_u8 s = Some k /\ k <= 9 /\ n = N.to_nat k.
Proof.
  split.
  - intros (sign & zeros & c & Hs & Hz & Hc & -> & ->). exists (c - 48). split; [|split; [lia|reflexivity]].
    pose proof (digits_back zeros c Hz Hc) as E. destruct Hs as [-> | ->]; cbn [app].
    + unfold parse_u8. destruct (zeros ++ [c]) as [|x r] eqn:Ex; [now destruct zeros|].
      destruct (N.eqb_spec x 43) as [->|_]; [|exact E].
      destruct Hz as [|z zeros <- Hz]; cbn in Ex; injection Ex as Ex _; lia.
    + change (tx "+") with [43]. cbn [app parse_u8]. change (43 =? 43) with true. cbv iota.
      destruct (zeros ++ [c]) as [|x r] eqn:Ex; [now destruct zeros|]. exact E.
  - intros (k & E & Hk & ->). unfold parse_u8 in E. destruct s as [|x r]; [discriminate|].
    destruct (N.eqb_spec x 43) as [->|_].
    + destruct r as [|y r]; [discriminate|].
      apply digits_small in E as (zeros & c & -> & Hz & Hc & _ & ->); [|assumption|discriminate].
      exists (tx "+"), zeros, c. repeat split; auto; lia.
    + apply digits_small in E as (zeros & c & E & Hz & Hc & _ & ->); [|assumption|discriminate].
      exists [], zeros, c. repeat split; auto; lia.
Qed.

(** ** names *)
Lemma next_nt_F p l : next_not_trivia (mk_ictx p (feed l)) = Ok (F (skip_tr l)).
Proof. unfold next_not_trivia. cbn [ic_rest]. apply find_F. Qed.
Lemma next_nt_cons x l : next_not_trivia (F (x :: l)) = Ok (F (skip_tr l)).
Proof. apply next_nt_F. Qed.
Lemma single_ex bk l : exists p rest, single bk l p rest.
Proof. destruct (single_fn bk l) as [p rest] eqn:E. exists p, rest. now apply single_iff. Qed.
Lemma word_F bk l p rest : single bk l p rest ->
  peek_word_opt bk (F (skip_tr l)) =
    Ok (F rest, match p with Some (Word, s) => Some (Word, s) | _ => None end).
Proof.
  intros H. apply single_iff in H. unfold peek_word_opt.
  refine (eq_trans (close_F bk (fun t => match t with Some (Word, s) => Some (Word, s) | _ => None end) l) _).
  rewrite H. now destruct p as [[[] ?]|].
Qed.
Lemma cmdname_F bk l p rest : single bk l p rest ->
  peek_cmd_name_opt bk (F (skip_tr l)) =
    Ok (F rest, match p with Some (CommandName k, s) => Some (CommandName k, s) | _ => None end).
Proof.
  intros H. apply single_iff in H. unfold peek_cmd_name_opt.
  refine (eq_trans (close_F bk (fun t => match t with Some (CommandName k, s) => Some (CommandName k, s) | _ => None end) l) _).
  rewrite H. now destruct p as [[[] ?]|].
Qed.
Lemma u8_F bk l p rest : single bk l p rest ->
  peek_u8_opt bk (F (skip_tr l)) =
    Ok (F rest, match p with Some (Word, s) => parse_u8 s | _ => None end).
Proof.
  intros H. apply single_iff in H. unfold peek_u8_opt.
  refine (eq_trans (close_F bk (fun t => match t with Some (Word, s) => parse_u8 s | _ => None end) l) _).
  rewrite H. now destruct p as [[[] ?]|].
Qed.
Definition name_of (env : bool) (p : option tok) : res (option text) :=
  if env then Ok (match p with Some (Word, s) => Some s | _ => None end)
  else match p with
       | Some (CommandName _, s) =>
         match strip_prefix (tx "\") s with
         | Some name => Ok (Some name)
         | None => Panic "macro_engine.rs:676 unwrap"
         end
       | _ => Ok None
       end.
Lemma strip_back s name : strip_prefix (tx "\") s = Some name <-> s = 92 :: name.
Proof.
  split; [intros H; now apply strip_prefix_app in H|intros ->; apply strip_backslash].
Qed.
Lemma name_iff env p name : name_in env p name <-> name_of env p = Ok name.
Proof.
  split.
  - intros H. destruct H as [s ->|k name ->|p H1 H2].
    + reflexivity.
    + unfold name_of. now rewrite strip_backslash.
    + destruct env; unfold name_of.
      * destruct p as [[k s]|]; [|reflexivity].
        destruct k; try reflexivity. exfalso. now apply (H1 eq_refl s).
      * destruct p as [[k s]|]; [|reflexivity].
        destruct k; try reflexivity. exfalso. now apply (H2 eq_refl c s).
  - destruct env; unfold name_of.
    + destruct p as [[k s]|]; [destruct k|]; intros [= <-]; try (constructor; congruence).
    + destruct p as [[k s]|]; [destruct k|]; try (intros [= <-]; constructor; congruence).
      destruct (strip_prefix (tx "\") s) as [nm|] eqn:E; [|discriminate]. intros [= <-].
      apply strip_back in E. subst s. now constructor.
Qed.
Lemma named_F d t l :
  read_macro_name d (mk_ictx (Some t) (feed l)) =
    match skip_tr l with
    | (TLeft Curly, _) :: l1 =>
      let '(p, rest) := single_fn Curly l1 in
      let* name := name_of (is_new_env d) p in Ok (F rest, name)
    | rest => Ok (F rest, None)
    end.
Proof.
  unfold read_macro_name. rewrite next_nt_F. cbn [bind]. unfold ic_peek. rewrite peeked_F.
  destruct (skip_tr l) as [|[k x] l1] eqn:E; [reflexivity|]. cbn [hd_error option_map fst].
  destruct k as [| | |[]|[] | | | | | | | | | | | | | | | | | |]; try reflexivity.
  rewrite next_nt_cons. cbn [bind].
  destruct (single_fn Curly l1) as [p rest] eqn:Es. pose proof (proj2 (single_iff _ _ _ _) Es) as Hs.
  destruct (is_new_env d).
  - rewrite (word_F _ _ _ _ Hs). cbn [bind name_of]. now destruct p as [[[] ?]|].
  - rewrite (cmdname_F _ _ _ _ Hs). cbn [bind name_of].
    destruct p as [[[] s]|]; try reflexivity. now destruct (strip_prefix (tx "\") s).
Qed.
Lemma named_complete d t l name rest : named (is_new_env d) l name rest ->
  read_macro_name d (mk_ictx (Some t) (feed l)) = Ok (F rest, name).
Proof.
  intros H. rewrite named_F. destruct H as [l rest H Hx|l x l1 p name rest H Hx Hs Hn].
  - apply past_iff in H. rewrite <- H. destruct rest as [|[k x] r]; [reflexivity|].
    specialize (Hx _ _ eq_refl). cbn in Hx.
    destruct k as [| | |[]|[] | | | | | | | | | | | | | | | | | |]; congruence.
  - apply past_iff in H. rewrite <- H. destruct x as [k x]. cbn in Hx. subst k.
    apply single_iff in Hs. rewrite Hs. apply name_iff in Hn. now rewrite Hn.
Qed.
Lemma named_sound d t l c name : read_macro_name d (mk_ictx (Some t) (feed l)) = Ok (c, name) ->
  exists rest, c = F rest /\ named (is_new_env d) l name rest.
Proof.
  rewrite named_F. destruct (skip_tr l) as [|x l1] eqn:E; symmetry in E; apply past_iff in E.
  { intros [= <- <-]. exists []. split; [reflexivity|]. constructor; [exact E|discriminate]. }
  destruct (token_eq_dec (fst x) (TLeft Curly)) as [Hx|Hx].
  - destruct x as [k x]. cbn in Hx. subst k.
    destruct (single_fn Curly l1) as [p rest] eqn:Es. apply single_iff in Es.
    destruct (name_of (is_new_env d) p) as [nm| |] eqn:En; try discriminate. intros [= <- <-].
    apply name_iff in En. exists rest. split; [reflexivity|].
    econstructor; eauto.
  - assert (forall c name, match x :: l1 with
      | (TLeft Curly, _) :: l1 =>
        let '(p, rest) := single_fn Curly l1 in
        let* name := name_of (is_new_env d) p in Ok (F rest, name)
      | rest => Ok (F rest, None)
      end = Ok (c, name) -> c = F (x :: l1) /\ name = None) as H.
    { intros c0 n0. destruct x as [k x]. cbn in Hx.
      destruct k as [| | |[]|[] | | | | | | | | | | | | | | | | | |];
        try (intros [= <- <-]; split; reflexivity). congruence. }
    intros H0. apply H in H0 as [-> ->]. exists (x :: l1). split; [reflexivity|].
    constructor; [exact E|]. now intros ? ? [= -> ->].
Qed.

(** ** parameters and bodies *)
Lemma body_complete l b r : body_in l b r -> match_body (F l) = Ok (F r, Some b).
Proof.
  intros [x l0 a rest Hx He|t l0 Ht]; unfold match_body; rewrite peeked_F; cbn [hd_error].
  - destruct x as [k x]. cbn in Hx. subst k. rewrite F_cons, next_F. cbn [bind].
    apply enclosed_iff in He. now rewrite He.
  - destruct t as [k x]. cbn in Ht. rewrite F_cons, next_F. cbn [bind].
    destruct k as [| | |[]|[] | | | | | | | | | | | | | | | | | |]; try reflexivity; exfalso; congruence.
Qed.
Lemma body_ex t l : exists b r, body_in (t :: l) b r.
Proof.
  destruct (token_eq_dec (fst t) (TLeft Curly)) as [H|H].
  - destruct (enclosed_ex Curly l) as (a & r & He). exists a, r. now constructor.
  - exists [t], l. now constructor.
Qed.
Lemma not_bracket (x : tok) : fst x <> TLeft Bracket -> forall A (a b : A),
  match Some x with Some (TLeft Bracket, _) => a | _ => b end = b.
Proof.
  destruct x as [k x]. cbn. intros H A a b.
  destruct k as [| | |[]|[] | | | | | | | | | | | | | | | | | |]; congruence.
Qed.
Lemma opt_none l : (forall x r, l = x :: r -> fst x <> TLeft Bracket) ->
  match_opt (F l) = let* (c, def) := match_body (F l) in Ok (c, option_map (fun d => (None, d)) def).
Proof.
  intros H. unfold match_opt at 1. rewrite peeked_F. destruct l as [|x r]; [reflexivity|].
  cbn [hd_error]. apply not_bracket. now apply (H x r).
Qed.
Lemma nargs_complete l p rest : signature l p rest ->
  match_nargs (F l) =
    match p with
    | None => Ok (F rest, None)
    | Some (n, o) =>
      let* (c, def) := match_body (F rest) in Ok (c, option_map (fun d => (N.of_nat n, o, d)) def)
    end.
Proof.
  intros H. destruct H as [l H|x l p rest Hx Hs H|x l s n rest Hx Hs Hn H|x l s n y r o rest Hx Hs Hn Hy He].
  - unfold match_nargs at 1. rewrite peeked_F. destruct l as [|x r]; [reflexivity|].
    cbn [hd_error]. refine (eq_trans (not_bracket x _ _ _ _) _); [now apply (H x r)|reflexivity].
  - unfold match_nargs. rewrite peeked_F. cbn [hd_error]. destruct x as [k x]. cbn in Hx. subst k.
    rewrite next_nt_cons. cbn [bind]. rewrite (u8_F _ _ _ _ Hs). cbn [bind].
    destruct p as [[k s]|]; [|reflexivity]. destruct k; try reflexivity.
    destruct (parse_u8 s) as [k|] eqn:E; [|reflexivity].
    destruct (N.leb_spec k 9) as [Hk|Hk]; [|reflexivity].
    exfalso. apply (H s (N.to_nat k) eq_refl). apply small_iff. now exists k.
  - unfold match_nargs. rewrite peeked_F. cbn [hd_error]. destruct x as [k x]. cbn in Hx. subst k.
    rewrite next_nt_cons. cbn [bind]. rewrite (u8_F _ _ _ _ Hs). cbn [bind].
    apply small_iff in Hn as (k & -> & Hk & ->). apply N.leb_le in Hk. rewrite Hk.
    rewrite opt_none by exact H. rewrite N2Nat.id.
    destruct (match_body (F rest)) as [[c def]| |]; try reflexivity. now destruct def.
  - unfold match_nargs. rewrite peeked_F. cbn [hd_error]. destruct x as [k x]. cbn in Hx. subst k.
    rewrite next_nt_cons. cbn [bind]. rewrite (u8_F _ _ _ _ Hs). cbn [bind].
    apply small_iff in Hn as (k & -> & Hk & ->). apply N.leb_le in Hk. rewrite Hk. rewrite N2Nat.id.
    unfold match_opt. rewrite peeked_F. cbn [hd_error]. destruct y as [k' y]. cbn in Hy. subst k'.
    rewrite F_cons, next_F. cbn [bind]. apply enclosed_iff in He. rewrite He. cbn [bind].
    destruct (match_body (F rest)) as [[c def]| |]; try reflexivity. now destruct def.
Qed.
Lemma signature_ex l : exists p rest, signature l p rest.
Proof.
  destruct l as [|x l].
  { exists (Some (0%nat, None)), []. constructor. discriminate. }
  destruct (token_eq_dec (fst x) (TLeft Bracket)) as [Hx|Hx].
  2:{ exists (Some (0%nat, None)), (x :: l). constructor. now intros ? ? [= <- <-]. }
  destruct (single_ex Bracket l) as (p & rest & Hs).
  assert ((exists s n, p = Some (Word, s) /\ small_number s n) \/
          (forall s n, p = Some (Word, s) -> ~ small_number s n)) as [(s & n & -> & Hn)|H].
  { destruct p as [[k s]|]; [|right; congruence].
    destruct (token_eq_dec k Word) as [->|Hk]; [|right; intros ? ? [= ? _]; congruence].
    destruct (parse_u8 s) as [k|] eqn:E.
    - destruct (N.le_gt_cases k 9) as [Hk|Hk].
      + left. exists s, (N.to_nat k). split; [reflexivity|]. apply small_iff. eauto.
      + right. intros s' n [= <-] Hn. apply small_iff in Hn as (k' & E' & Hk' & _).
        rewrite E in E'. injection E' as <-. lia.
    - right. intros s' n [= <-] Hn. apply small_iff in Hn as (k' & E' & _). congruence. }
  - destruct rest as [|y r].
    { exists (Some (n, None)), []. econstructor; eauto. discriminate. }
    destruct (token_eq_dec (fst y) (TLeft Bracket)) as [Hy|Hy].
    + destruct (enclosed_ex Bracket r) as (o & rest & He). exists (Some (n, Some o)), rest.
      econstructor; eauto.
    + exists (Some (n, None)), (y :: r). econstructor; eauto. now intros ? ? [= <- <-].
  - exists None, rest. econstructor; eauto.
Qed.

(** ** stored bodies *)
Lemma parameter_digit_iff c : is_ascii_digit c && negb (c =? 48) = true <-> parameter_digit c.
Proof.
  unfold parameter_digit, is_ascii_digit.
  rewrite !andb_true_iff, negb_true_iff, N.eqb_neq, !N.leb_le. lia.
Qed.
Lemma digit_word_dec t : {digit_word t} + {~ digit_word t}.
Proof.
  destruct t as [k s]. destruct (token_eq_dec k Word) as [->|H].
  2:{ right. intros (c & w & [= E _] & _). congruence. }
  destruct s as [|c w]; [right; intros (? & ? & [=] & _)|].
  destruct (is_ascii_digit c && negb (c =? 48)) eqn:E.
  - left. exists c, w. split; [reflexivity|]. now apply parameter_digit_iff.
  - right. intros (c' & w' & [= <- <-] & Hc). apply parameter_digit_iff in Hc. congruence.
Qed.
Lemma hashes_param (h : text) c w r : parameter_digit c ->
  process_hashes ((Hash, h) :: (Word, c :: w) :: r) =
    let* (r', b) := process_hashes r in
    Ok ((MacroArg (c - 48), h) :: (Word, w) :: r', b || match w with [] => true | _ => false end).
Proof. intros H. apply parameter_digit_iff in H. cbn [process_hashes]. now rewrite H. Qed.
Lemma hashes_hash (h : text) (t : tok) r : ~ digit_word t ->
  process_hashes ((Hash, h) :: t :: r) =
    let* (r', b) := process_hashes (t :: r) in Ok ((Hash, h) :: r', b).
Proof.
  intros Hd. destruct t as [k s]. destruct k; try reflexivity. destruct s as [|c w]; [reflexivity|].
  cbn [process_hashes]. destruct (is_ascii_digit c && negb (c =? 48)) eqn:Ec; [|reflexivity].
  exfalso. apply Hd. exists c, w. split; [reflexivity|]. now apply parameter_digit_iff.
Qed.
Lemma hashes_tok (t : tok) r : fst t <> Hash ->
  process_hashes (t :: r) = let* (r', b) := process_hashes r in Ok (t :: r', b).
Proof. intros H. destruct t as [k s]. cbn in H. destruct k; try reflexivity. congruence. Qed.
Lemma marks_complete l d b : marks_of l d b -> process_hashes l = Ok (d, b).
Proof.
  induction 1 as [|h c w r r' b Hc H IH|h t r r' b Ht H IH|t r r' b Ht H IH].
  - reflexivity.
  - rewrite hashes_param by assumption. rewrite IH. cbn [bind]. do 2 f_equal.
    destruct w; [apply orb_true_r|apply orb_false_r].
  - rewrite hashes_hash by assumption. now rewrite IH.
  - rewrite hashes_tok by assumption. now rewrite IH.
Qed.
(** either there is a derivation, or the engine panics *)
Lemma marks_total l : (exists d b, marks_of l d b) \/ (exists s, process_hashes l = Panic s).
Proof.
  remember (List.length l) as n eqn:E. assert (List.length l <= n)%nat as Hn by lia. clear E. revert l Hn.
  induction n as [|n IH]; intros l Hn.
  { destruct l; [left; eexists; eexists; constructor|cbn in Hn; lia]. }
  destruct l as [|t r]; [left; eexists; eexists; constructor|]. cbn in Hn.
  destruct (token_eq_dec (fst t) Hash) as [Ht|Ht].
  - destruct t as [k h]. cbn in Ht. subst k. destruct r as [|t r]; [right; eexists; reflexivity|].
    destruct (digit_word_dec t) as [(c & w & -> & Hc)|Hd].
    + destruct (IH r ltac:(cbn in Hn; lia)) as [(d & b & H)|[s H]].
      * left. eexists. eexists. eapply mk_param; eassumption.
      * right. exists s. rewrite hashes_param by assumption. now rewrite H.
    + destruct (IH (t :: r) ltac:(cbn in *; lia)) as [(d & b & H)|[s H]].
      * left. eexists. eexists. apply mk_hash; eassumption.
      * right. exists s. rewrite hashes_hash by assumption. now rewrite H.
  - destruct (IH r ltac:(lia)) as [(d & b & H)|[s H]].
    + left. eexists. eexists. apply mk_tok; eassumption.
    + right. exists s. rewrite hashes_tok by assumption. now rewrite H.
Qed.
Lemma stored_complete b d : stored_as b d -> process_macro_def b = Ok d.
Proof. intros (d0 & e & H & ->). unfold process_macro_def. rewrite (marks_complete _ _ _ H). reflexivity. Qed.
Lemma stored_total b : (exists d, stored_as b d) \/ (exists s, process_macro_def b = Panic s).
Proof.
  destruct (marks_total b) as [(d & e & H)|[s H]].
  - left. eexists. exists d, e. split; [exact H|reflexivity].
  - right. exists s. unfold process_macro_def. now rewrite H.
Qed.

(** ** instances *)
Scheme instance_mut := Induction for instance Sort Prop
with verbatim_mut := Induction for verbatim Sort Prop.
Lemma curly_cases (t : tok) : ~ is_curly t -> forall A (a b c : A),
  match fst t with TLeft Curly => a | TRight Curly => b | _ => c end = c.
Proof.
  intros H A a b c. destruct t as [k s]. cbn. unfold is_curly in H. cbn in H.
  destruct k as [| | |[]|[] | | | | | | | | | | | | | | | | | |]; try reflexivity; exfalso; apply H; auto.
Qed.
Lemma instance_complete args l out : instance args l out -> expand_go args false 0 l = Ok out.
Proof.
  apply (instance_mut args (fun l out _ => expand_go args false 0 l = Ok out)
           (fun d l out _ => expand_go args true d l = Ok out)).
  - reflexivity.
  - intros i h r r' Hi _ IH. cbn [expand_go fst]. destruct (N.eqb_spec i 0) as [->|_]; [lia|].
    rewrite IH. cbn [bind]. f_equal. f_equal.
    destruct (nth_error args (N.to_nat (i - 1))) as [a|] eqn:E.
    + symmetry. now apply nth_error_nth.
    + symmetry. apply nth_overflow. now apply nth_error_None.
  - intros name r r' Hn _ IH. cbn [expand_go]. unfold cmd. cbn [fst snd].
    rewrite strip_backslash. apply teqb_neq in Hn. rewrite Hn, IH. reflexivity.
  - intros r r' _ IH. cbn [expand_go]. unfold cmd. cbn [fst snd]. rewrite strip_backslash, teqb_refl. exact IH.
  - intros t r r' H1 H2 _ IH. cbn [expand_go]. rewrite IH.
    destruct (fst t) as [| | | | | | | | | | | | | | | | | | | |[]| |i] eqn:E; try reflexivity; [congruence|].
    exfalso. now apply (H1 i).
  - reflexivity.
  - intros d t r r' Ht Hd _ IH. cbn [expand_go]. rewrite Ht, IH.
    replace (0 <? d)%Z with false by (symmetry; apply Z.ltb_ge; lia). reflexivity.
  - intros d t r r' Ht Hd _ IH. cbn [expand_go]. rewrite Ht, IH.
    replace (0 <? d)%Z with true by (symmetry; apply Z.ltb_lt; lia). reflexivity.
  - intros t r r' Ht _ IH. cbn [expand_go]. rewrite Ht. exact IH.
  - intros d t r r' Ht Hd _ IH. cbn [expand_go]. rewrite Ht, IH.
    replace (d - 1 =? 0)%Z with false by (symmetry; apply Z.eqb_neq; lia). reflexivity.
  - intros t r r' Ht _ IH. cbn [expand_go]. rewrite IH.
    destruct t as [k s]. cbn in Ht |- *. destruct k as [| | |[]|[] | | | | | | | | | | | | | | | | | |]; try discriminate; reflexivity.
  - intros t r r' Hc Ht _ IH. cbn [expand_go]. rewrite IH. destruct t as [k s]. unfold is_curly in Hc. cbn in Ht, Hc |- *.
    destruct k as [| | |[]|[] | | | | | | | | | | | | | | | | | |]; try discriminate Ht; try reflexivity; exfalso; tauto.
  - intros d t r r' Hc Hd _ IH. cbn [expand_go]. rewrite IH.
    replace (d =? 0)%Z with false by (symmetry; apply Z.eqb_neq; lia). cbn [negb].
    destruct t as [k s]. unfold is_curly in Hc. cbn in Hc |- *.
    destruct k as [| | |[]|[] | | | | | | | | | | | | | | | | | |]; try reflexivity; exfalso; tauto.
Qed.
Lemma bind_panic {A B} (f : A -> res B) s : bind (Panic s) f = Panic s. Proof. reflexivity. Qed.
Lemma instance_total args l :
  ((exists out, instance args l out) \/ (exists s, expand_go args false 0 l = Panic s)) /\
  (forall d, (exists out, verbatim args d l out) \/ (exists s, expand_go args true d l = Panic s)).
Proof.
  induction l as [|t r [IH1 IH2]]; [split; [|intros d]; left; eexists; constructor|]. split.
  - destruct t as [k x]. destruct (token_eq_dec k (CommandName Generic)) as [->|Hg].
    { cbn [expand_go fst snd]. destruct (strip_prefix (tx "\") x) as [name|] eqn:E; [|right; eexists; reflexivity].
      apply strip_back in E. subst x. change (CommandName Generic, 92 :: name) with (cmd name).
      destruct (teqbP name (tx "mitexrecurse")) as [->|Hn].
      - destruct (IH2 0%Z) as [[out H]|[s H]]; [left|right; exists s; exact H].
        exists out. now constructor.
      - destruct IH1 as [[out H]|[s H]]; [left|right; exists s; rewrite H; reflexivity].
        eexists. eapply in_command; eassumption. }
    destruct k as [| | | | | | | | | | | | | | | | | | | |cn| |i];
      try (destruct IH1 as [[out H]|[s H]];
        [left; eexists; apply in_tok; [intros ?; discriminate|discriminate|exact H]
        |right; exists s; cbn [expand_go fst]; rewrite H; reflexivity]).
    + destruct IH1 as [[out H]|[s H]].
      * left. eexists. apply in_tok; [intros ?; discriminate|cbn; congruence|exact H].
      * right. exists s. cbn [expand_go fst]. rewrite H. destruct cn; try reflexivity. congruence.
    + destruct (N.eqb_spec i 0) as [->|Hi]; [right; eexists; reflexivity|].
      destruct IH1 as [[out H]|[s H]].
      * left. eexists. apply in_param; [lia|exact H].
      * right. exists s. cbn [expand_go fst]. rewrite H. destruct (N.eqb_spec i 0); [congruence|reflexivity].
  - intros d. destruct (token_eq_dec (fst t) (TLeft Curly)) as [Hl|Hl].
    { cbn [expand_go]. rewrite Hl. destruct (Z.ltb_spec 0 d) as [Hd|Hd];
        (destruct (IH2 (d + 1)%Z) as [[out H]|[s H]]; [left; eexists|right; exists s; rewrite H; reflexivity]).
      - eapply vb_open; eassumption.
      - eapply vb_open_dropped; eassumption. }
    destruct (token_eq_dec (fst t) (TRight Curly)) as [Hr|Hr].
    { cbn [expand_go]. rewrite Hr. destruct (Z.eqb_spec (d - 1) 0) as [Hd|Hd].
      - assert (d = 1%Z) as -> by lia. destruct IH1 as [[out H]|[s H]]; [left; eexists|right; exists s; exact H].
        eapply vb_close_dropped; eassumption.
      - destruct (IH2 (d - 1)%Z) as [[out H]|[s H]]; [left; eexists|right; exists s; rewrite H; reflexivity].
        apply vb_close; [exact Hr|lia|exact H]. }
    assert (~ is_curly t) as Hc by (unfold is_curly; tauto).
    assert (expand_go args true d (t :: r) =
       if negb (d =? 0)%Z then let* rest := expand_go args true d r in Ok (t :: rest)
       else if is_trivia (fst t) then expand_go args true d r
       else let* rest := expand_go args false d r in Ok (t :: rest)) as ->.
    { cbn [expand_go]. unfold is_curly in Hc.
      destruct (fst t) as [| | |[]|[] | | | | | | | | | | | | | | | | | |]; try reflexivity; exfalso; tauto. }
    destruct (Z.eqb_spec d 0) as [->|Hd]; cbn [negb].
    + destruct (is_trivia (fst t)) eqn:Ht.
      * destruct (IH2 0%Z) as [[out H]|[s H]]; [left; eexists|right; exists s; exact H].
        eapply vb_blank; eassumption.
      * destruct IH1 as [[out H]|[s H]]; [left; eexists|right; exists s; rewrite H; reflexivity].
        eapply vb_single; eassumption.
    + destruct (IH2 d) as [[out H]|[s H]]; [left; eexists|right; exists s; rewrite H; reflexivity].
      eapply vb_inside; eassumption.
Qed.
Lemma expand_total args l :
  (exists out, instance args l out) \/ (exists s, expand_tokens args l = Panic s).
Proof. apply instance_total. Qed.

(** ** definitions *)
Definition macro_of (name : text) (m : meaning) : macro :=
  match m with
  | Command n o b => MCmd (mk_cmdm name (N.of_nat n) o b)
  | Environment n o b d => MEnv (mk_envm name (N.of_nat n) o b d)
  | _ => MDeclare AtEndDocument
  end.
Lemma identify_no_name d t l rest : named (is_new_env d) l None rest ->
  identify_macro_update d (mk_ictx (Some t) (feed l)) = Ok (F rest, None).
Proof. intros H. unfold identify_macro_update. now rewrite (named_complete _ _ _ _ _ H). Qed.
Lemma identify_no_signature d t l name l1 rest : named (is_new_env d) l (Some name) l1 ->
  signature l1 None rest -> identify_macro_update d (mk_ictx (Some t) (feed l)) = Ok (F rest, None).
Proof.
  intros H Hs. unfold identify_macro_update. rewrite (named_complete _ _ _ _ _ H). cbn [bind].
  now rewrite (nargs_complete _ _ _ Hs).
Qed.
Lemma identify_no_body d t l name l1 p : named (is_new_env d) l (Some name) l1 ->
  signature l1 (Some p) [] -> identify_macro_update d (mk_ictx (Some t) (feed l)) = Ok (F [], None).
Proof.
  intros H Hs. unfold identify_macro_update. rewrite (named_complete _ _ _ _ _ H). cbn [bind].
  rewrite (nargs_complete _ _ _ Hs). destruct p as [n o]. reflexivity.
Qed.
Lemma identify_body d t l name l1 n o l2 b r : named (is_new_env d) l (Some name) l1 ->
  signature l1 (Some (n, o)) l2 -> body_in l2 b r ->
  identify_macro_update d (mk_ictx (Some t) (feed l)) =
  if is_new_env d then
        match r with
        | [] => Ok (F [], None)
        | x :: r' =>
          let* (c, end_def) :=
            if token_eqb (fst x) (TLeft Curly) then
              let* (edef, c) := read_until_balanced Curly (F r') in Ok (c, Some edef)
            else Ok (F r, None) in
          let* def := process_macro_def b in
          match end_def with
          | None => Ok (c, None)
          | Some edef =>
            let* edef := process_macro_def edef in
            Ok (c, Some (name, action_of d, macro_of name (Environment n o def edef)))
          end
        end
      else
        let* def := process_macro_def b in
        Ok (F r, Some (name, action_of d, macro_of name (Command n o def))).
Proof.
  intros H Hs Hb. unfold identify_macro_update. rewrite (named_complete _ _ _ _ _ H). cbn [bind].
  rewrite (nargs_complete _ _ _ Hs), (body_complete _ _ _ Hb). cbn [bind option_map].
  destruct (is_new_env d); [|reflexivity]. unfold ic_peek. rewrite peeked_F.
  destruct r as [|x r']; [reflexivity|]. cbn [hd_error option_map macro_of].
  destruct (token_eqb (fst x) (TLeft Curly)); [|reflexivity]. rewrite F_cons, next_F. reflexivity.
Qed.
Lemma definition_complete d t l r rest : definition (is_new_env d) l r rest ->
  identify_macro_update d (mk_ictx (Some t) (feed l)) =
    Ok (F rest, match r with None => None | Some (name, m) => Some (name, action_of d, macro_of name m) end).
Proof.
  intros H. destruct H.
  - now apply identify_no_name.
  - eapply identify_no_signature; eassumption.
  - eapply identify_no_body; eassumption.
  - erewrite identify_body by eassumption. rewrite H. now rewrite (stored_complete _ _ H3).
  - erewrite identify_body by eassumption. rewrite H, H3, token_eqb_refl.
    apply enclosed_iff in H4. rewrite H4. cbn [bind].
    rewrite (stored_complete _ _ H5). cbn [bind]. rewrite (stored_complete _ _ H6). reflexivity.
  - destruct p as [n o]. erewrite identify_body by eassumption. now rewrite H.
  - destruct p as [n o]. erewrite identify_body by eassumption. rewrite H.
    rewrite token_eqb_neq by assumption. cbn [bind]. now rewrite (stored_complete _ _ H4).
Qed.
Lemma named_total d t l : (exists name rest, named (is_new_env d) l name rest) \/
  (exists s, read_macro_name d (mk_ictx (Some t) (feed l)) = Panic s).
Proof.
  destruct (read_macro_name d (mk_ictx (Some t) (feed l))) as [[c name]|s|] eqn:E.
  - left. apply named_sound in E as (rest & _ & H). eauto.
  - right. eauto.
  - exfalso. rewrite named_F in E. destruct (skip_tr l) as [|[k x] l1]; [discriminate|].
    destruct k as [| | |[]|[] | | | | | | | | | | | | | | | | | |]; try discriminate.
    destruct (single_fn Curly l1) as [p rest]. destruct (name_of (is_new_env d) p) eqn:En; try discriminate.
    unfold name_of in En. destruct (is_new_env d); [discriminate|]. destruct p as [[[] s]|]; try discriminate.
    destruct (strip_prefix (tx "\") s); discriminate.
Qed.
Lemma definition_total d t l : (exists r rest, definition (is_new_env d) l r rest) \/
  (exists s, identify_macro_update d (mk_ictx (Some t) (feed l)) = Panic s).
Proof.
  destruct (named_total d t l) as [(name & l1 & Hn)|[s Hs]].
  2:{ right. exists s. unfold identify_macro_update. now rewrite Hs. }
  destruct name as [name|]; [|left; eexists; eexists; eapply de_no_name; eassumption].
  destruct (signature_ex l1) as (p & l2 & Hs). destruct p as [[n o]|]; [|left; eexists; eexists; eapply de_no_signature; eassumption].
  destruct l2 as [|u l2]; [left; eexists; eexists; eapply de_no_body; eassumption|].
  destruct (body_ex u l2) as (b & r & Hb).
  pose proof (identify_body d t l name l1 n o (u :: l2) b r Hn Hs Hb) as E.
  destruct (is_new_env d) eqn:Ed.
  - destruct r as [|x r']; [left; eexists; eexists; eapply de_one_body; eauto|].
    destruct (stored_total b) as [[bd Hbd]|[s Hp]].
    2:{ right. exists s. rewrite E, Hp. destruct (token_eqb (fst x) (TLeft Curly)); [|reflexivity].
        destruct (read_F Curly r') as (a & rest & ->). reflexivity. }
    destruct (token_eq_dec (fst x) (TLeft Curly)) as [Hx|Hx]; [|left; eexists; eexists; eapply de_bad_body; eauto].
    destruct (enclosed_ex Curly r') as (dd & rest & He).
    destruct (stored_total dd) as [[ddef Hdd]|[s Hp]]; [left; eexists; eexists; eapply de_environment; eauto|].
    right. exists s. rewrite E, Hx, token_eqb_refl. apply enclosed_iff in He. rewrite He. cbn [bind].
    rewrite (stored_complete _ _ Hbd). cbn [bind]. now rewrite Hp.
  - destruct (stored_total b) as [[bd Hbd]|[s Hp]]; [left; eexists; eexists; eapply de_command; eauto|].
    right. exists s. now rewrite E, Hp.
Qed.

(** ** the state of the engine *)
Definition how_of (a : update_action) : defining :=
  match a with UNew => New | URenew => Renew | UProvide => Provide end.
Definition meaning_of (m : macro) : meaning :=
  match m with
  | MDeclare (CmdOrEnv d) => Definer (is_new_env d) (how_of (action_of d))
  | MDeclare _ => Known
  | MCmd c => Command (N.to_nat (cm_num c)) (cm_opt c) (cm_def c)
  | MEnv v => Environment (N.to_nat (em_num v)) (em_opt v) (em_begin v) (em_end v)
  end.
Definition branch_of (s : option if_state) : branch :=
  match s with
  | None => AsIs | Some LitFalse => InFalse | Some StTrue => Shown | Some StFalse => Hidden
  | Some TypstTrue => TypstShown | Some TypstFalse => TypstHidden
  end.
Record agrees (e : engine) (st : state) : Prop := mk_agrees {
  ag_names : forall name, names st name = option_map meaning_of (get_macro name e);
  ag_envs : forall name v, get_macro name e = Some (MEnv v) -> em_name v = name;
  ag_conds : conds st = map branch_of (en_ifs e) }.

Lemma get_add name m e x : get_macro x (add_macro name m e) = if teqb x name then Some m else get_macro x e.
Proof. unfold get_macro, add_macro, sm_insert. cbn [en_macros]. now destruct (sm_get name (en_macros e)). Qed.
Lemma meaning_macro name m : (exists n o b, m = Command n o b) \/ (exists n o b d, m = Environment n o b d) ->
  meaning_of (macro_of name m) = m.
Proof. intros [(n & o & b & ->)|(n & o & b & d & ->)]; cbn; now rewrite Nat2N.id. Qed.
Lemma agrees_add e st name m : agrees e st ->
  (exists n o b, m = Command n o b) \/ (exists n o b d, m = Environment n o b d) ->
  agrees (add_macro name (macro_of name m) e) (mk_state (bind_name name m (names st)) (conds st)).
Proof.
  intros [H1 H2 H3] Hm. constructor; cbn [names conds].
  - intros x. rewrite get_add. unfold bind_name. destruct (teqb x name); [|apply H1].
    cbn [option_map]. now rewrite meaning_macro.
  - intros x v. rewrite get_add. destruct (teqbP x name) as [->|_]; [|apply H2].
    destruct Hm as [(n & o & b & ->)|(n & o & b & d & ->)]; cbn [macro_of]; [discriminate|].
    intros [= <-]. reflexivity.
  - exact H3.
Qed.
Lemma agrees_conds e st ifs bs : agrees e st -> bs = map branch_of ifs ->
  agrees (mk_engine (en_macros e) ifs) (mk_state (names st) bs).
Proof. intros [H1 H2 H3] ->. constructor; cbn [names conds en_ifs]; [exact H1|exact H2|reflexivity]. Qed.
Lemma definition_means env l name m rest : definition env l (Some (name, m)) rest ->
  (exists n o b, m = Command n o b) \/ (exists n o b d, m = Environment n o b d).
Proof. intros H. inversion H; subst; [left|right]; eauto 6. Qed.
Lemma update_step e st a name m : agrees e st ->
  (exists n o b, m = Command n o b) \/ (exists n o b d, m = Environment n o b d) ->
  exists tb, updates (how_of a) name m (names st) tb (snd (apply_update e name a (macro_of name m))) /\
    agrees (fst (apply_update e name a (macro_of name m))) (mk_state tb (conds st)).
Proof.
  intros Ha Hm. pose proof (ag_names _ _ Ha name) as Hn. unfold apply_update.
  destruct (get_macro name e) as [m0|] eqn:E; cbn [option_map] in Hn.
  - assert (names st name <> None) as Hk by congruence. destruct a; cbn [fst snd how_of].
    + eexists. split; [apply up_error|now apply agrees_add]. auto.
    + eexists. split; [apply up_ok|now apply agrees_add]. auto.
    + eexists. split; [apply up_provided; auto|]. destruct st. exact Ha.
  - destruct a; cbn [fst snd how_of].
    + eexists. split; [apply up_ok|now apply agrees_add]. auto.
    + eexists. split; [apply up_error|now apply agrees_add]. auto.
    + eexists. split; [apply up_ok|now apply agrees_add]. auto.
Qed.
Lemma updates_fun how name m tb t1 o1 t2 o2 :
  updates how name m tb t1 o1 -> updates how name m tb t2 o2 -> t1 = t2 /\ o1 = o2.
Proof. intros H1 H2. destruct H1; inversion H2; subst; split; try reflexivity; exfalso; intuition congruence. Qed.

Lemma default_map :
  sm_map default_macros = rev (map (fun d => (fst d, MDeclare (snd d))) declarative_macros).
Proof. vm_compute. reflexivity. Qed.
Lemma agrees_new : agrees engine_new initial.
Proof.
  assert (Hg : forall name, get_macro name engine_new =
    assoc name (rev (map (fun d => (fst d, MDeclare (snd d))) declarative_macros))).
  { intros name. unfold get_macro, sm_get, engine_new. cbn [en_macros]. now rewrite default_map. }
  constructor.
  - intros name. rewrite Hg. unfold initial, initial_names. cbn [names].
    unfold command_definers, environment_definers, taken_names, declarative_macros.
    cbn [map rev app assoc fst snd find existsb].
    repeat match goal with
    | |- context [teqb name (tx ?s)] =>
      destruct (teqbP name (tx s)) as [->|_]; [vm_compute; reflexivity|]
    end. reflexivity.
  - intros name v. rewrite Hg. intros H.
    assert (forall l : list (text * declare), assoc name (map (fun d => (fst d, MDeclare (snd d))) l) <> Some (MEnv v)) as Hl.
    { induction l as [|[k d] l IH]; cbn [map assoc fst snd]; [discriminate|].
      destruct (teqb name k); [discriminate|exact IH]. }
    rewrite <- map_rev in H. exfalso. exact (Hl _ H).
  - reflexivity.
Qed.

(** ** one step *)
Lemma next_t (t : tok) l : next_token (mk_ictx (Some t) (feed l)) = Ok (F l).
Proof. apply next_F. Qed.
Lemma first_byte (t : text) name : (exists a, split_bytes 1 t = Some (a, name)) <-> exists c, c < 128 /\ t = c :: name.
Proof.
  split.
  - intros [a H]. destruct t as [|c r]; [discriminate|]. cbn [split_bytes] in H.
    destruct (utf8_len c) as [|[|n]] eqn:E; cbn in H.
    + unfold utf8_len in E. repeat match type of E with context [if ?b then _ else _] => destruct b end; discriminate.
    + rewrite split_bytes_0 in H. injection H as _ <-. exists c. split; [|reflexivity].
      unfold utf8_len in E. destruct (N.ltb_spec c 128) as [Hc|Hc]; [exact Hc|].
      repeat match type of E with context [if ?b then _ else _] => destruct b end; discriminate.
    + discriminate.
  - intros (c & Hc & ->). exists [c]. cbn [split_bytes]. unfold utf8_len. apply N.ltb_lt in Hc. rewrite Hc.
    cbn [Nat.leb Nat.sub]. now rewrite split_bytes_0.
Qed.
Lemma step_other e (t : tok) l : ~ conditional t -> fst t <> CommandName Generic ->
  fst t <> CommandName BeginEnvironment ->
  step e (mk_ictx (Some t) (feed l)) t = Ok (e, F l, [t]).
Proof.
  intros H1 H2 H3. unfold step. rewrite next_t.
  destruct (fst t) as [| | | | | | | | | | | | | | | | | | | |[]| |] eqn:E; try reflexivity; try congruence;
    exfalso; apply H1; unfold conditional, if_, else_, fi_; rewrite E; eauto.
Qed.
Lemma step_command e c name l : c < 128 ->
  step e (mk_ictx (Some (CommandName Generic, c :: name)) (feed l)) (CommandName Generic, c :: name) =
  trapped_by_macro e (mk_ictx (Some (CommandName Generic, c :: name)) (feed l)) (CommandName Generic, c :: name) name false.
Proof.
  intros Hc. unfold step. cbn [fst snd].
  destruct (proj2 (first_byte (c :: name) name)) as [a ->]; [eauto|reflexivity].
Qed.
Lemma forward_none e (t : tok) l name b : get_macro name e = None ->
  trapped_by_macro e (mk_ictx (Some t) (feed l)) t name b = Ok (e, F l, [t]).
Proof. intros H. unfold trapped_by_macro. now rewrite H, next_t. Qed.
Lemma forward_env e (t : tok) l name v : get_macro name e = Some (MEnv v) ->
  trapped_by_macro e (mk_ictx (Some t) (feed l)) t name false = Ok (e, F l, [t]).
Proof. intros H. unfold trapped_by_macro. now rewrite H, next_t. Qed.
Lemma forward_not_env e (t : tok) l name : (forall v, get_macro name e <> Some (MEnv v)) ->
  trapped_by_macro e (mk_ictx (Some t) (feed l)) t name true = Ok (e, F l, [t]).
Proof.
  intros H. unfold trapped_by_macro. rewrite next_t. destruct (get_macro name e) as [[| |v]|]; try reflexivity.
  exfalso. now apply (H v).
Qed.
Lemma names_inv e st name : agrees e st ->
  match names st name with
  | None => get_macro name e = None
  | Some Known => exists d, get_macro name e = Some (MDeclare d) /\ (forall x, d <> CmdOrEnv x)
  | Some (Definer env how) => exists d, get_macro name e = Some (MDeclare (CmdOrEnv d)) /\
      env = is_new_env d /\ how = how_of (action_of d)
  | Some (Command n o b) => exists nm num, get_macro name e = Some (MCmd (mk_cmdm nm num o b)) /\ n = N.to_nat num
  | Some (Environment n o b d) => exists num, get_macro name e = Some (MEnv (mk_envm name num o b d)) /\ n = N.to_nat num
  end.
Proof.
  intros Ha. rewrite (ag_names _ _ Ha name). pose proof (ag_envs _ _ Ha name) as He.
  destruct (get_macro name e) as [[d|[nm num o b]|[nm num o b dd]]|]; cbn [option_map meaning_of].
  - destruct d; cbn; try (eexists; split; [reflexivity|discriminate]). eauto.
  - cbn. eauto.
  - cbn. specialize (He _ eq_refl). cbn in He. subst nm. eauto.
  - reflexivity.
Qed.
Lemma declared_forward e (t : tok) l name d : get_macro name e = Some (MDeclare d) -> (forall x, d <> CmdOrEnv x) ->
  trapped_by_macro e (mk_ictx (Some t) (feed l)) t name false = Ok (e, F l, [t]).
Proof.
  intros H Hd. unfold trapped_by_macro. rewrite H, next_t. cbn [negb Bool.eqb].
  destruct d; try reflexivity. exfalso. now apply (Hd c).
Qed.
Lemma resume_F ts l : resume_with ts (F l) = Ok (F (ts ++ l)).
Proof.
  unfold F. rewrite resume_with_front by apply quiet_feed. unfold feed. now rewrite push_app.
Qed.
Lemma call_F e (t : tok) l name nm num o b found m rest :
  get_macro name e = Some (MCmd (mk_cmdm nm num o b)) -> arguments (N.to_nat num) l found m rest ->
  forall res, supplied o found m res ->
  trapped_by_macro e (mk_ictx (Some t) (feed l)) t name false =
    match res with
    | None => Ok (e, F rest, [too_few])
    | Some args => let* ts := expand_tokens args b in Ok (e, F (ts ++ rest), [])
    end.
Proof.
  intros H Ha res Hs. unfold trapped_by_macro. rewrite H. cbn [negb Bool.eqb]. rewrite next_t. cbn [bind cm_num cm_opt].
  rewrite (macro_args _ num o l found m rest eq_refl Ha res Hs). cbn [bind].
  destruct res as [args|]; [|reflexivity]. cbn [cm_def].
  destruct (expand_tokens args b) as [ts| |]; [|reflexivity|reflexivity]. cbn [bind]. now rewrite resume_F.
Qed.
Lemma env_F e (t : tok) l name num o b d found m rest :
  get_macro name e = Some (MEnv (mk_envm name num o b d)) -> arguments (N.to_nat num) l found m rest ->
  forall res, supplied o found m res ->
  trapped_by_macro e (mk_ictx (Some t) (feed l)) t name true =
    match res with
    | None => Ok (e, F rest, [too_few])
    | Some args =>
      let '(a, r) := scan env_weight stop_end 0 rest in
      match r with
      | [] => Ok (e, F [], [])
      | y :: r' =>
        if teqb (snd y) name then
          let* b' := expand_tokens args b in
          let* d' := expand_tokens args d in
          Ok (e, F ((b' ++ a ++ d') ++ r'), [])
        else Ok (e, F r, [(TError, tx "unmatched environment")])
      end
    end.
Proof.
  intros H Ha res Hs. unfold trapped_by_macro. rewrite H. cbn [negb Bool.eqb]. rewrite next_t. cbn [bind em_num em_opt em_name].
  rewrite (macro_args _ num o l found m rest eq_refl Ha res Hs). cbn [bind].
  destruct res as [args|]; [|reflexivity]. cbn [em_begin em_end].
  rewrite read_env_body_F. destruct (scan env_weight stop_end 0 rest) as [a [|y r']]; [reflexivity|].
  destruct (teqb (snd y) name); [|reflexivity]. cbn [bind].
  destruct (expand_tokens args b) as [b'| |]; [|reflexivity|reflexivity]. cbn [bind].
  destruct (expand_tokens args d) as [d'| |]; [|reflexivity|reflexivity]. cbn [bind]. now rewrite resume_F.
Qed.
Lemma define_F e (t : tok) l name d : get_macro name e = Some (MDeclare (CmdOrEnv d)) ->
  trapped_by_macro e (mk_ictx (Some t) (feed l)) t name false =
    let* (c, u) := identify_macro_update d (mk_ictx (Some t) (feed l)) in
    match u with
    | None => Ok (e, c, [])
    | Some (name, a, m) => Ok (fst (apply_update e name a m), c, snd (apply_update e name a m))
    end.
Proof.
  intros H. unfold trapped_by_macro. rewrite H. cbn [negb Bool.eqb].
  destruct (identify_macro_update d _) as [[c [[[nm a] m]|]]| |]; try reflexivity. cbn [bind].
  now destruct (apply_update e nm a m).
Qed.
Lemma step_complete e st t l out st' l' : agrees e st -> rewrites st (t :: l) out st' l' ->
  exists e', step e (mk_ictx (Some t) (feed l)) t = Ok (e', F l', out) /\ agrees e' st'.
Proof.
  intros Ha H. remember (t :: l) as toks eqn:Et.
  destruct H; try unfold begin_ in Et; injection Et as Et1 Et2; subst.
  - (* copy *) exists e. split; [|exact Ha].
    destruct (token_eq_dec (fst t) (CommandName BeginEnvironment)) as [Hb|Hb]; [|now apply step_other].
    unfold step. rewrite Hb. apply forward_not_env. intros v Hv. apply (H1 Hb).
    rewrite (ag_names _ _ Ha), Hv. exact I.
  - (* command *) exists e. split; [|exact Ha]. rewrite step_command by assumption.
    pose proof (names_inv e st name Ha) as Hn. destruct (names st name) as [[env how| |n o b|n o b d]|].
    + destruct H0.
    + destruct Hn as (d & Hg & Hd). eapply declared_forward; eassumption.
    + destruct H0.
    + destruct Hn as (num & Hg & _). eapply forward_env; eassumption.
    + now apply forward_none.
  - (* define *) rewrite step_command by assumption.
    pose proof (names_inv e st dn Ha) as Hn. rewrite H0 in Hn. destruct Hn as (d & Hg & -> & ->).
    erewrite define_F by eassumption. erewrite definition_complete by eassumption. cbn [bind].
    pose proof (definition_means _ _ _ _ _ H1) as Hm.
    destruct (update_step e st (action_of d) name m Ha Hm) as (tb' & Hu & Ha').
    destruct (updates_fun _ _ _ _ _ _ _ _ H2 Hu) as [-> ->]. eauto.
  - rewrite step_command by assumption.
    pose proof (names_inv e st dn Ha) as Hn. rewrite H0 in Hn. destruct Hn as (d & Hg & -> & ->).
    erewrite define_F by eassumption. erewrite definition_complete by eassumption. cbn [bind]. eauto.
  - rewrite step_command by assumption.
    pose proof (names_inv e st name Ha) as Hn. rewrite H0 in Hn. destruct Hn as (nm & num & Hg & ->).
    erewrite call_F by eassumption. cbv iota. unfold expand_tokens. erewrite instance_complete by eassumption.
    cbn [bind]. eauto.
  - rewrite step_command by assumption.
    pose proof (names_inv e st name Ha) as Hn. rewrite H0 in Hn. destruct Hn as (nm & num & Hg & ->).
    erewrite call_F by eassumption. cbv iota. eauto.
  - pose proof (names_inv e st (snd y) Ha) as Hn. rewrite H in Hn. destruct Hn as (num & Hg & ->).
    unfold step. cbn [fst snd]. erewrite env_F by eassumption. cbv iota.
    apply (upto_scan _ _ _ stop_end_iff) in H2. rewrite H2, teqb_refl.
    unfold expand_tokens. rewrite (instance_complete _ _ _ H4). cbn [bind]. rewrite (instance_complete _ _ _ H5).
    cbn [bind]. rewrite <- !app_assoc. eauto.
  - pose proof (names_inv e st name Ha) as Hn. rewrite H in Hn. destruct Hn as (num & Hg & ->).
    unfold step. cbn [fst snd]. erewrite env_F by eassumption. cbv iota. eauto.
  - pose proof (names_inv e st name Ha) as Hn. rewrite H in Hn. destruct Hn as (num & Hg & ->).
    unfold step. cbn [fst snd]. erewrite env_F by eassumption. cbv iota.
    apply (upto_scan _ _ _ stop_end_iff) in H2. rewrite H2. eauto.
  - pose proof (names_inv e st name Ha) as Hn. rewrite H in Hn. destruct Hn as (num & Hg & ->).
    unfold step. cbn [fst snd]. erewrite env_F by eassumption. cbv iota.
    apply (upto_scan _ _ _ stop_end_iff) in H2. rewrite H2. apply teqb_neq in H3. rewrite H3. eauto.
  - unfold if_ in H. unfold step. rewrite H. unfold trapped_by_if. rewrite next_t. cbn [bind].
    destruct i; (eexists; split; [reflexivity|]; apply agrees_conds; [exact Ha|]; cbn; now rewrite (ag_conds _ _ Ha)).
  - unfold else_ in H. unfold step. rewrite H. unfold trapped_by_else. rewrite next_t. cbn [bind].
    pose proof (ag_conds _ _ Ha) as Hc. rewrite H0 in Hc.
    destruct (en_ifs e) as [|s ifs]; cbn [map] in Hc; [discriminate|]. injection Hc as -> ->.
    destruct s as [s|]; [|inversion H1].
    destruct s; cbn in H1; inversion H1; subst; cbn in H2;
      try (subst rest; eexists; split; [reflexivity|]; apply agrees_conds; [exact Ha|reflexivity]);
      apply skipped_iff in H2; rewrite H2; cbn [bind];
      (eexists; split; [reflexivity|]; apply agrees_conds; [exact Ha|reflexivity]).
  - unfold else_ in H. unfold step. rewrite H. unfold trapped_by_else. rewrite next_t. cbn [bind].
    pose proof (ag_conds _ _ Ha) as Hc.
    destruct (en_ifs e) as [|s ifs]; cbn [map] in Hc; [eauto|]. rewrite Hc in H0.
    destruct s as [[]|]; try discriminate. eauto.
  - unfold fi_ in H. unfold step. rewrite H. unfold trapped_by_endif. rewrite next_t. cbn [bind].
    pose proof (ag_conds _ _ Ha) as Hc. rewrite H0 in Hc.
    destruct (en_ifs e) as [|s ifs]; cbn [map] in Hc; [discriminate|]. injection Hc as -> ->.
    destruct s as [[]|]; (eexists; split; [reflexivity|]; apply agrees_conds; [exact Ha|reflexivity]).
  - unfold fi_ in H. unfold step. rewrite H. unfold trapped_by_endif. rewrite next_t. cbn [bind].
    pose proof (ag_conds _ _ Ha) as Hc. rewrite H0 in Hc.
    destruct (en_ifs e) as [|s ifs]; cbn [map] in Hc; [|discriminate]. eauto.
Qed.
Lemma conditional_dec t : {conditional t} + {~ conditional t}.
Proof.
  destruct t as [k s]. unfold conditional, if_, else_, fi_. cbn [fst].
  destruct k as [| | | | | | | | | | | | | | | | | | | |[]| |];
    try (right; intros [[? ?]|[?|?]]; discriminate); left; eauto.
Qed.
Lemma step_progress e st t l : agrees e st ->
  (exists out st' l', rewrites st (t :: l) out st' l') \/
  (exists s, step e (mk_ictx (Some t) (feed l)) t = Panic s).
Proof.
  intros Ha. destruct (conditional_dec t) as [[[i Hi]|[He|Hf]]|Hc].
  - left. do 3 eexists. eapply rw_if; exact Hi.
  - left. destruct (conds st) as [|b bs] eqn:Ec.
    { do 3 eexists. apply rw_else_copy; [exact He|]. now rewrite Ec. }
    destruct (skipped_ex l) as [rest Hr]. apply skipped_iff in Hr.
    destruct b.
    + do 3 eexists. apply rw_else_copy; [exact He|]. now rewrite Ec.
    + do 3 eexists. eapply rw_else; [exact He|exact Ec|constructor|reflexivity].
    + do 3 eexists. eapply rw_else; [exact He|exact Ec|constructor|exact Hr].
    + do 3 eexists. eapply rw_else; [exact He|exact Ec|constructor|reflexivity].
    + do 3 eexists. eapply rw_else; [exact He|exact Ec|constructor|exact Hr].
    + do 3 eexists. eapply rw_else; [exact He|exact Ec|constructor|reflexivity].
  - left. destruct (conds st) as [|b bs] eqn:Ec; do 3 eexists; [apply rw_fi_copy|eapply rw_fi]; eassumption.
  - destruct (token_eq_dec (fst t) (CommandName Generic)) as [Hg|Hg].
    + destruct t as [k s]. cbn in Hg. subst k.
      destruct (split_bytes 1 s) as [[a name]|] eqn:Es.
      2:{ right. unfold step. cbn [fst snd]. rewrite Es. eexists. reflexivity. }
      destruct (proj1 (first_byte s name)) as (c & Hcc & ->); [eauto|]. rewrite step_command by assumption.
      pose proof (names_inv e st name Ha) as Hn. destruct (names st name) as [[env how| |n o b|n o b d]|] eqn:En.
      * destruct Hn as (d & Hgm & -> & ->).
        destruct (definition_total d (CommandName Generic, c :: name) l) as [(r & rest & Hd)|[s Hs]].
        -- left. destruct r as [[nm m]|].
           ++ destruct (update_step e st (action_of d) nm m Ha (definition_means _ _ _ _ _ Hd)) as (tb & Hu & _).
              do 3 eexists. eapply rw_define; eassumption.
           ++ do 3 eexists. eapply rw_define_nothing; eassumption.
        -- right. exists s. erewrite define_F by eassumption. now rewrite Hs.
      * left. do 3 eexists. apply rw_command; [assumption|]. now rewrite En.
      * destruct Hn as (nm & num & Hgm & ->).
        destruct (args_total (N.to_nat num) l) as (found & m & rest & Har).
        destruct (supplied_total o found m) as [[args|] Hs].
        -- destruct (expand_total args b) as [[out Hi]|[s Hs']].
           ++ left. do 3 eexists. eapply rw_call; eassumption.
           ++ right. exists s. erewrite call_F by eassumption. cbv iota. now rewrite Hs'.
        -- left. do 3 eexists. eapply rw_call_short; eassumption.
      * left. do 3 eexists. apply rw_command; [assumption|]. now rewrite En.
      * left. do 3 eexists. apply rw_command; [assumption|]. now rewrite En.
    + destruct (token_eq_dec (fst t) (CommandName BeginEnvironment)) as [Hb|Hb].
      2:{ left. do 3 eexists. apply rw_copy; [assumption|assumption|congruence]. }
      destruct t as [k name]. cbn in Hb. subst k.
      pose proof (names_inv e st name Ha) as Hn.
      destruct (names st name) as [[env how| |n o b|n o b d]|] eqn:En;
        try solve [left; do 3 eexists; apply rw_copy; [assumption|assumption|]; cbn [snd]; rewrite En; intros _ []].
      destruct Hn as (num & Hgm & ->). change (CommandName BeginEnvironment, name) with (begin_ name).
      destruct (args_total (N.to_nat num) l) as (found & m & rest & Har).
      destruct (supplied_total o found m) as [[args|] Hs].
      2:{ left. do 3 eexists. eapply rw_env_short; eassumption. }
      destruct (scan env_weight stop_end 0 rest) as [body r] eqn:Er.
      pose proof (proj2 (upto_scan _ _ _ stop_end_iff _ _ _) Er) as Hu.
      destruct r as [|y r']; [left; do 3 eexists; eapply rw_env_open; eassumption|].
      destruct (teqbP (snd y) name) as [Hy|Hy]; [|left; do 3 eexists; eapply rw_env_crossed; eassumption].
      assert (step e (mk_ictx (Some (begin_ name)) (feed l)) (begin_ name) =
        let* b' := expand_tokens args b in let* d' := expand_tokens args d in
        Ok (e, F ((b' ++ body ++ d') ++ r'), [])) as E.
      { unfold step, begin_. cbn [fst snd]. erewrite env_F by eassumption. cbv iota. rewrite Er, Hy, teqb_refl.
        reflexivity. }
      destruct (expand_total args b) as [[bout Hbo]|[s Hs']]; [|right; exists s; now rewrite E, Hs'].
      destruct (expand_total args d) as [[dout Hdo]|[s Hs']].
      * left. do 3 eexists. eapply rw_env; eassumption.
      * right. exists s. rewrite E. unfold expand_tokens in *. rewrite (instance_complete _ _ _ Hbo). cbn [bind].
        now rewrite Hs'.
Qed.
