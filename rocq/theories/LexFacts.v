(** Facts about the lexer model (Lex.v). *)
From Verif Require Export BaseFacts Lex.
Local Open Scope N_scope.

Lemma is_crlf_whitespace c : is_crlf c = true -> is_whitespace c = true.
Proof. apply is_crlf_ws. Qed.

Definition is_name_char (c : char) : bool := is_ascii_alpha c || (c =? 64).
Lemma name_char_ascii c : is_name_char c = true -> c < 0x80.
Proof.
  unfold is_name_char, is_ascii_alpha.
  rewrite !orb_true_iff, !andb_true_iff, !N.leb_le, N.eqb_eq. lia.
Qed.
Lemma ascii_utf8_len c : c < 0x80 -> utf8_len c = 1%nat.
Proof. unfold utf8_len. intros H. apply N.ltb_lt in H. now rewrite H. Qed.
Lemma ascii_utf8_char c : c < 0x80 -> utf8_char c = [c].
Proof. unfold utf8_char. intros H. apply N.ltb_lt in H. now rewrite H. Qed.
Lemma nonascii_utf8_char c : 0x80 <= c -> exists b r, utf8_char c = b :: r /\ 0x80 <= b.
Proof.
  intros H. unfold utf8_char. apply N.ltb_ge in H. rewrite H.
  repeat destruct (_ <? _); eexists _, _; (split; [reflexivity|]);
    (eapply N.le_trans; [|apply N.le_add_r]; lia).
Qed.
Lemma nonascii_not_name b : 0x80 <= b -> is_name_char b = false /\ b <> 42.
Proof.
  intros H. split; [|lia]. destruct (is_name_char b) eqn:E; [|reflexivity].
  apply name_char_ascii in E. lia.
Qed.
Lemma blen_ascii (s : text) : Forall (fun c => c < 0x80) s -> blen s = List.length s.
Proof. induction 1 as [|c s H _ IH]; simpl; [reflexivity|]. now rewrite ascii_utf8_len, IH. Qed.

(** The scan over bytes seen as a scan over characters *)
Definition star_ok (cmd : option (spec * text)) (bump : nat) : bool :=
  match cmd with
  | Some (sp, start) =>
    match split_bytes (bump + 2) start with
    | Some (s, _) => match sp s with Some _ => true | None => false end
    | None => false
    end
  | None => true
  end.
Fixpoint scan_name (ok : nat -> bool) (s : text) (bump : nat) : text * text :=
  match s with
  | [] => ([], [])
  | c :: r =>
    if c =? 42 then if ok bump then ([c], r) else ([], s)
    else if is_name_char c then let '(a, b) := scan_name ok r (S bump) in (c :: a, b)
    else ([], s)
  end.
Lemma scan_name_app ok s : forall n a b, scan_name ok s n = (a, b) -> s = a ++ b.
Proof.
  induction s as [|c r IH]; intros n a b; simpl; [now intros [= <- <-]|].
  destruct (c =? 42); [destruct (ok n); now intros [= <- <-]|].
  destruct (is_name_char c); [|now intros [= <- <-]].
  destruct (scan_name ok r (S n)) as [a' b'] eqn:E. intros [= <- <-]. simpl. f_equal. eauto.
Qed.
(** letters, then possibly one star; what follows cannot extend it *)
Lemma scan_name_shape ok s : forall n a b, scan_name ok s n = (a, b) ->
  exists l, Forall (fun c => is_name_char c = true) l /\
    ((a = l /\ match b with
               | [] => True
               | c :: _ => is_name_char c = false /\ (c = 42 -> ok (n + List.length l)%nat = false)
               end)
     \/ (a = l ++ [42] /\ ok (n + List.length l)%nat = true)).
Proof.
  induction s as [|c r IH]; intros n a b; simpl.
  - intros [= <- <-]. exists []. split; [constructor|]. auto.
  - destruct (N.eqb_spec c 42) as [->|Hc].
    + destruct (ok n) eqn:Eok; intros [= <- <-]; exists []; (split; [constructor|]).
      * right. rewrite Nat.add_0_r. auto.
      * left. rewrite Nat.add_0_r. auto.
    + destruct (is_name_char c) eqn:En.
      * destruct (scan_name ok r (S n)) as [a' b'] eqn:E. intros [= <- <-].
        apply IH in E as (l & Hl & H). exists (c :: l). split; [now constructor|].
        replace (n + List.length (c :: l))%nat with (S n + List.length l)%nat by (simpl; lia).
        destruct H as [[-> H]|[-> H]]; auto.
      * intros [= <- <-]. exists []. split; [constructor|]. left. split; [reflexivity|].
        split; [exact En | congruence].
Qed.
Lemma scan_name_ascii ok s n a b : scan_name ok s n = (a, b) -> Forall (fun c => c < 0x80) a.
Proof.
  intros H. apply scan_name_shape in H as (l & Hl & H).
  assert (Forall (fun c => c < 0x80) l) as Hl'.
  { revert Hl. apply Forall_impl. apply name_char_ascii. }
  destruct H as [[-> _]|[-> _]]; [assumption|]. apply Forall_app; split; [assumption|].
  constructor; [reflexivity | constructor].
Qed.
Lemma advance_scan cmd s : forall n a b, scan_name (star_ok cmd) s n = (a, b) ->
  advance_ascii_name cmd (utf8 s) n = (n + List.length a)%nat.
Proof.
  induction s as [|c r IH]; intros n a b; simpl; [intros [= <- <-]; simpl; lia|].
  destruct (N.ltb_spec c 0x80) as [Hc|Hc].
  - rewrite ascii_utf8_char by assumption. simpl.
    destruct (c =? 42) eqn:E42.
    + unfold star_ok at 1. destruct cmd as [[sp start]|].
      * destruct (split_bytes (n + 2) start) as [[s' ?]|]; [|intros [= <- <-]; simpl; lia].
        destruct (sp s'); intros [= <- <-]; simpl; lia.
      * intros [= <- <-]; simpl; lia.
    + unfold is_name_char. destruct (is_ascii_alpha c); simpl.
      * destruct (scan_name (star_ok cmd) r (S n)) as [a' b'] eqn:E. intros [= <- <-].
        rewrite (IH _ _ _ E). simpl. lia.
      * destruct (c =? 64); [|intros [= <- <-]; simpl; lia].
        destruct (scan_name (star_ok cmd) r (S n)) as [a' b'] eqn:E. intros [= <- <-].
        rewrite (IH _ _ _ E). simpl. lia.
  - destruct (nonascii_utf8_char c Hc) as (b0 & r0 & -> & Hb0). simpl.
    destruct (nonascii_not_name b0 Hb0) as [Hn Hs]. apply N.eqb_neq in Hs. rewrite Hs.
    unfold is_name_char in Hn. apply orb_false_iff in Hn as [-> ->].
    destruct (nonascii_not_name c Hc) as [Hn' Hs']. apply N.eqb_neq in Hs'. rewrite Hs', Hn'.
    intros [= <- <-]. simpl. lia.
Qed.
Lemma scan_split ok s n a b : scan_name ok s n = (a, b) ->
  split_bytes (List.length a) s = Some (a, b).
Proof.
  intros H. pose proof (scan_name_app _ _ _ _ _ H) as ->.
  rewrite <- (blen_ascii a) by eauto using scan_name_ascii. apply split_bytes_intro.
Qed.

(** The command name found after a backslash *)
Lemma lex_command_name_eq sp c after :
  is_whitespace c = false -> is_name_char c = true ->
  forall a rest, scan_name (star_ok (Some (sp, c :: after))) after 0 = (a, rest) ->
  lex_command_name sp (c :: after) =
    let name := c :: a in
    match assoc name name_table with
    | Some k => LTok (CommandName k, 92 :: name) (92 :: name) rest
    | None =>
      if teqb name (tx "begin") then lex_begin_end true (92 :: name) rest
      else if teqb name (tx "end") then lex_begin_end false (92 :: name) rest
      else LTok (CommandName Generic, 92 :: name) (92 :: name) rest
    end.
Proof.
  intros Hw Hn a rest Hs. unfold lex_command_name. rewrite Hw.
  pose proof (name_char_ascii c Hn) as Hc.
  assert ((c =? 40) || (c =? 91) = false) as ->.
  { destruct (N.eqb_spec c 40) as [->|]; [discriminate|].
    destruct (N.eqb_spec c 91) as [->|]; [discriminate|reflexivity]. }
  assert ((c =? 41) || (c =? 93) = false) as ->.
  { destruct (N.eqb_spec c 41) as [->|]; [discriminate|].
    destruct (N.eqb_spec c 93) as [->|]; [discriminate|reflexivity]. }
  unfold is_name_char in Hn.
  assert (negb (c =? 64) && negb (is_ascii_alpha c) = false) as ->.
  { apply orb_true_iff in Hn as [-> | ->]; [apply andb_false_r | reflexivity]. }
  assert (skipn 1 (utf8 (c :: after)) = utf8 after) as ->.
  { unfold utf8. cbn [flat_map]. rewrite ascii_utf8_char by assumption. reflexivity. }
  rewrite (advance_scan _ _ _ _ _ Hs).
  replace (1 + (0 + List.length a))%nat with (blen (c :: a)).
  2: { simpl. rewrite ascii_utf8_len by assumption.
       rewrite blen_ascii by eauto using scan_name_ascii. reflexivity. }
  rewrite (scan_name_app _ _ _ _ _ Hs).
  change (c :: a ++ rest) with ((c :: a) ++ rest). rewrite split_bytes_intro. reflexivity.
Qed.

(** [next_non_trivia] *)
Lemma nnt_collected inc s : forall n c r m, next_non_trivia inc s n = (c, r, m) ->
  exists used, s = used ++ r /\ (m <= n + blen used)%nat /\ (n <= m)%nat /\
    match c with
    | Some c => (exists pre, used = pre ++ [c]) /\ (n + utf8_len c <= m)%nat
    | None => r = []
    end.
Proof.
  revert inc; induction s as [|x s IH]; intros inc n c r m; simpl.
  - intros [= <- <- <-]. exists []. simpl. repeat split; lia.
  - destruct inc.
    + destruct (is_crlf x).
      * intros H. apply IH in H as (u & -> & H1 & H2 & H3). exists (x :: u). simpl.
        split; [reflexivity|]. split; [lia|]. split; [lia|].
        destruct c; [destruct H3 as [[p ->] ?]; split; [now exists (x :: p) | lia] | assumption].
      * intros H. apply IH in H as (u & -> & H1 & H2 & H3). exists (x :: u). simpl.
        split; [reflexivity|]. split; [lia|]. split; [lia|].
        destruct c; [destruct H3 as [[p ->] ?]; split; [now exists (x :: p) | lia] | assumption].
    + destruct (is_whitespace x).
      * intros H. apply IH in H as (u & -> & H1 & H2 & H3). exists (x :: u). simpl.
        split; [reflexivity|]. split; [lia|]. split; [lia|].
        destruct c; [destruct H3 as [[p ->] ?]; split; [now exists (x :: p) | lia] | assumption].
      * destruct (x =? 37).
        -- intros H. apply IH in H as (u & -> & H1 & H2 & H3). exists (x :: u). simpl.
           split; [reflexivity|]. split; [lia|]. split; [lia|].
           destruct c; [destruct H3 as [[p ->] ?]; split; [now exists (x :: p) | lia] | assumption].
        -- intros [= <- <- <-]. exists [x]. simpl. split; [reflexivity|]. split; [lia|].
           split; [lia|]. split; [now exists [] | lia].
Qed.
(** exact count when no comment is met *)
Lemma nnt_blanks w c r n :
  Forall (fun x => is_whitespace x = true) w -> is_whitespace c = false -> c <> 37 ->
  next_non_trivia false (w ++ c :: r) n = (Some c, r, (n + blen (w ++ [c]))%nat).
Proof.
  intros Hw Hc Hp. revert n. induction Hw as [|x w Hx Hw IH]; intros n; simpl.
  - rewrite Hc. apply N.eqb_neq in Hp. rewrite Hp. f_equal; simpl; lia.
  - rewrite Hx, IH. f_equal; simpl; lia.
Qed.
Lemma nnt_no_percent s n : ~ In 37 s ->
  exists w, Forall (fun x => is_whitespace x = true) w /\
    ((s = w /\ next_non_trivia false s n = (None, [], (n + blen w)%nat))
     \/ exists c r, s = w ++ c :: r /\ is_whitespace c = false /\
        next_non_trivia false s n = (Some c, r, (n + blen (w ++ [c]))%nat)).
Proof.
  revert n; induction s as [|x s IH]; intros n Hp; simpl.
  - exists []. split; [constructor|]. left. rewrite Nat.add_0_r. auto.
  - destruct (is_whitespace x) eqn:Ex.
    + destruct (IH (n + utf8_len x)%nat) as (w & Hw & H); [intros ?; apply Hp; now right|].
      exists (x :: w). split; [now constructor|]. destruct H as [[-> H]|(c & r & -> & Hc & H)].
      * left. split; [reflexivity|]. rewrite H. f_equal; simpl; lia.
      * right. exists c, r. split; [reflexivity|]. split; [assumption|]. rewrite H.
        simpl. f_equal; simpl; lia.
    + exists []. split; [constructor|]. right. exists x, s.
      destruct (N.eqb_spec x 37) as [->|]; [exfalso; apply Hp; now left|].
      split; [reflexivity|]. split; [assumption|]. simpl. f_equal; simpl; lia.
Qed.

(** What a successful [lex_env_work] has consumed *)
Lemma lex_env_work_some src env used rest :
  lex_env_work src = WSome env used rest ->
  src = used ++ rest /\ (exists pre post, used = pre ++ env ++ post) /\
  (exists l, Forall (fun c => is_name_char c = true) l /\ (env = l \/ env = l ++ [42])) /\ used <> [].
Proof.
  unfold lex_env_work.
  destruct (next_non_trivia false src 0) as [[c1 r1] ns] eqn:E1.
  destruct c1 as [c1|]; [|discriminate].
  destruct (N.eqb_spec c1 123) as [->|]; [|discriminate]. simpl negb. cbv iota.
  destruct (Nat.ltb_spec (List.length (utf8 src)) ns); [discriminate|].
  set (bump := advance_ascii_name None (skipn ns (utf8 src)) 0).
  destruct (split_bytes (ns + bump) src) as [[p1 chars]|] eqn:E2; [|discriminate].
  destruct (next_non_trivia false chars (ns + bump)) as [[c2 r2] col] eqn:E3.
  destruct c2 as [c2|]; [|discriminate].
  destruct (N.eqb_spec c2 125) as [->|]; [|discriminate]. simpl negb. cbv iota.
  destruct (split_bytes col src) as [[u' r']|] eqn:E4; [|discriminate].
  destruct (split_bytes ns src) as [[q from]|] eqn:E5; [|discriminate].
  destruct (split_bytes bump from) as [[e' tl']|] eqn:E6; [|discriminate].
  intros [= -> -> ->].
  apply split_bytes_app in E4 as [Hsrc Hu]. split; [assumption|].
  apply split_bytes_app in E5 as [Hq Hqn]. apply split_bytes_app in E6 as [Hf He].
  apply nnt_collected in E3 as (u3 & Hc3 & _ & Hge & _).
  (* used extends q ++ env *)
  assert (exists post, used = q ++ env ++ post) as [post Hpost].
  { rewrite Hq, Hf in Hsrc. rewrite app_assoc in Hsrc.
    assert (blen (q ++ env) <= blen used)%nat as Hle by (rewrite blen_app; lia).
    clear - Hsrc Hle. setoid_rewrite app_assoc. revert used Hsrc Hle. generalize (q ++ env) as l.
    induction l as [|x l IH]; intros used Hsrc Hle; [now exists used|].
    destruct used as [|y used]; [simpl in Hle; pose proof (utf8_len_pos x); lia|].
    simpl in Hsrc. injection Hsrc as -> Hsrc. simpl in Hle.
    destruct (IH used Hsrc) as [post Hpost]; [lia|]. exists post. simpl. now rewrite <- Hpost. }
  split; [now exists q, post|].
  (* shape of env *)
  assert (skipn ns (utf8 src) = utf8 from) as Hsk.
  { rewrite Hq, utf8_app, <- Hqn. rewrite skipn_app, blen_utf8, Nat.sub_diag, skipn_all2.
    - reflexivity.
    - rewrite blen_utf8. lia. }
  destruct (scan_name (star_ok None) from 0) as [a b] eqn:Es.
  assert (bump = List.length a) as Hb.
  { unfold bump. rewrite Hsk. rewrite (advance_scan _ _ _ _ _ Es). reflexivity. }
  assert (env = a) as ->.
  { apply scan_split in Es. rewrite <- Hb in Es.
    assert (split_bytes bump from = Some (env, tl')) as E6.
    { rewrite Hf, <- He. apply split_bytes_intro. }
    congruence. }
  split.
  { apply scan_name_shape in Es as (l & Hl & [[-> _]|[-> _]]); exists l; auto. }
  intros ->. simpl in Hu.
  apply nnt_collected in E1 as (u1 & _ & _ & _ & [_ H1]).
  change (utf8_len 123) with 1%nat in H1. lia.
Qed.

(** [lex_env_work] gives up: nothing to know.  [lex_begin_end] *)
Lemma lex_begin_end_tok isb raw0 src t raw rest :
  lex_begin_end isb raw0 src = LTok t raw rest ->
  raw0 ++ src = raw ++ rest /\ (exists u, raw = raw0 ++ u) /\
  ((fst t = CommandName (if isb then ErrorBeginEnvironment else ErrorEndEnvironment)
     /\ snd t = raw0 /\ raw = raw0) \/
   (fst t = CommandName (if isb then BeginEnvironment else EndEnvironment)
     /\ exists pre post, raw = raw0 ++ pre ++ snd t ++ post)).
Proof.
  unfold lex_begin_end. destruct (lex_env_work src) as [|?|env used rest'] eqn:E; try discriminate.
  - intros [= <- <- <-]. split; [reflexivity|]. split; [exists []; now rewrite app_nil_r|]. left. auto.
  - intros [= <- <- <-]. apply lex_env_work_some in E as (-> & (pre & post & ->) & _ & _).
    split; [now rewrite !app_assoc|]. split; [eauto|]. right. split; [reflexivity|].
    exists pre, post. reflexivity.
Qed.

(** A control word: letters, and a star exactly when the specification says so *)
Definition control_word (sp : spec) (name rest : text) : Prop :=
  exists c l, Forall (fun c => is_name_char c = true) (c :: l) /\
    ((name = c :: l /\ match rest with
               | [] => True
               | d :: _ => is_name_char d = false /\ (d = 42 -> sp (c :: l ++ [42]) = None)
               end)
     \/ (name = c :: l ++ [42] /\ exists i, sp (c :: l ++ [42]) = Some i)).

Lemma star_ok_spec sp c l r :
  Forall (fun c => is_name_char c = true) (c :: l) ->
  star_ok (Some (sp, c :: l ++ 42 :: r)) (List.length l) =
    match sp (c :: l ++ [42]) with Some _ => true | None => false end.
Proof.
  intros H. unfold star_ok.
  assert (List.length l + 2 = blen (c :: l ++ [42%N]))%nat as Hl.
  { rewrite blen_ascii.
    - simpl. rewrite app_length. simpl. lia.
    - inversion H; subst. constructor; [now apply name_char_ascii|]. apply Forall_app. split.
      + eapply Forall_impl; [|eassumption]. apply name_char_ascii.
      + constructor; [reflexivity|constructor]. }
  simpl Nat.add. rewrite Hl.
  replace (c :: l ++ 42 :: r) with ((c :: l ++ [42]) ++ r) by (simpl; now rewrite <- app_assoc).
  rewrite split_bytes_intro. reflexivity.
Qed.
Lemma scan_control_word sp c after a rest :
  is_name_char c = true -> scan_name (star_ok (Some (sp, c :: after))) after 0 = (a, rest) ->
  control_word sp (c :: a) rest.
Proof.
  intros Hc Hs. pose proof (scan_name_app _ _ _ _ _ Hs) as Ha. apply scan_name_shape in Hs as (l & Hl & H).
  exists c, l. split; [now constructor|]. destruct H as [[-> H]|[-> H]].
  - left. split; [reflexivity|]. destruct rest as [|d rest]; [trivial|].
    destruct H as [H1 H2]. split; [assumption|]. intros ->. specialize (H2 eq_refl).
    subst after. cbn [Nat.add] in H2. rewrite star_ok_spec in H2 by now constructor.
    destruct (sp (c :: l ++ [42])); congruence.
  - right. split; [reflexivity|]. subst after. rewrite <- app_assoc in H. cbn [app Nat.add] in H.
    rewrite star_ok_spec in H by now constructor.
    destruct (sp (c :: l ++ [42])) as [i|]; [now exists i | discriminate].
Qed.
Opaque star_ok.
Lemma scan_name_intro ok l : Forall (fun c => is_name_char c = true) l -> forall n r,
  scan_name ok (l ++ r) n = let '(a, b) := scan_name ok r (n + List.length l) in (l ++ a, b).
Proof.
  induction 1 as [|c l Hc Hl IH]; intros n r; simpl.
  - rewrite Nat.add_0_r. now destruct (scan_name ok r n).
  - assert (c =? 42 = false) as ->.
    { apply N.eqb_neq. intros ->. discriminate. }
    rewrite Hc, IH. simpl. rewrite Nat.add_succ_r. now destruct (scan_name ok r (S (n + List.length l))).
Qed.
Lemma control_word_scan sp c a rest : control_word sp (c :: a) rest ->
  is_name_char c = true /\ scan_name (star_ok (Some (sp, c :: a ++ rest))) (a ++ rest) 0 = (a, rest).
Proof.
  intros (c' & l & Hl & H). inversion Hl; subst.
  destruct H as [[[= <- ->] H]|[[= <- ->] [i H]]]; (split; [assumption|]).
  - rewrite scan_name_intro by assumption. destruct rest as [|d rest]; cbn [scan_name Nat.add].
    + now rewrite app_nil_r.
    + destruct H as [Hd Hstar]. destruct (N.eqb_spec d 42) as [->|].
      * pose proof (star_ok_spec sp c l rest Hl) as Hs. 
        rewrite Hs, Hstar by reflexivity. now rewrite app_nil_r.
      * rewrite Hd. now rewrite app_nil_r.
  - rewrite <- app_assoc. cbn [app]. rewrite scan_name_intro by assumption. cbn [scan_name Nat.add].
    pose proof (star_ok_spec sp c l rest Hl) as Hs. rewrite Hs, H. reflexivity.
Qed.

Transparent star_ok.

(** [lex_one] *)
Definition lexeme_of (t : tok) (raw : text) : Prop :=
  raw <> [] /\
  match fst t with
  | CommandName BeginEnvironment => exists pre post, raw = tx "\begin" ++ pre ++ snd t ++ post
  | CommandName EndEnvironment => exists pre post, raw = tx "\end" ++ pre ++ snd t ++ post
  | _ => raw = snd t
  end.

Lemma name_table_no_env name k : assoc name name_table = Some k ->
  k <> BeginEnvironment /\ k <> EndEnvironment /\ k <> ErrorBeginEnvironment /\ k <> ErrorEndEnvironment.
Proof.
  unfold name_table. cbn [assoc].
  repeat match goal with |- context [if ?b then _ else _] =>
    destruct b; [intros [= <-]; repeat split; discriminate|] end. discriminate.
Qed.

Lemma lex_command_name_tok sp start t raw rest :
  lex_command_name sp start = LTok t raw rest ->
  92 :: start = raw ++ rest /\ lexeme_of t raw.
Proof.
  destruct start as [|c after]; [intros [= <- <- <-]; split; [reflexivity|]; split; simpl; congruence|].
  destruct (is_whitespace c) eqn:Ew.
  { simpl. rewrite Ew. intros [= <- <- <-]; split; [reflexivity|]; split; simpl; congruence. }
  destruct (is_name_char c) eqn:En.
  - destruct (scan_name (star_ok (Some (sp, c :: after))) after 0) as [a rest'] eqn:Es.
    rewrite (lex_command_name_eq _ _ _ Ew En _ _ Es). cbv zeta.
    pose proof (scan_name_app _ _ _ _ _ Es) as Ha.
    destruct (assoc (c :: a) name_table) as [k|] eqn:Et.
    + intros [= <- <- <-]. split; [simpl; now rewrite Ha at 1|]. split; [discriminate|].
      apply name_table_no_env in Et as (? & ? & ? & ?). simpl. destruct k; congruence.
    + destruct (teqb (c :: a) (tx "begin")) eqn:Eb.
      { apply teqb_eq in Eb. intros H. apply lex_begin_end_tok in H as (H1 & (u & Hu) & H2).
        split; [rewrite <- H1; simpl; now rewrite Ha at 1|]. split; [subst raw; discriminate|].
        destruct H2 as [(-> & -> & ->)|(-> & pre & post & ->)]; [reflexivity|].
        exists pre, post. now rewrite Eb. }
      destruct (teqb (c :: a) (tx "end")) eqn:Ee.
      { apply teqb_eq in Ee. intros H. apply lex_begin_end_tok in H as (H1 & (u & Hu) & H2).
        split; [rewrite <- H1; simpl; now rewrite Ha at 1|]. split; [subst raw; discriminate|].
        destruct H2 as [(-> & -> & ->)|(-> & pre & post & ->)]; [reflexivity|].
        exists pre, post. now rewrite Ee. }
      intros [= <- <- <-]. split; [simpl; now rewrite Ha at 1|]. split; [discriminate|reflexivity].
  - simpl. rewrite Ew.
    destruct ((c =? 40) || (c =? 91)); [intros [= <- <- <-]; split; [reflexivity|]; split; simpl; congruence|].
    destruct ((c =? 41) || (c =? 93)); [intros [= <- <- <-]; split; [reflexivity|]; split; simpl; congruence|].
    unfold is_name_char in En. apply orb_false_iff in En as [-> ->]. simpl.
    intros [= <- <- <-]; split; [reflexivity|]; split; simpl; congruence.
Qed.

Lemma punct_not_cmd c k : punct_token c = Some k -> forall n, k <> CommandName n.
Proof.
  unfold punct_token.
  repeat match goal with |- context [if ?b then _ else _] =>
    destruct b; [intros [= <-]; discriminate|] end. discriminate.
Qed.

(** every step of the lexer consumes exactly the lexeme it returns *)
Lemma lex_one_tok sp src t raw rest :
  lex_one sp src = LTok t raw rest -> src = raw ++ rest /\ lexeme_of t raw.
Proof.
  destruct src as [|c r]; [discriminate|]. unfold lex_one.
  destruct (is_crlf c) eqn:Ec.
  { destruct (span is_crlf (c :: r)) as [a b] eqn:E. intros [= <- <- <-].
    split; [now apply span_app in E|]. split; [|reflexivity].
    cbn in E. rewrite Ec in E. destruct (span is_crlf r). injection E as <- <-. discriminate. }
  destruct (is_whitespace c) eqn:Ew.
  { destruct (span is_blank (c :: r)) as [a b] eqn:E. intros [= <- <- <-].
    split; [now apply span_app in E|]. split; [|reflexivity].
    cbn in E. unfold is_blank at 1 in E. rewrite Ec, Ew in E.
    cbn in E. destruct (span is_blank r). injection E as <- <-. discriminate. }
  destruct (c =? 37) eqn:E37.
  { destruct (span _ (c :: r)) as [a b] eqn:E. intros [= <- <- <-].
    split; [now apply span_app in E|]. split; [|reflexivity].
    cbn in E. rewrite Ec in E. cbn in E. destruct (span _ r). injection E as <- <-. discriminate. }
  destruct (c =? 36) eqn:E36.
  { destruct r as [|c' r']; [|destruct (c' =? 36)]; intros [= <- <- <-];
      (split; [reflexivity|]); (split; [discriminate|reflexivity]). }
  destruct (N.eqb_spec c 92) as [->|Hc].
  { destruct r as [|c' r']; [|destruct (c' =? 92)].
    - apply lex_command_name_tok.
    - intros [= <- <- <-]. split; [reflexivity|]; (split; [discriminate|reflexivity]).
    - apply lex_command_name_tok. }
  destruct (punct_token c) as [k|] eqn:Ep.
  { intros [= <- <- <-]. split; [reflexivity|]. split; [discriminate|]. simpl.
    pose proof (punct_not_cmd _ _ Ep) as H. destruct k; try reflexivity. now specialize (H c0). }
  destruct (span is_word_char (c :: r)) as [a b] eqn:E. intros [= <- <- <-].
  split; [now apply span_app in E|]. split; [|reflexivity].
  apply N.eqb_neq in Hc.
  assert (is_word_char c = true) as Hw by (unfold is_word_char; now rewrite Ew, Ep, E36, E37, Hc).
  cbn [span] in E. rewrite Hw in E. destruct (span is_word_char r). injection E as <- <-. discriminate.
Qed.
