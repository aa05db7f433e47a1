(** The lexer model meets the exact lexical grammar of DelimSpec.v. *)
From Verif Require Export LexClass DelimSpec.
Local Open Scope N_scope.

(** ** byte positions *)
Lemma cut_split s n a b : cut s n a b <-> split_bytes n s = Some (a, b).
Proof.
  split; [intros [-> <-]; apply split_bytes_intro | apply split_bytes_app].
Qed.
Lemma boundary_split s n : boundary s n <-> split_bytes n s <> None.
Proof.
  split.
  - intros (a & b & H). apply cut_split in H. congruence.
  - intros H. destruct (split_bytes n s) as [[a b]|] eqn:E; [|congruence].
    exists a, b. now apply cut_split.
Qed.
Lemma not_boundary_split s n : ~ boundary s n <-> split_bytes n s = None.
Proof.
  rewrite boundary_split. destruct (split_bytes n s) as [x|].
  - split; [intros H; exfalso; apply H; discriminate | discriminate].
  - split; [reflexivity | congruence].
Qed.
Lemma cut_fun s n a b a' b' : cut s n a b -> cut s n a' b' -> a = a' /\ b = b'.
Proof. rewrite !cut_split. intros -> [= -> ->]. auto. Qed.

Lemma utf8_char_cont c n : (0 < n < utf8_len c)%nat ->
  exists b r, skipn n (utf8_char c) = b :: r /\ 0x80 <= b.
Proof.
  unfold utf8_len, utf8_char. intros H.
  destruct (c <? 0x80); [lia|].
  destruct (c <? 0x800).
  { assert (n = 1)%nat as -> by lia. eexists _, _. split; [reflexivity|]. apply N.le_add_r. }
  destruct (c <? 0x10000).
  { assert (n = 1 \/ n = 2)%nat as [-> | ->] by lia; (eexists _, _; split; [reflexivity|]; apply N.le_add_r). }
  assert (n = 1 \/ n = 2 \/ n = 3)%nat as [-> | [-> | ->]] by lia;
    (eexists _, _; split; [reflexivity|]; apply N.le_add_r).
Qed.
Lemma inside_char s : forall n, split_bytes n s = None -> (n <= blen s)%nat ->
  exists b r, skipn n (utf8 s) = b :: r /\ 0x80 <= b.
Proof.
  induction s as [|c s IH]; intros n; simpl.
  - destruct n; [discriminate|lia].
  - destruct n as [|n]; [discriminate|]. intros H Hn.
    destruct (Nat.leb_spec (utf8_len c) (S n)) as [Hl|Hl].
    + destruct (split_bytes (S n - utf8_len c) s) as [[a b]|] eqn:E; [discriminate|].
      destruct (IH _ E) as (b & r & Hb & Hb'); [lia|]. exists b, r. split; [|assumption].
      unfold utf8 in *. rewrite skipn_app, utf8_char_length, skipn_all2 by (rewrite utf8_char_length; lia).
      exact Hb.
    + destruct (utf8_char_cont c (S n)) as (b & r & Hb & Hb'); [lia|].
      exists b, (r ++ utf8 s). split; [|assumption].
      rewrite skipn_app, Hb. replace (S n - List.length (utf8_char c))%nat with 0%nat
        by (rewrite utf8_char_length; lia). reflexivity.
Qed.
Lemma advance_inside cmd b r : 0x80 <= b -> advance_ascii_name cmd (b :: r) 0 = 0%nat.
Proof.
  intros H. destruct (nonascii_not_name b H) as [H1 H2]. cbn [advance_ascii_name].
  apply N.eqb_neq in H2. rewrite H2. unfold is_name_char in H1. apply orb_false_iff in H1 as [-> ->].
  reflexivity.
Qed.

(** ** gaps *)
Definition solid (c : char) : Prop := is_whitespace c = false /\ c <> 37.

Lemma nnt_in_comment body : all (fun c => ~ eol c) body -> forall e s k, eol e ->
  next_non_trivia true (body ++ e :: s) k = next_non_trivia false s (k + blen body).
Proof.
  induction 1 as [|c body Hc Hb IH]; intros e s k He; cbn [app next_non_trivia blen].
  - apply eol_iff in He. rewrite He, Nat.add_0_r. reflexivity.
  - apply eol_iff' in Hc. rewrite Hc, (IH e s _ He), Nat.add_assoc. reflexivity.
Qed.
Lemma nnt_gap_intro n g : gap n g -> forall c r k k', solid c ->
  (k' + n = k + blen g + utf8_len c)%nat ->
  next_non_trivia false (g ++ c :: r) k = (Some c, r, k').
Proof.
  induction 1 as [|n x g Hx Hg IH|n body e g Hb He Hg IH]; intros c r k k' Hc Hk.
  - destruct Hc as [Hc Hp]. cbn [app next_non_trivia blen] in *. rewrite Hc.
    apply N.eqb_neq in Hp. rewrite Hp. do 2 f_equal. lia.
  - cbn [app next_non_trivia blen] in *. rewrite Hx. apply IH; [assumption|lia].
  - change (tx "%" ++ body ++ [e] ++ g) with (37 :: body ++ e :: g) in *.
    replace ((37 :: body ++ e :: g) ++ c :: r) with (37 :: body ++ e :: (g ++ c :: r))
      by (cbn [app]; rewrite <- app_assoc; reflexivity).
    cbn [next_non_trivia]. change (is_whitespace 37) with false. cbv iota.
    change (37 =? 37) with true. cbv iota.
    rewrite nnt_in_comment by assumption. apply IH; [assumption|].
    cbn [blen] in Hk. rewrite blen_app in Hk. cbn [blen] in Hk.
    assert (utf8_len e = 1%nat) as He1 by (destruct He; subst; reflexivity). lia.
Qed.
Lemma nnt_comment_inv s : forall k c r k', next_non_trivia true s k = (Some c, r, k') ->
  exists body e s', s = body ++ e :: s' /\ all (fun c => ~ eol c) body /\ eol e /\
    next_non_trivia false s' (k + blen body) = (Some c, r, k').
Proof.
  induction s as [|x s IH]; intros k c r k'; cbn [next_non_trivia]; [discriminate|].
  destruct (is_crlf x) eqn:E.
  - intros H. exists [], x, s. split; [reflexivity|]. split; [constructor|].
    split; [now apply eol_iff|]. cbn [blen]. now rewrite Nat.add_0_r.
  - intros H. apply IH in H as (body & e & s' & -> & Hb & He & H).
    exists (x :: body), e, s'. split; [reflexivity|]. split; [constructor; [now apply eol_iff'|assumption]|].
    split; [assumption|]. cbn [blen]. now rewrite Nat.add_assoc.
Qed.
Lemma nnt_gap_inv : forall s k c r k', next_non_trivia false s k = (Some c, r, k') ->
  exists n g, gap n g /\ s = g ++ c :: r /\ solid c /\ (k' + n = k + blen g + utf8_len c)%nat.
Proof.
  intros s. induction s as [s IH] using (well_founded_induction (Wf_nat.well_founded_ltof _ (@List.length N))).
  intros k c r k'. unfold Wf_nat.ltof in IH. destruct s as [|x s]; cbn [next_non_trivia]; [discriminate|].
  destruct (is_whitespace x) eqn:Ex.
  - intros H. apply IH in H as (n & g & Hg & -> & Hc & Hk); [|simpl; lia].
    exists n, (x :: g). split; [now constructor|]. split; [reflexivity|]. split; [assumption|].
    cbn [blen]. lia.
  - destruct (N.eqb_spec x 37) as [->|Hx].
    + intros H. apply nnt_comment_inv in H as (body & e & s' & -> & Hb & He & H).
      apply IH in H as (n & g & Hg & -> & Hc & Hk); [|simpl; rewrite app_length; simpl; lia].
      exists (S n), (37 :: body ++ e :: g). split; [exact (gap_comment n body e g Hb He Hg)|].
      split; [cbn [app]; rewrite <- app_assoc; reflexivity|]. split; [assumption|].
      cbn [blen]. rewrite blen_app. cbn [blen]. change (utf8_len 37) with 1%nat in *.
      assert (utf8_len e = 1%nat) as He1 by (destruct He; subst; reflexivity). lia.
    + intros [= <- <- <-]. exists 0%nat, []. split; [constructor|]. split; [reflexivity|].
      split; [now split|]. cbn [blen]. lia.
Qed.
Lemma gap_fun n g c r n' g' c' r' : gap n g -> gap n' g' -> solid c -> solid c' ->
  g ++ c :: r = g' ++ c' :: r' -> c = c' /\ r = r' /\ n = n' /\ g = g'.
Proof.
  intros Hg Hg' Hc Hc' E.
  assert (forall n g, gap n g -> (n <= blen g)%nat) as Hle.
  { clear. induction 1 as [|? ? ? ? ? IH|? ? e ? ? He ? IH]; [reflexivity|..].
    - cbn [blen]. lia.
    - change (tx "%" ++ body ++ [e] ++ g) with (37 :: body ++ e :: g). cbn [blen]. rewrite blen_app. cbn [blen].
      change (utf8_len 37) with 1%nat. lia. }
  pose proof (Hle _ _ Hg). pose proof (Hle _ _ Hg').
  pose proof (nnt_gap_intro n g Hg c r 0 (blen g + utf8_len c - n) Hc ltac:(lia)) as H1.
  pose proof (nnt_gap_intro n' g' Hg' c' r' 0 (blen g' + utf8_len c' - n') Hc' ltac:(lia)) as H2.
  rewrite E, H2 in H1. injection H1 as <- <- H1.
  assert (g = g') as <-.
  { apply (f_equal (@rev N)) in E. rewrite !rev_app_distr in E. apply app_inv_head in E.
    rewrite <- (rev_involutive g), E, rev_involutive. reflexivity. }
  repeat split; lia.
Qed.
Lemma solid_open : solid 123. Proof. split; [reflexivity|discriminate]. Qed.
Lemma solid_close : solid 125. Proof. split; [reflexivity|discriminate]. Qed.

Lemma opening_nnt r i : opening r i <->
  exists after, next_non_trivia false r 0 = (Some 123, after, i).
Proof.
  split.
  - intros (g & n & after & Hg & -> & Hi). exists after.
    apply (nnt_gap_intro n g Hg 123 after 0 i solid_open).
    rewrite blen_app in Hi. exact Hi.
  - intros (after & H). apply nnt_gap_inv in H as (n & g & Hg & -> & _ & Hk).
    exists g, n, after. split; [assumption|]. split; [reflexivity|]. rewrite blen_app. exact Hk.
Qed.
Lemma closing_nnt before more j : closing before more j <->
  exists after, next_non_trivia false more (blen before) = (Some 125, after, j).
Proof.
  split.
  - intros (g & n & after & Hg & -> & Hi). exists after.
    apply (nnt_gap_intro n g Hg 125 after _ j solid_close).
    rewrite !blen_app, Nat.add_assoc in Hi. exact Hi.
  - intros (after & H). apply nnt_gap_inv in H as (n & g & Hg & -> & _ & Hk).
    exists g, n, after. split; [assumption|]. split; [reflexivity|].
    rewrite !blen_app, Nat.add_assoc. exact Hk.
Qed.
Lemma opening_fun r i i' : opening r i -> opening r i' -> i = i'.
Proof. rewrite !opening_nnt. intros [a ->] [b [=]]. assumption. Qed.
Lemma closing_fun b m j j' : closing b m j -> closing b m j' -> j = j'.
Proof. rewrite !closing_nnt. intros [a ->] [x [=]]. assumption. Qed.

(** ** names *)
Lemma whole_name_scan name more :
  whole_name name more <-> scan_name (star_ok None) (name ++ more) 0 = (name, more).
Proof.
  split.
  - intros [(l & Hl & Hn) H].
    assert (Forall (fun c => is_name_char c = true) l) as Hl'.
    { eapply Forall_impl; [|exact Hl]. intros x. apply letter_iff. }
    assert (forall l' r', scan_name (star_ok None) ((l' ++ tx "*") ++ r') 0 = (l' ++ tx "*", r') \/
      ~ Forall (fun c => is_name_char c = true) l') as Hstar.
    { intros l' r'. destruct (Forall_dec (fun c => is_name_char c = true)
        (fun c => Bool.bool_dec (is_name_char c) true) l') as [F|F]; [left|now right].
      rewrite <- app_assoc, scan_name_intro by assumption. reflexivity. }
    destruct Hn as [-> | ->].
    + destruct H as [(l' & ->)|[H1 H2]].
      { apply Forall_app in Hl' as [_ Hl']. inversion Hl'; subst. discriminate. }
      rewrite scan_name_intro by assumption. destruct more as [|c more]; cbn [scan_name].
      * now rewrite app_nil_r.
      * cbn [starts] in H1, H2. destruct (N.eqb_spec c 42) as [->|]; [congruence|].
        apply letter_iff' in H1. rewrite H1, app_nil_r. reflexivity.
    + destruct (Hstar l more) as [E|E]; [exact E|contradiction].
  - intros H. split; [now apply scan_env_name in H|].
    apply scan_name_shape in H as (l & Hl & [[-> H]|[-> H]]).
    + right. destruct more as [|c more]; cbn [starts]; [tauto|]. destruct H as [H1 H2].
      split; [now apply letter_iff'|]. intros <-. discriminate (H2 eq_refl).
    + left. now exists l.
Qed.
Lemma whole_name_fun name more name' more' : whole_name name more -> whole_name name' more' ->
  name ++ more = name' ++ more' -> name = name' /\ more = more'.
Proof.
  rewrite !whole_name_scan. intros H1 H2 E. rewrite E, H2 in H1. now injection H1.
Qed.

(** ** the delimiter *)
Lemma work_opened r i : opening r i ->
  lex_env_work r =
    match split_bytes i r with
    | None => WPanic "token.rs:404 str slice"
    | Some (a, s) =>
      let '(name, more) := scan_name (star_ok None) s 0 in
      let '(c, _, j) := next_non_trivia false more (blen (a ++ name)) in
      match c with
      | None => WNone
      | Some c =>
        if negb (c =? 125) then WNone else
        match split_bytes j r with
        | None => WPanic "token.rs:411 bump"
        | Some (used, rest) => WSome name used rest
        end
      end
    end.
Proof.
  intros H. apply opening_nnt in H as [after H]. unfold lex_env_work. rewrite H.
  change (negb (123 =? 123)) with false. cbv iota zeta.
  pose proof H as H'. apply nnt_collected in H' as (u & Hu & Hle & _).
  assert (i <= blen r)%nat as Hi by (rewrite Hu, blen_app; lia).
  rewrite blen_utf8. destruct (Nat.ltb_spec (blen r) i); [lia|].
  destruct (split_bytes i r) as [[a s]|] eqn:Es.
  - apply split_bytes_app in Es as [-> <-].
    assert (skipn (blen a) (utf8 (a ++ s)) = utf8 s) as ->.
    { rewrite utf8_app, <- blen_utf8, skipn_app, Nat.sub_diag, skipn_all. reflexivity. }
    destruct (scan_name (star_ok None) s 0) as [name more] eqn:En.
    rewrite (advance_scan _ _ _ _ _ En). cbn [Nat.add].
    pose proof (scan_name_ascii _ _ _ _ _ En) as Hasc.
    pose proof (scan_name_app _ _ _ _ _ En) as ->.
    rewrite <- (blen_ascii name) by assumption. rewrite <- blen_app.
    assert (split_bytes (blen (a ++ name)) (a ++ name ++ more) = Some (a ++ name, more)) as ->.
    { rewrite app_assoc. apply split_bytes_intro. }
    destruct (next_non_trivia false more (blen (a ++ name))) as [[c ?] j].
    destruct c as [c|]; [|reflexivity]. destruct (negb (c =? 125)); [reflexivity|].
    destruct (split_bytes j (a ++ name ++ more)) as [[used rest]|]; [|reflexivity].
    rewrite !split_bytes_intro. reflexivity.
  - destruct (inside_char r i Es Hi) as (b & t & Hb & Hb'). rewrite Hb, (advance_inside _ _ _ Hb').
    rewrite Nat.add_0_r, Es. reflexivity.
Qed.
Lemma work_unopened r : (forall i, ~ opening r i) -> lex_env_work r = WNone.
Proof.
  intros H. unfold lex_env_work. destruct (next_non_trivia false r 0) as [[c after] i] eqn:E.
  destruct c as [c|]; [|reflexivity]. destruct (N.eqb_spec c 123) as [->|]; [|reflexivity].
  exfalso. apply (H i). apply opening_nnt. now exists after.
Qed.
Lemma opening_dec r : (exists i, opening r i) \/ (forall i, ~ opening r i).
Proof.
  destruct (next_non_trivia false r 0) as [[c after] i] eqn:E. destruct c as [c|].
  - destruct (N.eq_dec c 123) as [->|Hc].
    + left. exists i. apply opening_nnt. eauto.
    + right. intros j Hj. apply opening_nnt in Hj as [x Hx]. congruence.
  - right. intros j Hj. apply opening_nnt in Hj as [x Hx]. congruence.
Qed.

Lemma work_delimiter r name used rest :
  lex_env_work r = WSome name used rest <-> delimiter r name used rest.
Proof.
  split.
  - intros H. destruct (opening_dec r) as [[i Hi]|Hi]; [|rewrite work_unopened in H by exact Hi; discriminate].
    rewrite (work_opened r i Hi) in H.
    destruct (split_bytes i r) as [[a s]|] eqn:Es; [|discriminate].
    destruct (scan_name (star_ok None) s 0) as [nm more] eqn:En.
    pose proof (scan_name_app _ _ _ _ _ En) as ->.
    destruct (next_non_trivia false more (blen (a ++ nm))) as [[c x] j] eqn:Ej.
    destruct c as [c|]; [|discriminate]. destruct (N.eqb_spec c 125) as [->|]; [|discriminate].
    cbn [negb] in H. destruct (split_bytes j r) as [[u rs]|] eqn:Eu; [|discriminate].
    injection H as <- <- <-. exists i, j, a, more.
    split; [exact Hi|]. split; [now apply cut_split|]. split; [now apply whole_name_scan|].
    split; [apply closing_nnt; eauto|now apply cut_split].
  - intros (i & j & a & more & Hi & Ha & Hn & Hj & Hu).
    rewrite (work_opened r i Hi). apply cut_split in Ha, Hu. apply whole_name_scan in Hn.
    apply closing_nnt in Hj as [x Hj].
    rewrite Ha, Hn, Hj. change (negb (125 =? 125)) with false. cbv iota. rewrite Hu. reflexivity.
Qed.
Lemma work_broken r : (exists s, lex_env_work r = WPanic s) <-> broken r.
Proof.
  split.
  - intros [site H]. destruct (opening_dec r) as [[i Hi]|Hi]; [|rewrite work_unopened in H by exact Hi; discriminate].
    exists i. split; [exact Hi|]. rewrite (work_opened r i Hi) in H.
    destruct (split_bytes i r) as [[a s]|] eqn:Es; [|left; now apply not_boundary_split].
    destruct (scan_name (star_ok None) s 0) as [nm more] eqn:En.
    pose proof (scan_name_app _ _ _ _ _ En) as ->.
    destruct (next_non_trivia false more (blen (a ++ nm))) as [[c x] j] eqn:Ej.
    destruct c as [c|]; [|discriminate]. destruct (N.eqb_spec c 125) as [->|]; [|discriminate].
    cbn [negb] in H. destruct (split_bytes j r) as [[u rs]|] eqn:Eu; [discriminate|].
    right. exists j, a, nm, more. split; [now apply cut_split|]. split; [now apply whole_name_scan|].
    split; [apply closing_nnt; eauto|now apply not_boundary_split].
  - intros (i & Hi & H). rewrite (work_opened r i Hi). destruct H as [H|(j & a & nm & more & Ha & Hn & Hj & Hu)].
    + apply not_boundary_split in H. rewrite H. eauto.
    + apply cut_split in Ha. apply not_boundary_split in Hu. apply whole_name_scan in Hn.
      apply closing_nnt in Hj as [x Hj].
      rewrite Ha, Hn, Hj. change (negb (125 =? 125)) with false. cbv iota. rewrite Hu. eauto.
Qed.
Lemma work_none r : lex_env_work r = WNone <->
  (forall name used rest, ~ delimiter r name used rest) /\ ~ broken r.
Proof.
  split.
  - intros H. split.
    + intros name used rest Hd. apply work_delimiter in Hd. congruence.
    + intros Hb. apply work_broken in Hb as [s Hs]. congruence.
  - intros [H1 H2]. destruct (lex_env_work r) as [|s|name used rest] eqn:E; [reflexivity|..].
    + exfalso. apply H2. apply work_broken. eauto.
    + exfalso. apply (H1 name used rest). now apply work_delimiter.
Qed.
Lemma delimiter_app r name used rest : delimiter r name used rest -> r = used ++ rest.
Proof. intros (i & j & a & more & _ & _ & _ & _ & [H _]). exact H. Qed.

(** ** one token *)
Lemma commented_word sp w r : In w [tx "begin"; tx "end"] -> commented_name r -> word_name sp w r.
Proof.
  intros Hw Hr. exists w. assert (all letter w /\ w <> []) as [Hl Hne].
  { destruct Hw as [<-|[<-|[]]]; (split; [|discriminate]);
      repeat (constructor; [unfold letter; cbn; lia|]); constructor. }
  split; [assumption|]. split; [assumption|]. left. split; [reflexivity|].
  assert (forall (b : text) c s, white b -> ~ letter c -> c <> 42 ->
    ~ starts letter (b ++ c :: s) /\ ~ starts (eq 42) (b ++ c :: s)) as Hs.
  { intros b c s Hb Hc H42. destruct Hb as [|x b Hx Hb]; cbn [app starts]; [split; congruence|].
    split; [intros H; apply letter_facts in H as [H _]; congruence|]. intros <-. discriminate. }
  destruct Hr as [(b & r' & Hb & ->)|(b & name & b' & r' & Hb & _ & _ & ->)];
    [destruct (Hs b 37 r' Hb) as [H1 H2] | destruct (Hs b 123 (name ++ b' ++ tx "%" ++ r') Hb) as [H1 H2]];
    try (unfold letter; lia); try discriminate; (split; [exact H1|]); intros H; contradiction (H2 H).
Qed.
Lemma word_begin_lex sp rest : word_name sp (tx "begin") rest ->
  lex_one sp (tx "\begin" ++ rest) = lex_begin_end true (tx "\begin") rest.
Proof.
  intros H. change (tx "\begin" ++ rest) with (92 :: tx "begin" ++ rest). rewrite lex_word by assumption.
  change (assoc (tx "begin") name_table) with (@None cmdname). rewrite teqb_refl. reflexivity.
Qed.
Lemma word_end_lex sp rest : word_name sp (tx "end") rest ->
  lex_one sp (tx "\end" ++ rest) = lex_begin_end false (tx "\end") rest.
Proof.
  intros H. change (tx "\end" ++ rest) with (92 :: tx "end" ++ rest). rewrite lex_word by assumption.
  change (assoc (tx "end") name_table) with (@None cmdname).
  change (teqb (tx "end") (tx "begin")) with false. rewrite teqb_refl. reflexivity.
Qed.
Lemma class_kinds sp k t raw rest : class sp k t raw rest ->
  ~ environment_kind k
  \/ (exists r, raw ++ rest = tx "\begin" ++ r /\ word_name sp (tx "begin") r)
  \/ (exists r, raw ++ rest = tx "\end" ++ r /\ word_name sp (tx "end") r).
Proof.
  assert (forall k', (forall c, k' <> CommandName c) -> ~ environment_kind k') as Hnc.
  { intros k' Hk' Hin. cbn in Hin. repeat (destruct Hin as [<-|Hin]; [now eapply Hk'|]). exact Hin. }
  destruct 1; try (left; apply Hnc; discriminate); try (left; cbn; intuition discriminate).
  - left. apply Hnc. apply marks_iff in H. exact (punct_not_cmd _ _ H).
  - left. assert (assoc (tx name) name_table = Some k) as Ha by (apply reserved_iff; eauto).
    apply name_table_no_env in Ha. cbn. intuition congruence.
  - right. left. eexists. split; [|exact H]. rewrite <- !app_assoc. reflexivity.
  - right. right. eexists. split; [|exact H]. rewrite <- !app_assoc. reflexivity.
  - right. left. eexists. split; [|exact H]. reflexivity.
  - right. right. eexists. split; [|exact H]. reflexivity.
Qed.
Lemma lex_split sp src : src <> [] ->
  (exists k t raw rest, src = raw ++ rest /\ class sp k t raw rest /\ ~ environment_kind k /\
     lex_one sp src = LTok (k, t) raw rest)
  \/ (exists rest, src = tx "\begin" ++ rest /\ word_name sp (tx "begin") rest)
  \/ (exists rest, src = tx "\end" ++ rest /\ word_name sp (tx "end") rest).
Proof.
  intros Hne. destruct (lex_one_class sp src Hne) as [(k & t & raw & rest & E & Hc & Hl)|(r & E & Hc)].
  - destruct (class_kinds _ _ _ _ _ Hc) as [Hk|[(r & E' & H)|(r & E' & H)]].
    + left. exists k, t, raw, rest. auto.
    + right. left. exists r. split; [congruence|exact H].
    + right. right. exists r. split; [congruence|exact H].
  - right. destruct E as [E|E]; [left|right]; exists r; (split; [exact E|]);
      apply commented_word; try assumption; cbn; tauto.
Qed.

Lemma token_at_lex sp k t raw rest : token_at sp k t raw rest ->
  lex_one sp (raw ++ rest) = LTok (k, t) raw rest.
Proof.
  intros H. destruct H as [k t raw rest H _|name used rest Hw Hd|name used rest Hw Hd|rest Hw H1 H2|rest Hw H1 H2].
  - now apply class_lex_one.
  - rewrite <- app_assoc, (word_begin_lex sp _ Hw). unfold lex_begin_end.
    apply work_delimiter in Hd. now rewrite Hd.
  - rewrite <- app_assoc, (word_end_lex sp _ Hw). unfold lex_begin_end.
    apply work_delimiter in Hd. now rewrite Hd.
  - rewrite (word_begin_lex sp _ Hw). unfold lex_begin_end.
    pose proof (proj2 (work_none rest) (conj H1 H2)) as ->. reflexivity.
  - rewrite (word_end_lex sp _ Hw). unfold lex_begin_end.
    pose proof (proj2 (work_none rest) (conj H1 H2)) as ->. reflexivity.
Qed.
Lemma unreadable_lex sp src : unreadable sp src -> exists s, lex_one sp src = LPanic s.
Proof.
  intros (w & rest & Hw & -> & Hn & Hb). apply work_broken in Hb as [s Hs]. exists s.
  destruct Hw as [<-|[<-|[]]].
  - change (tx "\" ++ tx "begin" ++ rest) with (tx "\begin" ++ rest).
    rewrite (word_begin_lex sp _ Hn). unfold lex_begin_end. now rewrite Hs.
  - change (tx "\" ++ tx "end" ++ rest) with (tx "\end" ++ rest).
    rewrite (word_end_lex sp _ Hn). unfold lex_begin_end. now rewrite Hs.
Qed.
Lemma lex_cases sp src :
  (src = [] /\ lex_one sp src = LEnd)
  \/ (unreadable sp src /\ exists s, lex_one sp src = LPanic s)
  \/ (exists k t raw rest, src = raw ++ rest /\ token_at sp k t raw rest /\
        lex_one sp src = LTok (k, t) raw rest).
Proof.
  destruct src as [|c0 r0]; [left; auto|]. right.
  destruct (lex_split sp (c0 :: r0)) as [(k & t & raw & rest & E & Hc & Hk & Hl)|[(rest & E & Hw)|(rest & E & Hw)]];
    [discriminate|..].
  - right. exists k, t, raw, rest. split; [exact E|]. split; [now constructor|exact Hl].
  - rewrite E. destruct (lex_env_work rest) as [|s|name used rest'] eqn:Er.
    + right. exists (CommandName ErrorBeginEnvironment), (tx "\begin"), (tx "\begin"), rest.
      assert (token_at sp (CommandName ErrorBeginEnvironment) (tx "\begin") (tx "\begin") rest) as Ht.
      { apply work_none in Er as [H1 H2]. now constructor. }
      split; [reflexivity|]. split; [exact Ht|now apply token_at_lex].
    + left. assert (unreadable sp (tx "\begin" ++ rest)) as Hu.
      { exists (tx "begin"), rest. split; [cbn; tauto|]. split; [reflexivity|]. split; [exact Hw|].
        apply work_broken. eauto. }
      split; [exact Hu|now apply unreadable_lex].
    + right. apply work_delimiter in Er. pose proof (delimiter_app _ _ _ _ Er) as ->.
      exists (CommandName BeginEnvironment), name, (tx "\begin" ++ used), rest'.
      assert (token_at sp (CommandName BeginEnvironment) name (tx "\begin" ++ used) rest') as Ht by now constructor.
      split; [now rewrite <- app_assoc|]. split; [exact Ht|]. apply token_at_lex in Ht.
      rewrite <- app_assoc in Ht. exact Ht.
  - rewrite E. destruct (lex_env_work rest) as [|s|name used rest'] eqn:Er.
    + right. exists (CommandName ErrorEndEnvironment), (tx "\end"), (tx "\end"), rest.
      assert (token_at sp (CommandName ErrorEndEnvironment) (tx "\end") (tx "\end") rest) as Ht.
      { apply work_none in Er as [H1 H2]. now constructor. }
      split; [reflexivity|]. split; [exact Ht|now apply token_at_lex].
    + left. assert (unreadable sp (tx "\end" ++ rest)) as Hu.
      { exists (tx "end"), rest. split; [cbn; tauto|]. split; [reflexivity|]. split; [exact Hw|].
        apply work_broken. eauto. }
      split; [exact Hu|now apply unreadable_lex].
    + right. apply work_delimiter in Er. pose proof (delimiter_app _ _ _ _ Er) as ->.
      exists (CommandName EndEnvironment), name, (tx "\end" ++ used), rest'.
      assert (token_at sp (CommandName EndEnvironment) name (tx "\end" ++ used) rest') as Ht by now constructor.
      split; [now rewrite <- app_assoc|]. split; [exact Ht|]. apply token_at_lex in Ht.
      rewrite <- app_assoc in Ht. exact Ht.
Qed.

(** ** whole sources *)
Lemma lexed_stream sp src l ok : lexed sp src l ok ->
  stream_toks (lex_stream sp src) = l /\ stream_panics (lex_stream sp src) = negb ok.
Proof.
  induction 1 as [|src H|k t raw rest l ok H _ [IH1 IH2]]; rewrite lex_stream_eq.
  - auto.
  - apply unreadable_lex in H as [s ->]. auto.
  - rewrite (token_at_lex _ _ _ _ _ H). cbn [stream_toks stream_panics]. now rewrite IH1, IH2.
Qed.
Lemma lexed_exists sp src : exists l ok, lexed sp src l ok.
Proof.
  induction src as [src IH] using (lex_stream_ind sp).
  destruct (lex_cases sp src) as [[-> _]|[[H _]|(k & t & raw & rest & -> & H & Hl)]].
  - exists [], true. constructor.
  - exists [], false. now constructor.
  - apply lex_one_tok in Hl as [_ [Hne _]].
    destruct (IH rest) as (l & ok & Hr); [rewrite app_length; destruct raw; [contradiction|simpl; lia]|].
    exists ((k, t) :: l), ok. now constructor.
Qed.
