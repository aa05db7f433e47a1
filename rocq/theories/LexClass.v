(** The lexer model meets the declarative classification of LexSpec.v. *)
From Verif Require Export LexFacts LexSpec.
Local Open Scope N_scope.

Lemma eol_iff c : is_crlf c = true <-> eol c.
Proof. unfold is_crlf, eol. now rewrite orb_true_iff, !N.eqb_eq. Qed.
Lemma eol_iff' c : is_crlf c = false <-> ~ eol c.
Proof. rewrite <- eol_iff. destruct (is_crlf c); split; congruence. Qed.
Lemma blank_iff c : is_blank c = true <-> blank c.
Proof. unfold is_blank, blank. now rewrite andb_true_iff, negb_true_iff, eol_iff'. Qed.
Lemma blank_iff' c : is_blank c = false <-> ~ blank c.
Proof. rewrite <- blank_iff. destruct (is_blank c); split; congruence. Qed.
Lemma letter_iff c : is_name_char c = true <-> letter c.
Proof.
  unfold is_name_char, is_ascii_alpha, letter.
  rewrite !orb_true_iff, !andb_true_iff, !N.leb_le, N.eqb_eq. lia.
Qed.
Lemma letter_iff' c : is_name_char c = false <-> ~ letter c.
Proof. rewrite <- letter_iff. destruct (is_name_char c); split; congruence. Qed.
Lemma marks_iff c k : In (c, k) marks <-> punct_token c = Some k.
Proof.
  unfold punct_token, marks. split.
  - cbn. intros H. repeat (destruct H as [[= <- <-]|H]; [reflexivity|]). contradiction.
  - repeat match goal with |- context [if ?x =? ?y then _ else _] =>
      destruct (N.eqb_spec x y) as [->|]; [intros [= <-]; vm_compute; tauto|] end. discriminate.
Qed.
Lemma marks_none c : (forall k, ~ In (c, k) marks) <-> punct_token c = None.
Proof.
  split.
  - intros H. destruct (punct_token c) as [k|] eqn:E; [|reflexivity].
    apply marks_iff in E. now apply H in E.
  - intros H k Hk. apply marks_iff in Hk. congruence.
Qed.
Lemma wordlike_iff c : is_word_char c = true <-> wordlike c.
Proof.
  unfold is_word_char, wordlike. rewrite marks_none. cbn [In tx].
  change (N_of_ascii "\") with 92. change (N_of_ascii "%") with 37. change (N_of_ascii "$") with 36.
  rewrite negb_true_iff, !orb_false_iff, !N.eqb_neq.
  destruct (punct_token c); intuition congruence.
Qed.
Lemma wordlike_iff' c : is_word_char c = false <-> ~ wordlike c.
Proof. rewrite <- wordlike_iff. destruct (is_word_char c); split; congruence. Qed.

Lemma span_class p (P : char -> Prop) (Hp : forall c, p c = true <-> P c) s a b :
  span p s = (a, b) <-> s = a ++ b /\ all P a /\ ~ starts P b.
Proof.
  split.
  - intros H. split; [now apply span_app in H|]. split.
    + apply span_all in H. eapply Forall_impl; [|eassumption]. intros c. apply Hp.
    + apply span_stop in H. destruct b as [|c b]; simpl; [tauto|]. rewrite <- Hp. congruence.
  - intros (-> & Ha & Hb). apply span_intro.
    + eapply Forall_impl; [|exact Ha]. intros c. apply Hp.
    + destruct b as [|c b]; [trivial|]. simpl in Hb. destruct (p c) eqn:E; [|reflexivity].
      now apply Hp in E.
Qed.

Lemma control_word_iff sp name rest : control_word sp name rest <-> word_name sp name rest.
Proof.
  unfold control_word, word_name. split.
  - intros (c & l & Hl & H). exists (c :: l). split; [discriminate|]. split.
    { eapply Forall_impl; [|exact Hl]. intros x. apply letter_iff. }
    cbn zeta. destruct H as [[-> H]|[-> [i H]]].
    + left. split; [reflexivity|]. destruct rest as [|d rest]; [simpl; tauto|].
      destruct H as [Hd H]. split; [now apply letter_iff'|]. simpl. intros <-. now apply H.
    + right. split; [reflexivity|]. change (tx "*") with [42]. cbn [app]. congruence.
  - intros (l & Hl & Ha & H). destruct l as [|c l]; [contradiction|]. exists c, l. split.
    { eapply Forall_impl; [|exact Ha]. intros x. apply letter_iff. }
    cbn zeta in H. change (tx "*") with [42] in H. cbn [app] in H.
    destruct H as [(-> & H1 & H2)|(-> & H)].
    + left. split; [reflexivity|]. destruct rest as [|d rest]; [trivial|]. simpl in H1, H2.
      split; [now apply letter_iff'|]. intros ->. now apply H2.
    + right. split; [reflexivity|]. destruct (sp (c :: l ++ [42])) as [i|]; [eauto|congruence].
Qed.

Lemma reserved_iff name k : assoc name name_table = Some k <->
  exists n, In (n, k) reserved /\ tx n = name.
Proof.
  split.
  - unfold name_table. cbn [assoc].
    repeat match goal with |- context [if teqb name (tx ?x) then _ else _] =>
      destruct (teqbP name (tx x)) as [->|];
      [intros [= <-]; exists x; split; [|reflexivity]; vm_compute; tauto|] end. discriminate.
  - intros (n & H & <-). cbn in H.
    repeat (destruct H as [[= <- <-]|H]; [reflexivity|]). contradiction.
Qed.
Lemma reserved_none name : assoc name name_table = None <->
  forall n k, In (n, k) reserved -> tx n <> name.
Proof.
  split.
  - intros H n k Hn E. assert (assoc name name_table = Some k) by (apply reserved_iff; eauto). congruence.
  - intros H. destruct (assoc name name_table) as [k|] eqn:E; [|reflexivity].
    apply reserved_iff in E as (n & Hn & Ht). exfalso. eapply H; eassumption.
Qed.

(** [next_non_trivia] stops, or meets a comment *)
Lemma nnt_cases s n :
  exists w, white w /\
    ((s = w /\ next_non_trivia false s n = (None, [], (n + blen w)%nat))
     \/ (exists r, s = w ++ 37 :: r)
     \/ exists c r, s = w ++ c :: r /\ is_whitespace c = false /\ c <> 37 /\
        next_non_trivia false s n = (Some c, r, (n + blen (w ++ [c]))%nat)).
Proof.
  revert n; induction s as [|x s IH]; intros n; simpl.
  - exists []. split; [constructor|]. left. rewrite Nat.add_0_r. auto.
  - destruct (is_whitespace x) eqn:Ex.
    + destruct (IH (n + utf8_len x)%nat) as (w & Hw & H).
      exists (x :: w). split; [now constructor|].
      destruct H as [[-> H]|[[r ->]|(c & r & -> & Hc & Hp & H)]].
      * left. split; [reflexivity|]. rewrite H. f_equal; simpl; lia.
      * right. left. now exists r.
      * right. right. exists c, r. split; [reflexivity|]. split; [assumption|]. split; [assumption|].
        rewrite H. simpl. f_equal; simpl; lia.
    + exists []. split; [constructor|]. right. destruct (N.eqb_spec x 37) as [->|].
      * left. now exists s.
      * right. exists x, s. split; [reflexivity|]. split; [assumption|]. split; [assumption|].
        simpl. f_equal; simpl; lia.
Qed.

Lemma white_stop_inj (w w' : text) c c' r r' :
  white w -> white w' -> is_whitespace c = false -> is_whitespace c' = false ->
  w ++ c :: r = w' ++ c' :: r' -> w = w' /\ c = c' /\ r = r'.
Proof.
  intros Hw Hw' Hc Hc'. revert w' Hw'. induction Hw as [|x w Hx Hw IH]; intros w' Hw'.
  - destruct Hw' as [|y w' Hy Hw']; simpl; [intros [= -> ->]; auto|]. intros [= -> H]. congruence.
  - destruct Hw' as [|y w' Hy Hw']; simpl; [intros [= -> H]; congruence|].
    intros [= -> H]. apply IH in H as (-> & -> & ->); auto.
Qed.
Lemma white_no_stop (w w' : text) c r : white w -> is_whitespace c = false -> w = w' ++ c :: r -> False.
Proof.
  intros Hw Hc ->. apply Forall_app in Hw as [_ Hw]. inversion Hw; congruence.
Qed.

(** names in braces: scanning is exact *)
Lemma env_name_scan name r :
  env_name name ->
  match r with [] => True | c :: _ => is_name_char c = false /\ (c = 42 -> exists l, name = l ++ [42]) end ->
  scan_name (star_ok None) (name ++ r) 0 = (name, r).
Proof.
  intros (l & Hl & H) Hr.
  assert (Forall (fun c => is_name_char c = true) l) as Hl'.
  { eapply Forall_impl; [|exact Hl]. intros x. apply letter_iff. }
  destruct H as [-> | ->].
  - rewrite scan_name_intro by assumption. destruct r as [|c r]; cbn [scan_name].
    + now rewrite app_nil_r.
    + destruct Hr as [Hc Hs]. destruct (N.eqb_spec c 42) as [->|].
      * destruct (Hs eq_refl) as [l' ->]. apply Forall_app in Hl' as [_ Hl'].
        inversion Hl'; subst. discriminate.
      * rewrite Hc. now rewrite app_nil_r.
  - rewrite <- app_assoc. rewrite scan_name_intro by assumption. change (tx "*") with [42].
    cbn [app scan_name N.eqb Pos.eqb star_ok]. reflexivity.
Qed.
Lemma env_name_ascii name : env_name name -> Forall (fun c => c < 0x80) name.
Proof.
  intros (l & Hl & H).
  assert (Forall (fun c => c < 0x80) l) as Hl'.
  { eapply Forall_impl; [|exact Hl]. intros x Hx. apply name_char_ascii. now apply letter_iff. }
  destruct H as [-> | ->]; [assumption|]. apply Forall_app; split; [assumption|].
  constructor; [reflexivity|constructor].
Qed.

Lemma app_single (a : text) c r : a ++ c :: r = (a ++ [c]) ++ r.
Proof. now rewrite <- app_assoc. Qed.

(** when the first brace has been found with blanks only before it *)
Lemma lex_env_work_brace b s name r :
  white b -> scan_name (star_ok None) s 0 = (name, r) ->
  lex_env_work (b ++ 123 :: s) =
    let '(c, _, col) := next_non_trivia false r (blen (b ++ [123%N]) + blen name) in
    match c with
    | None => WNone
    | Some c =>
      if negb (c =? 125) then WNone else
      match split_bytes col (b ++ 123 :: s) with
      | None => WPanic "token.rs:411 bump"
      | Some (used, rest) => WSome name used rest
      end
    end.
Proof.
  intros Hb Hs. unfold lex_env_work.
  assert (next_non_trivia false (b ++ 123 :: s) 0 = (Some 123, s, (0 + blen (b ++ [123%N]))%nat)) as ->.
  { apply nnt_blanks; [assumption|reflexivity|discriminate]. }
  simpl negb. cbv iota. cbn [Nat.add].
  set (ns := blen (b ++ [123])).
  assert (utf8 (b ++ 123 :: s) = utf8 (b ++ [123]) ++ utf8 s) as Hu8.
  { rewrite (app_single b). apply utf8_app. }
  destruct (Nat.ltb_spec (List.length (utf8 (b ++ 123 :: s))) ns) as [Hlt|_].
  { rewrite Hu8, app_length, blen_utf8 in Hlt. unfold ns in Hlt. lia. }
  assert (skipn ns (utf8 (b ++ 123 :: s)) = utf8 s) as ->.
  { rewrite Hu8. unfold ns. rewrite <- blen_utf8. rewrite skipn_app, Nat.sub_diag, skipn_all. reflexivity. }
  rewrite (advance_scan _ _ _ _ _ Hs). cbn [Nat.add].
  pose proof (scan_name_ascii _ _ _ _ _ Hs) as Hasc.
  pose proof (scan_name_app _ _ _ _ _ Hs) as ->.
  rewrite <- (blen_ascii name) by assumption.
  assert (split_bytes (ns + blen name) (b ++ 123 :: name ++ r) = Some ((b ++ [123]) ++ name, r)) as ->.
  { unfold ns. rewrite <- blen_app.
    replace (b ++ 123 :: name ++ r) with (((b ++ [123]) ++ name) ++ r)
      by (rewrite <- !app_assoc; reflexivity). apply split_bytes_intro. }
  destruct (next_non_trivia false r (ns + blen name)) as [[c ?] col].
  destruct c as [c|]; [|reflexivity]. destruct (negb (c =? 125)); [reflexivity|].
  destruct (split_bytes col (b ++ 123 :: name ++ r)) as [[used rest]|]; [|reflexivity].
  assert (split_bytes ns (b ++ 123 :: name ++ r) = Some (b ++ [123], name ++ r)) as ->.
  { unfold ns. rewrite (app_single b 123 (name ++ r)). apply split_bytes_intro. }
  rewrite split_bytes_intro. reflexivity.
Qed.

(** without a comment inside, the delimiter is recognised exactly *)
Lemma lex_env_work_braced b name b' r :
  white b -> env_name name -> white b' ->
  lex_env_work (b ++ tx "{" ++ name ++ b' ++ tx "}" ++ r) =
    WSome name (b ++ tx "{" ++ name ++ b' ++ tx "}") r.
Proof.
  intros Hb Hn Hb'. change (tx "{") with [123]. change (tx "}") with [125]. cbn [app].
  rewrite (lex_env_work_brace b _ name (b' ++ 125 :: r) Hb).
  2: { apply env_name_scan; [assumption|].
       destruct Hb' as [|x b' Hx Hb']; cbn [app]; [split; [reflexivity|discriminate]|].
       split; [|intros ->; discriminate].
       destruct (is_name_char x) eqn:E; [|reflexivity]. exfalso.
       apply letter_iff in E. clear - E Hx. unfold letter, is_whitespace in *.
       rewrite !orb_true_iff, !andb_true_iff, !N.leb_le, !N.eqb_eq in Hx. lia. }
  rewrite nnt_blanks by (try assumption; try reflexivity; discriminate).
  cbv iota zeta. simpl negb. cbv iota.
  assert (blen (b ++ [123%N]) + blen name + blen (b' ++ [125%N])
          = blen (b ++ 123%N :: name ++ b' ++ [125%N]))%nat as ->.
  { rewrite !blen_app. cbn [blen]. rewrite !blen_app. cbn [blen]. lia. }
  replace (b ++ 123 :: name ++ b' ++ 125 :: r) with ((b ++ 123 :: name ++ b' ++ [125]) ++ r).
  - rewrite split_bytes_intro. reflexivity.
  - rewrite <- app_assoc. cbn [app]. now rewrite <- !app_assoc.
Qed.

Lemma scan_env_name s a r : scan_name (star_ok None) s 0 = (a, r) -> env_name a.
Proof.
  intros H. apply scan_name_shape in H as (l & Hl & H). exists l. split.
  - eapply Forall_impl; [|exact Hl]. intros c. apply letter_iff.
  - destruct H as [[-> _]|[-> _]]; auto.
Qed.

Lemma lex_env_work_other src :
  ~ braced_name src -> ~ commented_name src -> lex_env_work src = WNone.
Proof.
  intros Hnb Hnc. destruct (nnt_cases src 0) as (w & Hw & H).
  destruct H as [[-> H]|[[r ->]|(c & r & -> & Hc & Hp & H)]].
  - unfold lex_env_work. now rewrite H.
  - exfalso. apply Hnc. left. exists w, r. auto.
  - destruct (N.eqb_spec c 123) as [->|Hc123].
    2: { unfold lex_env_work. rewrite H. apply N.eqb_neq in Hc123. now rewrite Hc123. }
    destruct (scan_name (star_ok None) r 0) as [name r'] eqn:Es.
    rewrite (lex_env_work_brace _ _ _ _ Hw Es).
    pose proof (scan_env_name _ _ _ Es) as Hn. pose proof (scan_name_app _ _ _ _ _ Es) as ->.
    destruct (nnt_cases r' (blen (w ++ [123%N]) + blen name)) as (w' & Hw' & H').
    destruct H' as [[-> H']|[[r2 ->]|(c2 & r2 & -> & Hc2 & Hp2 & H')]].
    + now rewrite H'.
    + exfalso. apply Hnc. right. exists w, name, w', r2. auto.
    + rewrite H'. destruct (N.eqb_spec c2 125) as [->|]; [|reflexivity].
      exfalso. apply Hnb. exists w, name, w', r2. auto.
Qed.
Lemma braced_not_commented s : braced_name s -> ~ commented_name s.
Proof.
  intros (b & name & b' & r & Hb & Hn & Hb' & ->) [(w & r2 & Hw & H)|(w & name2 & w' & r2 & Hw & Hn2 & Hw' & H)].
  - change (tx "{") with [123] in H. change (tx "%") with [37] in H. cbn [app] in H.
    apply white_stop_inj in H as (_ & H & _); auto; discriminate.
  - change (tx "{") with [123] in H. change (tx "%") with [37] in H. change (tx "}") with [125] in H.
    cbn [app] in H. apply white_stop_inj in H as (_ & _ & H); auto.
    assert (forall x (bb : text) c s, white bb -> env_name x -> c <> 42 -> is_name_char c = false ->
       scan_name (star_ok None) (x ++ bb ++ c :: s) 0 = (x, bb ++ c :: s)) as Hscan.
    { intros x bb c s Hbb Hx Hc42 Hc. apply env_name_scan; [assumption|].
      destruct Hbb as [|y bb Hy Hbb]; cbn [app]; [split; [assumption|contradiction]|].
      split; [|intros ->; discriminate].
      destruct (is_name_char y) eqn:E; [|reflexivity]. exfalso.
      apply letter_iff in E. clear - E Hy. unfold letter, is_whitespace in *.
      rewrite !orb_true_iff, !andb_true_iff, !N.leb_le, !N.eqb_eq in Hy. lia. }
    pose proof (Hscan name b' 125 r Hb' Hn ltac:(discriminate) eq_refl) as H1.
    pose proof (Hscan name2 w' 37 r2 Hw' Hn2 ltac:(discriminate) eq_refl) as H2.
    rewrite H, H2 in H1. injection H1 as -> H1.
    apply white_stop_inj in H1 as (_ & H1 & _); auto; discriminate.
Qed.

(** Either the text in front of us has a class and lexes accordingly, or it is
    an environment delimiter with a comment inside. *)
Definition commented_delimiter (src : text) : Prop :=
  exists r, (src = tx "\begin" ++ r \/ src = tx "\end" ++ r) /\ commented_name r.

Definition lexes (sp : spec) (src : text) : Prop :=
  exists k t raw rest, src = raw ++ rest /\ class sp k t raw rest /\
    lex_one sp src = LTok (k, t) raw rest.

Lemma env_work_cases r :
  (exists b name b' r', white b /\ env_name name /\ white b' /\
     r = (b ++ tx "{" ++ name ++ b' ++ tx "}") ++ r' /\
     lex_env_work r = WSome name (b ++ tx "{" ++ name ++ b' ++ tx "}") r')
  \/ (~ braced_name r /\ ~ commented_name r /\ lex_env_work r = WNone)
  \/ commented_name r.
Proof.
  destruct (nnt_cases r 0) as (w & Hw & H).
  destruct H as [[-> H]|[[r0 ->]|(c & r0 & -> & Hc & Hp & H)]].
  - right. left.
    assert (~ braced_name w) as H1.
    { intros (b & name & b' & r' & _ & _ & _ & E). eapply white_no_stop; [exact Hw| |exact E]. reflexivity. }
    assert (~ commented_name w) as H2.
    { intros [(b & r' & _ & E)|(b & name & b' & r' & _ & _ & _ & E)];
      (eapply white_no_stop; [exact Hw| |exact E]; reflexivity). }
    auto using lex_env_work_other.
  - right. right. left. exists w, r0. auto.
  - destruct (N.eqb_spec c 123) as [->|Hc123].
    + destruct (scan_name (star_ok None) r0 0) as [name r'] eqn:Es.
      pose proof (scan_env_name _ _ _ Es) as Hn. pose proof (scan_name_app _ _ _ _ _ Es) as ->.
      destruct (nnt_cases r' 0) as (w' & Hw' & H').
      assert (Hscan : forall b name2 b' c2 s2, white b -> env_name name2 -> white b' -> c2 <> 42 ->
         is_name_char c2 = false -> w ++ 123 :: name ++ r' = b ++ 123 :: name2 ++ b' ++ c2 :: s2 ->
         r' = b' ++ c2 :: s2).
      { intros b name2 b' c2 s2 Hb Hn2 Hb' Hc42 Hc2 E.
        apply white_stop_inj in E as (_ & _ & E); auto.
        assert (scan_name (star_ok None) (name2 ++ b' ++ c2 :: s2) 0 = (name2, b' ++ c2 :: s2)) as Hsc.
        { apply env_name_scan; [assumption|].
          destruct Hb' as [|y bb Hy Hbb]; cbn [app]; [split; [assumption|contradiction]|].
          split; [|intros ->; discriminate].
          destruct (is_name_char y) eqn:Ey; [|reflexivity]. exfalso.
          apply letter_iff in Ey. clear - Ey Hy. unfold letter, is_whitespace in *.
          rewrite !orb_true_iff, !andb_true_iff, !N.leb_le, !N.eqb_eq in Hy. lia. }
        rewrite <- E, Es in Hsc. now injection Hsc. }
      destruct H' as [[-> _]|[[r2 ->]|(c2 & r2 & -> & Hc2 & Hp2 & _)]].
      * right. left.
        assert (~ braced_name (w ++ 123 :: name ++ w')) as H1.
        { intros (b & name2 & b' & r2 & Hb & Hn2 & Hb' & E).
          apply Hscan in E; auto; try discriminate.
          eapply white_no_stop; [exact Hw'| |exact E]. reflexivity. }
        assert (~ commented_name (w ++ 123 :: name ++ w')) as H2.
        { intros [(b & r2 & Hb & E)|(b & name2 & b' & r2 & Hb & Hn2 & Hb' & E)].
          - apply white_stop_inj in E as (_ & E & _); auto; discriminate.
          - apply Hscan in E; auto; try discriminate.
            eapply white_no_stop; [exact Hw'| |exact E]. reflexivity. }
        auto using lex_env_work_other.
      * right. right. right. exists w, name, w', r2. auto.
      * destruct (N.eqb_spec c2 125) as [->|Hc125].
        -- left. exists w, name, w', r2. repeat (split; [assumption|]).
           split.
           ++ rewrite <- !app_assoc. reflexivity.
           ++ exact (lex_env_work_braced w name w' r2 Hw Hn Hw').
        -- right. left.
           assert (~ braced_name (w ++ 123 :: name ++ w' ++ c2 :: r2)) as H1.
           { intros (b & name2 & b' & r3 & Hb & Hn2 & Hb' & E).
             apply Hscan in E; auto; try discriminate.
             apply white_stop_inj in E as (_ & E & _); auto; congruence. }
           assert (~ commented_name (w ++ 123 :: name ++ w' ++ c2 :: r2)) as H2.
           { intros [(b & r3 & Hb & E)|(b & name2 & b' & r3 & Hb & Hn2 & Hb' & E)].
             - apply white_stop_inj in E as (_ & E & _); auto; discriminate.
             - apply Hscan in E; auto; try discriminate.
               apply white_stop_inj in E as (_ & E & _); auto; congruence. }
           auto using lex_env_work_other.
    + right. left.
      assert (~ braced_name (w ++ c :: r0)) as H1.
      { intros (b & name2 & b' & r2 & Hb & Hn2 & Hb' & E).
        apply white_stop_inj in E as (_ & E & _); auto; congruence. }
      assert (~ commented_name (w ++ c :: r0)) as H2.
      { intros [(b & r2 & Hb & E)|(b & name2 & b' & r2 & Hb & Hn2 & Hb' & E)];
        (apply white_stop_inj in E as (_ & E & _); auto; congruence). }
      auto using lex_env_work_other.
Qed.

Lemma lex_command_class sp start :
  (exists k t raw rest, 92 :: start = raw ++ rest /\ class sp k t raw rest /\
    lex_command_name sp start = LTok (k, t) raw rest)
  \/ (exists r, (start = tx "begin" ++ r \/ start = tx "end" ++ r) /\ commented_name r)
  \/ starts (eq 92) start.
Proof.
  destruct start as [|c after].
  { left. exists (CommandName Generic), (tx "\"), (tx "\"), []. split; [reflexivity|].
    split; [apply cl_lone; auto | reflexivity]. }
  destruct (is_whitespace c) eqn:Ew.
  { left. exists (CommandName Generic), (tx "\"), (tx "\"), (c :: after). split; [reflexivity|].
    split; [apply cl_lone; auto|]. simpl. now rewrite Ew. }
  destruct (is_name_char c) eqn:En.
  - destruct (scan_name (star_ok (Some (sp, c :: after))) after 0) as [a rest] eqn:Es.
    rewrite (lex_command_name_eq _ _ _ Ew En _ _ Es). cbv zeta.
    pose proof (scan_name_app _ _ _ _ _ Es) as Ha.
    pose proof (scan_control_word _ _ _ _ _ En Es) as Hcw. apply control_word_iff in Hcw.
    rewrite Ha. clear Es Ha after.
    destruct (assoc (c :: a) name_table) as [k|] eqn:Et.
    { left. eexists _, _, _, _. split; [|split; [|reflexivity]]; [reflexivity|].
      apply reserved_iff in Et as (n & Hn & Ht). rewrite <- Ht in *.
      apply (cl_reserved sp n k rest); assumption. }
    destruct (teqbP (c :: a) (tx "begin")) as [Eb|Eb].
    { rewrite Eb in *. change (c :: a ++ rest) with ((c :: a) ++ rest). rewrite Eb.
      unfold lex_begin_end.
      destruct (env_work_cases rest) as [(b & name & b' & r' & Hb & Hn & Hb' & Hr & ->)|[(H1 & H2 & ->)|H]].
      - left. eexists _, _, _, _. split; [|split; [|reflexivity]].
        + rewrite Hr. change (92 :: tx "begin" ++ (b ++ tx "{" ++ name ++ b' ++ tx "}") ++ r')
            with ((92 :: tx "begin") ++ (b ++ tx "{" ++ name ++ b' ++ tx "}") ++ r').
          now rewrite app_assoc.
        + apply cl_begin; try assumption. rewrite Hr in Hcw. rewrite <- !app_assoc in Hcw. exact Hcw.
      - left. eexists _, _, _, _. split; [|split; [|reflexivity]]; [reflexivity|].
        now apply cl_badbegin.
      - right. left. exists rest. auto. }
    destruct (teqbP (c :: a) (tx "end")) as [Ee|Ee].
    { rewrite Ee in *. change (c :: a ++ rest) with ((c :: a) ++ rest). rewrite Ee.
      unfold lex_begin_end.
      destruct (env_work_cases rest) as [(b & name & b' & r' & Hb & Hn & Hb' & Hr & ->)|[(H1 & H2 & ->)|H]].
      - left. eexists _, _, _, _. split; [|split; [|reflexivity]].
        + rewrite Hr. change (92 :: tx "end" ++ (b ++ tx "{" ++ name ++ b' ++ tx "}") ++ r')
            with ((92 :: tx "end") ++ (b ++ tx "{" ++ name ++ b' ++ tx "}") ++ r').
          now rewrite app_assoc.
        + apply cl_end; try assumption. rewrite Hr in Hcw. rewrite <- !app_assoc in Hcw. exact Hcw.
      - left. eexists _, _, _, _. split; [|split; [|reflexivity]]; [reflexivity|].
        now apply cl_badend.
      - right. left. exists rest. auto. }
    left. eexists _, _, _, _. split; [|split; [|reflexivity]]; [reflexivity|].
    apply (cl_generic sp (c :: a) rest); try assumption. now apply reserved_none.
  - destruct (N.eqb_spec c 92) as [->|H92]; [right; right; reflexivity|]. left.
    unfold lex_command_name. rewrite Ew.
    destruct (N.eqb_spec c 40) as [->|H40].
    { eexists _, _, _, _. split; [|split; [|reflexivity]]; [reflexivity|].
      apply (cl_open sp 40); simpl; auto. }
    destruct (N.eqb_spec c 91) as [->|H91].
    { eexists _, _, _, _. split; [|split; [|reflexivity]]; [reflexivity|].
      apply (cl_open sp 91); simpl; auto. }
    destruct (N.eqb_spec c 41) as [->|H41].
    { eexists _, _, _, _. split; [|split; [|reflexivity]]; [reflexivity|].
      apply (cl_close sp 41); simpl; auto. }
    destruct (N.eqb_spec c 93) as [->|H93].
    { eexists _, _, _, _. split; [|split; [|reflexivity]]; [reflexivity|].
      apply (cl_close sp 93); simpl; auto. }
    simpl orb. cbv iota. pose proof En as En'. apply letter_iff' in En'.
    unfold is_name_char in En. apply orb_false_iff in En as [-> ->]. simpl andb. cbv iota.
    eexists _, _, _, _. split; [|split; [|reflexivity]]; [reflexivity|].
    apply (cl_symbol sp c); auto. simpl. intuition congruence.
Qed.

Lemma lex_one_class sp src : src <> [] -> lexes sp src \/ commented_delimiter src.
Proof.
  destruct src as [|c r]; [contradiction|]. intros _. unfold lexes, lex_one.
  destruct (is_crlf c) eqn:Ec.
  { destruct (span is_crlf (c :: r)) as [a b] eqn:E. left. exists LineBreak, a, a, b.
    pose proof E as E'. apply (span_class _ _ eol_iff) in E as (H1 & H2 & H3).
    split; [assumption|]. split; [|reflexivity]. apply cl_linebreak; try assumption.
    intros ->. simpl in H1. subst b. apply H3. now apply eol_iff. }
  destruct (is_whitespace c) eqn:Ew.
  { destruct (span is_blank (c :: r)) as [a b] eqn:E. left. exists Whitespace, a, a, b.
    apply (span_class _ _ blank_iff) in E as (H1 & H2 & H3).
    split; [assumption|]. split; [|reflexivity]. apply cl_blank; try assumption.
    intros ->. simpl in H1. subst b. apply H3. split; [assumption|]. now apply eol_iff'. }
  destruct (N.eqb_spec c 37) as [->|E37].
  { destruct (span (fun x => negb (is_crlf x)) (37 :: r)) as [a b] eqn:E. left.
    exists LineComment, a, a, b.
    assert (forall c, negb (is_crlf c) = true <-> ~ eol c) as Hn.
    { intros x. now rewrite negb_true_iff, eol_iff'. }
    apply (span_class _ _ Hn) in E as (H1 & H2 & H3).
    split; [assumption|]. split; [|reflexivity].
    destruct a as [|c0 a]; [simpl in H1; subst b; exfalso; apply H3; simpl; unfold eol; intuition discriminate|].
    injection H1 as <- H1. apply (cl_comment sp a b).
    - now inversion H2.
    - destruct b as [|d b]; [now left|]. right. simpl in *. unfold eol in *.
      destruct (N.eq_dec d 10), (N.eq_dec d 13); tauto. }
  destruct (N.eqb_spec c 36) as [->|E36].
  { left. destruct r as [|c' r'].
    - eexists _, _, _, _. split; [|split; [|reflexivity]]; [reflexivity|]. apply cl_dollar. simpl; tauto.
    - destruct (N.eqb_spec c' 36) as [->|].
      + eexists _, _, _, _. split; [|split; [|reflexivity]]; [reflexivity|]. apply cl_dollar2.
      + eexists _, _, _, _. split; [|split; [|reflexivity]]; [reflexivity|]. apply cl_dollar. simpl; congruence. }
  destruct (N.eqb_spec c 92) as [->|E92].
  { destruct (lex_command_class sp r) as [H|[(r' & Hr & Hc)|H]].
    - destruct r as [|c' r']; [now left|]. destruct (N.eqb_spec c' 92) as [->|]; [|now left].
      left. eexists _, _, _, _. split; [|split; [|reflexivity]]; [reflexivity|]. apply cl_newline.
    - right. exists r'. split; [|assumption]. destruct Hr as [-> | ->]; auto.
    - left. destruct r as [|c' r']; [contradiction|]. simpl in H. subst c'.
      eexists _, _, _, _. split; [|split; [|reflexivity]]; [reflexivity|]. apply cl_newline. }
  left. destruct (punct_token c) as [k|] eqn:Ep.
  { eexists _, _, _, _. split; [|split; [|reflexivity]]; [reflexivity|]. apply cl_mark. now apply marks_iff. }
  destruct (span is_word_char (c :: r)) as [a b] eqn:E. exists Word, a, a, b.
  apply (span_class _ _ wordlike_iff) in E as (H1 & H2 & H3).
  split; [assumption|]. split; [|reflexivity]. apply cl_word; try assumption.
  intros ->. simpl in H1. subst b. apply H3. apply wordlike_iff.
  unfold is_word_char. rewrite Ew, Ep. apply N.eqb_neq in E37, E36, E92. now rewrite E37, E36, E92.
Qed.

Lemma letter_facts c : letter c -> is_whitespace c = false /\ is_name_char c = true /\ c <> 92.
Proof.
  intros H. split; [|split; [now apply letter_iff | unfold letter in H; lia]].
  destruct (is_whitespace c) eqn:E; [|reflexivity]. exfalso. unfold letter, is_whitespace in *.
  rewrite !orb_true_iff, !andb_true_iff, !N.leb_le, !N.eqb_eq in E. lia.
Qed.
Lemma lex_backslash sp c r : c <> 92 -> lex_one sp (92 :: c :: r) = lex_command_name sp (c :: r).
Proof. intros H. apply N.eqb_neq in H. unfold lex_one. cbn -[N.eqb lex_command_name]. rewrite H. reflexivity. Qed.

Lemma lex_word sp name rest : word_name sp name rest ->
  lex_one sp (92 :: name ++ rest) =
    match assoc name name_table with
    | Some k => LTok (CommandName k, 92 :: name) (92 :: name) rest
    | None =>
      if teqb name (tx "begin") then lex_begin_end true (92 :: name) rest
      else if teqb name (tx "end") then lex_begin_end false (92 :: name) rest
      else LTok (CommandName Generic, 92 :: name) (92 :: name) rest
    end.
Proof.
  intros H. destruct name as [|c a].
  { exfalso. destruct H as (l & Hl & _ & [(H & _)|(H & _)]); [congruence|]. now destruct l. }
  apply control_word_iff, control_word_scan in H as [Hc Hs].
  pose proof Hc as Hl. apply letter_iff, letter_facts in Hl as (Hw & _ & H92).
  cbn [app]. rewrite lex_backslash by assumption.
  rewrite (lex_command_name_eq _ _ _ Hw Hc _ _ Hs). reflexivity.
Qed.

Lemma span_lexes p P (Hp : forall c, p c = true <-> P c) a b :
  all P a -> ~ starts P b -> span p (a ++ b) = (a, b).
Proof. intros. apply (span_class _ _ Hp). auto. Qed.

Lemma class_lex_one sp k t raw rest :
  class sp k t raw rest -> lex_one sp (raw ++ rest) = LTok (k, t) raw rest.
Proof.
  intros H. destruct H.
  - (* line break *)
    pose proof (span_lexes _ _ eol_iff _ _ H0 H1) as Hs.
    destruct raw as [|c raw]; [contradiction|]. unfold lex_one.
    inversion H0; subst. apply eol_iff in H4. cbn [app] in *. rewrite H4, Hs. reflexivity.
  - pose proof (span_lexes _ _ blank_iff _ _ H0 H1) as Hs.
    destruct raw as [|c raw]; [contradiction|]. unfold lex_one.
    inversion H0; subst. destruct H4 as [Hw He]. apply eol_iff' in He.
    cbn [app] in *. rewrite He, Hw, Hs. reflexivity.
  - assert (forall c, negb (is_crlf c) = true <-> ~ eol c) as Hn.
    { intros x. now rewrite negb_true_iff, eol_iff'. }
    assert (span (fun x => negb (is_crlf x)) ((37 :: body) ++ rest) = (37 :: body, rest)) as Hs.
    { apply (span_lexes _ _ Hn).
      - constructor; [unfold eol; intros [?|?]; discriminate | assumption].
      - destruct H0 as [-> | H0]; [simpl; tauto|]. destruct rest as [|c rest]; [contradiction|]. simpl in *. tauto. }
    change (tx "%" ++ body) with (37 :: body). unfold lex_one. cbn [app] in *.
    rewrite Hs. reflexivity.
  - unfold lex_one. cbn [app]. pose proof H as H'. apply marks_iff in H.
    assert (is_crlf c = false /\ is_whitespace c = false /\ c <> 37 /\ c <> 36 /\ c <> 92) as (-> & -> & E1 & E2 & E3).
    { cbn in H'. repeat (destruct H' as [[= <- <-]|H']; [repeat split; (reflexivity || discriminate)|]). contradiction. }
    apply N.eqb_neq in E1, E2, E3. rewrite E1, E2, E3, H. reflexivity.
  - pose proof (span_lexes _ _ wordlike_iff _ _ H0 H1) as Hs.
    destruct raw as [|c raw]; [contradiction|]. unfold lex_one.
    inversion H0; subst. destruct H4 as (Hw & Hn & Hk). apply marks_none in Hk.
    cbn [app] in *.
    assert (is_crlf c = false) as ->.
    { destruct (is_crlf c) eqn:E; [|reflexivity]. apply is_crlf_ws in E. congruence. }
    rewrite Hw, Hk, Hs. cbn in Hn.
    destruct (N.eqb_spec c 37); [subst; tauto|]. destruct (N.eqb_spec c 36); [subst; tauto|].
    destruct (N.eqb_spec c 92); [subst; tauto|]. reflexivity.
  - reflexivity.
  - destruct rest as [|c rest]; [reflexivity|]. simpl in H. unfold lex_one. cbn -[N.eqb].
    destruct (N.eqb_spec c 36); [congruence|reflexivity].
  - reflexivity.
  - destruct H as [-> | H]; [reflexivity|]. destruct rest as [|c rest]; [contradiction|]. simpl in H.
    cbn [tx app]. change (N_of_ascii "\") with 92. rewrite lex_backslash by (intros ->; discriminate).
    unfold lex_command_name. now rewrite H.
  - cbn in H. destruct H as [<-|[<-|[]]]; reflexivity.
  - cbn in H. destruct H as [<-|[<-|[]]]; reflexivity.
  - cbn [tx app]. change (N_of_ascii "\") with 92. cbn in H1.
    assert (c <> 92 /\ c <> 40 /\ c <> 91 /\ c <> 41 /\ c <> 93) as (E1 & E2 & E3 & E4 & E5) by intuition congruence.
    rewrite lex_backslash by assumption.
    unfold lex_command_name. rewrite H. apply N.eqb_neq in E2, E3, E4, E5. rewrite E2, E3, E4, E5.
    apply letter_iff' in H0. unfold is_name_char in H0. apply orb_false_iff in H0 as [-> ->]. reflexivity.
  - cbn [tx app]. change (N_of_ascii "\") with 92. rewrite lex_word by assumption.
    assert (assoc (tx name) name_table = Some k) as -> by (apply reserved_iff; eauto). reflexivity.
  - cbn [tx app]. change (N_of_ascii "\") with 92. rewrite lex_word by assumption.
    apply reserved_none in H0. rewrite H0.
    destruct (teqbP name (tx "begin")); [contradiction|]. destruct (teqbP name (tx "end")); [contradiction|].
    reflexivity.
  - replace ((tx "\begin" ++ blanks ++ tx "{" ++ name ++ blanks' ++ tx "}") ++ rest)
      with (92 :: tx "begin" ++ (blanks ++ tx "{" ++ name ++ blanks' ++ tx "}" ++ rest))
      by (rewrite <- !app_assoc; reflexivity).
    rewrite lex_word by assumption. cbn [assoc name_table teqb].
    change (assoc (tx "begin") name_table) with (@None cmdname).
    rewrite teqb_refl. unfold lex_begin_end. rewrite lex_env_work_braced by assumption. reflexivity.
  - replace ((tx "\end" ++ blanks ++ tx "{" ++ name ++ blanks' ++ tx "}") ++ rest)
      with (92 :: tx "end" ++ (blanks ++ tx "{" ++ name ++ blanks' ++ tx "}" ++ rest))
      by (rewrite <- !app_assoc; reflexivity).
    rewrite lex_word by assumption.
    change (assoc (tx "end") name_table) with (@None cmdname).
    change (teqb (tx "end") (tx "begin")) with false.
    rewrite teqb_refl. unfold lex_begin_end. rewrite lex_env_work_braced by assumption. reflexivity.
  - change (tx "\begin" ++ rest) with (92 :: tx "begin" ++ rest). rewrite lex_word by assumption.
    change (assoc (tx "begin") name_table) with (@None cmdname).
    rewrite teqb_refl. unfold lex_begin_end. rewrite lex_env_work_other by assumption. reflexivity.
  - change (tx "\end" ++ rest) with (92 :: tx "end" ++ rest). rewrite lex_word by assumption.
    change (assoc (tx "end") name_table) with (@None cmdname).
    change (teqb (tx "end") (tx "begin")) with false.
    rewrite teqb_refl. unfold lex_begin_end. rewrite lex_env_work_other by assumption. reflexivity.
Qed.

(** ** Whole sources *)
(** The tokens delivered before the end or before a panic *)
Fixpoint stream_toks (s : lstream) : list tok :=
  match s with SCons t s => t :: stream_toks s | _ => [] end.
Fixpoint stream_panics (s : lstream) : bool :=
  match s with SCons _ s => stream_panics s | SPanic _ => true | SNil => false end.

(** the fuel of [lex_stream] is never the reason to stop *)
Lemma lex_fuel_enough sp n : forall src m, (List.length src < n)%nat -> (List.length src < m)%nat ->
  lex_stream_fuel n sp src = lex_stream_fuel m sp src.
Proof.
  induction n as [|n IH]; intros src m Hn Hm; [lia|]. destruct m as [|m]; [lia|]. simpl.
  destruct (lex_one sp src) as [|?|t raw rest] eqn:E; [reflexivity..|].
  apply lex_one_tok in E as [-> [Hne _]].
  rewrite app_length in *. destruct raw; [contradiction|]. simpl in *. f_equal. apply IH; lia.
Qed.
Lemma lex_stream_eq sp src :
  lex_stream sp src =
    match lex_one sp src with
    | LEnd => SNil
    | LPanic s => SPanic s
    | LTok t _ rest => SCons t (lex_stream sp rest)
    end.
Proof.
  unfold lex_stream at 1. cbn [lex_stream_fuel].
  destruct (lex_one sp src) as [|?|t raw rest] eqn:E; [reflexivity..|].
  apply lex_one_tok in E as [-> [Hne _]]. f_equal. apply lex_fuel_enough.
  - rewrite app_length. destruct raw; [contradiction|]. simpl. lia.
  - lia.
Qed.
Lemma lex_stream_ind (sp : spec) (P : text -> Prop) :
  (forall src, (forall rest, (List.length rest < List.length src)%nat -> P rest) -> P src) ->
  forall src, P src.
Proof. intros H. apply (well_founded_induction (Wf_nat.well_founded_ltof _ (@List.length N))). exact H. Qed.

Lemma lex_one_end sp src : lex_one sp src = LEnd -> src = [].
Proof.
  destruct src as [|c r]; [reflexivity|]. intros H. exfalso. revert H. unfold lex_one.
  assert (Hb : forall b x y, lex_begin_end b x y <> LEnd).
  { intros b x y. unfold lex_begin_end. destruct (lex_env_work y); discriminate. }
  assert (Hc : forall s, lex_command_name sp s <> LEnd).
  { intros [|d s]; unfold lex_command_name; [discriminate|].
    destruct (is_whitespace d); [discriminate|].
    destruct ((d =? 40) || (d =? 91)); [discriminate|].
    destruct ((d =? 41) || (d =? 93)); [discriminate|].
    destruct (negb (d =? 64) && negb (is_ascii_alpha d)); [discriminate|].
    destruct (split_bytes _ _) as [[name rest]|]; [|discriminate].
    destruct (assoc name name_table); [discriminate|].
    destruct (teqb _ _); [apply Hb|]. destruct (teqb _ _); [apply Hb|]. discriminate. }
  destruct (is_crlf c); [destruct (span _ _); discriminate|].
  destruct (is_whitespace c); [destruct (span _ _); discriminate|].
  destruct (c =? 37); [destruct (span _ _); discriminate|].
  destruct (c =? 36); [destruct r as [|c' r']; [|destruct (c' =? 36)]; discriminate|].
  destruct (c =? 92).
  - destruct r as [|c' r']; [apply Hc|]. destruct (c' =? 92); [discriminate|apply Hc].
  - destruct (punct_token c); [discriminate|]. destruct (span _ _); discriminate.
Qed.

Lemma lex_lossless sp src :
  exists raws rest, src = List.concat raws ++ rest /\
    Forall2 lexeme_of (stream_toks (lex_stream sp src)) raws /\
    (stream_panics (lex_stream sp src) = false -> rest = []).
Proof.
  induction src as [src IH] using (lex_stream_ind sp). rewrite lex_stream_eq.
  destruct (lex_one sp src) as [|?|t raw rest] eqn:E.
  - apply lex_one_end in E as ->. exists [], []. repeat split; constructor.
  - exists [], src. repeat split; [constructor | discriminate].
  - apply lex_one_tok in E as [-> Hl].
    destruct (IH rest) as (raws & rest' & -> & H1 & H2).
    { rewrite app_length. destruct Hl. destruct raw; [contradiction|]. simpl. lia. }
    exists (raw :: raws), rest'. simpl. rewrite <- app_assoc. repeat split; auto.
Qed.

Lemma class_tokens sp src l : tokens sp src l ->
  stream_toks (lex_stream sp src) = l /\ stream_panics (lex_stream sp src) = false.
Proof.
  induction 1 as [|k t raw rest l Hc _ [IH1 IH2]].
  - rewrite lex_stream_eq. auto.
  - rewrite lex_stream_eq, (class_lex_one _ _ _ _ _ Hc). simpl. now rewrite IH1, IH2.
Qed.
Lemma ncd_tail raw rest : no_commented_delimiter (raw ++ rest) -> no_commented_delimiter rest.
Proof.
  intros H pre r [-> | ->]; apply (H (raw ++ pre) r); [left|right]; now rewrite <- app_assoc.
Qed.
Lemma tokens_exist sp src : no_commented_delimiter src -> exists l, tokens sp src l.
Proof.
  induction src as [src IH] using (lex_stream_ind sp). intros Hn.
  destruct src as [|c r]; [exists []; constructor|].
  destruct (lex_one_class sp (c :: r)) as [(k & t & raw & rest & E & Hc & Hl)|(r' & E & Hc)]; [easy|..].
  - apply lex_one_tok in Hl as [_ [Hne _]]. rewrite E in *.
    destruct (IH rest) as [l Hl]; [rewrite app_length; destruct raw; [contradiction|simpl; lia]| eauto using ncd_tail|].
    exists ((k, t) :: l). now constructor.
  - exfalso. apply (Hn [] r'); auto.
Qed.
Lemma tokens_unique sp src l l' : tokens sp src l -> tokens sp src l' -> l = l'.
Proof. intros H1 H2. apply class_tokens in H1 as [<- _], H2 as [<- _]. reflexivity. Qed.

Lemma no_percent_ncd src : ~ In 37 src -> no_commented_delimiter src.
Proof.
  intros H pre rest E Hc. apply H.
  assert (In 37 rest) as Hin.
  { destruct Hc as [(b & r & _ & ->)|(b & name & b' & r & _ & _ & _ & ->)];
      change (tx "%") with [37]; rewrite !in_app_iff; cbn [In]; auto 10. }
  destruct E as [-> | ->]; apply in_or_app; right; apply in_or_app; now right.
Qed.

(** ** ASCII sources never panic *)
Definition ascii (s : text) : Prop := Forall (fun c => c < 0x80) s.
Lemma split_bytes_ascii s : ascii s -> forall n, (n <= List.length s)%nat ->
  split_bytes n s = Some (firstn n s, skipn n s).
Proof.
  induction 1 as [|c s Hc Hs IH]; intros [|n] Hn; simpl in *; try reflexivity; try lia.
  rewrite ascii_utf8_len by assumption. simpl. rewrite Nat.sub_0_r. rewrite IH by lia. reflexivity.
Qed.
Lemma utf8_ascii s : ascii s -> utf8 s = s.
Proof.
  unfold utf8. induction 1 as [|c s Hc Hs IH]; simpl; [reflexivity|].
  rewrite ascii_utf8_char by assumption. simpl. now rewrite IH.
Qed.
Lemma ascii_skipn n s : ascii s -> ascii (skipn n s).
Proof.
  intros H. unfold ascii in *. rewrite Forall_forall in *. intros x Hx. apply H.
  rewrite <- (firstn_skipn n s). apply in_or_app. now right.
Qed.
Lemma lex_env_work_ascii src : ascii src -> forall s, lex_env_work src <> WPanic s.
Proof.
  intros Ha site. unfold lex_env_work.
  destruct (next_non_trivia false src 0) as [[c r] ns] eqn:E1.
  destruct c as [c|]; [|discriminate]. destruct (negb (c =? 123)); [discriminate|].
  apply nnt_collected in E1 as (u1 & Hs1 & Hle1 & _ & _).
  assert (ns <= List.length src)%nat as Hns.
  { rewrite <- (blen_ascii src) by assumption. rewrite Hs1, blen_app. lia. }
  rewrite (utf8_ascii _ Ha).
  destruct (Nat.ltb_spec (List.length src) ns); [lia|].
  destruct (scan_name (star_ok None) (skipn ns src) 0) as [a b] eqn:Es.
  assert (advance_ascii_name None (skipn ns src) 0 = List.length a) as ->.
  { rewrite <- (utf8_ascii (skipn ns src)) by now apply ascii_skipn.
    rewrite (advance_scan _ _ _ _ _ Es). reflexivity. }
  pose proof (scan_name_app _ _ _ _ _ Es) as Hab.
  assert (List.length a + ns <= List.length src)%nat as Hb.
  { assert (List.length (skipn ns src) = List.length a + List.length b)%nat as HH by now rewrite Hab, app_length.
    rewrite skipn_length in HH. lia. }
  rewrite (split_bytes_ascii _ Ha) by lia.
  destruct (next_non_trivia false (skipn (ns + List.length a) src) (ns + List.length a)) as [[c2 r2] col] eqn:E2.
  destruct c2 as [c2|]; [|discriminate]. destruct (negb (c2 =? 125)); [discriminate|].
  apply nnt_collected in E2 as (u2 & Hs2 & Hle2 & _ & _).
  assert (col <= List.length src)%nat as Hcol.
  { assert (blen (skipn (ns + List.length a) src) = blen u2 + blen r2)%nat as HH by now rewrite Hs2, blen_app.
    rewrite blen_ascii in HH by now apply ascii_skipn. rewrite skipn_length in HH. lia. }
  rewrite (split_bytes_ascii _ Ha) by lia. rewrite (split_bytes_ascii _ Ha) by lia.
  rewrite split_bytes_ascii; [discriminate | now apply ascii_skipn | rewrite skipn_length; lia].
Qed.
Lemma lex_one_ascii sp src s : ascii src -> lex_one sp src <> LPanic s.
Proof.
  intros Ha.
  destruct src as [|c r]; [discriminate|]. inversion Ha as [|? ? Hc Hr]; subst. unfold lex_one.
  assert (Hb : forall b x y, ascii y -> lex_begin_end b x y <> LPanic s).
  { intros b x y Hy. unfold lex_begin_end. pose proof (lex_env_work_ascii y Hy) as H.
    destruct (lex_env_work y) as [|s'|]; try discriminate. intros _. now apply (H s'). }
  assert (Hcmd : forall x, ascii x -> lex_command_name sp x <> LPanic s).
  { intros [|d x] Hx; [discriminate|].
    destruct (is_whitespace d) eqn:Ew; [simpl; now rewrite Ew|].
    destruct (is_name_char d) eqn:En.
    - destruct (scan_name (star_ok (Some (sp, d :: x))) x 0) as [a rest] eqn:Es.
      rewrite (lex_command_name_eq _ _ _ Ew En _ _ Es). cbv zeta.
      assert (ascii rest) as Hrest.
      { apply scan_name_app in Es. subst x. inversion Hx; subst.
        unfold ascii in *. apply Forall_app in H2. tauto. }
      destruct (assoc _ _); [discriminate|].
      destruct (teqb _ _); [now apply Hb|]. destruct (teqb _ _); [now apply Hb|]. discriminate.
    - simpl. rewrite Ew.
      destruct ((d =? 40) || (d =? 91)); [discriminate|].
      destruct ((d =? 41) || (d =? 93)); [discriminate|].
      unfold is_name_char in En. apply orb_false_iff in En as [-> ->]. discriminate. }
  destruct (is_crlf c); [destruct (span _ _); discriminate|].
  destruct (is_whitespace c); [destruct (span _ _); discriminate|].
  destruct (c =? 37); [destruct (span _ _); discriminate|].
  destruct (c =? 36); [destruct r as [|c' r']; [|destruct (c' =? 36)]; discriminate|].
  destruct (c =? 92).
  - destruct r as [|c' r']; [now apply Hcmd|]. destruct (c' =? 92); [discriminate|now apply Hcmd].
  - destruct (punct_token c); [discriminate|]. destruct (span _ _); discriminate.
Qed.
Lemma lex_ascii_ok sp src : ascii src -> stream_panics (lex_stream sp src) = false.
Proof.
  induction src as [src IH] using (lex_stream_ind sp). intros Ha. rewrite lex_stream_eq.
  destruct (lex_one sp src) as [|s|t raw rest] eqn:E; [reflexivity|now apply lex_one_ascii in E|].
  simpl. apply lex_one_tok in E as [-> [Hne _]]. apply IH.
  - rewrite app_length. destruct raw; [contradiction|]. simpl. lia.
  - apply Forall_app in Ha. tauto.
Qed.
Lemma lex_ncd_ok sp src : no_commented_delimiter src -> stream_panics (lex_stream sp src) = false.
Proof. intros H. destruct (tokens_exist sp src H) as [l Hl]. now apply class_tokens in Hl. Qed.

(** no token of the lexer is an error token or a macro parameter *)
Lemma lex_one_kind sp src t raw rest : lex_one sp src = LTok t raw rest ->
  fst t <> TError /\ (forall n, fst t <> MacroArg n).
Proof.
  intros H. destruct src as [|c r]; [discriminate|].
  destruct (lex_one_class sp (c :: r)) as [(k & t0 & raw0 & rest0 & _ & Hc & Hl)|(r' & E & Hc)]; [easy|..].
  - rewrite Hl in H. injection H as <- <- <-. simpl.
    destruct Hc; split; try discriminate; try (intros ?; discriminate).
    + cbn in H. repeat (destruct H as [[= <- <-]|H]; [discriminate|]). contradiction.
    + intros n. cbn in H. repeat (destruct H as [[= <- <-]|H]; [discriminate|]). contradiction.
  - assert (exists start, c :: r = 92 :: start /\ starts (fun c => c = 98 \/ c = 101) start) as (start & Es & Hs).
    { destruct E as [-> | ->]; [exists (tx "begin" ++ r') | exists (tx "end" ++ r')]; (split; [reflexivity|]); simpl; auto. }
    rewrite Es in H. clear Es E Hc. destruct start as [|d x]; [contradiction|].
    rewrite lex_backslash in H by (simpl in Hs; destruct Hs; subst; discriminate).
    assert (is_whitespace d = false /\ is_name_char d = true) as [Ew En].
    { simpl in Hs. destruct Hs; subst; split; reflexivity. }
    destruct (scan_name (star_ok (Some (sp, d :: x))) x 0) as [a rest'] eqn:Es.
    rewrite (lex_command_name_eq _ _ _ Ew En _ _ Es) in H. cbv zeta in H.
    unfold lex_begin_end in H.
    destruct (assoc _ _); [injection H as <- <- <-; split; [discriminate|intros ?; discriminate]|].
    repeat destruct (teqb _ _); try destruct (lex_env_work rest');
      try discriminate; injection H as <- <- <-; (split; [discriminate|intros ?; discriminate]).
Qed.
