(** Facts for C71. *)
From Verif Require Export HideSpec.
From Verif Require Import Api LexFacts ParserTotal ParserSource ParserEnd P_Parser P_Conv3 P_Text NestLeaf.
Local Open Scope N_scope.

Definition openers : text := 34 :: tx "/@*`".
Fixpoint hides_b (s : text) : bool :=
  match s with
  | [] => true
  | c :: r => if c =? 92 then match r with [] => false | _ :: r' => hides_b r' end else negb (existsb (N.eqb c) openers) && hides_b r
  end.
Section Hide.
  Variable bad : char -> Prop.
  Hypothesis Hbad : forall c, bad c -> In c openers.
  Notation hides := (HideSpec.hides bad).
  Definition plain (c : char) : Prop := c <> 92 /\ ~ bad c.

  Lemma hides_app a b : hides a -> hides b -> hides (a ++ b).
  Proof. intros Ha Hb. induction Ha; cbn [app]; [exact Hb|now constructor|now constructor]. Qed.
  Lemma hides_plain s : Forall plain s -> hides s.
  Proof. induction 1 as [|c s [H1 H2] _ IH]; constructor; auto. Qed.
  Lemma safe_plain c : c <> 92 -> existsb (N.eqb c) openers = false -> plain c.
  Proof.
    intros H E. split; [exact H|]. intros X. apply Hbad in X. assert (T : existsb (N.eqb c) openers = true) by (apply existsb_exists; exists c; split; [exact X|apply N.eqb_refl]). congruence.
  Qed.
  Lemma hides_by s : hides_b s = true -> hides s.
  Proof.
    induction s as [s IH] using (induction_ltof1 _ (@List.length char)). unfold ltof in IH. destruct s as [|c r]; [constructor|]. cbn [hides_b].
    destruct (N.eqb_spec c 92) as [-> |N].
    - destruct r as [|d r]; [discriminate|]. intros H. apply hi_hidden. apply IH; [cbn; lia|exact H].
    - intros H. apply andb_prop in H as [H1 H2]. apply negb_true_iff in H1. destruct (safe_plain c N H1). apply hi_char; [assumption|assumption|]. apply IH; [cbn; lia|exact H2].
  Qed.
  Lemma plain_by s : forallb (fun c => negb (c =? 92) && negb (existsb (N.eqb c) openers)) s = true -> Forall plain s.
  Proof.
    intros H. apply Forall_forall. intros c Hc. rewrite forallb_forall in H. specialize (H c Hc). apply andb_prop in H as [H1 H2].
    apply negb_true_iff in H1, H2. apply safe_plain; [|exact H2]. now apply N.eqb_neq.
  Qed.
  Lemma plain_indent n : Forall plain (indented n).
  Proof. induction n; constructor; [|assumption]. apply safe_plain; [discriminate|reflexivity]. Qed.
  Lemma plain_dec n : Forall plain (dec n).
  Proof.
    unfold dec. generalize (S (N.to_nat (N.log2 n))). intros f. assert (H : Forall plain []) by constructor. revert n H. generalize (@nil char).
    induction f as [|f IH]; intros acc n H; [exact H|]. cbn [dec_fuel].
    assert (A : Forall plain ((48 + n mod 10) :: acc)).
    { constructor; [|exact H]. pose proof (N.mod_lt n 10 ltac:(discriminate)) as L. revert L. generalize (n mod 10). clear -Hbad. intros m L. apply safe_plain; [lia|].
      destruct (existsb (N.eqb (48 + m)) openers) eqn:E; [|reflexivity]. apply existsb_exists in E as (x & Hx & E). apply N.eqb_eq in E. cbn in Hx. lia. }
    destruct (n <? 10); [exact A|]. now apply IH.
  Qed.
  Lemma white_plain c : is_whitespace c = true -> plain c.
  Proof. intros H. split; [intros ->; discriminate H|]. intros X. apply Hbad in X. repeat destruct X as [<- |X]; try discriminate H; contradiction. Qed.
  Lemma crlf_plain c : is_crlf c = true -> plain c.
  Proof. intros H. split; [intros ->; discriminate H|]. intros X. apply Hbad in X. repeat destruct X as [<- |X]; try discriminate H; contradiction. Qed.

  (** ** The copied leaves *)
  Definition words_plain (src : text) : Prop := forall c, In c src -> is_word_char c = true -> plain c.
  Definition tok_plain (t : tok) : Prop := copied (kind_of_token (fst t)) -> Forall plain (snd t).
  Definition leaf_plain (l : kind * text) : Prop := copied (fst l) -> Forall plain (snd l).
  Lemma span_plain f (s : text) : (forall c, In c s -> f c = true -> plain c) -> Forall plain (fst (Base.span f s)).
  Proof.
    intros H. induction s as [|c s IH]; [constructor|]. cbn [Base.span]. destruct (f c) eqn:E; [|constructor].
    assert (IH' := IH ltac:(intros d Hd; apply H; now right)). destruct (Base.span f s). cbn in *. constructor; [apply H; auto|exact IH'].
  Qed.
  Lemma lex_plain sp src : words_plain src -> Forall tok_plain (stream_toks (lex_stream sp src)).
  Proof.
    induction src as [src IH] using (lex_stream_ind sp). intros W. rewrite lex_stream_eq.
    destruct (lex_one sp src) as [|s|t raw rest] eqn:E; simpl; constructor.
    - destruct src as [|c r]; [discriminate|]. unfold lex_one in E.
      destruct (is_crlf c). { pose proof (span_plain is_crlf (c :: r) (fun x _ => crlf_plain x)) as Q. destruct (Base.span is_crlf (c :: r)). injection E as <- _ _. intros _. exact Q. }
      destruct (is_whitespace c).
      { assert (Q : Forall plain (fst (Base.span is_blank (c :: r)))). { apply span_plain. intros x _ Hx. apply andb_prop in Hx as [Hx _]. now apply white_plain. }
        destruct (Base.span is_blank (c :: r)). injection E as <- _ _. intros _. exact Q. }
      destruct (c =? 37)%N. { destruct (Base.span _ (c :: r)). injection E as <- _ _. intros X. unfold copied in X. cbn in X. exfalso. intuition discriminate. }
      destruct (c =? 36)%N. { destruct r as [|c' r']; [|destruct (c' =? 36)%N]; injection E as <- _ _; intros X; unfold copied in X; cbn in X; exfalso; intuition discriminate. }
      assert (C : forall s t raw rest, lex_command_name sp s = LTok t raw rest -> tok_plain t).
      { intros s t0 raw0 rest0 H. apply lex_command_kind in H as [n H]. intros X. exfalso. rewrite H in X.
        destruct n; unfold copied in X; cbn in X; intuition discriminate. }
      destruct (c =? 92)%N.
      { destruct r as [|c' r']; [|destruct (c' =? 92)%N]; try (exact (C _ _ _ _ E)). injection E as <- _ _. intros X; unfold copied in X; cbn in X; exfalso; intuition discriminate. }
      destruct (punct_token c) as [k|] eqn:Ep.
      + injection E as <- _ _. intros Hk. unfold punct_token in Ep. cbn [fst snd] in *.
        repeat match type of Ep with (if ?x =? ?y then _ else _) = _ =>
          destruct (N.eqb_spec x y); [subst x; injection Ep as <-; try (exfalso; unfold copied in Hk; cbn in Hk; intuition discriminate);
            (constructor; [apply safe_plain; [discriminate|reflexivity]|constructor])|] end.
        discriminate.
      + pose proof (span_plain is_word_char (c :: r) W) as Q. destruct (Base.span is_word_char (c :: r)). injection E as <- _ _. intros _. exact Q.
    - apply lex_one_tok in E as [-> [Hne _]]. apply IH; [rewrite app_length; destruct raw; [contradiction|]; simpl; lia|].
      intros x Hx. apply W, in_or_app. now right.
  Qed.
  Lemma tokens_plain m page sp src ts : (2 <= page)%nat -> words_plain src -> tokens_of m page sp src ts -> Forall tok_plain ts.
  Proof.
    intros Hp W H. destruct m; [|destruct H as [_ ->]; now apply lex_plain].
    destruct H as [f H]. eapply (expand_keeps_cut tok_plain); [exact Hp| | | | | |exact (H f (le_n _))].
    - intros w c s Hw Hi _. apply Forall_forall. intros x Hx. assert (Q : Forall plain w) by (apply Hw; unfold copied; cbn; tauto).
      rewrite Forall_forall in Q. apply Q. now apply Hi.
    - intros h n Hh _. apply Hh. unfold copied. cbn. tauto.
    - intros s X. unfold copied in X. cbn in X. exfalso. intuition discriminate.
    - intros X. unfold copied in X. cbn in X. exfalso. intuition discriminate.
    - now apply lex_plain.
  Qed.
  Lemma spells_plain takes ts ls : spells takes ts ls -> Forall tok_plain ts -> Forall leaf_plain ls.
  Proof.
    induction 1 as [|t ts ls _ IH|s ts ls _ IH|a b ts ls Ha _ IH|t ts ls Hd _ IH]; intros H; [constructor| | | |].
    - apply Forall_cons_iff in H as [H1 H2]. constructor; [exact H1|now apply IH].
    - apply Forall_cons_iff in H as [H1 H2]. constructor; [|now apply IH]. intros X. unfold copied in X. cbn in X. exfalso. intuition discriminate.
    - apply Forall_cons_iff in H as [H1 H2].
      assert (Q : Forall plain (a ++ b)) by (apply H1; unfold copied; cbn; tauto). apply Forall_app in Q as [Q1 Q2].
      constructor; [intros _; exact Q1|]. apply IH. constructor; [intros _; exact Q2|exact H2].
    - apply Forall_cons_iff in H as [H1 H2]. now apply IH.
  Qed.
  Lemma parsed_plain macros fuel page sp src t : (2 <= page)%nat -> words_plain src -> parse_source macros fuel page sp src = Ok t ->
    forall k s, ConvSpec.seen (Leaf k s) t -> copied k -> Forall plain s.
  Proof.
    intros Hp W H k s Hs Hk. destruct (parse_source_reads _ _ _ _ _ _ Hp H) as (ts & Ht & Hl). apply tokens_plain in Ht; [|exact Hp|exact W].
    apply C21_leaves in Hl. apply (spells_plain _ _ _ Hl) in Ht. rewrite Forall_forall in Ht. apply (Ht (k, s)); [now apply leaf_of_seen|exact Hk].
  Qed.
End Hide.
