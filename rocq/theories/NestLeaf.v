(** The leaves that are copied to the output contain no brackets, dollars or
    backslashes (C69). *)
From Verif Require Export NestFacts.
From Verif Require Import Api LexFacts ParserTotal ParserSource ParserEnd P_Parser P_Conv3 P_Text NestSpec.
Local Open Scope N_scope.

Definition copied (k : kind) : Prop := In k [TokenWord; TokenWhiteSpace; TokenLineBreak; TokenUnderscore; TokenCaret; TokenHash].
Definition tok_quiet (t : tok) : Prop := copied (kind_of_token (fst t)) -> quiet (snd t).
Definition leaf_quiet (l : kind * text) : Prop := copied (fst l) -> quiet (snd l).

Lemma white_quiet c : is_whitespace c = true -> ~ loud c.
Proof. intros H X. rewrite loud_iff in X. repeat destruct X as [-> |X]; try subst c; discriminate H. Qed.
Lemma crlf_quiet c : is_crlf c = true -> ~ loud c.
Proof. intros H X. rewrite loud_iff in X. repeat destruct X as [-> |X]; try subst c; discriminate H. Qed.
Lemma word_quiet c : is_word_char c = true -> ~ loud c.
Proof. intros H X. rewrite loud_iff in X. repeat destruct X as [-> |X]; try subst c; discriminate H. Qed.
Lemma span_quiet f (s : text) : (forall c, f c = true -> ~ loud c) -> quiet (fst (Base.span f s)).
Proof.
  intros H. unfold quiet. induction s as [|c s IH]; [constructor|]. cbn [Base.span]. destruct (f c) eqn:E; [|constructor].
  destruct (Base.span f s). cbn in *. constructor; [now apply H|exact IH].
Qed.
Lemma lex_command_kind sp start t raw rest : lex_command_name sp start = LTok t raw rest -> exists n, fst t = CommandName n.
Proof.
  destruct start as [|c after]; [intros [= <- <- <-]; eexists; reflexivity|].
  destruct (is_whitespace c) eqn:Ew. { simpl. rewrite Ew. intros [= <- <- <-]. eexists; reflexivity. }
  destruct (is_name_char c) eqn:En.
  - destruct (scan_name (star_ok (Some (sp, c :: after))) after 0) as [a rest'] eqn:Es.
    rewrite (lex_command_name_eq _ _ _ Ew En _ _ Es). cbv zeta.
    destruct (assoc (c :: a) name_table) as [k|]; [intros [= <- <- <-]; eexists; reflexivity|].
    destruct (teqb (c :: a) (tx "begin")). { intros H. apply lex_begin_end_tok in H as (_ & _ & [(H & _)|(H & _)]); eexists; exact H. }
    destruct (teqb (c :: a) (tx "end")). { intros H. apply lex_begin_end_tok in H as (_ & _ & [(H & _)|(H & _)]); eexists; exact H. }
    intros [= <- <- <-]. eexists; reflexivity.
  - simpl. rewrite Ew.
    destruct ((c =? 40) || (c =? 91)); [intros [= <- <- <-]; eexists; reflexivity|].
    destruct ((c =? 41) || (c =? 93)); [intros [= <- <- <-]; eexists; reflexivity|].
    unfold is_name_char in En. apply orb_false_iff in En as [-> ->]. simpl. intros [= <- <- <-]. eexists; reflexivity.
Qed.
Lemma lex_quiet sp src : Forall tok_quiet (stream_toks (lex_stream sp src)).
Proof.
  induction src as [src IH] using (lex_stream_ind sp). rewrite lex_stream_eq.
  destruct (lex_one sp src) as [|s|t raw rest] eqn:E; simpl; constructor.
  - destruct src as [|c r]; [discriminate|]. unfold lex_one in E.
    destruct (is_crlf c). { pose proof (span_quiet is_crlf (c :: r) crlf_quiet) as Q. destruct (Base.span is_crlf (c :: r)). injection E as <- _ _. intros _. exact Q. }
    destruct (is_whitespace c).
    { assert (Q : quiet (fst (Base.span is_blank (c :: r)))). { apply span_quiet. intros x Hx. apply andb_prop in Hx as [Hx _]. now apply white_quiet. }
      destruct (Base.span is_blank (c :: r)). injection E as <- _ _. intros _. exact Q. }
    destruct (c =? 37)%N. { destruct (Base.span _ (c :: r)). injection E as <- _ _. intros X. unfold copied in X. cbn in X. exfalso. intuition discriminate. }
    destruct (c =? 36)%N. { destruct r as [|c' r']; [|destruct (c' =? 36)%N]; injection E as <- _ _; intros X; unfold copied in X; cbn in X; exfalso; intuition discriminate. }
    assert (C : forall s t raw rest, lex_command_name sp s = LTok t raw rest -> tok_quiet t).
    { intros s t0 raw0 rest0 H. apply lex_command_kind in H as [n H]. intros X. exfalso. rewrite H in X.
      destruct n; unfold copied in X; cbn in X; intuition discriminate. }
    destruct (c =? 92)%N.
    { destruct r as [|c' r']; [|destruct (c' =? 92)%N]; try (exact (C _ _ _ _ E)). injection E as <- _ _. intros X; unfold copied in X; cbn in X; exfalso; intuition discriminate. }
    destruct (punct_token c) as [k|] eqn:Ep.
    + injection E as <- _ _. intros Hk. unfold punct_token in Ep. cbn [fst snd] in *.
      repeat match type of Ep with (if ?x =? ?y then _ else _) = _ =>
        destruct (N.eqb_spec x y); [subst x; injection Ep as <-; try (exfalso; unfold copied in Hk; cbn in Hk; intuition discriminate);
          (constructor; [rewrite loud_iff; intuition discriminate|constructor])|] end.
      discriminate.
    + pose proof (span_quiet is_word_char (c :: r) word_quiet) as Q. destruct (Base.span is_word_char (c :: r)). injection E as <- _ _. intros _. exact Q.
  - apply lex_one_tok in E as [-> [Hne _]]. apply IH. rewrite app_length. destruct raw; [contradiction|]. simpl. lia.
Qed.
Lemma tokens_quiet m page sp src ts : (2 <= page)%nat -> tokens_of m page sp src ts -> Forall tok_quiet ts.
Proof.
  intros Hp H. destruct m; [|destruct H as [_ ->]; apply lex_quiet].
  destruct H as [f H]. eapply (expand_keeps_cut tok_quiet); [exact Hp| | | | | |exact (H f (le_n _))].
  - intros w c s Hw Hi _. unfold quiet. apply Forall_forall. intros x Hx. assert (Q : quiet w) by (apply Hw; unfold copied; cbn; tauto).
    unfold quiet in Q. rewrite Forall_forall in Q. apply Q. now apply Hi.
  - intros h n Hh _. apply Hh. unfold copied. cbn. tauto.
  - intros s X. unfold copied in X. cbn in X. exfalso. intuition discriminate.
  - intros X. unfold copied in X. cbn in X. exfalso. intuition discriminate.
  - apply lex_quiet.
Qed.
Lemma spells_quiet takes ts ls : spells takes ts ls -> Forall tok_quiet ts -> Forall leaf_quiet ls.
Proof.
  induction 1 as [|t ts ls _ IH|s ts ls _ IH|a b ts ls Ha _ IH|t ts ls Hd _ IH]; intros H; [constructor| | | |].
  - apply Forall_cons_iff in H as [H1 H2]. constructor; [exact H1|now apply IH].
  - apply Forall_cons_iff in H as [H1 H2]. constructor; [|now apply IH]. intros X. unfold copied in X. cbn in X. exfalso. intuition discriminate.
  - apply Forall_cons_iff in H as [H1 H2].
    assert (Q : quiet (a ++ b)) by (apply H1; unfold copied; cbn; tauto). apply Forall_app in Q as [Q1 Q2].
    constructor; [intros _; exact Q1|]. apply IH. constructor; [intros _; exact Q2|exact H2].
  - apply Forall_cons_iff in H as [H1 H2]. now apply IH.
Qed.
Lemma leaf_of_seen k s t : seen (Leaf k s) t -> In (k, s) (leaves t).
Proof.
  intros H. remember (Leaf k s) as x. induction H as [|k' ch c _ Hc Hs IH|ch c c' Hc Hc' Hs IH|ch c c' Hc Hc' _ Hs IH]; subst; cbn [leaves].
  - now left.
  - apply in_flat_map. exists c. auto.
  - apply in_flat_map. exists c. split; [exact Hc|]. destruct c as [|k1 ch1]; [contradiction|]. cbn [leaves]. apply in_flat_map. exists c'. auto.
  - apply in_flat_map. exists c. split; [exact Hc|]. destruct c as [|k1 ch1]; [contradiction|]. cbn [leaves]. apply in_flat_map. exists c'. auto.
Qed.
Lemma parsed_quiet macros fuel page sp src t : (2 <= page)%nat -> parse_source macros fuel page sp src = Ok t ->
  forall k s, seen (Leaf k s) t -> copied k -> quiet s.
Proof.
  intros Hp H k s Hs Hk. destruct (parse_source_reads _ _ _ _ _ _ Hp H) as (ts & Ht & Hl). apply tokens_quiet in Ht; [|exact Hp].
  apply C21_leaves in Hl. apply (spells_quiet _ _ _ Hl) in Ht. rewrite Forall_forall in Ht. apply (Ht (k, s)); [now apply leaf_of_seen|exact Hk].
Qed.
