(** From token sequences to sources: what the parser answers depends only on
    the tokens its lexer delivers (C26), with enough fuel it does not depend on
    the fuel, and it depends on the specification only through the names that
    occur (C27). *)
From Verif Require Export Api ParserSim ParserTotal MacroProv StreamFacts LexClass.
Local Open Scope nat_scope.

Lemma rres_eq {A} (x y : res A) : rres False eq x y -> x = y.
Proof. destruct x, y; simpl; intros H; try contradiction; congruence. Qed.
Lemma rres_refl {A} (loose : Prop) (P : A -> A -> Prop) (x : res A) : (forall a, P a a) -> rres loose P x x.
Proof. intros H. destruct x; simpl; auto. Qed.

(** ** Any lexer *)
Section Drain.
  Context {B : Type}.
  Variable bump : B -> res (list tok * B).
  Lemma parse_drained gm sp fuel n l ts : lx_drain bump n l = Ok ts ->
    parse_lexer bump gm sp fuel l = parse_list gm sp fuel ts.
  Proof.
    intros H. apply rres_eq. unfold parse_lexer, parse_list.
    apply (parse_sim lx_peeked (lx_next bump) lx_set sp list_pk list_nx list_set sp gm
             (fun l ts => exists n, lx_drain bump n l = Ok ts) False); auto; [| | |exists n; exact H].
    - intros a b [m Hm]. destruct m as [|m]; [discriminate|]. simpl in Hm. unfold lx_eat in Hm.
      destruct (lx_peeked a) as [t|]; simpl in Hm; [|now injection Hm as <-].
      destruct (lx_next bump _); [|discriminate|discriminate]. simpl in Hm.
      apply bind_ok in Hm as (ts' & _ & [= <-]). reflexivity.
    - intros a b [m Hm] Hne. destruct m as [|m]; [discriminate|]. simpl in Hm. unfold lx_eat in Hm.
      destruct (lx_peeked a) as [t|]; [|contradiction]. unfold list_nx.
      change (lx_next bump (mk_lexer None (lx_buf a) (lx_b a))) with (lx_next bump a) in Hm.
      destruct (lx_next bump a) as [l'|e|]; [|discriminate|discriminate]. simpl in Hm.
      apply bind_ok in Hm as (ts' & Hd & [= <-]). simpl. eauto.
    - intros a b s s' [m Hm] Ep. destruct m as [|m]; [discriminate|]. exists (S m). simpl in *. unfold lx_eat, lx_set in *.
      rewrite Ep in *. simpl in *.
      destruct (lx_next bump _) as [l'|e|]; [|discriminate|discriminate]. simpl in *.
      apply bind_ok in Hm as (ts' & Hd & [= <-]). rewrite Hd. reflexivity.
  Qed.
End Drain.

(** ** Fuel *)
Lemma parse_fuel_mono gm sp f f' ts r : parse_list gm sp f ts = r -> r <> Fuel -> f <= f' -> parse_list gm sp f' ts = r.
Proof.
  intros E Hne Hle.
  assert (H : rres True eq (parse_list gm sp f ts) (parse_list gm sp f' ts)).
  { unfold parse_list. apply (parse_sim list_pk list_nx list_set sp list_pk list_nx list_set sp gm eq True); auto.
    - now intros a b ->.
    - intros a b -> _. reflexivity.
    - intros a b s s' -> _. reflexivity. }
  rewrite E in H. destruct r, (parse_list gm sp f' ts); simpl in H; try contradiction; congruence.
Qed.
Lemma parse_enough gm sp f ts : Forall word_ok ts -> parse_fuel ts <= f -> parse_list gm sp f ts = parse_list gm sp (parse_fuel ts) ts.
Proof. intros Hw Hf. eapply parse_fuel_mono; [reflexivity|now apply parse_stops|exact Hf]. Qed.

(** ** Specifications *)
(** the two specifications say the same about the arguments of [name] *)
Definition same_args (sp1 sp2 : spec) (name : text) : Prop :=
  option_map cs_args (get_cmd sp1 name) = option_map cs_args (get_cmd sp2 name) /\
  option_map en_args (get_env sp1 name) = option_map en_args (get_env sp2 name).
(** the name of a command or of an environment *)
Definition names (t : tok) (name : text) : Prop :=
  (exists k, t = (CommandName k, 92%N :: name)) \/ t = (CommandName BeginEnvironment, name).
Lemma kind_command k : kind_of_token k = ClauseCommandName -> exists c, k = CommandName c.
Proof. destruct k; try discriminate; eauto; destruct b; discriminate. Qed.
Lemma parse_agree gm sp1 sp2 fuel ts : (forall t name, In t ts -> names t name -> same_args sp1 sp2 name) ->
  parse_list gm sp1 fuel ts = parse_list gm sp2 fuel ts.
Proof.
  intros H. apply rres_eq. unfold parse_list.
  apply (parse_sim list_pk list_nx list_set sp1 list_pk list_nx list_set sp2 gm
    (fun a b => a = b /\ forall t name, In t a -> names t name -> same_args sp1 sp2 name) False); auto.
  - now intros a b [-> _].
  - intros a b [-> H'] _. simpl. split; [reflexivity|]. intros t name Hin. apply H'. destruct b; [contradiction|now right].
  - intros a b s s' [-> H'] Ep. split; [reflexivity|]. unfold list_set. destruct b as [|[k s0] r]; [discriminate|].
    injection Ep as -> ->. intros t name [<-|Hin] Hn; [destruct Hn as [[k E]|E]; discriminate|].
    eapply H'; [right|]; eassumption.
  - intros a b k name [-> H'] Ep Hk. destruct b as [|t r]; [discriminate|]. injection Ep as ->.
    apply (H' (k, 92%N :: name) name); [now left|]. destruct (kind_command k Hk) as [c ->]. left. eauto.
  - intros a b name [-> H'] Ep. destruct b as [|t r]; [discriminate|]. injection Ep as ->.
    apply (H' (CommandName BeginEnvironment, name) name); [now left|]. now right.
Qed.

(** ** Lexing *)
Definition occurs (name src : text) : Prop := exists a b, src = a ++ name ++ b.
Lemma occurs_tail name raw rest : occurs name rest -> occurs name (raw ++ rest).
Proof. intros (a & b & ->). exists (raw ++ a), b. now rewrite app_assoc. Qed.
Lemma occurs_cons name c rest : occurs name rest -> occurs name (c :: rest).
Proof. exact (occurs_tail name [c] rest). Qed.
Lemma split_bytes_app s : forall n a b, split_bytes n s = Some (a, b) -> s = a ++ b.
Proof.
  induction s as [|c s IH]; intros n a b H; destruct n as [|n]; try (injection H as <- <-; reflexivity); [discriminate|].
  cbn [split_bytes] in H. destruct (Nat.leb _ _); [|discriminate].
  destruct (split_bytes _ s) as [[a' b']|] eqn:E; [|discriminate]. injection H as <- <-. now rewrite (IH _ _ _ E).
Qed.
Section LexAgree.
  Variables sp1 sp2 : spec.
  Definition same_known (name : text) : Prop := sp1 name = None <-> sp2 name = None.
  Lemma advance_agree start bytes : (forall name, occurs name start -> same_known name) -> forall bump,
    advance_ascii_name (Some (sp1, start)) bytes bump = advance_ascii_name (Some (sp2, start)) bytes bump.
  Proof.
    intros H. induction bytes as [|c r IH]; intros bump; [reflexivity|]. cbn [advance_ascii_name]. rewrite !IH.
    destruct (c =? 42)%N; [|reflexivity].
    destruct (split_bytes (bump + 2) start) as [[s r']|] eqn:E; [|reflexivity].
    apply split_bytes_app in E. assert (Hs : same_known s) by (apply H; exists [], r'; exact E).
    unfold same_known in Hs. destruct (sp1 s), (sp2 s); try reflexivity; exfalso; [|]; destruct Hs as [Ha Hb];
      [now discriminate Hb|now discriminate Ha].
  Qed.
  Lemma lex_one_agree src : (forall name, occurs name src -> same_known name) -> lex_one sp1 src = lex_one sp2 src.
  Proof.
    intros H. destruct src as [|c r]; [reflexivity|]. unfold lex_one.
    destruct (is_crlf c), (is_whitespace c), (c =? 37)%N, (c =? 36)%N; try reflexivity.
    destruct (c =? 92)%N; [|reflexivity].
    assert (E : lex_command_name sp1 r = lex_command_name sp2 r).
    { destruct r as [|c' r']; [reflexivity|]. unfold lex_command_name. rewrite (advance_agree (c' :: r')); [reflexivity|].
      intros name Hn. apply H. now apply occurs_cons. }
    destruct r as [|c' r']; [exact E|]. now rewrite E.
  Qed.
  Lemma lex_agree src : (forall name, occurs name src -> same_known name) -> lex_stream sp1 src = lex_stream sp2 src.
  Proof.
    induction src as [src IH] using (lex_stream_ind sp1). intros H. rewrite !lex_stream_eq, <- (lex_one_agree src H).
    destruct (lex_one sp1 src) as [|s|t raw rest] eqn:E; try reflexivity.
    apply lex_one_tok in E as [-> [Hne _]]. f_equal. apply IH.
    - rewrite app_length. destruct raw; [contradiction|]. simpl. lia.
    - intros name Hn. apply H. now apply occurs_tail.
  Qed.
End LexAgree.
(** the names of the tokens of a source occur in it *)
Lemma lex_names sp src t name : In t (stream_toks (lex_stream sp src)) -> names t name -> occurs name src.
Proof.
  induction src as [src IH] using (lex_stream_ind sp). rewrite lex_stream_eq.
  destruct (lex_one sp src) as [|s|t' raw rest] eqn:E; simpl; try contradiction.
  apply lex_one_tok in E as [-> [Hne Hl]]. intros [-> |Hin] Hn.
  - destruct Hn as [[k ->]| ->]; simpl in Hl.
    + assert (G : raw = 92%N :: name \/ exists p q, raw = p ++ (92%N :: name) ++ q).
      { destruct k; auto; destruct Hl as (p & q & ->); right; [exists (tx "\begin" ++ p), q|exists (tx "\end" ++ p), q];
          rewrite <- !app_assoc; reflexivity. }
      destruct G as [-> |(p & q & ->)].
      * exists [92%N], rest. reflexivity.
      * exists (p ++ [92%N]), (q ++ rest). rewrite <- !app_assoc. reflexivity.
    + destruct Hl as (p & q & ->). exists (tx "\begin" ++ p), (q ++ rest). cbn. rewrite <- !app_assoc. reflexivity.
  - apply occurs_tail. apply IH; auto. rewrite app_length. destruct raw; [contradiction|]. simpl. lia.
Qed.

Lemma pclean_of (P : tok -> Prop) s : Forall P (stream_toks s) -> pclean P s.
Proof. induction s as [|e|t r IH]; simpl; auto. intros H. inversion_clear H. auto. Qed.
Lemma lex_words sp src : Forall word_ok (stream_toks (lex_stream sp src)).
Proof.
  induction src as [src IH] using (lex_stream_ind sp). rewrite lex_stream_eq.
  destruct (lex_one sp src) as [|s|t raw rest] eqn:E; simpl; constructor;
    apply lex_one_tok in E as [-> [Hne Hl]].
  - intros Hk. destruct t as [k w]. simpl in *. subst k. now subst.
  - apply IH. rewrite app_length. destruct raw; [contradiction|]. simpl. lia.
Qed.
Lemma engine_new_p (P : tok -> Prop) : pengine P engine_new.
Proof.
  intros name m H. unfold get_macro, sm_get in H.
  assert (Hall : Forall (fun x => exists d, snd x = MDeclare d) (sm_map (en_macros engine_new))).
  { vm_compute. repeat constructor; eexists; reflexivity. }
  revert H. induction Hall as [|[k v] l [d Hd] _ IH]; simpl; [discriminate|].
  destruct (teqb name k); [intros [= <-]; simpl in Hd; subst; exact I|exact IH].
Qed.
(** what holds of the tokens of a source, if it also holds of error marks and
    [\fi], and survives cutting words and turning a hash into a parameter, holds
    of the tokens after expansion *)
Lemma expand_keeps_cut (P : tok -> Prop) fuel page sp src ts : 2 <= page ->
  (forall w c s, P (Word, w) -> incl (c :: s) w -> P (Word, c :: s)) -> (forall h n, P (Hash, h) -> P (MacroArg n, h)) ->
  (forall s, P (TError, s)) -> P (CommandName CEndIf, tx "\fi") ->
  Forall P (stream_toks (lex_stream sp src)) ->
  expand_all fuel page engine_new sp src = Ok ts -> Forall P ts.
Proof.
  intros Hp H1 H2 H3 H4 Hs E. eapply (expand_p P); eauto using engine_new_p, pclean_of.
Qed.
Lemma expand_keeps (P : tok -> Prop) fuel page sp src ts : 2 <= page ->
  (forall c s, P (Word, c :: s)) -> (forall h n, P (Hash, h) -> P (MacroArg n, h)) ->
  (forall s, P (TError, s)) -> P (CommandName CEndIf, tx "\fi") ->
  Forall P (stream_toks (lex_stream sp src)) ->
  expand_all fuel page engine_new sp src = Ok ts -> Forall P ts.
Proof.
  intros Hp H1 H2 H3 H4 Hs E. eapply (expand_keeps_cut P); eauto.
Qed.
Lemma expand_words fuel page sp src ts : 2 <= page -> expand_all fuel page engine_new sp src = Ok ts -> Forall word_ok ts.
Proof.
  intros Hp. apply expand_keeps; auto; try (intros; intros Hk; simpl in *; discriminate). apply lex_words.
Qed.

(** ** Sources *)
Lemma parse_plain fuel page sp src : 0 < page -> stream_panics (lex_stream sp src) = false ->
  parse_without_macro fuel page sp src = parse_list gm_real sp fuel (stream_toks (lex_stream sp src)).
Proof.
  intros Hp Hs. unfold parse_without_macro, plain_new.
  pose proof (lx_new_spec page (lex_stream sp src) Hp) as H. apply run_stream_toks in Hs.
  destruct (lx_new (plain_bump page) (lex_stream sp src)) as [l|e|]; [|congruence|contradiction].
  destruct H as [Hv Hi]. simpl. apply (parse_drained (plain_bump page) _ _ _ (S (List.length (stream_toks (lx_view l))))).
  rewrite lx_drain_spec; auto. now rewrite Hv.
Qed.
Lemma parse_expanded fuel page sp src ts : expand_all fuel page engine_new sp src = Ok ts ->
  parse_macro fuel page sp src = parse_list gm_real sp fuel ts.
Proof.
  unfold expand_all, expand_stream, parse_macro, macro_new. intros H.
  apply bind_ok in H as (l & Hl & Hd). rewrite Hl. simpl. eapply parse_drained. exact Hd.
Qed.
