(** C67: what the typed views of the tree (the accessors of syntax.rs:233-448)
    answer, for the tree of every source. *)
From Verif Require Import Api P_Lex P_Macro ParserSource ParserEnd LexFacts TreeSpec ParserShape P_Parser P_Conv3.
From Verif Require Import GramSpec GramSound GramComplete P_Gram.
Local Open Scope nat_scope.

(** ** Specification *)
(** how formulas begin *)
Definition inline_open (l : kind * text) : Prop := In l [(TokenDollar, tx "$"); (TokenBeginMath, tx "\(")].
Definition display_open (l : kind * text) : Prop := In l [(TokenDollar, tx "$$"); (TokenBeginMath, tx "\[")].
Definition blank_leaf (t : tree) : Prop :=
  match t with Leaf k _ => In k [TokenLineBreak; TokenWhiteSpace; TokenComment] | Node _ _ => False end.
(** a clause: the control word, blanks, possibly a delimiter *)
Definition clause_of (word : text) (blanks : list tree) (d : option (kind * text)) (c : tree) : Prop :=
  Forall blank_leaf blanks /\
  match d with
  | Some (k, s) => k <> ClauseCommandName /\ ~ blank_leaf (Leaf k s) /\
      c = Node ClauseLR (Leaf ClauseCommandName word :: blanks ++ [Leaf k s])
  | None => c = Node ClauseLR (Leaf ClauseCommandName word :: blanks)
  end.
Definition no_clause (t : tree) : Prop := match t with Node ClauseLR _ => False | _ => True end.

(** ** The tokens that begin formulas and clauses *)
Definition lexical (t : tok) : Prop :=
  match fst t with
  | Dollar => snd t = tx "$" \/ snd t = tx "$$"
  | CommandName BeginMath => snd t = tx "\(" \/ snd t = tx "\["
  | CommandName CLeft => snd t = tx "\left"
  | CommandName CRight => snd t = tx "\right"
  | _ => True
  end.
Lemma assoc_lexical name k : assoc name name_table = Some k -> lexical (CommandName k, 92%N :: name).
Proof.
  unfold name_table. cbn [assoc].
  repeat match goal with |- context [if teqb ?x ?y then _ else _] =>
    let E := fresh in destruct (teqb x y) eqn:E; [apply teqb_eq in E; rewrite E; let K := fresh in intros K; injection K as <-; first [exact I|reflexivity]|clear E] end. discriminate.
Qed.
Lemma lex_env_lexical b raw src t raw' rest : lex_begin_end b raw src = LTok t raw' rest -> lexical t.
Proof. unfold lex_begin_end. destruct (lex_env_work src); try discriminate; intros [= <- _ _]; destruct b; exact I. Qed.
Lemma lex_command_lexical sp start t raw rest : lex_command_name sp start = LTok t raw rest -> lexical t.
Proof.
  destruct start as [|c after]; [intros [= <- _ _]; exact I|]. unfold lex_command_name. cbv zeta.
  destruct (is_whitespace c); [intros [= <- _ _]; exact I|].
  destruct ((c =? 40) || (c =? 91))%N eqn:E1.
  { intros [= <- _ _]. apply orb_true_iff in E1 as [E|E]; apply N.eqb_eq in E; subst c; cbn; auto. }
  destruct ((c =? 41) || (c =? 93))%N; [intros [= <- _ _]; exact I|].
  destruct (negb (c =? 64)%N && negb (is_ascii_alpha c)); [intros [= <- _ _]; exact I|].
  destruct (split_bytes _ _) as [[name rest']|]; [|discriminate].
  destruct (assoc name name_table) as [k|] eqn:Et; [intros [= <- _ _]; now apply assoc_lexical|].
  destruct (teqb name (tx "begin")); [apply lex_env_lexical|]. destruct (teqb name (tx "end")); [apply lex_env_lexical|].
  intros [= <- _ _]. exact I.
Qed.
Lemma punct_lexical c k s : punct_token c = Some k -> lexical (k, s).
Proof. intros H. unfold lexical. cbn [fst snd]. pose proof (punct_not_cmd _ _ H) as A. destruct k; try exact I; [|now destruct (A c0)].
  exfalso. revert H. unfold punct_token. repeat match goal with |- context [if ?b then _ else _] => destruct b; [discriminate|] end. discriminate.
Qed.
Lemma lex_lexical sp src : Forall lexical (stream_toks (lex_stream sp src)).
Proof.
  induction src as [src IH] using (lex_stream_ind sp). rewrite lex_stream_eq.
  destruct (lex_one sp src) as [|s|t raw rest] eqn:E; simpl; constructor.
  - destruct src as [|c r]; [discriminate|]. unfold lex_one in E.
    destruct (is_crlf c). { destruct (Base.span is_crlf (c :: r)). injection E as <- _ _. exact I. }
    destruct (is_whitespace c). { destruct (Base.span is_blank (c :: r)). injection E as <- _ _. exact I. }
    destruct (c =? 37)%N. { destruct (Base.span _ (c :: r)). injection E as <- _ _. exact I. }
    destruct (c =? 36)%N eqn:Ed.
    { apply N.eqb_eq in Ed. subst c. destruct r as [|c' r']; [|destruct (c' =? 36)%N eqn:Ed'; [apply N.eqb_eq in Ed'; subst c'|]]; injection E as <- _ _; cbn; auto. }
    destruct (c =? 92)%N.
    { destruct r as [|c' r']; [|destruct (c' =? 92)%N]; try (exact (lex_command_lexical _ _ _ _ _ E)). injection E as <- _ _. exact I. }
    destruct (punct_token c) as [k|] eqn:Ep.
    + injection E as <- _ _. now apply (punct_lexical c).
    + destruct (Base.span is_word_char (c :: r)). injection E as <- _ _. exact I.
  - apply lex_one_tok in E as [-> [Hne _]]. apply IH. rewrite app_length. destruct raw; [contradiction|]. simpl. lia.
Qed.
Lemma tokens_lexical m page sp src ts : 2 <= page -> tokens_of m page sp src ts -> Forall lexical ts.
Proof.
  intros Hp H. destruct m; [|destruct H as [_ ->]; apply lex_lexical].
  destruct H as [f H]. eapply (expand_keeps lexical); [exact Hp| | | | | |exact (H f (le_n _))]; try (intros; exact I).
  apply lex_lexical.
Qed.

(** ** The grammar *)
Definition pair_node (ch : list tree) : Prop :=
  exists c1 b1 d1 body e, ch = c1 :: body ++ e /\ clause_of (tx "\left") b1 d1 c1 /\ Forall no_clause body /\
    (e = [] \/ exists c2 b2 d2, e = [c2] /\ clause_of (tx "\right") b2 d2 c2).
Definition view_ok (k : kind) (ch : list tree) : Prop :=
  (k = ItemFormula -> exists o s rest, ch = Leaf o s :: rest /\ (inline_open (o, s) \/ display_open (o, s))) /\
  (k = ItemLR -> pair_node ch).
Definition good (t : tree) : Prop := every view_ok t /\ no_clause t.
Lemma good_node k ch : k <> ClauseLR -> view_ok k ch -> Forall good ch -> good (Node k ch).
Proof.
  intros K V G. split; [|destruct k; try exact I; congruence]. apply every_node. split; [exact V|].
  eapply Forall_impl; [|exact G]. intros t H. apply H.
Qed.
Lemma other_view k ch : k <> ItemFormula -> k <> ItemLR -> view_ok k ch.
Proof. intros H1 H2. split; intros H; congruence. Qed.
Lemma good_other k ch : k <> ItemFormula -> k <> ItemLR -> k <> ClauseLR -> Forall good ch -> good (Node k ch).
Proof. intros H1 H2 H3 G. apply good_node; auto using other_view. Qed.
Lemma good_leaf k s : good (Leaf k s). Proof. split; exact I. Qed.
Lemma good_lf t : good (lf t). Proof. apply good_leaf. Qed.
Lemma good_lfs ts : Forall good (map lf ts).
Proof. induction ts; constructor; auto using good_lf. Qed.
Lemma good_every xs : Forall good xs -> Forall (every view_ok) xs.
Proof. intros H. eapply Forall_impl; [|exact H]. intros t G. apply G. Qed.
Lemma good_plain xs : Forall good xs -> Forall no_clause xs.
Proof. intros H. eapply Forall_impl; [|exact H]. intros t G. apply G. Qed.
Lemma good_arg xs : Forall good xs -> good (as_argument xs).
Proof. intros H. apply good_other; auto; discriminate. Qed.
Lemma every_leaves xs : Forall (fun t => is_node t = false) xs -> Forall (every view_ok) xs.
Proof. intros H. eapply Forall_impl; [|exact H]. intros [k s|k ch] E; [exact I|discriminate]. Qed.

Lemma blanks_leaves bs : Forall blank_token bs -> Forall blank_leaf (map lf bs).
Proof.
  induction 1 as [|t bs H _ IH]; constructor; auto. destruct t as [k s]. unfold blank_token in H. cbn in H.
  destruct H as [<-|[<-|[<-|[]]]]; cbn; auto.
Qed.
Lemma delimiter_shape ts x r : delimiter ts x r -> Forall lexical ts ->
  Forall lexical r /\
  (x = [] \/ exists k s, x = [Leaf k s] /\ k <> ClauseCommandName /\ ~ blank_leaf (Leaf k s)).
Proof.
  intros H W. destruct H.
  - auto.
  - auto.
  - apply Forall_cons_iff in W as [_ W]. split; [exact W|right]. do 2 eexists. split; [reflexivity|].
    split; [discriminate|]. intros H. cbn in H. intuition discriminate.
  - apply Forall_cons_iff in W as [_ W]. split; [exact W|right]. do 2 eexists. split; [reflexivity|].
    split; [discriminate|]. intros H. cbn in H. intuition discriminate.
  - apply Forall_cons_iff in W as [_ W]. split; [constructor; [exact I|exact W]|right]. do 2 eexists. split; [reflexivity|].
    split; [discriminate|]. intros H. cbn in H. intuition discriminate.
  - apply Forall_cons_iff in W as [_ W]. split; [exact W|right]. do 2 eexists. split; [reflexivity|].
    destruct t as [t s]. unfold no_delimiter, blank_token in *. cbn [fst snd] in *. split.
    + intros E. destruct t as [| | |[]|[]| | | | | | | | | | | | | | | | c | |]; try discriminate E.
      destruct c; try discriminate E; try (apply H0; reflexivity); apply H; right; eexists; split; try reflexivity; discriminate.
    + intros E. cbn in E. destruct t as [| | |[]|[]| | | | | | | | | | | | | | | | c | |]; cbn in *;
        try (intuition discriminate); destruct c; cbn in *; intuition discriminate.
Qed.
Lemma clause_shape t ts c r w : clause t ts c r -> Forall lexical ts -> lf t = Leaf ClauseCommandName w ->
  Forall lexical r /\ every view_ok c /\ exists bs d, clause_of w bs d c.
Proof.
  intros H W E. destruct H as [bs r x r' Hb Hn Hd]. apply Forall_app in W as [_ W].
  apply delimiter_shape in Hd as [W' Hx]; [|exact W]. split; [exact W'|]. rewrite E. split.
  - apply every_node. split; [apply other_view; discriminate|]. constructor; [exact I|]. apply Forall_app. split; [apply good_every, good_lfs|].
    destruct Hx as [->|(k & s & -> & _)]; repeat constructor.
  - exists (map lf bs). destruct Hx as [->|(k & s & -> & K & B)].
    + exists None. split; [now apply blanks_leaves|]. now rewrite app_nil_r.
    + exists (Some (k, s)). split; [now apply blanks_leaves|]. repeat split; assumption.
Qed.

Section Views.
  Variable gm : text -> text -> bool.
  Variable sp : spec.

  Definition v_content (l : line) (ts : list tok) (l' : line) (r : list tok) : Prop :=
    Forall lexical ts -> Forall good (all l) -> Forall good (all l') /\ Forall lexical r.
  Definition v_element (l : line) (t : tok) (ts : list tok) (l' : line) (r : list tok) : Prop :=
    lexical t -> Forall lexical ts -> Forall good (all l) -> Forall good (all l') /\ Forall lexical r.
  Definition v_group (t : tok) (ts : list tok) (x : tree) (r : list tok) : Prop :=
    lexical t -> Forall lexical ts -> good x /\ Forall lexical r.
  Definition v_arguments (ts : list tok) (xs : list tree) (r : list tok) : Prop :=
    Forall lexical ts -> Forall good xs /\ Forall lexical r.

  Lemma good_add xs l : Forall good (all l) -> Forall good xs -> Forall good (all (add xs l)).
  Proof. intros H1 H2. rewrite all_add. now apply Forall_app. Qed.
  Lemma good_add' xs l : Forall good (all l) -> Forall good xs -> Forall good (all (add xs (baseless l))).
  Proof. intros H1 H2. rewrite all_add, all_baseless. now apply Forall_app. Qed.
  Lemma good_based l ys : Forall good (all l) -> base l = Some ys -> Forall good (before l) /\ Forall good ys.
  Proof. destruct l as [b [zs|] f]; unfold all; cbn; [|discriminate]. intros H [= ->]. now apply Forall_app in H. Qed.
  Lemma skipped_lexical n ts xs r : skipped n ts xs r -> Forall lexical ts -> Forall good xs /\ Forall lexical r.
  Proof.
    induction 1; intros W; try (apply Forall_cons_iff in W as [W0 W]); auto.
    - destruct (IHskipped W). split; [constructor; auto using good_lf|assumption].
    - destruct (IHskipped W). split; [constructor; auto using good_lf|assumption].
    - destruct (IHskipped W). split; [constructor; auto using good_lf|assumption].
  Qed.
  Lemma group_view q t k xs : brackets q (fst t) k -> lexical t -> Forall good xs -> good (Node k (lf t :: xs)).
  Proof.
    destruct t as [t s]. intros B L G. cbn [fst] in B. unfold brackets in B. cbn [In] in B.
    destruct B as [B|[B|[B|[B|[B|[]]]]]]; injection B as <- <- <-.
    1-3: apply good_other; try discriminate; constructor; [apply good_lf|exact G].
    - apply good_node; [discriminate| |constructor; [apply good_lf|exact G]]. split; [intros _|discriminate].
      do 3 eexists. split; [reflexivity|]. cbn in L. cbn. destruct L as [-> | ->]; [left|right]; cbn; auto.
    - apply good_node; [discriminate| |constructor; [apply good_lf|exact G]]. split; [intros _|discriminate].
      do 3 eexists. split; [reflexivity|]. cbn in L. cbn. destruct L as [-> | ->]; [left|right]; cbn; auto.
  Qed.
  Lemma env_end_view ts e r : env_end ts e r -> Forall lexical ts -> Forall good e /\ Forall lexical r.
  Proof.
    intros H W. destruct H; [apply Forall_cons_iff in W as [_ W]|auto]. split; [|exact W].
    constructor; [|constructor]. apply good_other; try discriminate. constructor; [apply good_lf|constructor].
  Qed.
  Lemma right_side_view ts e r : right_side ts e r -> Forall lexical ts ->
    Forall (every view_ok) e /\ Forall lexical r /\ (e = [] \/ exists c2 b2 d2, e = [c2] /\ clause_of (tx "\right") b2 d2 c2).
  Proof.
    intros H W. destruct H as [s r c r' H|r H]; [|auto]. apply Forall_cons_iff in W as [L W].
    apply (clause_shape _ _ _ _ (tx "\right")) in H as (W' & V & bs & d & C); [|exact W|]; [|cbn in L; now rewrite L].
    split; [now repeat constructor|]. split; [exact W'|right]. eauto 6.
  Qed.

  Ltac forward := repeat match goal with
    | H : lexical ?t -> _, L : lexical ?t |- _ => specialize (H L)
    | H : Forall lexical ?ts -> _, L : Forall lexical ?ts |- _ => specialize (H L)
    | H : Forall good ?xs -> _, L : Forall good ?xs |- _ => specialize (H L)
    | H : Forall good (all (fresh _)) -> _ |- _ => specialize (H (Forall_nil _))
    | H : _ /\ _ |- _ => destruct H
    end.
  Ltac gd := repeat first [assumption | apply good_lf | apply good_leaf | apply good_lfs | apply good_add' | apply good_add | apply good_arg
    | apply Forall_nil | apply Forall_cons | (apply Forall_app; split) | (apply good_other; [discriminate|discriminate|discriminate|])].
  Lemma rest_lexical s r : Forall lexical r -> Forall lexical (rest_word s r).
  Proof. intros H. destruct s; [exact H|constructor; [exact I|exact H]]. Qed.
  Lemma good_inside l t bs : Forall good (all l) -> Forall good (all (inside l t bs)).
  Proof.
    intros G. unfold inside. destruct (base l) as [ys|] eqn:E.
    - destruct (good_based _ _ G E) as [G1 G2]. unfold all; cbn. gd.
    - unfold all; cbn. gd.
  Qed.
  Lemma good_outside l i : Forall good (all l) -> Forall good (all i) -> Forall good (all (outside l i)).
  Proof.
    intros G H. assert (B : Forall good (before l)) by (destruct l as [b [ys|] f]; unfold all in G; cbn in G; apply Forall_app in G; apply G).
    unfold outside. destruct (base i); unfold all at 1; cbn; gd.
  Qed.
  Lemma grammar_views :
    (forall p g l ts l' r, content gm sp p g l ts l' r -> v_content l ts l' r) /\
    (forall p f l t ts b l' r, element gm sp p f l t ts b l' r -> v_element l t ts l' r) /\
    (forall q t ts x r, group gm sp q t ts x r -> v_group t ts x r) /\
    (forall p a w h ts xs h' r, GramSpec.arguments gm sp p a w h ts xs h' r -> v_arguments ts xs r).
  Proof.
    apply (grammar_ind gm sp (fun p g l ts l' r _ => v_content l ts l' r) (fun p f l t ts b l' r _ => v_element l t ts l' r)
      (fun q t ts x r _ => v_group t ts x r) (fun p a w h ts xs h' r _ => v_arguments ts xs r));
      unfold v_content, v_element, v_group, v_arguments; intros;
      repeat match goal with W : Forall lexical (_ :: _) |- _ => apply Forall_cons_iff in W as [? W] end.
    all: try (split; [apply good_add; [assumption|constructor; [apply good_lf|constructor]]|assumption]).
    all: try (split; [first [assumption|constructor]|first [assumption|constructor; assumption|constructor]]; fail).
    all: repeat match goal with W : Forall lexical (_ ++ _) |- _ => apply Forall_app in W as [? W] end.
    all: forward.
    all: try (split; [apply good_add; [assumption|constructor; [apply good_arg; assumption|constructor]]|assumption]; fail).
    all: try (split; [constructor; [apply good_arg; assumption|assumption]|assumption]; fail).
    all: try (split; [apply good_add; [assumption|constructor; [assumption|constructor]]|assumption]; fail).
    all: try (split; assumption).
    all: try (split; [gd|first [assumption|constructor|now apply rest_lexical]]; fail).
    - (* base *) apply H0. change (Forall good (all l ++ xs)). rewrite <- e0. assumption.
    - (* pairs *) destruct t as [t s]. cbn [fst] in e0. subst t.
      apply (clause_shape _ _ _ _ (tx "\left")) in c as (W & V & bs & d & C); [|assumption|]; [|match goal with L : lexical _ |- _ => cbn in L; now rewrite L end].
      forward. apply right_side_view in r0 as (V2 & W2 & E2); [|assumption]. split; [|exact W2]. apply good_add; [assumption|]. constructor; [|constructor].
      split; [|exact I]. apply every_node. split.
      + split; [discriminate|intros _]. exists c1, bs, d, (all l1), e. split; [reflexivity|]. split; [exact C|]. split; [now apply good_plain|exact E2].
      + constructor; [exact V|]. apply Forall_app. split; [now apply good_every|exact V2].
    - apply env_end_view in e1 as [V2 W2]; [|assumption]. split; [gd|exact W2].
    - apply env_end_view in e2 as [V2 W2]; [|assumption]. split; [gd|exact W2].
    - apply skipped_lexical in s0 as [V2 W2]; [|assumption]. split; [|exact W2]. apply good_add; [assumption|]. constructor; [|constructor].
      destruct o as [[_ ->]|[_ ->]]; gd.
    all: try (split; [unfold all at 1; cbn [before base based]; rewrite app_nil_r; gd|assumption]; fail).
    - destruct (good_based _ _ H1 e1) as [G1 G2]. split; [|assumption]. unfold all; cbn. gd.
    - destruct (good_based _ _ H1 e) as [G1 G2]. split; [|assumption]. unfold all; cbn. gd.
    - (* scripts *) match goal with W : Forall lexical (_ :: _) |- _ => apply Forall_cons_iff in W as [? W] end. forward.
      match goal with G : Forall good (all l) |- _ => destruct (H (good_inside _ _ _ G)) as [G' W] end. split; [now apply good_outside|exact W].
    - split; [|constructor]. apply good_outside; [|apply good_inside]; assumption.
    - (* groups *) match goal with W : Forall lexical (_ :: _) |- _ => apply Forall_cons_iff in W as [? W] end.
      split; [|assumption]. apply (group_view q); auto. gd.
    - split; [|assumption]. apply (group_view q); auto.
    - (* arguments *) forward. match goal with H : Forall lexical (rest_word _ _) -> _ |- _ => destruct H as [G W]; [now apply rest_lexical|] end.
      split; [gd|exact W].
  Qed.
End Views.

Lemma kind_eqb_true (k k' : kind) : kind_eqb k k' = true -> k = k'.
Proof. unfold kind_eqb. destruct (kind_eq_dec k k'); [auto|discriminate]. Qed.
Lemma every_deep (P Q : kind -> list tree -> Prop) : (forall k ch, P k ch -> Forall (every P) ch -> Q k ch) ->
  forall t, every P t -> every Q t.
Proof.
  intros H t. induction t as [k s|k ch IH] using tree_ind2; intros E; [exact I|].
  apply every_node in E as [E1 E2]. apply every_node. split; [now apply H|].
  clear E1 H. induction ch; constructor; inversion_clear IH; inversion_clear E2; auto.
Qed.
Lemma source_reading macros fuel page sp src t : 2 <= page -> parse_source macros fuel page sp src = Ok t ->
  exists ts, tokens_of macros page sp src ts /\ reading gm_real sp ts t /\ wf_tree gm_real sp t.
Proof.
  intros Hp H. destruct (parse_source_reads _ _ _ _ _ _ Hp H) as (ts & Ht & Hl). exists ts. split; [exact Ht|]. split.
  - eapply complete; [|exact Hl]. eapply tokens_words; eassumption.
  - apply parse_shape in Hl. apply Hl.
Qed.
Lemma source_views macros fuel page sp src t : 2 <= page -> parse_source macros fuel page sp src = Ok t -> every view_ok t.
Proof.
  intros Hp H. destruct (source_reading _ _ _ _ _ _ Hp H) as (ts & Ht & (l & Hc & ->) & _).
  apply (proj1 (grammar_views gm_real sp)) in Hc. destruct Hc as [G _]; [eapply tokens_lexical; eassumption|constructor|].
  apply every_node. split; [apply other_view; discriminate|now apply good_every].
Qed.

(* ------------------------------------------------------------------ *)
(** * C67  The typed views of the tree *)

(** ** Commands: the name is there, and [arguments()] is everything else, in order *)
Lemma args_filter l : Forall is_argument l -> filter (fun c => is_node c && kind_eqb (tkind c) ClauseArgument) l = l.
Proof.
  induction 1 as [|t l H _ IH]; [reflexivity|]. destruct t as [|[] ch]; try contradiction H.
  cbn [filter is_node tkind]. change (kind_eqb ClauseArgument ClauseArgument) with true. cbn [andb]. now rewrite IH.
Qed.
Lemma args_no_leaf l k : Forall is_argument l -> find (fun c => match c with Leaf k' _ => kind_eqb k' k | Node _ _ => false end) l = None.
Proof. induction 1 as [|t l H _ IH]; [reflexivity|]. destruct t as [|[] ch]; try contradiction H. exact IH. Qed.
Lemma find_skip {A} (f : A -> bool) l r : find f l = None -> find f (l ++ r) = find f r.
Proof. induction l as [|x l IH]; [reflexivity|]. cbn. destruct (f x); [discriminate|exact IH]. Qed.
Definition command_view (k : kind) (ch : list tree) : Prop :=
  k = ItemCmd -> exists left name right, ch = left ++ Leaf ClauseCommandName (92%N :: name) :: right /\
    Forall is_argument (left ++ right) /\
    cmd_name_tok (Node k ch) = Some (92%N :: name) /\ Syntax.arguments (Node k ch) = left ++ right.
Lemma command_view_of l name r : Forall is_argument l -> Forall is_argument r ->
  command_view ItemCmd (l ++ Leaf ClauseCommandName (92%N :: name) :: r).
Proof.
  intros L R _. exists l, name, r. split; [reflexivity|]. split; [now apply Forall_app|]. split.
  - unfold cmd_name_tok, leaf_child_of. cbn [children]. rewrite find_skip by now apply args_no_leaf. reflexivity.
  - unfold Syntax.arguments, nodes_of. cbn [children]. rewrite filter_app. cbn [filter is_node andb]. now rewrite !args_filter.
Qed.
Lemma one_arg a : Forall is_argument [Node ClauseArgument a]. Proof. constructor; [exact I|constructor]. Qed.
Lemma right_is_argument l : Forall right_argument l -> Forall is_argument l.
Proof. intros H. eapply Forall_impl; [|exact H]. intros [|[] ch] E; try contradiction E; exact I. Qed.
Theorem C67_commands : forall macros fuel page sp src t, 2 <= page -> parse_source macros fuel page sp src = Ok t ->
  every command_view t.
Proof.
  intros m f page sp src t Hp H. destruct (source_reading _ _ _ _ _ _ Hp H) as (ts & _ & _ & W).
  eapply every_impl; [|exact W]. clear. intros k ch H -> . revert H.
  intros H. inversion H; subst;
    try match goal with O : opening ItemCmd _ _ |- _ => exfalso; unfold opening in O; cbn in O; intuition discriminate end.
  match goal with C : command_ok _ _ _ _ |- _ => rename C into C0 end. inversion C0; subst.
  - exact (command_view_of [] _ [] (Forall_nil _) (Forall_nil _) eq_refl).
  - match goal with A : arguments_ok _ _ _ |- _ => destruct A as [A _]; apply right_is_argument in A; exact (command_view_of [] _ _ (Forall_nil _) A eq_refl) end.
  - exact (command_view_of [] _ [_] (Forall_nil _) (one_arg _) eq_refl).
  - exact (command_view_of [] _ [] (Forall_nil _) (Forall_nil _) eq_refl).
  - exact (command_view_of [_] _ [] (one_arg _) (Forall_nil _) eq_refl).
  - exact (command_view_of [] _ [_] (Forall_nil _) (one_arg _) eq_refl).
  - exact (command_view_of [_] _ [_] (one_arg _) (one_arg _) eq_refl).
Qed.
Print Assumptions C67_commands.

(** ** Environments *)
Definition environment_view (k : kind) (ch : list tree) : Prop :=
  k = ItemEnv -> exists name args body close,
    let begin := Node ItemBegin (Leaf TokenCommandSym name :: args) in
    ch = begin :: body ++ close /\ Forall item body /\ Forall is_argument args /\
    env_begin (Node k ch) = Some begin /\ env_name_tok (Node k ch) = Some name /\ env_arguments (Node k ch) = args /\
    ((close = [] /\ Syntax.env_end (Node k ch) = None) \/
     (exists s, let e := Node ItemEnd [Leaf TokenCommandSym s] in
        close = [e] /\ Syntax.env_end (Node k ch) = Some e /\ clause_name e = Some s)).
Lemma items_no_end body : Forall item body -> filter (fun c => is_node c && kind_eqb (tkind c) ItemEnd) body = [].
Proof.
  induction 1 as [|t l H _ IH]; [reflexivity|]. destruct t as [k s|k ch]; [exact IH|]. cbn [filter is_node tkind andb].
  destruct (kind_eqb k ItemEnd) eqn:E; [|exact IH]. exfalso. apply kind_eqb_true in E. subst k. cbn in H. intuition discriminate.
Qed.
Theorem C67_environments : forall macros fuel page sp src t, 2 <= page -> parse_source macros fuel page sp src = Ok t ->
  every environment_view t.
Proof.
  intros m f page sp src t Hp H. destruct (source_reading _ _ _ _ _ _ Hp H) as (ts & _ & _ & W).
  eapply every_deep; [|exact W]. clear. intros k ch H HF ->. revert HF.
  inversion H; subst;
    try match goal with O : opening ItemEnv _ _ |- _ => exfalso; unfold opening in O; cbn in O; intuition discriminate end.
  intros HF. apply Forall_cons_iff in HF as [HB _].
  assert (A : Forall is_argument args).
  { apply every_node in HB as [HB _]. clear - HB. inversion HB; subst.
    - match goal with O : opening ItemBegin _ _ |- _ => exfalso; unfold opening in O; cbn in O; intuition discriminate end.
    - destruct (option_map en_args (get_env sp name)) as [p|]; [|subst args; constructor].
      match goal with A : arguments_ok _ _ _ |- _ => destruct A as [A _]; now apply right_is_argument end. }
  exists name, args, body, close. cbv zeta. repeat (split; [first [reflexivity|assumption]|]).
  split. { unfold env_arguments, env_begin, nodes_of. cbn [children filter is_node tkind]. change (kind_eqb ItemBegin ItemBegin) with true. cbn [andb hd_error].
    unfold Syntax.arguments, nodes_of. cbn [children filter is_node andb]. now apply args_filter. }
  unfold Syntax.env_end, nodes_of. cbn [children filter is_node tkind]. change (kind_eqb ItemBegin ItemEnd) with false. cbn [andb].
  rewrite filter_app, items_no_end by assumption. match goal with O : TreeSpec.optional _ _ |- _ => destruct O as [-> | ->] end.
  - left. auto.
  - right. exists s'. repeat split.
Qed.
Print Assumptions C67_environments.

(** ** Formulas: inline or display, by what opens them *)
Definition formula_view (k : kind) (ch : list tree) : Prop :=
  k = ItemFormula -> exists o s rest, ch = Leaf o s :: rest /\
    ((inline_open (o, s) /\ formula_is_inline (Node k ch) = true /\ formula_is_display (Node k ch) = false) \/
     (display_open (o, s) /\ formula_is_display (Node k ch) = true /\ formula_is_inline (Node k ch) = false)).
Theorem C67_formulas : forall macros fuel page sp src t, 2 <= page -> parse_source macros fuel page sp src = Ok t ->
  every formula_view t.
Proof.
  intros m f page sp src t Hp H. apply source_views in H; [|exact Hp]. eapply every_impl; [|exact H]. clear.
  intros k ch [H _] ->. destruct (H eq_refl) as (o & s & rest & -> & [O|O]); exists o, s, rest; (split; [reflexivity|]); [left|right];
    (split; [exact O|]); unfold inline_open, display_open in O; cbn [In] in O; destruct O as [O|[O|[]]]; injection O as <- <-; split; reflexivity.
Qed.
Print Assumptions C67_formulas.

(** ** Pairs *)
(** the clause of a pair that [right()] answers: of a pair without nodes between
    the clauses, and without a right clause, it is the left one *)
Definition pair_view (k : kind) (ch : list tree) : Prop :=
  k = ItemLR -> exists c1 b1 d1 body close,
    ch = c1 :: body ++ close /\ clause_of (tx "\left") b1 d1 c1 /\ Forall no_clause body /\
    lr_left (Node k ch) = Some c1 /\ lr_is_left c1 = true /\
    ((exists c2 b2 d2, close = [c2] /\ clause_of (tx "\right") b2 d2 c2 /\
        lr_right (Node k ch) = Some c2 /\ lr_is_left c2 = false) \/
     (close = [] /\ lr_right (Node k ch) = if existsb is_node body then None else Some c1)).
Lemma clause_is word bs d c : clause_of word bs d c -> exists ch, c = Node ClauseLR (Leaf ClauseCommandName word :: ch).
Proof. intros [_ H]. destruct d as [[k s]|]; [destruct H as (_ & _ & ->)|rewrite H]; eauto. Qed.
Lemma last_node x body : Forall no_clause body ->
  cast ClauseLR (hd_error (rev (filter is_node (Node ClauseLR x :: body)))) = if existsb is_node body then None else Some (Node ClauseLR x).
Proof.
  intros H. induction body as [|t body IH] using rev_ind; [reflexivity|]. apply Forall_app in H as [H1 H2].
  rewrite existsb_app. cbn [filter is_node] in *. rewrite filter_app. apply Forall_cons_iff in H2 as [H2 _]. destruct t as [k s|k ch].
  - cbn [filter existsb is_node orb]. rewrite app_nil_r, orb_false_r. now apply IH.
  - cbn [filter existsb is_node orb]. rewrite orb_true_r. rewrite app_comm_cons, rev_app_distr. cbn [rev app hd_error cast tkind].
    destruct (kind_eqb k ClauseLR) eqn:E; [|reflexivity]. apply kind_eqb_true in E. subst k. contradiction H2.
Qed.
Theorem C67_pairs_partial : forall macros fuel page sp src t, 2 <= page -> parse_source macros fuel page sp src = Ok t ->
  every pair_view t.
Proof.
  intros m f page sp src t Hp H. apply source_views in H; [|exact Hp]. eapply every_impl; [|exact H]. clear.
  intros k ch [_ H] ->. destruct (H eq_refl) as (c1 & b1 & d1 & body & e & -> & C1 & N & E). exists c1, b1, d1, body, e.
  destruct (clause_is _ _ _ _ C1) as [x1 X1]. split; [reflexivity|]. split; [exact C1|]. split; [exact N|].
  split; [now rewrite X1|]. split; [now rewrite X1|]. destruct E as [->|(c2 & b2 & d2 & -> & C2)].
  - right. split; [reflexivity|]. rewrite app_nil_r. unfold lr_right, child_nodes. cbn [children]. rewrite X1. now apply last_node.
  - left. exists c2, b2, d2. destruct (clause_is _ _ _ _ C2) as [x2 X2]. split; [reflexivity|]. split; [exact C2|]. rewrite X2. split; [|reflexivity].
    unfold lr_right, child_nodes. cbn [children]. rewrite app_comm_cons, filter_app, rev_app_distr. reflexivity.
Qed.
Print Assumptions C67_pairs_partial.

(** The symbol of a clause is its delimiter; without one it is the last blank, if any. *)
Lemma last_token_snoc k l t : last_token (Node k (l ++ [t])) = last_token t.
Proof. cbn [last_token]. induction l as [|x l IH]; [reflexivity|]. destruct l as [|y l]; [reflexivity|]. exact IH. Qed.
Theorem C67_symbol : forall word bs d c, clause_of word bs d c ->
  lr_sym c = match d, rev bs with
             | Some l, _ => Some l
             | None, Leaf k s :: _ => Some (k, s)
             | None, _ => None
             end.
Proof.
  intros word bs d c [B H]. unfold lr_sym. destruct d as [[k s]|].
  - destruct H as (K & _ & ->). rewrite app_comm_cons, last_token_snoc. cbn [last_token]. destruct k; try reflexivity. congruence.
  - subst c. destruct bs as [|b bs] using rev_ind; [reflexivity|]. clear IHbs. rewrite app_comm_cons, last_token_snoc, rev_app_distr.
    apply Forall_app in B as [_ B]. apply Forall_cons_iff in B as [B _]. destruct b as [k s|]; [|contradiction B].
    cbn [rev app last_token]. cbn in B. destruct B as [<-|[<-|[<-|[]]]]; reflexivity.
Qed.
Print Assumptions C67_symbol.

(** So the full claim -- [right()] is the right clause or nothing, [sym()] the
    delimiter or nothing -- is false: the right clause of [\left(] is its left
    clause, and the symbol of [\left] before a blank at the end is the blank. *)
Definition root_pair (src : string) : option tree :=
  match parse_source false 100 PAGE DEFAULT_SPEC (tx src) with Ok (Node _ [t]) => Some t | _ => None end.
Theorem C67_right_refuted : exists t c, root_pair "\left(" = Some t /\ tkind t = ItemLR /\
  lr_right t = Some c /\ lr_is_left c = true /\ lr_sym c = Some (TokenLParen, tx "(").
Proof. do 2 eexists. split; [vm_compute; reflexivity|]. repeat split. Qed.
Print Assumptions C67_right_refuted.
Theorem C67_symbol_refuted : exists t c, root_pair "\left " = Some t /\ tkind t = ItemLR /\
  lr_left t = Some c /\ lr_sym c = Some (TokenWhiteSpace, tx " ").
Proof. do 2 eexists. split; [vm_compute; reflexivity|]. repeat split. Qed.
Print Assumptions C67_symbol_refuted.

(** ** Cases *)
Definition view_of (src : string) : option (list tree) :=
  match parse_source true 300 PAGE DEFAULT_SPEC (tx src) with Ok (Node _ ch) => Some ch | _ => None end.
Example C67_example_cmd : exists t r, view_of "\frac{a}b c" = Some (t :: r) /\ tkind t = ItemCmd /\
  cmd_name_tok t = Some (tx "\frac") /\ List.length (Syntax.arguments t) = 2.
Proof. do 2 eexists. split; [vm_compute; reflexivity|]. repeat split. Qed.
Example C67_example_env : exists t r, view_of "\begin{tabular}{c} a \\ b" = Some (t :: r) /\ tkind t = ItemEnv /\
  env_name_tok t = Some (tx "tabular") /\ List.length (env_arguments t) = 1 /\ Syntax.env_end t = None.
Proof. do 2 eexists. split; [vm_compute; reflexivity|]. repeat split. Qed.
Example C67_example_formula : exists t u, view_of "$$a$$\(b\)" = Some [t; u] /\ formula_is_display t = true /\ formula_is_inline u = true.
Proof. do 2 eexists. split; [vm_compute; reflexivity|]. repeat split. Qed.
Example C67_example_pair : exists t l r, view_of "\left\{ a \right ." = Some [t] /\
  lr_left t = Some l /\ lr_sym l = Some (TokenCommandSym, tx "\{") /\ lr_right t = Some r /\ lr_sym r = Some (TokenWord, tx ".").
Proof. do 3 eexists. split; [vm_compute; reflexivity|]. repeat split. Qed.
