(** What the converter does with the trees of documents (for C54). *)
From Verif Require Export DocSpec ConvTerm ConvFacts.
Local Open Scope nat_scope.

Definition cs (c : ctx) (s : sta) : cst := mk_cst (x_mode c) (x_env c) (x_ind c) (snd s) (fst s).
Definition lift (c : ctx) (r : out) : cout :=
  match r with COk (s, o) => COk (cs c s, o) | CErr e => CErr e | CPanic p => CPanic p | CFuel => CFuel end.
Definition okc (c : ctx) : Prop := is_list_env (x_env c) = true -> 2 <= x_ind c.
Definition steady (f : den) : Prop := forall c s, f c s = f c (fresh s).
Definition deq (f g : den) : Prop := forall c s, f c s = g c s.

Lemma seqd_eq f g c s : seqd f g c s = let! (s1, o1) := f c s in let! (s2, o2) := g c s1 in say s2 (o1 ++ o2).
Proof. reflexivity. Qed.
Lemma around_eq a f b c s : around a f b c s = let! (s1, o) := f c s in say s1 (a ++ o ++ b).
Proof. reflexivity. Qed.
Lemma seqd_idl f : deq (seqd idd f) f.
Proof. intros c s. unfold seqd, idd, say. cbn. destruct (f c s) as [[s1 o1]| | |]; reflexivity. Qed.
Lemma seqd_idr f : deq (seqd f idd) f.
Proof. intros c s. unfold seqd, idd, say. cbn. destruct (f c s) as [[s1 o1]| | |]; cbn; rewrite ?app_nil_r; reflexivity. Qed.
Lemma seqd_assoc f g h : deq (seqd (seqd f g) h) (seqd f (seqd g h)).
Proof.
  intros c s. unfold seqd, say. destruct (f c s) as [[s1 o1]| | |]; cbn; try reflexivity.
  destruct (g c s1) as [[s2 o2]| | |]; cbn; try reflexivity. destruct (h c s2) as [[s3 o3]| | |]; cbn; try reflexivity.
  now rewrite app_assoc.
Qed.
Lemma seqd_cong f f' g g' : deq f f' -> deq g g' -> deq (seqd f g) (seqd f' g').
Proof. intros H1 H2 c s. unfold seqd. rewrite H1. destruct (f' c s) as [[s1 o1]| | |]; cbn; try reflexivity. now rewrite H2. Qed.
Lemma deq_refl f : deq f f. Proof. intros c s. reflexivity. Qed.
Lemma deq_sym f g : deq f g -> deq g f. Proof. intros H c s. now rewrite H. Qed.
Lemma deq_trans f g h : deq f g -> deq g h -> deq f h. Proof. intros H1 H2 c s. now rewrite H1. Qed.
Lemma steady_seq f g : steady f -> steady (seqd f g).
Proof. intros H c s. unfold seqd. now rewrite H. Qed.
Lemma steady_eq f g : deq f g -> steady f -> steady g.
Proof. intros H1 H2 c s. now rewrite <- !H1. Qed.

Lemma each_app f a b : forall s, each f (a ++ b) s =
  let! (s1, o1) := each f a s in let! (s2, o2) := each f b s1 in COk (s2, o1 ++ o2).
Proof.
  induction a as [|t a IH]; intros s; cbn [app each].
  - cbn. destruct (each f b s) as [[s1 o1]| | |]; reflexivity.
  - destruct (f t s) as [[s1 o1]| | |]; cbn; try reflexivity. rewrite IH.
    destruct (each f a s1) as [[s2 o2]| | |]; cbn; try reflexivity.
    destruct (each f b s2) as [[s3 o3]| | |]; cbn; try reflexivity. now rewrite app_assoc.
Qed.
Lemma kids k ch n : height (Node k ch) < S n -> Forall (fun t => height t < n) ch.
Proof. intros H. apply Forall_forall. intros x Hx. pose proof (height_child k ch x Hx). lia. Qed.
Lemma lift_eq c r r' : r = r' -> lift c r = lift c r'. Proof. now intros ->. Qed.

Section Conv.
  Variable sp : spec.
  Notation convert := (convert sp).
  Definition means (t : tree) (f : den) : Prop :=
    forall n c s, okc c -> height t < n -> convert n t (cs c s) = lift c (f c s).
  Definition meansl (D : list tree) (f : den) : Prop :=
    forall n c s, okc c -> Forall (fun t => height t < n) D -> each (convert n) D (cs c s) = lift c (f c s).

  Lemma meansl_ext D f g : deq f g -> meansl D f -> meansl D g.
  Proof. intros H1 H2 n c s Hc Hh. rewrite <- H1. auto. Qed.
  Lemma means_ext t f g : deq f g -> means t f -> means t g.
  Proof. intros H1 H2 n c s Hc Hh. rewrite <- H1. auto. Qed.
  Lemma meansl_nil : meansl [] idd.
  Proof. intros n c s Hc Hh. reflexivity. Qed.
  Lemma meansl_one t f : means t f <-> meansl [t] f.
  Proof.
    split; intros H n c s Hc Hh.
    - inversion Hh; subst. cbn [each]. rewrite H by assumption. destruct (f c s) as [[s1 o1]| | |]; cbn; rewrite ?app_nil_r; reflexivity.
    - specialize (H n c s Hc). cbn [each] in H. rewrite <- H by (repeat constructor; exact Hh).
      destruct (convert n t (cs c s)) as [[s1 o1]| | |]; cbn; rewrite ?app_nil_r; reflexivity.
  Qed.
  Lemma meansl_app A B f g : meansl A f -> meansl B g -> meansl (A ++ B) (seqd f g).
  Proof.
    intros H1 H2 n c s Hc Hh. apply Forall_app in Hh as [Ha Hb]. rewrite each_app, H1 by assumption. unfold seqd.
    destruct (f c s) as [[s1 o1]| | |]; cbn; try reflexivity. rewrite H2 by assumption.
    destruct (g c s1) as [[s2 o2]| | |]; reflexivity.
  Qed.
  Lemma meansl_cons t B f g : means t f -> meansl B g -> meansl (t :: B) (seqd f g).
  Proof. intros H1 H2. change (t :: B) with ([t] ++ B). apply meansl_app; [now apply meansl_one|exact H2]. Qed.

  (** leaves *)
  Lemma cs_skip c s : set_skip false (cs c s) = cs c (fresh s). Proof. reflexivity. Qed.
  Definition simple (i : DocSpec.item) : Prop :=
    match i with
    | IWord _ | ISpace _ | IPrime | INewline => True
    | IMark c => In c (map fst mark_tokens)
    | _ => False
    end.
  Definition item_tok (i : DocSpec.item) : tok :=
    match i with
    | IWord w => (Word, w)
    | ISpace x => space_tok x
    | IMark c => (mark_token c, [c])
    | IPrime => (Apostrophe, tx "'")
    | INewline => (NewLine, tx "\\")
    | _ => (TError, [])
    end.
  Definition leaf (t : tok) : tree := Leaf (kind_of_token (fst t)) (snd t).
  Lemma simple_toks i k : simple i -> toks i k = item_tok i :: k.
  Proof. destruct i; cbn; try contradiction; reflexivity. Qed.
  Lemma is_char_in c : is_char c = true -> In c (map fst mark_tokens).
  Proof. intros H. apply existsb_exists in H as (x & Hx & E). apply N.eqb_eq in E as ->. exact Hx. Qed.
  Lemma simple_means i b : simple i -> means (leaf (item_tok i)) (typ sp i b).
  Proof.
    intros H n [m e ind] [sk lab] Hc Hh. destruct n as [|n]; [lia|]. unfold leaf, item_tok.
    destruct i; try contradiction; try (destruct m; reflexivity).
    - destruct x; [|reflexivity|reflexivity]. cbn. destruct sk; reflexivity.
    - cbn in H. repeat (destruct H as [<-|H]; [destruct m, e; reflexivity|]). contradiction.
    - destruct e; reflexivity.
  Qed.
  Lemma space_means x : means (leaf (space_tok x)) (fun c s => space_out c x s).
  Proof. apply (simple_means (ISpace x) false). exact I. Qed.
  Lemma spaces_means g : meansl (map leaf (map space_tok g)) (fun c => gap_out c [] g).
  Proof.
    induction g as [|x g IH]; [apply meansl_nil|]. cbn [map]. eapply meansl_ext; [|eapply meansl_cons; [apply space_means|exact IH]].
    intros c s. reflexivity.
  Qed.

  (** plain nodes *)
  Lemma plain_node k ch f : In k [ItemLR; ClauseArgument; ScopeRoot; ItemText; ItemBracket; ItemParen] ->
    meansl ch f -> means (Node k ch) (fun c s => f c (fresh s)).
  Proof.
    intros Hk H n c s Hc Hh. destruct n as [|n]; [lia|]. pose proof (kids _ _ _ Hh) as Hd.
    rewrite <- (H n c (fresh s) Hc Hd). cbn in Hk.
    repeat (destruct Hk as [<-|Hk]; [reflexivity|]). contradiction.
  Qed.
  Definition tail_den (f : den) (o : ctx -> text) : den := fun c s => let! (s1, o1) := f c s in say s1 (o1 ++ o c).

  (** groups *)
  Lemma lift_map c (r : out) (g : text -> text) :
    (let! (s, o) := lift c r in COk (s, g o)) = lift c (let! (s, o) := r in say s (g o)).
  Proof. destruct r as [[s o]| | |]; reflexivity. Qed.
  Lemma brace_means (l : bool) : means (if l then Leaf TokenLBrace (tx "{") else Leaf TokenRBrace (tx "}")) (fun c s => say (fresh s) []).
  Proof. intros [|n] c s Hc Hh; [destruct l; cbn in Hh; lia|]. destruct l; reflexivity. Qed.

  Definition curly_den (D : den) (blank : bool) : den := fun c s =>
    let c' := match x_mode c with
              | MMath => if is_sub_stack (x_env c) then c else Ctx MMath EMathCurlyGroup (x_ind c)
              | MText => c
              end in
    let! (s1, o) := D c' (fresh s) in
    say (fresh s1) (o ++ match x_mode c with MMath => if blank then tx "zws " else [] | MText => [] end).
  Lemma curly_means D f : meansl D f ->
    means (Node ItemCurly (Leaf TokenLBrace (tx "{") :: D ++ [Leaf TokenRBrace (tx "}")])) (curly_den f (forallb is_brace_or_space D)).
  Proof.
    intros H n c s Hc Hh. destruct n as [|n]; [lia|]. pose proof (kids _ _ _ Hh) as Hd. clear Hh.
    assert (B : meansl (Leaf TokenLBrace (tx "{") :: D ++ [Leaf TokenRBrace (tx "}")])
      (fun c s => let! (s1, o) := f c (fresh s) in say (fresh s1) o)).
    { eapply meansl_ext; [|apply meansl_cons; [apply (brace_means true)|apply meansl_app; [exact H|apply meansl_one, (brace_means false)]]].
      intros c0 s0. unfold seqd, say. cbn. destruct (f c0 _) as [[s1 o1]| | |]; cbn; rewrite ?app_nil_r; reflexivity. }
    set (ch := Leaf TokenLBrace (tx "{") :: D ++ [Leaf TokenRBrace (tx "}")]) in *.
    assert (Z : forallb is_brace_or_space ch = forallb is_brace_or_space D).
    { unfold ch. cbn [forallb]. rewrite forallb_app. cbn. now rewrite andb_true_r. }
    change (convert (S n) (Node ItemCurly ch) (cs c s)) with (convert_curly_group (convert n) (Node ItemCurly ch) (cs c (fresh s))).
    unfold convert_curly_group. cbn [node_children cbind]. rewrite Z. unfold curly_den. destruct c as [m e ind]. cbn [x_mode x_env x_ind].
    destruct m.
    - change (is_math (cs (Ctx MText e ind) (fresh s))) with false. cbn [andb].
      rewrite (B n _ _ Hc Hd). change (fresh (fresh s)) with (fresh s). destruct (f _ (fresh s)) as [[s1 o1]| | |]; try reflexivity.
      cbn. now rewrite app_nil_r.
    - change (is_math (cs (Ctx MMath e ind) (fresh s))) with true. cbn [andb].
      assert (K : match e with ESubStack => false | _ => true end = negb (is_sub_stack e)) by (destruct e; reflexivity).
      change (c_env (cs (Ctx MMath e ind) (fresh s))) with e. rewrite K. destruct (is_sub_stack e) eqn:Ee; cbn [negb].
      + rewrite (B n _ _ Hc Hd). change (fresh (fresh s)) with (fresh s). destruct (f _ (fresh s)) as [[s1 o1]| | |]; reflexivity.
      + assert (E : enter_env EMathCurlyGroup (cs (Ctx MMath e ind) (fresh s)) = cs (Ctx MMath EMathCurlyGroup ind) (fresh s))
          by (unfold enter_env, cs; cbn; now rewrite Nat.add_0_r).
        rewrite E, (B n _ _) by (try exact Hd; intros X; discriminate X). change (fresh (fresh s)) with (fresh s).
        destruct (f _ (fresh s)) as [[s1 o1]| | |]; reflexivity.
  Qed.
  Lemma bracket_means D f : meansl D f ->
    means (Node ItemBracket (Leaf TokenLBracket (tx "[") :: D ++ [Leaf TokenRBracket (tx "]")]))
      (fun c s => let! (s1, o) := f c (fresh s) in say (fresh s1) (tx "\[" ++ o ++ tx "\]")).
  Proof.
    intros H. eapply means_ext; [|apply plain_node; [cbn; tauto|apply meansl_cons; [|apply meansl_app; [exact H|apply meansl_one]]]].
    3:{ intros [|n] c s Hc Hh; [cbn in Hh; lia|]. instantiate (1 := fun c s => say (fresh s) (tx "\]")). reflexivity. }
    2:{ intros [|n] c s Hc Hh; [cbn in Hh; lia|]. instantiate (1 := fun c s => say (fresh s) (tx "\[")). reflexivity. }
    intros c s. unfold seqd, say. cbn [cbind]. change (fresh (fresh (fresh s))) with (fresh s). change (fresh (fresh s)) with (fresh s).
    destruct (f c (fresh s)) as [[s1 o1]| | |]; reflexivity.
  Qed.

  (** formulas *)
  Lemma last_token_snoc k D a : last_token (Node k (D ++ [a])) = last_token a.
  Proof.
    induction D as [|x D IH]; [reflexivity|]. rewrite <- IH. cbn. destruct (D ++ [a]) eqn:E; [now destruct D|reflexivity].
  Qed.
  Definition mark_leaf (t : tok) : tree := leaf t.
  Definition formula_den (k : fkind) (D : den) : den := fun c s =>
    let! (s1, o) := D (Ctx MMath (x_env c) (x_ind c)) (fresh s) in
    say (fresh s1) (match x_mode c with
                    | MMath => o
                    | MText => match k with
                               | FInline | FParen => tx "#math.equation(block: false, $" ++ o ++ tx "$);"
                               | FDisplay | FSquare => tx "$ " ++ o ++ tx " $"
                               end
                    end).
  Lemma formula_means k D f : meansl D f ->
    means (Node ItemFormula (leaf (f_open k) :: D ++ [leaf (f_close k)])) (formula_den k f).
  Proof.
    intros H n c s Hc Hh. destruct n as [|n]; [lia|]. pose proof (kids _ _ _ Hh) as Hd. clear Hh.
    assert (B : meansl (leaf (f_open k) :: D ++ [leaf (f_close k)])
      (fun c s => let! (s1, o) := f c (fresh s) in say (fresh s1) o)).
    { eapply meansl_ext; [|apply meansl_cons; [|apply meansl_app; [exact H|apply meansl_one]]].
      3:{ intros [|j] c0 s0 Hc0 Hh; [cbn in Hh; lia|]. instantiate (1 := fun c s => say (fresh s) []). destruct k; reflexivity. }
      2:{ intros [|j] c0 s0 Hc0 Hh; [cbn in Hh; lia|]. instantiate (1 := fun c s => say (fresh s) []). destruct k; reflexivity. }
      intros c0 s0. unfold seqd, say. cbn. destruct (f c0 _) as [[s1 o1]| | |]; cbn; rewrite ?app_nil_r; reflexivity. }
    set (ch := leaf (f_open k) :: D ++ [leaf (f_close k)]) in *.
    assert (V : formula_is_valid (Node ItemFormula ch) = true).
    { unfold formula_is_valid, ch. change (leaf (f_open k) :: D ++ [leaf (f_close k)]) with ((leaf (f_open k) :: D) ++ [leaf (f_close k)]).
      rewrite last_token_snoc. destruct k; reflexivity. }
    assert (W : formula_is_inline (Node ItemFormula ch) = match k with FInline | FParen => true | _ => false end) by (destruct k; reflexivity).
    change (convert (S n) (Node ItemFormula ch) (cs c s)) with (convert_formula (convert n) (Node ItemFormula ch) (cs c (fresh s))).
    unfold convert_formula. cbn [node_children cbind]. rewrite V, W. cbn [negb]. unfold formula_den. destruct c as [m e ind].
    change (set_mode MMath (cs (Ctx m e ind) (fresh s))) with (cs (Ctx MMath e ind) (fresh s)). cbn [x_mode x_env x_ind].
    rewrite (B n (Ctx MMath e ind) (fresh s)) by (try exact Hd; exact Hc). change (fresh (fresh s)) with (fresh s).
    destruct (f (Ctx MMath e ind) (fresh s)) as [[s1 o1]| | |]; try reflexivity.
    cbn. destruct m; [destruct k; reflexivity|]. cbn. now rewrite app_nil_r.
  Qed.

  (** scripts *)
  Definition mark_kind (sup : bool) : kind := if sup then TokenCaret else TokenUnderscore.
  Definition mark_text (sup : bool) : text := if sup then tx "^" else tx "_".
  Lemma attach_rest n D f : meansl D f -> forall c s b, okc c -> Forall (fun t => height t < n) D ->
    attach_loop (convert n) false b D (cs c s) = lift c (let! (s, o) := f c s in say s (o ++ tx ")")).
  Proof.
    intros H c s b Hc Hh. rewrite <- lift_map, <- (H n c s Hc Hh). clear H. generalize (cs c s). clear Hc. revert Hh.
    induction D as [|t D IH]; intros Hh st; [reflexivity|]. inversion Hh; subst. cbn [attach_loop each].
    destruct (convert n t st) as [[s1 o1]| | |]; cbn; try reflexivity. rewrite IH by assumption.
    destruct (each (convert n) D s1) as [[s2 o2]| | |]; cbn; try reflexivity. now rewrite app_assoc.
  Qed.
  Definition script_den (sup based : bool) (f : den) : den := fun c s =>
    let s0 := match x_mode c with MMath => if based then s else fresh s | MText => fresh s end in
    let! (s2, o) := f c s0 in
    say s2 (match x_mode c with
            | MText => (if sup then tx "\^" else tx "\_") ++ o
            | MMath => (if based then [] else tx "zws") ++ (if sup then tx "^(" else tx "_(") ++ o ++ tx ")"
            end).
  Lemma script_bare sup D f : meansl D f ->
    means (Node ItemAttachComponent (Leaf (mark_kind sup) (mark_text sup) :: D)) (script_den sup false f).
  Proof.
    intros H n c s Hc Hh. destruct n as [|n]; [lia|]. pose proof (kids _ _ _ Hh) as Hd. inversion Hd as [|? ? Hm Hd']; subst.
    change (convert (S n) (Node ItemAttachComponent (Leaf (mark_kind sup) (mark_text sup) :: D)) (cs c s)) with
      (convert_attach_component (convert n) (Node ItemAttachComponent (Leaf (mark_kind sup) (mark_text sup) :: D)) (cs c (fresh s))).
    unfold convert_attach_component. cbn [node_children cbind]. unfold script_den. destruct c as [m e ind]. destruct m.
    - change (is_math (cs (Ctx MText e ind) (fresh s))) with false. cbn [each]. destruct n as [|n]; [cbn in Hm; lia|].
      assert (E : convert (S n) (Leaf (mark_kind sup) (mark_text sup)) (cs (Ctx MText e ind) (fresh s)) = COk (cs (Ctx MText e ind) (fresh s), if sup then tx "\^" else tx "\_"))
        by (destruct sup; reflexivity).
      rewrite E. cbn [cbind]. rewrite (H _ _ _ Hc Hd'). cbn [x_mode]. destruct (f _ (fresh s)) as [[s1 o1]| | |]; reflexivity.
    - change (is_math (cs (Ctx MMath e ind) (fresh s))) with true. cbn [attach_loop].
      assert (E : forall X, match Leaf (mark_kind sup) (mark_text sup) with
         | Leaf TokenUnderscore m | Leaf TokenCaret m => let! (s, o) := attach_loop (convert n) false false D (cs (Ctx MMath e ind) (fresh s)) in COk (s, tx "zws" ++ m ++ tx "(" ++ o)
         | _ => X end = let! (s, o) := attach_loop (convert n) false false D (cs (Ctx MMath e ind) (fresh s)) in COk (s, tx "zws" ++ mark_text sup ++ tx "(" ++ o))
        by (intros X; destruct sup; reflexivity).
      destruct sup; cbn [mark_kind mark_text]; rewrite (attach_rest n D f H _ _ _ Hc Hd'); cbn [x_mode];
        destruct (f _ (fresh s)) as [[s1 o1]| | |]; reflexivity.
  Qed.
  Lemma script_based sup D2 g D f : meansl D2 g -> steady g -> meansl D f ->
    means (Node ItemAttachComponent (Node ClauseArgument D2 :: Leaf (mark_kind sup) (mark_text sup) :: D)) (seqd g (script_den sup true f)).
  Proof.
    intros Hg Sg H n c s Hc Hh. destruct n as [|n]; [lia|]. pose proof (kids _ _ _ Hh) as Hd. inversion Hd as [|? ? Hb Hd0]; subst. inversion Hd0 as [|? ? Hm Hd']; subst.
    assert (Hcl : means (Node ClauseArgument D2) g).
    { eapply means_ext; [|apply plain_node; [cbn; tauto|exact Hg]]. intros c0 s0. cbn beta. now rewrite <- Sg. }
    change (convert (S n) (Node ItemAttachComponent (Node ClauseArgument D2 :: Leaf (mark_kind sup) (mark_text sup) :: D)) (cs c s)) with
      (convert_attach_component (convert n) (Node ItemAttachComponent (Node ClauseArgument D2 :: Leaf (mark_kind sup) (mark_text sup) :: D)) (cs c (fresh s))).
    unfold convert_attach_component. cbn [node_children cbind]. unfold script_den, seqd. rewrite (Sg c s). destruct c as [m e ind]. destruct m.
    - change (is_math (cs (Ctx MText e ind) (fresh s))) with false. cbn [each]. rewrite (Hcl n _ _ Hc Hb).
      destruct (g _ (fresh s)) as [[s1 o1]| | |]; try reflexivity. cbn [lift cbind].
      destruct n as [|n]; [cbn in Hm; lia|].
      assert (E : convert (S n) (Leaf (mark_kind sup) (mark_text sup)) (cs (Ctx MText e ind) s1) = COk (cs (Ctx MText e ind) (fresh s1), if sup then tx "\^" else tx "\_"))
        by (destruct sup; reflexivity).
      rewrite E. cbn [cbind]. rewrite (H _ _ _ Hc Hd'). cbn [x_mode]. destruct (f _ (fresh s1)) as [[s2 o2]| | |]; reflexivity.
    - change (is_math (cs (Ctx MMath e ind) (fresh s))) with true. cbn [attach_loop]. rewrite (Hcl n _ _ Hc Hb).
      destruct (g _ (fresh s)) as [[s1 o1]| | |]; try reflexivity. cbn [lift cbind].
      destruct sup; cbn [mark_kind mark_text]; rewrite (attach_rest n D f H _ _ _ Hc Hd'); cbn [x_mode].
      all: destruct (f _ _) as [[s2 o2]| | |]; try reflexivity.
  Qed.
  Lemma prime_based D2 g : meansl D2 g -> steady g ->
    means (Node ItemAttachComponent [Node ClauseArgument D2; Leaf TokenApostrophe (tx "'")]) (seqd g (fun c s => say (fresh s) (tx "'"))).
  Proof.
    intros Hg Sg n c s Hc Hh. destruct n as [|n]; [lia|]. pose proof (kids _ _ _ Hh) as Hd. inversion Hd as [|? ? Hb Hd0]; subst. inversion Hd0 as [|? ? Hm Hd']; subst.
    assert (Hcl : means (Node ClauseArgument D2) g).
    { eapply means_ext; [|apply plain_node; [cbn; tauto|exact Hg]]. intros c0 s0. cbn beta. now rewrite <- Sg. }
    change (convert (S n) (Node ItemAttachComponent [Node ClauseArgument D2; Leaf TokenApostrophe (tx "'")]) (cs c s)) with
      (convert_attach_component (convert n) (Node ItemAttachComponent [Node ClauseArgument D2; Leaf TokenApostrophe (tx "'")]) (cs c (fresh s))).
    unfold convert_attach_component. cbn [node_children cbind]. unfold seqd. rewrite (Sg c s). destruct n as [|n]; [cbn in Hm; lia|].
    assert (E : forall s1, convert (S n) (Leaf TokenApostrophe (tx "'")) (cs c s1) = COk (cs c (fresh s1), tx "'")) by reflexivity.
    destruct (is_math (cs c (fresh s))); cbn [each attach_loop]; rewrite (Hcl (S n) _ _ Hc Hb);
      (destruct (g _ (fresh s)) as [[s1 o1]| | |]; try reflexivity); cbn [lift cbind]; rewrite E; cbn; rewrite ?app_nil_r; reflexivity.
  Qed.

  (** arguments *)
  Definition clause (t : tree) (d : den) : Prop := exists X, t = Node ClauseArgument X /\ meansl X d.
  Lemma clause_means' t d : clause t d -> means t (fun c s => d c (fresh s)).
  Proof. intros (X & -> & H). apply plain_node; [cbn; tauto|exact H]. Qed.
  Lemma clause_kind t d k : clause t d -> has_kind k t = kind_eqb ClauseArgument k.
  Proof. intros (X & -> & _). reflexivity. Qed.
  Lemma comma_thread n c : okc c -> forall ts ds, Forall2 clause ts ds -> forall j s,
    Forall (fun t => height t < n) ts ->
    comma_args (convert n) ClauseArgument ts (cs c s) =
    lift c (args_out (fun _ _ => []) (fun _ last => if last then [] else tx ",") j ds c s).
  Proof.
    intros Hc ts ds H. induction H as [|t d ts ds Ht H IH]; intros j s Hh; [reflexivity|]. inversion Hh; subst. cbn [comma_args args_out].
    rewrite (clause_means' _ _ Ht) by assumption. rewrite (clause_kind _ _ _ Ht). change (kind_eqb ClauseArgument ClauseArgument) with true. unfold seqd, around.
    destruct (d c (fresh s)) as [[s1 o1]| | |]; cbn [lift cbind say]; try reflexivity. unfold say. cbn [cbind]. rewrite (IH (S j)) by assumption.
    destruct (args_out _ _ (S j) ds c s1) as [[s2 o2]| | |]; cbn [lift cbind]; try reflexivity.
    destruct H; cbn [app]; rewrite <- ?app_assoc; reflexivity.
  Qed.
  Lemma text_thread n c : okc c -> forall ts ds, Forall2 clause ts ds -> forall j s,
    Forall (fun t => height t < n) ts ->
    each (text_arg (convert n)) ts (cs c s) =
    lift c (args_out (fun _ _ => tx "[") (fun _ _ => tx "]") j ds (Ctx MText (x_env c) (x_ind c)) s).
  Proof.
    intros Hc ts ds H. induction H as [|t d ts ds Ht H IH]; intros j s Hh; [reflexivity|]. inversion Hh; subst. cbn [each args_out].
    unfold text_arg. rewrite (clause_kind _ _ _ Ht). change (kind_eqb ClauseArgument ClauseArgument) with true. cbv iota zeta.
    change (set_mode MText (cs c s)) with (cs (Ctx MText (x_env c) (x_ind c)) s). rewrite (clause_means' _ _ Ht) by assumption. unfold seqd, around.
    destruct (d _ (fresh s)) as [[s1 o1]| | |]; cbn [lift cbind]; try reflexivity. unfold say. cbn [cbind].
    change (set_mode (c_mode (cs c s)) (cs (Ctx MText (x_env c) (x_ind c)) s1)) with (cs c s1).
    rewrite (IH (S j)) by assumption.
    destruct (args_out _ _ (S j) ds _ s1) as [[s2 o2]| | |]; cbn [lift cbind say]; reflexivity.
  Qed.
  Lemma named_thread n c : okc c -> forall ts ds, Forall2 clause ts ds -> forall j s,
    Forall (fun t => height t < n) ts ->
    named_args (convert n) j ts (cs c s) =
    lift c (args_out (fun n _ => tx "arg" ++ dec (N.of_nat n) ++ tx ": ") (fun _ _ => tx ",") j ds c s).
  Proof.
    intros Hc ts ds H. induction H as [|t d ts ds Ht H IH]; intros j s Hh; [reflexivity|]. inversion Hh; subst. cbn [named_args args_out].
    rewrite (clause_means' _ _ Ht) by assumption. unfold seqd, around.
    destruct (d c (fresh s)) as [[s1 o1]| | |]; cbn [lift cbind]; try reflexivity. unfold say. cbn [cbind]. rewrite (IH (S j)) by assumption.
    destruct (args_out _ _ (S j) ds c s1) as [[s2 o2]| | |]; cbn [lift cbind]; try reflexivity.
    rewrite <- !app_assoc. reflexivity.
  Qed.

  (** commands *)
  (** a command node: its name, its arguments *)
  Definition command_node (t : tree) (name : text) (ds : list den) : Prop :=
    exists ch, t = Node ItemCmd ch /\ cmd_name t = COk (92%N :: name) /\
      exists ts, filter (fun x => negb (has_kind ClauseCommandName x)) ch = ts /\ arguments t = ts /\ Forall2 clause ts ds.
  Lemma command_means t name ds : command_node t name ds ->
    among name [tx "item"; tx "label"; tx "includegraphics"; tx "color"; tx "textcolor"; tx "colorbox"] = false ->
    (forall cmd, get_cmd sp name = Some cmd -> cs_args cmd <> SRight PGreedy) ->
    means t (command_out sp name ds).
  Proof.
    intros (ch & -> & En & ts & Ek & _ & Ha) Hn Hr n c s Hc Hh. destruct n as [|n]; [lia|]. pose proof (kids _ _ _ Hh) as Hd. clear Hh.
    assert (Hd' : Forall (fun t => height t < n) ts).
    { subst ts. apply Forall_forall. intros t Ht. apply filter_In in Ht as [Ht _]. rewrite Forall_forall in Hd. now apply Hd. }
    change (convert (S n) (Node ItemCmd ch) (cs c s)) with (convert_cmd sp (convert n) (Node ItemCmd ch) (cs c (fresh s))).
    unfold convert_cmd. rewrite En. cbn [cbind].
    assert (Et : forall site, tail1 site (92%N :: name) = COk name) by (intros; apply tail1_small; reflexivity). rewrite Et. cbn [cbind].
    cbn [among existsb] in Hn. repeat (apply orb_false_iff in Hn as [? Hn]). repeat match goal with H : teqb name _ = false |- _ => rewrite H end. cbn [orb].
    unfold convert_normal_command. rewrite En. cbn [cbind]. rewrite Et. cbn [cbind]. cbn [children]. rewrite Ek. clear Ek En Et.
    unfold command_out. destruct (get_cmd sp name) as [cmd|] eqn:Eg; [|reflexivity]. specialize (Hr _ eq_refl).
    assert (Etn : typst_name_of name cmd (cs c (fresh s)) = typst_name (x_mode c) name cmd) by (unfold typst_name_of, typst_name, is_math; cbn; destruct (x_mode c); reflexivity).
    rewrite Etn. set (tn := typst_name (x_mode c) name cmd) in *. set (e' := if teqb tn (tx "substack") then ESubStack else x_env c).
    assert (Ee : (if teqb tn (tx "substack") then enter_env ESubStack (cs c (fresh s)) else cs c (fresh s)) = cs (Ctx (x_mode c) e' (x_ind c)) (fresh s)).
    { unfold e'. destruct (teqb tn (tx "substack")); [|now destruct c]. unfold enter_env, cs. cbn. now rewrite Nat.add_0_r. }
    rewrite Ee. set (c' := Ctx (x_mode c) e' (x_ind c)) in *.
    assert (Hc' : okc c') by (unfold c', e', okc; cbn [x_env x_ind]; destruct (teqb tn (tx "substack")); [intros X; discriminate X|exact Hc]).
    assert (Hx : forall s1, (if teqb tn (tx "substack") then exit_env (c_env (cs c (fresh s))) (cs c' s1) else COk (cs c' s1)) = COk (cs c s1)).
    { intros s1. unfold c', e'. destruct (teqb tn (tx "substack")); [reflexivity|now destruct c]. }
    assert (Ehash : starts_with (tx "#") tn = begins_hash tn).
    { unfold begins_hash, starts_with. destruct tn as [|ch0 r]; [reflexivity|]. cbn [strip_prefix tx]. change (N_of_ascii "#") with 35%N. rewrite N.eqb_sym. destruct (N.eqb_spec ch0 35) as [->|Hne]; [reflexivity|].
      destruct ch0 as [|pp]; [reflexivity|]. repeat (destruct pp as [pp|pp|]; try reflexivity). contradiction Hne. reflexivity. }
    assert (Hmain :
      (let! (s0, o) := (if is_math (cs c' (fresh s)) && negb (starts_with (tx "#") tn)
            then let! (s0, o) := comma_args (convert n) ClauseArgument ts (cs c' (fresh s)) in COk (s0, tx "(" ++ o ++ tx ")")
            else let! (s0, o) := each (text_arg (convert n)) ts (cs c' (fresh s)) in COk (s0, o ++ tx ";")) in
       let! s1 := (if teqb tn (tx "substack") then exit_env (c_env (cs c (fresh s))) s0 else COk s0) in COk (s1, tn ++ o)) =
      lift c (if match x_mode c with MMath => negb (begins_hash tn) | MText => false end then
          around (tn ++ tx "(") (args_out (fun _ _ => []) (fun _ last => if last then [] else tx ",") 0 ds) (tx ")") c' (fresh s)
        else
          around tn (args_out (fun _ _ => tx "[") (fun _ _ => tx "]") 0 ds) (tx ";") (Ctx MText e' (x_ind c)) (fresh s))).
    { rewrite Ehash. 
      assert (Em : is_math (cs c' (fresh s)) && negb (begins_hash tn) = match x_mode c with MMath => negb (begins_hash tn) | MText => false end) by (unfold is_math; cbn; destruct (x_mode c); reflexivity).
      rewrite Em. unfold around. destruct (match x_mode c with MMath => negb (begins_hash tn) | MText => false end).
      - rewrite (comma_thread n c' Hc' ts ds Ha 0 (fresh s) Hd'). destruct (args_out _ _ 0 ds c' (fresh s)) as [[s1 o1]| | |]; try reflexivity.
        cbn [lift cbind]. rewrite Hx. cbn [cbind]. unfold say. rewrite <- app_assoc. reflexivity.
      - rewrite (text_thread n c' Hc' ts ds Ha 0 (fresh s) Hd'). change (Ctx MText (x_env c') (x_ind c')) with (Ctx MText e' (x_ind c)).
        destruct (args_out _ _ 0 ds _ (fresh s)) as [[s1 o1]| | |]; try reflexivity.
        cbn [lift cbind]. rewrite Hx. reflexivity. }
    destruct (cs_args cmd) as [p| |] eqn:Ea; try exact Hmain. destruct p; try exact Hmain; [|contradiction Hr; reflexivity].
    cbn [cbind]. rewrite Hx. reflexivity.
  Qed.
  (** arguments after the name *)
  Definition argm (x : tree) (p : list space * DocSpec.item) : Prop :=
    means x (typ sp (snd p) false) /\ tree_text x = stext (snd p) /\ is_node x = match snd p with IWord _ => false | _ => true end /\
    tkind x = match snd p with IWord _ => TokenWord | IGroup _ => ItemCurly | IBracket _ => ItemBracket | _ => ItemCmd end.
  Definition dens (l : list (list space * DocSpec.item)) : list den := map (fun p : list space * DocSpec.item => let (_, a) := p in typ sp a false) l.
  Definition arg_node (x : tree) : tree := Node ClauseArgument [x].
  Definition cmd_node (name : text) (xs : list tree) : tree := Node ItemCmd (Leaf ClauseCommandName (92%N :: name) :: map arg_node xs).
  Lemma args_kept xs : filter (fun x => negb (has_kind ClauseCommandName x)) (map arg_node xs) = map arg_node xs.
  Proof. induction xs as [|x xs IH]; [reflexivity|]. cbn [map filter]. now rewrite IH. Qed.
  Lemma args_all xs : filter (fun c => is_node c && kind_eqb (tkind c) ClauseArgument) (map arg_node xs) = map arg_node xs.
  Proof. induction xs as [|x xs IH]; [reflexivity|]. cbn [map filter]. now rewrite IH. Qed.
  Lemma cmd_arguments name xs : arguments (cmd_node name xs) = map arg_node xs.
  Proof. unfold arguments, nodes_of. cbn [cmd_node children filter]. exact (args_all xs). Qed.
  Lemma argm_clause xs args : Forall2 argm xs args -> Forall2 clause (map arg_node xs) (dens args).
  Proof.
    induction 1 as [|x [g a] xs args [Hx _] H IH]; constructor; [|exact IH]. exists [x]. split; [reflexivity|]. now apply meansl_one.
  Qed.
  Lemma cmd_command name xs args : Forall2 argm xs args -> command_node (cmd_node name xs) name (dens args).
  Proof.
    intros H. eexists. split; [reflexivity|]. split; [reflexivity|]. exists (map arg_node xs). split; [|split; [apply cmd_arguments|now apply argm_clause]].
    cbn [filter]. exact (args_kept xs).
  Qed.
  (** [\left ... \right] *)
  Definition delim_tree (d : delim) : tree :=
    match d with
    | DChar c => Leaf TokenWord [c]
    | DMark c => Leaf (kind_of_token (mark_token c)) [c]
    | DSym name => Leaf TokenCommandSym (92%N :: name)
    end.
  Definition lr_one (rec : tree -> cst -> cout) (a : tree) (s : cst) : cout :=
    let! (s, o) := match a with
                   | Leaf TokenWord w => if teqb w (tx ".") then COk (s, []) else rec a s
                   | _ => rec a s
                   end in
    COk (s, o ++ [32%N]).
  Lemma lr_gap n c : okc c -> 1 < n -> forall g s, each (lr_one (convert n)) (map leaf (map space_tok g)) (cs c s) = lift c (gap_out c (tx " ") g s).
  Proof.
    intros Hc Hn g. induction g as [|x g IH]; intros s; [reflexivity|]. cbn [map each gap_out].
    assert (E : lr_one (convert n) (leaf (space_tok x)) (cs c s) = let! (s, o) := convert n (leaf (space_tok x)) (cs c s) in COk (s, o ++ [32%N])) by (destruct x; reflexivity).
    rewrite E, (space_means x n c s Hc) by (destruct x; exact Hn).
    destruct (space_out c x s) as [[s1 o1]| | |]; try reflexivity. cbn [lift cbind]. rewrite IH.
    destruct (gap_out c (tx " ") g s1) as [[s2 o2]| | |]; try reflexivity. cbn. rewrite <- app_assoc. reflexivity.
  Qed.
  Lemma lr_delim n c d : okc c -> 1 < n -> wf_delim d = true -> forall s, lr_one (convert n) (delim_tree d) (cs c s) = lift c (delim_out sp c d s).
  Proof.
    intros Hc Hn Hd s. destruct n as [|n]; [lia|]. destruct d as [ch|ch|name]; cbn [delim_tree delim_out].
    - unfold lr_one. change (teqb [ch] (tx ".")) with ((ch =? 46)%N && true). rewrite andb_true_r. destruct (N.eqb_spec ch 46) as [->|Hne]; [reflexivity|].
      pose proof (simple_means (IWord [ch]) false I (S n) c s Hc) as E. cbn [item_tok leaf fst snd kind_of_token] in E.
      unfold leaf in E. cbn [fst snd kind_of_token] in E. rewrite E by (cbn; lia). reflexivity.
    - cbn [wf_delim] in Hd. apply is_char_in in Hd. pose proof (simple_means (IMark ch) false Hd (S n) c s Hc) as E. unfold leaf in E. cbn [item_tok fst snd] in E.
      assert (K : lr_one (convert (S n)) (Leaf (kind_of_token (mark_token ch)) [ch]) (cs c s) =
        let! (s, o) := convert (S n) (Leaf (kind_of_token (mark_token ch)) [ch]) (cs c s) in COk (s, o ++ [32%N])).
      { unfold lr_one. cbn in Hd. repeat (destruct Hd as [<-|Hd]; [reflexivity|]). contradiction. }
      rewrite K, E by (cbn; lia). reflexivity.
    - unfold lr_one.
      change (convert (S n) (Leaf TokenCommandSym (92%N :: name)) (cs c s)) with (convert_command_sym sp (Leaf TokenCommandSym (92%N :: name)) (cs c (fresh s))).
      unfold convert_command_sym. rewrite tail1_small by reflexivity. cbn [cbind]. destruct (get_cmd sp name); reflexivity.
  Qed.
  Definition clause_tree (l : bool) (g : list space) (d : delim) : tree :=
    Node ClauseLR (Leaf ClauseCommandName (if l then tx "\left" else tx "\right") :: map leaf (map space_tok g) ++ [delim_tree d]).
  Lemma clause_means (l : bool) g d : wf_delim d = true ->
    means (clause_tree l g d) (fun c s =>
      let! (s1, o1) := gap_out c (tx " ") g (fresh s) in let! (s2, o2) := delim_out sp c d s1 in
      say s2 ((if l then tx "lr(" else []) ++ o1 ++ o2 ++ (if l then [] else tx ")"))).
  Proof.
    intros Hw n c s Hc Hh. destruct n as [|n]; [lia|]. assert (Hn : 1 < n).
    { apply kids in Hh. inversion Hh as [|? ? H1 H2]. cbn in H1. lia. }
    change (convert (S n) (clause_tree l g d) (cs c s)) with (convert_clause_lr (convert n) (clause_tree l g d) (cs c (fresh s))).
    unfold convert_clause_lr. cbn [clause_tree node_children cbind].
    assert (Et : tail1 "converter.rs:365 str slice" (if l then tx "\left" else tx "\right") = COk (if l then tx "left" else tx "right")) by (destruct l; reflexivity).
    rewrite Et. cbn [cbind]. fold (lr_one (convert n)). rewrite each_app, (lr_gap n c Hc Hn).
    destruct (gap_out c (tx " ") g (fresh s)) as [[s1 o1]| | |]; try reflexivity. cbn [lift cbind each]. rewrite (lr_delim n c d Hc Hn Hw).
    destruct (delim_out sp c d s1) as [[s2 o2]| | |]; try reflexivity. cbn [lift cbind]. unfold say. rewrite app_nil_r. rewrite <- !app_assoc. destruct l; reflexivity.
  Qed.
  Definition lr_tree (g1 : list space) d1 (D : list tree) g2 d2 : tree :=
    Node ItemLR (clause_tree true g1 d1 :: D ++ [clause_tree false g2 d2]).
  Lemma lr_means g1 d1 D g2 d2 body b : wf_delim d1 = true -> wf_delim d2 = true ->
    meansl D (list_den sp (parts sp body)) ->
    means (lr_tree g1 d1 D g2 d2) (typ sp (ILR g1 d1 body g2 d2) b).
  Proof.
    intros H1 H2 H. eapply means_ext; [|apply plain_node; [cbn; tauto|apply meansl_cons; [apply (clause_means true g1 d1 H1)|apply meansl_app; [exact H|apply meansl_one, (clause_means false g2 d2 H2)]]]].
    intros c s.
    assert (T : typ sp (ILR g1 d1 body g2 d2) b c s =
      let! (s1, o1) := gap_out c (tx " ") g1 (fresh s) in
      let! (s2, o2) := delim_out sp c d1 s1 in
      let! (s3, o3) := list_den sp (parts sp body) c s2 in
      let! (s4, o4) := gap_out c (tx " ") g2 (fresh s3) in
      let! (s5, o5) := delim_out sp c d2 s4 in
      say s5 (tx "lr(" ++ o1 ++ o2 ++ o3 ++ o4 ++ o5 ++ tx ")")) by reflexivity.
    rewrite T. clear T. unfold seqd, say. change (fresh (fresh s)) with (fresh s).
    destruct (gap_out c (tx " ") g1 (fresh s)) as [[s1 o1]| | |]; try reflexivity. cbn [cbind].
    destruct (delim_out sp c d1 s1) as [[s2 o2]| | |]; try reflexivity. cbn [cbind].
    destruct (list_den sp (parts sp body) c s2) as [[s3 o3]| | |]; try reflexivity. cbn [cbind].
    destruct (gap_out c (tx " ") g2 (fresh s3)) as [[s4 o4]| | |]; try reflexivity. cbn [cbind].
    destruct (delim_out sp c d2 s4) as [[s5 o5]| | |]; try reflexivity. cbn [cbind].
    cbn [app]. rewrite !app_nil_r. cbn [app]. rewrite <- !app_assoc. reflexivity.
  Qed.

  (** ** Pieces *)
  Definition ikind (i : DocSpec.item) : kind :=
    match i with
    | IWord _ => TokenWord
    | ISpace x => kind_of_token (fst (space_tok x))
    | IMark c => kind_of_token (mark_token c)
    | IPrime => TokenApostrophe
    | INewline => ItemNewLine
    | IGroup _ => ItemCurly
    | IBracket _ => ItemBracket
    | IScript _ _ _ => ItemAttachComponent
    | ICmd _ _ | IPost _ | IGreedy _ _ | IInfix _ _ _ => ItemCmd
    | ICode typst _ => if typst then ItemTypstCode else ItemBlockComment
    | ILR _ _ _ _ _ => ItemLR
    | IEnv _ _ _ _ => ItemEnv
    | IFormula _ _ => ItemFormula
    end.
  Definition pkind (p : piece) : kind :=
    match p with
    | PItem e => ikind (e_item e)
    | PText _ => ItemText
    | PAttach _ _ e => match e_item e with IPost _ => ItemCmd | _ => ItemAttachComponent end
    end.
  Definition pname (p : piece) : text :=
    match p with
    | PItem e => match e_item e with ICmd n _ | IGreedy n _ | IInfix _ n _ => n | _ => [] end
    | PAttach _ _ e => match e_item e with IPost n => n | _ => [] end
    | PText _ => []
    end.
  Definition special : list text := [tx "caption"; tx "centering"; tx "hline"; tx "toprule"; tx "midrule"; tx "bottomrule"].
  Definition is_cmd (p : piece) : bool := is_item (fun i => match i with ICmd _ _ => true | _ => false end) p.
  Record piece_of (p : piece) (x : tree) : Prop := Piece_of {
    po_means : means x (piece_den sp p);
    po_text : tree_text x = ptext p;
    po_kind : tkind x = pkind p;
    po_cmd : tkind x = ItemCmd ->
      is_node x = true /\ cmd_name x = COk (92%N :: pname p) /\ (is_cmd p = true \/ among (pname p) special = false);
    po_args : forall e, p = PItem e -> is_cmd p = true -> Forall2 clause (arguments x) (e_args e) /\ (pname p = tx "caption" -> e_args e <> [])
  }.
  Definition item_of (i : DocSpec.item) (x : tree) : Prop := piece_of (PItem (elem sp i)) x.

  Lemma mark_cases c : In c (map fst mark_tokens) \/ (mark_token c = TError /\ is_char c = false).
  Proof.
    destruct (is_char c) eqn:E; [left; now apply is_char_in|right; split; [|reflexivity]].
    unfold mark_token. destruct (find (fun p => (fst p =? c)%N) mark_tokens) as [p|] eqn:F; [|reflexivity].
    apply find_some in F as [F1 F2]. apply N.eqb_eq in F2. exfalso. unfold is_char in E.
    assert (X : existsb (N.eqb c) (map fst mark_tokens) = true); [|congruence]. apply existsb_exists. exists c. split; [|apply N.eqb_refl].
    subst c. now apply in_map.
  Qed.
  Ltac marks c H :=
    destruct (mark_cases c) as [H|[H ?]];
    [cbn in H; repeat (destruct H as [<-|H]; [reflexivity|]); contradiction|].
  Lemma kind_mark c k ch : In (ch, k) (map (fun p => (fst p, kind_of_token (snd p))) mark_tokens) ->
    kind_eqb (kind_of_token (mark_token c)) k = (c =? ch)%N.
  Proof.
    intros Hk. destruct (mark_cases c) as [H|[H E]].
    - cbn in Hk, H. 
      repeat (destruct Hk as [Hk|Hk]; [injection Hk as <- <-; repeat (destruct H as [<-|H]; [reflexivity|]); contradiction|]). contradiction.
    - rewrite H. assert (Hin : In ch (map fst mark_tokens)).
      { apply in_map_iff in Hk as (p & E1 & E2). injection E1 as <- <-. now apply in_map. }
      destruct (N.eqb_spec c ch) as [->|Hne].
      + exfalso. unfold is_char in E. assert (X : existsb (N.eqb ch) (map fst mark_tokens) = true); [|congruence].
        apply existsb_exists. exists ch. split; [exact Hin|apply N.eqb_refl].
      + cbn in Hk. repeat (destruct Hk as [Hk|Hk]; [injection Hk as <- <-; reflexivity|]). contradiction.
  Qed.
  Lemma pkind_mark p ch k : In (ch, k) (map (fun p => (fst p, kind_of_token (snd p))) mark_tokens) ->
    kind_eqb (pkind p) k = is_mark ch p.
  Proof.
    intros Hk. destruct p as [[i d a]|es|p b [i d a]]; cbn [pkind e_item is_mark is_item ikind].
    2:{ cbn in Hk. repeat (destruct Hk as [Hk|Hk]; [injection Hk as <- <-; reflexivity|]). contradiction. }
    2:{ cbn in Hk. repeat (destruct Hk as [Hk|Hk]; [injection Hk as <- <-; destruct i; reflexivity|]). contradiction. }
    unfold is_mark, is_item. cbn [e_item].
    destruct i; cbn [ikind]; try (cbn in Hk; repeat (destruct Hk as [Hk|Hk]; [injection Hk as <- <-; reflexivity|]); contradiction).
    - cbn in Hk. repeat (destruct Hk as [Hk|Hk]; [injection Hk as <- <-; destruct x; reflexivity|]); contradiction.
    - now apply kind_mark.
    - cbn in Hk. repeat (destruct Hk as [Hk|Hk]; [injection Hk as <- <-; destruct typst; reflexivity|]); contradiction.
  Qed.
  Ltac pk p :=
    destruct p as [[i d a]|es|p b [i d a]];
    [destruct i as [w|x|c| | |l|l|sup g a'|nm l|nm|nm l|l1 nm l2|ty ts|g1 d1 l g2 d2|nm l l2 nm'|k l]; try reflexivity; [destruct x; reflexivity| |destruct ty; reflexivity]; cbn; let H := fresh in marks c H; rewrite H; reflexivity
    |reflexivity|destruct i; reflexivity].
  Lemma pkind_trivial p : kind_is_trivia (pkind p) = trivial p. Proof. pk p. Qed.
  Lemma pkind_group p : kind_eqb (pkind p) ItemCurly = is_item (fun i => match i with IGroup _ => true | _ => false end) p. Proof. pk p. Qed.
  Lemma pkind_newline p : kind_eqb (pkind p) ItemNewLine = is_item (fun i => match i with INewline => true | _ => false end) p. Proof. pk p. Qed.
  Definition space_kind (k : kind) : bool := match k with TokenWhiteSpace | TokenLineBreak => true | _ => false end.
  Lemma pkind_space p : space_kind (pkind p) = is_item is_space p. Proof. pk p. Qed.
  Lemma pkind_blank p : match pkind p with TokenWhiteSpace | TokenLineBreak | TokenLBrace | TokenRBrace => true | _ => false end = is_item is_space p.
  Proof. pk p. Qed.
  Lemma pkind_clause p : kind_eqb (pkind p) ItemBegin || kind_eqb (pkind p) ItemEnd = false. Proof. pk p. Qed.
  Lemma is_mark_in ch k : In (ch, k) (map (fun p => (fst p, kind_of_token (snd p))) mark_tokens) ->
    forall p x, piece_of p x -> has_kind k x = is_mark ch p.
  Proof. intros H p x Hp. unfold has_kind. rewrite (po_kind _ _ Hp). now apply pkind_mark. Qed.
  Lemma piece_clause p x : piece_of p x -> is_begin_end x = false.
  Proof. intros H. unfold is_begin_end, has_kind. rewrite (po_kind _ _ H). apply pkind_clause. Qed.
  Lemma piece_blank p x : piece_of p x -> is_brace_or_space x = is_item is_space p.
  Proof. intros H. unfold is_brace_or_space. rewrite (po_kind _ _ H). apply pkind_blank. Qed.

  Lemma pieces_means ps D : Forall2 piece_of ps D -> meansl D (list_den sp ps).
  Proof. induction 1 as [|p x ps D H _ IH]; [apply meansl_nil|]. exact (meansl_cons _ _ _ _ (po_means _ _ H) IH). Qed.
  Lemma pieces_text ps D : Forall2 piece_of ps D -> flat_map tree_text D = flat_map ptext ps.
  Proof. induction 1 as [|p x ps D H _ IH]; [reflexivity|]. cbn. now rewrite (po_text _ _ H), IH. Qed.
  Lemma pieces_blank ps D : Forall2 piece_of ps D -> forallb is_brace_or_space D = forallb (is_item is_space) ps.
  Proof. induction 1 as [|p x ps D H _ IH]; [reflexivity|]. cbn. now rewrite (piece_blank _ _ H), IH. Qed.
  Lemma pieces_clause ps D : Forall2 piece_of ps D -> Forall (fun t => is_begin_end t = false) D.
  Proof. induction 1 as [|p x ps D H _ IH]; constructor; [exact (piece_clause _ _ H)|exact IH]. Qed.
  Lemma items_means es D : Forall2 (fun e x => piece_of (PItem e) x) es D -> meansl D (alld (map (fun e => e_den e false) es)).
  Proof. induction 1 as [|p x ps D H _ IH]; [apply meansl_nil|]. exact (meansl_cons _ _ _ _ (po_means _ _ H) IH). Qed.

  (** the pieces of a list and the list *)
  Definition etext (e : el) : text := stext (e_item e).
  Definition popen (st : pstate) : Prop := match snd st with Some (p, _) => is_item is_space p = false | None => True end.
  Lemma pstep_facts st e : popen st ->
    popen (pstep st e) /\
    flat_map ptext (pclose (pstep st e)) = flat_map ptext (pclose st) ++ etext e /\
    forallb (is_item is_space) (pclose (pstep st e)) = forallb (is_item is_space) (pclose st) && is_space (e_item e).
  Proof.
    destruct st as [d o]. intros Ho. unfold pstep.
    set (start := if begins_text (e_item e) then PText [e] else PItem e).
    assert (S1 : ptext start = etext e) by (unfold start; destruct (begins_text (e_item e)); cbn; [apply app_nil_r|reflexivity]).
    assert (S2 : carries (e_item e) = true -> is_item is_space start = false /\ is_space (e_item e) = false).
    { unfold start. destruct (e_item e) eqn:E; cbn; rewrite ?E; try discriminate; try (split; reflexivity). destruct (c =? 44)%N; cbn; rewrite ?E; split; reflexivity. }
    assert (M1 : forall l, flat_map ptext (map PItem l) = flat_map etext l) by (intros l; induction l as [|a l IH]; [reflexivity|]; cbn; now rewrite IH).
    set (other := fun p between =>
      if attaches (e_item e) then (d, Some (PAttach p between e, []))
      else if carries (e_item e) then (d ++ p :: map PItem between, Some (start, []))
      else if closes (e_item e) then (d ++ p :: map PItem between ++ [PItem e], None)
      else (d, Some (p, between ++ [e]))).
    assert (Hother : forall p b, is_item is_space p = false -> popen (other p b) /\
      flat_map ptext (pclose (other p b)) = flat_map ptext (pclose (d, Some (p, b))) ++ etext e /\
      forallb (is_item is_space) (pclose (other p b)) = forallb (is_item is_space) (pclose (d, Some (p, b))) && is_space (e_item e)).
    { intros p b Hp. unfold other.
      assert (F : forallb (is_item is_space) (pclose (d, Some (p, b))) = false).
      { unfold pclose. cbn [fst snd]. rewrite forallb_app. cbn [forallb]. rewrite Hp. cbn. apply andb_false_r. }
      rewrite F. cbn [andb]. unfold pclose, popen. destruct (attaches (e_item e)); [|destruct (carries (e_item e)) eqn:Ec; [|destruct (closes (e_item e))]]; cbn [fst snd].
      - split; [reflexivity|]. split; [|rewrite forallb_app; cbn; apply andb_false_r]. rewrite !flat_map_app. cbn [flat_map ptext map]. rewrite M1, app_nil_r. rewrite <- !app_assoc. reflexivity.
      - split; [apply S2; exact eq_refl|]. split; [|rewrite !forallb_app; cbn [forallb]; rewrite Hp; cbn; now rewrite andb_false_r].
        rewrite !flat_map_app. cbn [flat_map map]. rewrite M1, app_nil_r, S1. reflexivity.
      - split; [exact I|]. split; [|rewrite app_nil_r, !forallb_app; cbn [forallb]; rewrite Hp; cbn; now rewrite andb_false_r].
        rewrite app_nil_r, !flat_map_app. cbn [flat_map map ptext]. rewrite flat_map_app, M1. cbn [flat_map ptext]. rewrite app_nil_r. rewrite <- !app_assoc. reflexivity.
      - split; [exact Hp|]. split; [|rewrite !forallb_app; cbn [forallb]; rewrite Hp; cbn; now rewrite andb_false_r].
        rewrite !flat_map_app. cbn [flat_map map ptext]. rewrite map_app, !flat_map_app, M1. cbn [flat_map ptext map]. rewrite app_nil_r. rewrite <- !app_assoc. reflexivity. }
    destruct o as [[p b]|].
    - cbn in Ho. destruct p as [e0|es|p0 b0 e0]; try (apply (Hother _ b Ho)). destruct b as [|e1 b]; [|apply (Hother _ _ Ho)].
      destruct (textlike (e_item e)); [|apply (Hother _ _ Ho)]. unfold pclose, popen. cbn [fst snd map].
      split; [reflexivity|]. rewrite !flat_map_app, !forallb_app. cbn. rewrite !app_nil_r, flat_map_app. cbn. rewrite !app_nil_r, !andb_false_r. split; [now rewrite app_assoc|reflexivity].
    - unfold pclose, popen. destruct (carries (e_item e)) eqn:Ec; cbn [fst snd map].
      + destruct (S2 eq_refl) as [S3 S4]. split; [exact S3|]. rewrite !flat_map_app, !forallb_app. cbn [flat_map forallb]. rewrite S1, S3, S4, !app_nil_r, !andb_false_r. split; reflexivity.
      + split; [exact I|]. rewrite !app_nil_r, flat_map_app, forallb_app. cbn. now rewrite andb_true_r, app_nil_r.
  Qed.
  Lemma parts_facts l : flat_map ptext (parts sp l) = flat_map stext l /\ forallb (is_item is_space) (parts sp l) = forallb is_space l.
  Proof.
    unfold parts, pieces.
    assert (G : forall l st, popen st ->
      flat_map ptext (pclose (fold_left pstep (map (elem sp) l) st)) = flat_map ptext (pclose st) ++ flat_map stext l /\
      forallb (is_item is_space) (pclose (fold_left pstep (map (elem sp) l) st)) = forallb (is_item is_space) (pclose st) && forallb is_space l).
    { clear l. induction l as [|i l IH]; intros st Hst; [cbn; now rewrite app_nil_r, andb_true_r|]. cbn [map fold_left flat_map forallb].
      destruct (pstep_facts st (elem sp i) Hst) as (H1 & H2 & H3). destruct (IH _ H1) as [G1 G2]. rewrite G1, G2, H2, H3, <- app_assoc, <- andb_assoc. split; reflexivity. }
    destruct (G l ([], None) I) as [G1 G2]. rewrite G1, G2. split; reflexivity.
  Qed.

  Lemma item_of_intro i x : means x (typ sp i false) -> tree_text x = stext i -> tkind x = ikind i -> ikind i <> ItemCmd -> item_of i x.
  Proof.
    intros H1 H2 H3 H4. constructor; [exact H1|exact H2|exact H3| |].
    - intros X. congruence.
    - intros e E Hc. injection E as <-. destruct i; discriminate Hc || (now contradiction H4).
  Qed.
  Lemma simple_item i : simple i -> item_of i (leaf (item_tok i)).
  Proof.
    intros H. apply item_of_intro; [now apply simple_means| | |].
    - destruct i; try contradiction; reflexivity.
    - destruct i; try contradiction; reflexivity.
    - destruct i; try contradiction; try (destruct x); try discriminate. cbn [ikind]. cbn in H. repeat (destruct H as [<-|H]; [discriminate|]). contradiction.
  Qed.

  (** ** Commands translated in their own way *)
  (** colours *)
  Lemma color_thread n c (bs : list tree) ds : okc c -> Forall2 means bs ds -> Forall (fun t => height t < n) bs -> forall s,
    each (fun b s => if is_math s then let! (s, o) := convert n b s in COk (s, tx "$" ++ o ++ tx "$") else convert n b s) bs (cs c s) =
    lift c (alld (map (fun d => if match x_mode c with MMath => true | MText => false end then around (tx "$") d (tx "$") else d) ds) c s).
  Proof.
    intros Hc H. induction H as [|b d bs ds Hb H IH]; intros Hh s; [reflexivity|]. inversion Hh; subst. cbn [each map].
    change (is_math (cs c s)) with (match x_mode c with MMath => true | MText => false end).
    match goal with |- _ = lift c (alld (?a :: ?l) c s) => change (alld (a :: l) c s) with (seqd a (alld l) c s) end. rewrite seqd_eq.
    rewrite (Hb n c s Hc) by assumption. specialize (IH H3).
    destruct (match x_mode c with MMath => true | MText => false end) eqn:Em; try rewrite around_eq.
    - destruct (d c s) as [[s1 o1]| | |]; try reflexivity. cbn [lift cbind]. unfold say. cbn [cbind]. rewrite IH.
      destruct (alld _ c s1) as [[s2 o2]| | |]; reflexivity.
    - destruct (d c s) as [[s1 o1]| | |]; try reflexivity. cbn [lift cbind]. rewrite IH.
      destruct (alld _ c s1) as [[s2 o2]| | |]; reflexivity.
  Qed.
  Definition opt_means (t : option tree) (d : option den) : Prop :=
    match t, d with Some t, Some d => means t d | None, None => True | _, _ => False end.
  Lemma color_means ch name model ct cd bs ds : let t := Node ItemCmd ch in
    cmd_name t = COk (92%N :: name) -> among name [tx "color"; tx "textcolor"; tx "colorbox"] = true ->
    color_args (92%N :: name) t = COk (model, ct, bs) -> opt_means ct cd -> Forall2 means bs ds ->
    (forall n, height t < S n -> (forall x, ct = Some x -> height x < n) /\ Forall (fun t => height t < n) bs) ->
    means t (fun c s => color_out sp name model cd ds c (fresh s)).
  Proof.
    intros t En Hn Ea Hct Hbs Hhs n c s Hc Hh. destruct n as [|n]; [lia|]. destruct (Hhs n Hh) as [Hh1 Hh2]. clear Hhs Hh.
    change (convert (S n) t (cs c s)) with (convert_cmd sp (convert n) t (cs c (fresh s))).
    assert (E1 : convert_cmd sp (convert n) t (cs c (fresh s)) = convert_command_color sp (convert n) t (cs c (fresh s))).
    { unfold convert_cmd, t. fold t. rewrite En. cbn [cbind]. rewrite tail1_small by reflexivity. cbn [cbind].
      cbn [among existsb] in Hn. rewrite orb_false_r in Hn.
      assert (X : teqb name (tx "item") = false /\ teqb name (tx "label") = false /\ teqb name (tx "includegraphics") = false).
      { destruct (teqb name (tx "color")) eqn:E; [apply teqb_eq in E as ->; repeat split; reflexivity|].
        destruct (teqb name (tx "textcolor")) eqn:E2; [apply teqb_eq in E2 as ->; repeat split; reflexivity|].
        destruct (teqb name (tx "colorbox")) eqn:E3; [apply teqb_eq in E3 as ->; repeat split; reflexivity|discriminate Hn]. }
      destruct X as (-> & -> & ->). rewrite <- orb_assoc, Hn. reflexivity. }
    rewrite E1. unfold convert_command_color. unfold cmd_name in En. destruct (cmd_name_tok t) as [nm|]; [|discriminate En]. injection En as ->.
    assert (E2 : strip_prefix (tx "\") (92%N :: name) = Some name) by reflexivity. rewrite E2, Ea. cbn [cbind]. unfold color_out. change (fresh (fresh s)) with (fresh s).
    set (tn := match get_cmd sp name with Some cmd => match cs_alias cmd with Some a => a | None => tx "mitexcolor" end | None => tx "mitexcolor" end).
    assert (E3 : match get_cmd sp name with Some c0 => alias_or (cs_alias c0) (tx "mitexcolor") | None => tx "mitexcolor" end = tn) by reflexivity. rewrite E3.
    assert (E4 : match ct with
      | Some c0 => let prev := c_mode (cs c (fresh s)) in let! (s0, o) := convert n c0 (set_mode MText (cs c (fresh s))) in COk (set_mode prev s0, o)
      | None => COk (cs c (fresh s), tx "black") end =
      lift c match cd with Some d => d (Ctx MText (x_env c) (x_ind c)) (fresh s) | None => say (fresh s) (tx "black") end).
    { destruct ct as [x|], cd as [d|]; try contradiction; [|reflexivity]. cbn in Hct. cbv zeta.
      change (set_mode MText (cs c (fresh s))) with (cs (Ctx MText (x_env c) (x_ind c)) (fresh s)). rewrite (Hct n _ _) by (try exact Hc; auto).
      destruct (d _ (fresh s)) as [[s1 o1]| | |]; reflexivity. }
    cbv zeta in E4 |- *. rewrite E4. clear E4. destruct (match cd with Some d => _ | None => _ end) as [[s1 o1]| | |]; try reflexivity. cbn [lift cbind].
    pose proof (color_thread n c bs ds Hc Hbs Hh2 s1) as E5.
    match type of E5 with ?L = _ => match goal with |- context [each ?f bs (cs c s1)] => change (each f bs (cs c s1)) with L end end. rewrite E5. clear E5.
    destruct (alld _ c s1) as [[s2 o2]| | |]; try reflexivity. cbn [lift cbind]. unfold say, is_math. cbn [cs c_mode]. f_equal. f_equal.
    destruct model; cbn; rewrite <- ?app_assoc; cbn; rewrite <- ?app_assoc; reflexivity.
  Qed.

  Definition okarg (p : list space * DocSpec.item) : Prop :=
    match snd p with IWord [_] | IGroup _ | IBracket _ | ICmd _ [] => True | _ => False end.
  Lemma arg_text x p : argm x p -> tree_text (arg_node x) = stext (snd p).
  Proof. intros (_ & H & _). cbn. now rewrite app_nil_r. Qed.
  Lemma clauses_means ts ds : Forall2 clause ts ds -> Forall2 means ts (map (fun d : den => fun c s => d c (fresh s)) ds).
  Proof. induction 1 as [|t d ts ds H _ IH]; constructor; [now apply clause_means'|exact IH]. Qed.
  Lemma clauses_opt ts ds : Forall2 clause ts ds -> opt_means (hd_error ts) (option_map (fun d : den => fun c s => d c (fresh s)) (hd_error ds)).
  Proof. intros [|t d ts' ds' H _]; [exact I|]. cbn. now apply clause_means'. Qed.
  Lemma tl_clauses ts ds : Forall2 clause ts ds -> Forall2 clause (tl ts) (tl ds).
  Proof. intros [|t d ts' ds' _ H]; [constructor|exact H]. Qed.
  Lemma cmd_kids name xs n : height (cmd_node name xs) < S n -> Forall (fun t => height t < n) (map arg_node xs).
  Proof. intros H. apply kids in H. now inversion H. Qed.
  Lemma in_tl {A} (l : list A) x : In x (tl l) -> In x l. Proof. destruct l; [contradiction|]. now right. Qed.
  Lemma in_hd {A} (l : list A) x : hd_error l = Some x -> In x l. Proof. destruct l; [discriminate|]. intros E. injection E as ->. now left. Qed.
  Lemma color_cmd name xs args : Forall2 argm xs args -> Forall okarg args ->
    teqb name (tx "textcolor") || teqb name (tx "colorbox") = true ->
    means (cmd_node name xs) (typ sp (ICmd name args) false).
  Proof.
    intros Ha Hk Hn. pose proof (argm_clause _ _ Ha) as Hcl.
    assert (Hn' : among name [tx "color"; tx "textcolor"; tx "colorbox"] = true) by (unfold among; cbn [existsb]; rewrite orb_false_r, Hn; apply orb_true_r).
    assert (T : deq (typ sp (ICmd name args) false) (fun c s =>
      match args with
      | (_, IBracket t) :: r =>
        color_out sp name (Some (flat_map stext t)) (option_map (fun d : den => fun c s => d c (fresh s)) (hd_error (dens r))) (map (fun d : den => fun c s => d c (fresh s)) (tl (dens r))) c (fresh s)
      | _ => color_out sp name None (option_map (fun d : den => fun c s => d c (fresh s)) (hd_error (dens args))) (map (fun d : den => fun c s => d c (fresh s)) (tl (dens args))) c (fresh s)
      end)).
    { intros c s. apply orb_true_iff in Hn as [Hn|Hn]; apply teqb_eq in Hn as ->; destruct args as [|[g []] r]; reflexivity. }
    eapply means_ext; [apply deq_sym; exact T|]. clear T.
    assert (Nc : teqb (92%N :: name) (tx "\color") = false) by (apply orb_true_iff in Hn as [Hn|Hn]; apply teqb_eq in Hn as ->; reflexivity).
    assert (G : forall model ct bs cd ds, color_args (92%N :: name) (cmd_node name xs) = COk (model, ct, bs) -> opt_means ct cd -> Forall2 means bs ds ->
      (forall x, ct = Some x -> In x (map arg_node xs)) -> (forall x, In x bs -> In x (map arg_node xs)) ->
      means (cmd_node name xs) (fun c s => color_out sp name model cd ds c (fresh s))).
    { intros model ct bs cd ds E H1 H2 H3 H4. eapply color_means; [reflexivity|exact Hn'|exact E|exact H1|exact H2|].
      intros n Hh. apply cmd_kids in Hh. rewrite Forall_forall in Hh. split; [auto|]. apply Forall_forall. auto. }
    unfold color_args in G. rewrite Nc, cmd_arguments in G. cbv zeta in G.
    destruct Ha as [|x p xs args Hx Ha]; [apply (G None None [] None []); try reflexivity; try constructor; [discriminate|contradiction]|].
    cbn [map] in *. inversion Hcl as [|? ? ? ? Hc1 Hc2]; subst. inversion Hk as [|? ? Ho Hk']; subst.
    rewrite (arg_text _ _ Hx) in G. destruct p as [g a]. cbn [snd] in G.
    assert (Gnone : (forall t, a <> IBracket t) -> means (cmd_node name (x :: xs)) (fun c s =>
      color_out sp name None (option_map (fun d : den => fun c s => d c (fresh s)) (hd_error (dens ((g, a) :: args)))) (map (fun d : den => fun c s => d c (fresh s)) (tl (dens ((g, a) :: args)))) c (fresh s))).
    { intros Hnb. assert (Hm : match stext a with [] => false | a0 :: l => match rev (a0 :: l) with [] => false | b :: _ => ((a0 =? 91)%N && (b =? 93)%N && Nat.leb 2 (blen (stext a)))%bool end end = false).
      { unfold okarg in Ho. cbn [snd] in Ho. destruct a as [w| | | | | | | |nm l| | | | | | |]; try contradiction.
        - destruct w as [|ch [|? ?]]; try contradiction. cbn. destruct (N.eqb_spec ch 91) as [->|]; reflexivity.
        - cbn. destruct (rev _); reflexivity.
        - destruct (Hnb l); reflexivity.
        - cbn. destruct (rev _); reflexivity. }
      eapply (G None (Some (arg_node x)) (map arg_node xs)); [rewrite Hm; reflexivity| | | |].
      - cbn. now apply clause_means'.
      - cbn. now apply clauses_means.
      - intros y E. injection E as <-. now left.
      - intros y Hy. now right. }
    destruct a as [ | | | | | |t| | | | | | | | | ]; try (apply Gnone; intros; discriminate). clear Gnone.
    assert (E : stext (IBracket t) = 91%N :: flat_map stext t ++ [93%N]) by reflexivity. rewrite E in G.
    eapply (G (Some (flat_map stext t)) (hd_error (map arg_node xs)) (tl (map arg_node xs))).
    - assert (R : exists r, rev (91%N :: flat_map stext t ++ [93%N]) = 93%N :: r) by (eexists; cbn [rev]; rewrite rev_app_distr; reflexivity).
      destruct R as [r R]. rewrite R. assert (L : Nat.leb 2 (blen (91%N :: flat_map stext t ++ [93%N])) = true).
      { apply Nat.leb_le. cbn [blen]. rewrite blen_app. cbn. lia. }
      rewrite L, strip_ends_quoted by reflexivity. reflexivity.
    - now apply clauses_opt.
    - apply clauses_means. now apply tl_clauses.
    - intros y Hy. right. now apply in_hd.
    - intros y Hy. right. now apply in_tl.
  Qed.

  (** pictures *)
  Lemma suffix_eq p s : strip_suffix p s = if has_suffix p s then Some (firstn (List.length s - List.length p) s) else None.
  Proof.
    unfold strip_suffix, has_suffix.
    assert (G : forall q r, strip_prefix q r = if Nat.leb (List.length q) (List.length r) && teqb (firstn (List.length q) r) q then Some (skipn (List.length q) r) else None).
    { induction q as [|a q IH]; intros r; [reflexivity|]. destruct r as [|b r]; [reflexivity|]. cbn [strip_prefix List.length Nat.leb firstn skipn]. rewrite IH.
      cbn [teqb]. rewrite (N.eqb_sym b a). destruct (N.eqb a b); cbn [andb]; [reflexivity|]. now rewrite andb_false_r. }
    rewrite G, !rev_length. destruct (Nat.leb_spec (List.length p) (List.length s)) as [L|L]; [|reflexivity]. cbn [andb].
    rewrite firstn_rev. assert (E : teqb (rev (skipn (List.length s - List.length p) s)) (rev p) = teqb (skipn (List.length s - List.length p) s) p).
    { destruct (teqb (skipn (List.length s - List.length p) s) p) eqn:T.
      - apply teqb_eq in T. rewrite T. apply teqb_eq. reflexivity.
      - destruct (teqb (rev _) (rev p)) eqn:T2; [|reflexivity]. apply teqb_eq in T2. apply (f_equal (@rev N)) in T2. rewrite !rev_involutive in T2. rewrite T2 in T.
        assert (X : teqb p p = true) by (apply teqb_eq; reflexivity). congruence. }
    rewrite E. destruct (teqb _ p); [|reflexivity]. cbn [option_map]. rewrite skipn_rev, rev_involutive. reflexivity.
  Qed.
  Lemma trim_suffixes p : forall n s, trim_end_matches_fuel n p s = without_suffixes n p s.
  Proof. induction n as [|n IH]; intros s; [reflexivity|]. cbn [trim_end_matches_fuel without_suffixes]. rewrite suffix_eq. destruct (has_suffix p s); [apply IH|reflexivity]. Qed.
  Lemma graphics_eq o : graphics_opt o = picture_option o.
  Proof.
    unfold graphics_opt, picture_option, length_out. rewrite !suffix_eq. unfold trim_end_matches. rewrite !trim_suffixes. cbn [existsb]. rewrite orb_false_r.
    destruct (teqb _ _ || teqb _ _); [|reflexivity]. repeat (destruct (has_suffix _ _)); reflexivity.
  Qed.
  Lemma find_graphics k xs args : Forall2 argm xs args -> Forall (fun p => is_node (arg_node (Leaf TokenWord [])) = true /\ match snd p with IWord _ => False | _ => True end) args ->
    find_arg k (map arg_node xs) = COk (find (fun t => match t with Node _ [x] => kind_eqb (tkind x) k | _ => false end) (map arg_node xs)).
  Proof.
    intros H. induction H as [|x p xs args Hx H IH]; intros Ho; [reflexivity|]. inversion Ho as [|? ? [_ Hp] Ho']; subst. cbn [map].
    destruct Hx as (_ & _ & Hn & _).
    change (find_arg k (arg_node x :: map arg_node xs)) with
      (let! c := unwrap "converter.rs:529/537 unwrap" (first_child (arg_node x)) in if has_kind k c then COk (Some (arg_node x)) else find_arg k (map arg_node xs)).
    assert (E : first_child (arg_node x) = Some x). { unfold first_child, child_nodes. cbn [arg_node children filter]. destruct (snd p); try contradiction; rewrite Hn; reflexivity. }
    rewrite E. cbn [unwrap cbind find arg_node]. unfold has_kind. destruct (kind_eqb (tkind x) k); [reflexivity|]. apply (IH Ho').
  Qed.
  Lemma picture_means xs args : Forall2 argm xs args ->
    match args with [(_, IGroup _)] | [(_, IBracket _); (_, IGroup _)] => True | _ => False end ->
    means (cmd_node (tx "includegraphics") xs) (typ sp (ICmd (tx "includegraphics") args) false).
  Proof.
    intros Ha Hw n c s Hc Hh. destruct n as [|n]; [lia|].
    change (convert (S n) (cmd_node (tx "includegraphics") xs) (cs c s)) with (convert_command_includegraphics (cmd_node (tx "includegraphics") xs) (cs c (fresh s))).
    unfold convert_command_includegraphics. rewrite !cmd_arguments.
    assert (Ho : Forall (fun p => is_node (arg_node (Leaf TokenWord [])) = true /\ match snd p with IWord _ => False | _ => True end) args).
    { destruct args as [|[g0 []] [|[g1 []] [|? ?]]]; try contradiction; repeat constructor. }
    rewrite !(find_graphics _ xs args Ha Ho).
    destruct args as [|[g0 a0] r]; [contradiction|]. inversion Ha as [|x ? xs' ? Hx Ha']; subst. pose proof (arg_text _ _ Hx) as Tx. destruct Hx as (_ & _ & _ & Kx). cbn [snd] in Tx, Kx.
    destruct a0; try contradiction.
    - destruct r; [|destruct p as [? []]; contradiction]. inversion Ha'; subst. cbn [map find arg_node]. rewrite Kx. cbn [kind_eqb cbind unwrap].
      change (kind_eqb ItemCurly ItemBracket) with false. change (kind_eqb ItemCurly ItemCurly) with true. cbn [cbind unwrap].
      rewrite Tx. cbn [stext]. rewrite (strip_ends_quoted _ 123%N (flat_map stext l) 125%N) by reflexivity. cbn [cbind]. reflexivity.
    - destruct r as [|[g1 a1] r]; [contradiction|]. destruct a1; try contradiction. destruct r; [|contradiction].
      inversion Ha' as [|y ? ? ? Hy Ha'']; subst. inversion Ha''; subst. pose proof (arg_text _ _ Hy) as Ty. destruct Hy as (_ & _ & _ & Ky). cbn [snd] in Ty, Ky.
      cbn [map find arg_node]. rewrite Kx, Ky. change (kind_eqb ItemBracket ItemBracket) with true. change (kind_eqb ItemBracket ItemCurly) with false. change (kind_eqb ItemCurly ItemCurly) with true. cbn [cbind unwrap].
      rewrite Tx, Ty. cbn [stext]. rewrite (strip_ends_quoted _ 123%N (flat_map stext l0) 125%N), (strip_ends_quoted _ 91%N (flat_map stext l) 93%N) by reflexivity. cbn [cbind].
      rewrite (flat_map_ext _ _ graphics_eq). reflexivity.
  Qed.

  Definition own_cond (name : text) (args : list (list space * DocSpec.item)) : Prop :=
    (if teqb name (tx "item") then match args with [] => true | _ => false end
     else if teqb name (tx "label") then match args with [(_, IGroup _)] => true | _ => false end
     else if teqb name (tx "includegraphics") then match args with [(_, IGroup _)] | [(_, IBracket _); (_, IGroup _)] => true | _ => false end
     else if teqb name (tx "caption") then match args with [] => false | _ => true end
     else negb (teqb name (tx "color"))) = true.
  Lemma cmd_means name xs args : Forall2 argm xs args -> Forall okarg args -> own_cond name args ->
    (forall cmd, get_cmd sp name = Some cmd -> cs_args cmd <> SRight PGreedy) ->
    means (cmd_node name xs) (typ sp (ICmd name args) false).
  Proof.
    intros Ha Hk Hw Hg. unfold own_cond in Hw.
    destruct (teqb name (tx "item")) eqn:E1.
    { apply teqb_eq in E1 as ->. intros n [m e ind] s Hc Hh. destruct n as [|n]; [lia|].
      change (convert (S n) (cmd_node (tx "item") xs) (cs (Ctx m e ind) s)) with (convert_command_item (cs (Ctx m e ind) (fresh s))). unfold convert_command_item.
      change (c_env (cs (Ctx m e ind) (fresh s))) with e. change (c_indent (cs (Ctx m e ind) (fresh s))) with ind.
      destruct e; try reflexivity; (destruct (Nat.ltb_spec ind 2) as [L|L]; [specialize (Hc eq_refl); cbn in Hc; lia|reflexivity]). }
    destruct (teqb name (tx "label")) eqn:E2.
    { apply teqb_eq in E2 as ->. destruct args as [|[g []] [|? ?]]; try discriminate Hw. inversion Ha as [|x ? ? ? Hx Ha']; subst. inversion Ha'; subst.
      intros n [m e ind] s Hc Hh. destruct n as [|n]; [lia|].
      change (convert (S n) (cmd_node (tx "label") [x]) (cs (Ctx m e ind) s)) with (convert_command_label (cmd_node (tx "label") [x]) (cs (Ctx m e ind) (fresh s))). unfold convert_command_label.
      rewrite cmd_arguments. cbn [map hd_error unwrap cbind]. rewrite (arg_text _ _ Hx). cbn [snd stext].
      rewrite (strip_ends_quoted _ 123%N (flat_map stext l) 125%N) by reflexivity. cbn [cbind].
      destruct e, m; reflexivity. }
    destruct (teqb name (tx "includegraphics")) eqn:E3.
    { apply teqb_eq in E3 as ->. apply picture_means; [exact Ha|]. destruct args as [|[? []] [|[? []] [|? ?]]]; try discriminate Hw; exact I. }
    destruct (teqb name (tx "textcolor") || teqb name (tx "colorbox")) eqn:E4; [now apply color_cmd|].
    assert (E5 : teqb name (tx "color") = false).
    { destruct (teqb name (tx "caption")) eqn:E; [apply teqb_eq in E as ->; reflexivity|]. now apply negb_true_iff in Hw. }
    assert (T : deq (typ sp (ICmd name args) false) (command_out sp name (dens args))).
    { intros c s. cbn [typ]. rewrite E1, E2, E3, E4. reflexivity. }
    eapply means_ext; [apply deq_sym; exact T|]. apply command_means; [now apply cmd_command| |exact Hg].
    apply orb_false_iff in E4 as [E4 E4']. unfold among. cbn [existsb]. now rewrite E1, E2, E3, E4, E4', E5.
  Qed.
  Lemma args_text xs args : Forall2 argm xs args -> flat_map tree_text (map arg_node xs) = flat_map (fun p : list space * DocSpec.item => let (_, a) := p in stext a) args.
  Proof. induction 1 as [|x [g a] xs args Hx _ IH]; [reflexivity|]. cbn [map flat_map]. now rewrite (arg_text _ _ Hx), IH. Qed.
  Lemma cmd_item name xs args : Forall2 argm xs args -> Forall okarg args -> own_cond name args ->
    (forall cmd, get_cmd sp name = Some cmd -> cs_args cmd <> SRight PGreedy) ->
    item_of (ICmd name args) (cmd_node name xs).
  Proof.
    intros Ha Hk Hw Hg. constructor.
    - now apply cmd_means.
    - cbn [ptext elem e_item stext]. rewrite <- (args_text _ _ Ha). reflexivity.
    - reflexivity.
    - intros _. split; [reflexivity|]. split; [reflexivity|]. now left.
    - intros e E _. injection E as <-. rewrite cmd_arguments. split; [now apply argm_clause|]. intros E. cbn [pname elem e_item] in E. subst name.
      unfold own_cond in Hw. cbn in Hw. destruct args; [discriminate Hw|]. discriminate.
  Qed.

  (** commands with arguments before the name *)
  Definition normal_name (name : text) : Prop := among name own_way = false.
  Lemma own_among name : normal_name name -> among name [tx "item"; tx "label"; tx "includegraphics"; tx "color"; tx "textcolor"; tx "colorbox"] = false.
  Proof. unfold normal_name, own_way, among. cbn [existsb]. intros H. repeat (apply orb_false_iff in H as [? H]). repeat match goal with X : teqb name _ = false |- _ => rewrite X end. reflexivity. Qed.
  Lemma own_special name : normal_name name -> among name special = false.
  Proof. unfold normal_name, own_way, among, special. cbn [existsb]. intros H. repeat (apply orb_false_iff in H as [? H]). repeat match goal with X : teqb name _ = false |- _ => rewrite X end. reflexivity. Qed.
  Definition post_node (D : list tree) (name : text) : tree := Node ItemCmd [Node ClauseArgument D; Leaf ClauseCommandName (92%N :: name)].
  Lemma post_piece p x mid ys name : normal_name name -> option_map cs_args (get_cmd sp name) = Some SLeft1 ->
    piece_of p x -> Forall2 (fun e y => piece_of (PItem e) y) mid ys ->
    piece_of (PAttach p mid (elem sp (IPost name))) (post_node (x :: ys) name).
  Proof.
    intros Hn Hg Hp Hy.
    assert (Hb : meansl (x :: ys) (seqd (piece_den sp p) (alld (map (fun e => e_den e false) mid)))).
    { apply meansl_cons; [exact (po_means _ _ Hp)|now apply items_means]. }
    constructor.
    - cbn [piece_den elem e_item]. apply command_means.
      + eexists. split; [reflexivity|]. split; [reflexivity|]. eexists. split; [reflexivity|]. split; [reflexivity|]. repeat constructor. eexists. split; [reflexivity|exact Hb].
      + now apply own_among.
      + intros cmd E. rewrite E in Hg. injection Hg as ->. discriminate.
    - cbn [post_node tree_text flat_map ptext elem e_item stext]. rewrite app_nil_r, <- !app_assoc, (po_text _ _ Hp). f_equal. f_equal.
      clear Hb. induction Hy as [|e y mid ys H _ IH]; [reflexivity|]. cbn. rewrite (po_text _ _ H), IH. reflexivity.
    - reflexivity.
    - intros _. split; [reflexivity|]. split; [reflexivity|]. right. now apply own_special.
    - intros e E. discriminate E.
  Qed.
  Definition infix_node (D1 : list tree) (name : text) (D2 : list tree) : tree :=
    Node ItemCmd [Node ClauseArgument D1; Leaf ClauseCommandName (92%N :: name); Node ClauseArgument D2].
  Lemma infix_item l1 D1 name l2 D2 : normal_name name -> option_map cs_args (get_cmd sp name) = Some SInfixGreedy ->
    Forall2 piece_of (parts sp l1) D1 -> Forall2 piece_of (parts sp l2) D2 ->
    item_of (IInfix l1 name l2) (infix_node D1 name D2).
  Proof.
    intros Hn Hg H1 H2. constructor.
    - cbn [piece_den elem e_den]. eapply means_ext with (f := command_out sp name [list_den sp (parts sp l1); list_den sp (parts sp l2)]).
      { intros c s. reflexivity. }
      apply command_means.
      + eexists. split; [reflexivity|]. split; [reflexivity|]. eexists. split; [reflexivity|]. split; [reflexivity|]. repeat constructor; (eexists; split; [reflexivity|]); now apply pieces_means.
      + now apply own_among.
      + intros cmd E. rewrite E in Hg. injection Hg as ->. discriminate.
    - cbn [infix_node tree_text flat_map ptext elem e_item stext]. rewrite app_nil_r, (pieces_text _ _ H1), (pieces_text _ _ H2). now rewrite !(proj1 (parts_facts _)).
    - reflexivity.
    - intros _. split; [reflexivity|]. split; [reflexivity|]. right. now apply own_special.
    - intros e E Hc. injection E as <-. discriminate Hc.
  Qed.

  (** commands that take the rest *)
  Definition greedy_node (name : text) (D : list tree) : tree := Node ItemCmd [Leaf ClauseCommandName (92%N :: name); Node ClauseArgument D].
  Lemma rest_thread n c ps D : okc c -> Forall2 piece_of ps D -> Forall (fun t => height t < n) D -> forall s,
    comma_args (convert n) ItemCurly D (cs c s) = lift c (rest_den sp ps c s).
  Proof.
    intros Hc H. induction H as [|p x ps D Hp H IH]; intros Hh s; [reflexivity|]. inversion Hh; subst. cbn [comma_args].
    rewrite (po_means _ _ Hp n c s Hc) by assumption.
    destruct H as [|p2 x2 ps D Hp2 H].
    - cbn [comma_args rest_den]. destruct (piece_den sp p c s) as [[s1 o1]| | |]; cbn; rewrite ?app_nil_r; reflexivity.
    - change (rest_den sp (p :: p2 :: ps) c s) with
        (seqd (around [] (piece_den sp p) (match p with PItem e => match e_item e with IGroup _ => tx "," | _ => [] end | _ => [] end)) (rest_den sp (p2 :: ps)) c s).
      rewrite seqd_eq, around_eq. destruct (piece_den sp p c s) as [[s1 o1]| | |]; try reflexivity. cbn [lift cbind]. unfold say. cbn [cbind].
      rewrite IH by assumption. destruct (rest_den sp (p2 :: ps) c s1) as [[s2 o2]| | |]; try reflexivity. cbn [lift cbind].
      assert (E : (if has_kind ItemCurly x then tx "," else []) = match p with PItem e => match e_item e with IGroup _ => tx "," | _ => [] end | _ => [] end).
      { unfold has_kind. rewrite (po_kind _ _ Hp), pkind_group. destruct p as [e|e|e]; try reflexivity. cbn. destruct (e_item e); reflexivity. }
      rewrite E. cbn [app]. now rewrite <- app_assoc.
  Qed.
  Lemma greedy_means name ps D : normal_name name -> option_map cs_args (get_cmd sp name) = Some (SRight PGreedy) -> Forall2 piece_of ps D ->
    means (greedy_node name D) (greedy_out sp name ps).
  Proof.
    intros Hn Hg H n c s Hc Hh. destruct n as [|n]; [lia|]. pose proof (kids _ _ _ Hh) as Hd. inversion Hd as [|? ? _ Hd']; subst. inversion Hd' as [|? ? Hcl _]; subst.
    assert (HD : Forall (fun t => height t < n) D).
    { destruct n as [|n]; [lia|]. apply kids in Hcl. eapply Forall_impl; [|exact Hcl]. cbn beta. intros a. lia. }
    change (convert (S n) (greedy_node name D) (cs c s)) with (convert_cmd sp (convert n) (greedy_node name D) (cs c (fresh s))).
    unfold convert_cmd, greedy_node. change (cmd_name _) with (@COk text (92%N :: name)). cbn [cbind]. rewrite tail1_small by reflexivity. cbn [cbind].
    apply own_among in Hn. cbn [among existsb] in Hn. repeat (apply orb_false_iff in Hn as [? Hn]). repeat match goal with H : teqb name _ = false |- _ => rewrite H end. cbn [orb].
    unfold convert_normal_command. change (cmd_name _) with (@COk text (92%N :: name)). cbn [cbind]. rewrite tail1_small by reflexivity. cbn [cbind children filter].
    change (negb (has_kind ClauseCommandName (Leaf ClauseCommandName (92%N :: name)))) with false. change (negb (has_kind ClauseCommandName (Node ClauseArgument D))) with true. cbv iota.
    unfold greedy_out. destruct (get_cmd sp name) as [cmd|] eqn:Eg; [|discriminate Hg]. injection Hg as Hg. rewrite Hg.
    assert (Etn : typst_name_of name cmd (cs c (fresh s)) = typst_name (x_mode c) name cmd) by (unfold typst_name_of, typst_name, is_math; cbn; destruct (x_mode c); reflexivity).
    rewrite Etn. set (tn := typst_name (x_mode c) name cmd) in *. set (e' := if teqb tn (tx "substack") then ESubStack else x_env c).
    assert (Ee : (if teqb tn (tx "substack") then enter_env ESubStack (cs c (fresh s)) else cs c (fresh s)) = cs (Ctx (x_mode c) e' (x_ind c)) (fresh s)).
    { unfold e'. destruct (teqb tn (tx "substack")); [|now destruct c]. unfold enter_env, cs. cbn. now rewrite Nat.add_0_r. }
    rewrite Ee. set (c' := Ctx (x_mode c) e' (x_ind c)) in *.
    assert (Hc' : okc c') by (unfold c', e', okc; cbn [x_env x_ind]; destruct (teqb tn (tx "substack")); [intros X; discriminate X|exact Hc]).
    assert (Hx : forall s1, (if teqb tn (tx "substack") then exit_env (c_env (cs c (fresh s))) (cs c' s1) else COk (cs c' s1)) = COk (cs c s1)).
    { intros s1. unfold c', e'. destruct (teqb tn (tx "substack")); [reflexivity|now destruct c]. }
    rewrite (rest_thread n c' ps D Hc' H HD (fresh s)). unfold around. destruct (rest_den sp ps c' (fresh s)) as [[s1 o1]| | |]; try reflexivity.
    cbn [lift cbind]. rewrite Hx. cbn [cbind]. unfold say. cbn [lift]. rewrite <- !app_assoc. reflexivity.
  Qed.
  Lemma skip_drop ps D : Forall2 piece_of ps D -> Forall2 piece_of (drop_trivial ps) (skip_trivia D).
  Proof.
    induction 1 as [|p x ps D Hp H IH]; [constructor|]. cbn [drop_trivial skip_trivia]. rewrite (po_kind _ _ Hp), pkind_trivial.
    destruct (trivial p); [exact IH|]. now constructor.
  Qed.
  Lemma take_until ps D : Forall2 piece_of ps D -> fst (take_model D) = fst (until_bracket ps) /\ Forall2 piece_of (snd (until_bracket ps)) (snd (take_model D)).
  Proof.
    induction 1 as [|p x ps D Hp H IH]; [split; [reflexivity|constructor]|]. cbn [take_model until_bracket].
    rewrite (is_mark_in 93 TokenRBracket ltac:(cbn; tauto) _ _ Hp). destruct (is_mark 93 p); [split; [reflexivity|exact H]|].
    destruct (take_model D) as [t D'], (until_bracket ps) as [t' ps']. cbn in *. destruct IH as [-> IH]. rewrite (po_text _ _ Hp). split; [reflexivity|exact IH].
  Qed.
  Lemma pieces_means2 ps D : Forall2 piece_of ps D -> Forall2 means D (map (piece_den sp) ps).
  Proof. induction 1 as [|p x ps D H _ IH]; constructor; [exact (po_means _ _ H)|exact IH]. Qed.
  Lemma skip_incl D x : In x (skip_trivia D) -> In x D.
  Proof. induction D as [|t D IH]; [contradiction|]. cbn [skip_trivia]. destruct (kind_is_trivia (tkind t)); [|tauto]. intros H. right. auto. Qed.
  Lemma take_incl D x : In x (snd (take_model D)) -> In x D.
  Proof. induction D as [|t D IH]; [contradiction|]. cbn [take_model]. destruct (has_kind TokenRBracket t); [intros; now right|]. destruct (take_model D). cbn in *. intros H. right. auto. Qed.
  Definition model_of (l : list tree) : option text * list tree :=
    match l with x :: r => if has_kind TokenLBracket x then let '(m, r') := take_model r in (Some m, r') else (None, l) | [] => (None, l) end.
  Definition model_in (ps : list piece) : option text * list piece :=
    match ps with p :: r => if is_mark 91 p then let (t, r') := until_bracket r in (Some t, r') else (None, ps) | [] => (None, ps) end.
  Lemma model_split ps D : Forall2 piece_of ps D ->
    fst (model_of D) = fst (model_in ps) /\ Forall2 piece_of (snd (model_in ps)) (snd (model_of D)) /\ (forall x, In x (snd (model_of D)) -> In x D).
  Proof.
    intros H. destruct H as [|p x ps D Hp H]; [repeat split; [constructor|contradiction]|]. unfold model_of, model_in.
    rewrite (is_mark_in 91 TokenLBracket ltac:(cbn; tauto) _ _ Hp). destruct (is_mark 91 p).
    - destruct (take_until _ _ H) as [E1 E2]. pose proof (take_incl D) as E3. destruct (take_model D), (until_bracket ps). cbn in *. subst. split; [reflexivity|]. split; [exact E2|].
      intros y Hy. right. auto.
    - split; [reflexivity|]. split; [cbn [snd]; constructor; assumption|]. auto.
  Qed.
  Lemma color_rest_means ps D : Forall2 piece_of ps D ->
    means (greedy_node (tx "color") D) (fun c s => color_rest_out sp ps c (fresh s)).
  Proof.
    intros H. pose proof (skip_drop _ _ H) as H1. destruct (model_split _ _ H1) as (E1 & H2 & I2). pose proof (skip_drop _ _ H2) as H3.
    assert (Ec : color_args (tx "\color") (greedy_node (tx "color") D) =
      match skip_trivia (snd (model_of (skip_trivia D))) with
      | [] => COk (fst (model_of (skip_trivia D)), None, [])
      | c :: body => COk (fst (model_of (skip_trivia D)), Some c, body) end).
    { unfold color_args. change (teqb (tx "\color") (tx "\color")) with true. change (arguments (greedy_node (tx "color") D)) with [Node ClauseArgument D].
      cbn [hd_error unwrap cbind children]. fold (model_of (skip_trivia D)). destruct (model_of (skip_trivia D)) as [m l]. reflexivity. }
    assert (Eo : color_rest_out sp ps =
      match drop_trivial (snd (model_in (drop_trivial ps))) with
      | [] => color_out sp (tx "color") (fst (model_in (drop_trivial ps))) None []
      | p :: r => color_out sp (tx "color") (fst (model_in (drop_trivial ps))) (Some (piece_den sp p)) (map (piece_den sp) r) end).
    { unfold color_rest_out. cbv zeta. fold (model_in (drop_trivial ps)). destruct (model_in (drop_trivial ps)) as [m l]. reflexivity. }
    rewrite Eo. clear Eo. rewrite <- E1. set (model := fst (model_of (skip_trivia D))) in *.
    assert (Hin : forall x, In x (skip_trivia (snd (model_of (skip_trivia D)))) -> In x D).
    { intros x Hx. apply skip_incl, I2, skip_incl in Hx. exact Hx. }
    set (R := skip_trivia (snd (model_of (skip_trivia D)))) in *. set (Q := drop_trivial (snd (model_in (drop_trivial ps)))) in *. clearbody R Q model. clear E1 I2 H1 H2.
    assert (Hh : forall n, height (greedy_node (tx "color") D) < S n -> Forall (fun t => height t < n) D).
    { intros n Hh. apply kids in Hh. inversion Hh as [|? ? _ Hd']; subst. inversion Hd' as [|? ? Hcl _]; subst. destruct n as [|n]; [lia|].
      apply kids in Hcl. eapply Forall_impl; [|exact Hcl]. cbn beta. intros a. lia. }
    destruct H3 as [|p x Q R Hp H3].
    - eapply (color_means _ (tx "color") model None None [] []); [reflexivity|reflexivity|exact Ec|exact I|constructor|]. intros n _. split; [discriminate|constructor].
    - eapply (color_means _ (tx "color") model (Some x) (Some (piece_den sp p)) R (map (piece_den sp) Q)); [reflexivity|reflexivity|exact Ec|exact (po_means _ _ Hp)|now apply pieces_means2|].
      intros n Hn. apply Hh in Hn. rewrite Forall_forall in Hn. split.
      + intros y E. injection E as <-. apply Hn, Hin. now left.
      + apply Forall_forall. intros y Hy. apply Hn, Hin. now right.
  Qed.
  Lemma greedy_item name l D : teqb name (tx "color") = true \/ normal_name name -> option_map cs_args (get_cmd sp name) = Some (SRight PGreedy) ->
    Forall2 piece_of (parts sp l) D -> item_of (IGreedy name l) (greedy_node name D).
  Proof.
    intros Hn Hg H. constructor.
    - cbn [piece_den elem e_den]. destruct (teqb name (tx "color")) eqn:E.
      + apply teqb_eq in E as ->. eapply means_ext; [|exact (color_rest_means _ _ H)]. intros c s. reflexivity.
      + destruct Hn as [Hn|Hn]; [discriminate|]. eapply means_ext; [|exact (greedy_means _ _ _ Hn Hg H)]. intros c s. cbn [typ]. rewrite E. reflexivity.
    - cbn [greedy_node tree_text flat_map ptext elem e_item stext]. rewrite app_nil_r, (pieces_text _ _ H). now rewrite !(proj1 (parts_facts _)).
    - reflexivity.
    - intros _. split; [reflexivity|]. split; [reflexivity|]. right. destruct Hn as [Hn|Hn]; [apply teqb_eq in Hn as ->; reflexivity|now apply own_special].
    - intros e E Hc. injection E as <-. discriminate Hc.
  Qed.
  (** groups, scripts, formulas, code *)
  Lemma group_item l D : Forall2 piece_of (parts sp l) D ->
    item_of (IGroup l) (Node ItemCurly (Leaf TokenLBrace (tx "{") :: D ++ [Leaf TokenRBrace (tx "}")])).
  Proof.
    intros H. apply item_of_intro; [| |reflexivity|discriminate].
    - eapply means_ext; [|exact (curly_means _ _ (pieces_means _ _ H))]. intros c s. rewrite (pieces_blank _ _ H), (proj2 (parts_facts l)). reflexivity.
    - cbn [tree_text flat_map stext]. rewrite flat_map_app, (pieces_text _ _ H), (proj1 (parts_facts l)). reflexivity.
  Qed.
  Lemma bracket_item l D : Forall2 piece_of (parts sp l) D ->
    item_of (IBracket l) (Node ItemBracket (Leaf TokenLBracket (tx "[") :: D ++ [Leaf TokenRBracket (tx "]")])).
  Proof.
    intros H. apply item_of_intro; [| |reflexivity|discriminate].
    - eapply means_ext; [|exact (bracket_means _ _ (pieces_means _ _ H))]. intros c s. reflexivity.
    - cbn [tree_text flat_map stext]. rewrite flat_map_app, (pieces_text _ _ H), (proj1 (parts_facts l)). reflexivity.
  Qed.
  Lemma formula_item k l D : Forall2 piece_of (parts sp l) D ->
    item_of (IFormula k l) (Node ItemFormula (leaf (f_open k) :: D ++ [leaf (f_close k)])).
  Proof.
    intros H. apply item_of_intro; [| |reflexivity|discriminate].
    - eapply means_ext; [|exact (formula_means k _ _ (pieces_means _ _ H))]. intros c s. reflexivity.
    - cbn [tree_text flat_map stext]. rewrite flat_map_app, (pieces_text _ _ H), (proj1 (parts_facts l)). destruct k; reflexivity.
  Qed.
  Lemma lr_item g1 d1 l g2 d2 D : wf_delim d1 = true -> wf_delim d2 = true -> Forall2 piece_of (parts sp l) D ->
    item_of (ILR g1 d1 l g2 d2) (lr_tree g1 d1 D g2 d2).
  Proof.
    intros H1 H2 H. apply item_of_intro; [| |reflexivity|discriminate].
    - apply lr_means; [exact H1|exact H2|now apply pieces_means].
    - assert (G : forall g d, flat_map tree_text (map leaf (map space_tok g) ++ [delim_tree d]) = flat_map (fun x => snd (space_tok x)) g ++ match d with DChar c | DMark c => [c] | DSym n => 92%N :: n end).
      { intros g d. rewrite flat_map_app. f_equal; [|destruct d; cbn; rewrite ?app_nil_r; reflexivity]. induction g as [|x g IH]; [reflexivity|]. cbn. now rewrite IH. }
      change (tree_text (lr_tree g1 d1 D g2 d2)) with (tree_text (clause_tree true g1 d1) ++ flat_map tree_text (D ++ [clause_tree false g2 d2])).
      rewrite flat_map_app, (pieces_text _ _ H), (proj1 (parts_facts l)). cbn [flat_map tree_text clause_tree stext]. rewrite !G, app_nil_r, <- !app_assoc. reflexivity.
  Qed.
  Definition script_text (sup : bool) (gap : list space) (a : DocSpec.item) : text := stext (IScript sup gap a).
  Lemma gap_text g : flat_map tree_text (map leaf (map space_tok g)) = flat_map (fun x => snd (space_tok x)) g.
  Proof. induction g as [|x g IH]; [reflexivity|]. cbn. now rewrite IH. Qed.
  Lemma script_body g a x : argm x (g, a) -> meansl (map leaf (map space_tok g) ++ [x]) (seqd (fun c => gap_out c [] g) (typ sp a false)).
  Proof. intros (H & _). apply meansl_app; [apply spaces_means|now apply meansl_one]. Qed.
  Lemma script_item sup g a x : argm x (g, a) ->
    item_of (IScript sup g a) (Node ItemAttachComponent (Leaf (mark_kind sup) (mark_text sup) :: map leaf (map space_tok g) ++ [x])).
  Proof.
    intros H. apply item_of_intro; [| |reflexivity|discriminate].
    - eapply means_ext; [|exact (script_bare sup _ _ (script_body _ _ _ H))]. intros c s. unfold script_den. cbn [typ]. rewrite seqd_eq.
      destruct (x_mode c); (destruct (gap_out c [] g _) as [[s1 o1]| | |]; try reflexivity); cbn [cbind]; unfold say; (destruct (typ sp a false c s1) as [[s2 o2]| | |]; try reflexivity); cbn [cbind]; rewrite <- ?app_assoc; reflexivity.
    - cbn [tree_text flat_map stext]. rewrite flat_map_app, gap_text. cbn [flat_map]. destruct H as (_ & -> & _). rewrite app_nil_r. destruct sup; reflexivity.
  Qed.
  Lemma script_piece p x mid ys sup g a y : piece_of p x -> Forall2 (fun e y => piece_of (PItem e) y) mid ys -> steady (piece_den sp p) -> argm y (g, a) ->
    piece_of (PAttach p mid (elem sp (IScript sup g a)))
      (Node ItemAttachComponent (Node ClauseArgument (x :: ys) :: Leaf (mark_kind sup) (mark_text sup) :: map leaf (map space_tok g) ++ [y])).
  Proof.
    intros Hp Hy Hs Ha.
    assert (Hb : meansl (x :: ys) (seqd (piece_den sp p) (alld (map (fun e => e_den e false) mid)))).
    { apply meansl_cons; [exact (po_means _ _ Hp)|now apply items_means]. }
    constructor; [| |reflexivity|discriminate|intros e E; discriminate E].
    - eapply means_ext; [|exact (script_based sup _ _ _ _ Hb (steady_seq _ _ Hs) (script_body _ _ _ Ha))].
      cbn [piece_den elem e_item e_den]. apply seqd_cong; [apply deq_refl|]. intros c s. unfold script_den. cbn [typ]. rewrite seqd_eq.
      destruct (x_mode c); (destruct (gap_out c [] g _) as [[s1 o1]| | |]; try reflexivity); cbn [cbind]; unfold say; (destruct (typ sp a false c s1) as [[s2 o2]| | |]; try reflexivity); cbn [cbind]; rewrite <- ?app_assoc; reflexivity.
    - cbn [tree_text flat_map ptext elem e_item stext]. rewrite (po_text _ _ Hp), flat_map_app, gap_text. cbn [flat_map]. destruct Ha as (_ & Ey & _). rewrite Ey, app_nil_r. cbn [snd].
      assert (E : flat_map tree_text ys = flat_map (fun e => stext (e_item e)) mid).
      { clear - Hy. induction Hy as [|e z mid ys H _ IH]; [reflexivity|]. cbn. rewrite (po_text _ _ H), IH. reflexivity. }
      rewrite E, <- !app_assoc. destruct sup; reflexivity.
  Qed.
  Lemma prime_piece p x mid ys : piece_of p x -> Forall2 (fun e y => piece_of (PItem e) y) mid ys -> steady (piece_den sp p) ->
    piece_of (PAttach p mid (elem sp IPrime)) (Node ItemAttachComponent [Node ClauseArgument (x :: ys); Leaf TokenApostrophe (tx "'")]).
  Proof.
    intros Hp Hy Hs.
    assert (Hb : meansl (x :: ys) (seqd (piece_den sp p) (alld (map (fun e => e_den e false) mid)))).
    { apply meansl_cons; [exact (po_means _ _ Hp)|now apply items_means]. }
    constructor; [| |reflexivity|discriminate|intros e E; discriminate E].
    - eapply means_ext; [|exact (prime_based _ _ Hb (steady_seq _ _ Hs))]. intros c s. reflexivity.
    - cbn [tree_text flat_map ptext elem e_item stext]. rewrite (po_text _ _ Hp), app_nil_r.
      assert (E : flat_map tree_text ys = flat_map (fun e => stext (e_item e)) mid).
      { clear - Hy. induction Hy as [|e z mid ys H _ IH]; [reflexivity|]. cbn. rewrite (po_text _ _ H), IH. reflexivity. }
      rewrite E, <- !app_assoc. reflexivity.
  Qed.
  Lemma code_item typst ts D : flat_map tree_text D = flat_map snd ts ->
    item_of (ICode typst ts) (Node (if typst then ItemTypstCode else ItemBlockComment) D).
  Proof.
    intros H. apply item_of_intro; [|exact H|reflexivity|destruct typst; discriminate].
    intros [|n] c s Hc Hh; [lia|]. destruct typst; [|reflexivity].
    change (convert (S n) (Node ItemTypstCode D) (cs c s)) with (COk (cs c (fresh s), flat_map tree_text D)). rewrite H. reflexivity.
  Qed.
  Lemma text_piece es D : Forall2 (fun e y => piece_of (PItem e) y) es D -> steady (alld (map (fun e => e_den e false) es)) ->
    piece_of (PText es) (Node ItemText D).
  Proof.
    intros H Hs. constructor; [| |reflexivity|discriminate|intros e E; discriminate E].
    - eapply means_ext; [|apply plain_node; [cbn; tauto|exact (items_means _ _ H)]]. intros c s. cbn beta. now rewrite <- Hs.
    - cbn. clear Hs. induction H as [|e z mid ys H _ IH]; [reflexivity|]. cbn. rewrite (po_text _ _ H), IH. reflexivity.
  Qed.
  (** steadiness *)
  Lemma steady_carries i : carries i = true -> steady (typ sp i false).
  Proof. destruct i; try discriminate; intros _ c0 s0; reflexivity. Qed.
  Lemma steady_attach p mid e : steady (piece_den sp p) -> steady (piece_den sp (PAttach p mid e)).
  Proof.
    intros H. cbn [piece_den]. destruct (e_item e); try (apply steady_seq, steady_seq, H).
    intros c s. unfold command_out. reflexivity.
  Qed.

  (** ** Environments *)
  Definition begin_node (name : text) (xs : list tree) : tree := Node ItemBegin (Leaf TokenCommandSym name :: map arg_node xs).
  Definition end_node (name : text) : tree := Node ItemEnd [Leaf TokenCommandSym name].
  Definition env_node (name : text) (xs D : list tree) (name' : text) : tree :=
    Node ItemEnv (begin_node name xs :: D ++ [end_node name']).
  Lemma body_env name xs D name' : Forall (fun t => is_begin_end t = false) D -> body_of (env_node name xs D name') = D.
  Proof.
    intros H. unfold body_of, env_node. cbn [children filter]. change (is_begin_end (begin_node name xs)) with true. cbn [negb].
    rewrite filter_app. cbn [filter]. change (is_begin_end (end_node name')) with true. cbn [negb]. rewrite app_nil_r.
    induction H as [|t D Ht H IH]; [reflexivity|]. cbn [filter]. rewrite Ht. cbn [negb]. now rewrite IH.
  Qed.
  (** *** tables *)
  Lemma lines_cons ch r : lines (ch :: r) = (if (ch =? 124)%N then [0] else []) ++ map (Nat.add (if (ch =? 124)%N then 0 else 1)) (lines r).
  Proof.
    unfold lines. cbn [List.length seq flat_map nth firstn]. f_equal. rewrite <- seq_shift.
    generalize (seq 0 (List.length r)). intros l. induction l as [|n l IH]; [reflexivity|]. cbn [map flat_map nth firstn]. rewrite IH, map_app. f_equal.
    destruct (nth n r 0 =? 124)%N; [|reflexivity]. cbn [map]. f_equal. unfold columns. cbn [filter]. destruct (ch =? 124)%N; reflexivity.
  Qed.
  Lemma map_add_0 l : map (Nat.add 0) l = l. Proof. exact (map_id l). Qed.
  Lemma columns_eq s : forall k, table_columns k s =
    match find bad_column s with Some ch => CErr (EAlignment ch) | None => COk (columns s, map (Nat.add k) (lines s)) end.
  Proof.
    induction s as [|ch r IH]; intros k; [reflexivity|]. cbn [table_columns find]. unfold bad_column at 1. rewrite lines_cons.
    assert (E : existsb (N.eqb ch) (tx "lcr|") = ((ch =? 108) || (ch =? 99) || (ch =? 114) || (ch =? 124))%N).
    { cbn. now rewrite orb_false_r, !orb_assoc. }
    rewrite E. unfold columns. cbn [filter]. fold (columns r).
    destruct ((ch =? 108) || (ch =? 99) || (ch =? 114))%N eqn:E1.
    - assert (E2 : (ch =? 124)%N = false) by (destruct (N.eqb_spec ch 124) as [->|]; [discriminate E1|reflexivity]).
      rewrite E2. cbn [orb negb app]. rewrite IH. destruct (find bad_column r); [reflexivity|]. cbn [cbind]. rewrite map_map. f_equal. f_equal. apply map_ext. intros a. lia.
    - cbn [orb]. destruct (ch =? 124)%N; [|reflexivity]. cbn [negb]. rewrite IH. destruct (find bad_column r); [reflexivity|]. cbn [cbind app map].
      rewrite Nat.add_0_r. f_equal. f_equal. f_equal. now rewrite map_add_0.
  Qed.
  Lemma align_eq s : find bad_column s = None -> flat_map align_name (columns s) = flat_map column_out (columns s).
  Proof.
    induction s as [|ch r IH]; [reflexivity|]. cbn [find]. unfold bad_column at 1. destruct (existsb (N.eqb ch) (tx "lcr|")) eqn:E; [|discriminate]. cbn [negb]. intros H.
    unfold columns in *. cbn [filter]. destruct (ch =? 124)%N eqn:E1; [now apply IH|]. cbn [negb flat_map]. rewrite (IH H). f_equal.
    cbn in E. unfold align_name, column_out. destruct (ch =? 108)%N; [reflexivity|]. destruct (ch =? 99)%N; [reflexivity|]. destruct (ch =? 114)%N; [reflexivity|].
    rewrite E1 in E. discriminate.
  Qed.
  Lemma rule_eq n : rule_text n = rule_out n.
  Proof.
    unfold rule_text, rule_out. cbn [existsb]. rewrite !orb_false_r.
    destruct (teqb n (tx "hline")) eqn:E1; [apply teqb_eq in E1 as ->; reflexivity|].
    destruct (teqb n (tx "toprule")) eqn:E2; [reflexivity|].
    destruct (teqb n (tx "midrule")) eqn:E3; [apply teqb_eq in E3 as ->; reflexivity|]. reflexivity.
  Qed.
  Lemma rule_special n : among n special = false -> rule_text n = None.
  Proof.
    unfold among, special, rule_text. cbn [existsb]. intros H. repeat (apply orb_false_iff in H as [? H]).
    repeat match goal with X : teqb n _ = false |- _ => rewrite X end. reflexivity.
  Qed.
  Lemma cmd_kind p : pkind p = ItemCmd -> (exists e n l, p = PItem e /\ e_item e = ICmd n l /\ pname p = n) \/ is_cmd p = false.
  Proof.
    destruct p as [[i d a]|es|p b [i d a]]; intros H; try discriminate H; [|now right]. destruct i; try (now right). left. do 3 eexists. repeat split; reflexivity.
  Qed.
  Definition is_newline : piece -> bool := is_item (fun i => match i with INewline => true | _ => false end).
  Lemma kind_eqb_eq (k k' : kind) : kind_eqb k k' = true -> k = k'.
  Proof. unfold kind_eqb. destruct (kind_eq_dec k k'); [auto|discriminate]. Qed.
  Lemma kind_eqb_neq (k k' : kind) : kind_eqb k k' = false -> k <> k'.
  Proof. unfold kind_eqb. destruct (kind_eq_dec k k'); [discriminate|auto]. Qed.
  Lemma exterior_eq p x : piece_of p x -> preprocess_exterior x =
    if is_mark 38 p then COk (true, tx "[], ")
    else if is_newline p then COk (true, tx "[]," ++ [10%N])
    else if is_item is_space p then COk (true, [])
    else match rule_of p with Some o => COk (true, o) | None => COk (false, tx "[") end.
  Proof.
    intros Hp. unfold preprocess_exterior.
    pose proof (po_kind _ _ Hp) as Ek. rewrite Ek.
    pose proof (pkind_mark p 38 TokenAmpersand ltac:(cbn; tauto)) as E1. pose proof (pkind_newline p) as E2. pose proof (pkind_space p) as E3.
    unfold is_newline. rewrite <- E1, <- E2, <- E3.
    destruct (kind_eqb (pkind p) ItemCmd) eqn:Ec.
    - apply kind_eqb_eq in Ec. destruct (po_cmd _ _ Hp) as (_ & En & Hs); [congruence|]. rewrite Ec. cbn. rewrite En. cbn [cbind]. rewrite tail1_small by reflexivity. cbn [cbind].
      destruct (cmd_kind p Ec) as [(e & n & l & -> & Ei & Epn)|Hf].
      + rewrite Epn. unfold rule_of. rewrite Ei, <- rule_eq. reflexivity.
      + destruct Hs as [Hs|Hs]; [congruence|]. rewrite (rule_special _ Hs).
        assert (R : rule_of p = None). { unfold rule_of. destruct p as [e| |]; try reflexivity. unfold is_cmd, is_item in Hf. destruct (e_item e); try reflexivity. discriminate. }
        rewrite R. reflexivity.
    - assert (R : rule_of p = None). { unfold rule_of. destruct p as [e| |]; try reflexivity. cbn in Ec. destruct (e_item e); try reflexivity. discriminate Ec. }
      rewrite R. clear - Ec. destruct (pkind p); try reflexivity. discriminate Ec.
  Qed.
  Lemma cells_cons inside p r : cells sp inside (p :: r) =
    let start := if inside then [] else tx "[" in
    if is_mark 38 p then seqd (fun _ s => say s (start ++ tx "], ")) (cells sp false r)
    else if is_newline p then seqd (fun _ s => say s (start ++ tx "]," ++ [10%N])) (cells sp false r)
    else if negb inside && is_item is_space p then cells sp false r
    else match (if inside then None else rule_of p) with
         | Some o => seqd (fun _ s => say s o) (cells sp false r)
         | None => seqd (around start (piece_den sp p) []) (cells sp true r)
         end.
  Proof. reflexivity. Qed.
  Lemma cells_thread n c ps D e : okc c -> is_begin_end e = true -> Forall2 piece_of ps D -> Forall (fun t => height t < n) D -> forall ext s,
    table_cells (convert n) ext (D ++ [e]) (cs c s) = lift c (cells sp (negb ext) ps c s).
  Proof.
    intros Hc He H. induction H as [|p x ps D Hp H IH]; intros Hh ext s.
    { cbn [app table_cells cells]. rewrite He. reflexivity. }
    inversion Hh as [|? ? Hx Hh']; subst. specialize (IH Hh'). cbn [app table_cells]. rewrite (piece_clause _ _ Hp). rewrite cells_cons. cbv zeta.
    pose proof (pkind_mark p 38 TokenAmpersand ltac:(cbn; tauto)) as E1. pose proof (pkind_newline p) as E2. change (kind_eqb (pkind p) ItemNewLine = is_newline p) in E2.
    pose proof (po_kind _ _ Hp) as Ek.
    (* in a cell *)
    assert (Hin : forall o0, (let! (exterior, s0, o1) :=
              match tkind x with
              | TokenAmpersand => COk (true, cs c s, tx "], ")
              | ItemNewLine => COk (true, cs c s, tx "]," ++ [10%N])
              | _ => let! (s, o) := convert n x (cs c s) in COk (false, s, o)
              end in let! (s1, o2) := table_cells (convert n) exterior (D ++ [e]) s0 in COk (s1, o0 ++ o1 ++ o2)) =
        lift c ((if is_mark 38 p then seqd (fun _ s => say s (o0 ++ tx "], ")) (cells sp false ps)
    else if is_newline p then seqd (fun _ s => say s (o0 ++ tx "]," ++ [10%N])) (cells sp false ps)
    else seqd (around o0 (piece_den sp p) []) (cells sp true ps)) c s)).
    { intros o0. rewrite <- E1. rewrite Ek. destruct (kind_eqb (pkind p) TokenAmpersand) eqn:K1.
      { apply kind_eqb_eq in K1. rewrite K1. cbn [cbind]. rewrite (IH true s). rewrite seqd_eq. unfold say. cbn [cbind negb].
        destruct (cells sp false ps c s) as [[s1 o1]| | |]; cbn; rewrite <- ?app_assoc; reflexivity. }
      rewrite <- E2. destruct (kind_eqb (pkind p) ItemNewLine) eqn:K2.
      { apply kind_eqb_eq in K2. rewrite K2. cbn [cbind]. rewrite (IH true s). rewrite seqd_eq. unfold say. cbn [cbind negb].
        destruct (cells sp false ps c s) as [[s1 o1]| | |]; cbn; rewrite <- ?app_assoc; reflexivity. }
      assert (K : match pkind p with
              | TokenAmpersand => COk (true, cs c s, tx "], ")
              | ItemNewLine => COk (true, cs c s, tx "]," ++ [10%N])
              | _ => let! (s, o) := convert n x (cs c s) in COk (false, s, o)
              end = let! (s, o) := convert n x (cs c s) in COk (false, s, o)).
      { clear - K1 K2. destruct (pkind p); try reflexivity; discriminate. }
      rewrite K, (po_means _ _ Hp n c s Hc Hx), seqd_eq, around_eq. destruct (piece_den sp p c s) as [[s1 o1]| | |]; try reflexivity. cbn [lift cbind]. unfold say. cbn [cbind].
      rewrite (IH false s1). cbn [negb]. destruct (cells sp true ps c s1) as [[s2 o2]| | |]; cbn; rewrite ?app_nil_r, <- ?app_assoc; reflexivity. }
    destruct ext.
    - cbn [negb andb]. rewrite (exterior_eq _ _ Hp). specialize (Hin (tx "[")).
      assert (Hone : forall o, (let! (s0, o2) := table_cells (convert n) true (D ++ [e]) (cs c s) in COk (s0, o ++ [] ++ o2)) = lift c (seqd (fun _ s => say s o) (cells sp false ps) c s)).
      { intros o. rewrite (IH true s), seqd_eq. cbn [negb]. unfold say. cbn [cbind]. destruct (cells sp false ps c s) as [[s1 o1]| | |]; reflexivity. }
      destruct (is_mark 38 p); [exact (Hone _)|]. destruct (is_newline p); [exact (Hone _)|].
      destruct (is_item is_space p).
      { cbn [cbind]. rewrite (IH true s). cbn [negb]. destruct (cells sp false ps c s) as [[s1 o1]| | |]; reflexivity. }
      destruct (rule_of p); [exact (Hone _)|]. exact Hin.
    - cbn [negb andb cbind]. specialize (Hin []). exact Hin.
  Qed.
  (** *** figures *)
  Lemma command_in names p e : is_command names p = true -> p = PItem e -> exists n l, e_item e = ICmd n l /\ existsb (teqb n) names = true /\ pname p = n.
  Proof. intros H ->. unfold is_command, is_item in H. destruct (e_item e) eqn:E; try discriminate. do 2 eexists. split; [reflexivity|]. split; [exact H|]. cbn. now rewrite E. Qed.
  Lemma named_eq p x : piece_of p x -> is_named_arg x = COk (is_command [tx "caption"; tx "centering"] p).
  Proof.
    intros Hp. pose proof (po_kind _ _ Hp) as Ek.
    destruct (kind_eqb (pkind p) ItemCmd) eqn:Ec.
    - apply kind_eqb_eq in Ec. destruct (po_cmd _ _ Hp) as (Hn & En & Hs); [congruence|]. destruct x as [k tt|k ch]; [discriminate Hn|]. cbn in Ek. rewrite Ec in Ek. subst k.
      cbn [is_named_arg]. rewrite En. cbn [cbind]. f_equal.
      change (teqb (92%N :: pname p) (tx "\caption")) with (teqb (pname p) (tx "caption")). change (teqb (92%N :: pname p) (tx "\centering")) with (teqb (pname p) (tx "centering")).
      destruct (cmd_kind p Ec) as [(e & n & l & -> & Ei & Epn)|Hf].
      + rewrite Epn. unfold is_command, is_item. rewrite Ei. cbn [existsb]. now rewrite orb_false_r.
      + destruct Hs as [Hs|Hs]; [congruence|]. unfold among, special in Hs. cbn [existsb] in Hs. apply orb_false_iff in Hs as [-> Hs]. apply orb_false_iff in Hs as [-> _].
        unfold is_command, is_item. unfold is_cmd, is_item in Hf. destruct p as [e| |]; try reflexivity. destruct (e_item e); try reflexivity. discriminate.
    - assert (E : is_command [tx "caption"; tx "centering"] p = false).
      { destruct p as [e| |]; try reflexivity. unfold is_command, is_item. cbn in Ec. destruct (e_item e); try reflexivity. discriminate Ec. }
      rewrite E. destruct x as [k tt|k ch]; cbn in Ek; subst k; cbn [is_named_arg]; destruct (pkind p); try reflexivity; discriminate Ec.
  Qed.
  Definition cap_rel (t : option tree) (d : option den) : Prop :=
    match t, d with Some t, Some d => clause t d | None, None => True | _, _ => False end.
  Lemma caption_eq D e ps : is_named_arg e = COk false -> Forall2 piece_of ps D -> forall o d, cap_rel o d ->
    exists o', find_caption (D ++ [e]) o = COk o' /\
      cap_rel o' (fold_left (fun o p => match p with PItem e => if is_command [tx "caption"] p then hd_error (e_args e) else o | _ => o end) ps d) /\
      (forall n t, (o = Some t -> height t < n) -> Forall (fun t => height t < n) D -> o' = Some t -> height t < n).
  Proof.
    intros He H. induction H as [|p x ps D Hp H IH]; intros o d Hr.
    { exists o. cbn [app find_caption]. rewrite He. cbn [cbind]. split; [reflexivity|]. split; [exact Hr|]. auto. }
    cbn [app find_caption fold_left]. rewrite (named_eq _ _ Hp). cbn [cbind].
    set (d1 := match p with PItem e => if is_command [tx "caption"] p then hd_error (e_args e) else d | _ => d end).
    assert (Hno : is_command [tx "caption"] p = false -> d1 = d). { intros E. unfold d1. destruct p; try reflexivity. now rewrite E. }
    assert (Hskip : d1 = d -> exists o', find_caption (D ++ [e]) o = COk o' /\
      cap_rel o' (fold_left (fun o p => match p with PItem e => if is_command [tx "caption"] p then hd_error (e_args e) else o | _ => o end) ps d1) /\
      (forall n t, (o = Some t -> height t < n) -> Forall (fun t => height t < n) (x :: D) -> o' = Some t -> height t < n)).
    { intros ->. destruct (IH o d Hr) as (o' & H1 & H2 & H3). exists o'. split; [exact H1|]. split; [exact H2|]. intros n t Ht Hf. inversion Hf; subst. now apply (H3 n t). }
    destruct (is_command [tx "caption"; tx "centering"] p) eqn:Ec.
    - assert (Ep : exists e0, p = PItem e0) by (destruct p; [eauto|discriminate Ec|discriminate Ec]). destruct Ep as [e0 Ep].
      destruct (command_in _ _ _ Ec Ep) as (n & l & Ei & Hn & Epn).
      assert (Ekind : tkind x = ItemCmd) by (rewrite (po_kind _ _ Hp), Ep; cbn; now rewrite Ei).
      destruct (po_cmd _ _ Hp Ekind) as (Hnode & En & _). rewrite En. cbn [cbind]. rewrite tail1_small by reflexivity. cbn [cbind]. rewrite Epn.
      assert (Eis : is_command [tx "caption"] p = teqb n (tx "caption")) by (rewrite Ep; unfold is_command, is_item; rewrite Ei; cbn [existsb]; apply orb_false_r).
      destruct (teqb n (tx "caption")) eqn:Et; [|apply Hskip, Hno, Eis].
      apply teqb_eq in Et. destruct (po_args _ _ Hp e0 Ep) as [Ha Hne]. { rewrite Ep. unfold is_cmd, is_item. now rewrite Ei. }
      assert (Ed : d1 = hd_error (e_args e0)) by (unfold d1; rewrite Eis, Ep; reflexivity).
      destruct (arguments x) as [|a ar] eqn:Eargs, (e_args e0) as [|da dr]; try (now inversion Ha); [exfalso; apply Hne; [congruence|reflexivity]|].
      inversion Ha as [|? ? ? ? Ha0 _]; subst. cbn [hd_error unwrap cbind].
      destruct (IH (Some a) (Some da) Ha0) as (o' & H1 & H2 & H3). exists o'. split; [exact H1|]. split; [rewrite Ed; exact H2|].
      intros m t Ht Hf Eo. inversion Hf as [|? ? Hxm HDm]; subst. apply (H3 m t); [|exact HDm|reflexivity]. intros E. injection E as <-.
      assert (Hin : In a (children x)).
      { assert (X : In a (arguments x)) by (rewrite Eargs; now left). unfold arguments, nodes_of in X. now apply filter_In in X as [X _]. }
      destruct x as [k tt|k ch]; [discriminate Hnode|]. pose proof (height_child k ch a Hin). lia.
    - apply Hskip, Hno. destruct p as [e0| |]; try reflexivity. unfold is_command, is_item in *. destruct (e_item e0); try reflexivity. cbn [existsb] in *. apply orb_false_iff in Ec as [-> _]. reflexivity.
  Qed.

  Lemma figure_thread n c ps D e : okc c -> is_begin_end e = true -> Forall2 piece_of ps D -> Forall (fun t => height t < n) D -> forall s,
    each (figure_child (convert n)) (D ++ [e]) (cs c s) =
    lift c (alld (map (fun p => if is_command [tx "caption"; tx "centering"] p then idd else piece_den sp p) ps) c s).
  Proof.
    intros Hc He H. induction H as [|p x ps D Hp H IH]; intros Hh s.
    { cbn [app each]. unfold figure_child. rewrite He. reflexivity. }
    inversion Hh as [|? ? Hx Hh']; subst. specialize (IH Hh'). cbn [app each map].
    match goal with |- _ = lift c (alld (?a :: ?l) c s) => change (alld (a :: l) c s) with (seqd a (alld l) c s) end. rewrite seqd_eq.
    unfold figure_child at 1. rewrite (piece_clause _ _ Hp), (named_eq _ _ Hp). cbn [cbind].
    destruct (is_command [tx "caption"; tx "centering"] p).
    - unfold idd, say. cbn [cbind]. rewrite IH. destruct (alld _ c s) as [[s1 o1]| | |]; reflexivity.
    - rewrite (po_means _ _ Hp n c s Hc Hx). destruct (piece_den sp p c s) as [[s1 o1]| | |]; try reflexivity. cbn [lift cbind]. rewrite IH.
      destruct (alld _ c s1) as [[s2 o2]| | |]; reflexivity.
  Qed.
  Lemma env_means name xs D name' args body b : Forall2 argm xs args -> trim name = name ->
    (forall shape, get_env sp name = Some shape -> en_feature shape = FTable -> match args with (_, IGroup _) :: _ => True | _ => False end) ->
    Forall2 piece_of (parts sp body) D ->
    means (env_node name xs D name') (typ sp (IEnv name args body name') b).
  Proof.
    intros Ha Ht Hf HP n c s Hc Hh. pose proof (pieces_means _ _ HP) as H. pose proof (pieces_clause _ _ HP) as Hb. destruct n as [|n]; [lia|]. pose proof (kids _ _ _ Hh) as Hd. clear Hh. inversion Hd as [|? ? Hbg Hd']; subst. clear Hd.
    apply Forall_app in Hd' as [Hd _].
    assert (Hxs : Forall (fun t => height t < n) (map arg_node xs)).
    { destruct n as [|n']; [lia|]. apply kids in Hbg. inversion Hbg as [|? ? _ X]. eapply Forall_impl; [|exact X]. intros t. cbn beta. lia. }
    pose proof (argm_clause _ _ Ha) as Hcl.
    change (convert (S n) (env_node name xs D name') (cs c s)) with (convert_env sp (convert n) (env_node name xs D name') (cs c (fresh s))).
    unfold convert_env. assert (En : env_name_tok (env_node name xs D name') = Some name) by reflexivity. rewrite En. cbn [unwrap cbind]. rewrite Ht.
    rewrite (body_env name xs D name' Hb).
    assert (Ea : env_arguments (env_node name xs D name') = map arg_node xs) by (unfold env_arguments, env_begin, nodes_of; cbn; exact (args_all xs)).
    rewrite Ea.
    assert (T : typ sp (IEnv name args body name') b c s =
      match get_env sp name with
      | None => CErr (EUnknownEnv name)
      | Some shape =>
        let tn := match en_alias shape with Some a => a | None => name end in
        let m := x_mode c in
        let now := fresh s in
        match en_feature shape with
        | FItemize => list_den sp (parts sp body) (Ctx m EItemize (x_ind c + 2)) now
        | FEnumerate => list_den sp (parts sp body) (Ctx m EEnumerate (x_ind c + 2)) now
        | FNone => with_label m (around (tx "#" ++ tn ++ tx "[") (list_den sp (parts sp body)) (tx "];") (Ctx m ENone (x_ind c)) now)
        | FMath | FMatrix | FCases =>
          let k := match en_feature shape with FMatrix => EMatrix | FCases => ECases | _ => EMath end in
          with_label m
            (around ((match m with MText => tx "$ " | MMath => [] end) ++ tn ++ tx "(")
               (seqd (args_out (fun n _ => tx "arg" ++ dec (N.of_nat n) ++ tx ": ") (fun _ _ => tx ",") 0 (dens args)) (list_den sp (parts sp body)))
               (tx ")" ++ match m with MText => tx " $" | MMath => [] end) (Ctx MMath k (x_ind c)) now)
        | FFigure =>
          with_label m (figure_out sp tn (parts sp body) (Ctx m EFigure (x_ind c)) now)
        | FTable =>
          with_label m (table_out sp tn (match args with (_, a) :: _ => trim (inner a) | [] => [] end) (parts sp body) (Ctx m ETable (x_ind c)) now)
        end
      end) by reflexivity.
    rewrite T. clear T En. set (body_den := list_den sp (parts sp body)) in *.
    destruct (get_env sp name) as [shape|] eqn:Eg; [|reflexivity]. specialize (Hf _ eq_refl).
    change (alias_or (en_alias shape) name) with (match en_alias shape with Some a => a | None => name end).
    set (tn := match en_alias shape with Some a => a | None => name end). change (c_env (cs c (fresh s))) with (x_env c).
    assert (Efl : forall s1 o, (let '(s2, ol) := flush_label (cs c s1) in COk (s2, o ++ ol)) = lift c (with_label (x_mode c) (COk (s1, o)))).
    { intros s1 o. unfold flush_label, with_label. cbn. destruct (x_mode c), (snd s1); cbn; rewrite ?app_nil_r; reflexivity. }
    (* mathematics *)
    assert (Emath : forall k, is_list_env k = false ->
      (let! (s0, o) := 
         (let with_dollar := negb (is_math (cs c (fresh s))) in
            let prev_mode := c_mode (cs c (fresh s)) in
            let s := set_mode MMath (enter_env k (cs c (fresh s))) in
            let! (s, o1) := named_args (convert n) 0 (map arg_node xs) s in
            let! (s, o2) := each (convert n) D s in
            let! s := exit_env (x_env c) s in
            let s := if with_dollar then set_mode prev_mode s else s in
            COk (s, (if with_dollar then tx "$ " else []) ++ tn ++ tx "(" ++ o1 ++ o2 ++ tx ")"
                    ++ (if with_dollar then tx " $" else []))) in
       let '(s2, ol) := flush_label s0 in COk (s2, o ++ ol)) =
      lift c (with_label (x_mode c)
            (around ((match x_mode c with MText => tx "$ " | MMath => [] end) ++ tn ++ tx "(")
               (seqd (args_out (fun n _ => tx "arg" ++ dec (N.of_nat n) ++ tx ": ") (fun _ _ => tx ",") 0 (dens args)) body_den)
               (tx ")" ++ match x_mode c with MText => tx " $" | MMath => [] end) (Ctx MMath k (x_ind c)) (fresh s)))).
    { intros k Hk. set (c' := Ctx MMath k (x_ind c)). cbv zeta.
      assert (Hc' : okc c') by (unfold okc; cbn; intros X; congruence).
      assert (Ee : set_mode MMath (enter_env k (cs c (fresh s))) = cs c' (fresh s)) by (unfold set_mode, enter_env, cs; cbn; rewrite Hk, Nat.add_0_r; reflexivity).
      rewrite Ee, (named_thread n c' Hc' _ _ Hcl 0 (fresh s) Hxs). rewrite around_eq, seqd_eq. destruct (args_out _ _ 0 (dens args) c' (fresh s)) as [[s1 o1]| | |]; try reflexivity. cbn [lift cbind].
      rewrite (H n c' s1 Hc' Hd). destruct (body_den c' s1) as [[s2 o2]| | |]; try reflexivity. cbn [lift cbind].
      assert (Ex : exit_env (x_env c) (cs c' s2) = COk (cs (Ctx MMath (x_env c) (x_ind c)) s2)) by (unfold exit_env; cbn; rewrite Hk; reflexivity).
      rewrite Ex. cbn [cbind]. unfold is_math. change (c_mode (cs c (fresh s))) with (x_mode c).
      assert (Em : (if negb match x_mode c with MMath => true | MText => false end then set_mode (x_mode c) (cs (Ctx MMath (x_env c) (x_ind c)) s2) else cs (Ctx MMath (x_env c) (x_ind c)) s2) = cs c s2)
        by (destruct c as [m e ind]; cbn; destruct m; reflexivity).
      rewrite Em, Efl. apply lift_eq. f_equal. unfold say. cbn [cbind]. f_equal. f_equal. destruct (x_mode c); cbn; rewrite ?app_nil_r, <- ?app_assoc; cbn; rewrite <- ?app_assoc; reflexivity. }
    assert (Elist : forall k, is_list_env k = true ->
      (let! (s0, o) := each (convert n) D (enter_env k (cs c (fresh s))) in let! s1 := exit_env (x_env c) s0 in COk (s1, o)) =
      lift c (body_den (Ctx (x_mode c) k (x_ind c + 2)) (fresh s))).
    { intros k Hk. set (c' := Ctx (x_mode c) k (x_ind c + 2)). assert (Hc' : okc c') by (unfold okc; cbn; lia).
      assert (Ee : enter_env k (cs c (fresh s)) = cs c' (fresh s)) by (unfold enter_env, cs; cbn; rewrite Hk; reflexivity).
      rewrite Ee, (H n c' (fresh s) Hc' Hd). destruct (body_den c' (fresh s)) as [[s2 o2]| | |]; try reflexivity. cbn [lift cbind].
      assert (Ex : exit_env (x_env c) (cs c' s2) = COk (cs c s2)).
      { unfold exit_env, c'. cbn [cs c_env c_indent c_mode c_label c_skip x_env x_mode x_ind]. rewrite Hk. destruct (Nat.ltb_spec (x_ind c + 2) 2); [lia|].
        replace (x_ind c + 2 - 2) with (x_ind c) by lia. reflexivity. }
      rewrite Ex. reflexivity. }
    assert (Hlast : is_begin_end (end_node name') = true) by reflexivity.
    cbv zeta. unfold env_of_feature in *. destruct (en_feature shape) eqn:Efe; cbn [is_list_env is_math_env].
    - (* plain *)
      assert (Ee : enter_env ENone (cs c (fresh s)) = cs (Ctx (x_mode c) ENone (x_ind c)) (fresh s)) by (unfold enter_env, cs; cbn; rewrite Nat.add_0_r; reflexivity).
      rewrite Ee, (H n _ (fresh s)) by (try exact Hd; intros X; discriminate X). rewrite around_eq.
      destruct (body_den _ (fresh s)) as [[s2 o2]| | |]; try reflexivity. cbn [lift cbind].
      change (exit_env (x_env c) (cs (Ctx (x_mode c) ENone (x_ind c)) s2)) with (COk (mk_cst (x_mode c) (x_env c) (x_ind c) (snd s2) (fst s2))). cbn [cbind].
      change (mk_cst (x_mode c) (x_env c) (x_ind c) (snd s2) (fst s2)) with (cs c s2). rewrite Efl. unfold say. apply lift_eq. f_equal. f_equal. f_equal. rewrite <- !app_assoc. reflexivity.
    - exact (Emath EMath eq_refl).
    - exact (Emath EMatrix eq_refl).
    - exact (Emath ECases eq_refl).
    - (* figure *)
      unfold convert_env_figure. set (c' := Ctx (x_mode c) EFigure (x_ind c)).
      assert (Hc' : okc c') by (intros X; discriminate X).
      assert (Ec : exists o, find_caption (children (env_node name xs D name')) None = COk o /\ cap_rel o (caption (parts sp body)) /\ (forall t, o = Some t -> height t < n)).
      { destruct (caption_eq D (end_node name') (parts sp body) eq_refl HP None None I) as (o & H1 & H2 & H3). exists o. split; [|split; [exact H2|]].
        - cbn [env_node children find_caption]. change (is_named_arg (begin_node name xs)) with (@COk bool false). cbn [cbind]. exact H1.
        - intros t. apply H3; [discriminate|exact Hd]. }
      destruct Ec as (o & -> & Hr & Ho). cbn [cbind].
      assert (Ee : enter_env EFigure (cs c (fresh s)) = cs c' (fresh s)) by (unfold enter_env, cs; cbn; rewrite Nat.add_0_r; reflexivity).
      rewrite Ee. unfold figure_out. rewrite seqd_eq.
      assert (Ebody : forall s1, each (figure_child (convert n)) (children (env_node name xs D name')) (cs c' s1) =
        lift c' (alld (map (fun p => if is_command [tx "caption"; tx "centering"] p then idd else piece_den sp p) (parts sp body)) c' s1)).
      { intros s1. cbn [env_node children each]. unfold figure_child at 1. change (is_begin_end (begin_node name xs)) with true. cbv iota. cbn [cbind].
        rewrite (figure_thread n c' _ _ _ Hc' Hlast HP Hd s1). destruct (alld _ c' s1) as [[s2 o2]| | |]; reflexivity. }
      assert (Efin : forall s1 o1,
        (let! (s0, o0) := (let! (s0, o2) := each (figure_child (convert n)) (children (env_node name xs D name')) (cs c' s1) in
           let! s2 := exit_env (x_env c) s0 in COk (s2, tx "#" ++ tn ++ tx "(" ++ o1 ++ tx ")[" ++ o2 ++ tx "];")) in
         let '(s2, ol) := flush_label s0 in COk (s2, o0 ++ ol)) =
        lift c (with_label (x_mode c) (let! (s2, o2) := around [] (alld (map (fun p => if is_command [tx "caption"; tx "centering"] p then idd else piece_den sp p) (parts sp body))) (tx "];") c' s1 in
          say s2 ((tx "#" ++ tn ++ tx "(" ++ o1 ++ tx ")[") ++ o2)))).
      { intros s1 o1. rewrite Ebody, around_eq. destruct (alld _ c' s1) as [[s2 o2]| | |]; try reflexivity. cbn [lift cbind].
        change (exit_env (x_env c) (cs c' s2)) with (COk (cs c s2)). cbn [cbind]. rewrite Efl. unfold say. cbn [cbind]. apply lift_eq. f_equal. f_equal. f_equal. cbn [app]. rewrite <- !app_assoc. reflexivity. }
      destruct o as [t|], (caption (parts sp body)) as [d|]; try contradiction.
      + cbn in Hr. rewrite (clause_means' _ _ Hr n c' (fresh s) Hc' (Ho t eq_refl)). rewrite around_eq. change (fresh (fresh s)) with (fresh s).
        destruct (d c' (fresh s)) as [[s1 o1]| | |]; try reflexivity. cbn [lift cbind].
        specialize (Efin s1 (tx "caption: [" ++ o1 ++ tx "],")). etransitivity; [exact Efin|]. apply lift_eq. f_equal.
        unfold say at 2. cbn [cbind]. rewrite around_eq. destruct (alld _ c' s1) as [[s2 o2]| | |]; try reflexivity. unfold say. cbn [cbind]. f_equal. f_equal. cbn [app]. rewrite <- ?app_assoc. cbn [app]. rewrite <- ?app_assoc. reflexivity.
      + cbn [cbind]. specialize (Efin (fresh s) []). etransitivity; [exact Efin|]. apply lift_eq. f_equal.
    - (* table *)
      specialize (Hf eq_refl). destruct args as [|[g a] args]; [contradiction|]. destruct a; try contradiction. inversion Ha as [|x ? xs' ? Hx Ha']; subst.
      unfold convert_env_table. rewrite Ea. cbn [map hd_error unwrap cbind]. rewrite (arg_text _ _ Hx). cbn [snd stext].
      rewrite (strip_ends_quoted _ 123%N (flat_map stext l) 125%N) by reflexivity. cbn [cbind inner]. set (cols := trim (flat_map stext l)).
      rewrite columns_eq. unfold table_out. destruct (find bad_column cols) as [ch|] eqn:Ebad; [reflexivity|]. cbn [cbind]. rewrite map_add_0.
      set (c' := Ctx (x_mode c) ETable (x_ind c)). assert (Hc' : okc c') by (intros X; discriminate X).
      assert (Ee : enter_env ETable (cs c (fresh s)) = cs c' (fresh s)) by (unfold enter_env, cs; cbn; rewrite Nat.add_0_r; reflexivity).
      rewrite Ee. change (children (env_node name (x :: xs') D name')) with (begin_node name (x :: xs') :: D ++ [end_node name']).
      change (table_cells (convert n) true (begin_node name (x :: xs') :: D ++ [end_node name']) (cs c' (fresh s))) with (table_cells (convert n) true (D ++ [end_node name']) (cs c' (fresh s))).
      rewrite (cells_thread n c' _ _ _ Hc' Hlast HP Hd true (fresh s)), around_eq. cbn [negb].
      destruct (cells sp false (parts sp body) c' (fresh s)) as [[s1 o1]| | |]; try reflexivity. cbn [lift cbind].
      change (exit_env (c_env (cs c (fresh s))) (cs c' s1)) with (COk (cs c s1)). cbn [cbind]. rewrite Efl. unfold say. apply lift_eq. f_equal. f_equal. f_equal.
      unfold table_head. rewrite (align_eq _ Ebad). rewrite <- !app_assoc. reflexivity.
    - exact (Elist EItemize eq_refl).
    - exact (Elist EEnumerate eq_refl).
  Qed.
  Lemma env_item name xs D name' args body : Forall2 argm xs args -> trim name = name ->
    (forall shape, get_env sp name = Some shape -> en_feature shape = FTable -> match args with (_, IGroup _) :: _ => True | _ => False end) ->
    Forall2 piece_of (parts sp body) D ->
    item_of (IEnv name args body name') (env_node name xs D name').
  Proof.
    intros Ha Ht Hf H. apply item_of_intro; [|  |reflexivity|discriminate].
    - now apply env_means.
    - cbn [stext]. rewrite <- (args_text _ _ Ha). change (tree_text (env_node name xs D name')) with ((name ++ flat_map tree_text (map arg_node xs)) ++ flat_map tree_text (D ++ [end_node name'])).
      rewrite flat_map_app, (pieces_text _ _ H), (proj1 (parts_facts body)). cbn [flat_map end_node tree_text]. rewrite !app_nil_r, <- !app_assoc. reflexivity.
  Qed.
End Conv.
