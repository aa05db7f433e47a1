(** C30, C31: what becomes of ordinary text and of formulas without commands. *)
From Verif Require Export LexSpec P_Lex ConvSpec ConvTerm P_Conv3 P_Conv4 ParserPlain.
From Verif Require Import P_Macro.
Local Open Scope N_scope.

(* ------------------------------------------------------------------ *)
(** ** Specification, character by character *)
Definition eolb (c : char) : bool := (c =? 10) || (c =? 13).
(** marks that mean something in Typst are escaped, but [&] and ['] are kept;
    in formulas the tilde is a non-breaking space and every other character is
    followed by a blank *)
Definition shown (m : mode) (c : char) : text :=
  if existsb (N.eqb c) (34 :: tx ",/^_#*@;()[]") then [92; c]
  else if c =? 126 then match m with MText => tx "\~" | MMath => tx "space.nobreak " end
  else if existsb (N.eqb c) (tx "&'") then [c]
  else match m with MText => [c] | MMath => [c; 32] end.
(** where we are: inside a line, at its beginning (only blanks since the line
    break), in a comment *)
Inductive place := Inside | Beginning | Remark.
Fixpoint rendered (m : mode) (p : place) (s : text) : text :=
  match s with
  | [] => []
  | c :: r =>
    if eolb c then c :: rendered m Beginning r
    else match p with
         | Remark => rendered m Remark r
         | _ =>
           if c =? 37 then rendered m Remark r
           else if is_whitespace c then
             match p with Beginning => rendered m Beginning r | _ => c :: rendered m Inside r end
           else shown m c ++ rendered m Inside r
         end
  end.

(* ------------------------------------------------------------------ *)
(** ** Leaves *)
Definition leaf_out (m : mode) (sk : bool) (l : kind * text) : bool * text :=
  match fst l with
  | TokenWhiteSpace => (false, if sk then [] else snd l)
  | TokenLineBreak => (true, snd l)
  | TokenComment => (false, [])
  | TokenWord => (false, match m with MText => snd l | MMath => flat_map (fun c => [c; 32]) (snd l) end)
  | TokenApostrophe => (false, tx "'")
  | TokenComma => (false, tx "\,")
  | TokenSlash => (false, tx "\/")
  | TokenCaret => (false, tx "\^")
  | TokenUnderscore => (false, tx "\_")
  | TokenHash => (false, tx "\#")
  | TokenAsterisk => (false, tx "\*")
  | TokenAtSign => (false, tx "\@")
  | TokenDitto => (false, [92; 34])
  | TokenSemicolon => (false, tx "\;")
  | TokenLParen => (false, tx "\(")
  | TokenRParen => (false, tx "\)")
  | TokenLBracket => (false, tx "\[")
  | TokenRBracket => (false, tx "\]")
  | TokenTilde => (false, match m with MText => tx "\~" | MMath => tx "space.nobreak " end)
  | TokenAmpersand => (false, tx "&")
  | _ => (false, [])
  end.
Fixpoint leaves_out (m : mode) (sk : bool) (ls : list (kind * text)) : bool * text :=
  match ls with
  | [] => (sk, [])
  | l :: r => let (sk1, o1) := leaf_out m sk l in let (sk2, o2) := leaves_out m sk1 r in (sk2, o1 ++ o2)
  end.
Lemma leaves_out_app m ls ls' : forall sk, leaves_out m sk (ls ++ ls') =
  let (sk1, o1) := leaves_out m sk ls in let (sk2, o2) := leaves_out m sk1 ls' in (sk2, o1 ++ o2).
Proof.
  induction ls as [|l ls IH]; intros sk; cbn [leaves_out app]; [now destruct (leaves_out m sk ls')|].
  destruct (leaf_out m sk l) as [sk1 o1]. rewrite IH. destruct (leaves_out m sk1 ls) as [sk2 o2]. destruct (leaves_out m sk2 ls') as [sk3 o3].
  now rewrite app_assoc.
Qed.
Lemma leaves_out_skip m k s ls sk sk' : k <> TokenWhiteSpace -> leaves_out m sk ((k, s) :: ls) = leaves_out m sk' ((k, s) :: ls).
Proof. intros H. cbn [leaves_out]. unfold leaf_out. cbn [fst]. destruct k; try reflexivity. contradiction. Qed.
Lemma first_leaf t k s : first_token t = Some (k, s) -> exists r, leaves t = (k, s) :: r.
Proof.
  induction t as [k' s'|k' ch IH] using tree_ind2; cbn [first_token]; [intros [= -> ->]; cbn; eauto|].
  destruct ch as [|c ch]; [discriminate|]. intros H. inversion IH as [|? ? H1 H2]. subst. destruct (H1 H) as [r E]. cbn. rewrite E. cbn. eauto.
Qed.

(** ** Conversion of plain trees *)
Section Conv.
  Variable ok : token -> Prop.
  Hypothesis Hok : forall k, ok k -> plain k = true.
  Variable m : mode.
  Hypothesis Hm : m = MMath -> ~ ok Underscore /\ ~ ok Caret.
  Variable sp : spec.
  Definition outer (s : cst) : Prop := c_mode s = m /\ c_env s = ENone /\ c_indent s = 0%nat.
  Definition cout_of (s : cst) (r : bool * text) : cout := COk (set_skip (fst r) s, snd r).

  Lemma leaf_conv n k x s : ok k -> outer s ->
    convert sp (S n) (Leaf (kind_of_token k) x) s = cout_of s (leaf_out m (c_skip s) (kind_of_token k, x)).
  Proof.
    intros H (E1 & E2 & E3). apply Hok in H. destruct s as [md en ind lb sk]. cbn in E1, E2, E3. subst md en ind.
    destruct k; try discriminate H; try (destruct b; try discriminate H); cbn; try reflexivity.
    - unfold cout_of, leaf_out. cbn. now rewrite app_nil_r.
    - destruct sk; reflexivity.
    - destruct m; reflexivity.
    - destruct m; reflexivity.
  Qed.
  Lemma each_conv f l : forall s, (forall t, In t l -> forall s, outer s -> f t s = cout_of s (leaves_out m (c_skip s) (leaves t))) -> outer s ->
    each f l s = cout_of s (leaves_out m (c_skip s) (flat_map leaves l)).
  Proof.
    induction l as [|t l IH]; intros s H Hs; cbn [each flat_map leaves_out].
    - destruct s; reflexivity.
    - rewrite (H t (or_introl eq_refl) s Hs). rewrite leaves_out_app. destruct (leaves_out m (c_skip s) (leaves t)) as [sk1 o1]. unfold cout_of. cbn [fst snd cbind].
      rewrite IH; [|intros u Hu; apply H; now right|exact Hs]. cbn [c_skip set_skip].
      destruct (leaves_out m sk1 (flat_map leaves l)) as [sk2 o2]. unfold cout_of. cbn. reflexivity.
  Qed.
  Lemma attach_no_marks f l : (forall t, In t l -> ~ script_mark t) -> forall b s, attach_loop f true b l s = each f l s.
  Proof.
    induction l as [|t l IH]; intros H b s; [reflexivity|]. assert (Ht : ~ script_mark t) by (apply H; now left).
    assert (E : forall b', (let! (s0, o1) := f t s in let! (s1, o2) := attach_loop f true b' l s0 in COk (s1, o1 ++ o2)) = each f (t :: l) s).
    { intros b'. cbn [each]. destruct (f t s) as [[s1 o1]| | |]; try reflexivity. cbn [cbind]. rewrite IH; [reflexivity|]. intros u Hu. apply H. now right. }
    cbn [attach_loop]. destruct t as [k x|k ch]; [|apply E]. destruct k; try apply E; elim Ht; exact I.
  Qed.
  Lemma good_conv t : good ok t -> forall n s, (height t <= n)%nat -> outer s ->
    convert sp n t s = cout_of s (leaves_out m (c_skip s) (leaves t)).
  Proof.
    induction t as [k x|k ch IH] using tree_ind2; intros G n s Hn Hs.
    - destruct n as [|n]; [cbn in Hn; lia|]. inversion G as [k' x' Hk E1|]. subst. rewrite leaf_conv by assumption. cbn [leaves leaves_out].
      destruct (leaf_out m (c_skip s) (kind_of_token k', x)) as [sk o]. now rewrite app_nil_r.
    - inversion G as [|k' x r Hk Hx Hg]. subst. destruct n as [|n]; [cbn in Hn; lia|].
      assert (HC : forall t, In t (x :: r) -> forall s, outer s -> convert sp n t s = cout_of s (leaves_out m (c_skip s) (leaves t))).
      { intros t Ht s' Hs'. rewrite Forall_forall in IH, Hg. apply IH; auto. apply (height_child k (x :: r)) in Ht. lia. }
      assert (E : each (convert sp n) (x :: r) (set_skip false s) = cout_of s (leaves_out m (c_skip s) (leaves (Node k (x :: r))))).
      { rewrite each_conv; [|exact HC|exact Hs]. destruct Hx as (k1 & s1 & F1 & F2). apply first_leaf in F1 as [r1 F1].
        cbn [leaves flat_map]. rewrite F1. cbn [app]. rewrite (leaves_out_skip m k1 s1 _ _ (c_skip s)) by exact F2. destruct s; reflexivity. }
      cbn [convert]. unfold convert_step. cbn [tkind]. repeat destruct Hk as [<- |Hk]; try contradiction; cbv zeta; cbn [node_children cbind]; try exact E.
      unfold convert_attach_component. cbn [node_children cbind]. destruct (is_math (set_skip false s)) eqn:Em; [|exact E].
      rewrite attach_no_marks; [exact E|]. intros t Ht. rewrite Forall_forall in Hg. apply Hg in Ht.
      assert (m = MMath) as Emm. { destruct Hs as (<- & _). unfold is_math in Em. cbn in Em. now destruct (c_mode s). }
      destruct (Hm Emm) as [M1 M2]. inversion Ht as [k2 x2 Hk2 E2|]; [|auto]. subst. intros Hsm.
      pose proof (Hok _ Hk2) as Hpl. destruct k2; try contradiction; try discriminate Hpl; try (destruct b; contradiction).
  Qed.
End Conv.

(* ------------------------------------------------------------------ *)
(** ** The whole tree *)
Lemma root_conv (ok : token -> Prop) (Hok : forall k, ok k -> plain k = true) m (Hm : m = MMath -> ~ ok Underscore /\ ~ ok Caret) sp ch :
  Forall (good ok) ch -> convert_tree sp m (Node ScopeRoot ch) = COk (snd (leaves_out m false (flat_map leaves ch))).
Proof.
  intros H. unfold convert_tree. cbn [convert]. unfold convert_step. cbn [tkind]. cbv zeta. cbn [node_children cbind].
  rewrite (each_conv m (convert sp (height (Node ScopeRoot ch))) ch).
  - unfold cout_of. cbn [cbind c_skip set_skip cst_new]. reflexivity.
  - intros t Ht s Hs. rewrite Forall_forall in H. apply (good_conv ok Hok m Hm sp t (H _ Ht)); [|exact Hs].
    apply (height_child ScopeRoot) in Ht. lia.
  - destruct m; repeat split.
Qed.
(** ** Cutting words in pieces changes nothing *)
Lemma spells_out m T ts ls : spells T ts ls -> ~ T -> Forall (fun t => plain (fst t) = true) ts -> forall sk,
  leaves_out m sk ls = leaves_out m sk (map (fun t => (kind_of_token (fst t), snd t)) ts).
Proof.
  intros H HT. induction H as [|t ts ls H IH|s ts ls H IH|a b ts ls Ha H IH|t ts ls Hd H IH]; intros Hp sk; [reflexivity|..].
  - inversion Hp; subst. cbn [map leaves_out]. destruct (leaf_out m sk _) as [sk1 o1]. now rewrite IH.
  - inversion Hp; subst. discriminate.
  - assert (Hp' : Forall (fun t : tok => plain (fst t) = true) ((Word, b) :: ts)) by (inversion Hp; subst; now constructor).
    cbn [leaves_out leaf_out fst snd]. rewrite IH by exact Hp'. cbn [map leaves_out leaf_out fst snd kind_of_token].
    destruct (leaves_out m false _) as [sk1 o1]. f_equal.
    destruct m; rewrite ?flat_map_app; now rewrite app_assoc.
  - inversion Hp as [|? ? Hk _]; subst. destruct Hd as [Hb|(_ & Ht & _)]; [|contradiction].
    destruct Hb as [E|[E|E]]; rewrite E in Hk; discriminate.
Qed.

(* ------------------------------------------------------------------ *)
(** ** Tokens of a source without commands, groups and formulas *)
Definition bare (m : mode) (src : text) : Prop :=
  forall c, In c src -> ~ In c (tx "\{}$") /\ (m = MMath -> ~ In c (tx "_^")).
Definition okm (m : mode) (k : token) : Prop := plain k = true /\ (m = MMath -> k <> Underscore /\ k <> Caret).
Lemma eolb_eol c : eolb c = true <-> eol c.
Proof. unfold eolb, eol. rewrite Bool.orb_true_iff, !N.eqb_eq. tauto. Qed.
Lemma eolb_not c : ~ eol c -> eolb c = false.
Proof. intros H. destruct (eolb c) eqn:E; [|reflexivity]. apply eolb_eol in E. contradiction. Qed.
Lemma rendered_begin m r : ~ starts blank r -> rendered m Beginning r = rendered m Inside r.
Proof.
  destruct r as [|c r]; [reflexivity|]. cbn [starts rendered]. intros H. destruct (eolb c) eqn:E; [reflexivity|].
  destruct (c =? 37); [reflexivity|]. destruct (is_whitespace c) eqn:Ew; [|reflexivity]. elim H. split; [exact Ew|].
  rewrite <- eolb_eol, E. discriminate.
Qed.
Lemma rendered_remark m p r : r = [] \/ starts eol r -> rendered m Remark r = rendered m p r.
Proof. intros [-> |H]; [reflexivity|]. destruct r as [|c r]; [contradiction|]. apply eolb_eol in H. cbn [rendered]. now rewrite H. Qed.
Lemma rendered_eol m raw rest : all eol raw -> forall p, raw <> [] -> rendered m p (raw ++ rest) = raw ++ rendered m Beginning rest.
Proof.
  intros H. induction H as [|c raw Hc H IH]; intros p Hn; [contradiction|]. apply eolb_eol in Hc. cbn [rendered app]. rewrite Hc. f_equal.
  destruct raw as [|d raw]; [reflexivity|]. now apply IH.
Qed.
Lemma rendered_blank m raw rest : all blank raw -> 
  rendered m Inside (raw ++ rest) = raw ++ rendered m Inside rest /\ rendered m Beginning (raw ++ rest) = rendered m Beginning rest.
Proof.
  intros H. induction H as [|c raw [Hw Hc] H [IH1 IH2]]; [auto|]. apply eolb_not in Hc. cbn [rendered app]. rewrite Hc.
  destruct (N.eqb_spec c 37) as [-> |_]; [discriminate Hw|]. rewrite Hw, IH1, IH2. auto.
Qed.
Lemma rendered_comment m body rest : all (fun c => ~ eol c) body -> rendered m Remark (body ++ rest) = rendered m Remark rest.
Proof. intros H. induction H as [|c body Hc H IH]; [reflexivity|]. cbn [rendered app]. now rewrite (eolb_not _ Hc). Qed.
Lemma wordlike_shown m c : wordlike c -> shown m c = match m with MText => [c] | MMath => [c; 32] end.
Proof.
  intros (_ & _ & H). unfold shown.
  assert (D : forall d k, In (d, k) marks -> c <> d) by (intros d k Hd ->; exact (H _ Hd)).
  assert (E : existsb (N.eqb c) (34 :: tx ",/^_#*@;()[]") = false).
  { cbn. repeat (rewrite (proj2 (N.eqb_neq _ _)); [cbn [orb]|eapply D; cbn; tauto]). reflexivity. }
  rewrite E. assert (c <> 126) as E2 by (eapply D; cbn; tauto). apply N.eqb_neq in E2. rewrite E2.
  assert (E3 : existsb (N.eqb c) (tx "&'") = false).
  { cbn. repeat (rewrite (proj2 (N.eqb_neq _ _)); [cbn [orb]|eapply D; cbn; tauto]). reflexivity. }
  now rewrite E3.
Qed.
Lemma rendered_word m raw rest : all wordlike raw -> forall p, p <> Remark -> raw <> [] ->
  rendered m p (raw ++ rest) = (match m with MText => raw | MMath => flat_map (fun c => [c; 32]) raw end) ++ rendered m Inside rest.
Proof.
  intros H. induction H as [|c raw Hc H IH]; intros p Hp Hn; [contradiction|]. cbn [rendered app].
  pose proof (wordlike_shown m c Hc) as Es. destruct Hc as (Hw & Hs & Hk).
  rewrite eolb_not by (intros [-> | ->]; discriminate Hw).
  destruct (N.eqb_spec c 37) as [-> |_]; [elim Hs; cbn; tauto|]. rewrite Hw, Es.
  assert (E : rendered m Inside (raw ++ rest) = (match m with MText => raw | MMath => flat_map (fun c => [c; 32]) raw end) ++ rendered m Inside rest).
  { destruct raw as [|d raw]; [now destruct m|]. apply IH; discriminate. }
  rewrite E. destruct p; try contradiction; destruct m; reflexivity.
Qed.
Lemma rendered_mark m c k rest p : In (c, k) marks -> ~ In c (tx "\{}$") -> p <> Remark ->
  rendered m p (c :: rest) = shown m c ++ rendered m Inside rest /\ plain k = true /\
  forall sk, leaf_out m sk (kind_of_token k, [c]) = (false, shown m c).
Proof.
  intros H Hf Hp. cbn in H. repeat (destruct H as [[= <- <-]|H]); try contradiction; try (elim Hf; cbn; tauto); (split; [destruct p; try contradiction; reflexivity|split; [reflexivity|intros sk; destruct m; reflexivity]]).
Qed.
Lemma tokens_out m sp src ts : tokens sp src ts -> bare m src ->
  Forall (fun t => okm m (fst t)) ts /\
  forall sk, snd (leaves_out m sk (map (fun t => (kind_of_token (fst t), snd t)) ts)) = rendered m (if sk then Beginning else Inside) src.
Proof.
  intros H. induction H as [|k s raw rest l Hc H IH]; intros Hb; [split; [constructor|now destruct sk]|].
  assert (Hr : bare m rest) by (intros c Hin; apply Hb, in_or_app; now right). destruct (IH Hr) as [IH1 IH2].
  assert (Hraw : forall c, In c raw -> ~ In c (tx "\{}$") /\ (m = MMath -> ~ In c (tx "_^"))) by (intros c Hin; apply Hb, in_or_app; now left).
  assert (Hcmd : forall r, raw = tx "\" ++ r -> False) by (intros r ->; elim (proj1 (Hraw 92 ltac:(now left))); cbn; tauto).
  assert (Hdol : forall r, raw = tx "$" ++ r -> False) by (intros r ->; elim (proj1 (Hraw 36 ltac:(now left))); cbn; tauto).
  assert (K : forall sk, leaves_out m sk (map (fun t : tok => (kind_of_token (fst t), snd t)) ((k, s) :: l)) =
    let (sk1, o1) := leaf_out m sk (kind_of_token k, s) in let (sk2, o2) := leaves_out m sk1 (map (fun t : tok => (kind_of_token (fst t), snd t)) l) in (sk2, o1 ++ o2)) by reflexivity.
  assert (J : okm m k -> (forall sk, snd (leaf_out m sk (kind_of_token k, s)) ++ rendered m (if fst (leaf_out m sk (kind_of_token k, s)) then Beginning else Inside) rest =
     rendered m (if sk then Beginning else Inside) (raw ++ rest)) ->
    Forall (fun t => okm m (fst t)) ((k, s) :: l) /\
    forall sk, snd (leaves_out m sk (map (fun t : tok => (kind_of_token (fst t), snd t)) ((k, s) :: l))) = rendered m (if sk then Beginning else Inside) (raw ++ rest)).
  { intros J1 J2. split; [now constructor|]. intros sk. rewrite K, <- J2. destruct (leaf_out m sk _) as [sk1 o1]. rewrite <- IH2. cbn [fst snd].
    now destruct (leaves_out m sk1 _) as [sk2 o2]. }
  clear K IH IH1 IH2 Hb Hr.
  inversion Hc; subst; try (exfalso; eapply Hcmd; reflexivity); try (exfalso; eapply Hdol; reflexivity).
  - apply J; [split; [reflexivity|split; discriminate]|]. intros sk. cbn [kind_of_token leaf_out fst snd]. now rewrite rendered_eol.
  - apply J; [split; [reflexivity|split; discriminate]|]. intros sk. cbn [kind_of_token leaf_out fst snd].
    match goal with H : all blank _ |- _ => destruct (rendered_blank m _ rest H) as [E1 E2] end. destruct sk; [rewrite E2|rewrite E1]; [|reflexivity].
    symmetry. now apply rendered_begin.
  - apply J; [split; [reflexivity|split; discriminate]|]. intros sk. cbn [kind_of_token leaf_out fst snd].
    change ((tx "%" ++ body) ++ rest) with (37 :: (body ++ rest)).
    transitivity (rendered m Remark (body ++ rest)); [|now destruct sk]. rewrite rendered_comment by assumption. symmetry. now apply rendered_remark.
  - match goal with H : In (c, k) marks |- _ => rename H into Hin end. destruct (Hraw c (or_introl eq_refl)) as [F1 F2].
    assert (X : forall sk : bool, (if sk then Beginning else Inside) <> Remark) by (intros []; discriminate).
    apply J.
    + split; [now apply (rendered_mark m c k [] Inside Hin F1)|]. intros Em. specialize (F2 Em).
      split; intros ->; cbn in Hin; repeat (destruct Hin as [Hin|Hin]; [try discriminate Hin; injection Hin as <-; apply F2; cbn; tauto|]); contradiction.
    + intros sk. destruct (rendered_mark m c k rest (if sk then Beginning else Inside) Hin F1 (X sk)) as (E1 & _ & E3).
      rewrite (E3 sk). cbn [fst snd app]. now rewrite E1.
  - apply J; [split; [reflexivity|split; discriminate]|]. intros sk. cbn [kind_of_token leaf_out fst snd]. symmetry. apply rendered_word; [assumption|now destruct sk|assumption].
Qed.

(* ------------------------------------------------------------------ *)
(** ** From sources *)
Lemma bare_ncd m src : bare m src -> no_commented_delimiter src.
Proof.
  intros H pre rest Hs. assert (In 92 src) as Hin by (destruct Hs as [-> | ->]; apply in_or_app; right; now left).
  elim (proj1 (H _ Hin)). cbn. tauto.
Qed.
Lemma plain_takes sp (t : tok) : plain (fst t) = true -> ~ takes_right sp t.
Proof. intros H [(E & _)|(E & _)]; destruct (fst t); try discriminate; try (destruct b; discriminate). Qed.
Lemma plain_left sp (t : tok) : plain (fst t) = true -> ~ takes_left sp t.
Proof.
  intros H [E _]. destruct (fst t); try discriminate; destruct b; discriminate.
Qed.
Lemma plain_scripts sp (ts : list tok) : Forall (fun t => plain (fst t) = true) ts -> scripts_ok sp ts.
Proof.
  induction 1 as [|t r Ht H IH]; cbn [scripts_ok]; [exact I|]. split; [|exact IH]. intros _.
  clear -H. induction H as [|u r Hu H IH]; [exact I|]. cbn [skip_trivia]. destruct (is_trivia (fst u)); [exact IH|]. now apply plain_left.
Qed.
Theorem bare_conversion : forall macros m page sp src, (2 <= page)%nat -> bare m src ->
  exists f0, forall fuel, (f0 <= fuel)%nat -> convert_source macros m fuel page src sp = COk (rendered m Inside src).
Proof.
  intros macros m page osp src Hp Hb. unfold convert_source, convert_inner. set (sp := match osp with Some s => s | None => DEFAULT_SPEC end). clearbody sp.
  pose proof (bare_ncd m src Hb) as Hn. pose proof (C02_no_panic_partial sp src (or_introl Hn)) as Hs.
  set (ts := stream_toks (lex_stream sp src)). pose proof (proj1 (C03_tokens sp src ts Hn) eq_refl) as Ht.
  destruct (tokens_out m sp src ts Ht Hb) as [Hok Ho].
  assert (Hpl : Forall (fun t => plain (fst t) = true) ts) by (eapply Forall_impl; [|exact Hok]; intros t Ht'; apply Ht').
  assert (Hto : tokens_of macros page sp src ts).
  { destruct macros; [|now split]. apply C08_source; [exact Hp|exact Hs|]. eapply Forall_impl; [|exact Hpl].
    intros t Hk. cbn beta in Hk. unfold inert. destruct (fst t); try exact I; discriminate Hk. }
  destruct (parse_total gm_real sp (parse_fuel ts) ts) as [t E]; [apply lex_words| |now apply plain_scripts|lia|].
  { eapply Forall_impl; [|exact Hpl]. intros u Hu. cbn beta in Hu. split; intros E; destruct (fst u); try discriminate; try (destruct b; discriminate). }
  destruct (parse_source_enough _ _ _ _ _ Hp Hto) as [f0 Hf]. exists f0. intros f L. rewrite (Hf f L), E.
  destruct (parse_plain_good (okm m) (fun k H => proj1 H) gm_real sp _ ts t Hok E) as (ch & -> & G).
  rewrite (root_conv (okm m) (fun k H => proj1 H) m) with (2 := G).
  - f_equal. rewrite <- (Ho false). f_equal. apply parse_shape in E as (_ & _ & E). refine (spells_out m _ _ _ E _ Hpl false).
    intros Hx. apply Exists_exists in Hx as (u & Hu & Hx). rewrite Forall_forall in Hpl. exact (plain_takes _ _ (Hpl _ Hu) Hx).
  - intros Em. split; intros [_ Hx]; destruct (Hx Em); auto.
Qed.

(** * C30  Text outside of formulas is reproduced *)
(** For every source without [\ { } $] (and with any other characters), text
    mode conversion succeeds, and its output is the source in which the
    characters that mean something in Typst are escaped, comments are left out,
    and so is the white space at the beginnings of the lines. *)
Theorem C30_text : forall macros page sp src, (2 <= page)%nat -> (forall c, In c src -> ~ In c (tx "\{}$")) ->
  exists f0, forall fuel, (f0 <= fuel)%nat -> convert_source macros MText fuel page src sp = COk (rendered MText Inside src).
Proof. intros macros page sp src Hp H. apply bare_conversion; [exact Hp|]. intros c Hc. split; [auto|discriminate]. Qed.
Print Assumptions C30_text.
(** letters, digits, blanks and everything else that is not special come out as they are *)
Theorem C30_unchanged : forall macros page sp src, (2 <= page)%nat ->
  (forall c, In c src -> ~ In c (34 :: 10 :: 13 :: tx "\{}$%,/^_#*@;()[]~")) ->
  exists f0, forall fuel, (f0 <= fuel)%nat -> convert_source macros MText fuel page src sp = COk src.
Proof.
  intros macros page sp src Hp H. destruct (C30_text macros page sp src Hp) as [f0 Hf].
  - intros c Hc Hin. apply (H c Hc). cbn in Hin |- *. tauto.
  - exists f0. intros f L. rewrite (Hf f L). f_equal. clear -H. induction src as [|c r IH]; [reflexivity|].
    assert (Hc := H c (or_introl eq_refl)). cbn [rendered]. rewrite IH by (intros d Hd; apply H; now right).
    assert (D : forall d, In d (34 :: 10 :: 13 :: tx "\{}$%,/^_#*@;()[]~") -> (c =? d) = false) by (intros d Hd; apply N.eqb_neq; intros ->; contradiction).
    unfold eolb. rewrite !D by (cbn; tauto). cbn [orb]. destruct (is_whitespace c); [reflexivity|]. unfold shown.
    assert (E : existsb (N.eqb c) (34 :: tx ",/^_#*@;()[]") = false).
    { cbn. rewrite !D by (cbn; tauto). reflexivity. }
    rewrite E. rewrite D by (cbn; tauto). now destruct (existsb (N.eqb c) (tx "&'")).
Qed.
Print Assumptions C30_unchanged.
Example C30_example : convert_source true MText 200 PAGE (tx "Hello, a_1 [b] & c's % bye" ++ [10] ++ tx "  #x*") None
  = COk (tx "Hello\, a\_1 \[b\] & c's " ++ [10] ++ tx "\#x\*").
Proof. vm_compute. reflexivity. Qed.

(** * C31  Characters of a formula *)
(** For every formula without [\ { } $ _ ^]: each character is output
    (escaped if need be) and set off by a blank, so that Typst reads letters
    as variables of their own and not as names. *)
Theorem C31_formula : forall macros page sp src, (2 <= page)%nat -> (forall c, In c src -> ~ In c (tx "\{}$_^")) ->
  exists f0, forall fuel, (f0 <= fuel)%nat -> convert_source macros MMath fuel page src sp = COk (rendered MMath Inside src).
Proof.
  intros macros page sp src Hp H. apply bare_conversion; [exact Hp|]. intros c Hc. apply H in Hc. cbn in Hc |- *. tauto.
Qed.
Print Assumptions C31_formula.
(** in particular with words and blanks only *)
Theorem C31_words : forall macros page sp src, (2 <= page)%nat -> (forall c, In c src -> wordlike c \/ blank c) ->
  exists f0, forall fuel, (f0 <= fuel)%nat -> convert_source macros MMath fuel page src sp =
    COk (flat_map (fun c => if is_whitespace c then [c] else [c; 32]) src).
Proof.
  intros macros page sp src Hp H. destruct (C31_formula macros page sp src Hp) as [f0 Hf].
  - intros c Hc Hin. destruct (H c Hc) as [(Hw & H1 & H2)|[Hw _]].
    + cbn in Hin. repeat (destruct Hin as [<- |Hin]); try contradiction; try (apply H1; cbn; tauto); eapply H2; cbn; tauto.
    + cbn in Hin. repeat (destruct Hin as [<- |Hin]); try contradiction; discriminate Hw.
  - exists f0. intros f L. rewrite (Hf f L). f_equal. clear -H. induction src as [|c r IH]; [reflexivity|]. cbn [rendered flat_map].
    rewrite IH by (intros d Hd; apply H; now right). destruct (H c (or_introl eq_refl)) as [Hw|[Hw He]].
    + pose proof (wordlike_shown MMath c Hw) as Es. destruct Hw as (Hw & H1 & _). rewrite eolb_not by (intros [-> | ->]; discriminate Hw).
      destruct (N.eqb_spec c 37) as [-> |_]; [elim H1; cbn; tauto|]. now rewrite Hw, Es.
    + rewrite (eolb_not _ He), Hw. destruct (N.eqb_spec c 37) as [-> |_]; [discriminate Hw|]. reflexivity.
Qed.
Print Assumptions C31_words.
Example C31_example : convert_source true MMath 200 PAGE (tx "abc+(1/2)'~x,y") None
  = COk (tx "a b c + \(1 \/2 \)'space.nobreak x \,y ").
Proof. vm_compute. reflexivity. Qed.
