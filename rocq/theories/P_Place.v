(** C79: in a formula, braces around something make (almost) no difference. *)
From Verif Require Import Api ConvSpec ConvFacts ConvTerm ParserTotal ParserSource ParserEnd ParserShape GramSpec GramSound GramComplete P_Parser P_Gram P_Conv P_Conv3 P_Conv4 RenderAll P_Render.
From Verif Require Import ShieldFacts FormulaFacts P_Shield P_Shield2 P_Formula P_Braces ShieldSpec FormulaSpec RenderFacts RenderMain RenderSpec.
Local Open Scope nat_scope.

(** ** Places that differ in the braces only *)
Definition open_env (e : env) : Prop := e = ENone \/ e = EMathCurlyGroup.
Inductive akin : place -> place -> Prop :=
| ak_same p : akin p p
| ak_open m e e' n : open_env e -> open_env e' -> akin (at_ m e n) (at_ m e' n).
Inductive similar : piece -> piece -> Prop :=
| si_same a : similar a a
| si_put p p' t : akin p p' -> similar (Put p t) (Put p' t).
Lemma similar_refl l : Forall2 similar l l.
Proof. induction l; constructor; auto using si_same. Qed.
Lemma similar_puts p p' l : akin p p' -> Forall2 similar (map (Put p) l) (map (Put p') l).
Proof. intros H. induction l; cbn [map]; constructor; auto using si_put. Qed.
Lemma similar_app a a' b b' : Forall2 similar a a' -> Forall2 similar b b' -> Forall2 similar (a ++ b) (a' ++ b').
Proof. apply Forall2_app. Qed.
Lemma similar_flat {A} (f g : A -> list piece) l : (forall x, Forall2 similar (f x) (g x)) -> Forall2 similar (flat_map f l) (flat_map g l).
Proof. intros H. induction l; cbn [flat_map]; [constructor|]. now apply similar_app. Qed.
Lemma similar_commas k p p' l : akin p p' -> Forall2 similar (commas k p l) (commas k p' l).
Proof.
  intros H. induction l as [|t l IH]; [constructor|]. cbn [commas]. destruct l; [constructor; [now constructor|constructor]|].
  constructor; [now constructor|]. apply similar_app; [apply similar_refl|exact IH].
Qed.
Lemma akin_mode p p' : akin p p' -> mode_of p = mode_of p'. Proof. now destruct 1. Qed.
Lemma akin_indent p p' : akin p p' -> indent_of p = indent_of p'. Proof. now destruct 1. Qed.
Lemma akin_within e p p' : akin p p' -> within e p = within e p'. Proof. now destruct 1. Qed.
Lemma akin_in_mode m p p' : akin p p' -> akin (in_mode m p) (in_mode m p'). Proof. destruct 1; constructor; assumption. Qed.
Lemma akin_command p p' t : akin p p' -> akin (command_place p t) (command_place p' t).
Proof. intros H. unfold command_place. destruct (teqb t _); [|exact H]. rewrite (akin_within _ _ _ H). constructor. Qed.
Lemma akin_group p p' : akin p p' -> akin (group_place p) (group_place p').
Proof.
  destruct 1 as [p|m e e' n H H']; [constructor|]. destruct m, H as [-> | ->], H' as [-> | ->]; cbn; constructor; unfold open_env; auto.
Qed.
Lemma akin_list p p' : akin p p' -> is_list (env_of p) -> p = p'.
Proof. destruct 1 as [p|m e e' n [-> | ->] H']; [reflexivity|intros [X|X]; discriminate X..]. Qed.
Lemma akin_not_list p p' : akin p p' -> ~ is_list (env_of p) -> ~ is_list (env_of p').
Proof. destruct 1 as [p|m e e' n H [-> | ->]]; [auto|intros _ [X|X]; discriminate X..]. Qed.
Lemma akin_sym p p' : akin p p' -> akin p' p. Proof. destruct 1; constructor; assumption. Qed.
Lemma akin_name p p' n a : akin p p' -> typst_name p n a = typst_name p' n a.
Proof. intros H. unfold typst_name. now rewrite (akin_mode _ _ H). Qed.
Lemma akin_around p p' i : akin p p' -> around_formula p i = around_formula p' i.
Proof. intros H. unfold around_formula. now rewrite (akin_mode _ _ H). Qed.
(** neither a row end nor a label *)
Definition calm (t : tree) : Prop := tkind t <> ItemNewLine /\ ~ command_named t (tx "label").
Lemma akin_placed p p' k : akin p p' -> k <> ItemNewLine -> placed k p = placed k p'.
Proof.
  destruct 1 as [p|m e e' n [-> | ->] [-> | ->]]; intros N; try reflexivity; destruct k; try reflexivity; now elim N.
Qed.
Ltac similarly := repeat first
  [ solve [apply similar_refl]
  | solve [apply similar_puts; eauto using akin_in_mode, akin_command, akin_group]
  | solve [apply similar_commas; eauto using akin_in_mode, akin_command, akin_group]
  | apply similar_app | apply Forall2_cons; [solve [constructor; eauto using akin_in_mode, akin_command, akin_group]|] ].
Lemma similar_brackets p p' l : akin p p' -> Forall2 similar (flat_map (in_brackets p) l) (flat_map (in_brackets p') l).
Proof. intros A. apply similar_flat. intros x. unfold in_brackets. destruct (kind_eqb _ _); similarly. Qed.
Lemma similar_color p p' alias m c b : akin p p' -> Forall2 similar (color_pieces p alias m c b) (color_pieces p' alias m c b).
Proof.
  intros A. unfold color_pieces. rewrite <- (akin_mode _ _ A). repeat (apply similar_app; [solve [similarly]|]).
  apply similar_app; [destruct c; similarly|]. apply similar_app; [similarly|]. destruct (mode_of p); [similarly|].
  apply similar_app; [|similarly]. apply similar_flat. intros x. similarly.
Qed.
Lemma akin_labels p p' : akin p p' -> labels p = labels p'. Proof. intros A. unfold labels. now rewrite (akin_mode _ _ A). Qed.
Lemma akin_dollars p p' : akin p p' -> dollars p = dollars p'. Proof. intros A. unfold dollars. now rewrite (akin_mode _ _ A). Qed.
Lemma lays_akin sp p p' t ps : lays sp p t ps -> akin p p' -> calm t -> exists ps', lays sp p' t ps' /\ Forall2 similar ps ps'.
Proof.
  intros H A [C1 C2]. destruct H; cbn [tkind] in C1; try contradiction;
    try (eexists; split; [solve [econstructor; eauto]|similarly]; fail).
  all: try (eexists; split; [solve [econstructor; eauto]|]; solve [similarly]).
  all: try (rewrite (akin_mode _ _ A), ?(akin_indent _ _ A); eexists; split; [solve [econstructor; eauto]|solve [similarly]]).
  all: try (match goal with H : mode_of _ = _ |- _ => rewrite (akin_mode _ _ A) in H end; eexists; split; [solve [econstructor; eauto]|solve [similarly]]).
  all: try (match goal with H : mode_of _ = _ \/ _ |- _ => rewrite (akin_mode _ _ A) in H end; eexists; split; [solve [econstructor; eauto]|solve [similarly]]).
  - rewrite (akin_indent _ _ A). eexists; split; [eapply la_line|similarly].
  - rewrite (akin_placed _ _ _ A C1) in H. eexists; split; [eapply la_placed; exact H|similarly].
  - rewrite (akin_around _ _ _ A). eexists; split; [eapply la_formula; exact H|similarly].
  - eexists; split; [eapply la_delimiter|]. apply similar_app; [similarly|]. apply similar_app; [|similarly]. apply similar_flat. intros x. apply similar_app; [|solve [similarly]].
    destruct x as [[] s|k' ch']; try destruct (teqb s _); similarly.
  - assert (p = p') as <- by (eapply akin_list; eassumption). eexists; split; [eapply la_item; eassumption|similarly].
  - eexists; split; [eapply la_stray_item; [eassumption|eapply akin_not_list; eassumption]|similarly].
  - eexists; split; [eapply la_color; eassumption|now apply similar_color].
  - rewrite (akin_name _ _ _ _ A). eexists; split; [eapply la_bare; eassumption|similarly].
  - subst tn. rewrite (akin_name _ _ _ _ A). eexists; split; [eapply la_greedy; try eassumption; reflexivity|similarly].
  - subst tn. rewrite (akin_name _ _ _ _ A) in *. rewrite (akin_mode _ _ A) in *. eexists; split; [eapply la_math_call; try eassumption; reflexivity|similarly].
  - subst tn. rewrite (akin_name _ _ _ _ A) in *. rewrite (akin_mode _ _ A) in *. eexists; split; [eapply la_text_call; try eassumption; reflexivity|].
    constructor; [constructor|]. apply similar_app; [apply similar_brackets, akin_command, A|similarly].
  - rewrite (akin_within _ _ _ A). eexists; split; [eapply la_list; eassumption|similarly].
  - subst q. rewrite (akin_within _ _ _ A), (akin_dollars _ _ A), (akin_labels _ _ A). eexists; split; [eapply la_math_env; try eassumption; reflexivity|similarly].
  - rewrite (akin_within _ _ _ A), (akin_labels _ _ A). eexists; split; [eapply la_plain_env; eassumption|similarly].
  - rewrite (akin_within _ _ _ A), (akin_labels _ _ A). eexists; split; [eapply la_figure; eassumption|similarly].
  - rewrite (akin_within _ _ _ A), (akin_labels _ _ A). eexists; split; [eapply la_table; eassumption|similarly].
Qed.
Lemma lays_env sp p p' t ps : lays sp p t ps -> akin p p' -> tkind t = ItemEnv -> lays sp p' t ps.
Proof.
  intros H A K. assert (C : forall n, ~ command_named t n) by (intros n [E _]; congruence). destruct H; cbn [tkind] in K; try discriminate K;
    try (exfalso; eapply C; eassumption);
    try (econstructor; eauto; fail).
  - subst k. discriminate H.
  - exfalso. subst k. cbn in H. repeat destruct H as [H|H]; try discriminate H; exact H.
  - rewrite (akin_within _ _ _ A). eapply la_list; eassumption.
  - subst q. rewrite (akin_within _ _ _ A), (akin_dollars _ _ A), (akin_labels _ _ A). eapply la_math_env; try eassumption; reflexivity.
  - rewrite (akin_within _ _ _ A), (akin_labels _ _ A). eapply la_plain_env; eassumption.
  - rewrite (akin_within _ _ _ A), (akin_labels _ _ A). eapply la_figure; eassumption.
  - rewrite (akin_within _ _ _ A), (akin_labels _ _ A). eapply la_table; eassumption.
Qed.
(** [x] is part of [t], and in no environment in it *)
Inductive exposed (x : tree) : tree -> Prop :=
| ex_self : exposed x x
| ex_child k ch c : ~ opaque_kind k -> k <> ItemEnv -> In c ch -> exposed x c -> exposed x (Node k ch)
| ex_grandchild ch c c' : In c ch -> In c' (children c) -> exposed x c' -> exposed x (Node ItemCmd ch).
Lemma under_exposed t' t x : under t' t -> tkind t <> ItemEnv -> exposed x t' -> exposed x t.
Proof.
  intros [[H Hk]|(c & H1 & H2 & Hk)] N Hs; (destruct t as [k s|k ch]; [contradiction|]); cbn [tkind children] in *.
  - eapply ex_child; eauto.
  - destruct Hk as [-> |[-> _]]; [|now elim N]. eapply ex_grandchild; eauto.
Qed.
Lemma akin_sane p p' : akin p p' -> sane p -> sane p'.
Proof. destruct 1 as [p|m e e' n H H']; [auto|]. intros _ L. destruct H' as [-> | ->], L as [L|L]; discriminate L. Qed.
Lemma comes_akin sp c ps o : comes_to sp c ps o -> forall ps', Forall2 similar ps ps' ->
  (forall p p' t, In (Put p t) ps -> In (Put p' t) ps' -> akin p p' -> forall c o, renders sp p c t o -> renders sp p' c t o) ->
  comes_to sp c ps' o.
Proof.
  intros H. induction H; intros ps' F Hp; inversion F as [|a a' l1 l1' S F']; subst; [constructor|..].
  all: assert (Hp' : forall p p' t, In (Put p t) l -> In (Put p' t) l1' -> akin p p' -> forall c o, renders sp p c t o -> renders sp p' c t o)
     by (intros; eapply Hp; [right; eassumption|right; eassumption|assumption|assumption]).
  all: inversion S; subst; try (econstructor; eauto; fail).
  - eapply ct_put; [eapply Hp; [left; reflexivity|left; reflexivity|assumption|eassumption]|eauto].
  - eapply ct_put_failed, Hp; [left; reflexivity|left; reflexivity|assumption|eassumption].
  - eapply ct_put_crashed, Hp; [left; reflexivity|left; reflexivity|assumption|eassumption].
Qed.
Lemma renders_akin sp n : forall t p p' c o, (height t <= n)%nat -> sane p -> akin p p' -> (forall x, exposed x t -> calm x) ->
  renders sp p c t o -> renders sp p' c t o.
Proof.
  induction n as [|n IH]; intros t p p' c o L Hs A Hn H; [destruct t; cbn in L; lia|].
  inversion H as [p0 c0 t0 ps o0 Hl Ho]; subst.
  assert (K : tkind t = ItemEnv \/ tkind t <> ItemEnv) by (destruct (tkind t); auto; right; discriminate). destruct K as [K|K'].
  - econstructor; [eapply lays_env; eassumption|exact Ho].
  - destruct (lays_akin _ _ _ _ _ Hl A (Hn t (ex_self t))) as (ps' & Hl' & F). econstructor; [exact Hl'|].
    eapply comes_akin; [exact Ho|exact F|]. intros q q' x Hx _ Aq c1 o1 Hr.
    destruct (layout_below sp p t ps q x Hs Hl Hx) as [S1 S2]. eapply (IH x q q'); [|exact S1|exact Aq| |exact Hr].
    + apply height_under in S2. lia.
    + intros z Hz. apply Hn. eapply under_exposed; eassumption.
Qed.
Definition blank_only (t : tree) : bool :=
  forallb (fun x => match tkind x with TokenWhiteSpace | TokenLineBreak | TokenLBrace | TokenRBrace => true | _ => false end) (children t).
Definition filler (t : tree) : text := if blank_only t then tx "zws " else [].
Lemma blank_hollow k ch : blank_only (Node k ch) = true <-> hollow ch.
Proof.
  unfold blank_only, hollow. cbn [children]. rewrite forallb_forall, Forall_forall. split; intros H x Hx; specialize (H x Hx); cbn in *.
  - destruct (tkind x); try discriminate H; auto 6.
  - destruct H as [H|[H|[H|[H|[]]]]]; rewrite <- H; reflexivity.
Qed.
Lemma comes_places sp p p' ch c o : sane p -> akin p p' -> (forall x, exposed x (Node ScopeRoot ch) -> calm x) ->
  comes_to sp c (map (Put p) ch) o -> comes_to sp c (map (Put p') ch) o.
Proof.
  intros Hs A Hn H. eapply comes_akin; [exact H|now apply similar_puts|]. intros q q' t H1 H2 _ c1 o1 Hr.
  apply in_map_iff in H1 as (t1 & E1 & I1). apply in_map_iff in H2 as (t2 & E2 & _). injection E1 as <- ->. injection E2 as <- _.
  eapply (renders_akin sp (height t)); [reflexivity|exact Hs|exact A| |exact Hr]. intros x Hx. apply Hn. eapply ex_child; [| |exact I1|exact Hx].
  - unfold opaque_kind. cbn [In]. intuition discriminate.
  - discriminate.
Qed.
Lemma braces_formula sp ch o : (forall x, exposed x (Node ScopeRoot ch) -> calm x) -> converts_to sp MMath (Node ScopeRoot ch) o ->
  converts_to sp MMath (Node ScopeRoot [Node ItemCurly (lf lbrace :: ch ++ [lf rbrace])]) (framed [] (filler (Node ScopeRoot ch)) o).
Proof.
  intros Hn R. apply root_renders in R. apply root_renders. cbn [map].
  set (q := group_place (outermost MMath)).
  assert (Hq : akin (outermost MMath) q) by (constructor; unfold open_env; auto).
  assert (Hsane : sane (outermost MMath)) by (intros [X|X]; discriminate X).
  apply (comes_places _ _ q) in R; [|exact Hsane|exact Hq|exact Hn].
  assert (B : hollow (lf lbrace :: ch ++ [lf rbrace]) <-> hollow ch).
  { unfold hollow. rewrite Forall_cons_iff, Forall_app, Forall_cons_iff. cbn. split; [tauto|]. intros H. repeat split; auto. }
  assert (I : forall o', comes_to sp c0 (map (Put q) (lf lbrace :: ch ++ [lf rbrace]) ++ match filler (Node ScopeRoot ch) with [] => [] | s => [Txt s] end) o' ->
    renders sp (outermost MMath) c0 (Node ItemCurly (lf lbrace :: ch ++ [lf rbrace])) o').
  { intros o' Ho. unfold filler in Ho. destruct (blank_only (Node ScopeRoot ch)) eqn:Eb.
    - econstructor; [apply la_hollow_group; [reflexivity|apply B, (blank_hollow ScopeRoot), Eb]|]. exact Ho.
    - econstructor; [apply la_group; right; intros H; apply B, (blank_hollow ScopeRoot) in H; congruence|]. cbn [app] in Ho. rewrite app_nil_r in Ho. exact Ho. }
  cbn [map app] in I. rewrite map_app, <- app_assoc in I. cbn [map app] in I.
  destruct o as [c x|er|]; cbn [framed app].
  - assert (I' : renders sp (outermost MMath) c0 (Node ItemCurly (lf lbrace :: ch ++ [lf rbrace])) (Written (mk_carry false (waiting c)) (x ++ filler (Node ScopeRoot ch)))).
    { apply I. change (Written ?k x) with (RenderSpec.before [] (Written k x)). 
      change (Written ?k (x ++ ?y)) with (RenderSpec.before [] (RenderSpec.before x (Written k y))). eapply ct_put; [apply (quiet_renders sp lbrace); reflexivity|].
      eapply comes_app; [exact R|].
      change (Written ?k ?y) with (RenderSpec.before [] (Written k y)). eapply ct_put; [apply (quiet_renders sp rbrace); reflexivity|].
      unfold filler. destruct (blank_only _); [|apply ct_end]. change (tx "zws ") with (tx "zws " ++ []) at 2. change (Written ?k (?a ++ [])) with (RenderSpec.before a (Written k [])). apply ct_txt, ct_end. }
    rewrite <- (app_nil_r (x ++ _)). change (Written ?k (?x ++ [])) with (RenderSpec.before x (Written k [])). eapply ct_put; [exact I'|apply ct_end].
  - apply ct_put_failed. apply I. change (Failed er) with (RenderSpec.before [] (Failed er)). eapply ct_put; [apply (quiet_renders sp lbrace); reflexivity|].
    apply comes_bad; [exact R|constructor].
  - apply ct_put_crashed. apply I. change Crashed with (RenderSpec.before [] Crashed). eapply ct_put; [apply (quiet_renders sp lbrace); reflexivity|].
    apply comes_bad; [exact R|constructor].
Qed.

(* ------------------------------------------------------------------ *)
(** * C79: braces around a formula *)
(** [src] are the tokens [ts] and parse to [t], [src'] are the tokens [{ts}]. If
    [t] has, outside its environments, neither row ends nor labels, the two are
    converted alike as formulas; only after a group with nothing but blanks in it
    an invisible character is written. *)
Theorem C79_output : forall macros page sp src src' ts t, 2 <= page ->
  tokens_of macros page (spec_or_default sp) src ts -> tokens_of macros page (spec_or_default sp) src' (braced ts) ->
  content_of_group ts -> argued (spec_or_default sp) ts ->
  (exists fuel, parse_source macros fuel page (spec_or_default sp) src = Ok t) ->
  (forall x, exposed x t -> tkind x <> ItemNewLine /\ ~ command_named x (tx "label")) ->
  exists f0, forall fuel, f0 <= fuel -> (exists t', parse_source macros fuel page (spec_or_default sp) src' = Ok t') ->
    (forall o, convert_source macros MMath fuel page src' sp = COk o <->
       exists x, convert_source macros MMath fuel page src sp = COk x /\ o = x ++ (if blank_only t then tx "zws " else [])) /\
    (forall er, convert_source macros MMath fuel page src' sp = CErr er <-> convert_source macros MMath fuel page src sp = CErr er) /\
    ((exists n, convert_source macros MMath fuel page src' sp = CPanic n) <-> exists n, convert_source macros MMath fuel page src sp = CPanic n).
Proof.
  intros macros page sp src src' ts t Hp Ht Ht' Hc Ar [f3 H3] Hn.
  destruct (C56_source _ _ _ _ _ Hp Ht) as [f0 H0]. exists f0. intros fuel L [t' Hf].
  destruct (C78_tree _ _ _ _ _ _ _ Hp Ht Ht' Hc Ar (ex_intro _ fuel Hf)) as (ch & f1 & -> & H1).
  assert (Hs : parse_source macros fuel page (spec_or_default sp) src = Ok (Node ScopeRoot ch)).
  { pose proof (H1 (Nat.max f0 f1) ltac:(lia)) as K. apply (proj1 (H0 (Nat.max f0 f1) ltac:(lia))) in K. now apply (proj1 (H0 fuel L)). }
  assert (t = Node ScopeRoot ch) as ->.
  { destruct (parse_source_reads _ _ _ _ _ _ Hp H3) as (ts1 & T1 & L1). assert (ts1 = ts) as -> by (eapply tokens_functional; eauto).
    apply complete in L1; [|eapply tokens_words; eauto]. apply (proj1 (H0 fuel ltac:(lia))) in L1. rewrite L1 in Hs. now injection Hs. }
  rewrite (convert_of_tree _ _ _ _ _ _ _ Hs), (convert_of_tree _ _ _ _ _ _ _ Hf).
  pose proof (C59_parsed _ _ _ _ _ _ Hp Hs) as W1. pose proof (C59_parsed _ _ _ _ _ _ Hp Hf) as W2.
  exact (outcome_same DEFAULT_SPEC MMath MMath [] (filler (Node ScopeRoot ch)) _ _ W1 W2 (fun o => braces_formula _ _ o Hn)).
Qed.
Print Assumptions C79_output.

(** In particular when these tokens have no row end and no \label. *)
Lemma exposed_seen x t : exposed x t -> seen x t.
Proof. intros H. induction H; [constructor|eapply seen_child; eauto|eapply seen_grandchild; eauto]. Qed.
Lemma spells_row T ts ls s : spells T ts ls -> In (ItemNewLine, s) ls -> exists u, In u ts /\ fst u = NewLine.
Proof.
  intros H. induction H as [|[k' s'] ts ls H IH|s' ts ls H IH|a b ts ls Ha H IH|[k' s'] ts ls Hd H IH]; intros Hin; [contradiction|..].
  - destruct Hin as [E|Hin]; [|destruct (IH Hin) as (u & I & K); exists u; split; [now right|exact K]].
    exists (k', s'). split; [now left|]. injection E as E _. cbn [fst] in *. destruct k' as [| | |b|b| | | | | | | | | | | | | | | |c| |n]; try discriminate E; try reflexivity; first [destruct b; discriminate E|destruct c; discriminate E].
  - destruct Hin as [E|Hin]; [discriminate E|]. destruct (IH Hin) as (u & I & K). exists u. split; [now right|exact K].
  - destruct Hin as [E|Hin]; [discriminate E|]. destruct (IH Hin) as (u & [<-|I] & K); [discriminate K|]. exists u. split; [now right|exact K].
  - destruct (IH Hin) as (u & I & K). exists u. split; [now right|exact K].
Qed.
Lemma plain_calm macros page sp src ts t fuel : 2 <= page -> tokens_of macros page sp src ts -> parse_source macros fuel page sp src = Ok t ->
  Forall (fun u => fst u <> NewLine /\ snd u <> tx "\label") ts -> forall x, exposed x t -> calm x.
Proof.
  intros Hp Ht Hf Hn x Hx. pose proof (C59_parsed _ _ _ _ _ _ Hp Hf) as W. pose proof (exposed_seen _ _ Hx) as Hs.
  destruct (parse_source_reads _ _ _ _ _ _ Hp Hf) as (ts1 & T1 & L1). assert (ts1 = ts) as -> by (eapply tokens_functional; eauto).
  apply C21_leaves in L1. rewrite Forall_forall in Hn. specialize (W _ Hs). apply seen_occurs in Hs. split.
  - intros K. destruct x as [k s|k ch]; cbn [tkind] in K; subst k.
    + apply leaf_occurs in Hs. destruct (spells_row _ _ _ _ L1 Hs) as (u & I & E). exact (proj1 (Hn u I) E).
    + destruct W as [W _]. unfold node_kind in W. cbn [In] in W. repeat destruct W as [W|W]; try discriminate W; exact W.
  - intros [K [c Hc]]. destruct x as [k s|k ch]; cbn [tkind] in K; subst k; [discriminate Hc|]. destruct W as [_ [n W]]. rewrite W in Hc. injection Hc as <- ->.
    apply in_leaf_child in W as (k' & W & ->). apply child_occurs in W. pose proof (occurs_trans _ _ _ W Hs) as O. apply leaf_occurs in O.
    destruct (spells_token _ _ _ _ _ L1 O ltac:(now left)) as [c I]. exact (proj2 (Hn _ I) eq_refl).
Qed.
Theorem C79_plain : forall macros page sp src src' ts t, 2 <= page ->
  tokens_of macros page (spec_or_default sp) src ts -> tokens_of macros page (spec_or_default sp) src' (braced ts) ->
  content_of_group ts -> argued (spec_or_default sp) ts ->
  (exists fuel, parse_source macros fuel page (spec_or_default sp) src = Ok t) ->
  Forall (fun u => fst u <> NewLine /\ snd u <> tx "\label") ts ->
  exists f0, forall fuel, f0 <= fuel -> (exists t', parse_source macros fuel page (spec_or_default sp) src' = Ok t') ->
    (forall o, convert_source macros MMath fuel page src' sp = COk o <->
       exists x, convert_source macros MMath fuel page src sp = COk x /\ o = x ++ (if blank_only t then tx "zws " else [])) /\
    (forall er, convert_source macros MMath fuel page src' sp = CErr er <-> convert_source macros MMath fuel page src sp = CErr er) /\
    ((exists n, convert_source macros MMath fuel page src' sp = CPanic n) <-> exists n, convert_source macros MMath fuel page src sp = CPanic n).
Proof.
  intros macros page sp src src' ts t Hp Ht Ht' Hc Ar [f3 H3] Hn. eapply C79_output; [exact Hp|exact Ht|exact Ht'|exact Hc|exact Ar|exists f3; exact H3|].
  exact (plain_calm _ _ _ _ _ _ _ Hp Ht H3 Hn).
Qed.
Print Assumptions C79_plain.

(** A case that meets the hypotheses: rows and labels inside environments do no harm. *)
Fixpoint exposed_all (f : nat) (t : tree) : list tree :=
  match f with 0 => [] | S f =>
    t :: match t with
         | Leaf _ _ => []
         | Node k ch => (if kind_eqb k ItemEnv then [] else flat_map (exposed_all f) ch)
             ++ (if kind_eqb k ItemCmd then flat_map (exposed_all f) (flat_map children ch) else [])
         end
  end.
Definition calm_b (t : tree) : bool :=
  negb (kind_eqb (tkind t) ItemNewLine) &&
  negb (kind_eqb (tkind t) ItemCmd && match cmd_name_tok t with Some (_ :: n) => teqb n (tx "label") | _ => false end).
Lemma exposed_in x t : exposed x t -> forall f, height t <= f -> In x (exposed_all f t).
Proof.
  intros H. induction H as [|k ch c O E I H IH|ch c c' I1 I2 H IH]; intros f L.
  - destruct x; (destruct f; [cbn in L; lia|]); left; reflexivity.
  - destruct f; [cbn in L; lia|]. right. apply in_app_iff. left. destruct (kind_eqb k ItemEnv) eqn:K.
    + elim E. destruct k; try discriminate K; reflexivity.
    + apply in_flat_map. exists c. split; [exact I|]. apply IH. assert (U : under c (Node k ch)) by (left; auto). apply height_under in U. lia.
  - destruct f; [cbn in L; lia|]. right. apply in_app_iff. right. cbn [kind_eqb]. change (In x (flat_map (exposed_all f) (flat_map children ch))).
    apply in_flat_map. exists c'. split; [apply in_flat_map; eauto|]. apply IH.
    assert (U : under c' (Node ItemCmd ch)) by (right; exists c; cbn; auto). apply height_under in U. lia.
Qed.
Lemma calm_b_ok t : calm_b t = true -> calm t.
Proof.
  unfold calm_b, calm. intros H. apply andb_prop in H as [H1 H2]. split.
  - intros E. rewrite E in H1. discriminate H1.
  - intros [E [c Ec]]. rewrite E, Ec in H2. discriminate H2.
Qed.
Definition C79_body : text := tx "\frac{a}{b {c d}} + \begin{pmatrix} x & y \\ u & v \end{pmatrix} \left( z_1^{{2}} \right) \textbf{so} \sum\limits_i".
Definition C79_tree (s : text) : tree := match parse_source false 1500 PAGE DEFAULT_SPEC s with Ok t => t | _ => Leaf TokenWord [] end.
Example C79_example :
  tokens_of false PAGE DEFAULT_SPEC C79_body (C77_toks C79_body) /\
  tokens_of false PAGE DEFAULT_SPEC (tx "{" ++ C79_body ++ tx "}") (braced (C77_toks C79_body)) /\
  content_of_group (C77_toks C79_body) /\ argued DEFAULT_SPEC (C77_toks C79_body) /\
  (exists fuel, parse_source false fuel PAGE DEFAULT_SPEC C79_body = Ok (C79_tree C79_body)) /\
  (forall x, exposed x (C79_tree C79_body) -> calm x) /\
  (exists t', parse_source false 1500 PAGE DEFAULT_SPEC (tx "{" ++ C79_body ++ tx "}") = Ok t') /\
  exists o, convert_source false MMath 1500 PAGE C79_body None = COk o /\
    convert_source false MMath 1500 PAGE (tx "{" ++ C79_body ++ tx "}") None = COk o /\ 60 <= List.length o.
Proof.
  split; [split; [vm_compute; reflexivity|vm_compute; reflexivity]|].
  split; [split; [vm_compute; reflexivity|vm_compute; reflexivity]|].
  split; [apply enclosed_b_ok; vm_compute; reflexivity|]. split; [apply argued_b_ok; vm_compute; reflexivity|].
  split; [exists 1500; vm_compute; reflexivity|].
  split.
  { intros x H. apply calm_b_ok. assert (L : height (C79_tree C79_body) <= 60) by (apply Nat.leb_le; vm_compute; reflexivity).
    pose proof (exposed_in _ _ H 60 L) as I. revert x H I. assert (F : forallb calm_b (exposed_all 60 (C79_tree C79_body)) = true) by (vm_compute; reflexivity).
    intros x _ I. rewrite forallb_forall in F. exact (F x I). }
  split; [eexists; vm_compute; reflexivity|]. eexists. split; [vm_compute; reflexivity|]. split; [vm_compute; reflexivity|]. apply Nat.leb_le. vm_compute. reflexivity.
Qed.
(** A group with nothing but blanks; a row end. *)
Example C79_hollow : convert_source false MMath 800 PAGE (tx " ") None = COk (tx " ") /\ convert_source false MMath 800 PAGE (tx "{ }") None = COk (tx " zws ").
Proof. split; vm_compute; reflexivity. Qed.
Example C79_row : convert_source false MMath 800 PAGE (tx "a \\ b") None <> convert_source false MMath 800 PAGE (tx "{a \\ b}") None.
Proof. vm_compute. discriminate. Qed.
