(** C70, continued: one group after the other. *)
From Verif Require Import Api ConvSpec ConvFacts ConvTerm ParserTotal ParserSource ParserEnd ParserShape GramSpec GramSound GramComplete P_Parser P_Gram P_Conv3 P_Conv4 RenderAll P_Render.
From Verif Require Import ShieldFacts ShieldSwap P_Shield RenderSpec GramSpec ShieldSpec.
Local Open Scope nat_scope.

(** ** The reading of [{x1}{x2}...] *)
Definition group_of gm sp (x : list tok) (g : tree) : Prop := forall v, group gm sp Braces lbrace (x ++ rbrace :: v) g v.
Lemma brace_element gm sp x p f l t r b l1 r1 v : content_of_group x -> GramSpec.element gm sp p f l t r b l1 r1 -> t = lbrace -> r = x ++ rbrace :: v ->
    exists g, b = true /\ l1 = add [g] l /\ r1 = v /\ group_of gm sp x g.
Proof.
  intros Hx H Et Hr. assert (T : fst t = TLeft Curly) by now subst.
  destruct H; try (exfalso; subst; cbn in *; congruence).
  all: try (exfalso; match goal with H : mark_base _ |- _ => rewrite T in H; unfold mark_base in H; cbn [In] in H; repeat destruct H as [H|H]; try discriminate; contradiction end).
  all: try (exfalso; match goal with H : mark_plain _ |- _ => rewrite T in H; unfold mark_plain in H; cbn [In] in H; repeat destruct H as [H|H]; try discriminate; contradiction end).
  all: try (exfalso; match goal with H : stray _ |- _ => rewrite T in H; destruct H as [H|[n H]]; [|discriminate H]; cbn [In] in H; repeat destruct H as [H|H]; try discriminate; contradiction end).
  all: try (exfalso; match goal with H : named _ |- _ => rewrite T in H; destruct H as [H|(i & H & _)]; [|discriminate H]; cbn [In] in H; repeat destruct H as [H|H]; try discriminate; contradiction end).
  all: try (exfalso; match goal with H : GramSpec.script_mark _ |- _ => rewrite T in H; destruct H; discriminate end).
  - exfalso. match goal with H : _ \/ _ |- _ => rewrite T in H; destruct H as [H|[H _]]; discriminate end.
  - subst t r. match goal with H : group _ _ _ _ _ _ _ |- _ => destruct (group_alone gm sp rbrace eq_refl lbrace x _ _ v eq_refl Hx H) as [-> K] end. unfold group_of. eauto.
Qed.
Lemma braces_content gm sp xs : Forall content_of_group xs -> forall p g l ts l' r, GramSpec.content gm sp p g l ts l' r -> p = Top -> g = false ->
  ts = List.concat (map braced xs) -> exists gs, Forall2 (group_of gm sp) xs gs /\ GramSpec.all l' = GramSpec.all l ++ gs /\ r = [].
Proof.
  induction xs as [|x xs IH]; intros Hx p g l ts l' r Hc Ep Eg Et; cbn [map List.concat] in Et.
  - exists []. destruct Hc; try discriminate Et. rewrite app_nil_r. auto.
  - apply Forall_cons_iff in Hx as [H1 H2]. unfold braced at 1 in Et. cbn [app] in Et. rewrite <- app_assoc in Et. cbn [app] in Et.
    destruct Hc as [p g l|p g l t r Hs|p g l t r l1 ys r1 l' r' Hs He Ha Hc|p g l t r l1 r1 l' r' Hs He Hc]; subst p g.
    + discriminate Et.
    + exfalso. destruct Hs as [Hs _]. now apply Hs.
    + injection Et as -> Er. destruct (brace_element _ _ _ _ _ _ _ _ _ _ _ _ H1 He eq_refl Er) as (u & _ & -> & -> & K).
      destruct (IH H2 _ _ _ _ _ _ Hc eq_refl eq_refl eq_refl) as (gs & Hg & Hl & ->). exists (u :: gs). split; [now constructor|].
      split; [|reflexivity]. rewrite Hl. rewrite all_add in Ha. apply app_inv_head in Ha. subst ys. unfold GramSpec.all. cbn [GramSpec.before base based]. now rewrite <- !app_assoc.
    + injection Et as -> Er. destruct (brace_element _ _ _ _ _ _ _ _ _ _ _ _ H1 He eq_refl Er) as (u & X & _). discriminate X.
Qed.
Lemma content_braces gm sp xs gs : Forall2 (group_of gm sp) xs gs -> forall l, exists l',
  GramSpec.content gm sp Top false l (List.concat (map braced xs)) l' [] /\ GramSpec.all l' = GramSpec.all l ++ gs.
Proof.
  induction 1 as [|x g xs gs Hg H IH]; intros l; cbn [map List.concat].
  - exists l. rewrite app_nil_r. split; [constructor|reflexivity].
  - destruct (IH (mk_line (GramSpec.all l) (Some [g]) (from (add [g] l)))) as (l' & Hc & Ha). exists l'. split.
    + unfold braced at 1. cbn [app]. rewrite <- app_assoc. cbn [app]. eapply c_base; [intros [X _]; now apply X| | |exact Hc].
      * eapply e_group; [reflexivity|apply Hg].
      * apply all_add.
    + rewrite Ha. unfold GramSpec.all at 1. cbn [GramSpec.before base based]. now rewrite <- app_assoc.
Qed.
Theorem reading_braces gm sp xs t : Forall content_of_group xs ->
  (reading gm sp (List.concat (map braced xs)) t <-> exists gs, Forall2 (group_of gm sp) xs gs /\ t = Node ScopeRoot gs).
Proof.
  intros Hx. split.
  - intros (l & Hc & ->). destruct (braces_content gm sp xs Hx _ _ _ _ _ _ Hc eq_refl eq_refl eq_refl) as (gs & Hg & Hl & _). exists gs. split; [exact Hg|]. now rewrite Hl.
  - intros (gs & Hg & ->). destruct (content_braces gm sp xs gs Hg (GramSpec.fresh Start)) as (l' & Hc & Ha). exists l'. split; [exact Hc|]. now rewrite Ha.
Qed.
Lemma group_kind gm sp x g : group_of gm sp x g -> tkind g = ItemCurly.
Proof. intros H. specialize (H []). inversion H as [q t k r l t' r' B _ _|q t k r l r' B _ _]; subst; destruct B as [B|B]; try (now injection B as <-); cbn [In] in B; repeat destruct B as [B|B]; try discriminate B; contradiction. Qed.

(** ** What comes out *)
Definition group_free (g : tree) : Prop := tkind g = ItemCurly /\ forall x, seen x g -> ~ command_named x (tx "label").
Definition c0 : carry := mk_carry false None.
Lemma alike sp p g c o : group_free g -> waiting c = None -> (renders sp p c g o <-> renders sp p c0 g o).
Proof.
  intros [Hk _] Hc. assert (E : at_element g c = at_element g c0) by (unfold at_element; rewrite Hk, Hc; reflexivity).
  split; intros H; inversion H; subst; econstructor; try eassumption; [rewrite <- E|rewrite E]; assumption.
Qed.
Definition writes sp p g x : Prop := exists c', renders sp p c0 g (Written c' x).
Lemma before_written s o c x : RenderSpec.before s o = Written c x -> exists y, o = Written c y /\ x = s ++ y.
Proof. destruct o; cbn; try discriminate. intros [= -> <-]. eauto. Qed.
Lemma puts_written sp p gs : sane p -> Forall group_free gs -> forall c, waiting c = None ->
  forall x, (exists c', comes_to sp c (map (Put p) gs) (Written c' x)) <-> (exists os, Forall2 (writes sp p) gs os /\ x = List.concat os).
Proof.
  intros Hs. induction gs as [|g gs IH]; intros Hg c Hc x; cbn [map].
  - split.
    + intros [c' H]. inversion H; subst. exists []. split; [constructor|reflexivity].
    + intros (os & H & ->). inversion H; subst. exists c. constructor.
  - apply Forall_cons_iff in Hg as [G1 G2]. split.
    + intros [c' H]. inversion H as [| | | |c1 p1 t1 c2 y l o Hr Ho E1 E2 E3| | | | | |]; subst. apply before_written in E3 as (z & -> & ->).
      assert (W : waiting c2 = None) by (destruct G1 as [_ G1]; eapply renders_waiting; [apply le_n|exact Hs|exact G1|exact Hc|exact Hr]).
      destruct (proj1 (IH G2 c2 W z) ltac:(eauto)) as (os & Ho' & ->). exists (y :: os). split; [|reflexivity]. constructor; [|exact Ho'].
      exists c2. now apply (alike sp p g c).
    + intros (os & H & ->). inversion H as [|g1 y gs1 os' [c2 Hr] Ho E1 E2]; subst. apply (alike sp p g c) in Hr; [|exact G1|exact Hc].
      assert (W : waiting c2 = None) by (destruct G1 as [_ G1]; eapply renders_waiting; [apply le_n|exact Hs|exact G1|exact Hc|exact Hr]).
      destruct (proj2 (IH G2 c2 W (List.concat os')) ltac:(eauto)) as [c3 K]. exists c3. cbn [List.concat].
      change (Written c3 (y ++ List.concat os')) with (RenderSpec.before y (Written c3 (List.concat os'))). econstructor; eassumption.
Qed.
Lemma puts_failed sp p a g b e : sane p -> Forall group_free (a ++ g :: b) -> Forall (fun g => exists x, writes sp p g x) a ->
  renders sp p c0 g (Failed e) -> forall c, waiting c = None -> comes_to sp c (map (Put p) (a ++ g :: b)) (Failed e).
Proof.
  intros Hs. induction a as [|u a IH]; intros Hg Ha He c Hc; cbn [map app] in *; apply Forall_cons_iff in Hg as [G1 G2].
  - constructor. now apply (alike sp p g c).
  - apply Forall_cons_iff in Ha as [[x [c2 A1]] A2]. apply (alike sp p u c) in A1; [|exact G1|exact Hc].
    assert (W : waiting c2 = None) by (destruct G1 as [_ G1]; eapply renders_waiting; [apply le_n|exact Hs|exact G1|exact Hc|exact A1]).
    change (Failed e) with (RenderSpec.before x (Failed e)). econstructor; [exact A1|]. now apply IH.
Qed.
Lemma root_renders sp m gs o : converts_to sp m (Node ScopeRoot gs) o <-> comes_to sp c0 (map (Put (outermost m)) gs) o.
Proof.
  unfold converts_to. split; intros H.
  - inversion H as [p c t ps o' Hl Ho]; subst. clear H.
    assert (ps = map (Put (outermost m)) gs) as ->; [|exact Ho].
    inversion Hl; subst; try reflexivity; try (match goal with H : command_named _ _ |- _ => destruct H as [X _]; discriminate X end).
    all: exfalso; try (match goal with H : environment_named _ _ |- _ => destruct H as [X _]; discriminate X end); repeat match goal with H : _ /\ _ |- _ => destruct H | H : exists _, _ |- _ => destruct H | H : _ \/ _ |- _ => destruct H end; cbn in *; try discriminate; try congruence.
  - econstructor; [apply la_container|exact H]. unfold container_kind. cbn. auto.
Qed.

(** ** From sources to groups *)
Definition label_free (x : list tok) : Prop := Forall (fun u => snd u <> tx "\label") x.
Lemma lonely_free macros fuel page sp s x t : 2 <= page -> tokens_of macros page sp s x -> label_free x -> parse_source macros fuel page sp s = Ok t ->
  forall y, seen y t -> ~ command_named y (tx "label").
Proof.
  intros Hp Hts Hd Ht y Hy [Hk [c Hc]]. destruct (parse_source_reads _ _ _ _ _ _ Hp Ht) as (ts' & Hts' & Hl).
  assert (ts' = x) as -> by (eapply tokens_functional; eauto). pose proof (tokens_slash _ _ _ _ _ Hp Hts) as Sl.
  destruct (root_ok _ _ _ _ _ Sl Hl) as [R1 R2]. apply parse_shape in Hl as (_ & _ & H3).
  destruct (seen_ok _ _ _ _ Hy R1 R2) as [G1 G2]. pose proof (seen_occurs _ _ Hy) as Hoc.
  destruct (ok_name _ _ _ G1 G2 Hk) as [n' En]. rewrite Hc in En. injection En as -> <-.
  apply in_leaf_child in Hc as (k' & Hc & ->). apply child_occurs in Hc.
  pose proof (leaf_occurs _ _ _ (occurs_trans _ _ _ Hc Hoc)) as Hs. destruct (spells_token _ _ _ _ _ H3 Hs (or_introl eq_refl)) as [cn Hcn].
  unfold label_free in Hd. rewrite Forall_forall in Hd. now apply (Hd _ Hcn).
Qed.
Record lonely macros page sp fuel (s : text) (x : list tok) : Prop := mk_lonely {
  lone_tree : forall t, parse_source macros fuel page sp s = Ok t ->
    exists g, t = Node ScopeRoot [g] /\ group_of gm_real sp x g /\ group_free g /\ well_shaped t;
  lone_parse : forall g, group_of gm_real sp x g -> parse_source macros fuel page sp s = Ok (Node ScopeRoot [g]) }.
Lemma source_lonely macros page sp s x : 2 <= page -> content_of_group x -> label_free x -> tokens_of macros page sp s (braced x) ->
  exists f0, forall fuel, f0 <= fuel -> lonely macros page sp fuel s x.
Proof.
  intros Hp Hx Hn Hts. destruct (C56_source _ _ _ _ _ Hp Hts) as [f0 Hf]. exists f0. intros fuel L. destruct (Hf fuel L) as [Hr _].
  assert (B : braced x = List.concat (map braced [x])) by (cbn [map List.concat]; now rewrite app_nil_r).
  split.
  - intros t Ht. pose proof (proj1 (Hr t) Ht) as R. rewrite B in R. apply reading_braces in R; [|now constructor]. destruct R as (gs & Hg & ->).
    inversion Hg as [|x1 g xs1 gs1 G1 G2]; subst. inversion G2; subst. exists g. split; [reflexivity|]. split; [exact G1|]. split; [|eapply C59_parsed; eassumption].
    split; [eapply group_kind; exact G1|]. intros y Hy. eapply (lonely_free _ _ _ _ _ _ _ Hp Hts); [|exact Ht|].
    + unfold label_free, braced. constructor; [discriminate|]. apply Forall_app. split; [exact Hn|]. constructor; [discriminate|constructor].
    + eapply under_seen; [|exact Hy]. left. cbn. split; [auto|]. unfold opaque_kind. intros X. repeat destruct X as [X|X]; try discriminate; contradiction.
  - intros g Hg. apply Hr. rewrite B. apply reading_braces; [now constructor|]. exists [g]. split; [now constructor|reflexivity].
Qed.
Lemma sources_lonely macros page sp srcs xs : 2 <= page -> Forall2 (fun s x => tokens_of macros page sp s (braced x)) srcs xs ->
  Forall content_of_group xs -> Forall label_free xs -> exists f0, forall fuel, f0 <= fuel -> Forall2 (lonely macros page sp fuel) srcs xs.
Proof.
  intros Hp. induction 1 as [|s x srcs xs H1 H2 IH]; intros Hx Hn; [exists 0; constructor|].
  apply Forall_cons_iff in Hx as [X1 X2]. apply Forall_cons_iff in Hn as [N1 N2].
  destruct (source_lonely _ _ _ _ _ Hp X1 N1 H1) as [a Ha]. destruct (IH X2 N2) as [b Hb]. exists (Nat.max a b).
  intros fuel L. constructor; [apply Ha|apply Hb]; lia.
Qed.

(* ------------------------------------------------------------------ *)
(** * C70: one group after the other *)
(** If the tokens of a source are [{x1}{x2}...], then its output is the outputs of
    [{x1}], [{x2}], ... one after the other (and it has an output iff each of
    them has one). *)
Lemma alone_output m g c x : well_shaped (Node ScopeRoot [g]) -> convert_tree DEFAULT_SPEC m (Node ScopeRoot [g]) = x ->
  (forall o, x = COk o <-> writes DEFAULT_SPEC (outermost m) g o) /\ (forall e, x = CErr e -> renders DEFAULT_SPEC (outermost m) (mk_carry false c) g (Failed e) \/ c <> None).
Proof.
  generalize DEFAULT_SPEC. intros d Hw <-. destruct (C59_tree d m _ Hw) as (T1 & T2 & _). split.
  - intros o. rewrite T1. split.
    + intros [c' H]. apply root_renders in H. cbn [map] in H. inversion H as [| | | |c1 p1 t1 c2 y l o1 Hr Ho E1 E2 E3| | | | | |]; subst.
      inversion Ho; subst. cbn in E3. injection E3 as <- <-. rewrite app_nil_r. now exists c2.
    + intros [c' H]. exists c'. apply root_renders. cbn [map]. rewrite <- (app_nil_r o). change (Written c' (o ++ [])) with (RenderSpec.before o (Written c' [])).
      econstructor; [exact H|constructor].
  - intros e H. destruct c as [c|]; [right; discriminate|left]. apply T2 in H. apply root_renders in H. cbn [map] in H.
    inversion H as [| | | |c1 p1 t1 c2 y l o1 Hr Ho E1 E2 E3|c1 p1 t1 e1 l1 Hr| | | | |]; subst; [|exact Hr].
    inversion Ho; subst. discriminate E3.
Qed.
Lemma lonely_trees macros page sp fuel srcs xs (P : text -> tree -> Prop) : Forall2 (lonely macros page sp fuel) srcs xs ->
  Forall (fun s => exists g, P s g /\ parse_source macros fuel page sp s = Ok (Node ScopeRoot [g])) srcs ->
  exists gs, Forall2 (group_of gm_real sp) xs gs /\ Forall2 P srcs gs /\ Forall group_free gs.
Proof.
  induction 1 as [|s x srcs xs H1 H2 IH]; intros Hs; [exists []; auto|].
  apply Forall_cons_iff in Hs as [(g & S1 & S2) S3]. destruct (IH S3) as (gs & A & B & C).
  destruct (lone_tree _ _ _ _ _ _ H1 _ S2) as (g' & E & K1 & K2 & _). injection E as <-. exists (g :: gs). auto.
Qed.
Theorem C70_concat : forall macros m page sp src srcs xs, 2 <= page ->
  tokens_of macros page (spec_or_default sp) src (List.concat (map braced xs)) ->
  Forall2 (fun s x => tokens_of macros page (spec_or_default sp) s (braced x)) srcs xs ->
  Forall content_of_group xs -> Forall (Forall (fun u => snd u <> tx "\label")) xs ->
  exists f0, forall fuel, f0 <= fuel ->
    (forall o, convert_source macros m fuel page src sp = COk o <->
       exists os, Forall2 (fun s x => convert_source macros m fuel page s sp = COk x) srcs os /\ o = List.concat os) /\
    (forall before s after e, srcs = before ++ s :: after ->
       Forall (fun s => exists x, convert_source macros m fuel page s sp = COk x) before ->
       convert_source macros m fuel page s sp = CErr e ->
       Forall (fun s => exists t, parse_source macros fuel page (spec_or_default sp) s = Ok t) after ->
       convert_source macros m fuel page src sp = CErr e).
Proof.
  intros macros m page sp src srcs xs Hp Ht Hs Hx Hn. destruct (sources_lonely _ _ _ _ _ Hp Hs Hx Hn) as [f1 H1].
  destruct (C56_source _ _ _ _ _ Hp Ht) as [f2 H2]. exists (Nat.max f1 f2). intros fuel L.
  specialize (H1 fuel ltac:(lia)). destruct (H2 fuel ltac:(lia)) as [Hr _]. clear H2 Hs Hn L f1 f2 Ht.
  assert (Hr' : forall gs, Forall2 (group_of gm_real (spec_or_default sp)) xs gs -> parse_source macros fuel page (spec_or_default sp) src = Ok (Node ScopeRoot gs)).
  { intros gs Hg. apply Hr, reading_braces; eauto. }
  assert (Sane : sane (outermost m)) by (intros [X|X]; discriminate).
  assert (Out : forall s g o, parse_source macros fuel page (spec_or_default sp) s = Ok (Node ScopeRoot [g]) -> well_shaped (Node ScopeRoot [g]) ->
    (convert_source macros m fuel page s sp = COk o <-> writes DEFAULT_SPEC (outermost m) g o)).
  { intros s g o P W. rewrite (convert_of_tree _ _ _ _ _ _ _ P). now apply (alone_output m g None _ W eq_refl). }
  assert (Tree : forall s x r, lonely macros page (spec_or_default sp) fuel s x -> convert_source macros m fuel page s sp = r ->
    (forall n, r <> CPanic n) -> r <> CFuel -> exists g, parse_source macros fuel page (spec_or_default sp) s = Ok (Node ScopeRoot [g]) /\ well_shaped (Node ScopeRoot [g])).
  { intros s x r Hl Hc R1 R2. destruct (tree_of_convert _ _ _ _ _ _ _ Hc) as [(t & P & _)|[(n & _ & E)|E]]; [|now apply R1 in E|contradiction].
    destruct (lone_tree _ _ _ _ _ _ Hl _ P) as (g & -> & _ & _ & W). eauto. }
  split.
  - intros o. split.
    + intros Hc. destruct (tree_of_convert _ _ _ _ _ _ _ Hc) as [(t & P & Ec)|[(n & _ & E)|E]]; try discriminate E.
      pose proof (C59_parsed _ _ _ _ _ _ Hp P) as W. pose proof (proj1 (Hr t) P) as R. apply reading_braces in R; [|exact Hx]. destruct R as (gs & Hg & ->).
      assert (K : Forall2 (fun s g => parse_source macros fuel page (spec_or_default sp) s = Ok (Node ScopeRoot [g]) /\ well_shaped (Node ScopeRoot [g])) srcs gs /\ Forall group_free gs).
      { clear -H1 Hg. revert gs Hg. induction H1 as [|s x srcs xs A B IH]; intros gs Hg; inversion Hg as [|x' g xs' gs' G1 G2]; subst; [split; constructor|].
        destruct (IH _ G2) as [I1 I2]. pose proof (lone_parse _ _ _ _ _ _ A _ G1) as P. destruct (lone_tree _ _ _ _ _ _ A _ P) as (g' & E & _ & F & W).
        injection E as <-. split; constructor; auto. }
      destruct K as [K1 K2]. apply C59_tree in Ec as [c Ec]; [|exact W]. apply root_renders in Ec.
      destruct (proj1 (puts_written _ _ gs Sane K2 c0 eq_refl o) ltac:(eauto)) as (os & Ho & ->). exists os. split; [|reflexivity].
      clear -K1 Ho Out. revert os Ho. induction K1 as [|s g srcs gs [A1 A2] B IH]; intros os Ho; inversion Ho as [|g' y gs' os' O1 O2]; subst; constructor; auto.
      now apply (Out s g).
    + intros (os & Ho & ->).
      assert (K : exists gs, Forall2 (group_of gm_real (spec_or_default sp)) xs gs /\ Forall group_free gs /\ Forall2 (writes DEFAULT_SPEC (outermost m)) gs os).
      { clear -H1 Ho Out Tree. revert os Ho. induction H1 as [|s x srcs xs A B IH]; intros os Ho; inversion Ho as [|s' y srcs' os' O1 O2]; subst; [exists []; auto|].
        destruct (IH _ O2) as (gs & I1 & I2 & I3). destruct (Tree s x _ A O1 ltac:(discriminate) ltac:(discriminate)) as (g & P & W).
        destruct (lone_tree _ _ _ _ _ _ A _ P) as (g' & E & G & F & _). injection E as <-. exists (g :: gs). repeat split; constructor; auto.
        now apply (Out s g). }
      destruct K as (gs & G1 & G2 & G3). pose proof (Hr' gs G1) as P. pose proof (C59_parsed _ _ _ _ _ _ Hp P) as W.
      rewrite (convert_of_tree _ _ _ _ _ _ _ P). apply C59_tree; [exact W|].
      destruct (proj2 (puts_written _ _ gs Sane G2 c0 eq_refl (List.concat os)) ltac:(eauto)) as [c Hc]. exists c. now apply root_renders.
  - intros a s b e -> Ha Hc Hb. apply Forall2_app_inv_l in H1 as (xa & xr & A1 & A2 & ->). inversion A2 as [|s' x b' xb B1 B2]; subst.
    assert (Ka : exists gs, Forall2 (group_of gm_real (spec_or_default sp)) xa gs /\ Forall2 (fun (s : text) g => exists o, writes DEFAULT_SPEC (outermost m) g o) a gs /\ Forall group_free gs).
    { apply (lonely_trees macros page (spec_or_default sp) fuel a xa); [exact A1|].
      clear -A1 Ha Out Tree. induction A1 as [|s x a xa A B IH]; [constructor|]. apply Forall_cons_iff in Ha as [[o O1] O2]. constructor; [|auto].
      destruct (Tree s x _ A O1 ltac:(discriminate) ltac:(discriminate)) as (g & P & W). exists g. split; [|exact P]. exists o. now apply (Out s g). }
    assert (Kb : exists gs, Forall2 (group_of gm_real (spec_or_default sp)) xb gs /\ Forall2 (fun (s : text) (g : tree) => True) b gs /\ Forall group_free gs).
    { apply (lonely_trees macros page (spec_or_default sp) fuel b xb); [exact B2|].
      clear -B2 Hb. induction B2 as [|s x b xb A B IH]; [constructor|]. apply Forall_cons_iff in Hb as [[t P] Hb]. constructor; [|auto].
      destruct (lone_tree _ _ _ _ _ _ A _ P) as (g & -> & _). eauto. }
    destruct Ka as (ga & Ka1 & Ka2 & Ka3), Kb as (gb & Kb1 & _ & Kb3).
    destruct (Tree s x _ B1 Hc ltac:(discriminate) ltac:(discriminate)) as (g & P & W). destruct (lone_tree _ _ _ _ _ _ B1 _ P) as (g' & E & G & F & _). injection E as <-.
    rewrite (convert_of_tree _ _ _ _ _ _ _ P) in Hc. pose proof (proj2 (alone_output m g None _ W eq_refl) e Hc) as Hf. destruct Hf as [Hf|X]; [|now elim X].
    assert (Pc : parse_source macros fuel page (spec_or_default sp) src = Ok (Node ScopeRoot (ga ++ g :: gb))) by (apply Hr', Forall2_app; [exact Ka1|now constructor]).
    pose proof (C59_parsed _ _ _ _ _ _ Hp Pc) as Wc. rewrite (convert_of_tree _ _ _ _ _ _ _ Pc). apply C59_tree; [exact Wc|].
    apply root_renders. apply puts_failed; auto.
    + apply Forall_app. auto.
    + clear -Ka2. induction Ka2; constructor; auto.
Qed.
Print Assumptions C70_concat.

(* ------------------------------------------------------------------ *)
(** * The conditions are needed *)
(** [\iffalse] and [\iftypst] do not stop at the closing brace; a label put in one
    group is written in a later one.  (Found with this theorem: in formulas a
    label waits, and the next formula with a number or list takes it.) *)
Definition not_concat (m : mode) (a b : text) : Prop := forall macros, exists f0, forall fuel, f0 <= fuel ->
  exists oa ob o, convert_source macros m fuel PAGE a None = COk oa /\ convert_source macros m fuel PAGE b None = COk ob /\
    convert_source macros m fuel PAGE (a ++ b) None = COk o /\ o <> oa ++ ob.
Lemma not_concat_by m a b n oa ob o :
  (forall macros, match parse_source macros n PAGE DEFAULT_SPEC a with Ok t => convert_tree DEFAULT_SPEC m t = COk oa | _ => False end) ->
  (forall macros, match parse_source macros n PAGE DEFAULT_SPEC b with Ok t => convert_tree DEFAULT_SPEC m t = COk ob | _ => False end) ->
  (forall macros, match parse_source macros n PAGE DEFAULT_SPEC (a ++ b) with Ok t => convert_tree DEFAULT_SPEC m t = COk o | _ => False end) ->
  teqb o (oa ++ ob) = false -> not_concat m a b.
Proof.
  intros Ha Hb H N macros. specialize (Ha macros). specialize (Hb macros). specialize (H macros).
  destruct (parse_source macros n PAGE DEFAULT_SPEC a) as [ta| |] eqn:Pa; try contradiction.
  destruct (parse_source macros n PAGE DEFAULT_SPEC b) as [tb| |] eqn:Pb; try contradiction.
  destruct (parse_source macros n PAGE DEFAULT_SPEC (a ++ b)) as [t| |] eqn:P; try contradiction.
  apply parse_keeps in Pa as [fa Pa]; [|unfold PAGE; lia]. apply parse_keeps in Pb as [fb Pb]; [|unfold PAGE; lia]. apply parse_keeps in P as [f P]; [|unfold PAGE; lia].
  exists (Nat.max f (Nat.max fa fb)). intros fuel L. exists oa, ob, o. unfold convert_source, convert_inner. rewrite (Pa fuel) by lia. rewrite (Pb fuel) by lia. rewrite (P fuel) by lia.
  split; [exact Ha|]. split; [exact Hb|]. split; [exact H|]. intros ->. rewrite (proj2 (teqb_eq _ _) eq_refl) in N. discriminate N.
Qed.
Theorem C70_concat_refuted :
  not_concat MMath (tx "{\iffalse}") (tx "{b}") /\ not_concat MMath (tx "{\iftypst}") (tx "{b}") /\
  not_concat MMath (tx "{\label{x}}") (tx "{\text{\begin{equation}a\end{equation}}}").
Proof. split; [|split]; (eapply (not_concat_by _ _ _ 300); [intros []; vm_compute; reflexivity..|vm_compute; reflexivity]). Qed.
Print Assumptions C70_concat_refuted.
(** A script mark takes the closing brace as an error (found with this theorem:
    [{a_} d] is one group, with [d] in it), and [\left] takes the opening brace as
    a delimiter. *)
Definition not_replaced (sx sy src src' : text) : Prop := forall macros, exists f0, forall fuel, f0 <= fuel ->
  exists g h t t', parse_source macros fuel PAGE DEFAULT_SPEC sx = Ok (Node ScopeRoot [g]) /\ parse_source macros fuel PAGE DEFAULT_SPEC sy = Ok (Node ScopeRoot [h]) /\
    parse_source macros fuel PAGE DEFAULT_SPEC src = Ok t /\ parse_source macros fuel PAGE DEFAULT_SPEC src' = Ok t' /\ ~ exchanged g h t t'.
Lemma not_replaced_by sx sy src src' n g h t t' :
  (forall macros, parse_source macros n PAGE DEFAULT_SPEC sx = Ok (Node ScopeRoot [g])) -> (forall macros, parse_source macros n PAGE DEFAULT_SPEC sy = Ok (Node ScopeRoot [h])) ->
  (forall macros, parse_source macros n PAGE DEFAULT_SPEC src = Ok t) -> (forall macros, parse_source macros n PAGE DEFAULT_SPEC src' = Ok t') ->
  ~ exchanged g h t t' -> not_replaced sx sy src src'.
Proof.
  intros Hx Hy H H' N macros.
  destruct (parse_keeps _ _ PAGE _ _ _ ltac:(unfold PAGE; lia) (Hx macros)) as [f1 F1]. destruct (parse_keeps _ _ PAGE _ _ _ ltac:(unfold PAGE; lia) (Hy macros)) as [f2 F2].
  destruct (parse_keeps _ _ PAGE _ _ _ ltac:(unfold PAGE; lia) (H macros)) as [f3 F3]. destruct (parse_keeps _ _ PAGE _ _ _ ltac:(unfold PAGE; lia) (H' macros)) as [f4 F4].
  exists (Nat.max (Nat.max f1 f2) (Nat.max f3 f4)). intros fuel L. exists g, h, t, t'.
  split; [apply F1; lia|]. split; [apply F2; lia|]. split; [apply F3; lia|]. split; [apply F4; lia|exact N].
Qed.
Theorem C70_replace_refuted :
  not_replaced (tx "{a_}") (tx "{c}") (tx "{a_}d") (tx "{c}d") /\
  not_replaced (tx "{\iffalse}") (tx "{c}") (tx "{\iffalse}d") (tx "{c}d") /\
  not_replaced (tx "{a}") (tx "{c}") (tx "\left{a}") (tx "\left{c}").
Proof.
  split; [|split]; (eapply (not_replaced_by _ _ _ _ 300); [intros []; vm_compute; reflexivity..|]);
    intros H; inversion H; subst; repeat match goal with F : Forall2 _ _ _ |- _ => inversion F; clear F; subst | E : exchanged _ _ _ _ |- _ => inversion E; clear E; subst end.
Qed.
Print Assumptions C70_replace_refuted.

(** ** Cases *)
Fixpoint enclosed_b (depth : nat) (w : wants) (ts : list tok) : bool :=
  match ts with
  | [] => match depth, w with O, Nothing => true | _, _ => false end
  | t :: r =>
    match role_of (fst t) with
    | Space => enclosed_b depth w r
    | Open => match w with Side => false | _ => enclosed_b (S depth) Nothing r end
    | Close => match w, depth with Nothing, S d => enclosed_b d Nothing r | _, _ => false end
    | Mark => enclosed_b depth Script r
    | Pair => enclosed_b depth Side r
    | Skip => false
    | Plain => enclosed_b depth Nothing r
    end
  end.
Lemma enclosed_b_ok ts : forall d w, enclosed_b d w ts = true -> enclosed d w ts.
Proof.
  induction ts as [|t r IH]; intros d w H; cbn in *; [destruct d, w; try discriminate H; auto|].
  destruct (role_of (fst t)); auto.
  - destruct w; try discriminate H; (split; [discriminate|auto]).
  - destruct w; try discriminate H. destruct d; [discriminate H|auto].
  - discriminate H.
Qed.
Definition C70_toks (s : string) : list tok := stream_toks (lex_stream DEFAULT_SPEC (tx s)).
Definition C70_parts : list string := ["a_{b}^2 \over \sqrt[3]{x}"; "\left( \frac{a}{b} \middle| c \right]"; "\begin{matrix} 1 & 2 \\ {3} & \alpha \end{matrix}"; "$x$ % note
 y"]%string.
Definition C70_braced (s : string) : text := tx "{" ++ tx s ++ tx "}".
Example C70_concat_example :
  tokens_of false PAGE DEFAULT_SPEC (List.concat (map C70_braced C70_parts)) (List.concat (map braced (map C70_toks C70_parts))) /\
  Forall2 (fun s x => tokens_of false PAGE DEFAULT_SPEC s (braced x)) (map C70_braced C70_parts) (map C70_toks C70_parts) /\
  Forall content_of_group (map C70_toks C70_parts) /\ Forall (Forall (fun u => snd u <> tx "\label")) (map C70_toks C70_parts) /\
  exists o, convert_source false MMath 800 PAGE (List.concat (map C70_braced C70_parts)) None = COk o /\ 100 <= List.length o.
Proof.
  split; [split; [vm_compute; reflexivity|vm_compute; reflexivity]|].
  split; [unfold C70_parts; cbn [map]; repeat apply Forall2_cons; try apply Forall2_nil; (split; [vm_compute; reflexivity|vm_compute; reflexivity])|].
  split; [unfold C70_parts; cbn [map]; repeat apply Forall_cons; try apply Forall_nil; apply enclosed_b_ok; vm_compute; reflexivity|].
  split.
  { assert (B : forallb (forallb (fun u : tok => negb (teqb (snd u) (tx "\label")))) (map C70_toks C70_parts) = true) by (vm_compute; reflexivity).
    rewrite forallb_forall in B. apply Forall_forall. intros l Hl. specialize (B l Hl). rewrite forallb_forall in B. apply Forall_forall. intros u Hu E. specialize (B u Hu).
    rewrite E in B. discriminate B. }
  eexists. split; [vm_compute; reflexivity|]. apply Nat.leb_le. vm_compute. reflexivity.
Qed.
Example C70_replace_example : exists ts ts' x y t tx' ty,
  content_of_group x /\ content_of_group y /\ tokens_of false PAGE DEFAULT_SPEC (tx "{b^{2}}") (braced x) /\ parse_source false 400 PAGE DEFAULT_SPEC (tx "{b^{2}}") = Ok tx' /\
  tokens_of false PAGE DEFAULT_SPEC (tx "{p \over q}") (braced y) /\ parse_source false 400 PAGE DEFAULT_SPEC (tx "{p \over q}") = Ok ty /\
  tokens_of false PAGE DEFAULT_SPEC (tx "a_{b^{2}} \frac{b^{2}}{b^{2}} \over {b^{2}}") ts /\
  tokens_of false PAGE DEFAULT_SPEC (tx "a_{p \over q} \frac{b^{2}}{p \over q} \over {p \over q}") ts' /\ replaced x y ts ts' /\
  parse_source false 400 PAGE DEFAULT_SPEC (tx "a_{b^{2}} \frac{b^{2}}{b^{2}} \over {b^{2}}") = Ok t.
Proof.
  exists (C70_toks "a_{b^{2}} \frac{b^{2}}{b^{2}} \over {b^{2}}"), (C70_toks "a_{p \over q} \frac{b^{2}}{p \over q} \over {p \over q}"), (C70_toks "b^{2}"), (C70_toks "p \over q"). do 3 eexists.
  split; [apply enclosed_b_ok; vm_compute; reflexivity|]. split; [apply enclosed_b_ok; vm_compute; reflexivity|].
  split; [split; [vm_compute; reflexivity|vm_compute; reflexivity]|]. split; [vm_compute; reflexivity|].
  split; [split; [vm_compute; reflexivity|vm_compute; reflexivity]|]. split; [vm_compute; reflexivity|].
  split; [split; [vm_compute; reflexivity|vm_compute; reflexivity]|]. split; [split; [vm_compute; reflexivity|vm_compute; reflexivity]|].
  split; [|vm_compute; reflexivity].
  change (C70_toks "a_{b^{2}} \frac{b^{2}}{b^{2}} \over {b^{2}}") with (C70_toks "a_" ++ braced (C70_toks "b^{2}") ++ C70_toks " \frac{b^{2}}" ++ braced (C70_toks "b^{2}") ++ C70_toks " \over " ++ braced (C70_toks "b^{2}") ++ []).
  change (C70_toks "a_{p \over q} \frac{b^{2}}{p \over q} \over {p \over q}") with (C70_toks "a_" ++ braced (C70_toks "p \over q") ++ C70_toks " \frac{b^{2}}" ++ braced (C70_toks "p \over q") ++ C70_toks " \over " ++ braced (C70_toks "p \over q") ++ []).
  assert (K : forall u ts ts', forallb (fun t : tok => match role_of (fst t) with Skip | Pair => false | _ => true end) u = true ->
    replaced (C70_toks "b^{2}") (C70_toks "p \over q") ts ts' -> replaced (C70_toks "b^{2}") (C70_toks "p \over q") (u ++ ts) (u ++ ts')).
  { induction u as [|t u IH]; intros ts ts' H R; [exact R|]. cbn in H. apply andb_prop in H as [H1 H2]. cbn [app]. apply rp_token; [| |now apply IH]; intros E; rewrite E in H1; discriminate H1. }
  apply K; [vm_compute; reflexivity|]. apply rp_group. apply K; [vm_compute; reflexivity|]. apply rp_group. apply K; [vm_compute; reflexivity|]. apply rp_group. apply rp_none.
Qed.
