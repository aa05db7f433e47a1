(** Replacing a group replaces its tree, and nothing else (C70). *)
From Verif Require Import GramSpec GramSound GramComplete P_Gram.
From Verif Require Import ShieldFacts GramSpec ShieldSpec.
Local Open Scope nat_scope.

Section Swap.
  Variable gm : text -> text -> bool.
  Variable sp : spec.
  Variables x y : list tok.
  Variables g h : tree.
  Hypothesis Hx : content_of_group x.
  Hypothesis Hg : forall v, group gm sp Braces lbrace (x ++ rbrace :: v) g v.
  Hypothesis Hh : forall v, group gm sp Braces lbrace (y ++ rbrace :: v) h v.
  Notation R := (exchanged g h).
  Notation RR := (Forall2 (exchanged g h)).
  Notation rep := (replaced x y).

  Lemma refls (l : list tree) : RR l l. Proof. induction l; constructor; [constructor|assumption]. Qed.
  Lemma below k ch ch' : RR ch ch' -> R (Node k ch) (Node k ch'). Proof. apply ex_below. Qed.
  Lemma one t t' : R t t' -> RR [t] [t']. Proof. intros H. constructor; [exact H|constructor]. Qed.
  Lemma same t l l' : RR l l' -> RR (t :: l) (t :: l'). Proof. intros H. constructor; [constructor|exact H]. Qed.

  (** ** Lines *)
  Definition L (l l2 : line) : Prop :=
    RR (before l) (before l2) /\
    match base l, base l2 with Some a, Some b => RR a b | None, None => True | _, _ => False end /\ from l = from l2.
  Lemma L_all l l2 : L l l2 -> RR (GramSpec.all l) (GramSpec.all l2).
  Proof. destruct l as [b [a|] f], l2 as [b2 [a2|] f2]; intros (H1 & H2 & H3); cbn in *; try contradiction; unfold GramSpec.all; cbn; apply Forall2_app; auto. Qed.
  Lemma L_add xs xs2 l l2 : L l l2 -> RR xs xs2 -> L (add xs l) (add xs2 l2).
  Proof.
    destruct l as [b [a|] f], l2 as [b2 [a2|] f2]; intros (H1 & H2 & H3) H; cbn in *; try contradiction; (split; [|split]); cbn; auto using Forall2_app.
  Qed.
  Lemma L_baseless l l2 : L l l2 -> L (baseless l) (baseless l2).
  Proof. intros H. split; [apply L_all, H|]. split; [exact I|apply H]. Qed.
  Lemma L_fresh r : L (GramSpec.fresh r) (GramSpec.fresh r). Proof. split; [constructor|]. split; [exact I|reflexivity]. Qed.
  Lemma L_base l l2 ys : L l l2 -> base l = Some ys -> exists ys2, base l2 = Some ys2 /\ RR ys ys2.
  Proof. intros (_ & H & _) E. rewrite E in H. destruct (base l2); [eauto|contradiction]. Qed.
  Lemma L_none l l2 : L l l2 -> base l = None -> base l2 = None.
  Proof. intros (_ & H & _) E. rewrite E in H. destruct (base l2); [contradiction|reflexivity]. Qed.
  Lemma L_from l l2 : L l l2 -> from l2 = from l. Proof. intros (_ & _ & H). now rewrite H. Qed.
  Lemma L_inside l l2 t bs : L l l2 -> L (GramSpec.inside l t bs) (GramSpec.inside l2 t bs).
  Proof.
    destruct l as [b [a|] f], l2 as [b2 [a2|] f2]; intros (H1 & H2 & H3); cbn in *; try contradiction; subst f2; (split; [|split]); cbn.
    - constructor.
    - constructor; [apply below, H2|apply refls].
    - destruct f; auto. destruct H1; reflexivity.
    - apply refls.
    - exact I.
    - destruct f; auto. destruct H1; reflexivity.
  Qed.
  Lemma L_outside l l2 i i2 : L l l2 -> L i i2 -> L (outside l i) (outside l2 i2).
  Proof.
    intros (H1 & H2 & H3) Hi. pose proof (L_all _ _ Hi) as Ha. destruct Hi as (I1 & I2 & I3). unfold outside. rewrite I3, H3.
    destruct (base i), (base i2); try contradiction; (split; [|split]); cbn; auto using Forall2_app, below, one.
  Qed.
  Lemma RR_split a b a2 b2 : RR (a ++ b) (a2 ++ b2) -> List.length a = List.length a2 -> RR b b2.
  Proof.
    revert a2. induction a as [|t a IH]; destruct a2 as [|t2 a2]; cbn; try discriminate; [auto|]. intros H [= E]. inversion H; subst. eauto.
  Qed.
  Lemma RR_length a b : RR a b -> List.length a = List.length b. Proof. induction 1; cbn; auto. Qed.

  (** ** Tokens *)
  Definition free (r : list tok) : Prop := forall bs u r', r = bs ++ u :: r' -> Forall blank_token bs -> fst u <> TLeft Curly.
  Lemma rp_inv t r z : rep (t :: r) z ->
    (exists r', z = t :: r' /\ rep r r' /\ (role_of (fst t) = Skip -> r = r') /\ (role_of (fst t) = Pair -> free r \/ r = r')) \/
    (t = lbrace /\ exists r0 r0', r = x ++ rbrace :: r0 /\ z = lbrace :: y ++ rbrace :: r0' /\ rep r0 r0').
  Proof.
    intros H. remember (t :: r) as ts eqn:E. destruct H as [ts|t' ts ts' H1 H2 H3|ts ts' H].
    - left. exists r. subst. repeat split; auto. constructor.
    - injection E as -> ->. left. exists ts'. split; [reflexivity|]. split; [exact H3|]. split; [intros X; contradiction|]. intros X. left. exact (H2 X).
    - unfold braced in E. cbn in E. injection E as <- <-. right. split; [reflexivity|]. exists ts, ts'.
      rewrite <- app_assoc. unfold braced. cbn. rewrite <- app_assoc. auto.
  Qed.
  Lemma rp_cons t r z : fst t <> TLeft Curly -> rep (t :: r) z ->
    exists r', z = t :: r' /\ rep r r' /\ (role_of (fst t) = Skip -> r = r') /\ (role_of (fst t) = Pair -> free r \/ r = r').
  Proof. intros N H. apply rp_inv in H as [H|[-> _]]; [exact H|]. elim N. reflexivity. Qed.
  Lemma rp_nil z : rep [] z -> z = [].
  Proof. intros H. remember [] as ts eqn:E. destruct H; [auto|discriminate|discriminate]. Qed.
  Lemma rp_front a r z : Forall (fun t => fst t <> TLeft Curly) a -> rep (a ++ r) z -> exists r', z = a ++ r' /\ rep r r'.
  Proof.
    intros H. revert z. induction H as [|t a Ht Ha IH]; intros z Hz; [exists z; auto|].
    apply rp_cons in Hz as (r' & -> & Hz & _); [|exact Ht]. destruct (IH _ Hz) as (r2 & -> & H2). exists r2. auto.
  Qed.
  Lemma rp_hd r z : rep r z -> hd_error r = hd_error z.
  Proof. intros H. destruct H; reflexivity. Qed.
  Lemma rp_heads P r z : rep r z -> ~ heads P r -> ~ heads P z.
  Proof. intros H. apply rp_hd in H. destruct r, z; try discriminate H; [auto|]. injection H as ->. auto. Qed.
  Lemma rp_word s r r2 : rep r r2 -> rep (rest_word s r) (rest_word s r2).
  Proof. intros H. destruct s; [exact H|]. apply rp_token; [discriminate|discriminate|exact H]. Qed.
  Lemma blanks_free (bs : list tok) : Forall blank_token bs -> Forall (fun t => fst t <> TLeft Curly) bs.
  Proof. apply Forall_impl. intros t H. apply role_blank in H. intros E. rewrite E in H. discriminate. Qed.
  Lemma texts_free (bs : list tok) : Forall text_token bs -> Forall (fun t => fst t <> TLeft Curly) bs.
  Proof. apply Forall_impl. intros t H. apply role_text in H. intros E. rewrite E in H. destruct H; discriminate. Qed.

  Lemma delimiter_swap ts xs r z : delimiter ts xs r -> rep ts z -> ~ heads (fun u => fst u = TLeft Curly) ts ->
    exists r2, delimiter z xs r2 /\ rep r r2.
  Proof.
    intros H Hz Hn. destruct H as [|t r N|s r|c r|c c1 s r|t r N1 N2 N3 N4].
    - apply rp_nil in Hz. subst. exists []. split; constructor.
    - exists z. split; [|exact Hz]. apply rp_cons in Hz as (r' & -> & _); [|exact Hn]. now constructor.
    - apply rp_cons in Hz as (r' & -> & Hr & _); [|exact Hn]. exists r'. split; [constructor|exact Hr].
    - apply rp_cons in Hz as (r' & -> & Hr & _); [|exact Hn]. exists r'. split; [constructor|exact Hr].
    - apply rp_cons in Hz as (r' & -> & Hr & _); [|exact Hn]. exists ((Word, c1 :: s) :: r'). split; [constructor|].
      apply (rp_word (c1 :: s)). exact Hr.
    - apply rp_cons in Hz as (r' & -> & Hr & _); [|exact Hn]. exists r'. split; [now constructor|exact Hr].
  Qed.
  Lemma clause_swap t ts c r z : clause t ts c r -> rep ts z -> free ts \/ ts = z -> exists r2, clause t z c r2 /\ rep r r2.
  Proof.
    intros H Hz [Hf| <-]; [|exists r; split; [exact H|constructor]].
    destruct H as [bs r xs r' Hb Hn Hd]. apply rp_front in Hz as (z' & -> & Hz); [|now apply blanks_free].
    destruct (delimiter_swap r xs r' z' Hd Hz) as (r2 & Hd2 & H2).
    - destruct r as [|u r0]; [auto|]. cbn. apply (Hf bs u r0); auto.
    - exists r2. split; [|exact H2]. constructor; [exact Hb|eapply rp_heads; eassumption|exact Hd2].
  Qed.
  Lemma right_swap ts e r z : right_side ts e r -> rep ts z -> exists r2, right_side z e r2 /\ rep r r2.
  Proof.
    intros H Hz. destruct H as [s r c r' H|r H].
    - apply rp_cons in Hz as (z' & -> & Hz & _ & P); [|discriminate]. destruct (clause_swap _ _ _ _ _ H Hz (P eq_refl)) as (r2 & H2 & H3).
      exists r2. split; [now constructor|exact H3].
    - exists z. split; [|exact Hz]. constructor. eapply rp_heads; eassumption.
  Qed.
  Lemma end_swap ts e r z : env_end ts e r -> rep ts z -> exists r2, env_end z e r2 /\ rep r r2.
  Proof.
    intros H Hz. destruct H as [s r|r H].
    - apply rp_cons in Hz as (z' & -> & Hz & _); [|discriminate]. exists z'. split; [now constructor|exact Hz].
    - exists z. split; [|exact Hz]. constructor. eapply rp_heads; eassumption.
  Qed.

  (** ** The grammar *)
  Definition w_content p gr l ts l' r : Prop := forall l2 z, L l l2 -> rep ts z ->
    exists l2' r2, content gm sp p gr l2 z l2' r2 /\ L l' l2' /\ rep r r2.
  Definition w_element p f l t ts b l' r : Prop := forall l2 z, L l l2 -> rep (t :: ts) z ->
    exists z' l2' r2, z = t :: z' /\ element gm sp p f l2 t z' b l2' r2 /\ L l' l2' /\ rep r r2.
  Definition w_group q t ts u r : Prop := forall z, rep (t :: ts) z ->
    exists z' u2 r2, z = t :: z' /\ group gm sp q t z' u2 r2 /\ R u u2 /\ rep r r2.
  Definition w_arguments p a w held ts xs held' r : Prop := forall z, rep ts z ->
    exists xs2 r2, GramSpec.arguments gm sp p a w held z xs2 held' r2 /\ RR xs xs2 /\ rep r r2.

  (** the tree of [{x}] is [g] *)
  Lemma group_reading z u : group gm sp Braces lbrace (z ++ [rbrace]) u [] -> reading gm sp (braced z) (Node ScopeRoot [u]).
  Proof.
    intros H. eexists. split; [|cbn [GramSpec.all before base]].
    - unfold braced. eapply (c_base _ _ _ _ _ _ _ _ [u]); [intros [X _]; now apply X|eapply e_group; [reflexivity|exact H]|reflexivity|apply c_eof].
    - reflexivity.
  Qed.
  Lemma group_is_g u r v : group gm sp Braces lbrace (x ++ rbrace :: v) u r -> r = v /\ u = g.
  Proof.
    intros H. destruct (group_alone gm sp rbrace eq_refl lbrace x u r v eq_refl Hx H) as [-> K]. split; [reflexivity|].
    specialize (K []). pose proof (group_reading _ _ K) as R1. pose proof (group_reading _ _ (Hg [])) as R2.
    pose proof (C56_unique _ _ _ _ _ R1 R2) as E. now injection E.
  Qed.

  Lemma simple_swap p f l t r b l' : fst t <> TLeft Curly ->
    (forall l2, L l l2 -> exists l2', L l' l2' /\ forall r, element gm sp p f l2 t r b l2' r) -> w_element p f l t r b l' r.
  Proof.
    intros N H l2 z Hl Hz. apply rp_cons in Hz as (z' & -> & Hz & _); [|exact N]. destruct (H _ Hl) as (l2' & HL & K).
    exists z', l2', z'. auto.
  Qed.
  Lemma named_free t : named t -> t <> TLeft Curly.
  Proof. intros [H|(i & -> & _)]; [|discriminate]. intros ->. cbn [In] in H. repeat destruct H as [H|H]; try discriminate; contradiction. Qed.
  Ltac ff := first [assumption | discriminate | (apply named_free; assumption)].

  Theorem swaps :
    (forall p gr l ts l' r, content gm sp p gr l ts l' r -> w_content p gr l ts l' r) /\
    (forall p f l t ts b l' r, element gm sp p f l t ts b l' r -> w_element p f l t ts b l' r) /\
    (forall q t ts u r, group gm sp q t ts u r -> w_group q t ts u r) /\
    (forall p a w k ts xs k' r, GramSpec.arguments gm sp p a w k ts xs k' r -> w_arguments p a w k ts xs k' r).
  Proof.
    apply (grammar_ind gm sp (fun p gr l ts l' r _ => w_content p gr l ts l' r) (fun p f l t ts b l' r _ => w_element p f l t ts b l' r)
      (fun q t ts u r _ => w_group q t ts u r) (fun p a w k ts xs k' r _ => w_arguments p a w k ts xs k' r)).
    - (* eof *) intros p gr l l2 z Hl Hz. apply rp_nil in Hz. subst. exists l2, []. split; [constructor|]. split; [exact Hl|constructor].
    - (* end *) intros p gr l t r Hs l2 z Hl Hz. pose proof (rp_hd _ _ Hz) as Hd. destruct z as [|t2 z]; [discriminate|]. injection Hd as <-.
      exists l2, (t :: z). split; [now apply c_end|]. auto.
    - (* base *) intros p gr l t r l1 xs r1 l' r' Hs He IHe Ha Hc IHc l2 z Hl Hz.
      destruct (IHe l2 z Hl Hz) as (z' & l1' & r2 & -> & He2 & Hl1 & Hr2).
      destruct (element_base _ _ _ _ _ _ _ _ _ He2) as [xs2 Hx2].
      assert (Hxs : RR xs xs2).
      { pose proof (L_all _ _ Hl1) as X. rewrite Ha, Hx2 in X. eapply RR_split; [exact X|]. eapply RR_length, L_all, Hl. }
      destruct (IHc (mk_line (GramSpec.all l2) (Some xs2) (from l1')) r2) as (l2' & r3 & Hc2 & Hl2 & Hr3); [|exact Hr2|].
      + split; [apply L_all, Hl|]. split; [exact Hxs|apply Hl1].
      + exists l2', r3. split; [|auto]. eapply c_base; eassumption.
    - (* other *) intros p gr l t r l1 r1 l' r' Hs He IHe Hc IHc l2 z Hl Hz.
      destruct (IHe l2 z Hl Hz) as (z' & l1' & r2 & -> & He2 & Hl1 & Hr2). destruct (IHc l1' r2 Hl1 Hr2) as (l2' & r3 & Hc2 & Hl2 & Hr3).
      exists l2', r3. split; [|auto]. eapply c_other; eassumption.
    - intros p f l t r H. apply simple_swap; [clear -H; intros X; rewrite X in H; unfold mark_base in H; cbn [In] in H; repeat destruct H as [H|H]; try discriminate; contradiction|].
      intros l2 Hl. exists (add [lf t] l2). split; [apply L_add; [exact Hl|apply refls]|]. intros. now constructor.
    - intros p f l t r H. apply simple_swap; [clear -H; intros X; rewrite X in H; unfold mark_plain in H; cbn [In] in H; repeat destruct H as [H|H]; try discriminate; contradiction|].
      intros l2 Hl. exists (add [lf t] l2). split; [apply L_add; [exact Hl|apply refls]|]. intros. now constructor.
    - intros p f l t r H. apply simple_swap.
      { clear -H. intros X. rewrite X in H. destruct H as [H|[n H]]; [|discriminate H]. cbn [In] in H. repeat destruct H as [H|H]; try discriminate; contradiction. }
      intros l2 Hl. exists (add [Node TokenError [lf t]] l2). split; [apply L_add; [exact Hl|apply refls]|]. intros. now constructor.
    - (* text *) intros p f l t ts r Ht Hts Hr l2 z Hl Hz. apply rp_cons in Hz as (z' & -> & Hz & _); [|destruct Ht as [-> |[-> _]]; discriminate].
      apply rp_front in Hz as (z2 & -> & Hz); [|now apply texts_free]. exists (ts ++ z2), (add [Node ItemText (map lf (t :: ts))] l2), z2.
      split; [reflexivity|]. split; [|split; [apply L_add; [exact Hl|apply refls]|exact Hz]]. constructor; [exact Ht|exact Hts|eapply rp_heads; eassumption].
    - intros p l c s r l2 z Hl Hz. apply rp_cons in Hz as (z' & -> & Hz & _); [|discriminate].
      exists z', (add [Leaf TokenWord [c]] l2), (rest_word s z'). split; [reflexivity|]. split; [constructor|]. split; [apply L_add; [exact Hl|apply refls]|now apply rp_word].
    - (* groups *) intros p f l t r u r' Ht Hgr IH l2 z Hl Hz. destruct (IH z Hz) as (z' & u2 & r2 & -> & Hg2 & Hu & Hr).
      exists z', (add [u2] l2), r2. split; [reflexivity|]. split; [now apply e_group|]. split; [apply L_add; [exact Hl|now apply one]|exact Hr].
    - intros p f l t r u r' Ht Hgr IH l2 z Hl Hz. destruct (IH z Hz) as (z' & u2 & r2 & -> & Hg2 & Hu & Hr).
      exists z', (add [u2] l2), r2. split; [reflexivity|]. split; [now apply e_dollars|]. split; [apply L_add; [exact Hl|now apply one]|exact Hr].
    - intros p f l t r u r' Ht Hgr IH l2 z Hl Hz. destruct (IH z Hz) as (z' & u2 & r2 & -> & Hg2 & Hu & Hr).
      exists z', (add [u2] l2), r2. split; [reflexivity|]. split; [now apply e_math|]. split; [apply L_add; [exact Hl|now apply one]|exact Hr].
    - (* sides *) intros p f l t r c1 r1 l1 r2 e r' Ht Hcl Hco IH Hr l2 z Hl Hz.
      apply rp_cons in Hz as (z' & -> & Hz & _ & P); [|rewrite Ht; discriminate].
      destruct (clause_swap _ _ _ _ _ Hcl Hz) as (z1 & Hcl2 & Hz1); [apply P; now rewrite Ht|].
      destruct (IH _ z1 (L_fresh _) Hz1) as (l1' & z2 & Hco2 & HL & Hz2). destruct (right_swap _ _ _ _ Hr Hz2) as (z3 & Hr2 & Hz3).
      exists z', (add [Node ItemLR (c1 :: GramSpec.all l1' ++ e)] l2), z3. split; [reflexivity|]. split; [eapply e_sides; eassumption|].
      split; [|exact Hz3]. apply L_add; [exact Hl|]. apply one, below, same, Forall2_app; [apply L_all, HL|apply refls].
    - (* environments *) intros p f l t r l1 r2 e r' Ht Hn Hco IH Hr l2 z Hl Hz.
      apply rp_cons in Hz as (z' & -> & Hz & _); [|rewrite Ht; discriminate].
      destruct (IH _ z' (L_fresh _) Hz) as (l1' & z2 & Hco2 & HL & Hz2). destruct (end_swap _ _ _ _ Hr Hz2) as (z3 & Hr2 & Hz3).
      exists z', (add [Node ItemEnv (Node ItemBegin [lf t] :: GramSpec.all l1' ++ e)] l2), z3. split; [reflexivity|]. split; [eapply e_env; eassumption|].
      split; [|exact Hz3]. apply L_add; [exact Hl|]. apply one, below, same, Forall2_app; [apply L_all, HL|apply refls].
    - intros p f l t r a args held r1 l1 r2 e r' Ht Hb Hn Hgr Ha IHa Hco IH Hr l2 z Hl Hz.
      apply rp_cons in Hz as (z' & -> & Hz & _); [|rewrite Ht; discriminate].
      destruct (IHa _ Hz) as (args2 & z1 & Ha2 & HA & Hz1).
      destruct (IH _ z1 (L_fresh _) Hz1) as (l1' & z2 & Hco2 & HL & Hz2). destruct (end_swap _ _ _ _ Hr Hz2) as (z3 & Hr2 & Hz3).
      exists z', (add [Node ItemEnv (Node ItemBegin (lf t :: args2) :: map lf held ++ GramSpec.all l1' ++ e)] (baseless l2)), z3. split; [reflexivity|]. split; [eapply e_env_args; eassumption|].
      split; [|exact Hz3]. apply L_add; [now apply L_baseless|]. apply one, below. constructor; [now apply below, same|].
      apply Forall2_app; [apply refls|]. apply Forall2_app; [apply L_all, HL|apply refls].
    - (* skipped *) intros p f l i s r k xs r' Hi Hs l2 z Hl Hz. apply rp_cons in Hz as (z' & -> & Hz & P & _); [|discriminate].
      assert (r = z') as <- by (apply P; destruct Hi as [[-> _]|[-> _]]; reflexivity).
      exists r, (add [Node k xs] l2), r'. split; [reflexivity|]. split; [now apply e_skip|]. split; [apply L_add; [exact Hl|apply refls]|constructor].
    - (* commands *) intros p f l t r name Hn Hs Hb. apply simple_swap; [ff|]. intros l2 Hl. exists (add [Node ItemCmd [lf t]] l2).
      split; [apply L_add; [exact Hl|apply refls]|]. intros. eapply e_bare; eauto.
    - intros p f l t r name a args held r' Hn Hs Hb Hna Hgr Ha IHa l2 z Hl Hz. apply rp_cons in Hz as (z' & -> & Hz & _); [|ff].
      destruct (IHa _ Hz) as (args2 & z1 & Ha2 & HA & Hz1). exists z', (add (Node ItemCmd (lf t :: args2) :: map lf held) (baseless l2)), z1.
      split; [reflexivity|]. split; [eapply e_command; eassumption|]. split; [|exact Hz1]. apply L_add; [now apply L_baseless|].
      constructor; [now apply below, same|apply refls].
    - intros p f l t r name l1 r' Hn Hs Hb Ha IHa l2 z Hl Hz. apply rp_cons in Hz as (z' & -> & Hz & _); [|ff].
      destruct (IHa _ _ (L_fresh _) Hz) as (l1' & z1 & Ha2 & HA & Hz1). exists z', (add [Node ItemCmd [lf t; as_argument (GramSpec.all l1')]] (baseless l2)), z1.
      split; [reflexivity|]. split; [eapply e_greedy; eassumption|]. split; [|exact Hz1]. apply L_add; [now apply L_baseless|].
      apply one, below, same, one, below, L_all, HA.
    - intros p f l t r name ys Hn Hs Hb Hy. apply simple_swap; [ff|]. intros l2 Hl. destruct (L_base _ _ _ Hl Hy) as (ys2 & Hy2 & HY).
      eexists. split; [|intros; eapply e_postfix; eauto]. split; [apply Hl|]. split; [|apply Hl]. cbn. apply one, below. constructor; [now apply below|apply refls].
    - intros p f l t r name Hn Hs Hb Hy Hf. apply simple_swap; [ff|]. intros l2 Hl.
      eexists. split; [|intros; eapply e_postfix_all; eauto; [now apply (L_none _ _ Hl)|now rewrite (L_from _ _ Hl)]].
      split; [|split; [exact I|reflexivity]]. cbn. apply one, below. constructor; [now apply below, L_all|apply refls].
    - intros p f l t r name Hn Hs Hb Hy Hf. apply simple_swap; [ff|]. intros l2 Hl.
      eexists. split; [|intros; eapply e_postfix_none; eauto; [now apply (L_none _ _ Hl)|now rewrite (L_from _ _ Hl)]].
      apply L_add; [exact Hl|apply refls].
    - intros p f l t r name l1 r' Hn Hs Hb Hf Ha IHa l2 z Hl Hz. apply rp_cons in Hz as (z' & -> & Hz & _); [|ff].
      destruct (IHa _ _ (L_fresh _) Hz) as (l1' & z1 & Ha2 & HA & Hz1). eexists z', _, z1.
      split; [reflexivity|]. split; [eapply e_infix; try eassumption; now rewrite (L_from _ _ Hl)|]. split; [|exact Hz1].
      split; [|split; [exact I|reflexivity]]. cbn. apply one, below. constructor; [now apply below, L_all|]. apply same, one, below, L_all, HA.
    - intros p f l t r name l1 r' Hn Hs Hb Hf Ha IHa l2 z Hl Hz. apply rp_cons in Hz as (z' & -> & Hz & _); [|ff].
      destruct (IHa _ _ (L_fresh _) Hz) as (l1' & z1 & Ha2 & HA & Hz1). eexists z', _, z1.
      split; [reflexivity|]. split; [eapply e_infix_again; try eassumption; now rewrite (L_from _ _ Hl)|]. split; [|exact Hz1].
      apply L_add; [now apply L_baseless|]. apply one, below, same, one, below, L_all, HA.
    - (* primes *) intros p f l s r ys Hy. apply simple_swap; [discriminate|]. intros l2 Hl. destruct (L_base _ _ _ Hl Hy) as (ys2 & Hy2 & HY).
      eexists. split; [|intros; eapply e_prime; eauto]. split; [apply Hl|]. split; [|apply Hl]. cbn. apply one, below. constructor; [now apply below|apply refls].
    - intros p f l s r Hy. apply simple_swap; [discriminate|]. intros l2 Hl. eexists. split; [|intros; eapply e_prime_alone, (L_none _ _ Hl Hy)].
      apply L_add; [exact Hl|apply refls].
    - (* scripts *) intros p f l t bs u r b l1 r' Hm Hb Hu He IHe l2 z Hl Hz.
      apply rp_cons in Hz as (z' & -> & Hz & _); [|destruct Hm as [-> | ->]; discriminate].
      apply rp_front in Hz as (z1 & -> & Hz); [|now apply blanks_free]. destruct (IHe _ z1 (L_inside _ _ t bs Hl) Hz) as (z2 & l1' & r2 & -> & He2 & HL & Hr).
      exists (bs ++ u :: z2), (outside l2 l1'), r2. split; [reflexivity|]. split; [eapply e_script; eassumption|]. split; [now apply L_outside|exact Hr].
    - intros p f l t bs Hm Hb l2 z Hl Hz. apply rp_cons in Hz as (z' & -> & Hz & _); [|destruct Hm as [-> | ->]; discriminate].
      rewrite <- (app_nil_r bs) in Hz. apply rp_front in Hz as (z1 & -> & Hz); [|now apply blanks_free]. apply rp_nil in Hz as ->. rewrite app_nil_r.
      eexists bs, _, []. split; [reflexivity|]. split; [now apply e_script_end|]. split; [apply L_outside; [exact Hl|now apply L_inside]|constructor].
    - (* closed groups *) intros q t k r l t' r' B Hco IH Hcl z Hz. apply rp_inv in Hz as [(z' & -> & Hz & _)|[-> (r0 & r0' & -> & -> & Hz)]].
      + destruct (IH _ z' (L_fresh _) Hz) as (l2 & z2 & Hc2 & HL & Hz2). apply rp_cons in Hz2 as (z3 & -> & Hz3 & _); [|intros X; rewrite X in Hcl; destruct q; discriminate].
        eexists z', _, z3. split; [reflexivity|]. split; [eapply g_closed; eassumption|]. split; [|exact Hz3]. apply below, same, Forall2_app; [apply L_all, HL|apply refls].
      + assert (q = Braces) as -> by (clear -B; unfold brackets in B; cbn [In fst lbrace] in B; repeat destruct B as [B|B]; try contradiction; try congruence).
        destruct (group_is_g _ _ _ (g_closed _ _ _ _ _ _ _ _ _ B Hco Hcl)) as [-> ->].
        eexists _, h, _. split; [reflexivity|]. split; [apply Hh|]. split; [constructor|exact Hz].
    - (* open groups *) intros q t k r l r' B Hco IH Hcl z Hz. apply rp_inv in Hz as [(z' & -> & Hz & _)|[-> (r0 & r0' & -> & -> & Hz)]].
      + destruct (IH _ z' (L_fresh _) Hz) as (l2 & z2 & Hc2 & HL & Hz2).
        eexists z', _, z2. split; [reflexivity|]. split; [eapply g_open; [eassumption|eassumption|eapply rp_heads; eassumption]|]. split; [|exact Hz2]. apply below, same, L_all, HL.
      + assert (q = Braces) as -> by (clear -B; unfold brackets in B; cbn [In fst lbrace] in B; repeat destruct B as [B|B]; try contradiction; try congruence).
        destruct (group_is_g _ _ _ (g_open _ _ _ _ _ _ _ _ B Hco Hcl)) as [-> ->].
        eexists _, h, _. split; [reflexivity|]. split; [apply Hh|]. split; [constructor|exact Hz].
    - (* arguments *) intros p a w k z Hz. apply rp_nil in Hz as ->. exists [], []. split; [constructor|]. split; constructor.
    - intros p a w k t r xs k' r' Hb Ha IH z Hz. apply rp_cons in Hz as (z' & -> & Hz & _); [|intros X; apply role_blank in Hb; rewrite X in Hb; discriminate].
      destruct (IH _ Hz) as (xs2 & r2 & Ha2 & HX & Hr). exists xs2, r2. split; [now apply a_blank|auto].
    - intros p a w k t r Hs z Hz. pose proof (rp_hd _ _ Hz) as Hd. destruct z as [|t2 z]; [discriminate|]. injection Hd as <-.
      exists [], (t :: z). split; [now apply a_stop|]. split; [constructor|exact Hz].
    - intros p a w k t r Hb Hw Ht z Hz. pose proof (rp_hd _ _ Hz) as Hd. destruct z as [|t2 z]; [discriminate|]. injection Hd as <-.
      exists [], (t :: z). split; [now apply a_refuse|]. split; [constructor|exact Hz].
    - intros p a w k c s r xs k' r' Ht Ha IH z Hz. apply rp_cons in Hz as (z' & -> & Hz & _); [|discriminate].
      destruct (IH _ (rp_word s _ _ Hz)) as (xs2 & r2 & Ha2 & HX & Hr). eexists _, r2. split; [now apply a_char; [exact Ht|exact Ha2]|]. split; [now apply same|exact Hr].
    - intros p a w k t r q u r1 xs k' r' Ho Ht Hgr IHg Hq Ha IHa z Hz. destruct (IHg _ Hz) as (z' & u2 & r2 & -> & Hg2 & Hu & Hr).
      destruct (IHa _ Hr) as (xs2 & r3 & Ha2 & HX & Hr3). eexists _, r3. split; [eapply a_optional; eassumption|]. split; [|exact Hr3].
      constructor; [apply below, one, Hu|exact HX].
    - intros p a w k t r b l1 r1 xs k' r' Hb Hw Hn Ho Hopt Ht He IHe Ha IHa z Hz. destruct (IHe _ _ (L_fresh _) Hz) as (z' & l2 & r2 & -> & He2 & HL & Hr).
      destruct (IHa _ Hr) as (xs2 & r3 & Ha2 & HX & Hr3). eexists _, r3. split; [eapply a_term; eassumption|]. split; [|exact Hr3].
      constructor; [apply below, L_all, HL|exact HX].
  Qed.
  Theorem reading_swap ts ts' t : reading gm sp ts t -> rep ts ts' -> exists t', reading gm sp ts' t' /\ R t t'.
  Proof.
    intros (l & Hc & ->) Hr. destruct (proj1 swaps _ _ _ _ _ _ Hc _ ts' (L_fresh _) Hr) as (l2 & r2 & Hc2 & HL & Hr2). apply rp_nil in Hr2 as ->.
    exists (Node ScopeRoot (GramSpec.all l2)). split; [exists l2; auto|]. apply below, L_all, HL.
  Qed.
End Swap.
