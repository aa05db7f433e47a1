(** The grammar under squeezing of blanks, continued (C72). *)
From Verif Require Import GramSound GramComplete.
From Verif Require Import SpaceFacts SpaceSpec GramSpec.
Local Open Scope nat_scope.

Section Comments.
  Variable comments : bool.
  Notation blank := (SpaceSpec.blank comments).
  Notation squeeze := (SpaceSpec.squeeze comments).
  Notation blank_leaf := (SpaceSpec.blank_leaf comments).
  Notation squeezed := (SpaceSpec.squeezed comments).
  Notation sqs := (SpaceFacts.sqs comments).
  Notation sql := (SpaceFacts.sql comments).
  Notation good := (SpaceFacts.good comments).
  Notation trails := (SpaceFacts.trails comments).
  Notation starts := (SpaceFacts.starts comments).
  Notation nbh := (SpaceFacts.nbh comments).
  Notation nbt := (SpaceFacts.nbt comments).
  Notation squeezed_node := (SpaceFacts.squeezed_node comments).
  Notation blank_iff := (SpaceFacts.blank_iff comments).
  Notation blank_lf := (SpaceFacts.blank_lf comments).
  Notation sqs_nb := (SpaceFacts.sqs_nb comments).
  Notation squeeze_nb := (SpaceFacts.squeeze_nb comments).
  Notation sqs_app := (SpaceFacts.sqs_app comments).
  Notation squeeze_app := (SpaceFacts.squeeze_app).
  Notation sqs_lf := (SpaceFacts.sqs_lf comments).
  Notation sqs_nil := (SpaceFacts.sqs_nil).
  Notation sqs_false_nil := (SpaceFacts.sqs_false_nil comments).
  Notation squeeze_blanks := (SpaceFacts.squeeze_blanks comments).
  Notation squeeze_texts := (SpaceFacts.squeeze_texts comments).
  Notation sqs_1 := (SpaceFacts.sqs_1 comments).
  Notation squeeze_heads := (SpaceFacts.squeeze_heads comments).
  Local Definition good_fresh_ := SpaceFacts.good_fresh comments.
  Notation good_add := (SpaceFacts.good_add comments).
  Notation good_baseless := (SpaceFacts.good_baseless comments).
  Notation good_nbh := (SpaceFacts.good_nbh comments).
  Notation sql_all := (SpaceFacts.sql_all comments).
  Notation sql_fresh := (SpaceFacts.sql_fresh comments).
  Notation sql_add := (SpaceFacts.sql_add comments).
  Notation sql_baseless := (SpaceFacts.sql_baseless comments).
  Notation add_blank := (SpaceFacts.add_blank comments).
  Notation trails_add := (SpaceFacts.trails_add comments).
  Notation trails_add1 := (SpaceFacts.trails_add1 comments).
  Notation sql_inside := (SpaceFacts.sql_inside comments).
  Notation good_inside := (SpaceFacts.good_inside comments).
  Notation good_outside := (SpaceFacts.good_outside comments).
  Notation sql_outside := (SpaceFacts.sql_outside comments).
  Notation trails_outside := (SpaceFacts.trails_outside comments).

Definition last_blank (l : list tree) : bool := match rev l with x :: _ => blank_leaf x | [] => false end.
Lemma last_blank_app a x b : last_blank (a ++ x :: b) = last_blank (x :: b).
Proof. unfold last_blank. rewrite rev_app_distr. cbn [rev]. destruct (rev b); reflexivity. Qed.
Lemma trails_all l : good l -> trails l = last_blank (all l).
Proof.
  intros H. unfold SpaceFacts.trails, tail_of, all. destruct l as [be [ys|] f]; cbn.
  - destruct (H ys eq_refl) as (x & r & -> & _). now rewrite last_blank_app.
  - now rewrite app_nil_r.
Qed.
Section Space.
  Variable gm : text -> text -> bool.
  Variable sp : spec.
  Notation element := (GramSpec.element gm sp).
  Notation content := (GramSpec.content gm sp).
  Notation group := (GramSpec.group gm sp).
  Notation arguments := (GramSpec.arguments gm sp).

  Lemma element_good p f l t ts b l1 r : element p f l t ts b l1 r -> good l -> good l1.
  Proof.
    intros H Hg. destruct H; try (apply good_add; try apply good_baseless; exact Hg); try apply good_outside.
    - intros zs [= <-]. eexists _, _. split; reflexivity.
    - intros zs X. discriminate X.
    - intros zs X. discriminate X.
    - intros zs [= <-]. eexists _, _. split; reflexivity.
  Qed.
  Lemma group_node q t ts u r : group q t ts u r -> blank_leaf u = false.
  Proof. intros H. destruct H; reflexivity. Qed.
  Lemma element_adds p f l t ts l1 r : element p f l t ts true l1 r -> blank t = false ->
    exists x xs, all l1 = all l ++ x :: xs /\ blank_leaf x = false.
  Proof.
    intros H Ht. inversion H; subst; rewrite all_add, ?all_baseless; eexists _, _; (split; [reflexivity|]); rewrite ?blank_lf; auto.
    eapply group_node; eassumption.
  Qed.
  Lemma arguments_stop p a w k ts xs k' r : arguments p a w k ts xs k' r -> nbt r.
  Proof.
    intros H. induction H; try assumption; try exact I.
    - match goal with H : _ \/ _ |- _ => rename H into Hs end. cbn. destruct (blank t) eqn:E; [|reflexivity]. apply blank_iff in E. unfold blank_token in E.
      destruct Hs as [Hs|(_ & [Hs|[Hs|[[Hs _]|[Hs _]]]])].
      + cbn in E, Hs. repeat destruct E as [E|E]; try contradiction; repeat destruct Hs as [Hs|Hs]; try contradiction; congruence.
      + cbn in E. repeat destruct E as [E|E]; try contradiction; rewrite <- E in Hs; destruct p; discriminate.
      + rewrite Hs in E. cbn in E. repeat destruct E as [E|E]; try contradiction; discriminate.
      + rewrite Hs in E. cbn in E. repeat destruct E as [E|E]; try contradiction; discriminate.
      + rewrite Hs in E. cbn in E. repeat destruct E as [E|E]; try contradiction; discriminate.
    - cbn. destruct (blank t) eqn:E; [|reflexivity]. now apply blank_iff in E.
  Qed.
  Lemma element_gap p f l t ts b l1 r : element p f l t ts b l1 r -> blank t = false -> nbt r \/ trails l1 = false.
  Proof.
    intros H Ht. destruct H; try (right; rewrite trails_add1, ?blank_lf; first [exact Ht|reflexivity]; fail); try (right; apply trails_outside); try (right; reflexivity).
    - right. rewrite trails_add1. eapply group_node; eassumption.
    - right. rewrite trails_add1. eapply group_node; eassumption.
    - right. rewrite trails_add1. eapply group_node; eassumption.
    - left. eapply arguments_stop; eassumption.
  Qed.
  Lemma gap p f l t ts b l1 r : element p f l t ts b l1 r -> blank t = false -> squeeze (trails l1) r = squeeze false r.
  Proof. intros H Ht. destruct (element_gap _ _ _ _ _ _ _ _ H Ht) as [X| ->]; [now apply squeeze_nb|reflexivity]. Qed.
  Lemma stopped_nb p g t : stopped p g (fst t) -> blank t = false.
  Proof.
    intros H. assert (O : over p (fst t) -> blank t = false).
    { intros (_ & Hs). destruct t as [t s]. cbn [fst] in *. unfold SpaceSpec.blank. cbn [fst]. destruct Hs as [Hs|[Hs|[[Hs _]|[Hs _]]]]; try (rewrite Hs; reflexivity).
      destruct p; cbn in Hs; try discriminate; injection Hs as <-; reflexivity. }
    destruct g; cbn in H; [|auto]. destruct H as [H|[H|[H _]]]; [auto| |]; unfold SpaceSpec.blank; rewrite H; reflexivity.
  Qed.
  Lemma base_nonblank p f l t ts l1 r : element p f l t ts true l1 r -> blank t = false.
  Proof.
    intros He.
    destruct (blank t) eqn:E; [|reflexivity]. exfalso. apply blank_iff in E. inversion He; subst; unfold blank_token in E; cbn [fst] in E;
          try (match goal with H : mark_base _ |- _ => unfold mark_base in H; cbn [In] in E, H; repeat destruct E as [E|E]; try contradiction; rewrite <- E in H; repeat destruct H as [H|H]; try contradiction; discriminate end);
          try (match goal with H : stray _ |- _ => destruct H as [H|[n H]]; cbn [In] in E, H; repeat destruct E as [E|E]; try contradiction; rewrite <- E in H; repeat destruct H as [H|H]; try contradiction; discriminate end);
          try (match goal with H : named _ |- _ => destruct H as [H|(n & H & _)]; cbn [In] in E, H; repeat destruct E as [E|E]; try contradiction; rewrite <- E in H; repeat destruct H as [H|H]; try contradiction; discriminate end);
          try (match goal with H : fst t = _ |- _ => rewrite H in E; cbn in E; repeat destruct E as [E|E]; try contradiction; discriminate end);
          try (cbn in E; repeat destruct E as [E|E]; try contradiction; discriminate).
        match goal with H : _ \/ _ |- _ => destruct H as [H|[H _]]; rewrite H in E; cbn in E; repeat destruct E as [E|E]; try contradiction; discriminate end.
  Qed.
  Lemma content_head p g l ts l1 r : content p g l ts l1 r -> good l -> starts l \/ (all l = [] /\ nbt ts) -> nbh (all l1).
  Proof.
    intros H. induction H as [p g l|p g l t r Hs|p g l t r l1 xs r1 l' r' Hs He Ha Hc IH|p g l t r l1 r1 l' r' Hs He Hc IH]; intros Hg Hh.
    - destruct Hh as [(x & z & E & Hx)|[E _]]; unfold SpaceFacts.nbh; rewrite E; [exact Hx|exact I].
    - destruct Hh as [(x & z & E & Hx)|[E _]]; unfold SpaceFacts.nbh; rewrite E; [exact Hx|exact I].
    - assert (Ht : blank t = false).
      { eapply base_nonblank; exact He. }
      pose proof (element_good _ _ _ _ _ _ _ _ He Hg) as G1. destruct (element_adds _ _ _ _ _ _ _ He Ht) as (x & ys & Ex & Hx).
      rewrite Ha in Ex. apply app_inv_head in Ex. subst xs. apply IH.
      + intros zs [= <-]. eauto.
      + left. destruct Hh as [(y & z & E & Hy)|[E _]]; [exists y, (z ++ x :: ys)|exists x, ys]; (split; [|assumption]); unfold all at 1; cbn [before base based]; now rewrite E.
    - destruct (blank t) eqn:Ht.
      + destruct Hh as [Hh|[_ Hh]]; [|cbn in Hh; congruence]. apply IH; [eapply element_good; eassumption|]. left.
        assert (E : exists x, l1 = add [x] l).
        { apply blank_iff in Ht. clear -He Ht. unfold blank_token in Ht. inversion He; subst; eauto; exfalso; cbn [fst] in Ht;
          try (match goal with H : named _ |- _ => destruct H as [H|(n & H & _)]; cbn [In] in Ht, H; repeat destruct Ht as [Ht|Ht]; try contradiction; rewrite <- Ht in H; repeat destruct H as [H|H]; try contradiction; discriminate end);
          try (match goal with H : fst t = _ |- _ => rewrite H in Ht; cbn in Ht; repeat destruct Ht as [Ht|Ht]; try contradiction; discriminate end);
          try (match goal with H : GramSpec.script_mark _ |- _ => destruct H as [H|H]; rewrite H in Ht; cbn in Ht; repeat destruct Ht as [Ht|Ht]; try contradiction; discriminate end);
          try (cbn in Ht; repeat destruct Ht as [Ht|Ht]; try contradiction; discriminate). }
        destruct E as [x ->]. destruct Hh as (y & z & E & Hy). exists y, (z ++ [x]). split; [|exact Hy]. rewrite all_add, E. reflexivity.
      + apply IH; [eapply element_good; eassumption|]. left. eapply element_starts; try eassumption. destruct Hh as [Hh|[Hh _]]; auto.
  Qed.

  Lemma content_good p g l ts l1 r : content p g l ts l1 r -> good l -> good l1.
  Proof.
    intros H. induction H as [p g l|p g l t r Hs|p g l t r l1 xs r1 l' r' Hs He Ha Hc IH|p g l t r l1 r1 l' r' Hs He Hc IH]; intros Hg; auto.
    - assert (Ht : blank t = false) by (eapply base_nonblank; exact He). apply IH. destruct (element_adds _ _ _ _ _ _ _ He Ht) as (x & ys & Ex & Hx).
      rewrite Ha in Ex. apply app_inv_head in Ex. subst xs. intros zs [= <-]. eauto.
    - apply IH. eapply element_good; eassumption.
  Qed.
  Lemma content_good_fresh p g f ts l1 r : content p g (fresh f) ts l1 r -> good l1.
  Proof. intros H. eapply content_good; [exact H|apply good_fresh_]. Qed.
  (** ** Clauses, ends, skipped code *)
  Definition nonblank (u : tok) : Prop := blank u = false.
  Lemma delimiter_squeeze ts xs r : delimiter ts xs r -> nbt ts ->
    delimiter (squeeze false ts) (map squeezed xs) (squeeze false r) /\ nbh xs /\ (forall a, sqs a xs = map squeezed xs).
  Proof.
    intros H Hn. destruct H as [|t r N|s r|c r|c d s r|t r N1 N2 N3 N4]; cbn [nbt] in Hn; cbn [SpaceSpec.squeeze]; try rewrite Hn.
    - split; [constructor|split; [exact I|reflexivity]].
    - split; [now constructor|split; [exact I|reflexivity]].
    - split; [constructor|split; reflexivity].
    - split; [constructor|split; reflexivity].
    - split; [constructor|split; reflexivity].
    - assert (B : blank_leaf (lf t) = false) by now rewrite blank_lf.
      split; [now constructor|]. split; [exact B|]. intros a. cbn [SpaceFacts.sqs map]. now rewrite B.
  Qed.
  Lemma clause_squeeze t ts c r : clause t ts c r -> blank t = false -> clause t (squeeze false ts) (squeezed c) (squeeze false r).
  Proof.
    intros H Ht. destruct H as [bs r x r' Hb Hn Hd].
    assert (Hr : nbt r). { destruct r as [|u r]; [exact I|]. cbn in Hn |- *. destruct (blank u) eqn:E; [|reflexivity]. elim Hn. now apply blank_iff. }
    destruct (delimiter_squeeze _ _ _ Hd Hr) as (D1 & D2 & D3). rewrite squeeze_app; [|exact Hr].
    rewrite squeezed_node. cbn [SpaceFacts.sqs]. rewrite blank_lf, Ht, sqs_app, sqs_lf, D3; [|exact D2].
    apply clause_; [now apply squeeze_blanks| |exact D1]. destruct r as [|u r]; [auto|]. cbn in Hr |- *. rewrite Hr. exact Hn.
  Qed.
  Lemma right_squeeze ts e r : right_side ts e r -> right_side (squeeze false ts) (map squeezed e) (squeeze false r) /\ nbh e /\ (forall a, sqs a e = map squeezed e).
  Proof.
    intros H. destruct H as [s r c r' H|r H].
    - split; [|split].
      + cbn. constructor. now apply clause_squeeze.
      + destruct H. reflexivity.
      + intros a. destruct H. reflexivity.
    - split; [|split; [exact I|reflexivity]]. constructor. now apply squeeze_heads.
  Qed.
  Lemma end_squeeze ts e r : env_end ts e r -> env_end (squeeze false ts) (map squeezed e) (squeeze false r) /\ nbh e /\ (forall a, sqs a e = map squeezed e).
  Proof.
    intros H. destruct H as [s r|r H].
    - split; [|split; [reflexivity|reflexivity]]. cbn. constructor.
    - split; [|split; [exact I|reflexivity]]. constructor. now apply squeeze_heads.
  Qed.
  Lemma skipped_squeeze n ts xs r : skipped n ts xs r -> forall a, skipped n (squeeze a ts) (sqs a xs) (squeeze false r).
  Proof.
    intros H. induction H as [n|n i s r xs r' H IH|n s r xs r' H IH|s r|n t r xs r' H1 H2 H IH]; intros a.
    - constructor.
    - cbn. constructor. apply IH.
    - cbn. constructor. apply IH.
    - cbn. constructor.
    - cbn [SpaceSpec.squeeze SpaceFacts.sqs]. rewrite blank_lf. destruct (blank t) eqn:E.
      + destruct a; [apply IH|]. cbn [app]. apply (k_other n the_blank); [discriminate|discriminate|apply IH].
      + replace (squeezed (lf t)) with (lf t) by reflexivity. now apply k_other.
  Qed.
  Lemma rest_word_squeeze s r : squeeze false (rest_word s r) = rest_word s (squeeze false r).
  Proof. destruct s; reflexivity. Qed.

  (** ** The grammar *)
  Definition w_content p g l ts l1 r : Prop := good l -> content p g (sql l) (squeeze (trails l) ts) (sql l1) (squeeze false r).
  Definition w_element p f l t ts b l1 r : Prop := blank t = false -> good l -> element p f (sql l) t (squeeze false ts) b (sql l1) (squeeze false r).
  Definition w_group q t ts u r : Prop := group q t (squeeze false ts) (squeezed u) (squeeze false r).
  Definition held_ (k : list tok) : bool := match rev k with x :: _ => blank x | [] => false end.
  Definition w_arguments p a w k ts xs k' r : Prop := Forall blank_token k ->
    arguments p a w (squeeze false k) (squeeze (held_ k) ts) (map squeezed xs) (squeeze false k') (squeeze false r).
  Lemma squeeze_held k t : squeeze false (k ++ [t]) = squeeze false k ++ squeeze (held_ k) [t].
  Proof.
    assert (G : forall a, squeeze a (k ++ [t]) = squeeze a k ++ squeeze (match rev k with x :: _ => blank x | [] => a end) [t]); [|apply G].
    induction k as [|y k IH]; intros a; [reflexivity|]. cbn [app SpaceSpec.squeeze rev]. rewrite !IH.
    assert (E : forall c, match rev k ++ [y] with x :: _ => blank x | [] => c end = match rev k with x :: _ => blank x | [] => blank y end) by (destruct (rev k); reflexivity).
    rewrite E. destruct (blank y); destruct (rev k); cbn [SpaceSpec.squeeze]; rewrite <- ?app_assoc; reflexivity.
  Qed.
  Lemma held_blank p a w k ts xs k' r : arguments p a w k ts xs k' r -> Forall blank_token k -> Forall blank_token k'.
  Proof.
    intros H. induction H; intros Hk; auto. apply IHarguments. apply Forall_app. split; [exact Hk|]. constructor; [assumption|constructor].
  Qed.
  Lemma sqs_map a l : Forall (fun x => blank_leaf x = false) l -> sqs a l = map squeezed l.
  Proof. intros H. revert a. induction H as [|x l Hx _ IH]; intros a; [reflexivity|]. cbn. now rewrite Hx, IH. Qed.
  Lemma arguments_nodes p a w k ts xs k' r : arguments p a w k ts xs k' r -> Forall (fun x => blank_leaf x = false) xs.
  Proof. intros H. induction H; try constructor; auto. Qed.
  Lemma plain_add p f l t r : mark_plain (fst t) -> element p f (sql l) t r false (add [lf t] (sql l)) r.
  Proof. intros H. now constructor. Qed.

  Theorem squeezes :
    (forall p g l ts l1 r, content p g l ts l1 r -> w_content p g l ts l1 r) /\
    (forall p f l t ts b l1 r, element p f l t ts b l1 r -> w_element p f l t ts b l1 r) /\
    (forall q t ts u r, group q t ts u r -> w_group q t ts u r) /\
    (forall p a w k ts xs k' r, arguments p a w k ts xs k' r -> w_arguments p a w k ts xs k' r).
  Proof.
    assert (A1 : forall x l, blank_leaf x = false -> sql (add [x] l) = add [squeezed x] (sql l)) by (intros x l Hx; rewrite sql_add, sqs_1; auto).
    apply (grammar_ind gm sp (fun p g l ts l' r _ => w_content p g l ts l' r) (fun p f l t ts b l' r _ => w_element p f l t ts b l' r)
      (fun q t ts u r _ => w_group q t ts u r) (fun p a w k ts xs k' r _ => w_arguments p a w k ts xs k' r)).
    - intros p g l Hg. constructor.
    - intros p g l t r Hs Hg. pose proof (stopped_nb _ _ _ Hs) as Ht. cbn. rewrite Ht. now constructor.
    - (* base *) intros p g l t r l1 xs r1 l' r' Hs He IHe Ha Hc IHc Hg.
      assert (Ht : blank t = false).
      { eapply base_nonblank; exact He. }
      pose proof (element_good _ _ _ _ _ _ _ _ He Hg) as G1. destruct (element_adds _ _ _ _ _ _ _ He Ht) as (x & ys & Ex & Hx).
      rewrite Ha in Ex. apply app_inv_head in Ex. subst xs.
      set (l2 := mk_line (all l) (Some (x :: ys)) (from l1)) in *.
      assert (G2 : good l2) by (intros zs [= <-]; eauto).
      assert (E2 : trails l2 = trails l1) by (rewrite !trails_all by assumption; now rewrite Ha).
      specialize (IHe Ht Hg). specialize (IHc G2). rewrite E2, (gap _ _ _ _ _ _ _ _ He Ht) in IHc.
      cbn [SpaceSpec.squeeze]. rewrite Ht. eapply c_base; [exact Hs|exact IHe| |].
      + rewrite !sql_all by assumption. rewrite Ha. apply sqs_app. exact Hx.
      + rewrite sql_all by assumption. exact IHc.
    - (* other *) intros p g l t r l1 r1 l' r' Hs He IHe Hc IHc Hg. pose proof (element_good _ _ _ _ _ _ _ _ He Hg) as G1. specialize (IHc G1).
      destruct (blank t) eqn:Ht.
      + assert (E : l1 = add [lf t] l /\ r1 = r).
        { apply blank_iff in Ht. clear -He Ht. unfold blank_token in Ht. inversion He; subst; eauto; exfalso; cbn [fst] in Ht;
          try (match goal with H : named _ |- _ => destruct H as [H|(n & H & _)]; cbn [In] in Ht, H; repeat destruct Ht as [Ht|Ht]; try contradiction; rewrite <- Ht in H; repeat destruct H as [H|H]; try contradiction; discriminate end);
          try (match goal with H : fst t = _ |- _ => rewrite H in Ht; cbn in Ht; repeat destruct Ht as [Ht|Ht]; try contradiction; discriminate end);
          try (match goal with H : GramSpec.script_mark _ |- _ => destruct H as [H|H]; rewrite H in Ht; cbn in Ht; repeat destruct Ht as [Ht|Ht]; try contradiction; discriminate end);
          try (cbn in Ht; repeat destruct Ht as [Ht|Ht]; try contradiction; discriminate). }
        destruct E as [-> ->]. assert (Hb : blank_leaf (lf t) = true) by now rewrite blank_lf.
        rewrite trails_add1, Hb, add_blank in IHc by exact Hb. cbn [SpaceSpec.squeeze]. rewrite Ht. destruct (trails l); [exact IHc|]. cbn [app].
        eapply (c_other gm sp p g _ the_blank); [| |exact IHc].
        * intros X. apply stopped_nb in X. discriminate X.
        * apply plain_add. unfold mark_plain. cbn. tauto.
      + cbn [SpaceSpec.squeeze]. rewrite Ht. rewrite (gap _ _ _ _ _ _ _ _ He Ht) in IHc. eapply c_other; [exact Hs|exact (IHe Ht Hg)|exact IHc].
    - intros p f l t r H Ht Hg. rewrite A1 by now rewrite blank_lf. now constructor.
    - intros p f l t r H Ht Hg. rewrite A1 by now rewrite blank_lf. now constructor.
    - intros p f l t r H Ht Hg. rewrite A1 by reflexivity. rewrite squeezed_node, sqs_1 by now rewrite blank_lf. now constructor.
    - (* text *) intros p f l t ts r Htt Hts Hr Ht Hg. rewrite A1 by reflexivity.
      assert (N : nbt r). { destruct r as [|u r]; [exact I|]. cbn in Hr |- *. destruct (blank u) eqn:E; [|reflexivity]. elim Hr. apply blank_iff in E. unfold blank_token, text_token in *. cbn in *. tauto. }
      rewrite squeeze_app by exact N. rewrite squeezed_node, sqs_lf. cbn [SpaceSpec.squeeze]. rewrite Ht. cbn [map].
      apply (e_text gm sp p f (sql l) t (squeeze false ts)); [exact Htt|now apply squeeze_texts|]. destruct r as [|u r]; [auto|]. cbn in N |- *. now rewrite N.
    - intros p l c s r Ht Hg. rewrite A1 by reflexivity. rewrite rest_word_squeeze. constructor.
    - intros p f l t r u r' Ht Hgr IH Hb Hg. rewrite A1 by (eapply group_node; eassumption). now apply e_group.
    - intros p f l t r u r' Ht Hgr IH Hb Hg. rewrite A1 by (eapply group_node; eassumption). now apply e_dollars.
    - intros p f l t r u r' Ht Hgr IH Hb Hg. rewrite A1 by (eapply group_node; eassumption). now apply e_math.
    - (* sides *) intros p f l t r c1 r1 l1 r2 e r' Ht Hcl Hco IH Hr Hb Hg. rewrite A1 by reflexivity.
      destruct (right_squeeze _ _ _ Hr) as (R1 & R2 & R3). specialize (IH (good_fresh_ _)). rewrite squeezed_node. cbn [SpaceFacts.sqs].
      assert (C : blank_leaf c1 = false) by (destruct Hcl; reflexivity). rewrite C, sqs_app, R3 by exact R2.
      pose proof (content_good_fresh _ _ _ _ _ _ Hco) as G1. rewrite <- sql_all by exact G1.
      eapply e_sides; [exact Ht|eapply clause_squeeze; eassumption|exact IH|exact R1].
    - (* environments *) intros p f l t r l1 r2 e r' Ht Hn Hco IH Hr Hb Hg. rewrite A1 by reflexivity.
      destruct (end_squeeze _ _ _ Hr) as (R1 & R2 & R3). specialize (IH (good_fresh_ _)). rewrite squeezed_node. cbn [SpaceFacts.sqs].
      change (blank_leaf (Node ItemBegin [lf t])) with false. cbn iota. rewrite squeezed_node, sqs_1 by now rewrite blank_lf. rewrite sqs_app, R3 by exact R2.
      pose proof (content_good_fresh _ _ _ _ _ _ Hco) as G1. rewrite <- sql_all by exact G1.
      eapply e_env; [exact Ht|exact Hn|exact IH|exact R1].
    - intros p f l t r a args held r1 l1 r2 e r' Ht Hbs Hn Hgr Ha IHa Hco IH Hr Hb Hg. rewrite A1, sql_baseless by (reflexivity || exact Hg).
      destruct (end_squeeze _ _ _ Hr) as (R1 & R2 & R3). specialize (IH (good_fresh_ _)). specialize (IHa (Forall_nil _)).
      rewrite squeezed_node. cbn [SpaceFacts.sqs]. change (blank_leaf (Node ItemBegin (lf t :: args))) with false. cbn iota. rewrite squeezed_node. cbn [SpaceFacts.sqs]. rewrite blank_lf, Hb.
      pose proof (content_good_fresh _ _ _ _ _ _ Hco) as G1.
      assert (N : nbh (all l1 ++ e)).
      { pose proof (content_head _ _ _ _ _ _ Hco (good_fresh_ _)) as N. destruct (all l1) as [|y ys]; [exact R2|]. apply N. right. split; [reflexivity|]. eapply arguments_stop; eassumption. }
      rewrite sqs_app, sqs_lf, sqs_app, R3 by assumption. rewrite <- sql_all by exact G1. rewrite (sqs_map _ args) by (eapply arguments_nodes; eassumption).
      eapply e_env_args; eassumption.
    - (* skipped *) intros p f l i s r k xs r' Hi Hs Hb Hg. rewrite A1 by reflexivity. rewrite squeezed_node. apply e_skip; [exact Hi|]. now apply skipped_squeeze.
    - intros p f l t r name Hn Hs Hbr Hb Hg. rewrite A1 by reflexivity. rewrite squeezed_node, sqs_1 by now rewrite blank_lf. eapply e_bare; eassumption.
    - intros p f l t r name a args held r' Hn Hs Hsh Hna Hgr Ha IHa Hb Hg. specialize (IHa (Forall_nil _)).
      rewrite sql_add by reflexivity. rewrite sql_baseless by exact Hg. cbn [SpaceFacts.sqs]. change (blank_leaf (Node ItemCmd (lf t :: args))) with false. cbn iota.
      rewrite squeezed_node. cbn [SpaceFacts.sqs]. rewrite blank_lf, Hb, sqs_lf. rewrite (sqs_map _ args) by (eapply arguments_nodes; eassumption).
      eapply e_command; eassumption.
    - (* greedy *) intros p f l t r name l1 r' Hn Hs Hsh Hco IH Hb Hg. specialize (IH (good_fresh_ _)). rewrite A1, sql_baseless by (reflexivity || exact Hg).
      pose proof (content_good_fresh _ _ _ _ _ _ Hco) as G1. rewrite squeezed_node. unfold as_argument; cbn [SpaceFacts.sqs]. rewrite blank_lf, Hb. change (blank_leaf (Node ClauseArgument (all l1))) with false. cbn iota.
      rewrite squeezed_node, <- sql_all by exact G1. eapply e_greedy; eassumption.
    - (* postfix *) intros p f l t r name ys Hn Hs Hsh Hy Hb Hg. unfold SpaceFacts.sql at 2. cbn [before base from option_map]. rewrite sqs_1 by reflexivity. rewrite squeezed_node.
      unfold as_argument; cbn [SpaceFacts.sqs]. rewrite blank_lf, Hb. change (blank_leaf (Node ClauseArgument ys)) with false. cbn iota. rewrite squeezed_node.
      eapply (e_postfix gm sp p f (sql l)); try eassumption. unfold SpaceFacts.sql. cbn. now rewrite Hy.
    - intros p f l t r name Hn Hs Hsh Hy Hf Hb Hg. unfold SpaceFacts.sql at 2. cbn [before base from option_map]. rewrite sqs_1 by reflexivity. rewrite squeezed_node.
      unfold as_argument; cbn [SpaceFacts.sqs]. rewrite blank_lf, Hb. change (blank_leaf (Node ClauseArgument (all l))) with false. cbn iota. rewrite squeezed_node, <- sql_all by exact Hg.
      eapply (e_postfix_all gm sp p f (sql l)); try eassumption. unfold SpaceFacts.sql. cbn. now rewrite Hy.
    - intros p f l t r name Hn Hs Hsh Hy Hf Hb Hg. rewrite A1 by reflexivity. rewrite squeezed_node, sqs_1 by now rewrite blank_lf.
      eapply (e_postfix_none gm sp p f (sql l)); try eassumption. unfold SpaceFacts.sql. cbn. now rewrite Hy.
    - (* infix *) intros p f l t r name l1 r' Hn Hs Hsh Hf Hco IH Hb Hg. specialize (IH (good_fresh_ _)).
      pose proof (content_good_fresh _ _ _ _ _ _ Hco) as G1. unfold SpaceFacts.sql at 2. cbn [before base from option_map]. rewrite sqs_1 by reflexivity. rewrite squeezed_node.
      unfold as_argument; cbn [SpaceFacts.sqs]. rewrite blank_lf, Hb. change (blank_leaf (Node ClauseArgument (all l))) with false. change (blank_leaf (Node ClauseArgument (all l1))) with false. cbn iota.
      rewrite !squeezed_node, <- !sql_all by assumption. eapply (e_infix gm sp p f (sql l)); eassumption.
    - intros p f l t r name l1 r' Hn Hs Hsh Hf Hco IH Hb Hg. specialize (IH (good_fresh_ _)). rewrite A1, sql_baseless by (reflexivity || exact Hg).
      pose proof (content_good_fresh _ _ _ _ _ _ Hco) as G1. rewrite squeezed_node. unfold as_argument; cbn [SpaceFacts.sqs]. rewrite blank_lf, Hb. change (blank_leaf (Node ClauseArgument (all l1))) with false. cbn iota.
      rewrite squeezed_node, <- sql_all by exact G1. eapply (e_infix_again gm sp p f (sql l)); eassumption.
    - (* primes *) intros p f l s r ys Hy Hb Hg. unfold SpaceFacts.sql at 2. cbn [before base from option_map]. rewrite sqs_1 by reflexivity. rewrite squeezed_node.
      unfold as_argument; cbn [SpaceFacts.sqs]. rewrite blank_lf, Hb. change (blank_leaf (Node ClauseArgument ys)) with false. cbn iota. rewrite squeezed_node.
      apply (e_prime gm sp p f (sql l)). unfold SpaceFacts.sql. cbn. now rewrite Hy.
    - intros p f l s r Hy Hb Hg. rewrite A1 by reflexivity. apply (e_prime_alone gm sp p f (sql l)). unfold SpaceFacts.sql. cbn. now rewrite Hy.
    - (* scripts *) intros p f l t bs u r b l1 r' Hm Hbs Hu He IHe Hb Hg.
      assert (Hu2 : blank u = false) by (destruct (blank u) eqn:E; [elim Hu; now apply blank_iff|reflexivity]).
      specialize (IHe Hu2 (good_inside l t bs)). rewrite sql_inside in IHe by assumption.
      rewrite sql_outside by (eapply element_good; [exact He|apply SpaceFacts.good_inside]).
      rewrite squeeze_app by exact Hu2. cbn [SpaceSpec.squeeze]. rewrite Hu2. eapply e_script; [exact Hm|now apply squeeze_blanks|exact Hu|exact IHe].
    - intros p f l t bs Hm Hbs Hb Hg. rewrite sql_outside by apply SpaceFacts.good_inside. rewrite sql_inside by assumption. apply e_script_end; [exact Hm|now apply squeeze_blanks].
    - (* closed groups *) intros q t k r l t' r' B Hco IH Hcl. specialize (IH (good_fresh_ _)). unfold w_group. rewrite squeezed_node. cbn [SpaceFacts.sqs].
      assert (Hb : blank t = false) by (clear -B; unfold brackets in B; unfold SpaceSpec.blank; cbn [In] in B; repeat destruct B as [B|B]; try contradiction; injection B as _ <- _; reflexivity).
      assert (Hb' : blank t' = false) by (clear -Hcl; unfold SpaceSpec.blank; destruct q; cbn in Hcl; try discriminate; injection Hcl as <-; reflexivity).
      pose proof (content_good_fresh _ _ _ _ _ _ Hco) as G1. assert (Bt : blank_leaf (lf t') = false) by (rewrite blank_lf; exact Hb').
      rewrite blank_lf, Hb, sqs_app, sqs_1, <- sql_all by assumption.
      cbn [SpaceSpec.squeeze] in IH. rewrite Hb' in IH. eapply g_closed; eassumption.
    - intros q t k r l r' B Hco IH Hcl. specialize (IH (good_fresh_ _)). unfold w_group. rewrite squeezed_node. cbn [SpaceFacts.sqs].
      assert (Hb : blank t = false) by (clear -B; unfold brackets in B; unfold SpaceSpec.blank; cbn [In] in B; repeat destruct B as [B|B]; try contradiction; injection B as _ <- _; reflexivity).
      pose proof (content_good_fresh _ _ _ _ _ _ Hco) as G1. rewrite blank_lf, Hb, <- sql_all by exact G1.
      eapply g_open; [exact B|exact IH|]. apply squeeze_heads; [|exact Hcl]. destruct q; cbn; discriminate.
    - (* arguments *) intros p a w k Hk. cbn. constructor.
    - intros p a w k t r xs k' r' Hb Ha IH Hk. assert (Hk2 : Forall blank_token (k ++ [t])) by (apply Forall_app; split; [exact Hk|now constructor]).
      specialize (IH Hk2). assert (E : held_ (k ++ [t]) = blank t) by (unfold held_; rewrite rev_app_distr; reflexivity). rewrite squeeze_held, E in IH.
      cbn [SpaceSpec.squeeze] in IH |- *. destruct (blank t) eqn:Et.
      + destruct (held_ k); cbn [app] in IH |- *; [rewrite app_nil_r in IH; exact IH|]. apply a_blank; [cbn; tauto|exact IH].
      + apply a_blank; [exact Hb|exact IH].
    - intros p a w k t r Hs Hk. assert (Hb : nbt (t :: r)) by (eapply (arguments_stop p a w k (t :: r) [] k); now constructor).
      rewrite (squeeze_nb (held_ k) (t :: r)) by exact Hb. cbn in Hb |- *. rewrite Hb. now constructor.
    - intros p a w k t r Hb Hw Ht Hk. assert (Hb2 : blank t = false) by (destruct (blank t) eqn:E; [elim Hb; now apply blank_iff|reflexivity]).
      cbn. rewrite Hb2. now constructor.
    - intros p a w k c s r xs k' r' Ht Ha IH Hk. specialize (IH (Forall_nil _)). cbn [held_ SpaceSpec.squeeze] in IH. rewrite rest_word_squeeze in IH. cbn. now constructor.
    - intros p a w k t r q u r1 xs k' r' Ho Ht Hgr IHg Hq Ha IHa Hk. specialize (IHa (Forall_nil _)). cbn [held_ SpaceSpec.squeeze] in IHa.
      assert (Hb : blank t = false) by (destruct Ho as (_ & [Ho|Ho]); unfold SpaceSpec.blank; rewrite Ho; reflexivity). unfold as_argument; cbn [SpaceSpec.squeeze map]. rewrite Hb.
      rewrite squeezed_node, sqs_1 by (eapply group_node; eassumption). eapply a_optional; eassumption.
    - intros p a w k t r b l1 r1 xs k' r' Hb Hw Hn Ho Hopt Ht He IHe Ha IHa Hk. specialize (IHa (Forall_nil _)). cbn [held_ SpaceSpec.squeeze] in IHa.
      assert (Hb2 : blank t = false) by (destruct (blank t) eqn:E; [elim Hb; now apply blank_iff|reflexivity]). specialize (IHe Hb2 (good_fresh_ _)).
      unfold as_argument; cbn [SpaceSpec.squeeze map]. rewrite Hb2. rewrite squeezed_node, <- sql_all by (eapply element_good; [exact He|apply good_fresh_]). eapply a_term; eassumption.
  Qed.
  Theorem reading_squeeze ts t : reading gm sp ts t -> reading gm sp (squeeze false ts) (squeezed t).
  Proof.
    intros (l & Hc & ->). pose proof (proj1 squeezes _ _ _ _ _ _ Hc (good_fresh_ _)) as H. exists (sql l). split; [exact H|].
    rewrite squeezed_node, sql_all; [reflexivity|]. eapply content_good_fresh. exact Hc.
  Qed.
End Space.
End Comments.
