(** A closing brace shields what is before it from what is after it (C70). *)
From Verif Require Import GramSpec GramSound GramComplete.
From Verif Require Import ShieldSpec.
Local Open Scope nat_scope.

Lemma enclosed_free d w (u : list tok) : enclosed d w u -> enclosed d Nothing u.
Proof.
  revert d w. induction u as [|t u IH]; intros d w; cbn [enclosed]; [tauto|].
  destruct (role_of (fst t)); intros H; try exact H; try tauto.
  - eapply IH; exact H.
  - split; [discriminate|tauto].
Qed.
Lemma enclosed_next d w t (u : list tok) : role_of (fst t) <> Open -> role_of (fst t) <> Close ->
  enclosed d w (t :: u) -> enclosed d Nothing u.
Proof.
  cbn [enclosed]. destruct (role_of (fst t)); intros H1 H2 H; try contradiction; try exact H; eapply enclosed_free; exact H.
Qed.
Lemma role_blank (t : tok) : blank_token t -> role_of (fst t) = Space.
Proof. destruct t as [t s]. unfold blank_token. cbn [In fst]. intros [<- |[<- |[<- |[]]]]; reflexivity. Qed.
Lemma enclosed_blanks d w bs (u : list tok) : Forall blank_token bs -> enclosed d w (bs ++ u) <-> enclosed d w u.
Proof.
  induction 1 as [|b bs Hb Hbs IH]; [reflexivity|]. rewrite <- app_comm_cons. cbn [enclosed]. rewrite (role_blank _ Hb). exact IH.
Qed.
Lemma enclosed_apart d w a (u : list tok) : Forall (fun t => role_of (fst t) = Plain \/ role_of (fst t) = Space) a ->
  enclosed d w (a ++ u) -> enclosed d Nothing u.
Proof.
  intros H. revert w. induction H as [|t a Ht Ha IH]; intros w E; [eapply enclosed_free; exact E|].
  rewrite <- app_comm_cons in E. apply enclosed_next in E; [eauto| |]; destruct Ht as [-> | ->]; discriminate.
Qed.
Lemma role_text (t : tok) : text_token t -> role_of (fst t) = Plain \/ role_of (fst t) = Space.
Proof. destruct t as [t s]. unfold text_token. cbn [In fst]. intros [<- |[<- |[<- |[<- |[<- |[]]]]]]; cbn; auto. Qed.

(** [rb] is a closing brace *)
Section Shield.
  Variable gm : text -> text -> bool.
  Variable sp : spec.
  Variable rb : tok.
  Hypothesis Hrb : fst rb = TRight Curly.

  (** a list of other tokens at the front lies before it *)
  Lemma cut_front a (r u v : list tok) : Forall (fun t => fst t <> TRight Curly) a -> a ++ r = u ++ rb :: v ->
    exists u1, u = a ++ u1 /\ r = u1 ++ rb :: v.
  Proof.
    intros H. revert u. induction H as [|t a Ht Ha IH]; intros u E; [exists u; auto|].
    destruct u as [|t' u]; cbn in E; injection E as -> E; [contradiction|]. destruct (IH u E) as (u1 & -> & Hr). exists u1. auto.
  Qed.
  Lemma blanks_no (bs : list tok) : Forall blank_token bs -> Forall (fun t => fst t <> TRight Curly) bs.
  Proof. apply Forall_impl. intros t H. apply role_blank in H. intros E. rewrite E in H. discriminate. Qed.
  Lemma texts_no (bs : list tok) : Forall text_token bs -> Forall (fun t => fst t <> TRight Curly) bs.
  Proof. apply Forall_impl. intros t H. apply role_text in H. intros E. rewrite E in H. destruct H; discriminate. Qed.

  Definition s_content p g l ts l' r : Prop := p <> Top -> forall d u v, ts = u ++ rb :: v -> enclosed d Nothing u ->
    exists u', r = u' ++ rb :: v /\ enclosed d Nothing u' /\ forall v', content gm sp p g l (u ++ rb :: v') l' (u' ++ rb :: v').
  Definition s_element p f l t ts b l' r : Prop := p <> Top -> fst t <> TRight Curly ->
    forall d w u v, ts = u ++ rb :: v -> enclosed d w (t :: u) ->
    exists u', r = u' ++ rb :: v /\ enclosed d Nothing u' /\ forall v', element gm sp p f l t (u ++ rb :: v') b l' (u' ++ rb :: v').
  Definition s_group q t ts x r : Prop := forall d u v, ts = u ++ rb :: v ->
    enclosed (match q with Braces => S d | _ => d end) Nothing u ->
    exists u', r = u' ++ rb :: v /\ enclosed d Nothing u' /\ forall v', group gm sp q t (u ++ rb :: v') x (u' ++ rb :: v').
  Definition s_arguments p a w held ts xs held' r : Prop := p <> Top -> forall d u v, ts = u ++ rb :: v -> enclosed d Nothing u ->
    exists u', r = u' ++ rb :: v /\ enclosed d Nothing u' /\
      forall v', GramSpec.arguments gm sp p a w held (u ++ rb :: v') xs held' (u' ++ rb :: v').

  Lemma content_ends p g l ts l' r : content gm sp p g l ts l' r -> r = [] \/ heads (fun t => stopped p g (fst t)) r.
  Proof.
    intros H.
    refine (content_ind2 gm sp (fun p g l ts l' r _ => r = [] \/ heads (fun t => stopped p g (fst t)) r) (fun _ _ _ _ _ _ _ _ _ => True)
      (fun _ _ _ _ _ _ => True) (fun _ _ _ _ _ _ _ _ _ => True) _ _ _ _ _ _ _ _ _ _ _ _ _ _ _ _ _ _ _ _ _ _ _ _ _ _ _ _ _ _ _ _ _ _ _ _ _ p g l ts l' r H); intros; auto.
  Qed.

  Lemma delimiter_shield ts x r d (u v : list tok) : delimiter ts x r -> ~ heads blank_token ts -> ts = u ++ rb :: v -> enclosed d Side u ->
    exists u', r = u' ++ rb :: v /\ enclosed d Nothing u' /\ forall v', ~ heads blank_token (u ++ rb :: v') /\ delimiter (u ++ rb :: v') x (u' ++ rb :: v').
  Proof.
    intros H Hn E He. destruct u as [|t0 u]; [destruct He; discriminate|].
    assert (Hn' : forall v', ~ heads blank_token ((t0 :: u) ++ rb :: v')) by (intros v'; rewrite E in Hn; exact Hn).
    assert (G : forall u', r = u' ++ rb :: v -> enclosed d Nothing u' -> (forall v', delimiter ((t0 :: u) ++ rb :: v') x (u' ++ rb :: v')) ->
      exists u', r = u' ++ rb :: v /\ enclosed d Nothing u' /\ forall v', ~ heads blank_token ((t0 :: u) ++ rb :: v') /\ delimiter ((t0 :: u) ++ rb :: v') x (u' ++ rb :: v')).
    { intros u' A B C. exists u'. auto. }
    destruct H as [|t r N|s r|c r|c c1 s r|t r N1 N2 N3 N4]; cbn in E; [discriminate|..].
    - apply (G (t0 :: u)); [exact E|eapply enclosed_free; exact He|]. injection E as -> E. intros. now constructor.
    - injection E as <- ->. apply (G u); [reflexivity|eapply enclosed_next; [| |exact He]; discriminate|]. intros. constructor.
    - injection E as <- ->. apply (G u); [reflexivity|eapply enclosed_next; [| |exact He]; discriminate|]. intros. constructor.
    - injection E as <- ->. apply (G ((Word, c1 :: s) :: u)); [reflexivity|cbn; eapply enclosed_next; [| |exact He]; discriminate|]. intros. constructor.
    - injection E as -> ->. apply (G u); [reflexivity| |intros; now constructor]. 
      assert (R : role_of (fst t0) <> Open /\ role_of (fst t0) <> Close).
      { cbn in He. destruct (role_of (fst t0)); split; try discriminate; destruct He as [He _]; congruence. }
      eapply enclosed_next; [apply R|apply R|exact He].
  Qed.
  Lemma clause_shield t ts c r d (u v : list tok) : clause t ts c r -> ts = u ++ rb :: v -> enclosed d Side u ->
    exists u', r = u' ++ rb :: v /\ enclosed d Nothing u' /\ forall v', clause t (u ++ rb :: v') c (u' ++ rb :: v').
  Proof.
    intros H E He. destruct H as [bs r x r' Hb Hn Hd].
    destruct (cut_front bs r u v (blanks_no _ Hb) E) as (u1 & -> & Hr).
    apply enclosed_blanks in He; [|exact Hb].
    destruct (delimiter_shield r x r' d u1 v Hd Hn Hr He) as (u' & -> & He' & K). exists u'. repeat split; auto.
    intros v'. destruct (K v') as [K1 K2]. rewrite <- app_assoc. now constructor.
  Qed.
  Lemma right_shield ts e r d (u v : list tok) : right_side ts e r -> ts = u ++ rb :: v -> enclosed d Nothing u ->
    exists u', r = u' ++ rb :: v /\ enclosed d Nothing u' /\ forall v', right_side (u ++ rb :: v') e (u' ++ rb :: v').
  Proof.
    intros H E He. destruct H as [s r c r' H|r H].
    - destruct u as [|t0 u]; cbn in E; injection E as E1 E; [rewrite <- E1 in Hrb; discriminate|]. subst t0.
      destruct (clause_shield _ _ _ _ d u v H E) as (u' & -> & He' & K); [exact He|]. exists u'. repeat split; auto. intros v'. now constructor.
    - exists u. repeat split; auto. intros v'. constructor. rewrite E in H. destruct u as [|t0 u]; exact H.
  Qed.
  Lemma end_shield ts e r d (u v : list tok) : env_end ts e r -> ts = u ++ rb :: v -> enclosed d Nothing u ->
    exists u', r = u' ++ rb :: v /\ enclosed d Nothing u' /\ forall v', env_end (u ++ rb :: v') e (u' ++ rb :: v').
  Proof.
    intros H E He. destruct H as [s r|r H].
    - destruct u as [|t0 u]; cbn in E; injection E as E1 E; [rewrite <- E1 in Hrb; discriminate|]. subst t0.
      exists u. repeat split; auto. intros v'. constructor.
    - exists u. repeat split; auto. intros v'. constructor. rewrite E in H. destruct u as [|t0 u]; exact H.
  Qed.
  Lemma rest_shield s u v : rest_word s (u ++ rb :: v) = rest_word s u ++ rb :: v.
  Proof. now destruct s. Qed.
  Lemma rest_enclosed d s u : enclosed d Nothing u -> enclosed d Nothing (rest_word s u).
  Proof. destruct s; auto. Qed.
  Lemma named_roles t : named t -> role_of t <> Open /\ role_of t <> Close.
  Proof. intros [H|(i & -> & _)]; [|now destruct i]. cbn [In] in H. repeat destruct H as [<- |H]; now try destruct H. Qed.
  Lemma group_here q t k (r : list tok) l t' r' d u v : brackets q (fst t) k ->
    s_content q false (GramSpec.fresh Start) r l (t' :: r') -> closer q = Some (fst t') ->
    r = u ++ rb :: v -> enclosed (match q with Braces => S d | _ => d end) Nothing u ->
    exists u', r' = u' ++ rb :: v /\ enclosed d Nothing u' /\ forall v', group gm sp q t (u ++ rb :: v') (Node k (lf t :: GramSpec.all l ++ [lf t'])) (u' ++ rb :: v').
  Proof.
    intros B Hc Hl E He. assert (Nq : q <> Top) by (unfold brackets in B; cbn [In] in B; repeat destruct B as [B|B]; try injection B as <- _ _; try discriminate; contradiction).
    destruct (Hc Nq _ _ _ E He) as (u' & E' & He' & K). destruct u' as [|t0 u']; cbn in E'; injection E' as -> ->.
    - exfalso. destruct He' as [He' _]. rewrite Hrb in Hl. destruct q; try discriminate Hl. discriminate He'.
    - exists u'. split; [reflexivity|]. split.
      + destruct q; try (eapply enclosed_next; [| |exact He']; injection Hl as <-; discriminate); [contradiction|].
        injection Hl as Hl. cbn in He'. rewrite <- Hl in He'. apply He'.
      + intros v'. eapply g_closed; [exact B|exact (K v')|exact Hl].
  Qed.
  Lemma element_blanks (bs : list tok) u0 (r u v : list tok) d w : Forall blank_token bs -> w <> Nothing ->
    bs ++ u0 :: r = u ++ rb :: v -> enclosed d w u ->
    exists u1, u = bs ++ u0 :: u1 /\ r = u1 ++ rb :: v /\ enclosed d w (u0 :: u1).
  Proof.
    intros Hb Hw E He. destruct (cut_front bs _ u v (blanks_no _ Hb) E) as (u1 & -> & Hr). apply enclosed_blanks in He; [|exact Hb].
    destruct u1 as [|t u1]; [destruct He; contradiction|]. cbn in Hr. injection Hr as -> ->. exists u1. auto.
  Qed.
  Lemma not_over p t : p <> Top -> ~ over p t -> t <> TRight Curly.
  Proof. intros Hp H ->. apply H. split; auto. Qed.
  Lemma not_stopped p g t : p <> Top -> ~ stopped p g t -> t <> TRight Curly.
  Proof. intros Hp H. apply not_over with p; [exact Hp|]. intros X. apply H. destruct g; [left|]; exact X. Qed.

  Lemma enclosed_in d w t (u : list tok) : role_of (fst t) = Open -> enclosed d w (t :: u) -> enclosed (S d) Nothing u.
  Proof. cbn. intros -> [_ H]. exact H. Qed.
  Lemma enclosed_pair d w t (u : list tok) : role_of (fst t) = Pair -> enclosed d w (t :: u) -> enclosed d Side u.
  Proof. cbn. now intros ->. Qed.
  Lemma enclosed_mark d w t (u : list tok) : script_mark (fst t) -> enclosed d w (t :: u) -> enclosed d Script u.
  Proof. cbn. now intros [-> | ->]. Qed.

  Lemma simple_shield p f l t r b l' : (fst t <> TRight Curly -> role_of (fst t) <> Open /\ role_of (fst t) <> Close) ->
    (forall r, element gm sp p f l t r b l' r) -> s_element p f l t r b l' r.
  Proof.
    intros R H Hp Hc d w u v -> En. exists u. split; [reflexivity|]. split; [|auto]. destruct (R Hc). eapply enclosed_next; [| |exact En]; assumption.
  Qed.
  Theorem shield :
    (forall p g l ts l' r, content gm sp p g l ts l' r -> s_content p g l ts l' r) /\
    (forall p f l t ts b l' r, element gm sp p f l t ts b l' r -> s_element p f l t ts b l' r) /\
    (forall q t ts x r, group gm sp q t ts x r -> s_group q t ts x r) /\
    (forall p a w h ts xs h' r, GramSpec.arguments gm sp p a w h ts xs h' r -> s_arguments p a w h ts xs h' r).
  Proof.
    apply (grammar_ind gm sp (fun p g l ts l' r _ => s_content p g l ts l' r) (fun p f l t ts b l' r _ => s_element p f l t ts b l' r)
      (fun q t ts x r _ => s_group q t ts x r) (fun p a w h ts xs h' r _ => s_arguments p a w h ts xs h' r)).
    - (* eof *) intros p g l _ d u v E. destruct u; discriminate E.
    - (* end *) intros p g l t r Hs Hp d u v E He. exists u. split; [exact E|]. split; [exact He|]. intros v'.
      destruct u as [|t0 u]; cbn in E; injection E as -> E; now apply c_end.
    - (* base *) intros p g l t r l1 xs r1 l' r' Hs He IHe Ha Hc IHc Hp d u v E En.
      destruct u as [|t0 u]; cbn in E; injection E as E1 E; [exfalso; apply Hs; rewrite E1, Hrb; destruct g; [left|]; split; auto|]. subst t0.
      destruct (IHe Hp (not_stopped _ _ _ Hp Hs) d Nothing u v E En) as (u1 & -> & En1 & K1).
      destruct (IHc Hp d u1 v eq_refl En1) as (u2 & -> & En2 & K2). exists u2. split; [reflexivity|]. split; [exact En2|]. intros v'.
      rewrite <- app_comm_cons. eapply c_base; [exact Hs|exact (K1 v')|exact Ha|exact (K2 v')].
    - (* other *) intros p g l t r l1 r1 l' r' Hs He IHe Hc IHc Hp d u v E En.
      destruct u as [|t0 u]; cbn in E; injection E as E1 E; [exfalso; apply Hs; rewrite E1, Hrb; destruct g; [left|]; split; auto|]. subst t0.
      destruct (IHe Hp (not_stopped _ _ _ Hp Hs) d Nothing u v E En) as (u1 & -> & En1 & K1).
      destruct (IHc Hp d u1 v eq_refl En1) as (u2 & -> & En2 & K2). exists u2. split; [reflexivity|]. split; [exact En2|]. intros v'.
      rewrite <- app_comm_cons. eapply c_other; [exact Hs|exact (K1 v')|exact (K2 v')].
    - intros p f l t r H. apply simple_shield; [|intros; now constructor]. clear -H. destruct t as [t s]. cbn [fst] in *. unfold mark_base in H. cbn [In] in H. repeat destruct H as [<- |H]; try contradiction; intros N; try (split; discriminate); contradiction.
    - intros p f l t r H. apply simple_shield; [|intros; now constructor]. clear -H. destruct t as [t s]. cbn [fst] in *. unfold mark_plain in H. cbn [In] in H. repeat destruct H as [<- |H]; try contradiction; intros N; try (split; discriminate); contradiction.
    - intros p f l t r H. apply simple_shield; [|intros; now constructor]. clear -H. destruct t as [t s]. cbn [fst] in *. destruct H as [H|[n ->]]; [|intros _; split; discriminate]. cbn [In] in H. repeat destruct H as [<- |H]; try contradiction; intros N; try (split; discriminate); contradiction.
    - (* text *) intros p f l t ts r Ht Hts Hr Hp Hc d w u v E En.
      destruct (cut_front ts r u v (texts_no _ Hts) E) as (u1 & -> & ->). exists u1. split; [reflexivity|]. split.
      + eapply (enclosed_apart d w (t :: ts)); [|exact En]. constructor; [|eapply Forall_impl; [|exact Hts]; apply role_text].
        left. destruct Ht as [-> |[-> _]]; reflexivity.
      + intros v'. rewrite <- app_assoc. constructor; [exact Ht|exact Hts|]. destruct u1 as [|t1 u1]; exact Hr.
    - intros p l c s r Hp Hc d w u v -> En. exists (rest_word s u). rewrite rest_shield. split; [reflexivity|]. split.
      + apply rest_enclosed. eapply enclosed_next; [| |exact En]; discriminate.
      + intros v'. rewrite <- rest_shield. constructor.
    - (* groups *) intros p f l t r x r' Ht Hg IH Hp Hc d w u v E En. apply enclosed_in in En; [|now rewrite Ht].
      destruct (IH d u v E En) as (u' & -> & En' & K). exists u'. split; [reflexivity|]. split; [exact En'|]. intros v'. apply e_group; auto.
    - intros p f l t r x r' Ht Hg IH Hp Hc d w u v E En. apply enclosed_next in En; [|rewrite Ht; discriminate..].
      destruct (IH d u v E En) as (u' & -> & En' & K). exists u'. split; [reflexivity|]. split; [exact En'|]. intros v'. apply e_dollars; auto.
    - intros p f l t r x r' Ht Hg IH Hp Hc d w u v E En. apply enclosed_next in En; [|rewrite Ht; discriminate..].
      destruct (IH d u v E En) as (u' & -> & En' & K). exists u'. split; [reflexivity|]. split; [exact En'|]. intros v'. apply e_math; auto.
    - (* sides *) intros p f l t r c1 r1 l1 r2 e r' Ht Hcl Hco IH Hr Hp Hc d w u v E En. apply enclosed_pair in En; [|now rewrite Ht].
      destruct (clause_shield _ _ _ _ d u v Hcl E En) as (u1 & E1 & En1 & K1).
      destruct (IH ltac:(discriminate) d u1 v E1 En1) as (u2 & E2 & En2 & K2).
      destruct (right_shield _ _ _ d u2 v Hr E2 En2) as (u3 & E3 & En3 & K3).
      exists u3. split; [exact E3|]. split; [exact En3|]. intros v'. eapply e_sides; [exact Ht|exact (K1 v')|exact (K2 v')|exact (K3 v')].
    - (* environments *) intros p f l t r l1 r2 e r' Ht Hn Hco IH Hr Hp Hc d w u v E En. apply enclosed_next in En; [|rewrite Ht; discriminate..].
      destruct (IH ltac:(discriminate) d u v E En) as (u2 & E2 & En2 & K2).
      destruct (end_shield _ _ _ d u2 v Hr E2 En2) as (u3 & E3 & En3 & K3).
      exists u3. split; [exact E3|]. split; [exact En3|]. intros v'. eapply e_env; [exact Ht|exact Hn|exact (K2 v')|exact (K3 v')].
    - intros p f l t r a args held r1 l1 r2 e r' Ht Hb Hn Hg Ha IHa Hco IH Hr Hp Hc d w u v E En. apply enclosed_next in En; [|rewrite Ht; discriminate..].
      destruct (IHa Hp d u v E En) as (u1 & E1 & En1 & K1).
      destruct (IH ltac:(discriminate) d u1 v E1 En1) as (u2 & E2 & En2 & K2).
      destruct (end_shield _ _ _ d u2 v Hr E2 En2) as (u3 & E3 & En3 & K3).
      exists u3. split; [exact E3|]. split; [exact En3|]. intros v'. eapply e_env_args; [exact Ht|exact Hb|exact Hn|exact Hg|exact (K1 v')|exact (K2 v')|exact (K3 v')].
    - (* skipped *) intros p f l i s r k xs r' Hi Hs Hp Hc d w u v E En. exfalso. destruct Hi as [[-> _]|[-> _]]; exact En.
    - (* commands *) intros p f l t r name Hn Hs Hb. apply simple_shield; [intros _; apply named_roles, Hn|]. intros. eapply e_bare; eauto.
    - intros p f l t r name a args held r' Hn Hs Hb Hna Hg Ha IHa Hp Hc d w u v E En. apply enclosed_next in En; [|apply named_roles, Hn..].
      destruct (IHa Hp d u v E En) as (u1 & E1 & En1 & K1). exists u1. split; [exact E1|]. split; [exact En1|]. intros v'. eapply e_command; eauto.
    - intros p f l t r name l1 r' Hn Hs Hb Ha IHa Hp Hc d w u v E En. apply enclosed_next in En; [|apply named_roles, Hn..].
      destruct (IHa Hp d u v E En) as (u1 & E1 & En1 & K1). exists u1. split; [exact E1|]. split; [exact En1|]. intros v'. eapply e_greedy; eauto.
    - intros p f l t r name ys Hn Hs Hb Hy. apply simple_shield; [intros _; apply named_roles, Hn|]. intros. eapply e_postfix; eauto.
    - intros p f l t r name Hn Hs Hb Hy Hf. apply simple_shield; [intros _; apply named_roles, Hn|]. intros. eapply e_postfix_all; eauto.
    - intros p f l t r name Hn Hs Hb Hy Hf. apply simple_shield; [intros _; apply named_roles, Hn|]. intros. eapply e_postfix_none; eauto.
    - intros p f l t r name l1 r' Hn Hs Hb Hf Ha IHa Hp Hc d w u v E En. apply enclosed_next in En; [|apply named_roles, Hn..].
      destruct (IHa Hp d u v E En) as (u1 & E1 & En1 & K1). exists u1. split; [exact E1|]. split; [exact En1|]. intros v'. eapply e_infix; eauto.
    - intros p f l t r name l1 r' Hn Hs Hb Hf Ha IHa Hp Hc d w u v E En. apply enclosed_next in En; [|apply named_roles, Hn..].
      destruct (IHa Hp d u v E En) as (u1 & E1 & En1 & K1). exists u1. split; [exact E1|]. split; [exact En1|]. intros v'. eapply e_infix_again; eauto.
    - (* primes *) intros p f l s r ys Hy. apply simple_shield; [intros _; split; discriminate|]. intros. now apply e_prime.
    - intros p f l s r Hy. apply simple_shield; [intros _; split; discriminate|]. intros. now apply e_prime_alone.
    - (* scripts *) intros p f l t bs u0 r b l1 r' Hm Hb Hu He IHe Hp Hc d w u v E En. apply enclosed_mark in En; [|exact Hm].
      destruct (element_blanks bs u0 r u v d Script Hb ltac:(discriminate) E En) as (u1 & -> & -> & En1).
      assert (Hu0 : fst u0 <> TRight Curly) by (intros X; cbn in En1; rewrite X in En1; destruct En1; discriminate).
      destruct (IHe Hp Hu0 d Script u1 v eq_refl En1) as (u2 & -> & En2 & K). exists u2. split; [reflexivity|]. split; [exact En2|].
      intros v'. rewrite <- app_assoc, <- app_comm_cons. eapply e_script; eauto.
    - intros p f l t bs Hm Hb Hp Hc d w u v E En. exfalso. rewrite Forall_forall in Hb. specialize (Hb rb). rewrite E in Hb.
      assert (X : blank_token rb) by (apply Hb, in_or_app; right; left; reflexivity). apply role_blank in X. rewrite Hrb in X. discriminate.
    - (* closed groups *) intros q t k r l t' r' B Hco IH Hcl d u v E En. eapply group_here; eauto.
    - (* open groups *) intros q t k r l r' B Hco IH Hcl d u v E En.
      assert (Nq : q <> Top) by (unfold brackets in B; cbn [In] in B; repeat destruct B as [B|B]; try injection B as <- _ _; try discriminate; contradiction).
      destruct (IH Nq _ u v E En) as (u' & E' & En' & K). exists u'. split; [exact E'|].
      assert (Hq : q <> Braces).
      { intros ->. apply content_ends in Hco as [Hco|Hco]; [subst r'; destruct u'; discriminate|]. apply Hcl. destruct r' as [|t' r'']; [destruct u'; discriminate|]. cbn in *.
        destruct Hco as [_ [Hco|[Hco|[[_ Hco]|[_ [Hco _]]]]]]; first [contradiction|exact Hco|now rewrite Hco]. }
      split; [now destruct q|]. intros v'. eapply g_open; [exact B|apply K|]. intros X. apply Hcl. subst r'. destruct u' as [|t' u']; exact X.
    - (* arguments *) intros p a w h Hp d u v E. destruct u; discriminate E.
    - intros p a w h t r xs h' r' Hb Ha IH Hp d u v E En.
      destruct u as [|t0 u]; cbn in E; injection E as E1 E; [apply role_blank in Hb; rewrite E1, Hrb in Hb; discriminate|]. subst t0.
      apply enclosed_next in En; [|rewrite (role_blank _ Hb); discriminate..].
      destruct (IH Hp d u v E En) as (u1 & E1 & En1 & K1). exists u1. split; [exact E1|]. split; [exact En1|]. intros v'. rewrite <- app_comm_cons. apply a_blank; auto.
    - intros p a w h t r Hs Hp d u v E En. exists u. split; [exact E|]. split; [exact En|]. intros v'.
      destruct u as [|t0 u]; cbn in E; injection E as -> E; now apply a_stop.
    - intros p a w h t r Hb Hw Ht Hp d u v E En. exists u. split; [exact E|]. split; [exact En|]. intros v'.
      destruct u as [|t0 u]; cbn in E; injection E as -> E; now apply a_refuse.
    - intros p a w h c s r xs h' r' Ht Ha IH Hp d u v E En.
      destruct u as [|t0 u]; cbn in E; injection E as E1 E; [rewrite <- E1 in Hrb; discriminate|]. subst t0 r.
      destruct (IH Hp d (rest_word s u) v (rest_shield _ _ _)) as (u1 & E1 & En1 & K1); [apply rest_enclosed; eapply enclosed_next; [| |exact En]; discriminate|].
      exists u1. split; [exact E1|]. split; [exact En1|]. intros v'. rewrite <- app_comm_cons. apply a_char; [exact Ht|]. rewrite rest_shield. apply K1.
    - intros p a w h t r q x r1 xs h' r' Ho Ht Hg IHg Hq Ha IHa Hp d u v E En. destruct Ho as [Ho1 Ho2].
      assert (R : fst t <> TRight Curly /\ role_of (fst t) <> Open /\ role_of (fst t) <> Close) by (destruct Ho2 as [-> | ->]; repeat split; discriminate).
      destruct R as (R1 & R2 & R3).
      destruct u as [|t0 u]; cbn in E; injection E as E1 E; [congruence|]. subst t0. apply enclosed_next in En; [|assumption..].
      destruct (IHg d u v E) as (u1 & E1 & En1 & K1); [destruct Hq as [-> | ->]; exact En|].
      destruct (IHa Hp d u1 v E1 En1) as (u2 & E2 & En2 & K2). exists u2. split; [exact E2|]. split; [exact En2|].
      intros v'. rewrite <- app_comm_cons. eapply a_optional; [split; eassumption|exact Ht|exact (K1 v')|exact Hq|exact (K2 v')].
    - intros p a w h t r b l1 r1 xs h' r' Hb Hw Hn Ho Hopt Ht He IHe Ha IHa Hp d u v E En.
      pose proof (not_over _ _ Hp Ho) as R. destruct u as [|t0 u]; cbn in E; injection E as E1 E; [congruence|]. subst t0.
      destruct (IHe Hp R d Nothing u v E En) as (u1 & E1 & En1 & K1). destruct (IHa Hp d u1 v E1 En1) as (u2 & E2 & En2 & K2).
      exists u2. split; [exact E2|]. split; [exact En2|]. intros v'. rewrite <- app_comm_cons. eapply a_term; eauto.
  Qed.
  (** a group with such a content is read alike before every continuation *)
  Theorem group_alone lb x g (r v : list tok) : fst lb = TLeft Curly -> content_of_group x ->
    group gm sp Braces lb (x ++ rb :: v) g r -> r = v /\ forall v', group gm sp Braces lb (x ++ rb :: v') g v'.
  Proof.
    intros Hl Hx H. remember (x ++ rb :: v) as ts eqn:E. remember Braces as q eqn:Eq.
    destruct H as [q t k r l t' r' B Hco Hcl|q t k r l r' B Hco Hcl]; subst q.
    - destruct (proj1 shield _ _ _ _ _ _ Hco ltac:(discriminate) 0 x v E Hx) as (u' & E' & En & K).
      destruct u' as [|t0 u']; cbn in E'; injection E' as -> ->.
      + split; [reflexivity|]. intros v'. eapply g_closed; [exact B|exact (K v')|exact Hcl].
      + exfalso. injection Hcl as Hcl. cbn in En. rewrite <- Hcl in En. destruct En as [_ []].
    - exfalso. destruct (proj1 shield _ _ _ _ _ _ Hco ltac:(discriminate) 0 x v E Hx) as (u' & E' & En & K).
      apply content_ends in Hco as [Hco|Hco]; [subst r'; destruct u'; discriminate|]. apply Hcl. destruct r' as [|t' r'']; [destruct u'; discriminate|]. cbn in *.
      destruct Hco as [_ [Hco|[Hco|[[_ Hco]|[_ [Hco _]]]]]]; first [contradiction|exact Hco|now rewrite Hco].
  Qed.
End Shield.
