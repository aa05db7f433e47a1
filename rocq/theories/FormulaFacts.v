(** What stands between the delimiters of a formula is read like a document
    (C77). *)
From Verif Require Import GramSpec GramSound GramComplete.
From Verif Require Import FormulaSpec GramSpec.
Local Open Scope nat_scope.

(** ** What is read before the last token does not depend on it *)
Section Shorter.
  Variable gm : text -> text -> bool.
  Variable sp : spec.
  Variable d : tok.
  Hypothesis Hd : fst d <> Word.

  Definition t_content p g l (ts : list tok) l' r : Prop := forall b, r = b ++ [d] -> exists a, ts = a ++ [d] /\ content gm sp p g l a l' b.
  Definition t_element p f l t (ts : list tok) b l' r : Prop := forall b', r = b' ++ [d] -> exists a, ts = a ++ [d] /\ element gm sp p f l t a b l' b'.
  Definition t_group q t (ts : list tok) x r : Prop := forall b, r = b ++ [d] -> exists a, ts = a ++ [d] /\ group gm sp q t a x b.
  Definition t_arguments p w0 w held (ts : list tok) xs held' r : Prop := forall b, r = b ++ [d] -> exists a, ts = a ++ [d] /\ arguments gm sp p w0 w held a xs held' b.

  Lemma one_more t (r b : list tok) : t :: r = b ++ [d] -> (b = [] /\ t = d /\ r = []) \/ exists a, b = t :: a /\ r = a ++ [d].
  Proof. destruct b as [|t0 b]; cbn; intros [= -> E]; [left; auto|right; exists b; auto]. Qed.
  Lemma no_heads (P : tok -> Prop) (b : list tok) : ~ heads P (b ++ [d]) -> ~ heads P b.
  Proof. destruct b; cbn; auto. Qed.
  Lemma rest_cut s r b : rest_word s r = b ++ [d] -> exists a, r = a ++ [d] /\ b = rest_word s a.
  Proof.
    destruct s as [|c s]; cbn [rest_word]; intros E; [exists b; auto|].
    apply one_more in E as [(_ & E & _)|(a & -> & ->)]; [elim Hd; now rewrite <- E|]. exists a. auto.
  Qed.
  Lemma delimiter_cut r x r' b : delimiter r x r' -> r' = b ++ [d] -> exists a, r = a ++ [d] /\ delimiter a x b.
  Proof.
    destruct 1 as [|t r N|s r|c r|c e s r|t r N G W B]; intros E.
    - destruct b; discriminate E.
    - apply one_more in E as [(-> & E1 & ->)|(a & -> & ->)]; [exists []; rewrite E1|exists (t :: a)]; (split; [reflexivity|]); now constructor.
    - subst r. exists ((CommandName Generic, s) :: b). split; [reflexivity|constructor].
    - subst r. exists ((Word, [c]) :: b). split; [reflexivity|constructor].
    - apply one_more in E as [(_ & E & _)|(a & -> & ->)]; [elim Hd; now rewrite <- E|]. exists ((Word, c :: e :: s) :: a). split; [reflexivity|constructor].
    - subst r. exists (t :: b). split; [reflexivity|now constructor].
  Qed.
  Lemma clause_cut t r c r' b : clause t r c r' -> r' = b ++ [d] -> exists a, r = a ++ [d] /\ clause t a c b.
  Proof.
    destruct 1 as [bs r x r' Hb Hn Hx]. intros E. destruct (delimiter_cut _ _ _ _ Hx E) as (a & -> & Ha). exists (bs ++ a). split; [apply app_assoc|].
    constructor; [exact Hb|now apply no_heads in Hn|exact Ha].
  Qed.
  Lemma right_cut r e r' b : right_side r e r' -> r' = b ++ [d] -> exists a, r = a ++ [d] /\ right_side a e b.
  Proof.
    destruct 1 as [s r c r' Hc|r Hn]; intros E.
    - destruct (clause_cut _ _ _ _ _ Hc E) as (a & -> & Ha). exists ((CommandName CRight, s) :: a). split; [reflexivity|now constructor].
    - subst r. exists b. split; [reflexivity|]. constructor. now apply no_heads in Hn.
  Qed.
  Lemma end_cut r e r' b : env_end r e r' -> r' = b ++ [d] -> exists a, r = a ++ [d] /\ env_end a e b.
  Proof.
    destruct 1 as [s r|r Hn]; intros E; subst r.
    - exists ((CommandName EndEnvironment, s) :: b). split; [reflexivity|constructor].
    - exists b. split; [reflexivity|]. constructor. now apply no_heads in Hn.
  Qed.
  Lemma skipped_cut n r xs r' b : skipped n r xs r' -> r' = b ++ [d] -> exists a, r = a ++ [d] /\ skipped n a xs b.
  Proof.
    intros H. revert b. induction H as [n|n i s r xs r' H IH|n s r xs r' H IH|s r|n t r xs r' N1 N2 H IH]; intros b E.
    - destruct b; discriminate E.
    - destruct (IH b E) as (a & -> & K). exists ((CommandName (CIf i), s) :: a). split; [reflexivity|now constructor].
    - destruct (IH b E) as (a & -> & K). exists ((CommandName CEndIf, s) :: a). split; [reflexivity|now constructor].
    - exists ((CommandName CEndIf, s) :: b). split; [now rewrite E|constructor].
    - destruct (IH b E) as (a & -> & K). exists (t :: a). split; [reflexivity|now constructor].
  Qed.

  Theorem shorter :
    (forall p g l ts l' r, content gm sp p g l ts l' r -> t_content p g l ts l' r) /\
    (forall p f l t ts b l' r, element gm sp p f l t ts b l' r -> t_element p f l t ts b l' r) /\
    (forall q t ts x r, group gm sp q t ts x r -> t_group q t ts x r) /\
    (forall p a w h ts xs h' r, arguments gm sp p a w h ts xs h' r -> t_arguments p a w h ts xs h' r).
  Proof.
    apply (grammar_ind gm sp (fun p g l ts l' r _ => t_content p g l ts l' r) (fun p f l t ts b l' r _ => t_element p f l t ts b l' r)
      (fun q t ts x r _ => t_group q t ts x r) (fun p a w h ts xs h' r _ => t_arguments p a w h ts xs h' r)).
    - (* eof *) intros p g l b E. destruct b; discriminate E.
    - (* end *) intros p g l t r Hs b E. apply one_more in E as [(-> & E & ->)|(a & -> & ->)].
      + exists []. split; [now rewrite E|constructor].
      + exists (t :: a). split; [reflexivity|now constructor].
    - (* base *) intros p g l t r l1 xs r1 l' r' Hs He IHe Ha Hc IHc b E.
      destruct (IHc b E) as (a1 & -> & K1). destruct (IHe a1 eq_refl) as (a & -> & K). exists (t :: a). split; [reflexivity|]. eapply c_base; eauto.
    - (* other *) intros p g l t r l1 r1 l' r' Hs He IHe Hc IHc b E.
      destruct (IHc b E) as (a1 & -> & K1). destruct (IHe a1 eq_refl) as (a & -> & K). exists (t :: a). split; [reflexivity|]. eapply c_other; eauto.
    - intros p f l t r H b ->. exists b. split; [reflexivity|now constructor].
    - intros p f l t r H b ->. exists b. split; [reflexivity|now constructor].
    - intros p f l t r H b ->. exists b. split; [reflexivity|now constructor].
    - (* text *) intros p f l t ts r Ht Hts Hr b ->. exists (ts ++ b). split; [apply app_assoc|]. apply no_heads in Hr. now constructor.
    - intros p l c s r b E. apply rest_cut in E as (a & -> & ->). exists a. split; [reflexivity|constructor].
    - (* groups *) intros p f l t r x r' Ht Hg IH b E. destruct (IH b E) as (a & -> & K). exists a. split; [reflexivity|now constructor].
    - intros p f l t r x r' Ht Hg IH b E. destruct (IH b E) as (a & -> & K). exists a. split; [reflexivity|now constructor].
    - intros p f l t r x r' Ht Hg IH b E. destruct (IH b E) as (a & -> & K). exists a. split; [reflexivity|now apply e_math].
    - (* sides *) intros p f l t r c1 r1 l1 r2 e r' Ht Hcl Hco IH Hr b E.
      destruct (right_cut _ _ _ _ Hr E) as (a2 & -> & K2). destruct (IH a2 eq_refl) as (a1 & -> & K1). destruct (clause_cut _ _ _ _ _ Hcl eq_refl) as (a & -> & K).
      exists a. split; [reflexivity|]. eapply e_sides; eauto.
    - (* environments *) intros p f l t r l1 r2 e r' Ht Hn Hco IH Hr b E.
      destruct (end_cut _ _ _ _ Hr E) as (a2 & -> & K2). destruct (IH a2 eq_refl) as (a1 & -> & K1).
      exists a1. split; [reflexivity|]. eapply e_env; eauto.
    - intros p f l t r a0 args held r1 l1 r2 e r' Ht Hb Hn Hg Ha IHa Hco IH Hr b E.
      destruct (end_cut _ _ _ _ Hr E) as (a2 & -> & K2). destruct (IH a2 eq_refl) as (a1 & -> & K1). destruct (IHa a1 eq_refl) as (a & -> & K).
      exists a. split; [reflexivity|]. eapply e_env_args; eauto.
    - (* skipped *) intros p f l i s r k xs r' Hi Hs b E. destruct (skipped_cut _ _ _ _ _ Hs E) as (a & -> & K). exists a. split; [reflexivity|]. eapply e_skip; eauto.
    - (* commands *) intros p f l t r name Hn Hs Hb b ->. exists b. split; [reflexivity|]. eapply e_bare; eauto.
    - intros p f l t r name a0 args held r' Hn Hs Hb Hna Hg Ha IHa b E. destruct (IHa b E) as (a & -> & K). exists a. split; [reflexivity|]. eapply e_command; eauto.
    - intros p f l t r name l1 r' Hn Hs Hb Ha IHa b E. destruct (IHa b E) as (a & -> & K). exists a. split; [reflexivity|]. eapply e_greedy; eauto.
    - intros p f l t r name ys Hn Hs Hb Hy b ->. exists b. split; [reflexivity|]. eapply e_postfix; eauto.
    - intros p f l t r name Hn Hs Hb Hy Hf b ->. exists b. split; [reflexivity|]. eapply e_postfix_all; eauto.
    - intros p f l t r name Hn Hs Hb Hy Hf b ->. exists b. split; [reflexivity|]. eapply e_postfix_none; eauto.
    - intros p f l t r name l1 r' Hn Hs Hb Hf Ha IHa b E. destruct (IHa b E) as (a & -> & K). exists a. split; [reflexivity|]. eapply e_infix; eauto.
    - intros p f l t r name l1 r' Hn Hs Hb Hf Ha IHa b E. destruct (IHa b E) as (a & -> & K). exists a. split; [reflexivity|]. eapply e_infix_again; eauto.
    - (* primes *) intros p f l s r ys Hy b ->. exists b. split; [reflexivity|now apply e_prime].
    - intros p f l s r Hy b ->. exists b. split; [reflexivity|now apply e_prime_alone].
    - (* scripts *) intros p f l t bs u0 r b l1 r' Hm Hb Hu He IHe b' E. destruct (IHe b' E) as (a & -> & K). exists (bs ++ u0 :: a).
      split; [now rewrite <- app_assoc|]. eapply e_script; eauto.
    - intros p f l t bs Hm Hb b E. destruct b; discriminate E.
    - (* closed groups *) intros q t k r l t' r' B Hco IH Hcl b E. destruct (IH (t' :: b)) as (a & -> & K); [now rewrite E|]. exists a. split; [reflexivity|]. eapply g_closed; eauto.
    - intros q t k r l r' B Hco IH Hcl b E. destruct (IH b E) as (a & -> & K). exists a. split; [reflexivity|]. eapply g_open; [exact B|exact K|]. rewrite E in Hcl. now apply no_heads in Hcl.
    - (* arguments *) intros p a0 w h b E. destruct b; discriminate E.
    - intros p a0 w h t r xs h' r' Hb Ha IH b E. destruct (IH b E) as (a & -> & K). exists (t :: a). split; [reflexivity|]. now apply a_blank.
    - intros p a0 w h t r Hs b E. apply one_more in E as [(-> & E & ->)|(a & -> & ->)].
      + exists []. split; [now rewrite E|constructor].
      + exists (t :: a). split; [reflexivity|now apply a_stop].
    - intros p a0 w h t r Hb Hw Ht b E. apply one_more in E as [(-> & E & ->)|(a & -> & ->)].
      + exists []. split; [now rewrite E|constructor].
      + exists (t :: a). split; [reflexivity|now apply a_refuse].
    - intros p a0 w h c s r xs h' r' Ht Ha IH b E. destruct (IH b E) as (a & Ea & K). apply rest_cut in Ea as (a1 & -> & ->).
      exists ((Word, c :: s) :: a1). split; [reflexivity|]. now apply a_char.
    - intros p a0 w h t r q x r1 xs h' r' Ho Ht Hg IHg Hq Ha IHa b E. destruct (IHa b E) as (a1 & -> & K1). destruct (IHg a1 eq_refl) as (a & -> & K).
      exists (t :: a). split; [reflexivity|]. eapply a_optional; eauto.
    - intros p a0 w h t r b l1 r1 xs h' r' Hb Hw Hn Ho Hopt Ht He IHe Ha IHa b' E. destruct (IHa b' E) as (a1 & -> & K1). destruct (IHe a1 eq_refl) as (a & -> & K).
      exists (t :: a). split; [reflexivity|]. eapply a_term; eauto.
  Qed.
End Shorter.


(** ** What is read in a formula up to its end is read alike in a document *)
Section Place.
  Variable gm : text -> text -> bool.
  Variable sp : spec.
  Variable q : place.
  Hypothesis Hq : q = Dollars_ \/ q = Math_ \/ q = Braces.

  Definition ended (r : list tok) : Prop := heads (fun t => over q (fst t)) r.
  Local Notation argued := (argued sp).
  Lemma argued_app a r : argued (a ++ r) -> argued r.
  Proof. induction a as [|t a IH]; [auto|]. intros [_ H]. auto. Qed.
  Lemma argued_rest s r : argued r -> argued (rest_word s r).
  Proof. destruct s; [auto|]. intros H. split; [intros X; discriminate X|exact H]. Qed.
  Lemma argued_delimiter r x r' : delimiter r x r' -> argued r -> argued r'.
  Proof. destruct 1; intros Ha; try exact Ha; try (now destruct Ha). Qed.
  Lemma argued_clause t r c r' : clause t r c r' -> argued r -> argued r'.
  Proof. destruct 1 as [bs r x r' Hb Hn Hx]. intros Ha. apply argued_app in Ha. eapply argued_delimiter; eauto. Qed.
  Lemma argued_right r e r' : right_side r e r' -> argued r -> argued r'.
  Proof. destruct 1 as [s r c r' Hc|r Hn]; [|auto]. intros [_ Ha]. eapply argued_clause; eauto. Qed.
  Lemma argued_end r e r' : env_end r e r' -> argued r -> argued r'.
  Proof. destruct 1; [now intros [_ Ha]|auto]. Qed.
  Lemma argued_skipped n r xs r' : skipped n r xs r' -> argued r -> argued r'.
  Proof. induction 1; auto; intros [_ Ha]; auto. Qed.

  Definition d_content p g l (ts : list tok) l' r : Prop := argued ts -> argued r /\ (p = q -> ~ ended r -> content gm sp Top g l ts l' r).
  Definition d_element p f l t (ts : list tok) b l' r : Prop := argued (t :: ts) -> argued r /\ (p = q -> ~ ended r -> element gm sp Top f l t ts b l' r).
  Definition d_group (ts r : list tok) : Prop := argued ts -> argued r.
  Definition d_arguments p w0 w held (ts : list tok) xs held' r : Prop := argued ts -> argued r /\ (p = q -> ~ ended r -> arguments gm sp Top w0 w held ts xs held' r).

  Lemma not_over t : ~ over Top t.
  Proof. intros [H _]. now apply H. Qed.
  Lemma content_ended p g l ts l' r : content gm sp p g l ts l' r -> p = q -> ended ts -> r = ts.
  Proof.
    destruct 1 as [p g l|p g l t r Hs|p g l t r l1 ys r1 l' r' Hs He Ha Hc|p g l t r l1 r1 l' r' Hs He Hc]; intros -> E; try reflexivity.
    all: exfalso; apply Hs; destruct g; [now left|exact E].
  Qed.
  Lemma over_cases t : over q t -> t = Dollar \/ t = CommandName EndMath \/ t = TRight Curly \/ t = CommandName EndEnvironment \/ t = CommandName CRight.
  Proof. destruct Hq as [-> |[-> | ->]]; intros [_ [X|[X|[[X _]|[X _]]]]]; try injection X as <-; subst; auto. Qed.
  Lemma arguments_ended p a w h ts xs h' r : arguments gm sp p a w h ts xs h' r -> p = q -> ended ts -> r = ts.
  Proof.
    destruct 1 as [p a w h|p a w h t r xs h' r' Hb Ha|p a w h t r Hs|p a w h t r Hb Hw Ht|p a w h c s r xs h' r' Ht Ha|p a w h t r q0 x r1 xs h' r' Ho Ht Hg Hq0 Ha
                  |p a w h t r b l1 r1 xs h' r' Hb Hw Hn Ho Hopt Ht He Ha]; intros -> E; try reflexivity; exfalso; cbn [ended heads fst] in E.
    - destruct t as [t s]. unfold blank_token in Hb. cbn [In fst] in *. apply over_cases in E.
      repeat destruct Hb as [<-|Hb]; try contradiction; repeat destruct E as [E|E]; discriminate E.
    - apply over_cases in E. repeat destruct E as [E|E]; discriminate E.
    - destruct Ho as [_ Ho]. apply over_cases in E. destruct t as [t s]. cbn [fst] in *.
      destruct Ho as [-> | ->]; repeat destruct E as [E|E]; discriminate E.
    - exact (Ho E).
  Qed.
  Lemma not_stopped g t : ~ stopped q g t -> ~ stopped Top g t.
  Proof.
    intros H X. apply H. destruct g; cbn [stopped] in *.
    - destruct X as [X|[X|[_ X]]]; [now apply not_over in X|right; left; exact X|discriminate X].
    - now apply not_over in X.
  Qed.
  (** one argument in braces is read alike everywhere *)
  Lemma full_args p a w h ts xs h' r : arguments gm sp p a w h ts xs h' r -> p = q -> a = PFixed 1 -> w <> [] -> arguments gm sp Top a w h ts xs h' r.
  Proof.
    induction 1 as [p a w h|p a w h t r xs h' r' Hb Ha IH|p a w h t r Hs|p a w h t r Hb Hw Ht|p a w h c s r xs h' r' Ht Ha IH|p a w h t r q0 x r1 xs h' r' Ho Ht Hg Hq0 Ha IH
                  |p a w h t r b l1 r1 xs h' r' Hb Hw Hn Ho Hopt Ht He Ha IH]; intros -> -> W.
    - constructor.
    - apply a_blank; auto.
    - destruct Hs as [Hs|Hs]; [apply a_stop; now left|]. apply over_cases in Hs. destruct t as [t s]. cbn [fst] in Hs. apply a_refuse.
      + unfold blank_token. cbn [In fst]. intros X. repeat destruct X as [<-|X]; try contradiction; repeat destruct Hs as [Hs|Hs]; discriminate Hs.
      + intros [= -> _]. repeat destruct Hs as [Hs|Hs]; discriminate Hs.
      + cbn. intros X. destruct w; [now apply W|cbn in X; lia].
    - apply a_refuse; assumption.
    - exfalso. cbn in Ht. destruct w; [now apply W|cbn in Ht; lia].
    - exfalso. destruct Ho as [[g X] _]. discriminate X.
    - exfalso. cbn in Ht. destruct w; [now apply W|cbn in Ht; lia].
  Qed.
  Lemma brace_anywhere p p' f l t r b l' r' : element gm sp p f l t r b l' r' -> fst t = TLeft Curly -> element gm sp p' f l t r b l' r'.
  Proof.
    intros H T. destruct H; try (constructor; assumption); exfalso; cbn [fst] in *; try congruence;
      try (match goal with H : _ \/ _ |- _ => rewrite T in H; destruct H as [H|[H _]]; discriminate end);
      try (match goal with H : named _ |- _ => rewrite T in H; destruct H as [H|(i & H & _)]; [|discriminate H]; cbn [In] in H; repeat destruct H as [H|H]; try discriminate; contradiction end);
      try (match goal with H : GramSpec.script_mark _ |- _ => rewrite T in H; destruct H; discriminate end).
  Qed.
  Lemma brace_args p a w h ts xs h' r : arguments gm sp p a w h ts xs h' r -> p = q -> a = PFixed 1 -> w = [] -> in_braces ts ->
    arguments gm sp Top a w h ts xs h' r.
  Proof.
    induction 1 as [p a w h|p a w h t r xs h' r' Hb Ha IH|p a w h t r Hs|p a w h t r Hb Hw Ht|p a w h c s r xs h' r' Ht Ha IH|p a w h t r q0 x r1 xs h' r' Ho Ht Hg Hq0 Ha IH
                  |p a w h t r b l1 r1 xs h' r' Hb Hw Hn Ho Hopt Ht He Ha IH]; intros -> -> -> (bs & v & u & E & Hbs & Hv).
    - constructor.
    - apply a_blank; [exact Hb|]. apply IH; auto. destruct Hbs as [|b bs H1 H2]; cbn in E; injection E as -> ->.
      + exfalso. destruct v as [v s]. cbn [fst] in Hv. subst v. unfold blank_token in Hb. cbn [In fst] in Hb. repeat destruct Hb as [Hb|Hb]; try discriminate Hb; contradiction.
      + exists bs, v, u. auto.
    - apply a_stop. destruct Hs as [Hs|Hs]; [now left|]. exfalso. apply over_cases in Hs.
      destruct Hbs as [|b bs H1 H2]; cbn in E; injection E as -> ->.
      + rewrite Hv in Hs. repeat destruct Hs as [Hs|Hs]; discriminate Hs.
      + destruct b as [b s]. cbn [fst] in Hs. unfold blank_token in H1. cbn [In fst] in H1.
        repeat destruct H1 as [<-|H1]; try contradiction; repeat destruct Hs as [Hs|Hs]; discriminate Hs.
    - exfalso. apply Ht. cbn. lia.
    - exfalso. destruct Hbs as [|b bs H1 H2]; cbn in E; injection E as E1 E2; [rewrite <- E1 in Hv; discriminate Hv|rewrite <- E1 in H1].
      unfold blank_token in H1. cbn [In fst] in H1. repeat destruct H1 as [H1|H1]; try discriminate H1; contradiction.
    - exfalso. destruct Ho as [[g X] _]. discriminate X.
    - destruct Hbs as [|b' bs H1 H2]; cbn in E; injection E as -> ->; [|contradiction].
      eapply a_term; try eassumption; [apply not_over|eapply brace_anywhere; eassumption|]. eapply full_args; try eassumption; try reflexivity. discriminate.
  Qed.

  Theorem in_document :
    (forall p g l ts l' r, content gm sp p g l ts l' r -> d_content p g l ts l' r) /\
    (forall p f l t ts b l' r, element gm sp p f l t ts b l' r -> d_element p f l t ts b l' r) /\
    (forall (q0 : place) (t : tok) (ts : list tok) (x : tree) (r : list tok), group gm sp q0 t ts x r -> d_group ts r) /\
    (forall p a w h ts xs h' r, arguments gm sp p a w h ts xs h' r -> d_arguments p a w h ts xs h' r).
  Proof.
    apply (grammar_ind gm sp (fun p g l ts l' r _ => d_content p g l ts l' r) (fun p f l t ts b l' r _ => d_element p f l t ts b l' r)
      (fun _ _ ts _ r _ => d_group ts r) (fun p a w h ts xs h' r _ => d_arguments p a w h ts xs h' r)).
    - intros p g l A. split; [exact A|]. intros Hp Hr. constructor.
    - (* end *) intros p g l t r Hs A. split; [exact A|]. intros -> Hr. apply c_end. destruct g; cbn [stopped] in *; [|now elim Hr].
      destruct Hs as [Hs|[Hs|[_ Hs]]]; [now elim Hr|right; left; exact Hs|destruct Hq as [-> |[-> | ->]]; discriminate Hs].
    - (* base *) intros p g l t r l1 xs r1 l' r' Hs He IHe Ha Hc IHc A. destruct (IHe A) as [A1 K1]. destruct (IHc A1) as [A2 K2]. split; [exact A2|].
      intros -> Hr. eapply c_base; [now apply not_stopped| |exact Ha|now apply K2]. apply K1; [reflexivity|]. intros X. apply Hr. now rewrite (content_ended _ _ _ _ _ _ Hc eq_refl X).
    - intros p g l t r l1 r1 l' r' Hs He IHe Hc IHc A. destruct (IHe A) as [A1 K1]. destruct (IHc A1) as [A2 K2]. split; [exact A2|].
      intros -> Hr. eapply c_other; [now apply not_stopped| |now apply K2]. apply K1; [reflexivity|]. intros X. apply Hr. now rewrite (content_ended _ _ _ _ _ _ Hc eq_refl X).
    - intros p f l t r H [_ A]. split; [exact A|]. intros. now constructor.
    - intros p f l t r H [_ A]. split; [exact A|]. intros. now constructor.
    - intros p f l t r H [_ A]. split; [exact A|]. intros. now constructor.
    - intros p f l t ts r Ht Hts Hn [_ A]. split; [now apply argued_app in A|]. intros. now constructor.
    - intros p l c s r [_ A]. split; [now apply argued_rest|]. intros. constructor.
    - intros p f l t r x r' Ht Hg IH [_ A]. split; [now apply IH|]. intros. now constructor.
    - intros p f l t r x r' Ht Hg IH [_ A]. split; [now apply IH|]. intros. now constructor.
    - intros p f l t r x r' Ht Hg IH [_ A]. split; [now apply IH|]. intros. now apply e_math.
    - intros p f l t r c1 r1 l1 r2 e r' Ht Hcl Hco IH Hrs [_ A]. apply (argued_clause _ _ _ _ Hcl) in A. destruct (IH A) as [A1 _]. apply (argued_right _ _ _ Hrs) in A1.
      split; [exact A1|]. intros. eapply e_sides; eauto.
    - intros p f l t r l1 r2 e r' Ht Hn Hco IH Hrs [_ A]. destruct (IH A) as [A1 _]. apply (argued_end _ _ _ Hrs) in A1. split; [exact A1|]. intros. eapply e_env; eauto.
    - (* environment with arguments *) intros p f l t r a0 args held r1 l1 r2 e r' Ht Hb Hn Hg Ha IHa Hco IH Hrs [B A].
      destruct (IHa A) as [A1 _]. destruct (IH A1) as [A2 _]. apply (argued_end _ _ _ Hrs) in A2. split; [exact A2|]. intros -> Hr.
      destruct (B Ht) as [B1|[B1 B2]]; [rewrite Hb in B1; contradiction|]. rewrite Hb in B1. injection B1 as ->.
      eapply e_env_args; try eassumption. eapply brace_args; eauto.
    - intros p f l i s r k xs r' Hi Hs [_ A]. split; [eapply argued_skipped; eauto|]. intros. eapply e_skip; eauto.
    - intros p f l t r name Hn Hs Hb [_ A]. split; [exact A|]. intros. eapply e_bare; eauto.
    - intros p f l t r name a0 args held r' Hn Hs Hb Hna Hg Ha IHa [_ A]. destruct (IHa A) as [A1 K]. split; [exact A1|]. intros Hp Hr. eapply e_command; eauto.
    - intros p f l t r name l1 r' Hn Hs Hb Ha IHa [_ A]. destruct (IHa A) as [A1 K]. split; [exact A1|]. intros Hp Hr. eapply e_greedy; eauto.
    - intros p f l t r name ys Hn Hs Hb Hy [_ A]. split; [exact A|]. intros. eapply e_postfix; eauto.
    - intros p f l t r name Hn Hs Hb Hy Hf [_ A]. split; [exact A|]. intros. eapply e_postfix_all; eauto.
    - intros p f l t r name Hn Hs Hb Hy Hf [_ A]. split; [exact A|]. intros. eapply e_postfix_none; eauto.
    - intros p f l t r name l1 r' Hn Hs Hb Hf Ha IHa [_ A]. destruct (IHa A) as [A1 K]. split; [exact A1|]. intros Hp Hr. eapply e_infix; eauto.
    - intros p f l t r name l1 r' Hn Hs Hb Hf Ha IHa [_ A]. destruct (IHa A) as [A1 K]. split; [exact A1|]. intros Hp Hr. eapply e_infix_again; eauto.
    - intros p f l s r ys Hy [_ A]. split; [exact A|]. intros. now apply e_prime.
    - intros p f l s r Hy [_ A]. split; [exact A|]. intros. now apply e_prime_alone.
    - intros p f l t bs u0 r b l1 r' Hm Hb Hu He IHe [_ A]. apply argued_app in A. destruct (IHe A) as [A1 K]. split; [exact A1|]. intros Hp Hr. eapply e_script; eauto.
    - intros p f l t bs Hm Hb [_ A]. split; [exact I|]. intros. now apply e_script_end.
    - intros q0 t k r l t' r' B Hco IH Hcl A. destruct (IH A) as [[_ A1] _]. exact A1.
    - intros q0 t k r l r' B Hco IH Hcl A. now destruct (IH A).
    - intros p a0 w h A. split; [exact A|]. intros. constructor.
    - intros p a0 w h t r xs h' r' Hb Ha IH [_ A]. destruct (IH A) as [A1 K]. split; [exact A1|]. intros. apply a_blank; auto.
    - intros p a0 w h t r Hs A. split; [exact A|]. intros -> Hr. apply a_stop. destruct Hs as [Hs|Hs]; [now left|]. now elim Hr.
    - intros p a0 w h t r Hb Hw Ht A. split; [exact A|]. intros. now apply a_refuse.
    - intros p a0 w h c s r xs h' r' Ht Ha IH [_ A]. destruct (IH (argued_rest _ _ A)) as [A1 K]. split; [exact A1|]. intros. apply a_char; auto.
    - intros p a0 w h t r q0 x r1 xs h' r' Ho Ht Hg IHg Hq0 Ha IHa [_ A]. destruct (IHa (IHg A)) as [A1 K]. split; [exact A1|]. intros. eapply a_optional; eauto.
    - intros p a0 w h t r b l1 r1 xs h' r' Hb Hw Hn Ho Hopt Ht He IHe Ha IHa A. destruct (IHe A) as [A1 K1]. destruct (IHa A1) as [A2 K2]. split; [exact A2|].
      intros -> Hr. eapply a_term; try eassumption; [apply not_over| |now apply K2]. apply K1; [reflexivity|]. intros X. apply Hr. now rewrite (arguments_ended _ _ _ _ _ _ _ _ Ha eq_refl X).
  Qed.
End Place.

(** ** A document that is one formula, or one group *)
Section One.
  Variable gm : text -> text -> bool.
  Variable sp : spec.

  Definition one (x : tree) : Prop := tkind x = ItemFormula \/ tkind x = ItemCurly.
  (** after a formula or a group, anything changes the list *)
  Definition moved (l : line) : Prop := exists x r, all l = x :: r /\ (r <> [] \/ ~ one x).
  Lemma moved_add xs l : all l <> [] -> xs <> [] -> moved (add xs l).
  Proof.
    intros H1 H2. unfold moved. rewrite all_add. destruct (all l) as [|x r]; [now elim H1|]. exists x, (r ++ xs). split; [reflexivity|]. left.
    destruct r; [exact H2|discriminate].
  Qed.
  Lemma moved_end l b x : all l = b ++ [x] -> ~ one x -> moved l.
  Proof.
    intros E K. unfold moved. rewrite E. destruct b as [|y b]; [exists x, []; auto|]. exists y, (b ++ [x]). split; [reflexivity|]. left. destruct b; discriminate.
  Qed.
  Lemma outside_all l i : all (outside l i) = before l ++ [Node ItemAttachComponent (all i)].
  Proof. unfold outside. destruct (base i); unfold all at 1; cbn [before base based]; [reflexivity|now rewrite app_nil_r]. Qed.
  Lemma element_moves p f l t r b l' r' : element gm sp p f l t r b l' r' -> all l <> [] -> moved l'.
  Proof.
    intros H N. assert (Nb : all (baseless l) <> []) by (unfold baseless, all at 1; cbn [before base based]; now rewrite app_nil_r).
    destruct H; try (apply moved_add; [assumption|discriminate]).
    - eapply moved_end; [reflexivity|intros [X|X]; discriminate X].
    - eexists _, _. split; [reflexivity|]. right. intros [X|X]; discriminate X.
    - eexists _, _. split; [reflexivity|]. right. intros [X|X]; discriminate X.
    - eapply moved_end; [reflexivity|intros [X|X]; discriminate X].
    - eapply moved_end; [apply outside_all|intros [X|X]; discriminate X].
    - eapply moved_end; [apply outside_all|intros [X|X]; discriminate X].
  Qed.
  Lemma moved_some l : moved l -> all l <> [].
  Proof. intros (x & r & E & _). rewrite E. discriminate. Qed.
  Lemma moved_all l l' : all l = all l' -> moved l -> moved l'.
  Proof. unfold moved. now intros ->. Qed.
  Lemma all_based l xs rc : all (mk_line l (Some xs) rc) = l ++ xs. Proof. reflexivity. Qed.
  Lemma content_moves p g l ts l' r : content gm sp p g l ts l' r -> all l <> [] -> (l' = l /\ r = ts) \/ moved l'.
  Proof.
    induction 1 as [p g l|p g l t r Hs|p g l t r l1 ys r1 l' r' Hs He Ha Hc IH|p g l t r l1 r1 l' r' Hs He Hc IH]; intros N; auto; right.
    - pose proof (element_moves _ _ _ _ _ _ _ _ He N) as M. apply (moved_all l1 (mk_line (all l) (Some ys) (from l1))) in M; [|exact Ha].
      destruct (IH (moved_some _ M)) as [[-> _]|K]; assumption.
    - pose proof (element_moves _ _ _ _ _ _ _ _ He N) as M. destruct (IH (moved_some _ M)) as [[-> _]|K]; assumption.
  Qed.

  (** delimiters of formulas are no elements of their own *)
  Definition no_mark (x : tree) : Prop := ~ In (tkind x) [TokenDollar; TokenEndMath; TokenRBrace].
  Definition no_marks (l : line) : Prop := Forall no_mark (before l) /\ Forall no_mark (based (base l)).
  Lemma no_marks_all l : no_marks l -> Forall no_mark (all l).
  Proof. intros [H1 H2]. apply Forall_app. auto. Qed.
  Lemma no_marks_add xs l : no_marks l -> Forall no_mark xs -> no_marks (add xs l).
  Proof. intros [H1 H2] H. unfold add. destruct (base l) as [ys|]; split; cbn [before base based] in *; try apply Forall_app; auto. Qed.
  Lemma no_marks_baseless l : no_marks l -> no_marks (baseless l).
  Proof. intros H. apply no_marks_all in H. split; [exact H|constructor]. Qed.
  Lemma kind_no_mark x : negb (existsb (kind_eqb (tkind x)) [TokenDollar; TokenEndMath; TokenRBrace]) = true -> no_mark x.
  Proof.
    intros H X. apply Bool.negb_true_iff in H. rewrite <- Bool.not_true_iff_false in H. apply H. apply existsb_exists. exists (tkind x). split; [exact X|].
    unfold kind_eqb. now destruct (kind_eq_dec (tkind x) (tkind x)).
  Qed.
  Lemma blank_no_mark (t : tok) : blank_token t -> no_mark (lf t).
  Proof. destruct t as [t s]. unfold blank_token. cbn [In fst]. intros H. apply kind_no_mark. repeat destruct H as [<-|H]; try contradiction; reflexivity. Qed.
  Lemma held_blank p a w h ts xs h' r : arguments gm sp p a w h ts xs h' r -> Forall blank_token h -> Forall blank_token h'.
  Proof. induction 1; intros F; auto. apply IHarguments. apply Forall_app. auto. Qed.
  Lemma blanks_no_mark bs : Forall blank_token bs -> Forall no_mark (map lf bs).
  Proof. induction 1; cbn [map]; constructor; auto using blank_no_mark. Qed.
  Lemma element_no_marks p f l t r b l' r' : element gm sp p f l t r b l' r' -> no_marks l -> no_marks l'.
  Proof.
    intros H N. destruct H; try (apply no_marks_add; [try apply no_marks_baseless; exact N|constructor; [apply kind_no_mark; reflexivity|constructor]]).
    - apply no_marks_add; [exact N|]. constructor; [|constructor]. destruct t as [t s]. apply kind_no_mark. unfold mark_base in H. cbn [In fst] in H. repeat destruct H as [<-|H]; try contradiction; reflexivity.
    - apply no_marks_add; [exact N|]. constructor; [|constructor]. destruct t as [t s]. apply kind_no_mark. unfold mark_plain in H. cbn [In fst] in H. repeat destruct H as [<-|H]; try contradiction; reflexivity.
    - apply no_marks_add; [exact N|]. constructor; [|constructor]. apply kind_no_mark. inversion H0 as [q t0 k r0 l0 t' r0' B Hz1 Hz2|q t0 k r0 l0 r0' B Hz1 Hz2]; subst; cbn [tkind]; unfold brackets in B; cbn [In] in B; repeat destruct B as [B|B]; try discriminate B; try contradiction; injection B as _ <-; reflexivity.
    - apply no_marks_add; [exact N|]. constructor; [|constructor]. apply kind_no_mark. inversion H0 as [q t0 k r0 l0 t' r0' B Hz1 Hz2|q t0 k r0 l0 r0' B Hz1 Hz2]; subst; cbn [tkind]; unfold brackets in B; cbn [In] in B; repeat destruct B as [B|B]; try discriminate B; try contradiction; injection B as _ <-; reflexivity.
    - apply no_marks_add; [exact N|]. constructor; [|constructor]. apply kind_no_mark. inversion H0 as [q t0 k r0 l0 t' r0' B Hz1 Hz2|q t0 k r0 l0 r0' B Hz1 Hz2]; subst; cbn [tkind]; unfold brackets in B; cbn [In] in B; repeat destruct B as [B|B]; try discriminate B; try contradiction; injection B as _ <-; reflexivity.
    - apply no_marks_add; [exact N|]. constructor; [|constructor]. apply kind_no_mark. destruct H as [[_ ->]|[_ ->]]; reflexivity.
    - apply no_marks_add; [now apply no_marks_baseless|]. constructor; [now apply kind_no_mark|]. apply blanks_no_mark. eapply held_blank; [eassumption|constructor].
    - destruct N as [N1 N2]. split; cbn [before base based]; [exact N1|]. constructor; [now apply kind_no_mark|constructor].
    - split; cbn [before base based]; [|constructor]. constructor; [now apply kind_no_mark|constructor].
    - split; cbn [before base based]; [|constructor]. constructor; [now apply kind_no_mark|constructor].
    - destruct N as [N1 N2]. split; cbn [before base based]; [exact N1|]. constructor; [now apply kind_no_mark|constructor].
    - destruct N as [N1 N2]. unfold outside. destruct (base l1); split; cbn [before base based]; try apply Forall_app; repeat split; auto; constructor; try constructor; now apply kind_no_mark.
    - match goal with |- no_marks (outside l ?i) => generalize i end. intros i. destruct N as [N1 N2].
      unfold outside. destruct (base i); split; cbn [before base based]; try apply Forall_app; repeat split; auto; constructor; try constructor; now apply kind_no_mark.
  Qed.
  Lemma content_no_marks p g l ts l' r : content gm sp p g l ts l' r -> no_marks l -> no_marks l'.
  Proof.
    induction 1 as [p g l|p g l t r Hs|p g l t r l1 ys r1 l' r' Hs He Ha Hc IH|p g l t r l1 r1 l' r' Hs He Hc IH]; intros N; auto.
    - apply IH. apply element_no_marks in He; [|exact N]. apply no_marks_all in He. rewrite Ha in He. apply Forall_app in He as [H1 H2]. split; assumption.
    - apply IH. eapply element_no_marks; eauto.
  Qed.

  Definition pair_of (q : place) (a b : tok) : Prop := closer q = Some (fst b) /\
    (q = Dollars_ /\ fst a = Dollar \/ q = Math_ /\ fst a = CommandName BeginMath \/ q = Braces /\ fst a = TLeft Curly).
  Lemma formula_element q p f l t r b l' r' a c : pair_of q a c -> element gm sp p f l t r b l' r' -> t = a ->
    exists x, l' = add [x] l /\ group gm sp q a r x r'.
  Proof.
    intros [_ Hp] H E. assert (T : fst t = Dollar /\ q = Dollars_ \/ fst t = CommandName BeginMath /\ q = Math_ \/ fst t = TLeft Curly /\ q = Braces)
      by (subst; destruct Hp as [[-> ->]|[[-> ->]|[-> ->]]]; auto). clear Hp.
    destruct H; try (subst t); try (exfalso; cbn [fst] in *; destruct T as [[T _]|[[T _]|[T _]]]; congruence).
    all: try (exfalso; match goal with H : mark_base _ |- _ => destruct T as [[T _]|[[T _]|[T _]]]; (rewrite T in H; unfold mark_base in H; cbn [In] in H; repeat destruct H as [H|H]; try discriminate; contradiction) end).
    all: try (exfalso; match goal with H : mark_plain _ |- _ => destruct T as [[T _]|[[T _]|[T _]]]; (rewrite T in H; unfold mark_plain in H; cbn [In] in H; repeat destruct H as [H|H]; try discriminate; contradiction) end).
    all: try (exfalso; match goal with H : stray _ |- _ => destruct T as [[T _]|[[T _]|[T _]]]; (rewrite T in H; destruct H as [H|[n H]]; [|discriminate H]; cbn [In] in H; repeat destruct H as [H|H]; try discriminate; contradiction) end).
    all: try (exfalso; match goal with H : named _ |- _ => destruct T as [[T _]|[[T _]|[T _]]]; (rewrite T in H; destruct H as [H|(i & H & _)]; [|discriminate H]; cbn [In] in H; repeat destruct H as [H|H]; try discriminate; contradiction) end).
    all: try (exfalso; match goal with H : GramSpec.script_mark _ |- _ => destruct T as [[T _]|[[T _]|[T _]]]; (rewrite T in H; destruct H; discriminate) end).
    all: try (exfalso; match goal with H : _ \/ _ |- _ => destruct T as [[T _]|[[T _]|[T _]]]; (rewrite T in H; destruct H as [H|[H _]]; discriminate) end).
    all: destruct T as [[T ->]|[[T ->]|[T ->]]]; try congruence; eauto.
  Qed.
  Theorem one_formula q k a b ts ch : pair_of q a b -> argued sp ts -> k = ItemFormula \/ k = ItemCurly ->
    reading gm sp (a :: ts ++ [b]) (Node ScopeRoot [Node k (lf a :: ch ++ [lf b])]) -> reading gm sp ts (Node ScopeRoot ch).
  Proof.
    intros P A Hk (l & Hc & E). injection E as E. symmetry in E.
    assert (R : exists x l1 r1, group gm sp q a (ts ++ [b]) x r1 /\ all l1 = [x] /\ content gm sp Top false l1 r1 l []).
    { inversion Hc as [| |p g l0 t r l1 xs r1 l' r' Hs He Ha Hc1|p g l0 t r l1 r1 l' r' Hs He Hc1]; subst.
      - destruct (formula_element _ _ _ _ _ _ _ _ _ _ _ P He eq_refl) as (x & -> & Hg). exists x, (mk_line [] (Some xs) (from (add [x] (fresh Start)))), r1.
        split; [exact Hg|]. split; [|exact Hc1]. unfold all in *. cbn in *. now rewrite <- Ha.
      - destruct (formula_element _ _ _ _ _ _ _ _ _ _ _ P He eq_refl) as (x & -> & Hg). exists x, (add [x] (fresh Start)), r1. auto. }
    clear Hc. destruct R as (x & l1 & r1 & Hg & N & Hc1).
    destruct (content_moves _ _ _ _ _ _ Hc1) as [[-> <-]|(y & u & E1 & E2)]; [rewrite N; discriminate| |].
    - rewrite N in E. injection E as ->. clear Hc1 N. destruct P as [Pc Pa].
      assert (Hq : q = Dollars_ \/ q = Math_ \/ q = Braces) by (destruct Pa as [[-> _]|[[-> _]|[-> _]]]; auto).
      assert (Mb : ~ no_mark (lf b)).
      { intros X. apply X. destruct b as [b s]. cbn [fst] in Pc. destruct Hq as [-> |[-> | ->]]; injection Pc as <-; cbn; auto. }
      assert (Hw : fst b <> Word) by (destruct Hq as [-> |[-> | ->]]; cbn in Pc; injection Pc as <-; discriminate).
      inversion Hg as [q0 t k0 r l2 t' r' B Hco Hcl|q0 t k0 r l2 r' B Hco Hcl]; subst.
      + match goal with H : _ ++ [_] = _ ++ [_] |- _ => apply app_inj_tail in H as [E1 E2] end. subst ch.
        assert (t' = b) as ->. { destruct t' as [t' s'], b as [b s]. cbn [fst] in *. rewrite Hcl in Pc. injection Pc as ->. unfold lf in E2. cbn in E2. now injection E2 as ->. }
        destruct (proj1 (shorter gm sp b Hw) _ _ _ _ _ _ Hco [] eq_refl) as (a0 & Ea & K). apply app_inj_tail in Ea as [<- _].
        exists l2. split; [|reflexivity]. apply (proj1 (in_document gm sp q Hq) _ _ _ _ _ _ K A); [reflexivity|]. intros X. exact X.
      + exfalso. apply Mb. apply content_no_marks in Hco; [|split; constructor]. apply no_marks_all in Hco.
        match goal with H : all l2 = _ |- _ => rewrite H in Hco end. apply Forall_app in Hco as [_ Hco]. now apply Forall_cons_iff in Hco as [Hco _].
    - exfalso. rewrite E1 in E. injection E as -> ->. destruct E2 as [E2|E2]; apply E2; [reflexivity|exact Hk].
  Qed.
End One.
