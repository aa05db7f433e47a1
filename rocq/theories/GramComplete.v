(** Whatever the parser answers is a reading of the grammar (GramSpec.v). *)
From Verif Require Import Api P_Lex P_Macro ParserSource ParserEnd P_Parser DocParse P_Pair.
From Verif Require Export GramSound.
Local Open Scope nat_scope.

Lemma span {A} (P : A -> Prop) (dec : forall x, {P x} + {~ P x}) (ts : list A) :
  exists bs r, ts = bs ++ r /\ Forall P bs /\ ~ match r with [] => False | t :: _ => P t end.
Proof.
  induction ts as [|t ts IH]; [exists [], []; repeat split; auto|]. destruct (dec t) as [H|H].
  - destruct IH as (bs & r & -> & H1 & H2). exists (t :: bs), r. repeat split; auto.
  - exists [], (t :: ts). repeat split; auto.
Qed.
Lemma blank_dec (t : tok) : {blank_token t} + {~ blank_token t}.
Proof. apply in_dec, token_eq_dec. Qed.
Lemma text_dec (t : tok) : {text_token t} + {~ text_token t}.
Proof. apply in_dec, token_eq_dec. Qed.
Lemma bind_ok' {A B} (x : res A) (f : A -> res B) y : bind x f = Ok y -> exists a, x = Ok a /\ f a = Ok y.
Proof. destruct x as [a| |]; cbn; intros H; try discriminate H. eauto. Qed.

(** ** Tokens left over *)
Lemma words_app (a b : list tok) : Forall word_ok (a ++ b) -> Forall word_ok b.
Proof. intros H. now apply Forall_app in H. Qed.
Lemma words_cons t (r : list tok) : Forall word_ok (t :: r) -> Forall word_ok r.
Proof. intros H. now inversion H. Qed.
Lemma words_rest s (r : list tok) : Forall word_ok r -> Forall word_ok (rest_word s r).
Proof. intros H. destruct s; [exact H|]. constructor; [intros _; discriminate|exact H]. Qed.
Lemma words_delimiter ts x r : delimiter ts x r -> Forall word_ok ts -> Forall word_ok r.
Proof. intros D W. destruct D; try assumption; try (now apply words_cons in W). constructor; [intros _; discriminate|now apply words_cons in W]. Qed.
Lemma words_clause t ts c r : clause t ts c r -> Forall word_ok ts -> Forall word_ok r.
Proof. intros [bs r0 x r' H1 H2 H3] H. apply words_app in H. eapply words_delimiter; eassumption. Qed.
Lemma words_skipped n ts xs r : skipped n ts xs r -> Forall word_ok ts -> Forall word_ok r.
Proof. induction 1; intros W; auto; try (apply words_cons in W; auto). Qed.
Lemma words_right r e r' : right_side r e r' -> Forall word_ok r -> Forall word_ok r'.
Proof. intros [s r0 c r1 H|r0 H] W; [|exact W]. apply words_cons in W. eapply words_clause; eassumption. Qed.
Lemma words_end r e r' : env_end r e r' -> Forall word_ok r -> Forall word_ok r'.
Proof. intros [s r0|r0 H] W; [|exact W]. now apply words_cons in W. Qed.

Section Complete.
  Variable gm : text -> text -> bool.
  Variable sp : spec.
  Notation pst := (@Parser.pst (list tok)).
  Notation run := (Parser.run list_pk list_nx list_set gm sp).
  Notation eat := (eat list_pk list_nx).
  Notation content := (content gm sp).
  Notation element := (element gm sp).
  Notation group := (group gm sp).
  Notation arguments := (arguments gm sp).

  Lemma words_kept :
    (forall p g l ts l' r, content p g l ts l' r -> Forall word_ok ts -> Forall word_ok r) /\
    (forall p f l t ts b l' r, element p f l t ts b l' r -> Forall word_ok ts -> Forall word_ok r) /\
    (forall q t ts x r, group q t ts x r -> Forall word_ok ts -> Forall word_ok r) /\
    (forall p a w held ts xs held' r, arguments p a w held ts xs held' r -> Forall word_ok ts -> Forall word_ok r).
  Proof.
    apply (grammar_ind gm sp (fun p g l ts l' r _ => Forall word_ok ts -> Forall word_ok r) (fun p f l t ts b l' r _ => Forall word_ok ts -> Forall word_ok r)
      (fun q t ts x r _ => Forall word_ok ts -> Forall word_ok r) (fun p a w held ts xs held' r _ => Forall word_ok ts -> Forall word_ok r)); intros; auto;
      try (match goal with H : Forall word_ok (_ :: _) |- _ => apply words_cons in H end; auto; fail);
      try (match goal with H : Forall word_ok (_ ++ _) |- _ => apply words_app in H end; auto; fail).
    - now apply words_rest.
    - eapply words_right; [eassumption|]. apply H. eapply words_clause; eassumption.
    - eapply words_end; [eassumption|]. auto.
    - eapply words_end; [eassumption|]. auto.
    - eapply words_skipped; eassumption.
    - apply words_app in H0. apply words_cons in H0. auto.
    - apply H in H0. now apply words_cons in H0.
    - apply H. apply words_rest. now apply words_cons in H0.
  Qed.

  (** ** One answer only *)
  Definition stable {A} (F : nat -> res A) : Prop := forall n m x, n <= m -> F n = Ok x -> F m = Ok x.
  Lemma det {A} (F : nat -> res A) n x y : stable F -> ev (fun n => F n = Ok x) -> F n = Ok y -> y = x.
  Proof.
    intros Hs [N H] E. specialize (H (N + n) ltac:(lia)). apply (Hs _ (N + n)) in E; [|lia]. congruence.
  Qed.
  Lemma PR_eq (a b : pst) : PR eq a b -> a = b.
  Proof. destruct a, b. unfold PR. cbn. intros (-> & -> & -> & -> & -> & ->). reflexivity. Qed.
  Lemma PR_refl (a : pst) : PR eq a a. Proof. repeat split. Qed.
  Lemma run_loose n m c (a b : pst) : n <= m -> PR eq a b -> rres True (BR eq) (run n c a) (run m c b).
  Proof.
    intros Hle H. apply run_sim; auto.
    - now intros x y ->.
    - intros x y -> _. apply rres_refl. auto.
    - now intros x y s s' ->.
  Qed.
  Lemma rres_ok {A} (x y : res A) v : rres True eq x y -> x = Ok v -> y = Ok v.
  Proof. intros H ->. destruct y; cbn in H; try contradiction. now subst. Qed.
  Lemma stable_run c s : stable (fun n => run n c s).
  Proof.
    intros n m [b x] Hle E. pose proof (run_loose n m c s s Hle (PR_refl s)) as H. cbv beta in E. rewrite E in H.
    destruct (run m c s) as [[b' x']| |]; cbn in H; try contradiction. destruct H as [H1 H2]. cbn in *. apply PR_eq in H2. congruence.
  Qed.
  Lemma rp_ok (x y : res pst) v : rres True (PR eq) x y -> x = Ok v -> y = Ok v.
  Proof. intros H ->. destruct y; cbn in H; try contradiction. apply PR_eq in H. congruence. Qed.
  Lemma stable_list sc s : stable (fun n => item_list (run n) sc s).
  Proof. intros n m x Hle E. refine (rp_ok _ _ _ _ E). apply item_list_sim; [|apply PR_refl]. intros. now apply run_loose. Qed.
  Lemma stable_match g m0 s : stable (fun n => match_arguments (run n) g m0 s).
  Proof. intros n m x Hle E. refine (rp_ok _ _ _ _ E). apply match_arguments_sim; [|apply PR_refl]. intros. now apply run_loose. Qed.
  Lemma stable_rec c s : stable (fun n => rec_ (run n) c s).
  Proof. intros n m x Hle E. refine (rp_ok _ _ _ _ E). apply rec__sim; [|apply PR_refl]. intros. now apply run_loose. Qed.
  Lemma stable_clause s : stable (fun n => clause_lr list_pk list_nx list_set (run n) s).
  Proof.
    intros n m x Hle E. refine (rp_ok _ _ _ _ E). apply clause_lr_sim; [| | |intros; now apply run_loose|apply PR_refl].
    - now intros a b ->.
    - intros a b -> _. apply rres_refl. auto.
    - now intros a b s0 s' ->.
  Qed.
  Lemma stable_group sc s : stable (fun n => item_group list_pk list_nx (run n) sc s).
  Proof.
    intros n m x Hle E. refine (rp_ok _ _ _ _ E). apply item_group_sim; [| |intros; now apply run_loose|apply PR_refl].
    - now intros a b ->.
    - intros a b -> _. apply rres_refl. auto.
  Qed.

  (** ** What one more turn of the parser can rely on *)
  Definition knows_content n : Prop := forall p g l ts ps P s b st', fits ps P s l -> Forall word_ok ts ->
    run n (loop g (List.length (P ++ all l))) (st ps P s l p ts) = Ok (b, st') -> exists l' r, content p g l ts l' r.
  Definition knows_element n : Prop := forall p f l t ts ps P s b st', fits ps P s l -> Forall word_ok (t :: ts) ->
    run n (KContent (negb f)) (st ps P s l p (t :: ts)) = Ok (b, st') -> exists l' r, element p f l t ts b l' r.
  Definition knows_arguments n : Prop := forall p a w held ts m cur ps C b st', mrel a w m -> Forall word_ok ts ->
    run n (KMatch false m cur) (mk_pst ts (mk_builder ps C) held None None (scope_of p)) = Ok (b, st') ->
    exists xs held' r, arguments p a w held ts xs held' r.

  Lemma element_state n p f l t ts ps P s b st' b' l' r : fits ps P s l ->
    run n (KContent (negb f)) (st ps P s l p (t :: ts)) = Ok (b, st') -> element p f l t ts b' l' r -> b = b' /\ st' = st ps P s l' p r.
  Proof.
    intros Hf E H. pose proof (proj1 (proj2 (sound gm sp)) _ _ _ _ _ _ _ _ H ps P s Hf) as K.
    pose proof (det (fun n => run n (KContent (negb f)) (st ps P s l p (t :: ts))) n _ _ (stable_run _ _) K E) as D. injection D as -> ->. auto.
  Qed.
  Lemma list_of n q ts ps C a la sc x : knows_content n -> Forall word_ok ts -> first_child ps <= List.length C ->
    item_list (run n) (scope_of q) (mk_pst ts (mk_builder ps C) [] a la sc) = Ok x ->
    exists l r, content q false (fresh Start) ts l r /\ Forall word_ok r /\ x = mk_pst r (mk_builder ps (C ++ all l)) [] a la sc.
  Proof.
    intros HC W Hc E. assert (K : exists l r, content q false (fresh Start) ts l r).
    { unfold item_list, rec_ in E. apply bind_ok' in E as (y & E & _). apply bind_ok' in E as ([b z] & E & _).
      assert (Hf : fits ps C 0 (fresh Start)) by (split; [exact Hc|discriminate]).
      eapply (HC q false (fresh Start) ts ps C 0 b z Hf W). 
      unfold checkpoint, b_checkpoint in E. cbn [p_b b_children] in E. unfold st. cbn [all fresh before base based from app start_pos last_pos loop]. rewrite app_nil_r. exact E. }
    destruct K as (l & r & K). exists l, r. split; [exact K|]. split; [eapply (proj1 words_kept); eassumption|].
    eapply (det _ n _ _ (stable_list _ _)); [|exact E]. apply item_list_reads; [|exact Hc]. now apply (proj1 (sound gm sp)).
  Qed.
  Lemma group_of n q t k ts ps C a la sc x : knows_content n -> Forall word_ok ts -> brackets q (fst t) k ->
    item_group list_pk list_nx (run n) (scope_of q) (mk_pst (t :: ts) (mk_builder ps C) [] a la sc) = Ok x ->
    exists y r, group q t ts y r /\ Forall word_ok r /\ x = mk_pst r (mk_builder ps (C ++ [y])) [] a la sc.
  Proof.
    intros HC W Hb E0. destruct (scope_kind _ _ _ Hb) as (e & E1 & E2). pose proof E0 as E. rewrite (item_group_eq gm sp q e k n _ E1), start_step, eat_step in E. cbn [bind] in E.
    apply bind_ok' in E as (z & E & _). apply list_of in E as (l & r & Hl & Wr & _); [|exact HC|exact W|cbn; rewrite app_length; lia].
    assert (K : exists y r, group q t ts y r).
    { destruct r as [|t' r].
      - eexists _, _. apply (g_open gm sp q t k ts l [] Hb Hl). auto.
      - destruct (token_eq_dec e (fst t')) as [He|He].
        + eexists _, _. apply (g_closed gm sp q t k ts l t' r Hb Hl). congruence.
        + eexists _, _. apply (g_open gm sp q t k ts l (t' :: r) Hb Hl). cbn. congruence. }
    destruct K as (y & r' & K). exists y, r'. split; [exact K|]. split; [eapply (proj1 (proj2 (proj2 words_kept))); eassumption|].
    eapply (det _ n _ _ (stable_group _ _)); [|exact E0]. now apply (proj1 (proj2 (proj2 (sound gm sp)))).
  Qed.
  Lemma clause_total t ts : Forall word_ok ts -> exists c r, clause t ts c r.
  Proof.
    intros W. destruct (span blank_token blank_dec ts) as (bs & r & -> & Hb & Hr).
    assert (K : exists x r', delimiter r x r').
    { apply words_app in W. destruct r as [|[t' s] r]; [eexists _, _; apply d_end|]. cbn in Hr.
      destruct (token_eq_dec t' Word) as [->|Nw].
      { inversion W as [|? ? W1 W2]; subst. specialize (W1 eq_refl). cbn in W1. destruct s as [|c [|d s]]; [congruence| |]; eexists _, _; [apply d_char|apply d_chars]. }
      destruct (token_eq_dec t' (CommandName Generic)) as [->|Ng]; [eexists _, _; apply d_command|].
      assert (D : no_delimiter (t', s) \/ ~ no_delimiter (t', s)).
      { unfold no_delimiter. cbn. destruct t'; try (right; intros [H|(c' & H & _)]; discriminate H); [left; now left|].
        left. right. eexists. split; [reflexivity|congruence]. }
      destruct D as [D|D]; [eexists _, _; now apply d_none|]. eexists _, _. now apply d_other. }
    destruct K as (x & r' & K). eexists _, _. constructor; eassumption.
  Qed.
  Lemma skipped_total ts : forall n, exists xs r, skipped n ts xs r.
  Proof.
    induction ts as [|[t s] ts IH]; intros n; [eexists _, _; constructor|].
    assert (D : (exists i, t = CommandName (CIf i)) \/ t = CommandName CEndIf \/ (forall i, t <> CommandName (CIf i)) /\ t <> CommandName CEndIf).
    { destruct t as [| | | | | | | | | | | | | | | | | | | |c| |]; try (right; right; split; [intros i|]; discriminate).
      destruct c; try (right; right; split; [intros i|]; discriminate); [left; eauto|right; now left]. }
    destruct D as [[i ->]|[-> |[D1 D2]]].
    - destruct (IH (S n)) as (xs & r & K). eexists _, _. constructor. exact K.
    - destruct n as [|n]; [eexists _, _; constructor|]. destruct (IH n) as (xs & r & K). eexists _, _. constructor. exact K.
    - destruct (IH n) as (xs & r & K). eexists _, _. apply k_other; eassumption.
  Qed.

  (** ** Elements *)
  Lemma rest_known n p r ps C s0 la x : knows_content n -> Forall word_ok r -> first_child ps <= List.length C ->
    match_arguments (run n) true AMGreedy (mk_pst r (mk_builder ps C) [] s0 la (scope_of p)) = Ok x ->
    exists l' r', content p true (fresh Start) r l' r'.
  Proof.
    intros HC W Hc E. unfold match_arguments, rec_ in E. cbn [is_greedy negb Bool.eqb] in E. apply bind_ok' in E as (y & E & _). apply bind_ok' in E as ([b z] & E & _).
    assert (Hf : fits ps C 0 (fresh Start)) by (split; [exact Hc|discriminate]).
    eapply (HC p true (fresh Start) r ps C 0 b z Hf W).
    unfold st. cbn [all fresh before base based from app start_pos last_pos loop]. rewrite app_nil_r. exact E.
  Qed.
  Lemma args_known n p a r ps C s0 la x : knows_arguments n -> Forall word_ok r -> a <> PGreedy ->
    match_arguments (run n) false (start_match a) (mk_pst r (mk_builder ps C) [] s0 la (scope_of p)) = Ok x ->
    exists args held r', arguments p a [] [] r args held r' /\ Forall word_ok r' /\ x = mk_pst r' (mk_builder ps (C ++ args)) held s0 None (scope_of p).
  Proof.
    intros HA W Ha E. assert (K : exists args held r', arguments p a [] [] r args held r').
    { unfold match_arguments, rec_ in E. rewrite (not_greedy a Ha) in E. cbn [negb Bool.eqb] in E. apply bind_ok' in E as (y & E & _). apply bind_ok' in E as ([b z] & E & _).
      eapply (HA p a [] [] r _ _ ps C b z (mrel_start a Ha) W). exact E. }
    destruct K as (args & held & r' & K). exists args, held, r'. split; [exact K|]. split; [eapply (proj2 (proj2 (proj2 words_kept))); eassumption|].
    eapply (det _ n _ _ (stable_match _ _ _)); [|exact E]. apply margs; [|exact Ha]. now apply (proj2 (proj2 (proj2 (sound gm sp)))).
  Qed.
  Lemma greedy_known n p r t ps C s0 la x : knows_content n -> Forall word_ok r ->
    right_command list_pk list_nx (run n) PGreedy (mk_pst (t :: r) (mk_builder ps C) [] s0 la (scope_of p)) = Ok x ->
    exists l' r', content p true (fresh Start) r l' r'.
  Proof.
    intros HC W E. unfold right_command in E. rewrite eat_step in E. cbn [bind start_match is_greedy] in E. rewrite start_step in E.
    apply bind_ok' in E as (y & E & _). apply bind_ok' in E as (z & E & _). eapply rest_known; [exact HC|exact W| |exact E]. apply le_n.
  Qed.
  Lemma beyond_panics ps cp k (C : list tree) ts tr a la sc : cp < first_child ps -> exists m,
    start_node_at cp k (mk_pst ts (mk_builder ps C) tr a la sc : pst) = Panic m.
  Proof.
    intros H. unfold start_node_at, b_start_at. cbn [p_b b_parents b_children]. destruct ps as [|[k0 f0] ps]; cbn in H; [lia|].
    destruct (List.length C <? cp); [eexists; reflexivity|]. destruct (Nat.ltb_spec cp f0); [|lia]. eexists. reflexivity.
  Qed.
  Lemma command_known n p f l t ts ps P s x : knows_content n -> knows_arguments n -> fits ps P s l -> Forall word_ok (t :: ts) -> named (fst t) ->
    run (S n) (KContent (negb f)) (st ps P s l p (t :: ts)) = Ok x -> exists b l' r, element p f l t ts b l' r.
  Proof.
    intros HC HA Hf W Hn E. apply words_cons in W. destruct t as [t w]. cbn [fst] in Hn.
    assert (K : exists name, w = 92%N :: name).
    { assert (E1 : command list_pk list_nx sp (run n) (st ps P s l p ((t, w) :: ts)) = Ok x).
      { destruct Hn as [Hn|(i & -> & H1 & H2)].
        - cbn in Hn. destruct Hn as [<-|[<-|[<-|[<-|[]]]]]; exact E.
        - destruct i; try exact E; congruence. }
      unfold command in E1. cbn [st p_lex list_pk hd_error] in E1. destruct (strip_prefix (tx "\") w) as [name|] eqn:Es; [|discriminate E1].
      exists name. now apply strip_bs. }
    destruct K as [name ->].
    rewrite content_eq, (command_eq gm sp n (st ps P s l p ((t, 92%N :: name) :: ts)) t name ts eq_refl Hn eq_refl) in E. unfold st in E. cbn [p_last p_start] in E.
    destruct (command_shape sp name) as [[a| |]|] eqn:Es.
    - destruct (token_eq_dec t t) as [_|N0]; [|congruence].
      assert (D : no_args (Some a) \/ ~ no_args (Some a)).
      { unfold no_args. destruct a as [|[|q]| | |]; [left; auto|left; auto|right|right|right|right]; intros [H|[H|H]]; discriminate H. }
      destruct D as [D|D].
      { eexists _, _, _. eapply e_bare; [exact Hn|reflexivity|]. exists (Some a). split; [exact D|exact Es]. }
      pose proof (fun st0 => shape_right a (let* s := eat (start_node ItemCmd st0) in let* s := finish_node s in Ok (true, s)) (fun a => right_command list_pk list_nx (run n) a (start_node ItemCmd st0)) D) as S1.
      cbv beta in S1. rewrite S1 in E. clear S1. rewrite start_step in E.
      assert (Dg : a = PGreedy \/ a <> PGreedy) by (destruct a; first [left; reflexivity|right; discriminate]). destruct Dg as [-> |Dg].
      { eapply greedy_known in E as (l1 & r1 & E); [|exact HC|exact W]. eexists _, _, _. eapply e_greedy; [exact Hn|reflexivity|exact Es|exact E]. }
      unfold right_command in E. rewrite eat_step in E. cbn [bind] in E. rewrite (not_greedy a Dg) in E. apply bind_ok' in E as (y & E & _).
      apply args_known in E as (args & held & r' & K & _); [|exact HA|exact W|exact Dg].
      eexists _, _, _. eapply e_command; [exact Hn|reflexivity|exact Es|exact D|exact Dg|exact K].
    - destruct (base l) as [ys|] eqn:Eb; [eexists _, _, _; eapply e_postfix; [exact Hn|reflexivity|exact Es|exact Eb]|].
      destruct (from l) eqn:Ef.
      + eexists _, _, _. eapply e_postfix_all; [exact Hn|reflexivity|exact Es|exact Eb|exact Ef].
      + eexists _, _, _. eapply e_postfix_none; [exact Hn|reflexivity|exact Es|exact Eb|exact Ef].
      + exfalso. unfold last_pos in E. rewrite Eb in E. cbn [start_pos start_command_at] in E.
        destruct (beyond_panics ps s ItemCmd (P ++ all l) ((t, 92%N :: name) :: ts) [] (Some s) None (scope_of p) (proj2 Hf Ef)) as [m Em]. rewrite Em in E. discriminate E.
    - destruct (from l) eqn:Ef.
      + cbn [start_pos] in E. apply bind_ok' in E as (y & E1 & E).
        unfold with_start in E1. cbn [p_lex p_b p_trivia p_last p_scope] in E1.
        rewrite (proj1 (wrap_step ItemCmd P (all l) ((t, 92%N :: name) :: ts) ps None (last_pos P l) (scope_of p) (proj1 Hf))) in E1. injection E1 as <-.
        eapply greedy_known in E as (l1 & r1 & E); [|exact HC|exact W]. eexists _, _, _. eapply e_infix; [exact Hn|reflexivity|exact Es|exact Ef|exact E].
      + cbn [start_pos start_command_at bind] in E. unfold with_start in E. cbn [p_lex p_b p_trivia p_last p_scope] in E. rewrite start_step in E.
        eapply greedy_known in E as (l1 & r1 & E); [|exact HC|exact W]. eexists _, _, _. eapply e_infix_again; [exact Hn|reflexivity|exact Es|exact Ef|exact E].
      + exfalso. cbn [start_pos start_command_at] in E. unfold with_start in E. cbn [p_lex p_b p_trivia p_last p_scope] in E.
        destruct (beyond_panics ps s ItemCmd (P ++ all l) ((t, 92%N :: name) :: ts) [] None (last_pos P l) (scope_of p) (proj2 Hf Ef)) as [m Em]. rewrite Em in E. discriminate E.
    - eexists _, _, _. eapply e_bare; [exact Hn|reflexivity|]. exists None. split; [now left|exact Es].
  Qed.
  Lemma right_total r : Forall word_ok r -> exists e r', right_side r e r'.
  Proof.
    intros W. destruct r as [|[t s] r]; [eexists _, _; apply rs_open; auto|]. destruct (token_eq_dec t (CommandName CRight)) as [->|Nt].
    - destruct (clause_total (CommandName CRight, s) r (words_cons _ _ W)) as (c & r' & K). eexists _, _. eapply rs_closed. exact K.
    - eexists _, _. apply rs_open. exact Nt.
  Qed.
  Lemma end_total r : exists e r', env_end r e r'.
  Proof.
    destruct r as [|[t s] r]; [eexists _, _; apply ee_open; auto|]. destruct (token_eq_dec t (CommandName EndEnvironment)) as [->|Nt].
    - eexists _, _. apply ee_closed.
    - eexists _, _. apply ee_open. exact Nt.
  Qed.
  Lemma env_known n p f l w ts ps P s x : knows_content n -> knows_arguments n -> Forall word_ok ts ->
    run (S n) (KContent (negb f)) (st ps P s l p ((CommandName BeginEnvironment, w) :: ts)) = Ok x -> exists b l' r, element p f l (CommandName BeginEnvironment, w) ts b l' r.
  Proof.
    intros HC HA W E. rewrite content_eq in E. unfold Parser.content, p_peek, st in E. cbn [p_lex list_pk hd_error option_map fst] in E.
    apply bind_ok' in E as (y & E & _). unfold environment in E. rewrite !start_step in E. cbn [p_lex list_pk hd_error] in E. rewrite eat_step in E. cbn [bind] in E.
    apply bind_ok' in E as (z & Ez & E). fold (begin_shape sp w) in Ez.
    assert (D : no_args (begin_shape sp w) \/ exists a, begin_shape sp w = Some a /\ ~ no_args (Some a)).
    { unfold no_args. destruct (begin_shape sp w) as [a|]; [|left; auto]. destruct a as [|[|q]| | |]; [left; auto|left; auto|right|right|right|right]; eexists; (split; [reflexivity|]); intros [H|[H|H]]; discriminate H. }
    destruct D as [D|(a & Ea & D)].
    - assert (K : forall y0 : res pst, match begin_shape sp w with None | Some PNone | Some (PFixed 0) => y0 | Some p0 => match_arguments (run n) false (start_match p0) (mk_pst ts (mk_builder ((ItemBegin, List.length (P ++ all l)) :: (ItemEnv, List.length (P ++ all l)) :: ps) ((P ++ all l) ++ [leaf (CommandName BeginEnvironment, w)])) [] (start_pos P s (from l)) (last_pos P l) (scope_of p)) end = y0).
      { intros y0. destruct D as [-> |[-> | ->]]; reflexivity. }
      rewrite K in Ez. injection Ez as <-. rewrite finish_step in E. cbn [bind] in E. rewrite extract_held in E. cbn [map] in E. rewrite app_nil_r in E.
      apply bind_ok' in E as (z & E & _). apply (list_of n Body) in E as (l1 & r & K1 & K2 & _); [|exact HC|exact W|cbn; rewrite !app_length; lia].
      destruct (end_total r) as (e & r' & K3). eexists _, _, _. eapply e_env; [reflexivity|exact D|exact K1|exact K3].
    - rewrite Ea in Ez.
      pose proof (fun st0 => shape_right a (Ok st0) (fun a => match_arguments (run n) false (start_match a) st0) D) as S1. cbv beta in S1. rewrite S1 in Ez. clear S1.
      assert (Dg : a = PGreedy \/ a <> PGreedy) by (destruct a; first [left; reflexivity|right; discriminate]). destruct Dg as [-> |Dg]; [discriminate Ez|].
      apply args_known in Ez as (args & held & r1 & K1 & W1 & ->); [|exact HA|exact W|exact Dg].
      rewrite <- app_assoc, finish_step in E. cbn [bind] in E. rewrite extract_held in E.
      apply bind_ok' in E as (z & E & _). apply (list_of n Body) in E as (l1 & r & K2 & K4 & _); [|exact HC|exact W1|cbn; rewrite !app_length; lia].
      destruct (end_total r) as (e & r' & K3). eexists _, _, _. eapply e_env_args; [reflexivity|exact Ea|exact D|exact Dg|exact K1|exact K2|exact K3].
  Qed.
  Lemma sides_known n p f l w ts ps P s x : knows_content n -> Forall word_ok ts ->
    run (S n) (KContent (negb f)) (st ps P s l p ((CommandName CLeft, w) :: ts)) = Ok x -> exists b l' r, element p f l (CommandName CLeft, w) ts b l' r.
  Proof.
    intros HC W E. rewrite content_eq in E. unfold Parser.content, p_peek, st in E. cbn [p_lex list_pk hd_error option_map fst] in E.
    apply bind_ok' in E as (y & E & _). unfold item_lr in E. rewrite start_step in E. apply bind_ok' in E as (z & Ez & E).
    destruct (clause_total (CommandName CLeft, w) ts W) as (c & r & Hc).
    apply (det _ n _ _ (stable_clause _) (clause_ev2 gm sp _ _ _ _ _ _ _ _ _ Hc)) in Ez. subst z. pose proof (words_clause _ _ _ _ Hc W) as W1.
    apply bind_ok' in E as (z & E & _). apply (list_of n Sides) in E as (l1 & r1 & K2 & K4 & _); [|exact HC|exact W1|cbn; rewrite !app_length; lia].
    destruct (right_total r1 K4) as (e & r' & K3). eexists _, _, _. eapply e_sides; [reflexivity|exact Hc|exact K2|exact K3].
  Qed.
  Lemma script_known n p f l t ts ps P s x : knows_element n -> fits ps P s l -> Forall word_ok ts -> script_mark (fst t) ->
    run (S n) (KContent (negb f)) (st ps P s l p (t :: ts)) = Ok x -> exists b l' r, element p f l t ts b l' r.
  Proof.
    intros HE Hf W Ht E. destruct (span blank_token blank_dec ts) as (bs & r & -> & Hb & Hr). apply words_app in W.
    destruct r as [|u r]; [rewrite app_nil_r; eexists _, _, _; now apply e_script_end|].
    rewrite content_eq, content_script in E by exact Ht. apply bind_ok' in E as (y & E & _). rewrite attach_eq in E by exact Hf.
    apply bind_ok' in E as (z & Ez & E). apply (det _ n _ _ (stable_rec _ _) (script_blanks gm sp _ _ _ _ _ _ bs (u :: r) Hb Hr)) in Ez. subst z.
    apply bind_ok' in E as (z & E & _). unfold rec_ in E. apply bind_ok' in E as ([b z'] & E & _).
    destruct (HE p true (inside l t bs) u r _ _ _ b z' (inside_fits _ _ _ _ t bs Hf) W E) as (l1 & r' & K).
    eexists _, _, _. eapply e_script; [exact Ht|exact Hb|exact Hr|exact K].
  Qed.
  Lemma group_known n q t k ts ps C a la sc F y : knows_content n -> Forall word_ok ts -> brackets q (fst t) k ->
    (let* st := item_group list_pk list_nx (run n) (scope_of q) (mk_pst (t :: ts) (mk_builder ps C) [] a la sc) in F st) = Ok y :> res (bool * pst) ->
    exists y r, group q t ts y r.
  Proof. intros HC W Hb E. apply bind_ok' in E as (x & E & _). eapply group_of in E as (z & r & K & _); try eassumption. eauto. Qed.

  Lemma element_known n : knows_content n -> knows_element n -> knows_arguments n -> knows_element (S n).
  Proof.
    intros HC HE HA p f l t ts ps P s b st' Hf W E.
    assert (K : exists b' l' r, element p f l t ts b' l' r).
    { pose proof (words_cons _ _ W) as W1. destruct t as [t w].
      assert (Base : mark_base t -> exists b' l' r, element p f l (t, w) ts b' l' r) by (intros H; eexists _, _, _; now apply e_base).
      assert (Plain : mark_plain t -> exists b' l' r, element p f l (t, w) ts b' l' r) by (intros H; eexists _, _, _; now apply e_plain).
      assert (Stray : stray t -> exists b' l' r, element p f l (t, w) ts b' l' r) by (intros H; eexists _, _, _; now apply e_stray).
      assert (Txt : t = Comma \/ t = Word /\ f = false -> exists b' l' r, element p f l (t, w) ts b' l' r).
      { intros H. destruct (span text_token text_dec ts) as (bs & r & -> & H1 & H2). eexists _, _, _. now apply e_text. }
      assert (Cmd : named t -> exists b' l' r, element p f l (t, w) ts b' l' r) by (intros H; eapply command_known; eassumption).
      assert (Scr : script_mark t -> exists b' l' r, element p f l (t, w) ts b' l' r) by (intros H; eapply script_known; eassumption).
      destruct t as [| | |[]|[]| | | | | | | | | | | | | | | |c| |].
      all: try (apply Base; unfold mark_base; cbn; tauto).
      all: try (apply Plain; unfold mark_plain; cbn; tauto).
      - rewrite content_eq in E. unfold Parser.content, p_peek, st in E. cbn [p_lex list_pk hd_error option_map fst] in E.
        apply (group_known n Braces _ ItemCurly) in E as (x & r & K); [|exact HC|exact W1|cbn; auto]. eexists _, _, _. eapply e_group; [reflexivity|exact K].
      - apply Stray. left. cbn. auto.
      - apply Txt. auto.
      - apply Scr. now right.
      - destruct (base l) eqn:Eb; eexists _, _, _; [eapply e_prime|eapply e_prime_alone]; exact Eb.
      - apply Scr. now left.
      - destruct f; [|apply Txt; auto]. inversion W as [|? ? W2 _]; subst. specialize (W2 eq_refl). cbn in W2. destruct w as [|c w]; [congruence|]. eexists _, _, _. apply e_char.
      - rewrite content_eq in E. unfold Parser.content, p_peek, st in E. cbn [p_lex list_pk hd_error option_map fst] in E.
        apply (group_known n Dollars_ _ ItemFormula) in E as (x & r & K); [|exact HC|exact W1|cbn; auto]. eexists _, _, _. eapply e_dollars; [reflexivity|exact K].
      - destruct c as [| | | | | | |i| | | |].
        all: try (apply Base; unfold mark_base; cbn; tauto).
        all: try (apply Cmd; left; cbn; tauto).
        all: try (apply Stray; left; cbn; tauto).
        + eapply env_known; [exact HC|exact HA|exact W1|exact E].
        + rewrite content_eq in E. unfold Parser.content, p_peek, st in E. cbn [p_lex list_pk hd_error option_map fst] in E.
          apply (group_known n Math_ _ ItemFormula) in E as (x & r & K); [|exact HC|exact W1|cbn; tauto]. eexists _, _, _. eapply e_math; [reflexivity|exact K].
        + destruct (skipped_total ts 0) as (xs & r & Hs).
          assert (D : i = IfFalse \/ i = IfTypst \/ i <> IfFalse /\ i <> IfTypst) by (destruct i; first [left; reflexivity|right; left; reflexivity|right; right; split; discriminate]).
          destruct D as [-> |[-> |[D1 D2]]].
          * eexists _, _, _. eapply (e_skip _ _ _ _ _ IfFalse); [left; split; reflexivity|exact Hs].
          * eexists _, _, _. eapply (e_skip _ _ _ _ _ IfTypst); [right; split; reflexivity|exact Hs].
          * apply Cmd. right. eexists. split; [reflexivity|split; assumption].
        + eapply sides_known; [exact HC|exact W1|exact E].
      - apply Stray. right. eexists. reflexivity. }
    destruct K as (b' & l' & r & K). destruct (element_state _ _ _ _ _ _ _ _ _ _ _ _ _ _ Hf E K) as [-> _]. eauto.
  Qed.

  (** ** Lists *)
  Lemma turn n g t s k sc ps C a la x : stop_by_scope sc t = false -> (g = true -> halt sc t = false) ->
    run (S n) (loop g (List.length C)) (mk_pst ((t, s) :: k) (mk_builder ps C) [] a la sc) = Ok x ->
    exists att st1, run (S n) (KContent true) (mk_pst ((t, s) :: k) (mk_builder ps C) [] a la sc) = Ok (att, st1) /\
      run n (loop g (checkpoint st1)) (if att then with_last (Some (List.length C)) st1 else st1) = Ok x.
  Proof.
    intros Hs Hh E. set (st0 := mk_pst ((t, s) :: k) (mk_builder ps C) [] a la sc : pst) in *.
    destruct g; cbn [loop] in *.
    - specialize (Hh eq_refl).
      assert (K : (let* (attachable, st1) := run n (KContent true) st0 in
          run n (KMatch true AMGreedy (List.length C)) (if attachable then with_last (Some (List.length C)) st1 else st1)) = Ok x ->
          exists att st1, run (S n) (KContent true) st0 = Ok (att, st1) /\
            run n (KMatch true AMGreedy (checkpoint st1)) (if att then with_last (Some (List.length C)) st1 else st1) = Ok x).
      { intros H. apply bind_ok' in H as ([att st1] & H1 & H2). exists att, st1. split; [apply (stable_run (KContent true) st0 n (S n)); [lia|exact H1]|].
        rewrite (greedy_cur gm sp n (checkpoint st1) (List.length C)). exact H2. }
      cbn [Parser.run dispatch] in E. unfold match_loop, st0 in E. cbn [p_lex p_scope list_pk hd_error] in E. rewrite Hs in E. fold st0 in E.
      assert (K2 : forall b0 st1, (forall f, Parser.content list_pk list_nx list_set sp (run n) f st0 = Ok (b0, st1)) -> forall c0, run n (KMatch true AMGreedy c0) (if b0 then with_last (Some (List.length C)) st1 else st1) = Ok x ->
         exists att st1, run (S n) (KContent true) st0 = Ok (att, st1) /\
            run n (KMatch true AMGreedy (checkpoint st1)) (if att then with_last (Some (List.length C)) st1 else st1) = Ok x).
      { intros b0 st1 H1 c0 H2. exists b0, st1. split; [rewrite content_eq; apply H1|]. rewrite (greedy_cur gm sp n (checkpoint st1) c0). exact H2. }
      destruct t; try (unfold halt in Hh; cbn in Hh; rewrite ?orb_true_r in Hh; discriminate Hh); try (apply K; exact E).
      + unfold st0 in E. rewrite eat_step in E. cbn [bind] in E. eapply (K2 false); [|exact E]. intros f. unfold st0, Parser.content, p_peek. cbn [p_lex list_pk hd_error option_map fst]. rewrite eat_step. reflexivity.
      + unfold st0 in E. rewrite eat_step in E. cbn [bind] in E. eapply (K2 false); [|exact E]. intros f. unfold st0, Parser.content, p_peek. cbn [p_lex list_pk hd_error option_map fst]. rewrite eat_step. reflexivity.
      + unfold st0 in E. rewrite eat_step in E. cbn [bind] in E. eapply (K2 false); [|exact E]. intros f. unfold st0, Parser.content, p_peek. cbn [p_lex list_pk hd_error option_map fst]. rewrite eat_step. reflexivity.
      + destruct b; cbn [match_as_term] in E; unfold p_arg in E.
        * change (negb (ARG_TERM =? ARG_TERM)%N) with false in E. cbv iota in E.
          apply bind_ok' in E as ([b1 st1] & E1 & E2). apply bind_ok' in E1 as (st2 & E1 & E3). injection E3 as <- <-.
          eapply (K2 true st2); [|exact E2]. intros f. unfold Parser.content, p_peek. cbn [st0 p_lex list_pk hd_error option_map fst]. fold st0. rewrite E1. reflexivity.
        * change (negb (ARG_BRACKET =? ARG_TERM)%N) with true in E. cbv iota in E. unfold st0 in E. rewrite eat_step in E. cbn [bind] in E.
          eapply (K2 true); [|exact E]. intros f. unfold st0, Parser.content, p_peek. cbn [p_lex list_pk hd_error option_map fst]. rewrite eat_step. reflexivity.
        * change (negb (ARG_PAREN =? ARG_TERM)%N) with true in E. cbv iota in E. unfold st0 in E. rewrite eat_step in E. cbn [bind] in E.
          eapply (K2 true); [|exact E]. intros f. unfold st0, Parser.content, p_peek. cbn [p_lex list_pk hd_error option_map fst]. rewrite eat_step. reflexivity.
      + assert (Eb : (match sc with Environment => true | _ => false end) = false) by (unfold halt in Hh; now apply orb_false_elim in Hh). rewrite Eb in E. apply K. exact E.
    - cbn [Parser.run dispatch] in E. unfold list_loop, p_peek, st0 in E. cbn [p_lex p_scope list_pk hd_error option_map fst] in E. rewrite Hs in E. fold st0 in E.
      apply bind_ok' in E as ([att st1] & E1 & E2). exists att, st1. split; [apply (stable_run (KContent true) st0 n (S n)); [lia|exact E1]|]. destruct att; exact E2.
  Qed.
  Lemma content_known n : knows_content n -> knows_element (S n) -> knows_content (S n).
  Proof.
    intros HC HE p g l ts ps P s b st' Hf W E. destruct ts as [|t ts]; [eexists _, _; apply c_eof|].
    destruct (stopped_dec p g (fst t)) as [Hs|Hs]; [eexists _, _; now apply c_end|]. destruct t as [t w]. cbn [fst] in Hs.
    assert (Hg : stop_by_scope (scope_of p) t = false) by (apply stop_false; intros Ho; apply Hs; destruct g; [now left|exact Ho]).
    assert (Hh : g = true -> halt (scope_of p) t = false) by (intros ->; now apply halt_false).
    apply turn in E as (att & st1 & E1 & E2); [|exact Hg|exact Hh].
    destruct (HE p false l (t, w) ts ps P s att st1 Hf W E1) as (l1 & r1 & K).
    destruct (element_state (S n) p false l (t, w) ts ps P s att st1 att l1 r1 Hf E1 K) as [_ ->].
    pose proof (proj1 (proj2 words_kept) _ _ _ _ _ _ _ _ K (words_cons _ _ W)) as W1.
    destruct (element_keeps _ _ _ _ _ _ _ _ _ _ K) as (_ & _ & K3).
    destruct att.
    - destruct (element_base _ _ _ _ _ _ _ _ _ K) as [xs Ex].
      set (l2 := mk_line (all l) (Some xs) (from l1)).
      assert (Hf2 : fits ps P s l2). { destruct Hf as [F1 F2]. split; [exact F1|]. cbn. intros Eb. apply F2. destruct K3; congruence. }
      assert (Ea : all l2 = all l1) by (rewrite Ex; reflexivity).
      assert (Es : with_last (Some (List.length (P ++ all l))) (st ps P s l1 p r1) = st ps P s l2 p r1).
      { unfold st, with_last. cbn [p_lex p_b p_trivia p_start p_scope]. rewrite Ea. unfold last_pos. cbn [l2 base before from]. rewrite app_length. reflexivity. }
      rewrite Es in E2.
      assert (Ec : checkpoint (st ps P s l1 p r1) = List.length (P ++ all l2)) by (rewrite Ea; reflexivity).
      rewrite Ec in E2. destruct (HC p g l2 r1 ps P s b st' Hf2 W1 E2) as (l' & r' & K2).
      eexists _, _. eapply c_base; [exact Hs|exact K|exact Ex|exact K2].
    - assert (Hf2 : fits ps P s l1). { destruct Hf as [F1 F2]. split; [exact F1|]. cbn. intros Eb. apply F2. destruct K3; congruence. }
      destruct (HC p g l1 r1 ps P s b st' Hf2 W1 E2) as (l' & r' & K2).
      eexists _, _. eapply c_other; [exact Hs|exact K|exact K2].
  Qed.

  (** ** Arguments *)
  Lemma takes_dec a w c : {takes gm a w c} + {~ takes gm a w c}.
  Proof.
    assert (D : forall x y : N, {(x < y)%N} + {~ (x < y)%N}) by (intros x y; destruct (x <? y)%N eqn:E; [left; now apply N.ltb_lt|right; intros H; apply N.ltb_lt in H; congruence]).
    destruct a; cbn; try (right; tauto); try apply D. apply bool_dec.
  Qed.
  Lemma optional_dec a t : {optional a t} + {~ optional a t}.
  Proof.
    destruct a as [| | | |g]; try (right; intros [[? H] _]; discriminate H).
    destruct (token_eq_dec t (TLeft Bracket)) as [->|N1]; [left; split; eauto|].
    destruct (token_eq_dec t (TLeft Paren)) as [->|N2]; [left; split; eauto|]. right. intros [_ [H|H]]; congruence.
  Qed.
  Lemma arg_result (F : pst -> res (bool * pst)) ts ps C held sc b x : p_arg false F (mk_pst ts (mk_builder ps C) held None None sc : pst) = Ok (b, x) ->
    exists y, F (mk_pst ts (mk_builder ((ClauseArgument, List.length C) :: ps) C) [] None None sc) = Ok (b, y) /\ finish_node y = Ok x .
  Proof.
    intros E. unfold p_arg, ignore_holding_trivia, with_trivia in E. cbn [p_lex p_b p_start p_last p_scope] in E. rewrite start_step in E.
    apply bind_ok' in E as ([b' y] & E1 & E2). apply bind_ok' in E2 as (z & E2 & E3). injection E3 as <- <-. eauto.
  Qed.
  Lemma word_known n p a r cur (HA : knows_arguments n) : Forall word_ok r -> forall s w held m ps C x, s <> [] -> mrel a w m ->
    run (S n) (KMatch false m cur) (mk_pst ((Word, s) :: r) (mk_builder ps C) held None None (scope_of p)) = Ok x ->
    exists xs held' r', arguments p a w held ((Word, s) :: r) xs held' r'.
  Proof.
    intros W s. induction s as [|c s IH]; intros w held m ps C x Hs Hm E; [congruence|].
    destruct (takes_dec a w (letter a Word)) as [Ht|Ht]; [|eexists _, _, _; apply a_refuse; [unfold blank_token; cbn; intros H; repeat (destruct H as [H|H]; [discriminate H|]); exact H|discriminate|exact Ht]].
    assert (El : letter a Word = ARG_TERM) by (destruct a; reflexivity). pose proof Ht as Ht'. rewrite El in Ht'.
    destruct (proj1 (mrel_take gm a w m ARG_TERM Hm (or_introl eq_refl)) Ht') as (m1 & E1 & E2). rewrite <- El in E2.
    destruct s as [|d s].
    - rewrite (word_last gm sp n c r m m1) in E by exact E1. destruct x as [b x]. apply (HA p a _ _ r m1 cur _ _ b x E2 W) in E as (xs & held' & r' & K).
      eexists _, _, _. apply a_char; [exact Ht|exact K].
    - rewrite (word_eq gm sp n c (d :: s) r m m1) in E by (exact E1 || discriminate).
      apply (IH _ _ _ _ _ _ ltac:(discriminate) E2) in E as (xs & held' & r' & K).
      eexists _, _, _. apply a_char; [exact Ht|exact K].
  Qed.
  Lemma arguments_known n : knows_content n -> knows_element (S n) -> knows_arguments n -> knows_arguments (S n).
  Proof.
    intros HC HE HA p a w held ts m cur ps C b st' Hm W E. destruct ts as [|t ts]; [eexists _, _, _; apply a_eof|]. pose proof (words_cons _ _ W) as W1.
    destruct (blank_dec t) as [Hb|Hb].
    { assert (E' : run n (KMatch false m cur) (mk_pst ts (mk_builder ps C) (held ++ [t]) None None (scope_of p)) = Ok (b, st')).
      { cbn [Parser.run dispatch] in E. unfold match_loop in E. cbn [p_lex list_pk hd_error] in E. destruct t as [t s]. unfold blank_token in Hb. cbn in Hb.
        repeat (destruct Hb as [<-|Hb]; [exact E|]). contradiction. }
      apply (HA p a w _ ts m cur _ _ b st' Hm W1) in E' as (xs & held' & r' & K). eexists _, _, _. apply a_blank; [exact Hb|exact K]. }
    destruct (over_dec p (fst t)) as [Ho|Ho]; [eexists _, _, _; apply a_stop; now right|].
    destruct (in_dec token_eq_dec (fst t) [Ampersand; Caret; Underscore]) as [Hi|Hi]; [eexists _, _, _; apply a_stop; now left|].
    destruct t as [t s]. cbn [fst] in *. destruct (token_eq_dec t Word) as [->|Nw].
    { inversion W as [|? ? W2 _]; subst. specialize (W2 eq_refl). cbn in W2. eapply word_known; [exact HA|exact W1|exact W2|exact Hm|exact E]. }
    destruct (takes_dec a w (letter a t)) as [Ht|Ht]; [|eexists _, _, _; apply a_refuse; [exact Hb|congruence|exact Ht]].
    assert (Go : forall b1 l1 r1 m1 ps C b st', element p false (fresh Gone) (t, s) ts b1 l1 r1 -> ~ optional a t -> mrel a (w ++ [letter a t]) m1 ->
      run n (KMatch false m1 cur) (mk_pst r1 (mk_builder ps C) [] None None (scope_of p)) = Ok (b, st') -> exists xs held' r', arguments p a w held ((t, s) :: ts) xs held' r').
    { intros b1 l1 r1 m1 ps0 C0 b0 st0 He Hop Hm1 E0. pose proof (proj1 (proj2 words_kept) _ _ _ _ _ _ _ _ He W1) as Wr.
      apply (HA p a _ _ r1 m1 cur _ _ b0 st0 Hm1 Wr) in E0 as (xs & held' & r' & K). eexists _, _, _. eapply a_term; [exact Hb|exact Nw|exact Hi|exact Ho|exact Hop|exact Ht|exact He|exact K]. }
    assert (Hf : fits ((ClauseArgument, List.length C) :: ps) C 0 (fresh Gone)) by (split; [apply le_n|discriminate]).
    assert (Arg : forall y, run (S n) (KContent true) (mk_pst ((t, s) :: ts) (mk_builder ((ClauseArgument, List.length C) :: ps) C) [] None None (scope_of p)) = Ok y ->
      exists l1 r1, element p false (fresh Gone) (t, s) ts (fst y) l1 r1 /\ finish_node (snd y) = Ok (mk_pst r1 (mk_builder ps (C ++ [as_argument (all l1)])) [] None None (scope_of p))).
    { intros [by_ y] Ey.
      assert (Ey' : run (S n) (KContent (negb false)) (st ((ClauseArgument, List.length C) :: ps) C 0 (fresh Gone) p ((t, s) :: ts)) = Ok (by_, y)).
      { unfold st. cbn [fresh all before base based from start_pos app negb last_pos]. rewrite app_nil_r. exact Ey. }
      destruct (HE p false (fresh Gone) (t, s) ts _ _ _ _ _ Hf W Ey') as (l1 & r1 & K). exists l1, r1. split; [exact K|].
      destruct (element_state _ _ _ _ _ _ _ _ _ _ _ _ _ _ Hf Ey' K) as [_ ->]. destruct (element_keeps _ _ _ _ _ _ _ _ _ _ K) as (K1 & _ & K3).
      cbn [snd]. unfold st, last_pos. rewrite (K1 eq_refl). replace (from l1) with Gone by (cbn in K3; destruct K3; congruence). cbn [start_pos]. apply finish_step. }
    destruct (left_dec t) as [[bk ->]|Hbk].
    - cbn [Parser.run dispatch] in E. rewrite match_left in E. destruct (proj1 (mrel_left gm a w m bk Hm) Ht) as (m1 & E1 & E2). rewrite E2 in E.
      apply bind_ok' in E as ([b1 y] & E3 & E4). apply arg_result in E3 as (z & E3 & Ez).
      destruct (optional_dec a (TLeft bk)) as [Hop|Hop].
      + destruct Hop as [[g ->] Hop]. apply bind_ok' in E3 as (z' & E3 & E5). injection E5 as <- <-.
        assert (Hq : exists q k, brackets q (TLeft bk) k /\ (match bk with Curly => CurlyItem | Bracket => BracketItem | Paren => ParenItem end) = scope_of q /\ (q = Brackets \/ q = Parens)).
        { destruct Hop as [Hop|Hop]; injection Hop as ->; [exists Brackets, ItemBracket|exists Parens, ItemParen]; cbn; auto. }
        destruct Hq as (q & k & Hq & Es & Hq2). rewrite Es in E3. apply (group_of n q (TLeft bk, s) k) in E3 as (y' & r1 & K & Wr & ->); [|exact HC|exact W1|exact Hq].
        rewrite finish_step in Ez. injection Ez as <-.
        apply (HA p (PGlob g) _ _ r1 m1 cur _ _ b st' E1 Wr) in E4 as (xs & held' & r' & K').
        eexists _, _, _. eapply a_optional; [split; [eauto|exact Hop]|exact Ht|exact K|exact Hq2|exact K'].
      + assert (Em : (match a with PGlob _ => false | _ => negb (enc bk =? ARG_TERM)%N end) = negb (enc bk =? ARG_TERM)%N).
        { destruct a; try reflexivity. destruct bk; try reflexivity; exfalso; apply Hop; unfold optional; eauto. }
        rewrite Em in E3. assert (E5 : run (S n) (KContent true) (mk_pst ((TLeft bk, s) :: ts) (mk_builder ((ClauseArgument, List.length C) :: ps) C) [] None None (scope_of p)) = Ok (b1, z)).
        { rewrite content_eq. destruct bk; exact E3. }
        destruct (Arg _ E5) as (l1 & r1 & K & Ef). cbn [fst snd] in *. rewrite Ef in Ez. injection Ez as <-. eapply Go; [exact K|exact Hop|exact E1|exact E4].
    - assert (Hop : ~ optional a t) by (intros [_ [-> | ->]]; apply Hbk; eauto). pose proof (letter_other _ _ Hop) as El.
      cbn [Parser.run dispatch] in E. rewrite (match_step gm sp n m cur t s) in E; [|reflexivity|exact Hb|exact Nw|exact Hi|exact Hbk].
      cbn [p_scope] in E. rewrite (stop_false p t Ho) in E. pose proof Ht as Ht'. rewrite El in Ht'.
      destruct (proj1 (mrel_take gm a w m ARG_TERM Hm (or_introl eq_refl)) Ht') as (m1 & E1 & E2). rewrite E1 in E. cbv beta iota zeta in E. cbn [negb] in E. rewrite <- El in E2.
      apply bind_ok' in E as ([b1 y] & E3 & E4). apply arg_result in E3 as (z & E3 & Ez).
      apply (stable_run (KContent true) _ n (S n)) in E3; [|lia].
      destruct (Arg _ E3) as (l1 & r1 & K & Ef). cbn [fst snd] in *. rewrite Ef in Ez. injection Ez as <-. eapply Go; [exact K|exact Hop|exact E2|exact E4].
  Qed.

  Theorem known n : knows_content n /\ knows_element n /\ knows_arguments n.
  Proof.
    induction n as [|n (HC & HE & HA)].
    - repeat split; intros ? *; intros; discriminate.
    - pose proof (element_known n HC HE HA) as HE'. split; [now apply content_known|]. split; [exact HE'|now apply arguments_known].
  Qed.

  Lemma top_all p g l ts l' r : content p g l ts l' r -> p = Top -> g = false -> r = [].
  Proof.
    intros H.
    refine (content_ind2 gm sp (fun p g l ts l' r _ => p = Top -> g = false -> r = []) (fun _ _ _ _ _ _ _ _ _ => True) (fun _ _ _ _ _ _ => True) (fun _ _ _ _ _ _ _ _ _ => True)
      _ _ _ _ _ _ _ _ _ _ _ _ _ _ _ _ _ _ _ _ _ _ _ _ _ _ _ _ _ _ _ _ _ _ _ _ _ p g l ts l' r H); try (intros; exact I); auto.
    intros p0 g0 l0 t0 r0 H0 -> ->. destruct H0 as [H0 _]. congruence.
  Qed.
  Lemma parse_is fuel ts : parse_list gm sp fuel ts =
    (let* st := item_list (run fuel) (scope_of Top) (mk_pst ts (mk_builder [(ScopeRoot, 0)] []) [] None None Root) in
     let* st := finish_node st in b_finish (p_b st)).
  Proof. reflexivity. Qed.
  Lemma root_done ts l r : (let* st := finish_node (mk_pst r (mk_builder [(ScopeRoot, 0)] ([] ++ all l)) [] ts None Root : pst) in b_finish (p_b st)) = Ok (Node ScopeRoot (all l)).
  Proof. change 0 with (List.length (@nil tree)). rewrite finish_step. reflexivity. Qed.
  Theorem complete ts fuel t : Forall word_ok ts -> parse_list gm sp fuel ts = Ok t -> reading gm sp ts t.
  Proof.
    intros W E. rewrite parse_is in E. apply bind_ok' in E as (x & E1 & E).
    apply (list_of fuel Top) in E1 as (l & r & K & _ & ->); [|apply known|exact W|apply le_n].
    rewrite root_done in E. injection E as <-. exists l. split; [|reflexivity]. pose proof (top_all _ _ _ _ _ _ K eq_refl eq_refl) as ->. exact K.
  Qed.
  Theorem parses ts t : reading gm sp ts t -> ev (fun n => parse_list gm sp n ts = Ok t).
  Proof.
    intros (l & K & ->). apply (proj1 (sound gm sp)) in K.
    eapply ev_eq; [intros n; apply parse_is|]. eapply ev_bind; [apply (item_list_reads gm sp Top _ _ _ K); apply le_n|].
    apply ev_all. intros n. apply root_done.
  Qed.
End Complete.
