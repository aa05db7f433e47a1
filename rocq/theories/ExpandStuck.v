(** Where expansion gets stuck: only at definitions that [refuses] describes, if
    the tokens come from the lexer. *)
From Verif Require Export ExpandStep.
Local Open Scope N_scope.

(** ** Bodies *)
Lemma marks_last l d b : marks_of l d b -> forall l0 h, l <> l0 ++ [(Hash, h)].
Proof.
  induction 1 as [|h c w r r' b Hc H IH|h t r r' b Ht H IH|t r r' b Ht H IH]; intros l0 h0 E.
  - now destruct l0.
  - destruct l0 as [|x l0]; [discriminate|]. injection E as _ E.
    destruct l0 as [|y l0]; [discriminate|]. injection E as _ E. now apply (IH l0 h0).
  - destruct l0 as [|x l0]; [discriminate|]. injection E as _ E. now apply (IH l0 h0).
  - destruct l0 as [|x l0]; [injection E as E _; subst t; now apply Ht|]. injection E as _ E. now apply (IH l0 h0).
Qed.
Lemma stored_last b d : stored_as b d -> forall l0 h, b <> l0 ++ [(Hash, h)].
Proof. intros (m & e & H & _). eapply marks_last; exact H. Qed.
Lemma hashes_panic l s : process_hashes l = Panic s -> exists l0 h, l = l0 ++ [(Hash, h)].
Proof.
  remember (List.length l) as n eqn:E. assert (List.length l <= n)%nat as Hn by lia. clear E. revert s l Hn.
  induction n as [|n IH]; intros s l Hn H.
  { destruct l; [discriminate|cbn in Hn; lia]. }
  destruct l as [|t r]; [discriminate|]. cbn in Hn.
  destruct (token_eq_dec (fst t) Hash) as [Ht|Ht].
  - destruct t as [k h]. cbn in Ht. subst k. destruct r as [|t r]; [exists [], h; reflexivity|].
    destruct (digit_word_dec t) as [(c & w & -> & Hc)|Hd].
    + rewrite hashes_param in H by assumption. destruct (process_hashes r) as [[? ?]|s'|] eqn:E; try discriminate.
      apply IH in E as (l0 & h0 & ->); [|cbn in Hn; lia]. exists ((Hash, h) :: (Word, c :: w) :: l0), h0. reflexivity.
    + rewrite hashes_hash in H by assumption. destruct (process_hashes (t :: r)) as [[? ?]|s'|] eqn:E; try discriminate.
      apply IH in E as (l0 & h0 & E0); [|cbn in *; lia]. exists ((Hash, h) :: l0), h0. cbn. now rewrite E0.
  - rewrite hashes_tok in H by assumption. destruct (process_hashes r) as [[? ?]|s'|] eqn:E; try discriminate.
    apply IH in E as (l0 & h0 & ->); [|lia]. exists (t :: l0), h0. reflexivity.
Qed.
Lemma stored_or b : (exists d, stored_as b d) \/ (exists b0 h, b = b0 ++ [(Hash, h)]).
Proof.
  destruct (stored_total b) as [H|[s H]]; [now left|]. right. unfold process_macro_def in H.
  destruct (process_hashes b) as [[? ?]|s'|] eqn:E; try discriminate. eapply hashes_panic; exact E.
Qed.

(** ** Definitions *)
Lemma named_or env l : (exists name rest, named env l name rest) \/
  (exists x l1 k s rest, env = false /\ past_trivia l (x :: l1) /\ fst x = TLeft Curly /\
     single Curly l1 (Some (CommandName k, s)) rest /\ forall name, s <> 92 :: name).
Proof.
  destruct (skip_tr l) as [|x l1] eqn:E; symmetry in E; apply past_iff in E.
  { left. exists None, []. constructor; [exact E|discriminate]. }
  destruct (token_eq_dec (fst x) (TLeft Curly)) as [Hx|Hx].
  2:{ left. exists None, (x :: l1). constructor; [exact E|]. now intros ? ? [= <- <-]. }
  destruct (single_ex Curly l1) as (p & rest & Hs).
  destruct (name_of env p) as [nm|s|] eqn:En.
  - left. exists nm, rest. apply name_iff in En. econstructor; eassumption.
  - right. unfold name_of in En. destruct env; [discriminate|]. destruct p as [[k s0]|]; [|discriminate].
    destruct k; try discriminate. destruct (strip_prefix (tx "\") s0) as [nm|] eqn:Ep; [discriminate|].
    exists x, l1, c, s0, rest. repeat split; try assumption. intros nm ->. now rewrite strip_backslash in Ep.
  - exfalso. unfold name_of in En. destruct env; [discriminate|]. destruct p as [[k s0]|]; [|discriminate].
    destruct k; try discriminate. destruct (strip_prefix (tx "\") s0); discriminate.
Qed.
Lemma definition_or env l : (exists d rest, definition env l d rest) \/ refuses env l.
Proof.
  destruct (named_or env l) as [(name & l1 & Hn)|(x & l1 & k & s & rest & He & Hp & Hx & Hs & Hb)].
  2:{ right. eapply rf_name; eassumption. }
  destruct name as [name|]; [|left; do 2 eexists; eapply de_no_name; eassumption].
  destruct (signature_ex l1) as (p & l2 & Hs). destruct p as [[n o]|]; [|left; do 2 eexists; eapply de_no_signature; eassumption].
  destruct l2 as [|u l2]; [left; do 2 eexists; eapply de_no_body; eassumption|].
  destruct (body_ex u l2) as (b & r & Hb).
  destruct env.
  - destruct r as [|x r']; [left; do 2 eexists; eapply de_one_body; eauto|].
    destruct (stored_or b) as [[bd Hbd]|(b0 & h & ->)]; [|right; eapply rf_body; eauto; discriminate].
    destruct (token_eq_dec (fst x) (TLeft Curly)) as [Hx|Hx]; [|left; do 2 eexists; eapply de_bad_body; eauto].
    destruct (enclosed_ex Curly r') as (dd & rest & He).
    destruct (stored_or dd) as [[ddef Hdd]|(d0 & h & ->)]; [left; do 2 eexists; eapply de_environment; eauto|].
    right. eapply rf_end; eauto.
  - destruct (stored_or b) as [[bd Hbd]|(b0 & h & ->)]; [left; do 2 eexists; eapply de_command; eauto|].
    right. eapply rf_body; eauto. discriminate.
Qed.
Definition env_cmd (env : bool) : declare_cmd := if env then NewEnvironment false false else NewCommand false false.
Lemma named_fun env l n r n' r' : named env l n r -> named env l n' r' -> n = n' /\ r = r'.
Proof.
  replace env with (is_new_env (env_cmd env)) by (now destruct env). intros H1 H2.
  apply (named_complete _ (Word, [])) in H1, H2. rewrite H1 in H2. injection H2 as H2 <-. apply F_inj in H2. auto.
Qed.
Lemma single_fun bk l p r p' r' : single bk l p r -> single bk l p' r' -> p = p' /\ r = r'.
Proof. rewrite !single_iff. intros -> [= -> ->]. auto. Qed.
Lemma signature_fun l p r p' r' : signature l p r -> signature l p' r' -> p = p' /\ (p <> None -> r = r').
Proof.
  assert (Hsmall : forall s n n', small_number s n -> small_number s n' -> n = n').
  { intros s n n' H1 H2. apply small_iff in H1 as (k & E & _ & ->), H2 as (k' & E' & _ & ->). congruence. }
  intros H1 H2.
  destruct H1 as [l H|x l p rest Hx Hs H|x l s n rest Hx Hs Hn H|x l s n y r o rest Hx Hs Hn Hy He];
    inversion H2 as [l0 H0 E1 E2 E3|x0 l0 p0 rest0 Hx0 Hs0 H0 E1 E2 E3|x0 l0 s0 n0 rest0 Hx0 Hs0 Hn0 H0 E1 E2 E3
                    |x0 l0 s0 n0 y0 r0 o0 rest0 Hx0 Hs0 Hn0 Hy0 He0 E1 E2 E3]; subst;
    try (exfalso; eapply H; [reflexivity|assumption]); try (exfalso; eapply H0; [reflexivity|assumption]);
    try (split; [reflexivity|intros _; reflexivity]); try (split; [reflexivity|congruence]);
    destruct (single_fun _ _ _ _ _ _ Hs Hs0) as [Ep Er]; try (injection Ep as <-); subst;
    try (exfalso; eapply H; [reflexivity|eassumption]); try (exfalso; eapply H0; [reflexivity|eassumption]);
    rewrite (Hsmall _ _ _ Hn Hn0); auto.
  injection Er as <- <-. destruct (enclosed_fun _ _ _ _ _ _ He He0) as [-> ->]. auto.
Qed.
Lemma body_fun l b r b' r' : body_in l b r -> body_in l b' r' -> b = b' /\ r = r'.
Proof.
  intros H1 H2. apply body_complete in H1, H2. rewrite H1 in H2. injection H2 as H2 <-. apply F_inj in H2. auto.
Qed.
Lemma refuses_nothing env l : refuses env l -> forall d rest, ~ definition env l d rest.
Proof.
  assert (Hbody : forall env l name l1 p l2 b rest, named env l (Some name) l1 -> signature l1 (Some p) l2 ->
    body_in l2 b rest -> forall d r, definition env l d r ->
    (env = true /\ rest = []) \/ ((exists bd, stored_as b bd) /\
      forall x l3 dd r2, env = true -> rest = x :: l3 -> fst x = TLeft Curly -> enclosed Curly l3 dd r2 -> exists ddef, stored_as dd ddef)).
  { intros env0 l0 name l1 p l2 b rest Hn Hs Hb d r Hd.
    inversion Hd; subst;
      match goal with H1 : named _ l0 (Some name) ?a, H2 : named _ l0 ?o ?b |- _ =>
        destruct (named_fun _ _ _ _ _ _ H1 H2) as [En El]; try discriminate En; injection En as En; subst; clear H2 end;
      match goal with H1 : signature ?l (Some p) ?a, H2 : signature ?l ?o ?b |- _ =>
        destruct (signature_fun _ _ _ _ _ H1 H2) as [Ep Er]; try discriminate Ep; injection Ep as Ep;
        specialize (Er ltac:(discriminate)); subst; clear H2 end;
      try match goal with H1 : body_in ?l b ?a, H2 : body_in ?l ?o ?b' |- _ =>
        destruct (body_fun _ _ _ _ _ H1 H2) as [Eb Ebr]; subst; clear H2 end.
    - inversion Hb.
    - right. split; [eauto|discriminate].
    - right. split; [eauto|]. intros x0 l9 dd r2 _ [= <- <-] _ He.
      match goal with H : enclosed Curly _ ?d0 r |- _ => destruct (enclosed_fun _ _ _ _ _ _ He H) as [-> ->] end. eauto.
    - left. auto.
    - right. split; [eauto|]. intros x0 l9 dd r2 _ [= <- <-] Hx. congruence. }
  intros [x l1 k s rest He Hp Hx Hs Hk|name l1 p l2 b h rest Hn Hs Hb Hr|name l1 p l2 b x l3 d0 h rest He Hn Hs Hb Hx Hd] d r H.
  - assert (forall nm rr, named env l nm rr -> False) as Hno.
    { intros nm rr Hn. destruct Hn as [l rr Hp' Hx'|l x' l1' p nm rr Hp' Hx' Hs' Hnm].
      - rewrite (past_fun _ _ _ Hp' Hp) in Hx'. now apply (Hx' x l1).
      - pose proof (past_fun _ _ _ Hp' Hp) as E. injection E as -> ->.
        destruct (single_fun _ _ _ _ _ _ Hs Hs') as [<- _].
        inversion Hnm as [s' E|k' nm' E|p' H1 H2]; subst; [now apply (Hk nm')|]. now apply (H2 eq_refl k s). }
    inversion H; subst; eapply Hno; eassumption.
  - destruct (Hbody _ _ _ _ _ _ _ _ Hn Hs Hb _ _ H) as [[E1 E2]|[[bd Hbd] _]]; [now apply Hr in E1|].
    now apply (stored_last _ _ Hbd b h).
  - destruct (Hbody _ _ _ _ _ _ _ _ Hn Hs Hb _ _ H) as [[E1 E2]|[_ Hdd]]; [discriminate|].
    destruct (Hdd _ _ _ _ He eq_refl Hx Hd) as [ddef Hdef]. now apply (stored_last _ _ Hdef d0 h).
Qed.

(** ** Tokens as the lexer delivers them *)
Definition meaning_code (m : meaning) : list tok :=
  match m with
  | Command _ o b => b ++ match o with Some o => o | None => [] end
  | Environment _ o b d => b ++ d ++ match o with Some o => o | None => [] end
  | _ => []
  end.
Notation ok := (Forall plausible).
Definition good (st : state) : Prop := forall name m, names st name = Some m -> ok (meaning_code m).
Lemma ok_word s : plausible (Word, s). Proof. exact I. Qed.
Lemma past_ok l r : past_trivia l r -> ok l -> ok r.
Proof. intros (w & _ & -> & _) H. now apply Forall_app in H. Qed.
Lemma tl_ok (l : list tok) : ok l -> ok (tl l). Proof. intros H. destruct H; [constructor|assumption]. Qed.
Lemma enclosed_ok bk l a r : enclosed bk l a r -> ok l -> ok a /\ ok r.
Proof. intros (s & (-> & _) & ->) H. apply Forall_app in H as [H1 H2]. split; [exact H1|now apply tl_ok]. Qed.
Lemma upto_ok w s l a r : upto w s l a r -> ok l -> ok a /\ ok r.
Proof. intros (-> & _) H. now apply Forall_app in H. Qed.
Lemma single_ok bk l p r : single bk l p r -> ok l -> ok r.
Proof.
  intros H. destruct H as [l H|l t l1 H H1|l t l1 y rest H H1 Hy|l t l1 y rest H H1 Hy]; intros Hl; try constructor;
    apply (past_ok _ _ H) in Hl; inversion Hl; subst; (assert (ok (y :: rest)) as Hy' by (eapply past_ok; eassumption));
    inversion Hy'; assumption.
Qed.
Lemma word_or_ok w : ok (word_or_nothing w). Proof. destruct w; repeat constructor. Qed.
Lemma chars_ok cs : Forall ok (map (fun c => [(Word, [c])]) cs).
Proof. induction cs; constructor; [repeat constructor|assumption]. Qed.
Lemma args_ok n l args m rest : arguments n l args m rest -> ok l -> Forall ok args /\ ok rest.
Proof.
  induction 1 as [l|n l H|n l x l1 a r args m rest H Hx He Ha IH|n l cs v l1 H Hcs|n l cs l1 args m rest H Ha IH
                 |n l t l1 args m rest H Ht Hw Ha IH]; intros Hl; try (apply (past_ok _ _ H) in Hl).
  - auto.
  - auto.
  - inversion Hl; subst. destruct (enclosed_ok _ _ _ _ He) as [K1 K2]; [assumption|]. destruct (IH K2). auto.
  - inversion Hl; subst. split; [apply chars_ok|]. apply Forall_app. split; [apply word_or_ok|assumption].
  - inversion Hl; subst. destruct IH; [assumption|]. split; [|assumption]. apply Forall_app. split; [apply chars_ok|assumption].
  - inversion Hl; subst. destruct IH; [assumption|]. split; [|assumption]. constructor; [auto|assumption].
Qed.
Lemma supplied_ok o found m args : supplied o found m (Some args) -> Forall ok found ->
  (forall d, o = Some d -> ok d) -> Forall ok args.
Proof.
  intros H Hf Ho. inversion H; subst; [assumption|]. apply Forall_app. split; [assumption|]. constructor; [auto|constructor].
Qed.
Lemma marks_ok l d b : marks_of l d b -> ok l -> ok d.
Proof.
  induction 1 as [|h c w r r' b Hc H IH|h t r r' b Ht H IH|t r r' b Ht H IH]; intros Hl; [constructor|..];
    inversion Hl as [|? ? H1 H2]; subst.
  - inversion H2; subst. constructor; [|constructor; [exact I|auto]]. unfold plausible, parameter_digit in *. cbn. lia.
  - constructor; auto.
  - constructor; auto.
Qed.
Lemma stored_as_ok b d : stored_as b d -> ok b -> ok d.
Proof.
  intros (m & e & H & ->) Hb. apply (marks_ok _ _ _ H) in Hb. destruct e; [|exact Hb].
  unfold without_empty_words. apply Forall_forall. intros x Hx. apply filter_In in Hx as [Hx _].
  rewrite Forall_forall in Hb. auto.
Qed.
Lemma instance_ok args l out : instance args l out -> Forall ok args -> ok l -> ok out.
Proof.
  intros H Ha. revert l out H.
  apply (instance_mut args (fun l out _ => ok l -> ok out) (fun d l out _ => ok l -> ok out)); intros;
    repeat match goal with H : ok (_ :: _) |- _ => inversion H; subst; clear H end; auto.
  apply Forall_app. split; [|auto]. destruct (nth_in_or_default (N.to_nat (i - 1)) args []) as [Hi| ->]; [|constructor].
  rewrite Forall_forall in Ha. auto.
Qed.
Lemma named_ok env l n r : named env l n r -> ok l -> ok r.
Proof.
  intros [l0 rest H _|l0 x l1 p nm rest H _ Hs _] Hl; apply (past_ok _ _ H) in Hl; [exact Hl|].
  inversion Hl; subst. eapply single_ok; eassumption.
Qed.
Lemma signature_ok l p r : signature l p r -> ok l -> ok r /\ forall n o, p = Some (n, Some o) -> ok o.
Proof.
  intros [l0 H|x l0 p0 rest Hx Hs H|x l0 s n rest Hx Hs Hn H|x l0 s n y r0 o rest Hx Hs Hn Hy He] Hl;
    [split; [exact Hl|discriminate]|..]; inversion Hl; subst; (assert (Hr := Hs); eapply single_ok in Hr; [|eassumption]).
  - split; [exact Hr|discriminate].
  - split; [exact Hr|discriminate].
  - inversion Hr; subst. destruct (enclosed_ok _ _ _ _ He) as [K1 K2]; [assumption|]. split; [exact K2|].
    now intros ? ? [= _ <-].
Qed.
Lemma body_ok l b r : body_in l b r -> ok l -> ok b /\ ok r.
Proof.
  intros [x l0 a rest Hx He|t l0 Ht] Hl; inversion Hl; subst; [eapply enclosed_ok; eassumption|]. auto.
Qed.
Lemma definition_ok env l d rest : definition env l d rest -> ok l ->
  ok rest /\ forall name m, d = Some (name, m) -> ok (meaning_code m).
Proof.
  intros H Hl. inversion H; subst;
    (match goal with Hn : named _ _ _ _ |- _ => assert (Hn' := named_ok _ _ _ _ Hn Hl) end);
    try (match goal with Hs : signature _ _ _ |- _ => destruct (signature_ok _ _ _ Hs Hn') as [Hs' Ho] end);
    try (match goal with Hb : body_in _ _ _ |- _ => destruct (body_ok _ _ _ Hb Hs') as [Hb1 Hb2] end);
    (split; [try assumption|try discriminate]).
  - intros nm m [= <- <-]. cbn. apply Forall_app. split; [eapply stored_as_ok; eassumption|].
    destruct o; [|constructor]. eapply Ho; reflexivity.
  - inversion Hb2; subst. eapply enclosed_ok; eassumption.
  - intros nm m [= <- <-]. cbn. apply Forall_app. split; [eapply stored_as_ok; eassumption|]. apply Forall_app. split.
    + inversion Hb2; subst. eapply stored_as_ok; [eassumption|]. match goal with He : enclosed _ _ _ _ |- _ => apply (enclosed_ok _ _ _ _ He); assumption end.
    + destruct o; [|constructor]. eapply Ho; reflexivity.
Qed.
Lemma updates_good how name m tb tb' errors cs : updates how name m tb tb' errors ->
  (forall n m, tb n = Some m -> ok (meaning_code m)) -> ok (meaning_code m) -> good (mk_state tb' cs).
Proof.
  intros H Ht Hm. unfold good. cbn [names]. assert (forall n m0, bind_name name m tb n = Some m0 -> ok (meaning_code m0)) as Hb.
  { intros n m0. unfold bind_name. destruct (teqb n name); [now intros [= <-]|apply Ht]. }
  destruct H; assumption.
Qed.
Lemma good_command st name n o b : good st -> names st name = Some (Command n o b) -> ok b /\ forall d, o = Some d -> ok d.
Proof.
  intros Hg H. specialize (Hg _ _ H). cbn in Hg. apply Forall_app in Hg as [H1 H2]. split; [exact H1|]. now intros d ->.
Qed.
Lemma good_env st name n o b d : good st -> names st name = Some (Environment n o b d) ->
  ok b /\ ok d /\ forall d, o = Some d -> ok d.
Proof.
  intros Hg H. specialize (Hg _ _ H). cbn in Hg. apply Forall_app in Hg as [H1 H2]. apply Forall_app in H2 as [H2 H3].
  split; [exact H1|]. split; [exact H2|]. now intros x ->.
Qed.
Lemma rewrites_ok st l out st' l' : rewrites st l out st' l' -> good st -> ok l -> good st' /\ ok l'.
Proof.
  intros H Hg Hl. destruct H; inversion Hl; subst; try (split; [exact Hg|assumption]).
  - (* define *) destruct (definition_ok _ _ _ _ H1) as [Hr Hm]; [assumption|]. split; [|exact Hr].
    eapply updates_good; [eassumption|exact Hg|]. eapply Hm; reflexivity.
  - split; [exact Hg|]. eapply definition_ok; eassumption.
  - destruct (args_ok _ _ _ _ _ H1) as [Ha Hr]; [assumption|]. destruct (good_command _ _ _ _ _ Hg H0) as [Hb Ho].
    split; [exact Hg|]. apply Forall_app. split; [|exact Hr].
    eapply instance_ok; [eassumption| |exact Hb]. eapply supplied_ok; eassumption.
  - destruct (args_ok _ _ _ _ _ H1) as [Ha Hr]; [assumption|]. auto.
  - destruct (args_ok _ _ _ _ _ H0) as [Ha Hr]; [assumption|]. destruct (good_env _ _ _ _ _ _ Hg H) as (Hb & Hd & Ho).
    destruct (upto_ok _ _ _ _ _ H2 Hr) as [Hu1 Hu2]. inversion Hu2; subst.
    assert (Forall ok args) by (eapply supplied_ok; eassumption).
    split; [exact Hg|]. repeat (apply Forall_app; split); try assumption; eapply instance_ok; eassumption.
  - destruct (args_ok _ _ _ _ _ H0) as [Ha Hr]; [assumption|]. auto.
  - split; [exact Hg|constructor].
  - destruct (args_ok _ _ _ _ _ H0) as [Ha Hr]; [assumption|]. split; [exact Hg|]. eapply upto_ok; eassumption.
  - split; [exact Hg|]. destruct skip; [|subst rest; assumption]. destruct H2 as [a Hu]. eapply upto_ok; eassumption.
Qed.
Lemma steps_ok st l out st' l' : steps st l out st' l' -> good st -> ok l -> good st' /\ ok l'.
Proof.
  induction 1 as [st l|st l out st1 l1 out' st2 l2 H Hs IH]; intros Hg Hl; [auto|].
  destruct (rewrites_ok _ _ _ _ _ H Hg Hl). auto.
Qed.
Lemma initial_good : good initial.
Proof.
  intros name m H. unfold initial, initial_names in H. cbn [names] in H.
  destruct (find _ command_definers) as [[? ?]|]; [injection H as <-; constructor|].
  destruct (find _ environment_definers) as [[? ?]|]; [injection H as <-; constructor|].
  destruct (existsb _ _); [injection H as <-; constructor|discriminate].
Qed.

(** ** Progress *)
Lemma instance_ex args l : ok l -> (exists out, instance args l out) /\ forall d, exists out, verbatim args d l out.
Proof.
  induction 1 as [|t r Ht Hr [[out H1] H2]]; [split; [|intros d]; eexists; constructor|]. split.
  - destruct t as [k x]. destruct (token_eq_dec k (CommandName Generic)) as [->|Hg].
    { destruct Ht as [name E]. cbn in E. subst x. change (CommandName Generic, 92 :: name) with (cmd name).
      destruct (teqbP name (tx "mitexrecurse")) as [->|Hn].
      - destruct (H2 0%Z) as [o Ho]. exists o. eapply in_recurse; exact Ho.
      - eexists. eapply in_command; eassumption. }
    destruct k as [| | | | | | | | | | | | | | | | | | | |cn| |i];
      try (eexists; eapply in_tok; [intros ?; discriminate|cbn; congruence|exact H1]).
    eexists. eapply in_param; [exact Ht|exact H1].
  - intros d. destruct (token_eq_dec (fst t) (TLeft Curly)) as [Hl|Hl].
    { destruct (H2 (d + 1)%Z) as [o Ho]. destruct (Z.le_gt_cases d 0) as [Hd|Hd]; eexists;
        [eapply vb_open_dropped|eapply vb_open]; eassumption. }
    destruct (token_eq_dec (fst t) (TRight Curly)) as [Hrr|Hrr].
    { destruct (Z.eq_dec d 1) as [->|Hd]; [eexists; eapply vb_close_dropped; eassumption|].
      destruct (H2 (d - 1)%Z) as [o Ho]. eexists. eapply vb_close; eassumption. }
    assert (~ is_curly t) as Hc by (unfold is_curly; tauto).
    destruct (H2 d) as [o Ho]. destruct (Z.eq_dec d 0) as [->|Hd]; [|eexists; eapply vb_inside; eassumption].
    destruct (is_trivia (fst t)) eqn:Et; eexists; [eapply vb_blank|eapply vb_single]; eassumption.
Qed.
Lemma rewrites_or st t l : good st -> ok (t :: l) ->
  (exists out st' l', rewrites st (t :: l) out st' l') \/
  (exists dn env how, t = cmd dn /\ names st dn = Some (Definer env how) /\ refuses env l).
Proof.
  intros Hg Hok. inversion Hok as [|? ? Ht Hl]; subst.
  destruct (conditional_dec t) as [[[i Hi]|[He|Hf]]|Hc].
  - left. do 3 eexists. eapply rw_if; exact Hi.
  - left. destruct (conds st) as [|b bs] eqn:Ec.
    { do 3 eexists. apply rw_else_copy; [exact He|]. now rewrite Ec. }
    destruct (skipped_ex l) as [rest Hr]. apply skipped_iff in Hr.
    destruct b.
    + do 3 eexists. apply rw_else_copy; [exact He|]. now rewrite Ec.
    + do 3 eexists. eapply rw_else; [exact He|exact Ec|constructor|reflexivity].
    + do 3 eexists. eapply rw_else; [exact He|exact Ec|constructor|exact Hr].
    + do 3 eexists. eapply rw_else; [exact He|exact Ec|constructor|reflexivity].
    + do 3 eexists. eapply rw_else; [exact He|exact Ec|constructor|exact Hr].
    + do 3 eexists. eapply rw_else; [exact He|exact Ec|constructor|reflexivity].
  - left. destruct (conds st) as [|b bs] eqn:Ec; do 3 eexists; [apply rw_fi_copy|eapply rw_fi]; eassumption.
  - destruct (token_eq_dec (fst t) (CommandName Generic)) as [Hgen|Hgen].
    + destruct t as [k s]. cbn in Hgen. subst k. destruct Ht as [name E]. cbn in E. subst s.
      assert (92 < 128) as Hlt by reflexivity.
      destruct (names st name) as [[env how| |n o b|n o b d]|] eqn:En.
      * destruct (definition_or env l) as [(d & rest & Hd)|Hr]; [|right; exists name, env, how; auto].
        left. destruct d as [[nm m]|]; [|do 3 eexists; eapply rw_define_nothing; eassumption].
        assert (exists tb errors, updates how nm m (names st) tb errors) as (tb & errors & Hu).
        { destruct (names st nm) as [m0|] eqn:Em; destruct how.
          - do 2 eexists. apply up_error. left. split; congruence.
          - do 2 eexists. apply up_ok. right. left. split; congruence.
          - do 2 eexists. apply up_provided; congruence.
          - do 2 eexists. apply up_ok. left. split; congruence.
          - do 2 eexists. apply up_error. right. split; congruence.
          - do 2 eexists. apply up_ok. right. right. split; congruence. }
        do 3 eexists. eapply rw_define; eassumption.
      * left. do 3 eexists. apply rw_command; [assumption|]. now rewrite En.
      * left. destruct (good_command _ _ _ _ _ Hg En) as [Hb Ho].
        destruct (args_total n l) as (found & m & rest & Har). destruct (supplied_total o found m) as [[args|] Hs].
        -- destruct (instance_ex args b Hb) as [[out Hi] _]. do 3 eexists. eapply rw_call; eassumption.
        -- do 3 eexists. eapply rw_call_short; eassumption.
      * left. do 3 eexists. apply rw_command; [assumption|]. now rewrite En.
      * left. do 3 eexists. apply rw_command; [assumption|]. now rewrite En.
    + left. destruct (token_eq_dec (fst t) (CommandName BeginEnvironment)) as [Hb|Hb].
      2:{ do 3 eexists. apply rw_copy; [assumption|assumption|congruence]. }
      destruct t as [k name]. cbn in Hb. subst k.
      destruct (names st name) as [[env how| |n o b|n o b d]|] eqn:En;
        try solve [do 3 eexists; apply rw_copy; [assumption|assumption|]; cbn [snd]; rewrite En; intros _ []].
      destruct (good_env _ _ _ _ _ _ Hg En) as (Hbb & Hd & Ho). change (CommandName BeginEnvironment, name) with (begin_ name).
      destruct (args_total n l) as (found & m & rest & Har). destruct (supplied_total o found m) as [[args|] Hs].
      2:{ do 3 eexists. eapply rw_env_short; eassumption. }
      destruct (scan env_weight stop_end 0 rest) as [body r] eqn:Er.
      pose proof (proj2 (upto_scan _ _ _ stop_end_iff _ _ _) Er) as Hu.
      destruct r as [|y r']; [do 3 eexists; eapply rw_env_open; eassumption|].
      destruct (teqbP (snd y) name) as [Hy|Hy]; [|do 3 eexists; eapply rw_env_crossed; eassumption].
      destruct (instance_ex args b Hbb) as [[bout Hbo] _]. destruct (instance_ex args d Hd) as [[dout Hdo] _].
      do 3 eexists. eapply rw_env; eassumption.
Qed.
Lemma stuck_iff st l : good st -> ok l ->
  (gets_stuck st l <-> exists out st' dn env how l', steps st l out st' (cmd dn :: l') /\
     names st' dn = Some (Definer env how) /\ refuses env l').
Proof.
  intros Hg Hl. split.
  - intros (out & st' & l' & Hs & Hn & Hno). destruct l' as [|t l']; [congruence|].
    destruct (steps_ok _ _ _ _ _ Hs Hg Hl) as [Hg' Hl'].
    destruct (rewrites_or st' t l' Hg' Hl') as [(o & s & r & H)|(dn & env & how & -> & H)]; [destruct (Hno _ _ _ H)|].
    exists out, st', dn, env, how, l'. auto.
  - intros (out & st' & dn & env & how & l' & Hs & Hd & Hr). exists out, st', (cmd dn :: l').
    split; [exact Hs|]. split; [discriminate|]. intros o2 s2 l2 H. unfold cmd in H. inversion H; subst.
    + match goal with H : fst _ <> CommandName Generic |- _ => now apply H end.
    + match goal with H : match names _ dn with _ => _ end |- _ => rewrite Hd in H; exact H end.
    + match goal with H : names _ dn = Some (Definer _ ?h), K : definition _ _ _ _ |- _ => rewrite Hd in H; injection H as E1 E2; subst end.
      eapply refuses_nothing; eassumption.
    + match goal with H : names _ dn = Some (Definer _ ?h), K : definition _ _ _ _ |- _ => rewrite Hd in H; injection H as E1 E2; subst end.
      eapply refuses_nothing; eassumption.
    + congruence.
    + congruence.
    + match goal with H : if_ _ _ |- _ => discriminate H end.
    + match goal with H : else_ _ |- _ => discriminate H end.
    + match goal with H : else_ _ |- _ => discriminate H end.
    + match goal with H : fi_ _ |- _ => discriminate H end.
    + match goal with H : fi_ _ |- _ => discriminate H end.
Qed.
