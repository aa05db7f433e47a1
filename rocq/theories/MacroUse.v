(** Forwarding, conditionals, substitution, definitions: what each construct
    does to the stream. *)
From Verif Require Export MacroSteps.
Local Open Scope N_scope.

Lemma split_backslash name : split_bytes 1 (92 :: name) = Some ([92], name).
Proof. destruct name; reflexivity. Qed.
Lemma step_cmd e c name : step e c (cmd name) = trapped_by_macro e c (cmd name) name false.
Proof. unfold step, cmd. cbn [fst snd]. now rewrite split_backslash. Qed.
Lemma inert_resumes e t s : inert e t -> quiet s -> resumes e (SCons t s) [t] e s.
Proof.
  intros Hi Hq. eapply resumes_step; [|symmetry; apply flat_at_front].
  assert (Hf : (let* c := next_token (mk_ictx (Some t) s) in Ok (e, c, [t])) = Ok (e, at_front s, [t])).
  { rewrite next_token_front by assumption. reflexivity. }
  unfold step, inert in *. destruct (fst t) eqn:E; try exact Hf. destruct c; try exact Hf; try contradiction.
  - destruct Hi as (name & -> & Hm). unfold cmd in *. cbn [snd]. rewrite split_backslash.
    unfold trapped_by_macro.
    destruct (get_macro name e) as [m|]; [|exact Hf].
    destruct m as [d|c|v]; simpl; [|contradiction|exact Hf]. destruct d; try contradiction; exact Hf.
  - unfold trapped_by_macro. destruct (get_macro (snd t) e) as [m|]; [|exact Hf].
    destruct m; simpl; [exact Hf|exact Hf|contradiction].
Qed.
Lemma inert_all e l s : Forall (inert e) l -> quiet s -> resumes e (push_front l s) l e s.
Proof.
  intros H Hq. induction H as [|t l Ht Hl IH]; [apply resumes_refl|].
  change (t :: l) with ([t] ++ l) at 2. eapply resumes_trans; [|exact IH]. simpl.
  apply inert_resumes; auto.
Qed.

(** ** Conditionals *)
Definition with_ifs (e : engine) (l : list (option if_state)) : engine := mk_engine (en_macros e) l.
Lemma skip_quiet b : skippable b -> forall n s,
  skip_false n (push_front b s) = skip_false n s.
Proof.
  induction 1 as [|t l Ht Hl IH|i x a y b Hx Hy Ha IHa Hb IHb]; intros n s; simpl; [reflexivity|..].
  - rewrite <- (IH n s). destruct (fst t) eqn:E; try reflexivity.
    destruct c; try reflexivity; exfalso; apply Ht; unfold conditional, if_, else_, fi_; rewrite E; eauto.
  - rewrite Hx, push_app, IHa. simpl. rewrite Hy. apply IHb.
Qed.
Lemma skip_to b z s : skippable b -> else_ z \/ fi_ z ->
  skip_false_tokens (at_front (push_front (b ++ [z]) s)) = Ok (mk_ictx (Some z) s).
Proof.
  intros Hb Hz.
  assert (Hs : skip_false 0 (push_front (b ++ [z]) s) = Ok (mk_ictx (Some z) s)).
  { rewrite push_app, skip_quiet by assumption. simpl. unfold else_, fi_ in Hz.
    destruct Hz as [-> | ->]; reflexivity. }
  unfold skip_false_tokens. rewrite flat_at_front.
  destruct (push_front (b ++ [z]) s) as [|e|t r] eqn:E; simpl; [|contradict E|exact Hs].
  - exfalso. destruct b; discriminate E.
  - destruct b; discriminate.
Qed.

Lemma get_macro_ifs name e l : get_macro name (with_ifs e l) = get_macro name e.
Proof. reflexivity. Qed.
Lemma inert_ifs e l t : inert e t -> inert (with_ifs e l) t.
Proof. intros H. exact H. Qed.

Lemma if_step e x s i : if_ i x -> quiet s ->
  resumes e (SCons x s)
    (match i with IfTrue => [] | _ => [x] end)
    (with_ifs e (match i with IfFalse => Some LitFalse | IfTrue => Some StTrue
                         | IfTypst => Some TypstTrue | _ => None end :: en_ifs e)) s.
Proof.
  intros Hx Hq. eapply resumes_step with (c' := at_front s); [|symmetry; apply flat_at_front].
  unfold step. rewrite Hx. unfold trapped_by_if. rewrite next_token_front by assumption. simpl.
  destruct i; reflexivity.
Qed.
Lemma fi_step e z s st l : fi_ z -> quiet s -> en_ifs e = st :: l ->
  resumes e (SCons z s) (match st with Some StTrue | Some StFalse => [] | _ => [z] end) (with_ifs e l) s.
Proof.
  intros Hz Hq He. eapply resumes_step with (c' := at_front s); [|symmetry; apply flat_at_front].
  unfold step. rewrite Hz. unfold trapped_by_endif. rewrite next_token_front by assumption. simpl.
  rewrite He. destruct st as [[]|]; reflexivity.
Qed.
Lemma else_step_keep e y s st l : else_ y -> quiet s -> en_ifs e = st :: l ->
  st = None \/ st = Some LitFalse ->
  resumes e (SCons y s) (match st with None => [y] | _ => [fi_tok] end)
    (match st with None => e | _ => with_ifs e (Some StTrue :: l) end) s.
Proof.
  intros Hy Hq He Hst. eapply resumes_step with (c' := at_front s); [|symmetry; apply flat_at_front].
  unfold step. rewrite Hy. unfold trapped_by_else. rewrite next_token_front by assumption. simpl.
  rewrite He. destruct Hst as [-> | ->]; reflexivity.
Qed.
(** the [\else] of a taken branch: the other branch up to [\fi] disappears *)
Lemma else_step_skip e y b z s st l : else_ y -> fi_ z -> skippable b -> quiet s -> en_ifs e = Some st :: l ->
  st = StTrue \/ st = TypstTrue ->
  resumes e (SCons y (push_front (b ++ [z]) s)) []
    (with_ifs e (Some (match st with StTrue => StFalse | _ => TypstFalse end) :: l)) (SCons z s).
Proof.
  intros Hy Hz Hb Hq He Hst. eapply resumes_step with (c' := mk_ictx (Some z) s); [|reflexivity].
  unfold step. rewrite Hy. unfold trapped_by_else.
  rewrite next_token_front by (apply quiet_push; exact Hq). cbn [bind]. rewrite He.
  destruct Hst as [-> | ->]; rewrite skip_to by (auto; now right); reflexivity.
Qed.

Lemma with_ifs_same e : with_ifs e (en_ifs e) = e.
Proof. now destruct e. Qed.
Lemma with_ifs_twice e l l' : with_ifs (with_ifs e l) l' = with_ifs e l'.
Proof. reflexivity. Qed.

Lemma selects_resumes e a a' : selects e a a' -> forall l s, quiet s ->
  resumes (with_ifs e l) (push_front a s) a' (with_ifs e l) s.
Proof.
  induction 1; intros k s Hq.
  - apply resumes_refl.
  - change (t :: l') with ([t] ++ l'). eapply resumes_trans; [|apply IHselects; exact Hq].
    simpl. apply inert_resumes; auto.
  - simpl. rewrite push_app. simpl.
    change (a' ++ r') with ([] ++ a' ++ [] ++ r').
    eapply resumes_trans; [apply (if_step _ x _ IfTrue); [assumption|auto]|]. rewrite with_ifs_twice. simpl en_ifs.
    eapply resumes_trans; [apply IHselects1; simpl; auto|].
    eapply resumes_trans; [apply (fi_step _ z _ (Some StTrue) k); auto|].
    rewrite with_ifs_twice. apply IHselects2. exact Hq.
  - change (a' ++ r') with ([] ++ a' ++ [] ++ [] ++ r').
    replace (push_front (x :: a ++ y :: b ++ z :: r) s)
      with (SCons x (push_front a (SCons y (push_front (b ++ [z]) (push_front r s)))))
      by (simpl; rewrite !push_app; simpl; rewrite !push_app; reflexivity).
    eapply resumes_trans; [apply (if_step _ x _ IfTrue); [assumption|auto]|]. rewrite with_ifs_twice. simpl en_ifs.
    eapply resumes_trans; [apply IHselects1; simpl; auto|].
    eapply resumes_trans; [apply (else_step_skip _ y b z _ StTrue k); auto|]. rewrite with_ifs_twice.
    eapply resumes_trans; [apply (fi_step _ z _ (Some StFalse) k); auto|].
    rewrite with_ifs_twice. apply IHselects2. exact Hq.
  - simpl. rewrite push_app. simpl.
    change (x :: a' ++ z :: r') with ([x] ++ a' ++ [z] ++ r').
    eapply resumes_trans; [apply (if_step _ x _ IfFalse); [assumption|auto]|]. rewrite with_ifs_twice. simpl en_ifs.
    eapply resumes_trans; [apply IHselects1; simpl; auto|].
    eapply resumes_trans; [apply (fi_step _ z _ (Some LitFalse) k); auto|].
    rewrite with_ifs_twice. apply IHselects2. exact Hq.
  - change (x :: a' ++ fi_tok :: b' ++ r') with ([x] ++ a' ++ [fi_tok] ++ b' ++ [] ++ r').
    replace (push_front (x :: a ++ y :: b ++ z :: r) s)
      with (SCons x (push_front a (SCons y (push_front b (SCons z (push_front r s))))))
      by (simpl; rewrite !push_app; simpl; rewrite !push_app; reflexivity).
    eapply resumes_trans; [apply (if_step _ x _ IfFalse); [assumption|auto]|]. rewrite with_ifs_twice. simpl en_ifs.
    eapply resumes_trans; [apply IHselects1; simpl; auto|].
    eapply resumes_trans; [apply (else_step_keep _ y _ (Some LitFalse) k); simpl; auto|]. cbv beta iota. rewrite with_ifs_twice.
    eapply resumes_trans; [apply IHselects2; simpl; auto|].
    eapply resumes_trans; [apply (fi_step _ z _ (Some StTrue) k); auto|].
    rewrite with_ifs_twice. apply IHselects3. exact Hq.
  - simpl. rewrite push_app. simpl.
    change (x :: a' ++ z :: r') with ([x] ++ a' ++ [z] ++ r').
    eapply resumes_trans; [apply (if_step _ x _ IfTypst); [assumption|auto]|]. rewrite with_ifs_twice. simpl en_ifs.
    eapply resumes_trans; [apply IHselects1; simpl; auto|].
    eapply resumes_trans; [apply (fi_step _ z _ (Some TypstTrue) k); auto|].
    rewrite with_ifs_twice. apply IHselects2. exact Hq.
  - change (x :: a' ++ z :: r') with ([x] ++ a' ++ [] ++ [z] ++ r').
    replace (push_front (x :: a ++ y :: b ++ z :: r) s)
      with (SCons x (push_front a (SCons y (push_front (b ++ [z]) (push_front r s)))))
      by (simpl; rewrite !push_app; simpl; rewrite !push_app; reflexivity).
    eapply resumes_trans; [apply (if_step _ x _ IfTypst); [assumption|auto]|]. rewrite with_ifs_twice. simpl en_ifs.
    eapply resumes_trans; [apply IHselects1; simpl; auto|].
    eapply resumes_trans; [apply (else_step_skip _ y b z _ TypstTrue k); auto|]. rewrite with_ifs_twice.
    eapply resumes_trans; [apply (fi_step _ z _ (Some TypstFalse) k); auto|].
    rewrite with_ifs_twice. apply IHselects2. exact Hq.
  - simpl. rewrite push_app. simpl.
    change (x :: a' ++ z :: r') with ([x] ++ a' ++ [z] ++ r').
    eapply resumes_trans.
    { pose proof (if_step (with_ifs e k) x (push_front a (SCons z (push_front r s))) i ltac:(assumption) ltac:(auto)) as Hs.
      destruct i; try discriminate; exact Hs. }
    assert (Hi : match i with IfFalse => Some LitFalse | IfTrue => Some StTrue
                         | IfTypst => Some TypstTrue | _ => None end = None) by (destruct i; try discriminate; reflexivity).
    rewrite with_ifs_twice. simpl en_ifs.
    eapply resumes_trans; [apply IHselects1; simpl; auto|].
    eapply resumes_trans; [apply (fi_step _ z _ None k); auto|].
    rewrite with_ifs_twice. apply IHselects2. exact Hq.
  - change (x :: a' ++ y :: b' ++ z :: r') with ([x] ++ a' ++ [y] ++ b' ++ [z] ++ r').
    replace (push_front (x :: a ++ y :: b ++ z :: r) s)
      with (SCons x (push_front a (SCons y (push_front b (SCons z (push_front r s))))))
      by (simpl; rewrite !push_app; simpl; rewrite !push_app; reflexivity).
    eapply resumes_trans.
    { match goal with |- resumes _ (SCons x ?S0) _ _ _ =>
      pose proof (if_step (with_ifs e k) x S0 i ltac:(assumption) ltac:(auto)) as Hs end.
      destruct i; try discriminate; exact Hs. }
    rewrite with_ifs_twice. simpl en_ifs.
    eapply resumes_trans; [apply IHselects1; simpl; auto|].
    eapply resumes_trans; [apply (else_step_keep _ y _ None k); simpl; auto|]. cbv beta iota.
    eapply resumes_trans; [apply IHselects2; simpl; auto|].
    eapply resumes_trans; [apply (fi_step _ z _ None k); auto|].
    rewrite with_ifs_twice. apply IHselects3. exact Hq.
Qed.

(** ** Parameter markers *)
Definition has_word (t : tok) : Prop := t <> (Word, []).
Lemma nonempty_word_true t : has_word t -> nonempty_word t = true.
Proof. destruct t as [[] []]; simpl; try reflexivity. intros H. now contradiction H. Qed.
Lemma digit_test c : is_ascii_digit c && negb (c =? 48) = true <-> parameter_digit c.
Proof.
  unfold is_ascii_digit, parameter_digit. rewrite !andb_true_iff, negb_true_iff, N.eqb_neq, !N.leb_le. lia.
Qed.
Lemma process_hash_spec n : forall l, (List.length l <= n)%nat ->
  match process_hashes l with
  | Ok (d, b) => Forall has_word l -> marked l (filter nonempty_word d) /\
                   (b = false -> filter nonempty_word d = d) /\ (forall h l', l <> l' ++ [(Hash, h)])
  | Panic _ => exists h l', l = l' ++ [(Hash, h)]
  | Fuel => False
  end.
Proof.
  induction n as [|n IH]; intros l Hn.
  { destruct l; [|simpl in Hn; lia]. simpl. intros _. repeat split; [constructor|].
    intros h l' E. destruct l'; discriminate. }
  destruct l as [|[k w] r].
  { simpl. intros _. repeat split; [constructor|]. intros h l' E. destruct l'; discriminate. }
  simpl in Hn.
  assert (Hother : k <> Hash ->
    match (let* (r', b) := process_hashes r in Ok ((k, w) :: r', b)) with
    | Ok (d, b) => Forall has_word ((k, w) :: r) -> marked ((k, w) :: r) (filter nonempty_word d) /\
                   (b = false -> filter nonempty_word d = d) /\ (forall h l', (k, w) :: r <> l' ++ [(Hash, h)])
    | Panic _ => exists h l', (k, w) :: r = l' ++ [(Hash, h)]
    | Fuel => False
    end).
  { intros Hk. specialize (IH r ltac:(lia)). destruct (process_hashes r) as [[d b]|?|]; cbn [bind]; auto.
    - intros HF. inversion HF as [|? ? Hw HF']; subst. destruct (IH HF') as (Hm & Hb & Hl).
      cbn [filter].
      rewrite (nonempty_word_true (k, w) Hw). split; [constructor; auto|]. split; [intros E; f_equal; auto|].
      intros h [|x l'] E; [injection E as -> ->; congruence|]. injection E as _ E. eapply Hl; eauto.
    - destruct IH as (h & l' & ->). now exists h, ((k, w) :: l'). }
  destruct k; try (apply Hother; discriminate).
  clear Hother. cbn [process_hashes].
  destruct r as [|t r2].
  { simpl. now exists w, []. }
  assert (Hkeep : ~ digit_word t ->
    match (let* (r', b) := process_hashes (t :: r2) in Ok ((Hash, w) :: r', b)) with
    | Ok (d, b) => Forall has_word ((Hash, w) :: t :: r2) -> marked ((Hash, w) :: t :: r2) (filter nonempty_word d) /\
                   (b = false -> filter nonempty_word d = d) /\
                   (forall h l', (Hash, w) :: t :: r2 <> l' ++ [(Hash, h)])
    | Panic _ => exists h l', (Hash, w) :: t :: r2 = l' ++ [(Hash, h)]
    | Fuel => False
    end).
  { intros Hd. specialize (IH (t :: r2) ltac:(simpl in *; lia)).
    destruct (process_hashes (t :: r2)) as [[d b]|?|]; cbn [bind]; auto.
    - intros HF. inversion HF as [|? ? Hw HF']; subst. destruct (IH HF') as (Hm & Hb & Hl).
      simpl. split; [constructor; auto|]. split; [intros E; f_equal; auto|].
      intros h [|x l'] E; [discriminate|]. injection E as _ E. eapply Hl; eauto.
    - destruct IH as (h & l' & ->). now exists h, ((Hash, w) :: l'). }
  destruct t as [k2 w2].
  destruct (token_eq_dec k2 Word) as [->|Hk2].
  2: { destruct k2; try congruence; apply Hkeep; intros (? & ? & E & _); congruence. }
  destruct w2 as [|c w2]; [apply Hkeep; intros (? & ? & E & _); congruence|].
  destruct (is_ascii_digit c && negb (c =? 48)) eqn:Ed.
  2: { apply Hkeep. intros (c' & w' & E & Hd). injection E as <- <-. apply digit_test in Hd. congruence. }
  apply digit_test in Ed. specialize (IH r2 ltac:(simpl in *; lia)).
  destruct (process_hashes r2) as [[d b]|?|]; cbn [bind]; auto.
  - intros HF. inversion HF as [|? ? Hw HF']; subst. inversion HF' as [|? ? _ HF2]; subst.
    destruct (IH HF2) as (Hm & Hb & Hl). split; [|split].
    + simpl. destruct w2; simpl.
      * apply (m_param w c [] r2 _ Ed Hm).
      * apply (m_param w c (_ :: _) r2 _ Ed Hm).
    + intros E. apply orb_false_iff in E as [E1 E2]. destruct w2; [discriminate|]. simpl. rewrite Hb; auto.
    + intros h [|x [|y l']] E; [discriminate|discriminate|]. injection E as _ _ E. eapply Hl; eauto.
  - destruct IH as (h & l' & ->). now exists h, ((Hash, w) :: (Word, c :: w2) :: l').
Qed.

Lemma process_macro_def_spec l : Forall has_word l ->
  match process_macro_def l with
  | Ok d => marked l d /\ (forall h l', l <> l' ++ [(Hash, h)])
  | Panic _ => exists h l', l = l' ++ [(Hash, h)]
  | Fuel => False
  end.
Proof.
  intros HF. unfold process_macro_def. pose proof (process_hash_spec _ l (le_n _)) as H.
  destruct (process_hashes l) as [[d b]|?|]; simpl; auto.
  destruct (H HF) as (Hm & Hb & Hl). split; [|exact Hl].
  destruct b; [exact Hm|]. now rewrite <- Hb.
Qed.
Lemma marked_functional l a : marked l a -> forall b, marked l b -> a = b.
Proof.
  induction 1 as [|h c w r r' Hc Hm IH|h t r r' Hd Hm IH|t r r' Hk Hm IH]; intros b Hb; inversion Hb; subst; try reflexivity.
  - f_equal. f_equal. auto.
  - exfalso. match goal with H : ~ digit_word _ |- _ => apply H end. now exists c, w.
  - simpl in *. congruence.
  - exfalso. apply Hd. now exists c, w.
  - f_equal. auto.
  - simpl in *. congruence.
  - simpl in *. congruence.
  - simpl in *. congruence.
  - f_equal. auto.
Qed.

(** ** Substitution *)
(** bodies without the [\mitexrecurse] escape, as stored by definitions *)
Definition simple_body_tok (t : tok) : Prop :=
  match fst t with
  | MacroArg i => 0 < i
  | CommandName Generic => exists name, t = cmd name /\ name <> tx "mitexrecurse"
  | _ => True
  end.
Lemma nth_error_nth_nil (args : list (list tok)) i :
  match nth_error args i with Some a => a | None => [] end = nth i args [].
Proof. revert i. induction args as [|a args IH]; intros [|i]; simpl; auto. Qed.
Lemma strip_backslash name : strip_prefix (tx "\") (92 :: name) = Some name.
Proof. reflexivity. Qed.
Lemma expand_subst args body : Forall simple_body_tok body ->
  expand_tokens args body = Ok (subst args body).
Proof.
  unfold expand_tokens. induction 1 as [|t l Ht Hl IH]; [reflexivity|].
  cbn [expand_go subst flat_map]. unfold simple_body_tok in Ht.
  change (flat_map _ l) with (subst args l).
  destruct (fst t) eqn:E; try (rewrite IH; reflexivity).
  - destruct c; try (rewrite IH; reflexivity).
    destruct Ht as (name & -> & Hn). unfold cmd. cbn [snd]. rewrite strip_backslash.
    rewrite (proj2 (teqb_neq _ _) Hn). rewrite IH. reflexivity.
  - destruct (n =? 0) eqn:En; [apply N.eqb_eq in En; lia|]. rewrite IH. simpl. now rewrite nth_error_nth_nil.
Qed.

(** ** Arguments *)
Lemma split_word_all c cs v : split_word (List.length (c :: cs)) ((c :: cs) ++ v) =
  (map (fun c => [(Word, [c])]) (c :: cs), v).
Proof.
  revert c. induction cs as [|c' cs IH]; intros c.
  - simpl. destruct v; reflexivity.
  - specialize (IH c'). cbn [List.length app split_word] in *. now rewrite IH.
Qed.
Lemma peek_front w t s : trivia w -> is_trivia (fst t) = false ->
  peek_not_trivia (at_front (push_front (w ++ [t]) s)) = Ok (mk_ictx (Some t) s).
Proof.
  intros Hw Ht. unfold peek_not_trivia. rewrite flat_at_front, push_app. now apply find_trivia.
Qed.
Lemma read_args_call src args lo : call_args src args lo -> args <> [] -> forall fuel s,
  quiet s -> (List.length args <= fuel)%nat ->
  read_args_loop fuel (List.length args) (at_front (push_front src s)) =
    Ok (at_front (push_front lo s), args, 0%nat).
Proof.
  induction 1 as [|w c cs v Hw|w x a y l args lo Hw Hx Hy Ha Hl IH|w t l args lo Hw Ht Hb Hk Hl IH];
    intros Hne fuel s Hq Hf; [congruence|..]; clear Hne.
  - destruct fuel as [|fuel]; [simpl in Hf; lia|]. cbn [read_args_loop]. rewrite peek_front by auto.
    cbn [bind ic_peeked]. rewrite map_length, split_word_all. cbv beta iota.
    rewrite map_length, Nat.sub_diag. destruct v as [|c' v].
    + rewrite next_token_front by assumption. reflexivity.
    + reflexivity.
  - destruct fuel as [|fuel]; [simpl in Hf; lia|]. cbn [read_args_loop].
    replace (push_front (w ++ x :: a ++ y :: l) s) with
      (push_front (w ++ [x]) (push_front a (SCons y (push_front l s))))
      by (pushes; reflexivity).
    rewrite peek_front by (auto; now rewrite Hx). cbn [bind ic_peeked].
    destruct x as [kx sx]. simpl in Hx. subst kx.
    rewrite next_token_front by auto. cbn [bind].
    rewrite read_group by auto. cbn [bind List.length]. rewrite Nat.sub_succ, Nat.sub_0_r.
    destruct args as [|a2 args]; cbn [List.length].
    + inversion Hl; subst. reflexivity.
    + change (S (List.length args)) with (List.length (a2 :: args)).
      rewrite IH by (auto; try discriminate; simpl in *; lia). reflexivity.
  - destruct fuel as [|fuel]; [simpl in Hf; lia|]. cbn [read_args_loop].
    replace (push_front (w ++ t :: l) s) with (push_front (w ++ [t]) (push_front l s))
      by (rewrite <- !push_app, <- !app_assoc; reflexivity).
    rewrite peek_front by auto. cbn [bind ic_peeked].
    assert (Hgo : (let* c := next_token (mk_ictx (Some t) (push_front l s)) in
       match List.length ([t] :: args) - 1 with
          | O => Ok (c, [[t]], O)
          | S n => let* (c, args', lft') := read_args_loop fuel (S n) c in Ok (c, [[t]] ++ args', lft')
          end%nat) = Ok (at_front (push_front lo s), [t] :: args, 0%nat)).
    { rewrite next_token_front by auto. cbn [bind List.length]. rewrite Nat.sub_succ, Nat.sub_0_r.
      destruct args as [|a2 args]; cbn [List.length].
      + inversion Hl; subst. reflexivity.
      + change (S (List.length args)) with (List.length (a2 :: args)).
        rewrite IH by (auto; try discriminate; simpl in *; lia). reflexivity. }
    destruct t as [k wt]. cbn [fst] in *.
    destruct k; try exact Hgo; [|congruence]. destruct b; try exact Hgo. congruence.
Qed.
Lemma read_macro_args_call src args lo s opt : call_args src args lo -> quiet s ->
  read_macro_args (at_front (push_front src s)) (N.of_nat (List.length args)) opt =
    Ok (at_front (push_front lo s), [], Some args).
Proof.
  intros H Hq. unfold read_macro_args. rewrite Nat2N.id.
  destruct args as [|a args].
  - inversion H; subst. reflexivity.
  - replace (N.of_nat (List.length (a :: args)) =? 0) with false
      by (symmetry; apply N.eqb_neq; simpl; lia).
    rewrite (read_args_call _ _ _ H) by (auto; discriminate). reflexivity.
Qed.
Lemma resume_with_front ts s : quiet s -> resume_with ts (at_front s) = Ok (at_front (push_front ts s)).
Proof.
  intros Hq. unfold resume_with, extend_inner. destruct s as [|err|t r]; simpl; [..|contradiction|].
  - rewrite next_token_front by (apply quiet_push; exact I). reflexivity.
  - destruct ts as [|t' ts]; reflexivity.
Qed.

Lemma call_resumes e name n opt body def src args lo s :
  get_macro name e = Some (MCmd (mk_cmdm def n opt body)) ->
  Forall simple_body_tok body -> call_args src args lo -> n = N.of_nat (List.length args) -> quiet s ->
  resumes e (SCons (cmd name) (push_front src s)) [] e (push_front (subst args body ++ lo) s).
Proof.
  intros Hm Hb Hc -> Hq. eapply resumes_step; [|symmetry; apply flat_at_front].
  rewrite step_cmd. unfold trapped_by_macro. rewrite Hm. cbn [negb Bool.eqb cm_num cm_opt cm_def].
  rewrite next_token_front by auto. cbn [bind]. rewrite (read_macro_args_call _ _ _ _ _ Hc Hq). cbn [bind].
  rewrite expand_subst by assumption. cbn [bind]. rewrite resume_with_front by auto. cbn [bind].
  now rewrite push_app.
Qed.

(** ** Environments *)
Lemma env_body_nested body : nested_envs body -> forall name bc s,
  env_body_go name bc (push_front body s) =
    let* (c, out, b) := env_body_go name bc s in Ok (c, out, option_map (app body) b).
Proof.
  induction 1 as [|t l H1 H2 Hl IH|x a y b Hx Hy Ha IHa Hb IHb]; intros name bc s.
  - simpl. destruct (env_body_go name bc s) as [[[? ?] []]|?|]; reflexivity.
  - cbn [push_front fold_right env_body_go]. change (fold_right SCons s l) with (push_front l s).
    assert (Hp : (let* (c, out, b) := env_body_go name bc (push_front l s) in Ok (c, out, option_map (cons t) b))
      = let* (c, out, b) := env_body_go name bc s in Ok (c, out, option_map (app (t :: l)) b)).
    { rewrite IH. destruct (env_body_go name bc s) as [[[? ?] []]|?|]; reflexivity. }
    destruct (fst t) eqn:E; try exact Hp. destruct c; try exact Hp; congruence.
  - cbn [push_front fold_right env_body_go]. change (fold_right SCons s (a ++ y :: b)) with (push_front (a ++ y :: b) s).
    rewrite Hx, push_app, IHa. cbn [push_front fold_right env_body_go].
    change (fold_right SCons s b) with (push_front b s). rewrite Hy, IHb.
    destruct (env_body_go name bc s) as [[[? ?] []]|?|]; cbn [bind option_map]; try reflexivity.
    do 3 f_equal. simpl. f_equal. now rewrite <- app_assoc.
Qed.
Lemma env_resumes e name n opt b d def src args lo body s :
  get_macro name e = Some (MEnv (mk_envm def n opt b d)) ->
  Forall simple_body_tok b -> Forall simple_body_tok d ->
  call_args src args lo -> n = N.of_nat (List.length args) ->
  nested_envs (lo ++ body) -> quiet s ->
  resumes e (SCons (begin_ name) (push_front (src ++ body ++ [end_ def]) s)) [] e
    (push_front (subst args b ++ lo ++ body ++ subst args d) s).
Proof.
  intros Hm Hb Hd Hc -> Hbody Hq. eapply resumes_step; [|symmetry; apply flat_at_front].
  unfold step. cbn [fst snd begin_]. unfold trapped_by_macro. rewrite Hm.
  cbn [negb Bool.eqb em_num em_opt em_begin em_end em_name].
  rewrite next_token_front by auto. cbn [bind]. rewrite push_app.
  rewrite (read_macro_args_call _ _ _ (push_front (body ++ [end_ def]) s) _ Hc) by auto. cbn [bind].
  rewrite <- push_app, app_assoc, push_app.
  unfold read_env_body.
  assert (Hgo : env_body_go def 0 (push_front (lo ++ body) (push_front [end_ def] s)) =
     Ok (at_front s, [], Some (lo ++ body))).
  { rewrite env_body_nested by assumption. simpl. rewrite teqb_refl. simpl.
    rewrite next_token_front by assumption. simpl. now rewrite app_nil_r. }
  assert (exists t r, push_front (lo ++ body) (push_front [end_ def] s) = SCons t r) as (t & r & Et).
  { destruct (lo ++ body); simpl; eauto. }
  rewrite Et in *. cbn [at_front ic_peeked]. change (flat (mk_ictx (Some t) r)) with (SCons t r). rewrite Hgo.
  cbn [bind]. rewrite !expand_subst by assumption. cbn [bind]. rewrite resume_with_front by auto. cbn [bind app].
  rewrite <- !app_assoc. reflexivity.
Qed.
