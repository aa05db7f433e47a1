(** Definition commands. *)
From Verif Require Export MacroUse SnapFacts.
Local Open Scope N_scope.

Lemma next_not_trivia_front w t s p : trivia w -> is_trivia (fst t) = false ->
  next_not_trivia (mk_ictx p (push_front w (SCons t s))) = Ok (mk_ictx (Some t) s).
Proof. intros Hw Ht. unfold next_not_trivia. simpl ic_rest. now apply find_trivia. Qed.
Lemma close_arg_front {A} bk (r : option A) w y s p : trivia w -> fst y = TRight bk -> quiet s ->
  close_arg bk r (mk_ictx p (push_front w (SCons y s))) = Ok (at_front s, r).
Proof.
  intros Hw Hy Hq. unfold close_arg. rewrite next_not_trivia_front by (auto; now rewrite Hy).
  cbn [bind]. unfold ic_peek, eat_if, ic_peek. cbn [ic_peeked option_map]. rewrite Hy, token_eqb_refl.
  rewrite next_token_front by assumption. reflexivity.
Qed.
Lemma trivia_word w : trivia w -> is_trivia Word = false. Proof. reflexivity. Qed.

Lemma match_body_front x body y s : fst x = TLeft Curly -> group body -> fst y = TRight Curly -> quiet s ->
  match_body (mk_ictx (Some x) (push_front body (SCons y s))) = Ok (at_front s, Some body).
Proof.
  intros Hx Hb Hy Hq. unfold match_body. destruct x as [k w]. simpl in Hx. subst k. cbn [ic_peeked].
  rewrite next_token_front by auto. cbn [bind]. rewrite read_group by auto. reflexivity.
Qed.
Lemma parse_digit c : 48 <= c <= 57 -> parse_u8 [c] = Some (c - 48).
Proof.
  intros H. unfold parse_u8. destruct (c =? 43) eqn:E; [apply N.eqb_eq in E; lia|].
  simpl. assert (is_ascii_digit c = true) as ->.
  { unfold is_ascii_digit. apply andb_true_iff. rewrite !N.leb_le. lia. }
  destruct (255 <? c - 48) eqn:E2; [apply N.ltb_lt in E2; lia|]. reflexivity.
Qed.
Lemma match_opt_none x body y s : fst x = TLeft Curly -> group body -> fst y = TRight Curly -> quiet s ->
  match_opt (mk_ictx (Some x) (push_front body (SCons y s))) = Ok (at_front s, Some (None, body)).
Proof.
  intros Hx Hb Hy Hq. unfold match_opt. cbn [ic_peeked]. destruct x as [k w] eqn:Ex. simpl in Hx. subst k.
  rewrite (match_body_front (TLeft Curly, w)) by auto. reflexivity.
Qed.
Lemma match_nargs_front ps n o x body y s : parameters ps n o ->
  fst x = TLeft Curly -> group body -> fst y = TRight Curly -> quiet s ->
  match_nargs (at_front (push_front ps (SCons x (push_front body (SCons y s))))) = Ok (at_front s, Some (n, o, body)).
Proof.
  intros Hp Hx Hb Hy Hq. destruct Hp as [|x1 w1 c w2 y1 H1 H2 H3 H4 H5|x1 w1 c w2 y1 x2 d y2 H1 H2 H3 H4 H5 H6 H7 H8].
  - pushes. cbn [at_front]. unfold match_nargs. cbn [ic_peeked].
    destruct x as [k w] eqn:Ex. simpl in Hx. subst k.
    rewrite (match_body_front (TLeft Curly, w)) by auto. reflexivity.
  - pushes.
    cbn [at_front]. unfold match_nargs. cbn [ic_peeked]. destruct x1 as [k1 s1]. simpl in H1. subst k1.
    rewrite next_not_trivia_front by auto. cbn [bind]. unfold peek_u8_opt. cbn [ic_peeked].
    rewrite parse_digit by assumption. rewrite close_arg_front by auto. cbn [bind].
    replace (c - 48 <=? 9) with true by (symmetry; apply N.leb_le; lia).
    cbn [at_front]. rewrite match_opt_none by auto. reflexivity.
  - pushes.
    cbn [at_front]. unfold match_nargs. cbn [ic_peeked]. destruct x1 as [k1 s1]. simpl in H1. subst k1.
    rewrite next_not_trivia_front by auto. cbn [bind]. unfold peek_u8_opt. cbn [ic_peeked].
    rewrite parse_digit by assumption. rewrite close_arg_front by auto. cbn [bind].
    replace (c - 48 <=? 9) with true by (symmetry; apply N.leb_le; lia).
    cbn [at_front]. unfold match_opt. cbn [ic_peeked]. destruct x2 as [k2 s2]. simpl in H6. subst k2.
    rewrite next_token_front by auto. cbn [bind]. rewrite read_optional by auto. cbn [bind at_front].
    rewrite match_body_front by auto. reflexivity.
Qed.

Lemma marked_ok body def : Forall has_word body -> marked body def -> process_macro_def body = Ok def.
Proof.
  intros HF Hm. pose proof (process_macro_def_spec body HF) as H.
  destruct (process_macro_def body) as [d|?|]; [|exfalso|contradiction].
  - f_equal. destruct H as [H _]. eapply marked_functional; eauto.
  - destruct H as (h & l' & ->). clear HF. remember (l' ++ [(Hash, h)]) as l eqn:E. revert l' E.
    induction Hm as [|h' c w r r' Hc Hm IH|h' t r r' Hd Hm IH|t r r' Hk Hm IH]; intros l' E.
    + destruct l'; discriminate.
    + destruct l' as [|? [|? l']]; [discriminate|discriminate|]. injection E as _ _ E. eauto.
    + destruct l' as [|? l']; [discriminate|]. injection E as _ E. eauto.
    + destruct l' as [|? l']; [injection E as -> ->; simpl in Hk; congruence|]. injection E as _ E. eauto.
Qed.

Lemma read_name_front w1 x w2 k name w3 y s p d : trivia w1 -> fst x = TLeft Curly -> trivia w2 -> trivia w3 ->
  fst y = TRight Curly -> quiet s -> is_new_env d = false ->
  read_macro_name d (mk_ictx p (push_front w1 (SCons x (push_front w2 (SCons (CommandName k, 92 :: name)
      (push_front w3 (SCons y s))))))) = Ok (at_front s, Some name).
Proof.
  intros H1 Hx H2 H3 Hy Hq Hd. unfold read_macro_name.
  rewrite next_not_trivia_front by (auto; now rewrite Hx). cbn [bind]. unfold ic_peek. cbn [ic_peeked option_map].
  rewrite Hx. rewrite next_not_trivia_front by auto. cbn [bind]. rewrite Hd. unfold peek_cmd_name_opt. cbn [ic_peeked].
  rewrite close_arg_front by auto. cbn [bind]. now rewrite strip_backslash.
Qed.
Lemma read_env_name_front w1 x w2 name w3 y s p d : trivia w1 -> fst x = TLeft Curly -> trivia w2 -> trivia w3 ->
  fst y = TRight Curly -> quiet s -> is_new_env d = true ->
  read_macro_name d (mk_ictx p (push_front w1 (SCons x (push_front w2 (SCons (Word, name)
      (push_front w3 (SCons y s))))))) = Ok (at_front s, Some name).
Proof.
  intros H1 Hx H2 H3 Hy Hq Hd. unfold read_macro_name.
  rewrite next_not_trivia_front by (auto; now rewrite Hx). cbn [bind]. unfold ic_peek. cbn [ic_peeked option_map].
  rewrite Hx. rewrite next_not_trivia_front by auto. cbn [bind]. rewrite Hd. unfold peek_word_opt. cbn [ic_peeked].
  rewrite close_arg_front by auto. reflexivity.
Qed.

Lemma identify_command d src name n o body def s p : command_def src name n o body ->
  Forall has_word body -> marked body def -> is_new_env d = false -> quiet s ->
  identify_macro_update d (mk_ictx p (push_front src s)) =
    Ok (at_front s, Some (name, action_of d, MCmd (mk_cmdm name n o def))).
Proof.
  intros Hc HF Hm Hd Hq. destruct Hc as [w1 x w2 t k name w3 y ps n o x' body y' H1 H2 H3 -> H4 H5 H6 H7 H8 H9].
  unfold identify_macro_update.
  pushes.
  rewrite read_name_front by auto. cbn [bind]. rewrite (match_nargs_front _ _ _ _ _ _ _ H6) by auto. cbn [bind].
  rewrite Hd. rewrite (marked_ok body def) by auto. reflexivity.
Qed.
Lemma identify_environment d src name n o b d' bdef ddef s p : environment_def src name n o b d' ->
  Forall has_word b -> marked b bdef -> Forall has_word d' -> marked d' ddef -> is_new_env d = true -> quiet s ->
  identify_macro_update d (mk_ictx p (push_front src s)) =
    Ok (at_front s, Some (name, action_of d, MEnv (mk_envm name n o bdef ddef))).
Proof.
  intros Hc HF1 Hm1 HF2 Hm2 Hd Hq.
  destruct Hc as [w1 x w2 name w3 y ps n o x' b y' x2 d2 y2 H1 H2 H3 H4 H5 H6 H7 H8 H9 H10 H11 H12].
  unfold identify_macro_update.
  pushes.
  rewrite read_env_name_front by auto. cbn [bind]. rewrite (match_nargs_front _ _ _ _ _ _ _ H6) by auto. cbn [bind].
  rewrite Hd. cbn [at_front]. unfold ic_peek. cbn [ic_peeked option_map]. rewrite H10, token_eqb_refl.
  rewrite next_token_front by auto. cbn [bind]. rewrite read_group by auto. cbn [bind].
  rewrite (marked_ok b bdef) by auto. cbn [bind]. rewrite (marked_ok d2 ddef) by auto. reflexivity.
Qed.

Lemma get_add name m e other :
  get_macro other (add_macro name m e) = if teqb other name then Some m else get_macro other e.
Proof.
  unfold get_macro, add_macro. cbn [en_macros]. unfold sm_insert.
  destruct (sm_get name (en_macros e)); unfold sm_get; cbn [sm_map map_insert assoc]; reflexivity.
Qed.

Lemma update_defines d name m e how :
  action_of d = match how with New => UNew | Renew => URenew | Provide => UProvide end ->
  defines how name m e (fst (apply_update e name (action_of d) m)) (snd (apply_update e name (action_of d) m)).
Proof.
  intros ->.
  assert (Hb : binds name m e (add_macro name m e)).
  { split; [|split; [|reflexivity]].
    - now rewrite get_add, teqb_refl.
    - intros other Ho. rewrite get_add. now rewrite (proj2 (teqb_neq _ _) Ho). }
  unfold defines, apply_update. destruct how, (get_macro name e); simpl; auto.
Qed.
Lemma define_resumes e dn d src name m s :
  get_macro dn e = Some (MDeclare (CmdOrEnv d)) ->
  (forall p, identify_macro_update d (mk_ictx p (push_front src s)) = Ok (at_front s, Some (name, action_of d, m))) ->
  resumes e (SCons (cmd dn) (push_front src s)) (snd (apply_update e name (action_of d) m))
    (fst (apply_update e name (action_of d) m)) s.
Proof.
  intros Hg Hi. eapply resumes_step with (c' := at_front s); [|symmetry; apply flat_at_front].
  rewrite step_cmd. unfold trapped_by_macro. rewrite Hg. cbn [negb Bool.eqb]. rewrite Hi. cbn [bind].
  destruct (apply_update e name (action_of d) m); reflexivity.
Qed.
Lemma definer_binding dn how e : In (dn, how) command_definers -> not_redefined e (tx dn) ->
  exists d, get_macro (tx dn) e = Some (MDeclare (CmdOrEnv d)) /\ is_new_env d = false /\
    action_of d = match how with New => UNew | Renew => URenew | Provide => UProvide end.
Proof.
  intros Hin Hn. unfold not_redefined in Hn. rewrite Hn. simpl in Hin.
  repeat destruct Hin as [E|Hin]; try contradiction; injection E as <- <-;
    eexists; (split; [vm_compute; reflexivity|split; reflexivity]).
Qed.
Lemma env_definer_binding dn how e : In (dn, how) environment_definers -> not_redefined e (tx dn) ->
  exists d, get_macro (tx dn) e = Some (MDeclare (CmdOrEnv d)) /\ is_new_env d = true /\
    action_of d = match how with New => UNew | Renew => URenew | Provide => UProvide end.
Proof.
  intros Hin Hn. unfold not_redefined in Hn. rewrite Hn. simpl in Hin.
  repeat destruct Hin as [E|Hin]; try contradiction; injection E as <- <-;
    eexists; (split; [vm_compute; reflexivity|split; reflexivity]).
Qed.
