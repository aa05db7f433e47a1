(** Macro expansion does not look at the text of line comments (C39): expanding
    tokens with other comments gives the expansion with other comments. *)
From Verif Require Export Macro ParserComment.
Local Open Scope N_scope.

Definition rmap {A B} (f : A -> B) (r : res A) : res B :=
  match r with Ok a => Ok (f a) | Panic e => Panic e | Fuel => Fuel end.
Lemma bind_rmap {A B C} (f : A -> B) (x : res A) (g : B -> res C) : bind (rmap f x) g = bind x (fun a => g (f a)).
Proof. now destruct x. Qed.
Lemma rmap_bind {A B C} (f : B -> C) (x : res A) (g : A -> res B) : rmap f (bind x g) = bind x (fun a => rmap f (g a)).
Proof. now destruct x. Qed.
Lemma bind_ext {A B} (x : res A) (f g : A -> res B) : (forall a, f a = g a) -> bind x f = bind x g.
Proof. intros H. destruct x; simpl; auto. Qed.
Lemma rmap_rmap {A B C} (f : A -> B) (g : B -> C) x : rmap g (rmap f x) = rmap (fun a => g (f a)) x.
Proof. now destruct x. Qed.
Lemma rmap_ext {A B} (f g : A -> B) x : (forall a, f a = g a) -> rmap f x = rmap g x.
Proof. intros H. destruct x; simpl; now rewrite ?H. Qed.

Section Comments.
  Variable phi : text -> text.
  Local Notation mt := (map_tok phi).
  Local Notation ml := (map mt).
  Fixpoint mstream (s : lstream) : lstream :=
    match s with SNil => SNil | SPanic e => SPanic e | SCons t r => SCons (mt t) (mstream r) end.
  Definition mctx (c : ictx) : ictx := mk_ictx (option_map mt (ic_peeked c)) (mstream (ic_rest c)).
  Definition mmacro (m : macro) : macro :=
    match m with
    | MDeclare d => MDeclare d
    | MCmd c => MCmd (mk_cmdm (cm_name c) (cm_num c) (option_map ml (cm_opt c)) (ml (cm_def c)))
    | MEnv e => MEnv (mk_envm (em_name e) (em_num e) (option_map ml (em_opt e)) (ml (em_begin e)) (ml (em_end e)))
    end.
  Definition mundo (u : undo macro) : undo macro :=
    match u with Inserted k => Inserted k | Overwrite k v => Overwrite k (mmacro v) end.
  Definition msm (m : snapmap macro) : snapmap macro :=
    mk_sm (map (fun e => (fst e, mmacro (snd e))) (sm_map m)) (map mundo (sm_log m)) (sm_open m).
  Definition mengine (e : engine) : engine := mk_engine (msm (en_macros e)) (en_ifs e).

  Lemma mt_word s : mt (Word, s) = (Word, s). Proof. reflexivity. Qed.
  Lemma mfst t : fst (mt t) = fst t. Proof. apply map_tok_fst. Qed.
  Lemma mt_cmd k s : mt (CommandName k, s) = (CommandName k, s). Proof. reflexivity. Qed.
  Lemma msnd t : fst t <> LineComment -> snd (mt t) = snd t.
  Proof. destruct t as [k s]. intros H. now rewrite map_tok_other. Qed.
  Lemma mflat c : flat (mctx c) = mstream (flat c).
  Proof. unfold flat. cbn. now destruct (ic_peeked c). Qed.
  Lemma mpeek c : ic_peek (mctx c) = ic_peek c.
  Proof. unfold ic_peek. cbn. destruct (ic_peeked c); [cbn; now rewrite mfst|reflexivity]. Qed.
  Lemma mpeeked c : ic_peeked (mctx c) = option_map mt (ic_peeked c). Proof. reflexivity. Qed.

  Lemma next_m c : next_token (mctx c) = rmap mctx (next_token c).
  Proof. unfold next_token. cbn. now destruct (ic_rest c). Qed.
  Lemma find_m s : find_non_trivia (mstream s) = rmap mctx (find_non_trivia s).
  Proof. induction s as [| |t r IH]; cbn; try reflexivity. rewrite mfst. now destruct (is_trivia (fst t)). Qed.
  Lemma nnt_m c : next_not_trivia (mctx c) = rmap mctx (next_not_trivia c).
  Proof. apply find_m. Qed.
  Lemma pnt_m c : peek_not_trivia (mctx c) = rmap mctx (peek_not_trivia c).
  Proof. unfold peek_not_trivia. rewrite mflat. apply find_m. Qed.
  Lemma eat_if_m k c : eat_if k (mctx c) = rmap mctx (eat_if k c).
  Proof. unfold eat_if. rewrite mpeek. destruct (ic_peek c); [|reflexivity]. destruct (token_eqb t k); [apply next_m|reflexivity]. Qed.
  Lemma take_m bk s : forall lv, take_balanced bk lv (mstream s) = rmap (fun '(ts, c) => (ml ts, mctx c)) (take_balanced bk lv s).
  Proof.
    induction s as [| |t r IH]; intros lv; cbn [mstream take_balanced]; try reflexivity. rewrite mfst.
    destruct (_ && _); [reflexivity|]. cbv zeta. rewrite IH, bind_rmap, rmap_bind. apply bind_ext. now intros [ts c].
  Qed.
  Lemma rub_m bk c : read_until_balanced bk (mctx c) = rmap (fun '(ts, c) => (ml ts, mctx c)) (read_until_balanced bk c).
  Proof.
    unfold read_until_balanced. rewrite mflat, take_m, bind_rmap, rmap_bind. apply bind_ext. intros [ts c2].
    rewrite eat_if_m, bind_rmap, rmap_bind. now apply bind_ext.
  Qed.
  Lemma close_m {A} bk (r : option A) c : close_arg bk r (mctx c) = rmap (fun '(c, x) => (mctx c, x)) (close_arg bk r c).
  Proof.
    unfold close_arg. rewrite nnt_m, bind_rmap, rmap_bind. apply bind_ext. intros c2. rewrite mpeek. destruct (ic_peek c2); [|reflexivity].
    rewrite eat_if_m, bind_rmap, rmap_bind. now apply bind_ext.
  Qed.
  Lemma push_m ts s : push_front (ml ts) (mstream s) = mstream (push_front ts s).
  Proof. induction ts as [|t ts IH]; [reflexivity|].
    change (SCons (mt t) (push_front (ml ts) (mstream s)) = SCons (mt t) (mstream (push_front ts s))). now rewrite IH. Qed.
  Lemma extend_m ts c : extend_inner (ml ts) (mctx c) = mctx (extend_inner ts c).
  Proof.
    destruct c as [[t|] r].
    - unfold extend_inner. cbn [mctx ic_peeked ic_rest option_map].
      pose proof (push_m ts (SCons t r)) as E. cbn [mstream] in E. rewrite E.
      destruct (push_front ts (SCons t r)); reflexivity.
    - unfold extend_inner. cbn [mctx ic_peeked ic_rest option_map]. rewrite push_m. reflexivity.
  Qed.
  Lemma skip_m s : forall n, skip_false n (mstream s) = rmap mctx (skip_false n s).
  Proof.
    induction s as [| |t r IH]; intros n; cbn [mstream skip_false]; try reflexivity. rewrite mfst.
    destruct (fst t); try apply IH. destruct c; try apply IH; (destruct n; [reflexivity|apply IH]).
  Qed.
  Lemma skip_tokens_m c : skip_false_tokens (mctx c) = rmap mctx (skip_false_tokens c).
  Proof. unfold skip_false_tokens. cbn. destruct (ic_peeked c); [|reflexivity]. rewrite mflat. apply skip_m. Qed.

  Lemma hashes_m l : process_hashes (ml l) = rmap (fun '(d, b) => (ml d, b)) (process_hashes l).
  Proof.
    remember (List.length l) as n eqn:En. revert l En. induction n as [n IHn] using (well_founded_induction Nat.lt_wf_0).
    intros l ->. destruct l as [|[k h] r]; [reflexivity|].
    assert (IH : forall r', (List.length r' < List.length ((k, h) :: r))%nat -> process_hashes (ml r') = rmap (fun '(d, b) => (ml d, b)) (process_hashes r')).
    { intros r' Hr. eapply IHn; [exact Hr|reflexivity]. }
    assert (Keep : forall t, (let* (r', b) := process_hashes (ml r) in Ok (mt t :: r', b))
       = rmap (fun '(d, b) => (ml d, b)) (let* (r', b) := process_hashes r in Ok (t :: r', b))).
    { intros t. rewrite (IH r) by apply Nat.lt_succ_diag_r. rewrite bind_rmap, rmap_bind. apply bind_ext. now intros [d b]. }
    destruct k; cbn [map]; try (apply Keep).
    destruct r as [|[k2 w] r2]; [reflexivity|]. cbn [process_hashes map_tok map].
    destruct k2; try (exact (Keep (Hash, h))).
    destruct w as [|c w]; [exact (Keep (Hash, h))|]. cbn [map_tok].
    destruct (is_ascii_digit c && negb (c =? 48)); [|exact (Keep (Hash, h))].
    rewrite (IH r2) by (apply le_S, le_n). rewrite bind_rmap, rmap_bind. apply bind_ext. now intros [d b].
  Qed.
  Lemma nonempty_m t : nonempty_word (mt t) = nonempty_word t.
  Proof. now destruct t as [[] s]. Qed.
  Lemma filter_m l : filter nonempty_word (ml l) = ml (filter nonempty_word l).
  Proof. induction l as [|t l IH]; [reflexivity|]. cbn [map filter]. rewrite nonempty_m. destruct (nonempty_word t); cbn; now rewrite IH. Qed.
  Lemma def_m d : process_macro_def (ml d) = rmap ml (process_macro_def d).
  Proof.
    unfold process_macro_def. rewrite hashes_m, bind_rmap, rmap_bind. apply bind_ext. intros [d' []]; cbn; [now rewrite filter_m|reflexivity].
  Qed.

  Lemma expand_go_m args tokens : forall b bc, expand_go (map ml args) b bc (ml tokens) = rmap ml (expand_go args b bc tokens).
  Proof.
    induction tokens as [|e r IH]; intros b bc; [reflexivity|]. cbn [map expand_go]. rewrite mfst.
    assert (Emit : forall b bc, (let* rest := expand_go (map ml args) b bc (ml r) in Ok (mt e :: rest))
      = rmap ml (let* rest := expand_go args b bc r in Ok (e :: rest))).
    { intros b' bc'. rewrite IH, bind_rmap, rmap_bind. now apply bind_ext. }
    destruct b.
    - destruct (fst e); try (destruct (negb (bc =? 0)%Z); [apply Emit|]; cbn [is_trivia]; apply Emit || apply IH).
      + destruct b; try (destruct (negb (bc =? 0)%Z); [apply Emit|]; cbn [is_trivia]; apply Emit || apply IH).
        destruct (0 <? bc)%Z; [apply Emit|apply IH].
      + destruct b; try (destruct (negb (bc =? 0)%Z); [apply Emit|]; cbn [is_trivia]; apply Emit || apply IH).
        cbv zeta. destruct (_ =? 0)%Z; [apply IH|apply Emit].
    - destruct (fst e) eqn:Ek; try apply Emit.
      + destruct c; try apply Emit. rewrite msnd by congruence. destruct (strip_prefix _ _); [|reflexivity].
        destruct (teqb _ _); [apply IH|apply Emit].
      + match goal with |- context [?x =? 0] => destruct (x =? 0); [reflexivity|] end. cbv zeta. rewrite nth_error_map. rewrite IH, bind_rmap, rmap_bind. apply bind_ext. intros rest. cbn.
        rewrite map_app. destruct (nth_error args _); reflexivity.
  Qed.
  Lemma expand_tokens_m args ts : expand_tokens (map ml args) (ml ts) = rmap ml (expand_tokens args ts).
  Proof. apply expand_go_m. Qed.
  Lemma split_word_m n : forall s, map ml (fst (split_word n s)) = fst (split_word n s).
  Proof.
    induction n as [|n IH]; intros [|c s]; try reflexivity. cbn [split_word]. specialize (IH s).
    destruct (split_word n s) as [a r]. cbn in *. now rewrite IH.
  Qed.
  Definition margs (x : ictx * list (list tok) * nat) := let '(c, a, n) := x in (mctx c, map ml a, n).
  Lemma read_args_m fuel : forall lft c, read_args_loop fuel lft (mctx c) = rmap margs (read_args_loop fuel lft c).
  Proof.
    induction fuel as [|f IH]; intros lft c; [reflexivity|]. cbn [read_args_loop]. rewrite pnt_m, bind_rmap, rmap_bind.
    apply bind_ext. intros c1. cbv zeta. cbn [mctx ic_peeked].
    assert (Go : forall l c a,
      match (l - 1)%nat with
      | O => Ok (mctx c, map ml a, O)
      | S n => let* (c, args', lft') := read_args_loop f (S n) (mctx c) in Ok (c, map ml a ++ args', lft')
      end = rmap margs
      match (l - 1)%nat with
      | O => Ok (c, a, O)
      | S n => let* (c, args', lft') := read_args_loop f (S n) c in Ok (c, a ++ args', lft')
      end).
    { intros l c0 a. destruct (l - 1)%nat as [|n]; [reflexivity|]. rewrite IH, bind_rmap, rmap_bind. apply bind_ext.
      intros [[c2 a2] n2]. cbn. now rewrite map_app. }
    assert (Tok : forall t,
      (let* c := next_token (mctx c1) in match (lft - 1)%nat with
      | O => Ok (c, [[mt t]], O)
      | S n => let* (c, args', lft') := read_args_loop f (S n) c in Ok (c, [[mt t]] ++ args', lft')
      end) = rmap margs (let* c := next_token c1 in match (lft - 1)%nat with
      | O => Ok (c, [[t]], O)
      | S n => let* (c, args', lft') := read_args_loop f (S n) c in Ok (c, [[t]] ++ args', lft')
      end)).
    { intros t. rewrite next_m, bind_rmap, rmap_bind. apply bind_ext. intros c2. apply (Go lft c2 [[t]]). }
    destruct (ic_peeked c1) as [[k s]|] eqn:Ep; [|reflexivity]. cbn [option_map map_tok].
    destruct k; try (match goal with |- context [(?k, ?x)] => exact (Tok (k, s)) end); try exact (Tok (LineComment, s)).
    - destruct b; try (match goal with |- context [(?k, ?x)] => exact (Tok (k, s)) end).
      rewrite next_m, bind_rmap, rmap_bind. apply bind_ext. intros c2.
      rewrite rub_m, bind_rmap, rmap_bind. apply bind_ext. intros [a c3]. apply (Go lft c3 [a]).
    - pose proof (split_word_m lft s) as Hs. destruct (split_word lft s) as [chars t'] eqn:Es. cbn [fst] in Hs.
      assert (E2 : (match t' with [] => next_token (mctx c1) | _ :: _ => Ok (mk_ictx (Some (Word, t')) (ic_rest (mctx c1))) end)
        = rmap mctx (match t' with [] => next_token c1 | _ :: _ => Ok (mk_ictx (Some (Word, t')) (ic_rest c1)) end)).
      { destruct t'; [apply next_m|reflexivity]. }
      rewrite E2, bind_rmap, rmap_bind. apply bind_ext. intros c2. destruct (lft - List.length chars)%nat as [|n]; [cbn; now rewrite Hs|].
      specialize (Go (S n) c2 chars). rewrite Hs in Go. exact Go.
  Qed.
  Definition mread (x : ictx * list tok * option (list (list tok))) := let '(c, o, a) := x in (mctx c, ml o, option_map (map ml) a).
  Lemma read_macro_args_m c num opt : read_macro_args (mctx c) num (option_map ml opt) = rmap mread (read_macro_args c num opt).
  Proof.
    unfold read_macro_args. destruct (num =? 0); [reflexivity|]. cbv zeta. rewrite read_args_m, bind_rmap, rmap_bind. apply bind_ext.
    intros [[c2 a] n]. cbn [margs]. destruct n as [|[|n]]; [reflexivity| |]; destruct opt; cbn; rewrite ?map_app; reflexivity.
  Qed.
  Definition mbody (x : ictx * list tok * option (list tok)) := let '(c, o, b) := x in (mctx c, ml o, option_map ml b).
  Lemma env_body_m name s : forall bc, env_body_go name bc (mstream s) = rmap mbody (env_body_go name bc s).
  Proof.
    induction s as [| |t r IH]; intros bc; cbn [mstream env_body_go]; try reflexivity. cbv zeta. rewrite mfst.
    assert (Push : forall bc, (let* (c, out, b) := env_body_go name bc (mstream r) in Ok (c, out, option_map (cons (mt t)) b))
      = rmap mbody (let* (c, out, b) := env_body_go name bc r in Ok (c, out, option_map (cons t) b))).
    { intros b. rewrite IH, bind_rmap, rmap_bind. apply bind_ext. intros [[c o] [b'|]]; reflexivity. }
    destruct (fst t) eqn:Ek; try apply Push. destruct c; try apply Push. destruct bc; [|apply Push]. rewrite msnd by congruence.
    destruct (negb _); [reflexivity|].
    change (mk_ictx (Some (mt t)) (mstream r)) with (mctx (mk_ictx (Some t) r)). rewrite next_m, bind_rmap, rmap_bind. now apply bind_ext.
  Qed.
  Lemma read_env_body_m name c : read_env_body name (mctx c) = rmap mbody (read_env_body name c).
  Proof. unfold read_env_body. cbn [mctx ic_peeked]. destruct (ic_peeked c) eqn:E; cbn; [|reflexivity]. rewrite mflat. apply env_body_m. Qed.

  Definition mopt {A B} (f : A -> B) (x : ictx * option A) := let '(c, r) := x in (mctx c, option_map f r).
  Lemma match_body_m c : match_body (mctx c) = rmap (mopt ml) (match_body c).
  Proof.
    unfold match_body. cbn [mctx ic_peeked].
    assert (Tok : forall t, (let* c := next_token (mctx c) in Ok (c, Some [mt t])) = rmap (mopt ml) (let* c := next_token c in Ok (c, Some [t]))).
    { intros t. rewrite next_m, bind_rmap, rmap_bind. now apply bind_ext. }
    destruct (ic_peeked c) as [[k s]|] eqn:E; [|reflexivity].
    pose proof (Tok (k, s)) as T. cbn [option_map] in *. destruct k; try exact T. destruct b; try exact T.
    cbn [map_tok]. rewrite next_m, bind_rmap, rmap_bind. apply bind_ext. intros c2. rewrite rub_m, bind_rmap, rmap_bind. apply bind_ext. now intros [? ?].
  Qed.
  Lemma match_opt_m c : match_opt (mctx c) = rmap (mopt (fun '(o, d) => (option_map ml o, ml d))) (match_opt c).
  Proof.
    unfold match_opt. cbn [mctx ic_peeked].
    assert (No : (let* (c, def) := match_body (mctx c) in Ok (c, option_map (fun d => (None, d)) def))
      = rmap (mopt (fun '(o, d) => (option_map ml o, ml d))) (let* (c, def) := match_body c in Ok (c, option_map (fun d => (None, d)) def))).
    { rewrite match_body_m, bind_rmap, rmap_bind. apply bind_ext. now intros [? []]. }
    destruct (ic_peeked c) as [[k s]|] eqn:E; [|exact No].
    cbn [option_map] in *. destruct k; try exact No. destruct b; try exact No. cbn [map_tok].
    rewrite next_m, bind_rmap, rmap_bind. apply bind_ext. intros c2. rewrite rub_m, bind_rmap, rmap_bind. apply bind_ext. intros [o c3].
    rewrite match_body_m, bind_rmap, rmap_bind. apply bind_ext. now intros [? []].
  Qed.
  Lemma match_nargs_m c : match_nargs (mctx c) = rmap (mopt (fun '(n, o, d) => (n, option_map ml o, ml d))) (match_nargs c).
  Proof.
    unfold match_nargs. cbn [mctx ic_peeked].
    assert (No : (let* (c, def) := match_body (mctx c) in Ok (c, option_map (fun d => (0, None, d)) def))
      = rmap (mopt (fun '(n, o, d) => (n, option_map ml o, ml d))) (let* (c, def) := match_body c in Ok (c, option_map (fun d => (0, None, d)) def))).
    { rewrite match_body_m, bind_rmap, rmap_bind. apply bind_ext. now intros [? []]. }
    destruct (ic_peeked c) as [[k s]|] eqn:E; [|exact No].
    cbn [option_map] in *. destruct k; try exact No. destruct b; try exact No. cbn [map_tok].
    rewrite nnt_m, bind_rmap, rmap_bind. apply bind_ext. intros c2. unfold peek_u8_opt.
    assert (Ew : (match ic_peeked (mctx c2) with Some (Word, s) => parse_u8 s | _ => None end) = (match ic_peeked c2 with Some (Word, s) => parse_u8 s | _ => None end)).
    { cbn [mctx ic_peeked]. now destruct (ic_peeked c2) as [[[] ?]|]. }
    rewrite Ew, close_m, bind_rmap, rmap_bind. apply bind_ext. intros [c3 [n|]]; [|reflexivity].
    destruct (n <=? 9); [|reflexivity]. rewrite match_opt_m, bind_rmap, rmap_bind. apply bind_ext. now intros [? [[? ?]|]].
  Qed.
  Lemma read_name_m d c : read_macro_name d (mctx c) = rmap (fun '(c, x) => (mctx c, x)) (read_macro_name d c).
  Proof.
    unfold read_macro_name. rewrite nnt_m, bind_rmap, rmap_bind. apply bind_ext. intros c2. rewrite mpeek.
    destruct (ic_peek c2) as [[]|]; try reflexivity. destruct b; try reflexivity.
    rewrite nnt_m, bind_rmap, rmap_bind. apply bind_ext. intros c3. destruct (is_new_env d).
    - unfold peek_word_opt. assert (Ew : (match ic_peeked (mctx c3) with Some (Word, s) => Some (Word, s) | _ => None end) = (match ic_peeked c3 with Some (Word, s) => Some (Word, s) | _ => None end)).
      { cbn [mctx ic_peeked]. now destruct (ic_peeked c3) as [[[] ?]|]. }
      rewrite Ew, close_m, bind_rmap, rmap_bind. apply bind_ext. now intros [? ?].
    - unfold peek_cmd_name_opt. assert (Ew : (match ic_peeked (mctx c3) with Some (CommandName n, s) => Some (CommandName n, s) | _ => None end) = (match ic_peeked c3 with Some (CommandName n, s) => Some (CommandName n, s) | _ => None end)).
      { cbn [mctx ic_peeked]. now destruct (ic_peeked c3) as [[[] ?]|]. }
      rewrite Ew, close_m, bind_rmap, rmap_bind. apply bind_ext. intros [c4 [[k s]|]]; [|reflexivity]. now destruct (strip_prefix _ s).
  Qed.
  Lemma identify_m d c : identify_macro_update d (mctx c) = rmap (mopt (fun '(n, a, m) => (n, a, mmacro m))) (identify_macro_update d c).
  Proof.
    unfold identify_macro_update. rewrite read_name_m, bind_rmap, rmap_bind. apply bind_ext. intros [c2 [name|]]; [|reflexivity].
    rewrite match_nargs_m, bind_rmap, rmap_bind. apply bind_ext. intros [c3 [[[n o] def]|]]; [|reflexivity]. cbn [mopt option_map].
    destruct (is_new_env d).
    - rewrite mpeek. destruct (ic_peek c3) as [k|]; [|reflexivity].
      assert (E : (let* (c, end_def) := if token_eqb k (TLeft Curly) then let* c := next_token (mctx c3) in let* (ed, c) := read_until_balanced Curly c in Ok (c, Some ed) else Ok (mctx c3, None) in Ok (c, end_def))
        = rmap (mopt ml) (if token_eqb k (TLeft Curly) then let* c := next_token c3 in let* (ed, c) := read_until_balanced Curly c in Ok (c, Some ed) else Ok (c3, None))).
      { destruct (token_eqb k (TLeft Curly)); [|reflexivity]. rewrite next_m, bind_rmap. rewrite rmap_bind.
        destruct (next_token c3) as [c4| |]; cbn [bind]; try reflexivity. rewrite rub_m, bind_rmap, rmap_bind.
        destruct (read_until_balanced Curly c4) as [[ed c5]| |]; reflexivity. }
      destruct (token_eqb k (TLeft Curly)).
      + rewrite next_m, bind_rmap. destruct (next_token c3) as [c4| |]; cbn [bind]; try reflexivity. rewrite rub_m, bind_rmap.
        destruct (read_until_balanced Curly c4) as [[ed c5]| |]; cbn [bind]; try reflexivity.
        rewrite def_m, bind_rmap, rmap_bind. apply bind_ext. intros def'. rewrite def_m, bind_rmap, rmap_bind. now apply bind_ext.
      + cbn [bind]. rewrite def_m, bind_rmap, rmap_bind. now apply bind_ext.
    - rewrite def_m, bind_rmap, rmap_bind. now apply bind_ext.
  Qed.
  Lemma assoc_m k l : assoc k (map (fun e : text * macro => (fst e, mmacro (snd e))) l) = option_map mmacro (assoc k l).
  Proof. induction l as [|[k' v] l IH]; [reflexivity|]. cbn. now destruct (teqb k k'). Qed.
  Lemma get_m name e : get_macro name (mengine e) = option_map mmacro (get_macro name e).
  Proof. apply assoc_m. Qed.
  Lemma add_m name m e : add_macro name (mmacro m) (mengine e) = mengine (add_macro name m e).
  Proof.
    unfold add_macro, mengine. cbn. f_equal. unfold sm_insert, sm_get. cbn [sm_map msm]. rewrite assoc_m.
    destruct (assoc name (sm_map (en_macros e))); reflexivity.
  Qed.
  Lemma apply_m e name a m : apply_update (mengine e) name a (mmacro m) = (mengine (fst (apply_update e name a m)), ml (snd (apply_update e name a m))).
  Proof.
    unfold apply_update. rewrite get_m, add_m. destruct (get_macro name e), a; reflexivity.
  Qed.
  Lemma resume_m ts c : resume_with (ml ts) (mctx c) = rmap mctx (resume_with ts c).
  Proof.
    unfold resume_with. cbv zeta. rewrite extend_m. cbn [mctx ic_peeked]. destruct (ic_peeked (extend_inner ts c)) eqn:E; cbn; [reflexivity|apply next_m].
  Qed.
  Definition mstep (x : engine * ictx * list tok) := let '(e, c, o) := x in (mengine e, mctx c, ml o).
  Lemma macro_m e c t name b : trapped_by_macro (mengine e) (mctx c) (mt t) name b = rmap mstep (trapped_by_macro e c t name b).
  Proof.
    unfold trapped_by_macro. cbv zeta.
    assert (F : (let* c := next_token (mctx c) in Ok (mengine e, c, [mt t])) = rmap mstep (let* c := next_token c in Ok (e, c, [t]))).
    { rewrite next_m, bind_rmap, rmap_bind. now apply bind_ext. }
    rewrite get_m. destruct (get_macro name e) as [m|]; [|exact F]. cbn [option_map].
    assert (Em : (match mmacro m with MEnv _ => true | _ => false end) = (match m with MEnv _ => true | _ => false end)) by now destruct m.
    rewrite Em. destruct (negb _); [exact F|]. destruct m as [d|cm|em]; cbn [mmacro].
    - destruct d; try exact F. rewrite identify_m, bind_rmap, rmap_bind. apply bind_ext. intros [c2 [[[n a] m]|]]; [|reflexivity].
      cbn [mopt option_map]. rewrite apply_m. destruct (apply_update e n a m). reflexivity.
    - rewrite next_m, bind_rmap, rmap_bind. apply bind_ext. intros c2. cbn [cm_num cm_opt cm_def]. rewrite read_macro_args_m, bind_rmap, rmap_bind.
      apply bind_ext. intros [[c3 o] [a|]]; [|reflexivity]. cbn [mread option_map]. rewrite expand_tokens_m, bind_rmap, rmap_bind.
      apply bind_ext. intros ts. rewrite resume_m, bind_rmap, rmap_bind. now apply bind_ext.
    - rewrite next_m, bind_rmap, rmap_bind. apply bind_ext. intros c2. cbn [em_num em_opt em_begin em_end em_name]. rewrite read_macro_args_m, bind_rmap, rmap_bind.
      apply bind_ext. intros [[c3 o] [a|]]; [|reflexivity]. cbn [mread option_map]. rewrite read_env_body_m, bind_rmap, rmap_bind.
      apply bind_ext. intros [[c4 o2] [body|]]; cbn [mbody option_map]; [|cbn; now rewrite map_app].
      rewrite expand_tokens_m, bind_rmap, rmap_bind. apply bind_ext. intros b1. rewrite expand_tokens_m, bind_rmap, rmap_bind. apply bind_ext. intros b2.
      rewrite <- !map_app. rewrite resume_m, bind_rmap, rmap_bind. apply bind_ext. intros c5. reflexivity.
  Qed.
  Lemma step_m e c t : step (mengine e) (mctx c) (mt t) = rmap mstep (step e c t).
  Proof.
    unfold step. rewrite mfst.
    assert (F : (let* c := next_token (mctx c) in Ok (mengine e, c, [mt t])) = rmap mstep (let* c := next_token c in Ok (e, c, [t]))).
    { rewrite next_m, bind_rmap, rmap_bind. now apply bind_ext. }
    destruct (fst t) eqn:Ek; try exact F. match goal with x : cmdname |- _ => destruct x; try exact F end.
    - rewrite msnd by congruence. destruct (split_bytes 1 (snd t)) as [[? ?]|]; [apply macro_m|reflexivity].
    - rewrite msnd by congruence. apply macro_m.
    - unfold trapped_by_if. rewrite next_m, bind_rmap, rmap_bind. apply bind_ext. intros c2. now destruct i.
    - unfold trapped_by_else. rewrite next_m, bind_rmap, rmap_bind. apply bind_ext. intros c2. cbn [mengine en_ifs en_macros].
      destruct (en_ifs e) as [|[[]|] ifs]; cbv zeta; try reflexivity; rewrite skip_tokens_m, bind_rmap, rmap_bind; now apply bind_ext.
    - unfold trapped_by_endif. rewrite next_m, bind_rmap, rmap_bind. apply bind_ext. intros c2. cbn [mengine en_ifs en_macros].
      now destruct (en_ifs e) as [|[[]|] ifs].
  Qed.
  Lemma bump_loop_m fuel : forall room e c, bump_loop fuel room (mengine e) (mctx c) = rmap mstep (bump_loop fuel room e c).
  Proof.
    induction fuel as [|f IH]; intros room e c; cbn [bump_loop]; destruct room; try reflexivity; cbn [mctx ic_peeked]; destruct (ic_peeked c) eqn:E; cbn [option_map];
      try reflexivity; try (unfold mctx; cbn; rewrite ?E; reflexivity).
    rewrite step_m, bind_rmap, rmap_bind. apply bind_ext. intros [[e2 c2] o]. cbn [mstep]. rewrite map_length, IH, bind_rmap, rmap_bind.
    apply bind_ext. intros [[e3 c3] o3]. cbn. now rewrite map_app.
  Qed.
  Definition mboth (s : engine * ictx) := (mengine (fst s), mctx (snd s)).
  Lemma do_bump_m fuel page s : do_bump fuel page (mboth s) = rmap (fun '(ts, s) => (ml ts, mboth s)) (do_bump fuel page s).
  Proof.
    destruct s as [e c]. unfold do_bump, mboth. cbn [fst snd].
    assert (E : (match ic_peeked (mctx c) with None => next_token (mctx c) | Some _ => Ok (mctx c) end)
       = rmap mctx (match ic_peeked c with None => next_token c | Some _ => Ok c end)).
    { cbn [mctx ic_peeked]. destruct (ic_peeked c) eqn:Ep; cbn; [reflexivity|apply next_m]. }
    rewrite E, bind_rmap, rmap_bind. apply bind_ext. intros c2. rewrite bump_loop_m, bind_rmap, rmap_bind. apply bind_ext.
    now intros [[? ?] ?].
  Qed.
  Definition mlexer (l : lexer (engine * ictx)) : lexer (engine * ictx) := mk_lexer (option_map mt (lx_peeked l)) (ml (lx_buf l)) (mboth (lx_b l)).
  Lemma lx_next_m fuel page l : lx_next (do_bump fuel page) (mlexer l) = rmap mlexer (lx_next (do_bump fuel page) l).
  Proof.
    unfold lx_next. cbn [mlexer lx_buf lx_b]. destruct (lx_buf l); [|reflexivity]. cbn [map]. rewrite do_bump_m, bind_rmap, rmap_bind.
    apply bind_ext. now intros [[|t r] s].
  Qed.
  Lemma drain_m fuel page n : forall l, lx_drain (do_bump fuel page) n (mlexer l) = rmap ml (lx_drain (do_bump fuel page) n l).
  Proof.
    induction n as [|n IH]; intros l; [reflexivity|]. cbn [lx_drain]. unfold lx_eat. cbn [mlexer lx_peeked]. destruct (lx_peeked l) as [t|]; cbn [option_map]; [|reflexivity].
    change (mk_lexer None (lx_buf (mlexer l)) (lx_b (mlexer l))) with (mlexer (mk_lexer None (lx_buf l) (lx_b l))).
    rewrite lx_next_m, bind_rmap. rewrite rmap_bind. destruct (lx_next _ _) as [l2| |]; cbn [bind]; try reflexivity.
    rewrite IH, bind_rmap, rmap_bind. now apply bind_ext.
  Qed.
  Lemma engine_new_m : mengine engine_new = engine_new.
  Proof. reflexivity. Qed.
  Lemma expand_stream_m fuel page s : expand_stream fuel page engine_new (mstream s) = rmap ml (expand_stream fuel page engine_new s).
  Proof.
    unfold expand_stream, lx_new.
    change (mk_lexer None [] (engine_new, mk_ictx None (mstream s))) with (mlexer (mk_lexer None [] (engine_new, mk_ictx None s))).
    rewrite lx_next_m, bind_rmap, rmap_bind. apply bind_ext. intros l. apply drain_m.
  Qed.
End Comments.
