(** Every reading of the grammar (GramSpec.v) is what the parser answers. *)
From Verif Require Import Api P_Lex P_Macro ParserSource ParserEnd P_Parser DocParse P_Pair.
From Verif Require Export GramSpec.
Local Open Scope nat_scope.

Definition scope_of (p : place) : scope :=
  match p with
  | Top => Root | Braces => CurlyItem | Brackets => BracketItem | Parens => ParenItem
  | Dollars_ => DollarFormula | Math_ => CmdFormula | Body => Environment | Sides => LR
  end.
Lemma stop_iff p t : stop_by_scope (scope_of p) t = true <-> over p t.
Proof.
  split.
  - intros H. unfold over. destruct p, t as [| | |[]|[]| | | | | | | | | | | | | | | | [] | |]; try discriminate H; (split; [discriminate|]); cbn;
      repeat (first [left; reflexivity | right; repeat split; first [reflexivity|discriminate] | left; repeat split; first [reflexivity|discriminate] | right]).
  - intros [H0 H]. destruct H as [H|[->|[[-> H]|[-> [H H']]]]].
    + destruct p; cbn in H; try discriminate H; injection H as <-; reflexivity.
    + destruct p; try reflexivity; congruence.
    + destruct p; try reflexivity; congruence.
    + destruct p; try reflexivity; congruence.
Qed.
Lemma stop_false p t : ~ over p t -> stop_by_scope (scope_of p) t = false.
Proof. intros H. destruct (stop_by_scope _ _) eqn:E; [|reflexivity]. now apply stop_iff in E. Qed.
Lemma over_dec p t : {over p t} + {~ over p t}.
Proof. destruct (stop_by_scope (scope_of p) t) eqn:E; [left; now apply stop_iff|right]. intros H. apply stop_iff in H. congruence. Qed.
Lemma halt_iff p t : DocParse.halt (scope_of p) t = true <-> stops_rest p t.
Proof.
  unfold DocParse.halt, stops_rest. rewrite orb_true_iff, stop_iff. split; intros [H|H]; auto.
  - right. destruct t; try discriminate H; [now left|right]. destruct p; try discriminate H. auto.
  - right. destruct H as [->|[-> ->]]; reflexivity.
Qed.
Lemma halt_false p t : ~ stops_rest p t -> DocParse.halt (scope_of p) t = false.
Proof. intros H. destruct (DocParse.halt _ _) eqn:E; [|reflexivity]. now apply halt_iff in E. Qed.
Lemma stopped_dec p g t : {stopped p g t} + {~ stopped p g t}.
Proof.
  destruct g; [|apply over_dec]. unfold stopped. destruct (DocParse.halt (scope_of p) t) eqn:E; [left; now apply halt_iff|right].
  intros H. apply halt_iff in H. congruence.
Qed.

(** ** Lines *)
Lemma all_add xs l : all (add xs l) = all l ++ xs.
Proof. destruct l as [b [ys|] f]; unfold add, all; cbn; rewrite ?app_nil_r, ?app_assoc; reflexivity. Qed.
Lemma all_baseless l : all (baseless l) = all l.
Proof. unfold baseless, all; cbn. now rewrite app_nil_r. Qed.
Lemma from_add xs l : from (add xs l) = from l. Proof. destruct l as [b [ys|] f]; reflexivity. Qed.
Lemma before_add xs l : base l <> None -> before (add xs l) = before l. Proof. destruct l as [b [ys|] f]; cbn; [reflexivity|contradiction]. Qed.
Lemma base_add xs l : base (add xs l) = match base l with Some ys => Some (ys ++ xs) | None => None end.
Proof. destruct l as [b [ys|] f]; reflexivity. Qed.

Section Sound.
  Variable gm : text -> text -> bool.
  Variable sp : spec.
  Notation pst := (@Parser.pst (list tok)).
  Notation run := (Parser.run list_pk list_nx list_set gm sp).
  Notation eat := (eat list_pk list_nx).
  Notation content := (content gm sp).
  Notation element := (element gm sp).
  Notation group := (group gm sp).
  Notation arguments := (arguments gm sp).

  Scheme content_ind2 := Induction for GramSpec.content Sort Prop
    with element_ind2 := Induction for GramSpec.element Sort Prop
    with group_ind2 := Induction for GramSpec.group Sort Prop
    with arguments_ind2 := Induction for GramSpec.arguments Sort Prop.
  Combined Scheme grammar_ind from content_ind2, element_ind2, group_ind2, arguments_ind2.

  (** ** What an element leaves of the list before it *)
  Definition keeps (l l' : line) : Prop :=
    (base l = None -> base l' = None) /\ (base l' <> None -> before l' = before l) /\ (from l' = from l \/ from l' = Gone).
  Lemma keeps_add xs l : keeps l (add xs l).
  Proof. destruct l as [b [ys|] f]; repeat split; cbn; auto; discriminate || congruence. Qed.
  Lemma keeps_baseless xs l : keeps l (add xs (baseless l)).
  Proof. destruct l as [b [ys|] f]; repeat split; cbn; auto; congruence. Qed.
  Lemma element_keeps p f l t ts b l' r : element p f l t ts b l' r -> keeps l l'.
  Proof.
    intros H.
    refine (element_ind2 gm sp (fun _ _ _ _ _ _ _ => True) (fun p f l t ts b l' r _ => keeps l l') (fun _ _ _ _ _ _ => True) (fun _ _ _ _ _ _ _ _ _ => True)
      _ _ _ _ _ _ _ _ _ _ _ _ _ _ _ _ _ _ _ _ _ _ _ _ _ _ _ _ _ _ _ _ _ _ _ _ _ p f l t ts b l' r H); try (intros; exact I); intros; try apply keeps_add; try apply keeps_baseless.
    all: try (repeat split; cbn; try congruence; auto; fail).
    - destruct H0 as (K1 & K2 & K3). destruct l0 as [bf [ys|] fr], l1 as [bf1 [ys1|] fr1]; unfold outside, inside in *; cbn in *; repeat split; cbn; try discriminate; try congruence; auto.
      all: try (intros; exfalso; discriminate (K1 eq_refl)).
      all: destruct fr1; auto.
    - destruct l0 as [bf [ys|] fr]; unfold outside, inside; cbn; destruct bf, fr; repeat split; cbn; try discriminate; try congruence; auto.
  Qed.
  Lemma element_base p f l t ts l' r : element p f l t ts true l' r -> exists xs, all l' = all l ++ xs.
  Proof.
    intros H. inversion H; subst; rewrite all_add, ?all_baseless; eauto.
  Qed.

  (** ** Parser states *)
  Definition first_child (ps : list (kind * nat)) : nat := match ps with (_, f) :: _ => f | [] => 0 end.
  Definition start_pos (P : list tree) (s : nat) (r : reach) : option nat :=
    match r with Start => Some (List.length P) | Gone => None | Beyond => Some s end.
  Definition last_pos (P : list tree) (l : line) : option nat :=
    match base l with Some _ => Some (List.length P + List.length (before l)) | None => None end.
  (** the state in which the line [l] stands after the nodes [P] *)
  Definition st (ps : list (kind * nat)) (P : list tree) (s : nat) (l : line) (p : place) (ts : list tok) : pst :=
    mk_pst ts (mk_builder ps (P ++ all l)) [] (start_pos P s (from l)) (last_pos P l) (scope_of p).
  Definition fits (ps : list (kind * nat)) (P : list tree) (s : nat) (l : line) : Prop :=
    first_child ps <= List.length P /\ (from l = Beyond -> s < first_child ps).

  Definition reads_content p g l ts l' r : Prop := forall ps P s, fits ps P s l ->
    ev (fun n => run n (loop g (List.length (P ++ all l))) (st ps P s l p ts) = Ok (true, st ps P s l' p r)).
  Definition reads_element p f l t ts b l' r : Prop := forall ps P s, fits ps P s l ->
    ev (fun n => run n (KContent (negb f)) (st ps P s l p (t :: ts)) = Ok (b, st ps P s l' p r)).
  Definition place_kind (q : place) : option (token * kind) :=
    match q with
    | Braces => Some (TRight Curly, ItemCurly) | Brackets => Some (TRight Bracket, ItemBracket)
    | Parens => Some (TRight Paren, ItemParen) | Dollars_ => Some (Dollar, ItemFormula) | Math_ => Some (CommandName EndMath, ItemFormula)
    | _ => None
    end.
  Definition reads_group q t ts x r : Prop := forall ps C a la sc,
    ev (fun n => item_group list_pk list_nx (run n) (scope_of q) (mk_pst (t :: ts) (mk_builder ps C) [] a la sc) =
                 Ok (mk_pst r (mk_builder ps (C ++ [x])) [] a la sc)).
  (** matchers *)
  Definition mrel (a : arg_pattern) (w : text) (m : matcher) : Prop :=
    match a with
    | PNone => m = AMNone
    | PFixed n | PRange _ n => (n = 0%N /\ m = AMNone) \/ m = AMAtMost n (N.of_nat (List.length w))
    | PGlob g => m = AMGlob g w
    | PGreedy => False
    end.
  Definition reads_arguments p a w held ts xs held' r : Prop := forall m cur ps C, mrel a w m ->
    ev (fun n => run n (KMatch false m cur) (mk_pst ts (mk_builder ps C) held None None (scope_of p)) =
                 Ok (true, mk_pst r (mk_builder ps (C ++ xs)) held' None None (scope_of p))).

  Lemma mrel_start a : a <> PGreedy -> mrel a [] (start_match a).
  Proof. destruct a as [|n|? n| |g]; intros H; cbn; try reflexivity; try congruence; destruct (N.eqb_spec n 0); auto. Qed.
  (** one more argument with the letter [c] *)
  Lemma mrel_take a w m c : mrel a w m -> c = ARG_TERM \/ (exists g, a = PGlob g) ->
    (takes gm a w c -> exists m', try_match gm m c = (true, m') /\ mrel a (w ++ [c]) m') /\
    (~ takes gm a w c -> fst (try_match gm m c) = false).
  Proof.
    intros Hm Hc. destruct a as [|n|mi n| |g]; cbn in Hm |- *; try contradiction.
    - subst m. split; [contradiction|reflexivity].
    - destruct Hc as [->|[g Hg]]; [|discriminate]. destruct Hm as [[-> ->]| ->].
      + split; [lia|reflexivity].
      + cbn. destruct (N.ltb_spec (N.of_nat (List.length w)) n) as [L|L]; (split; [intros H|intros H]); try lia; try reflexivity.
        eexists. split; [reflexivity|]. right. rewrite app_length, Nat2N.inj_add. reflexivity.
    - destruct Hc as [->|[g Hg]]; [|discriminate]. destruct Hm as [[-> ->]| ->].
      + split; [lia|reflexivity].
      + cbn. destruct (N.ltb_spec (N.of_nat (List.length w)) n) as [L|L]; (split; [intros H|intros H]); try lia; try reflexivity.
        eexists. split; [reflexivity|]. right. rewrite app_length, Nat2N.inj_add. reflexivity.
    - subst m. cbn. destruct (gm g (w ++ [c])) eqn:E; split; intros H; try congruence; eauto.
  Qed.

  Lemma scope_kind q t k : brackets q t k -> exists e, place_kind q = Some (e, k) /\ closer q = Some e.
  Proof. intros H. cbn in H. destruct H as [H|[H|[H|[H|[H|[]]]]]]; inversion H; subst; eexists; split; reflexivity. Qed.
  Lemma item_group_eq q e k n (s : pst) : place_kind q = Some (e, k) ->
    item_group list_pk list_nx (run n) (scope_of q) s =
    (let* s := eat (start_node k s) in let* s := item_list (run n) (scope_of q) s in let* s := eat_if_ list_pk list_nx e s in finish_node s).
  Proof. destruct q; intros [= <- <-]; reflexivity. Qed.
  Lemma item_list_reads q ts l r : reads_content q false (fresh Start) ts l r ->
    forall ps C a la sc, first_child ps <= List.length C ->
    ev (fun n => item_list (run n) (scope_of q) (mk_pst ts (mk_builder ps C) [] a la sc) = Ok (mk_pst r (mk_builder ps (C ++ all l)) [] a la sc)).
  Proof.
    intros H ps C a la sc Hc. assert (Hf : fits ps C 0 (fresh Start)) by (split; [exact Hc|discriminate]). specialize (H ps C 0 Hf).
    unfold item_list, rec_, checkpoint, b_checkpoint. cbn [p_b b_children].
    unfold st in H. cbn [all fresh before base based from app start_pos last_pos] in H. rewrite app_nil_r in H.
    eapply ev_bind; [eapply ev_bind; [exact H|apply ev_all; intros n; reflexivity]|]. apply ev_all. intros n. reflexivity.
  Qed.
  Lemma eat_if_yes e (t : tok) r' b a la sc : fst t = e ->
    eat_if_ list_pk list_nx e (mk_pst (t :: r') b [] a la sc : pst) = eat (mk_pst (t :: r') b [] a la sc : pst).
  Proof. intros <-. unfold eat_if_, p_peek. cbn [p_lex list_pk hd_error option_map]. now rewrite token_eqb_refl. Qed.
  Lemma eat_if_no e (r' : list tok) b a la sc : ~ heads (fun t => fst t = e) r' ->
    eat_if_ list_pk list_nx e (mk_pst r' b [] a la sc : pst) = Ok (mk_pst r' b [] a la sc : pst).
  Proof.
    intros H. unfold eat_if_, p_peek. cbn [p_lex]. destruct r' as [|t r']; [reflexivity|]. cbn [list_pk hd_error option_map].
    unfold token_eqb. destruct (token_eq_dec _ _) as [E|E]; [|reflexivity]. now contradiction H.
  Qed.

  Lemma extract_held h k ps C a la sc :
    extract_holding_trivia (mk_pst k (mk_builder ps C) h a la sc : pst) = mk_pst k (mk_builder ps (C ++ map lf h)) [] a la sc.
  Proof.
    unfold extract_holding_trivia. cbn [p_trivia].
    assert (K : forall tr, fold_left (fun (st : pst) t => token_ (kind_of_token (fst t)) (snd t) st) h (mk_pst k (mk_builder ps C) tr a la sc)
      = mk_pst k (mk_builder ps (C ++ map lf h)) tr a la sc); [|now rewrite K].
    induction h as [|x g IH] in C |- *; intros tr; cbn [map fold_left]; [now rewrite app_nil_r|].
    specialize (IH (C ++ [lf x]) tr). rewrite <- app_assoc in IH. exact IH.
  Qed.

  (** ** Skipped conditionals *)
  Lemma skipped_reads k ts xs r : skipped k ts xs r -> forall ps C a la sc,
    ev (fun n => run n (KIfs k) (mk_pst ts (mk_builder ps C) [] a la sc) = Ok (true, mk_pst r (mk_builder ps (C ++ xs)) [] a la sc)).
  Proof.
    induction 1 as [k|k i s r xs r' H IH|k s r xs r' H IH|s r|k t r xs r' H1 H2 H IH]; intros ps C a la sc; apply ev_run; cbn [dispatch]; unfold ifs_loop, p_peek; cbn [p_lex list_pk hd_error option_map].
    - apply ev_all. intros n. now rewrite app_nil_r.
    - cbn [fst]. rewrite eat_step. cbn [bind]. specialize (IH ps (C ++ [lf (CommandName (CIf i), s)]) a la sc). rewrite <- app_assoc in IH. exact IH.
    - cbn [fst]. rewrite eat_step. cbn [bind]. specialize (IH ps (C ++ [lf (CommandName CEndIf, s)]) a la sc). rewrite <- app_assoc in IH. exact IH.
    - apply ev_all. intros n. rewrite app_nil_r. reflexivity.
    - assert (K : ev (fun n => (let* st := eat (mk_pst (t :: r) (mk_builder ps C) [] a la sc) in run n (KIfs k) st) = Ok (true, mk_pst r' (mk_builder ps (C ++ lf t :: xs)) [] a la sc))).
      { rewrite eat_step. cbn [bind]. specialize (IH ps (C ++ [lf t]) a la sc). rewrite <- app_assoc in IH. exact IH. }
      destruct t as [t s]. cbn [fst] in *. destruct t; try exact K. destruct c; try exact K; [exfalso; eapply H1; reflexivity|now contradiction H2].
  Qed.

  (** ** The cases *)
  Lemma st_add ps P s l p ts xs : 
    st ps P s (add xs l) p ts = mk_pst ts (mk_builder ps ((P ++ all l) ++ xs)) [] (start_pos P s (from l)) (last_pos P l) (scope_of p).
  Proof. unfold st. rewrite all_add, from_add, app_assoc. f_equal. unfold last_pos. destruct l as [b [ys|] f]; reflexivity. Qed.
  Lemma st_baseless ps P s l p ts xs :
    st ps P s (add xs (baseless l)) p ts = mk_pst ts (mk_builder ps ((P ++ all l) ++ xs)) [] (start_pos P s (from l)) None (scope_of p).
  Proof. rewrite st_add, all_baseless. reflexivity. Qed.

  Lemma group_case q t k r l r' (cl : list tree) r'' : brackets q (fst t) k -> reads_content q false (fresh Start) r l r' ->
    (forall ps C a la sc, eat_if_ list_pk list_nx (match closer q with Some e => e | None => Dollar end) (mk_pst r' (mk_builder ps C) [] a la sc : pst) = Ok (mk_pst r'' (mk_builder ps (C ++ cl)) [] a la sc)) ->
    reads_group q t r (Node k (lf t :: all l ++ cl)) r''.
  Proof.
    intros Hb Hc He ps C a la sc. destruct (scope_kind _ _ _ Hb) as (e & E1 & E2). rewrite E2 in He.
    eapply ev_eq; [intros n; apply (item_group_eq q e k n); exact E1|]. rewrite start_step, eat_step. cbn [bind].
    eapply ev_bind; [apply (item_list_reads q _ _ _ Hc)|]. { cbn. rewrite app_length. cbn. lia. }
    apply ev_all. intros n. cbn beta. rewrite He. cbn [bind].
    replace (((C ++ [leaf t]) ++ all l) ++ cl) with (C ++ (lf t :: all l ++ cl)) by (rewrite <- !app_assoc; reflexivity). apply finish_step.
  Qed.

  Lemma command_eq n (s0 : pst) t name r : list_pk (p_lex s0) = Some (t, 92%N :: name) -> named t -> p_lex s0 = (t, 92%N :: name) :: r ->
    forall f, Parser.content list_pk list_nx list_set sp (run n) f s0 =
    match command_shape sp name with
    | None | Some (SRight PNone) | Some (SRight (PFixed 0)) =>
        let* s := eat (start_node ItemCmd s0) in let* s := finish_node s in Ok (true, s)
    | Some SLeft1 =>
        let pos := match p_last s0 with Some p => Some p | None => p_start s0 end in
        let* s := start_command_at pos s0 in let* s := eat s in let* s := finish_node s in Ok (false, s)
    | Some (SRight p) => right_command list_pk list_nx (run n) p (start_node ItemCmd s0)
    | Some SInfixGreedy =>
        let pos := p_start s0 in
        let* s := start_command_at pos (with_start None s0) in right_command list_pk list_nx (run n) PGreedy s
    end.
  Proof.
    intros Hp Hn Hl f. unfold Parser.content, p_peek. rewrite Hp. cbn [option_map fst].
    assert (E : command list_pk list_nx sp (run n) s0 =
      match command_shape sp name with
      | None | Some (SRight PNone) | Some (SRight (PFixed 0)) =>
          let* s := eat (start_node ItemCmd s0) in let* s := finish_node s in Ok (true, s)
      | Some SLeft1 =>
          let pos := match p_last s0 with Some p => Some p | None => p_start s0 end in
          let* s := start_command_at pos s0 in let* s := eat s in let* s := finish_node s in Ok (false, s)
      | Some (SRight p) => right_command list_pk list_nx (run n) p (start_node ItemCmd s0)
      | Some SInfixGreedy =>
          let pos := p_start s0 in
          let* s := start_command_at pos (with_start None s0) in right_command list_pk list_nx (run n) PGreedy s
      end).
    { unfold command. rewrite Hp. reflexivity. }
    destruct Hn as [Hn|(i & -> & H1 & H2)].
    - cbn in Hn. destruct Hn as [<-|[<-|[<-|[<-|[]]]]]; exact E.
    - destruct i; try exact E; congruence.
  Qed.

  Definition content_eq n f (s : pst) : run (S n) (KContent f) s = Parser.content list_pk list_nx list_set sp (run n) f s := eq_refl.

  Lemma simple_case p f l t r b x r' :
    (forall ps C a la, ev (fun n => run n (KContent (negb f)) (mk_pst (t :: r) (mk_builder ps C) [] a la (scope_of p)) = Ok (b, mk_pst r' (mk_builder ps (C ++ [x])) [] a la (scope_of p)))) ->
    reads_element p f l t r b (add [x] l) r'.
  Proof. intros H ps P s _. rewrite st_add. apply H. Qed.

  Lemma base_case p f l t r : mark_base (fst t) -> reads_element p f l t r true (add [lf t] l) r.
  Proof.
    intros Hm. apply simple_case. intros ps C a la.
    assert (K : ev (fun n => (let* st := eat (mk_pst (t :: r) (mk_builder ps C) [] a la (scope_of p) : pst) in Ok (true, st)) = Ok (true, mk_pst r (mk_builder ps (C ++ [lf t])) [] a la (scope_of p)))).
    { apply ev_all. intros n. rewrite eat_step. reflexivity. }
    destruct t as [t s]. cbn [fst] in Hm. unfold mark_base in Hm. cbn [In] in Hm.
    repeat (destruct Hm as [<-|Hm]; [apply ev_run; exact K|]). contradiction.
  Qed.
  Lemma plain_case p f l t r : mark_plain (fst t) -> reads_element p f l t r false (add [lf t] l) r.
  Proof.
    intros Hm. apply simple_case. intros ps C a la.
    assert (K : ev (fun n => (let* st := eat (mk_pst (t :: r) (mk_builder ps C) [] a la (scope_of p) : pst) in Ok (false, st)) = Ok (false, mk_pst r (mk_builder ps (C ++ [lf t])) [] a la (scope_of p)))).
    { apply ev_all. intros n. rewrite eat_step. reflexivity. }
    destruct t as [t s]. cbn [fst] in Hm. unfold mark_plain in Hm. cbn [In] in Hm.
    repeat (destruct Hm as [<-|Hm]; [apply ev_run; exact K|]). contradiction.
  Qed.
  Lemma stray_case p f l t r : stray (fst t) -> reads_element p f l t r true (add [Node TokenError [lf t]] l) r.
  Proof.
    intros Hm. apply simple_case. intros ps C a la.
    assert (K : ev (fun n => (let* st := error_node list_pk list_nx (mk_pst (t :: r) (mk_builder ps C) [] a la (scope_of p) : pst) in Ok (true, st)) = Ok (true, mk_pst r (mk_builder ps (C ++ [Node TokenError [lf t]])) [] a la (scope_of p)))).
    { apply ev_all. intros n. unfold error_node. rewrite start_step, eat_step. cbn [bind]. rewrite finish_step. reflexivity. }
    destruct t as [t s]. cbn [fst] in Hm. destruct Hm as [Hm|[m ->]]; [|apply ev_run; exact K].
    cbn [In] in Hm. repeat (destruct Hm as [<-|Hm]; [apply ev_run; exact K|]). contradiction.
  Qed.
  Lemma text_case p f l t ts r : fst t = Comma \/ fst t = Word /\ f = false -> Forall text_token ts -> ~ heads text_token r ->
    reads_element p f l t (ts ++ r) true (add [Node ItemText (map lf (t :: ts))] l) r.
  Proof.
    intros Ht Hts Hr. apply simple_case. intros ps C a la. apply ev_run. cbn [dispatch].
    assert (K : ev (fun n => (let* st := p_text list_pk list_nx (run n) (mk_pst (t :: ts ++ r) (mk_builder ps C) [] a la (scope_of p) : pst) in Ok (true, st)) = Ok (true, mk_pst r (mk_builder ps (C ++ [Node ItemText (map lf (t :: ts))])) [] a la (scope_of p)))).
    { eapply ev_bind; [|apply ev_all; reflexivity]. unfold p_text. rewrite start_step, eat_step. cbn [bind].
      eapply ev_bind; [unfold rec_; eapply ev_bind; [apply (texts_ev gm sp ts r); assumption|apply ev_all; intros n; reflexivity]|]. apply ev_all. intros n.
      replace ((C ++ [leaf t]) ++ map lf ts) with (C ++ map lf (t :: ts)) by (cbn [map]; rewrite <- app_assoc; reflexivity). apply finish_step. }
    destruct t as [t s]. cbn [fst] in Ht. destruct Ht as [->|[-> ->]]; exact K.
  Qed.
  Lemma consume_char c s r ps C a la sc : lex_consume list_pk list_nx list_set (utf8_len c) (mk_pst ((Word, c :: s) :: r) (mk_builder ps C) [] a la sc : pst) = Ok (mk_pst (rest_word s r) (mk_builder ps C) [] a la sc).
  Proof.
    destruct s as [|d s]; cbn [rest_word].
    - replace (utf8_len c) with (blen [c]) by (cbn; lia). apply consume_all.
    - rewrite <- (Nat.add_0_r (utf8_len c)). rewrite consume_shift by discriminate. reflexivity.
  Qed.
  Lemma char_case p l c s r : reads_element p true l (Word, c :: s) r true (add [Leaf TokenWord [c]] l) (rest_word s r).
  Proof.
    apply simple_case. intros ps C a la. apply ev_run, ev_all. intros n. cbn [dispatch negb]. unfold Parser.content, p_peek. cbn [p_lex list_pk hd_error option_map fst].
    unfold single_char. cbn [p_lex list_pk hd_error].
    refine (eq_trans (f_equal (fun x => bind x _) (consume_char c s r ps (C ++ [Leaf TokenWord [c]]) a la (scope_of p))) _). reflexivity.
  Qed.
  Lemma group_elem p f l t r x r' q b : (fst t = TLeft Curly /\ q = Braces /\ b = true) \/ (fst t = Dollar /\ q = Dollars_ /\ b = false) \/ (fst t = CommandName BeginMath /\ q = Math_ /\ b = false) ->
    reads_group q t r x r' -> reads_element p f l t r b (add [x] l) r'.
  Proof.
    intros Ht H. apply simple_case. intros ps C a la. specialize (H ps C a la (scope_of p)).
    assert (K : ev (fun n => (let* st := item_group list_pk list_nx (run n) (scope_of q) (mk_pst (t :: r) (mk_builder ps C) [] a la (scope_of p) : pst) in Ok (b, st)) = Ok (b, mk_pst r' (mk_builder ps (C ++ [x])) [] a la (scope_of p)))).
    { eapply ev_bind; [exact H|]. apply ev_all. reflexivity. }
    destruct t as [t s]. cbn [fst] in Ht. apply ev_run.
    destruct Ht as [(-> & -> & ->)|[(-> & -> & ->)|(-> & -> & ->)]]; exact K.
  Qed.
  Lemma sides_case p f l t r c1 r1 l1 r2 e r' : fst t = CommandName CLeft -> clause t r c1 r1 ->
    reads_content Sides false (fresh Start) r1 l1 r2 -> right_side r2 e r' ->
    reads_element p f l t r true (add [Node ItemLR (c1 :: all l1 ++ e)] l) r'.
  Proof.
    intros Ht H1 H2 H3. apply simple_case. intros ps C a la. apply ev_run. cbn [dispatch].
    unfold Parser.content, p_peek. cbn [p_lex list_pk hd_error option_map]. rewrite Ht.
    eapply ev_bind; [|apply ev_all; reflexivity]. unfold item_lr. rewrite start_step.
    eapply ev_bind; [eapply clause_ev2; exact H1|].
    eapply ev_bind; [apply (item_list_reads Sides _ _ _ H2)|]. { cbn. rewrite app_length. lia. }
    assert (H4 : forall ps C a la sc, ev (fun n => match p_peek list_pk (mk_pst r2 (mk_builder ps C) [] a la sc : pst) with
       | Some (CommandName CRight) => clause_lr list_pk list_nx list_set (run n) (mk_pst r2 (mk_builder ps C) [] a la sc : pst) | _ => Ok (mk_pst r2 (mk_builder ps C) [] a la sc) end =
       Ok (mk_pst r' (mk_builder ps (C ++ e)) [] a la sc))).
    { intros ps0 C0 a0 la0 sc0. destruct H3 as [s3 r3 c3 r3' H3|r3 H3].
      - cbn [p_peek p_lex list_pk hd_error option_map fst]. eapply clause_ev2. exact H3.
      - apply ev_all. intros n. rewrite app_nil_r. destruct r3 as [|[t' s'] r3]; [reflexivity|]. cbn [p_peek p_lex list_pk hd_error option_map fst].
        cbn in H3. destruct t' as [| | |[]|[]| | | | | | | | | | | | | | | | [] | |]; try reflexivity. now contradiction H3. }
    eapply ev_bind; [apply H4|]. apply ev_all. intros n.
    replace (((C ++ [c1]) ++ all l1) ++ e) with (C ++ (c1 :: all l1 ++ e)) by (rewrite <- !app_assoc; reflexivity). apply finish_step.
  Qed.
  Lemma env_end_step r2 e r' : env_end r2 e r' -> forall ps C a la sc,
    match p_peek list_pk (mk_pst r2 (mk_builder ps C) [] a la sc : pst) with
    | Some (CommandName EndEnvironment) => let* st := eat (start_node ItemEnd (mk_pst r2 (mk_builder ps C) [] a la sc : pst)) in finish_node st
    | _ => Ok (mk_pst r2 (mk_builder ps C) [] a la sc) end =
    Ok (mk_pst r' (mk_builder ps (C ++ e)) [] a la sc).
  Proof.
    intros H ps C a la sc. destruct H as [s r|r H].
    - cbn [p_peek p_lex list_pk hd_error option_map fst]. rewrite start_step, eat_step. cbn [bind]. apply finish_step.
    - rewrite app_nil_r. destruct r as [|[t' s'] r]; [reflexivity|]. cbn [p_peek p_lex list_pk hd_error option_map fst].
      cbn in H. destruct t' as [| | |[]|[]| | | | | | | | | | | | | | | | [] | |]; try reflexivity. now contradiction H.
  Qed.
  (** the arguments of an environment *)
  Lemma env_case p f l l0 t r args held r1 l1 r2 e r' : fst t = CommandName BeginEnvironment ->
    (forall ps C a la, exists la', (forall P s, a = start_pos P s (from l) -> la = last_pos P l -> la' = last_pos P l0) /\
       ev (fun n => match begin_shape sp (snd t) with None | Some PNone | Some (PFixed 0) => Ok (mk_pst r (mk_builder ps C) [] a la (scope_of p) : pst)
            | Some p0 => match_arguments (run n) false (start_match p0) (mk_pst r (mk_builder ps C) [] a la (scope_of p)) end =
            Ok (mk_pst r1 (mk_builder ps (C ++ args)) held a la' (scope_of p)))) ->
    all l0 = all l -> from l0 = from l ->
    reads_content Body false (fresh Start) r1 l1 r2 -> env_end r2 e r' ->
    reads_element p f l t r true (add [Node ItemEnv (Node ItemBegin (lf t :: args) :: map lf held ++ all l1 ++ e)] l0) r'.
  Proof.
    intros Ht Ha El Ef H2 H3 ps P s Hf. rewrite st_add, El, Ef. unfold st. set (C := P ++ all l) in *. apply ev_run. cbn [dispatch].
    unfold Parser.content, p_peek. cbn [p_lex list_pk hd_error option_map]. rewrite Ht.
    eapply ev_bind; [|apply ev_all; reflexivity]. unfold environment. rewrite !start_step. cbn [p_lex list_pk hd_error]. destruct t as [t s1]. cbn [fst] in Ht. subst t.
    cbn [p_lex list_pk hd_error]. rewrite eat_step. cbn [bind snd] in *.
    destruct (Ha ((ItemBegin, List.length C) :: (ItemEnv, List.length C) :: ps) (C ++ [leaf (CommandName BeginEnvironment, s1)]) (start_pos P s (from l)) (last_pos P l)) as (la' & Hla & K).
    rewrite (Hla P s eq_refl eq_refl) in K.
    eapply ev_bind; [exact K|].
    replace ((C ++ [leaf (CommandName BeginEnvironment, s1)]) ++ args) with (C ++ (lf (CommandName BeginEnvironment, s1) :: args)) by (rewrite <- !app_assoc; reflexivity).
    rewrite finish_step. cbn [bind]. rewrite extract_held.
    eapply ev_bind; [apply (item_list_reads Body _ _ _ H2)|]. { cbn. rewrite !app_length. lia. }
    eapply ev_bind; [apply ev_all; intros n; apply (env_end_step _ _ _ H3)|]. apply ev_all. intros n.
    match goal with |- context [mk_builder _ ?X] => replace X with (C ++ (Node ItemBegin (lf (CommandName BeginEnvironment, s1) :: args) :: map lf held ++ all l1 ++ e)) by (rewrite <- !app_assoc; reflexivity) end.
    apply finish_step.
  Qed.

  (** ** Commands *)
  Lemma not_greedy a : a <> PGreedy -> is_greedy (start_match a) = false.
  Proof. destruct a as [|n|? n| |g]; cbn; try reflexivity; try congruence; intros _; destruct (n =? 0)%N; reflexivity. Qed.
  Lemma margs p a r args held r' : reads_arguments p a [] [] r args held r' -> a <> PGreedy -> forall ps C s0 la,
    ev (fun n => match_arguments (run n) false (start_match a) (mk_pst r (mk_builder ps C) [] s0 la (scope_of p)) =
                 Ok (mk_pst r' (mk_builder ps (C ++ args)) held s0 None (scope_of p))).
  Proof.
    intros H Ha ps C s0 la. unfold match_arguments. rewrite (not_greedy a Ha). cbn [negb Bool.eqb].
    eapply ev_bind; [unfold rec_; eapply ev_bind; [apply (H (start_match a) _ ps C (mrel_start a Ha))|apply ev_all; reflexivity]|]. apply ev_all. reflexivity.
  Qed.
  Lemma mrest p r l1 r' : reads_content p true (fresh Start) r l1 r' -> forall ps C s0 la, first_child ps <= List.length C ->
    ev (fun n => match_arguments (run n) true AMGreedy (mk_pst r (mk_builder ps C) [] s0 la (scope_of p)) =
                 Ok (mk_pst r' (mk_builder ps (C ++ all l1)) [] s0 None (scope_of p))).
  Proof.
    intros H ps C s0 la Hc. assert (Hf : fits ps C 0 (fresh Start)) by (split; [exact Hc|discriminate]). specialize (H ps C 0 Hf).
    unfold st in H. cbn [all fresh before base based from app start_pos last_pos loop] in H. rewrite app_nil_r in H.
    unfold match_arguments. cbn [is_greedy negb Bool.eqb].
    eapply ev_bind; [unfold rec_; eapply ev_bind; [exact H|apply ev_all; reflexivity]|]. apply ev_all. reflexivity.
  Qed.
  Definition right_shape (a : arg_pattern) : Prop := ~ no_args (Some a).
  Lemma shape_right {A} (a : arg_pattern) (x : A) (y : arg_pattern -> A) : right_shape a ->
    match a with PNone | PFixed 0 => x | _ => y a end = y a.
  Proof. intros H. destruct a as [|[|]| | |]; try reflexivity; exfalso; apply H; unfold no_args; auto. Qed.
  Lemma command_run p f l t r name ps P s b st' : named (fst t) -> snd t = 92%N :: name ->
    ev (fun n => match command_shape sp name with
    | None | Some (SRight PNone) | Some (SRight (PFixed 0)) =>
        let* s := eat (start_node ItemCmd (st ps P s l p (t :: r))) in let* s := finish_node s in Ok (true, s)
    | Some SLeft1 =>
        let pos := match last_pos P l with Some p => Some p | None => start_pos P s (from l) end in
        let* s := start_command_at pos (st ps P s l p (t :: r)) in let* s := eat s in let* s := finish_node s in Ok (false, s)
    | Some (SRight a) => right_command list_pk list_nx (run n) a (start_node ItemCmd (st ps P s l p (t :: r)))
    | Some SInfixGreedy =>
        let* s := start_command_at (start_pos P s (from l)) (with_start None (st ps P s l p (t :: r))) in right_command list_pk list_nx (run n) PGreedy s
    end = Ok (b, st')) ->
    ev (fun n => run n (KContent (negb f)) (st ps P s l p (t :: r)) = Ok (b, st')).
  Proof.
    intros Hn Hs H. apply ev_run. cbn [dispatch]. destruct t as [t w]. cbn [fst snd] in Hn, Hs. subst w.
    eapply ev_eq; [intros n; apply (command_eq n (st ps P s l p ((t, 92%N :: name) :: r)) t name r eq_refl Hn eq_refl)|]. exact H.
  Qed.
  Lemma bare_case p f l t r name : named (fst t) -> snd t = 92%N :: name -> bare sp name ->
    reads_element p f l t r true (add [Node ItemCmd [lf t]] l) r.
  Proof.
    intros Hn Hs (o & Ho & Hb) ps P s Hf. rewrite st_add. eapply command_run; try eassumption. rewrite Hb.
    destruct Ho as [-> |[-> | ->]]; cbn [option_map]; unfold st; rewrite start_step, eat_step; cbn [bind]; rewrite finish_step; apply ev_all; reflexivity.
  Qed.
  Lemma args_case p f l t r name a args held r' : named (fst t) -> snd t = 92%N :: name ->
    command_shape sp name = Some (SRight a) -> ~ no_args (Some a) -> a <> PGreedy -> reads_arguments p a [] [] r args held r' ->
    reads_element p f l t r true (add (Node ItemCmd (lf t :: args) :: map lf held) (baseless l)) r'.
  Proof.
    intros Hn Hs Hc Ha Hg H ps P s Hf. rewrite st_baseless. eapply command_run; try eassumption. rewrite Hc.
    pose proof (fun st0 n => shape_right a (let* s := eat (start_node ItemCmd st0) in let* s := finish_node s in Ok (true, s)) (fun a => right_command list_pk list_nx (run n) a (start_node ItemCmd st0)) Ha) as E.
    cbv beta in E. eapply ev_eq; [intros n; apply E|].
    unfold right_command, st. rewrite start_step, eat_step. cbn [bind]. rewrite (not_greedy a Hg).
    eapply ev_bind; [apply (margs _ _ _ _ _ _ H Hg)|]. apply ev_all. intros n.
    replace (((P ++ all l) ++ [leaf t]) ++ args) with ((P ++ all l) ++ (lf t :: args)) by (rewrite <- !app_assoc; reflexivity).
    rewrite finish_step. cbn [bind negb]. rewrite extract_held, <- app_assoc. reflexivity.
  Qed.
  Lemma greedy_right p r l1 r' t ps C X s0 la : reads_content p true (fresh Start) r l1 r' ->
    ev (fun n => right_command list_pk list_nx (run n) PGreedy (mk_pst (t :: r) (mk_builder ((ItemCmd, List.length C) :: ps) (C ++ X)) [] s0 la (scope_of p)) =
                 Ok (false, mk_pst r' (mk_builder ps (C ++ [Node ItemCmd (X ++ [lf t; as_argument (all l1)])])) [] s0 None (scope_of p))).
  Proof.
    intros H. unfold right_command. rewrite eat_step. cbn [bind]. cbn [start_match is_greedy]. rewrite start_step.
    assert (E : forall n (st0 : pst) st1, match_arguments (run n) true AMGreedy st0 = Ok st1 -> 
       (let* st := (let* st := match_arguments (run n) true AMGreedy st0 in finish_node st) in let* st := finish_node st in Ok (false, extract_holding_trivia st)) =
       (let* st := finish_node st1 in let* st := finish_node st in Ok (false, extract_holding_trivia st))).
    { intros n st0 st1 E. rewrite E. reflexivity. }
    destruct (mrest p r l1 r' H ((ClauseArgument, List.length ((C ++ X) ++ [leaf t])) :: (ItemCmd, List.length C) :: ps) ((C ++ X) ++ [leaf t]) s0 la (le_n _)) as [N K].
    exists N. intros n Hn. cbn [negb].
    refine (eq_trans (E n _ _ (K n Hn)) _). rewrite finish_step. cbn [bind].
    replace (((C ++ X) ++ [leaf t]) ++ [Node ClauseArgument (all l1)]) with (C ++ (X ++ [lf t; as_argument (all l1)])) by (rewrite <- !app_assoc; reflexivity).
    rewrite finish_step. reflexivity.
  Qed.
  Lemma greedy_case p f l t r name l1 r' : named (fst t) -> snd t = 92%N :: name ->
    command_shape sp name = Some (SRight PGreedy) -> reads_content p true (fresh Start) r l1 r' ->
    reads_element p f l t r false (add [Node ItemCmd [lf t; as_argument (all l1)]] (baseless l)) r'.
  Proof.
    intros Hn Hs Hc H ps P s Hf. rewrite st_baseless. eapply command_run; try eassumption. rewrite Hc.
    unfold st. rewrite start_step. pose proof (greedy_right p r l1 r' t ps (P ++ all l) [] (start_pos P s (from l)) (last_pos P l) H) as K.
    rewrite app_nil_r in K. exact K.
  Qed.
  (** wrapping what was read since a checkpoint *)
  Lemma wrap_step k C X ts ps s0 la sc : first_child ps <= List.length C ->
    start_command_at (Some (List.length C)) (mk_pst ts (mk_builder ps (C ++ X)) [] s0 la sc : pst) =
    Ok (mk_pst ts (mk_builder ((ItemCmd, List.length C) :: ps) (C ++ [as_argument X])) [] s0 la sc) /\
    (let* st := start_node_at (List.length C) k (mk_pst ts (mk_builder ps (C ++ X)) [] s0 la sc : pst) in
     let* st := start_node_at (List.length C) ClauseArgument st in finish_node st) =
    Ok (mk_pst ts (mk_builder ((k, List.length C) :: ps) (C ++ [as_argument X])) [] s0 la sc).
  Proof.
    intros H. assert (G : forall k, (let* st := start_node_at (List.length C) k (mk_pst ts (mk_builder ps (C ++ X)) [] s0 la sc : pst) in
     let* st := start_node_at (List.length C) ClauseArgument st in finish_node st) =
      Ok (mk_pst ts (mk_builder ((k, List.length C) :: ps) (C ++ [as_argument X])) [] s0 la sc)).
    { intros k0. rewrite start_at_step; [|rewrite app_length; lia|destruct ps as [|[? ?] ?]; [exact I|exact H]]. cbn [bind].
      rewrite start_at_step; [|rewrite app_length; lia|apply le_n]. cbn [bind]. apply finish_step. }
    split; [apply (G ItemCmd)|apply G].
  Qed.
  Lemma postfix_case p f l t r name ys : named (fst t) -> snd t = 92%N :: name ->
    command_shape sp name = Some SLeft1 -> base l = Some ys ->
    reads_element p f l t r false (mk_line (before l) (Some [Node ItemCmd [as_argument ys; lf t]]) (from l)) r.
  Proof.
    intros Hn Hs Hc Hb ps P s [Hf _]. eapply command_run; try eassumption. rewrite Hc. cbv zeta. apply ev_all. intros n.
    unfold st, last_pos, all. rewrite Hb. cbn [base before from based]. rewrite !app_assoc, <- app_length.
    refine (eq_trans (f_equal (fun x => bind x _) (proj1 (wrap_step ItemCmd (P ++ before l) ys (t :: r) ps _ _ _ _))) _); [rewrite app_length; lia|]. cbn [bind].
    rewrite eat_step. cbn [bind]. rewrite <- app_assoc. cbn [app]. rewrite finish_step. cbn [bind]. reflexivity.
  Qed.
  Lemma postfix_all_case p f l t r name : named (fst t) -> snd t = 92%N :: name ->
    command_shape sp name = Some SLeft1 -> base l = None -> from l = Start ->
    reads_element p f l t r false (mk_line [Node ItemCmd [as_argument (all l); lf t]] None Start) r.
  Proof.
    intros Hn Hs Hc Hb Hr ps P s [Hf _]. eapply command_run; try eassumption. rewrite Hc. cbv zeta. apply ev_all. intros n.
    unfold st, last_pos. rewrite Hb, Hr. cbn [start_pos base from].
    refine (eq_trans (f_equal (fun x => bind x _) (proj1 (wrap_step ItemCmd P (all l) (t :: r) ps _ _ _ Hf))) _). cbn [bind].
    rewrite eat_step. cbn [bind]. rewrite <- app_assoc. cbn [app]. rewrite finish_step. reflexivity.
  Qed.
  Lemma postfix_none_case p f l t r name : named (fst t) -> snd t = 92%N :: name ->
    command_shape sp name = Some SLeft1 -> base l = None -> from l = Gone ->
    reads_element p f l t r false (add [Node ItemCmd [lf t]] l) r.
  Proof.
    intros Hn Hs Hc Hb Hr ps P s [Hf _]. rewrite st_add. eapply command_run; try eassumption. rewrite Hc. cbv zeta. apply ev_all. intros n.
    unfold st, last_pos. rewrite Hb, Hr. cbn [start_pos start_command_at bind]. rewrite start_step, eat_step. cbn [bind]. rewrite finish_step. reflexivity.
  Qed.
  Lemma infix_case p f l t r name l1 r' : named (fst t) -> snd t = 92%N :: name ->
    command_shape sp name = Some SInfixGreedy -> from l = Start -> reads_content p true (fresh Start) r l1 r' ->
    reads_element p f l t r false (mk_line [Node ItemCmd [as_argument (all l); lf t; as_argument (all l1)]] None Gone) r'.
  Proof.
    intros Hn Hs Hc Hr H ps P s [Hf _]. eapply command_run; try eassumption. rewrite Hc.
    unfold st, with_start. rewrite Hr. cbn [start_pos p_lex p_b p_trivia p_last p_scope].
    eapply ev_bind; [apply ev_all; intros n; apply (proj1 (wrap_step ItemCmd P (all l) (t :: r) ps None _ _ Hf))|].
    exact (greedy_right p r l1 r' t ps P [as_argument (all l)] None (last_pos P l) H).
  Qed.
  Lemma infix_again_case p f l t r name l1 r' : named (fst t) -> snd t = 92%N :: name ->
    command_shape sp name = Some SInfixGreedy -> from l = Gone -> reads_content p true (fresh Start) r l1 r' ->
    reads_element p f l t r false (add [Node ItemCmd [lf t; as_argument (all l1)]] (baseless l)) r'.
  Proof.
    intros Hn Hs Hc Hr H ps P s [Hf _]. rewrite st_baseless. eapply command_run; try eassumption. rewrite Hc.
    unfold st, with_start. rewrite Hr. cbn [start_pos p_lex p_b p_trivia p_last p_scope start_command_at bind]. rewrite start_step.
    pose proof (greedy_right p r l1 r' t ps (P ++ all l) [] None (last_pos P l) H) as K. rewrite app_nil_r in K. exact K.
  Qed.
  Lemma prime_case p f l s r ys : base l = Some ys ->
    reads_element p f l (Apostrophe, s) r false
      (mk_line (before l) (Some [Node ItemAttachComponent [as_argument ys; lf (Apostrophe, s)]]) (from l)) r.
  Proof.
    intros Hb ps P s0 [Hf _]. apply ev_run, ev_all. intros n. cbn [dispatch]. unfold Parser.content, p_peek, st. cbn [p_lex list_pk hd_error option_map fst].
    unfold attach_component, last_pos, all. cbn [p_last base before from based]. rewrite Hb. cbn [based]. rewrite !app_assoc, <- app_length.
    match goal with |- bind ?X _ = _ => assert (E : X = Ok (mk_pst r (mk_builder ps ((P ++ before l) ++ [Node ItemAttachComponent [as_argument ys; lf (Apostrophe, s)]])) [] (start_pos P s0 (from l)) (Some (List.length (P ++ before l))) (scope_of p))) end.
    { pose proof (proj2 (wrap_step ItemAttachComponent (P ++ before l) ys ((Apostrophe, s) :: r) ps (start_pos P s0 (from l)) (Some (List.length (P ++ before l))) (scope_of p) ltac:(rewrite app_length; lia))) as W.
      destruct (start_node_at _ ItemAttachComponent _) as [x1| |]; try discriminate W. cbn [bind] in W |- *.
      destruct (start_node_at _ ClauseArgument _) as [x2| |]; try discriminate W. cbn [bind] in W |- *. rewrite W. cbn [bind].
      rewrite eat_step. cbn [bind]. rewrite <- app_assoc. cbn [app]. apply finish_step. }
    rewrite E. reflexivity.
  Qed.
  Lemma prime_alone_case p f l s r : base l = None -> reads_element p f l (Apostrophe, s) r false (add [lf (Apostrophe, s)] l) r.
  Proof.
    intros Hb ps P s0 [Hf _]. rewrite st_add. apply ev_run, ev_all. intros n. cbn [dispatch]. unfold Parser.content, p_peek, st. cbn [p_lex list_pk hd_error option_map fst].
    unfold attach_component, last_pos. cbn [p_last]. rewrite Hb. cbn [negb]. rewrite eat_step. reflexivity.
  Qed.

  (** ** Scripts *)
  Definition beyond (P : list tree) (s : nat) (l : line) : nat := match from l with Start => List.length P | _ => s end.
  Definition script_ps (P : list tree) (l : line) (ps : list (kind * nat)) := (ItemAttachComponent, List.length (P ++ before l)) :: ps.
  Lemma inside_start P s l t bs : start_pos (P ++ before l) (beyond P s l) (from (inside l t bs)) = start_pos P s (from l).
  Proof.
    unfold inside, beyond. destruct l as [bf [ys|] fr]; cbn; destruct fr; try reflexivity; destruct bf; cbn; rewrite ?app_nil_r; reflexivity.
  Qed.
  Lemma inside_fits ps P s l t bs : fits ps P s l -> fits (script_ps P l ps) (P ++ before l) (beyond P s l) (inside l t bs).
  Proof.
    intros [H1 H2]. split; [apply le_n|]. unfold inside, beyond, script_ps. cbn [first_child].
    destruct l as [bf [ys|] fr]; cbn in *; destruct fr; try discriminate; try (intros _; rewrite app_length; specialize (H2 eq_refl); lia); destruct bf; try discriminate; intros _; rewrite app_length; cbn; lia.
  Qed.
  Lemma attach_eq n ps P s l p t w : fits ps P s l ->
    attach_component list_pk list_nx (run n) true (st ps P s l p (t :: w)) =
    (let* x := rec_ (run n) KTrivia (st (script_ps P l ps) (P ++ before l) (beyond P s l) (inside l t []) p w) in
     let* x := rec_ (run n) (KContent false) x in finish_node x).
  Proof.
    intros [Hf _]. unfold attach_component. unfold st at 1. cbn [p_last].
    assert (E : forall x y z : res pst, x = y -> (let* a := x in z) = (let* a := y in z)) by (intros; congruence).
    unfold st. rewrite inside_start. unfold last_pos, script_ps, inside, all.
    destruct l as [bf [ys|] fr]; cbn [base before from based].
    - rewrite !app_assoc, <- app_length. cbn [List.length]. rewrite Nat.add_0_r.
      pose proof (proj2 (wrap_step ItemAttachComponent (P ++ bf) ys (t :: w) ps (start_pos P s fr) (Some (List.length (P ++ bf))) (scope_of p) ltac:(rewrite app_length; lia))) as W.
      destruct (start_node_at _ ItemAttachComponent _) as [x1| |]; try discriminate W. cbn [bind] in W |- *.
      destruct (start_node_at _ ClauseArgument _) as [x2| |]; try discriminate W. cbn [bind] in W |- *. rewrite W. cbn [bind].
      rewrite eat_step. cbn [bind map app]. rewrite <- !app_assoc. cbn [app]. destruct (rec_ (run n) KTrivia _) as [y| |]; reflexivity.
    - cbn [negb]. rewrite !app_nil_r. rewrite start_step, eat_step. cbn [bind map app]. rewrite ?app_nil_r. destruct (rec_ (run n) KTrivia _) as [y| |]; reflexivity.
  Qed.
  Lemma inside_blanks l t bs : inside l t bs = add (map lf bs) (inside l t []).
  Proof. unfold inside, add. destruct l as [bf [ys|] fr]; cbn; reflexivity. Qed.
  Lemma script_blanks ps P s l p t bs k : Forall blank_token bs -> ~ heads blank_token k ->
    ev (fun n => rec_ (run n) KTrivia (st ps P s (inside l t []) p (bs ++ k)) = Ok (st ps P s (inside l t bs) p k)).
  Proof.
    intros Hb Hk. rewrite (inside_blanks l t bs), st_add. unfold rec_, st. eapply ev_bind; [apply (blanks_ev gm sp bs k); assumption|]. apply ev_all. reflexivity.
  Qed.
  Lemma script_finish ps P s l p t bs l1 r : keeps (inside l t bs) l1 ->
    finish_node (st (script_ps P l ps) (P ++ before l) (beyond P s l) l1 p r) = Ok (st ps P s (outside l l1) p r).
  Proof.
    intros (K1 & K2 & K3). unfold st at 1, script_ps. rewrite finish_step. f_equal.
    assert (Es : start_pos (P ++ before l) (beyond P s l) (from l1) = start_pos P s (from (outside l l1))).
    { assert (Eo : from (outside l l1) = match from l1 with Gone => Gone | _ => from l end) by (unfold outside; destruct (base l1); reflexivity).
      rewrite Eo. destruct K3 as [K3|K3]; [|now rewrite K3]. rewrite K3, inside_start.
      unfold inside. destruct l as [bf [ys|] fr]; cbn; destruct fr; try reflexivity; destruct bf; reflexivity. }
    unfold st. rewrite Es. unfold outside, last_pos, all. destruct (base l1) as [zs|] eqn:Eb; cbn [base before from based].
    - assert (K : before l1 = []).
      { rewrite K2 by discriminate. unfold inside in *. destruct l as [bf [ys|] fr]; cbn in *; [reflexivity|]. specialize (K1 eq_refl). congruence. }
      rewrite K. cbn [List.length app]. rewrite Nat.add_0_r, app_length, <- app_assoc. reflexivity.
    - rewrite !app_nil_r, <- app_assoc. reflexivity.
  Qed.
  Lemma content_script n f ps P s l p t w : script_mark (fst t) ->
    Parser.content list_pk list_nx list_set sp (run n) f (st ps P s l p (t :: w)) =
    (let* x := attach_component list_pk list_nx (run n) true (st ps P s l p (t :: w)) in Ok (false, x)).
  Proof. intros H. unfold Parser.content, p_peek. cbn [st p_lex list_pk hd_error option_map]. destruct H as [-> | ->]; reflexivity. Qed.
  Lemma script_case p f l t bs u r b l1 r' : script_mark (fst t) -> Forall blank_token bs -> ~ blank_token u ->
    element p true (inside l t bs) u r b l1 r' -> reads_element p true (inside l t bs) u r b l1 r' ->
    reads_element p f l t (bs ++ u :: r) false (outside l l1) r'.
  Proof.
    intros Ht Hb Hu He H ps P s Hf. apply ev_run. cbn [dispatch]. eapply ev_eq; [intros n; apply content_script; exact Ht|].
    eapply ev_bind; [|apply ev_all; reflexivity]. eapply ev_eq; [intros n; apply attach_eq; exact Hf|].
    eapply ev_bind; [apply script_blanks; [exact Hb|exact Hu]|].
    eapply ev_bind; [unfold rec_; eapply ev_bind; [apply (H (script_ps P l ps) (P ++ before l) (beyond P s l)); apply inside_fits; exact Hf|apply ev_all; reflexivity]|].
    apply ev_all. intros n. apply (script_finish ps P s l p t bs). eapply element_keeps. exact He.
  Qed.
  Lemma keeps_refl l : keeps l l. Proof. repeat split; auto. Qed.
  Lemma script_end_case p f l t bs : script_mark (fst t) -> Forall blank_token bs ->
    reads_element p f l t bs false (outside l (inside l t bs)) [].
  Proof.
    intros Ht Hb ps P s Hf. apply ev_run. cbn [dispatch]. eapply ev_eq; [intros n; apply content_script; exact Ht|].
    eapply ev_bind; [|apply ev_all; reflexivity]. eapply ev_eq; [intros n; apply attach_eq; exact Hf|].
    pose proof (script_blanks (script_ps P l ps) (P ++ before l) (beyond P s l) l p t bs [] Hb (fun x => x)) as K. rewrite app_nil_r in K.
    eapply ev_bind; [exact K|].
    eapply ev_bind; [unfold rec_; eapply ev_bind; [apply ev_run, ev_all; intros n; reflexivity|apply ev_all; reflexivity]|].
    apply ev_all. intros n. apply (script_finish ps P s l p t bs). apply keeps_refl.
  Qed.

  (** ** Arguments *)
  Lemma match_step n m cur t w (s : pst) : p_lex s = (t, w) :: tl (p_lex s) -> ~ blank_token (t, w) -> t <> Word -> ~ In t [Ampersand; Caret; Underscore] ->
    ~ (exists b, t = TLeft b) ->
    match_loop list_pk list_nx list_set gm (run n) false m cur s =
    (if stop_by_scope (p_scope s) t then Ok (true, s) else
     let '(ok, m1) := try_match gm m ARG_TERM in if negb ok then Ok (true, s) else
     let* (_, s) := p_arg false (run n (KContent true)) s in run n (KMatch false m1 cur) s).
  Proof.
    intros Hl Hb Hw Hm Hg. unfold match_loop. rewrite Hl. cbn [list_pk hd_error]. unfold blank_token in Hb. cbn in Hb, Hm.
    destruct t; try reflexivity; try (exfalso; tauto); try congruence. exfalso. apply Hg. eauto.
  Qed.
  Lemma word_eq n c s r m m1 cur ps C tr sc : try_match gm m ARG_TERM = (true, m1) -> s <> [] ->
    run (S n) (KMatch false m cur) (mk_pst ((Word, c :: s) :: r) (mk_builder ps C) tr None None sc) =
    run (S n) (KMatch false m1 cur) (mk_pst ((Word, s) :: r) (mk_builder ps (C ++ [as_argument [Leaf TokenWord [c]]])) [] None None sc).
  Proof.
    intros Hm Hs.
    assert (E : forall lx, p_arg false (fun st => Ok (true, token_ TokenWord [c] st)) (mk_pst lx (mk_builder ps C) tr None None sc : pst) =
      Ok (true, mk_pst lx (mk_builder ps (C ++ [as_argument [Leaf TokenWord [c]]])) [] None None sc)).
    { intros lx'. unfold p_arg. unfold ignore_holding_trivia, with_trivia. cbn [p_lex p_b p_start p_last p_scope]. rewrite start_step. cbn [bind].
      change (token_ TokenWord [c] (mk_pst lx' (mk_builder ((ClauseArgument, List.length C) :: ps) C) [] None None sc : pst)) with
        (mk_pst lx' (mk_builder ((ClauseArgument, List.length C) :: ps) (C ++ [Leaf TokenWord [c]])) [] None None sc : pst).
      rewrite finish_step. reflexivity. }
    cbn [Parser.run dispatch]. unfold match_loop. cbn [p_lex list_pk hd_error Parser.word_args]. rewrite Hm. cbn [negb]. rewrite E. cbn [bind].
    set (st1 := mk_pst ((Word, c :: s) :: r) (mk_builder ps (C ++ [as_argument [Leaf TokenWord [c]]])) [] None None sc : pst).
    change (mk_pst ((Word, s) :: r) (mk_builder ps (C ++ [as_argument [Leaf TokenWord [c]]])) [] None None sc : pst) with (with_lex ((Word, s) :: r) st1).
    rewrite words_relex. rewrite (Nat.add_comm 0). rewrite words_shift.
    assert (G : word_args gm s m1 0 st1 = relex ((Word, c :: s) :: r) (word_args gm s m1 0 st1)) by (rewrite <- words_relex; reflexivity).
    match goal with |- context [shift_words _ ?W] => change W with (word_args gm s m1 0 st1) end.
    destruct (word_args gm s m1 0 st1) as [[[[b m2] j] st2]| |]; try reflexivity. cbn [shift_words relex bind] in *.
    injection G as G. pose proof (utf8_len_pos c) as Hc. destruct (Nat.ltb_spec 0 (utf8_len c + j)); [|lia].
    destruct st2 as [lx b2 tr2 a2 la2 sc2]. unfold with_lex in *. cbn [p_lex p_b p_trivia p_start p_last p_scope] in *. injection G as ->.
    rewrite consume_shift by exact Hs. reflexivity.
  Qed.
  Lemma word_last n c r m m1 cur ps C tr sc : try_match gm m ARG_TERM = (true, m1) ->
    run (S n) (KMatch false m cur) (mk_pst ((Word, [c]) :: r) (mk_builder ps C) tr None None sc) =
    run n (KMatch false m1 cur) (mk_pst r (mk_builder ps (C ++ [as_argument [Leaf TokenWord [c]]])) [] None None sc).
  Proof.
    intros Hm. cbn [Parser.run dispatch]. unfold match_loop. cbn [p_lex list_pk hd_error Parser.word_args]. rewrite Hm. cbn [negb].
    unfold p_arg, ignore_holding_trivia, with_trivia. cbn [p_lex p_b p_start p_last p_scope]. rewrite start_step. cbn [bind].
    change (token_ TokenWord [c] (mk_pst ((Word, [c]) :: r) (mk_builder ((ClauseArgument, List.length C) :: ps) C) [] None None sc : pst)) with
      (mk_pst ((Word, [c]) :: r) (mk_builder ((ClauseArgument, List.length C) :: ps) (C ++ [Leaf TokenWord [c]])) [] None None sc : pst).
    rewrite finish_step. cbn [bind]. pose proof (utf8_len_pos c) as Hc. destruct (Nat.ltb_spec 0 (0 + utf8_len c)); [|lia].
    replace (0 + utf8_len c) with (blen [c]) by (cbn; lia). rewrite consume_all. reflexivity.
  Qed.
  Lemma char_args p a w held c s r xs held' r' : takes gm a w (letter a Word) -> reads_arguments p a (w ++ [letter a Word]) [] (rest_word s r) xs held' r' ->
    reads_arguments p a w held ((Word, c :: s) :: r) (as_argument [Leaf TokenWord [c]] :: xs) held' r'.
  Proof.
    intros Ht H m cur ps C Hm. assert (El : letter a Word = ARG_TERM) by (destruct a; reflexivity). rewrite El in *.
    destruct (proj1 (mrel_take a w m ARG_TERM Hm (or_introl eq_refl)) Ht) as (m1 & E1 & E2). specialize (H m1 cur ps (C ++ [as_argument [Leaf TokenWord [c]]]) E2).
    rewrite <- app_assoc in H. cbn [app] in H. destruct s as [|d s]; cbn [rest_word] in H.
    - destruct H as [N H]. exists (S N). intros n Hn. destruct n as [|n]; [lia|]. rewrite (word_last n c r m m1) by exact E1. apply H. lia.
    - destruct H as [N H]. exists (S N). intros n Hn. destruct n as [|n]; [lia|]. rewrite (word_eq n c (d :: s) r m m1) by (exact E1 || discriminate). apply H. lia.
  Qed.

  Definition enc (bk : brace) : char := match bk with Curly => ARG_TERM | Bracket => ARG_BRACKET | Paren => ARG_PAREN end.
  Lemma letter_other a t : ~ optional a t -> letter a t = ARG_TERM.
  Proof. intros H. destruct a; try reflexivity. destruct t as [| | |[]| | | | | | | | | | | | | | | | | | |]; try reflexivity; exfalso; apply H; unfold optional; eauto. Qed.
  Lemma left_dec t : {exists bk, t = TLeft bk} + {~ exists bk, t = TLeft bk}.
  Proof. destruct t; first [left; eexists; reflexivity | right; intros [? E]; discriminate E]. Qed.
  Lemma mrel_left a w m bk : mrel a w m ->
    (takes gm a w (letter a (TLeft bk)) -> exists m1, mrel a (w ++ [letter a (TLeft bk)]) m1 /\
       match_as_term gm m (enc bk) = (Some (match a with PGlob _ => false | _ => negb (enc bk =? ARG_TERM)%N end), m1)) /\
    (~ takes gm a w (letter a (TLeft bk)) -> fst (match_as_term gm m (enc bk)) = None).
  Proof.
    intros Hm.
    assert (D : (exists g, a = PGlob g /\ letter a (TLeft bk) = enc bk) \/ ((forall g, a <> PGlob g) /\ letter a (TLeft bk) = ARG_TERM)).
    { destruct a; [right|right|right|right|left]; try (split; [congruence|reflexivity]). eexists. split; [reflexivity|]. destruct bk; reflexivity. }
    destruct D as [(g & -> & El)|[Hg El]]; rewrite El.
    - destruct (mrel_take _ _ _ (enc bk) Hm (or_intror (ex_intro _ g eq_refl))) as [K1 K2]. cbn in Hm. subst m. cbn [match_as_term]. split.
      + intros H. destruct (K1 H) as (m1 & E1 & E2). exists m1. split; [exact E2|]. unfold match_as_term. rewrite E1. reflexivity.
      + intros H. specialize (K2 H). unfold match_as_term. destruct (try_match gm _ _) as [ok m1]. cbn in K2. subst ok. reflexivity.
    - destruct (mrel_take _ _ _ ARG_TERM Hm (or_introl eq_refl)) as [K1 K2].
      assert (E : match a with PGlob _ => false | _ => negb (enc bk =? ARG_TERM)%N end = negb (enc bk =? ARG_TERM)%N) by (destruct a; try reflexivity; exfalso; eapply Hg; reflexivity).
      rewrite E. assert (Em : m = AMNone \/ exists x y, m = AMAtMost x y).
      { destruct a; cbn in Hm; try contradiction; try (now left); try (destruct Hm as [[_ ->]| ->]; eauto). exfalso. eapply Hg. reflexivity. }
      destruct Em as [-> |(x & y & ->)].
      + split; [|reflexivity]. intros H. destruct (K1 H) as (m1 & E1 & _). discriminate E1.
      + split; intros H.
        * destruct (K1 H) as (m1 & E1 & E2). exists m1. split; [exact E2|]. unfold match_as_term. rewrite E1. reflexivity.
        * specialize (K2 H). unfold match_as_term. destruct (try_match gm _ _) as [ok m1]. cbn in K2. subst ok. reflexivity.
  Qed.
  Lemma match_left n m cur bk w r ps C held sc :
    match_loop list_pk list_nx list_set gm (run n) false m cur (mk_pst ((TLeft bk, w) :: r) (mk_builder ps C) held None None sc) =
    let '(o, m1) := match_as_term gm m (enc bk) in
    match o with
    | None => Ok (true, mk_pst ((TLeft bk, w) :: r) (mk_builder ps C) held None None sc)
    | Some b => let* (_, s) := p_arg false (fun s => let* s := if b then eat s else item_group list_pk list_nx (run n) (match bk with Curly => CurlyItem | Bracket => BracketItem | Paren => ParenItem end) s in Ok (true, s))
                    (mk_pst ((TLeft bk, w) :: r) (mk_builder ps C) held None None sc) in
                run n (KMatch false m1 cur) s
    end.
  Proof. destruct bk; reflexivity. Qed.
  Lemma arg_node_step (F : nat -> pst -> res (bool * pst)) b ts ps C X held sc r :
    ev (fun n => F n (mk_pst ts (mk_builder ((ClauseArgument, List.length C) :: ps) C) [] None None sc : pst) = Ok (b, mk_pst r (mk_builder ((ClauseArgument, List.length C) :: ps) (C ++ X)) [] None None sc)) ->
    ev (fun n => p_arg false (F n) (mk_pst ts (mk_builder ps C) held None None sc : pst) = Ok (b, mk_pst r (mk_builder ps (C ++ [as_argument X])) [] None None sc)).
  Proof.
    intros H. unfold p_arg, ignore_holding_trivia, with_trivia. cbn [p_lex p_b p_start p_last p_scope]. rewrite start_step.
    eapply ev_bind; [exact H|]. cbv beta iota. rewrite finish_step. apply ev_all. reflexivity.
  Qed.
  Lemma stop_args p a w held t r : In (fst t) [Ampersand; Caret; Underscore] \/ over p (fst t) -> reads_arguments p a w held (t :: r) [] held (t :: r).
  Proof.
    intros H m cur ps C Hm. apply ev_run, ev_all. intros n. rewrite app_nil_r. cbn [dispatch]. unfold match_loop. cbn [p_lex list_pk hd_error p_scope]. destruct t as [t s]. cbn [fst] in H.
    destruct H as [H|H].
    - cbn in H. destruct H as [<-|[<-|[<-|[]]]]; reflexivity.
    - apply stop_iff in H. cbn [andb negb]. rewrite H. destruct t; try reflexivity; destruct p; try discriminate H.
  Qed.
  Lemma refuse_args p a w held t r : ~ blank_token t -> t <> (Word, []) -> ~ takes gm a w (letter a (fst t)) -> reads_arguments p a w held (t :: r) [] held (t :: r).
  Proof.
    intros Hb Hw Ht m cur ps C Hm.
    destruct (over_dec p (fst t)) as [Ho|Ho]; [exact (stop_args p a w held t r (or_intror Ho) m cur ps C Hm)|].
    destruct (in_dec token_eq_dec (fst t) [Ampersand; Caret; Underscore]) as [Hi|Hi]; [exact (stop_args p a w held t r (or_introl Hi) m cur ps C Hm)|].
    apply ev_run, ev_all. intros n. rewrite app_nil_r. cbn [dispatch]. destruct t as [t s]. cbn [fst] in *.
    destruct (token_eq_dec t Word) as [->|Nw].
    - destruct s as [|c s]; [now contradiction Hw|]. unfold match_loop. cbn [p_lex list_pk hd_error Parser.word_args].
      assert (El : letter a Word = ARG_TERM) by (destruct a; reflexivity). rewrite El in Ht.
      pose proof (proj2 (mrel_take a w m ARG_TERM Hm (or_introl eq_refl)) Ht) as E. destruct (try_match gm m ARG_TERM) as [ok m1]. cbn in E. subst ok. reflexivity.
    - destruct (left_dec t) as [[bk ->]|Hbk].
      { rewrite match_left. pose proof (proj2 (mrel_left a w m bk Hm) Ht) as E. destruct (match_as_term gm m (enc bk)) as [o m1]. cbn in E. subst o. reflexivity. }
      assert (El : letter a t = ARG_TERM) by (apply letter_other; intros [_ [-> | ->]]; apply Hbk; eauto); rewrite El in Ht;
        (rewrite (match_step n m cur t s); [|reflexivity|exact Hb|exact Nw|exact Hi|exact Hbk]); cbn [p_scope]; rewrite (stop_false p t Ho);
        pose proof (proj2 (mrel_take a w m ARG_TERM Hm (or_introl eq_refl)) Ht) as E; destruct (try_match gm m ARG_TERM) as [ok m1]; cbn in E; subst ok; reflexivity.
  Qed.
  Lemma optional_args p a w held t r q x r1 xs held' r' : optional a (fst t) -> takes gm a w (letter a (fst t)) ->
    brackets q (fst t) (tkind x) -> reads_group q t r x r1 ->
    reads_arguments p a (w ++ [letter a (fst t)]) [] r1 xs held' r' ->
    reads_arguments p a w held (t :: r) (as_argument [x] :: xs) held' r'.
  Proof.
    intros [[g ->] Ht] Htk Hq Hg H m cur ps C Hm. destruct t as [t s]. cbn [fst] in *.
    assert (exists bk, t = TLeft bk /\ (match bk with Curly => CurlyItem | Bracket => BracketItem | Paren => ParenItem end) = scope_of q) as (bk & -> & Es).
    { destruct Ht as [-> | ->]; [exists Bracket|exists Paren]; (split; [reflexivity|]); cbn in Hq; destruct Hq as [Hq|[Hq|[Hq|[Hq|[Hq|[]]]]]]; inversion Hq; reflexivity. }
    destruct (proj1 (mrel_left _ w m bk Hm) Htk) as (m1 & E1 & E2). apply ev_run. cbn [dispatch].
    eapply ev_eq; [intros n; apply match_left|]. rewrite E2. cbv beta iota zeta. rewrite Es.
    specialize (H m1 cur ps (C ++ [as_argument [x]]) E1). rewrite <- app_assoc in H.
    eapply ev_bind; [|].
    { apply (arg_node_step (fun n s0 => let* s1 := item_group list_pk list_nx (run n) (scope_of q) s0 in Ok (true, s1)) true _ ps C [x] held (scope_of p) r1).
      eapply ev_bind; [apply Hg|apply ev_all; reflexivity]. }
    exact H.
  Qed.
  Lemma term_args p a w held t r b l1 r1 xs held' r' : ~ blank_token t -> fst t <> Word -> ~ In (fst t) [Ampersand; Caret; Underscore] ->
    ~ over p (fst t) -> ~ optional a (fst t) -> takes gm a w (letter a (fst t)) ->
    element p false (fresh Gone) t r b l1 r1 -> reads_element p false (fresh Gone) t r b l1 r1 ->
    reads_arguments p a (w ++ [letter a (fst t)]) [] r1 xs held' r' ->
    reads_arguments p a w held (t :: r) (as_argument (all l1) :: xs) held' r'.
  Proof.
    intros Hb Hw Hi Ho Hop Ht He Hr H m cur ps C Hm.
    destruct (element_keeps _ _ _ _ _ _ _ _ He) as (K1 & _ & K3). cbn [base from fresh] in K1, K3. specialize (K1 eq_refl).
    assert (K4 : from l1 = Gone) by tauto.
    assert (Hx : ev (fun n => run n (KContent true) (mk_pst (t :: r) (mk_builder ((ClauseArgument, List.length C) :: ps) C) [] None None (scope_of p)) =
      Ok (b, mk_pst r1 (mk_builder ((ClauseArgument, List.length C) :: ps) (C ++ all l1)) [] None None (scope_of p)))).
    { assert (Hf : fits ((ClauseArgument, List.length C) :: ps) C 0 (fresh Gone)) by (split; [apply le_n|discriminate]).
      specialize (Hr _ _ _ Hf).
      unfold st, last_pos in Hr. rewrite K1, K4 in Hr. cbn [fresh all before base based from start_pos app negb] in Hr. rewrite app_nil_r in Hr. exact Hr. }
    apply ev_run. cbn [dispatch]. destruct t as [t s]. cbn [fst] in *. rewrite (letter_other a t Hop) in *.
    destruct (left_dec t) as [[bk ->]|Hbk].
    { destruct (proj1 (mrel_left a w m bk Hm)) as (m1 & E1 & E2); [now rewrite (letter_other _ _ Hop)|]. rewrite (letter_other _ _ Hop) in E1.
      specialize (H m1 cur ps (C ++ [as_argument (all l1)]) E1). rewrite <- app_assoc in H.
      eapply ev_eq; [intros n; apply match_left|]. rewrite E2. cbv beta iota zeta.
      pose proof (ev_run_inv _ _ _ _ _ Hx) as Hc. cbn [dispatch] in Hc. unfold Parser.content, p_peek in Hc. cbn [p_lex list_pk hd_error option_map fst] in Hc.
      assert (Ea : forall _ : nat, match a with PGlob _ => false | _ => negb (enc bk =? ARG_TERM)%N end = negb (enc bk =? ARG_TERM)%N).
      { intros _. destruct a; try reflexivity. destruct bk; try reflexivity; exfalso; apply Hop; unfold optional; eauto. }
      rewrite (Ea 0). clear Ea.
      destruct bk; cbn [enc].
      - eapply ev_bind; [apply (arg_node_step (fun n s0 => let* s1 := item_group list_pk list_nx (run n) CurlyItem s0 in Ok (true, s1)) b); exact Hc|exact H].
      - eapply ev_bind; [apply (arg_node_step (fun n s0 => let* s1 := eat s0 in Ok (true, s1)) b); exact Hc|exact H].
      - eapply ev_bind; [apply (arg_node_step (fun n s0 => let* s1 := eat s0 in Ok (true, s1)) b); exact Hc|exact H]. }
    (eapply ev_eq; [intros n; apply (match_step n m cur t s); [reflexivity|exact Hb|exact Hw|exact Hi|exact Hbk]|]);
      cbn [p_scope]; rewrite (stop_false p t Ho); destruct (proj1 (mrel_take a w m ARG_TERM Hm (or_introl eq_refl)) Ht) as (m1 & E1 & E2); rewrite E1; cbv beta iota zeta; cbn [negb];
      specialize (H m1 cur ps (C ++ [as_argument (all l1)]) E2); rewrite <- app_assoc in H;
      (eapply ev_bind; [apply (arg_node_step (fun n => run n (KContent true)) b); exact Hx|exact H]).
  Qed.

  Lemma eof_args p a w held : reads_arguments p a w held [] [] held [].
  Proof. intros m cur ps C Hm. apply ev_run, ev_all. intros n. rewrite app_nil_r. reflexivity. Qed.
  Lemma blank_args p a w held t r xs held' r' : blank_token t -> reads_arguments p a w (held ++ [t]) r xs held' r' -> reads_arguments p a w held (t :: r) xs held' r'.
  Proof.
    intros Hb H m cur ps C Hm. specialize (H m cur ps C Hm). apply ev_run. cbn [dispatch]. unfold match_loop. cbn [p_lex list_pk hd_error].
    destruct t as [t s]. unfold blank_token in Hb. cbn in Hb. repeat (destruct Hb as [<-|Hb]; [exact H|]). contradiction.
  Qed.

  (** ** Lists *)
  Lemma stop_content p g l t r : stopped p g (fst t) -> reads_content p g l (t :: r) l (t :: r).
  Proof.
    intros H ps P s Hf. apply loop_stop. destruct g; cbn [quits halts ends]; [now apply halt_iff|now apply stop_iff].
  Qed.
  Lemma eof_content p g l : reads_content p g l [] l [].
  Proof. intros ps P s Hf. apply loop_stop. destruct g; exact I. Qed.
  Lemma step_content p g l t r b l1 l2 r1 l' r' : ~ stopped p g (fst t) -> element p false l t r b l1 r1 ->
    reads_element p false l t r b l1 r1 -> all l2 = all l1 -> from l2 = from l1 ->
    (forall P, last_pos P l2 = if b then Some (List.length (P ++ all l)) else last_pos P l1) ->
    reads_content p g l2 r1 l' r' -> reads_content p g l (t :: r) l' r'.
  Proof.
    intros Hs He H Ea Ef El Hc ps P s Hf. destruct (element_keeps _ _ _ _ _ _ _ _ He) as (_ & _ & K).
    assert (Hf2 : fits ps P s l2). { destruct Hf as [F1 F2]. split; [exact F1|]. rewrite Ef. intros E. apply F2. destruct K; congruence. }
    specialize (H ps P s Hf). specialize (Hc ps P s Hf2). destruct t as [t w]. cbn [fst] in Hs.
    assert (Hg : stop_by_scope (scope_of p) t = false) by (apply stop_false; intros Ho; apply Hs; destruct g; [now left|exact Ho]).
    assert (Hh : g = true -> halt (scope_of p) t = false) by (intros ->; now apply halt_false).
    eapply (loop_step gm sp g b t w r (scope_of p) ps (P ++ all l)); [exact Hg|exact Hh|reflexivity|exact H|].
    unfold st in Hc |- *. rewrite Ea, Ef, (El P) in Hc. unfold checkpoint, b_checkpoint, with_last. cbn [p_b b_children p_lex p_trivia p_start p_last p_scope].
    destruct b; exact Hc.
  Qed.

  Lemma skip_case p f l i s r k xs r' : i = IfFalse /\ k = ItemBlockComment \/ i = IfTypst /\ k = ItemTypstCode -> skipped 0 r xs r' ->
    reads_element p f l (CommandName (CIf i), s) r true (add [Node k xs] l) r'.
  Proof.
    intros Hi H. apply simple_case. intros ps C a la. apply ev_run. cbn [dispatch].
    assert (K : ev (fun n => (let* st := if_block list_pk list_nx (run n) k (mk_pst ((CommandName (CIf i), s) :: r) (mk_builder ps C) [] a la (scope_of p) : pst) in Ok (true, st)) = Ok (true, mk_pst r' (mk_builder ps (C ++ [Node k xs])) [] a la (scope_of p)))).
    { eapply ev_bind; [|apply ev_all; reflexivity]. unfold if_block. rewrite start_step.
      unfold drop_, lex_eat. cbn [p_lex list_pk list_nx hd_error bind with_lex tl p_b p_trivia p_start p_last p_scope].
      eapply ev_bind; [unfold rec_; eapply ev_bind; [apply (skipped_reads 0 r xs r' H)|apply ev_all; reflexivity]|].
      apply ev_all. intros n. apply finish_step. }
    destruct Hi as [[-> ->]|[-> ->]]; exact K.
  Qed.
  Lemma plain_env_case p f l t r l1 r2 e r' : fst t = CommandName BeginEnvironment -> no_args (begin_shape sp (snd t)) ->
    reads_content Body false (fresh Start) r l1 r2 -> env_end r2 e r' ->
    reads_element p f l t r true (add [Node ItemEnv (Node ItemBegin [lf t] :: all l1 ++ e)] l) r'.
  Proof.
    intros Ht Hn H2 H3. refine (env_case p f l l t r [] [] r l1 r2 e r' Ht _ eq_refl eq_refl H2 H3).
    intros ps C a la. exists la. split; [auto|]. rewrite app_nil_r.
    destruct Hn as [-> |[-> | ->]]; apply ev_all; reflexivity.
  Qed.
  Lemma args_env_case p f l t r a args held r1 l1 r2 e r' : fst t = CommandName BeginEnvironment ->
    begin_shape sp (snd t) = Some a -> ~ no_args (Some a) -> a <> PGreedy -> reads_arguments p a [] [] r args held r1 ->
    reads_content Body false (fresh Start) r1 l1 r2 -> env_end r2 e r' ->
    reads_element p f l t r true (add [Node ItemEnv (Node ItemBegin (lf t :: args) :: map lf held ++ all l1 ++ e)] (baseless l)) r'.
  Proof.
    intros Ht Hs Hn Hg H H2 H3. refine (env_case p f l (baseless l) t r args held r1 l1 r2 e r' Ht _ (all_baseless l) eq_refl H2 H3).
    intros ps C a0 la. exists None. split; [intros; reflexivity|]. rewrite Hs.
    pose proof (fun n st0 => shape_right a (Ok st0) (fun a => match_arguments (run n) false (start_match a) st0) Hn) as E. cbv beta in E.
    eapply ev_eq; [intros n; apply E|]. apply margs; assumption.
  Qed.
  Lemma group_brackets q t ts x r : group q t ts x r -> brackets q (fst t) (tkind x).
  Proof. intros H. inversion H; subst; assumption. Qed.

  Theorem sound :
    (forall p g l ts l' r, content p g l ts l' r -> reads_content p g l ts l' r) /\
    (forall p f l t ts b l' r, element p f l t ts b l' r -> reads_element p f l t ts b l' r) /\
    (forall q t ts x r, group q t ts x r -> reads_group q t ts x r) /\
    (forall p a w held ts xs held' r, arguments p a w held ts xs held' r -> reads_arguments p a w held ts xs held' r).
  Proof.
    apply (grammar_ind gm sp (fun p g l ts l' r _ => reads_content p g l ts l' r) (fun p f l t ts b l' r _ => reads_element p f l t ts b l' r)
      (fun q t ts x r _ => reads_group q t ts x r) (fun p a w held ts xs held' r _ => reads_arguments p a w held ts xs held' r)); intros.
    - apply eof_content.
    - now apply stop_content.
    - eapply (step_content p g l t r true l1 (mk_line (all l) (Some xs) (from l1))); try eassumption; [now symmetry|reflexivity|].
      intros P. unfold last_pos. cbn. now rewrite app_length.
    - eapply (step_content p g l t r false l1 l1); try eassumption; reflexivity.
    - now apply base_case.
    - now apply plain_case.
    - now apply stray_case.
    - now apply text_case.
    - apply char_case.
    - eapply group_elem; [|eassumption]. auto.
    - eapply group_elem; [|eassumption]. auto.
    - eapply group_elem; [|eassumption]. auto.
    - eapply sides_case; eassumption.
    - eapply plain_env_case; eassumption.
    - eapply args_env_case; eassumption.
    - eapply skip_case; eassumption.
    - eapply bare_case; eassumption.
    - eapply args_case; eassumption.
    - eapply greedy_case; eassumption.
    - eapply postfix_case; eassumption.
    - eapply postfix_all_case; eassumption.
    - eapply postfix_none_case; eassumption.
    - eapply infix_case; eassumption.
    - eapply infix_again_case; eassumption.
    - eapply prime_case; eassumption.
    - eapply prime_alone_case; eassumption.
    - eapply script_case; eassumption.
    - eapply script_end_case; eassumption.
    - eapply group_case; try eassumption. intros ps C a la sc. rewrite e. rewrite eat_if_yes by reflexivity. apply eat_step.
    - rewrite <- (app_nil_r (all l)). eapply group_case; try eassumption. intros ps C a la sc. rewrite app_nil_r. apply eat_if_no.
      intros Hh. apply n. destruct r' as [|t' r']; [exact Hh|]. cbn in Hh |- *. rewrite Hh. destruct (scope_kind _ _ _ b) as (e & _ & ->). reflexivity.
    - apply eof_args.
    - now apply blank_args.
    - now apply stop_args.
    - now apply refuse_args.
    - now apply char_args.
    - eapply optional_args; try eassumption. eapply group_brackets. eassumption.
    - eapply term_args; eassumption.
  Qed.
End Sound.
