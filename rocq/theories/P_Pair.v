(** C55: how delimiters pair up, in correct and in broken sources. *)
From Verif Require Import Api P_Lex P_Macro ParserSource ParserEnd P_Parser DocParse.
From Verif Require Export PairSpec.
Local Open Scope nat_scope.

Scheme content_ind2 := Induction for content Sort Prop
  with element_ind2 := Induction for element Sort Prop.
Combined Scheme content_element_ind from content_ind2, element_ind2.

Definition scope_of (o : option construct) : scope :=
  match o with
  | None => Root | Some Group => CurlyItem | Some Dollars => DollarFormula | Some Math => CmdFormula
  | Some Env => Environment | Some Pair => LR
  end.
Lemma stop_iff o t : stop_by_scope (scope_of o) t = true <-> ends_in o t.
Proof.
  split.
  - intros H. destruct o as [c|]; [|discriminate H].
    destruct c, t as [| | |[]|[]| | | | | | | | | | | | | | | | [] | |]; try discriminate H; cbn; unfold ends; cbn;
      repeat (first [left; reflexivity | right; split; [reflexivity|first [discriminate | tauto]] | left; split; [reflexivity|first [discriminate | tauto]] | right]).
  - intros H. destruct o as [c|]; [|contradiction]. cbn in H. unfold ends in H.
    destruct H as [H|[->|[[-> H]|[-> H]]]].
    + destruct c; cbn in H; subst; reflexivity.
    + destruct c; reflexivity.
    + destruct c; try reflexivity. now contradiction H.
    + destruct H as [->|[->| ->]]; reflexivity.
Qed.
Lemma stop_false o t : ~ ends_in o t -> stop_by_scope (scope_of o) t = false.
Proof. intros H. destruct (stop_by_scope _ _) eqn:E; [|reflexivity]. now apply stop_iff in E. Qed.

Section Sound.
  Variable gm : text -> text -> bool.
  Variable sp : spec.
  Notation pst := (@Parser.pst (list tok)).
  Notation run := (Parser.run list_pk list_nx list_set gm sp).
  Notation eat := (eat list_pk list_nx).
  Notation simple := (simple_token sp).

  Definition reads_content (o : option construct) (ts : list tok) (xs : list tree) (r : list tok) : Prop :=
    Forall simple ts -> Forall simple r /\
    forall ps C a la, exists la',
      ev (fun n => run n (KList (List.length C)) (mk_pst ts (mk_builder ps C) [] a la (scope_of o)) =
                   Ok (true, mk_pst r (mk_builder ps (C ++ xs)) [] a la' (scope_of o))).
  Definition reads_element (t : tok) (ts : list tok) (x : tree) (r : list tok) : Prop :=
    Forall simple (t :: ts) -> Forall simple r /\
    forall ps C a la sc, exists att,
      ev (fun n => run n (KContent true) (mk_pst (t :: ts) (mk_builder ps C) [] a la sc) =
                   Ok (att, mk_pst r (mk_builder ps (C ++ [x])) [] a la sc)).

  Lemma item_list_reads o ts xs r ps C a la sc : reads_content o ts xs r -> Forall simple ts ->
    ev (fun n => item_list (run n) (scope_of o) (mk_pst ts (mk_builder ps C) [] a la sc) =
                 Ok (mk_pst r (mk_builder ps (C ++ xs)) [] a la sc)).
  Proof.
    intros H Hs. destruct (H Hs) as [_ K]. destruct (K ps C (Some (List.length C)) None) as [la' E].
    unfold item_list, rec_, checkpoint, b_checkpoint. cbn [p_b b_children].
    eapply ev_bind; [eapply ev_bind; [exact E|apply ev_all; intros n; reflexivity]|]. apply ev_all. intros n. reflexivity.
  Qed.
  Definition gkind (c : construct) : token * kind :=
    match c with Group => (TRight Curly, ItemCurly) | Dollars => (Dollar, ItemFormula) | _ => (CommandName EndMath, ItemFormula) end.
  Lemma group_reads c o k r xs r' (cl : list tree) r'' ps C a la sc : opens_with c (fst o) k -> reads_content (Some c) r xs r' -> Forall simple r ->
    (forall ps C a la sc, eat_if_ list_pk list_nx (fst (gkind c)) (mk_pst r' (mk_builder ps C) [] a la sc : pst) = Ok (mk_pst r'' (mk_builder ps (C ++ cl)) [] a la sc)) ->
    ev (fun n => item_group list_pk list_nx (run n) (scope_of (Some c)) (mk_pst (o :: r) (mk_builder ps C) [] a la sc) =
                 Ok (mk_pst r'' (mk_builder ps (C ++ [Node k (lf o :: xs ++ cl)])) [] a la sc)).
  Proof.
    intros Ho Hr Hs He. unfold item_group.
    assert (E : match scope_of (Some c) with
                | CurlyItem => Ok (TRight Curly, ItemCurly)
                | BracketItem => Ok (TRight Bracket, ItemBracket)
                | ParenItem => Ok (TRight Paren, ItemParen)
                | DollarFormula => Ok (Dollar, ItemFormula)
                | CmdFormula => Ok (CommandName EndMath, ItemFormula)
                | _ => Panic "parser.rs:337 assert"
                end = Ok (fst (gkind c), k)).
    { cbn in Ho. destruct Ho as [[= <- _ <-]|[[= <- _ <-]|[[= <- _ <-]|[]]]]; reflexivity. }
    rewrite E. cbn [bind]. rewrite start_step, eat_step. cbn [bind].
    eapply ev_bind; [apply (item_list_reads _ _ _ _ _ _ _ _ _ Hr Hs)|]. apply ev_all. intros n. cbn beta. rewrite He. cbn [bind].
    replace (((C ++ [leaf o]) ++ xs) ++ cl) with (C ++ (lf o :: xs ++ cl)) by (rewrite <- !app_assoc; reflexivity).
    apply finish_step.
  Qed.
  Lemma eat_if_yes c t r' : closes c (fst t) -> c <> Env -> c <> Pair -> forall ps C a la sc,
    eat_if_ list_pk list_nx (fst (gkind c)) (mk_pst (t :: r') (mk_builder ps C) [] a la sc : pst) = Ok (mk_pst r' (mk_builder ps (C ++ [lf t])) [] a la sc).
  Proof.
    intros H H1 H2 ps C a la sc. unfold eat_if_, p_peek. cbn [p_lex list_pk hd_error option_map].
    assert (E : fst t = fst (gkind c)) by (destruct c; try contradiction; exact H). rewrite E, token_eqb_refl, eat_step. reflexivity.
  Qed.
  Lemma eat_if_no c r' : ~ heads (fun t => closes c (fst t)) r' -> c <> Env -> c <> Pair -> forall ps C a la sc,
    eat_if_ list_pk list_nx (fst (gkind c)) (mk_pst r' (mk_builder ps C) [] a la sc : pst) = Ok (mk_pst r' (mk_builder ps (C ++ [])) [] a la sc).
  Proof.
    intros H H1 H2 ps C a la sc. rewrite app_nil_r. unfold eat_if_, p_peek. cbn [p_lex]. destruct r' as [|t r']; [reflexivity|]. cbn [list_pk hd_error option_map].
    cbn [heads] in H. assert (E : token_eqb (fst t) (fst (gkind c)) = false).
    { unfold token_eqb. destruct (token_eq_dec _ _) as [E|E]; [|reflexivity]. exfalso. apply H. destruct c; try contradiction; exact E. }
    now rewrite E.
  Qed.
  Lemma group_element c o k r xs r' (cl : list tree) r'' : opens_with c (fst o) k -> reads_content (Some c) r xs r' -> (Forall simple r' -> Forall simple r'') ->
    (forall ps C a la sc, eat_if_ list_pk list_nx (fst (gkind c)) (mk_pst r' (mk_builder ps C) [] a la sc : pst) = Ok (mk_pst r'' (mk_builder ps (C ++ cl)) [] a la sc)) ->
    reads_element o r (Node k (lf o :: xs ++ cl)) r''.
  Proof.
    intros Ho Hr Hs He Hw. inversion Hw as [|? ? Hw1 Hw2]. subst. split; [apply Hs; now apply Hr|]. intros ps C a la sc.
    assert (K : forall att : bool, ev (fun n => (let* st := item_group list_pk list_nx (run n) (scope_of (Some c)) (mk_pst (o :: r) (mk_builder ps C) [] a la sc) in Ok (att, st)) =
      Ok (att, mk_pst r'' (mk_builder ps (C ++ [Node k (lf o :: xs ++ cl)])) [] a la sc))).
    { intros att. eapply ev_bind; [eapply group_reads; eassumption|]. apply ev_all. reflexivity. }
    destruct o as [o so]. cbn [fst] in Ho. cbn in Ho.
    destruct Ho as [[= <- <- <-]|[[= <- <- <-]|[[= <- <- <-]|[]]]]; [exists true|exists false|exists false]; apply ev_run; exact (K _).
  Qed.
  (** blanks *)
  Lemma blanks_ev bs : forall k ps C tr a la sc, Forall blank_token bs -> ~ heads blank_token k ->
    ev (fun n => run n KTrivia (mk_pst (bs ++ k) (mk_builder ps C) tr a la sc) = Ok (true, mk_pst k (mk_builder ps (C ++ map lf bs)) tr a la sc)).
  Proof.
    induction bs as [|x g IH]; intros k ps C tr a la sc Hb Hk; apply ev_run; cbn [map app dispatch]; unfold trivia_loop, p_peek; cbn [p_lex list_pk hd_error].
    - apply ev_all. intros n. rewrite app_nil_r. destruct k as [|t k]; [reflexivity|]. cbn [list_pk hd_error option_map].
      assert (E : is_trivia (fst t) = false) by (unfold heads, blank_token in Hk; destruct t as [[] ?]; cbn in *; try reflexivity; tauto). now rewrite E.
    - cbn [option_map]. inversion Hb as [|? ? Hx Hg]. subst.
      assert (E : is_trivia (fst x) = true) by (destruct Hx as [<-|[<-|[<-|[]]]]; reflexivity). rewrite E, eat_step. cbn [bind].
      eapply ev_eq; [reflexivity|]. specialize (IH k ps (C ++ [lf x]) tr a la sc Hg Hk). rewrite <- app_assoc in IH. exact IH.
  Qed.
  Lemma texts_ev bs : forall k ps C tr a la sc, Forall text_token bs -> ~ heads text_token k ->
    ev (fun n => run n KText (mk_pst (bs ++ k) (mk_builder ps C) tr a la sc) = Ok (true, mk_pst k (mk_builder ps (C ++ map lf bs)) tr a la sc)).
  Proof.
    induction bs as [|x g IH]; intros k ps C tr a la sc Hb Hk; apply ev_run; cbn [map app dispatch]; unfold text_loop, p_peek; cbn [p_lex list_pk hd_error].
    - apply ev_all. intros n. rewrite app_nil_r. destruct k as [|t k]; [reflexivity|]. cbn [list_pk hd_error option_map].
      assert (E : is_text_component (fst t) = false) by (unfold heads, text_token in Hk; destruct t as [[] ?]; cbn in *; try reflexivity; tauto). now rewrite E.
    - cbn [option_map]. inversion Hb as [|? ? Hx Hg]. subst.
      assert (E : is_text_component (fst x) = true) by (destruct Hx as [<-|[<-|[<-|[<-|[<-|[]]]]]]; reflexivity). rewrite E, eat_step. cbn [bind].
      eapply ev_eq; [reflexivity|]. specialize (IH k ps (C ++ [lf x]) tr a la sc Hg Hk). rewrite <- app_assoc in IH. exact IH.
  Qed.
  Lemma clause_ev2 t r x r' ps C a la sc : clause t r x r' ->
    ev (fun n => clause_lr list_pk list_nx list_set (run n) (mk_pst (t :: r) (mk_builder ps C) [] a la sc) = Ok (mk_pst r' (mk_builder ps (C ++ [x])) [] a la sc)).
  Proof.
    intros [bs r0 y r1 Hb Hh Hd]. unfold clause_lr. rewrite start_step, eat_step. cbn [bind].
    eapply ev_bind; [unfold rec_; eapply ev_bind; [apply (blanks_ev bs r0); assumption|apply ev_all; intros n; reflexivity]|]. cbn beta iota.
    assert (Fin : forall st : pst, st = mk_pst r1 (mk_builder ((ClauseLR, List.length C) :: ps) (C ++ (lf t :: map lf bs ++ y))) [] a la sc ->
      finish_node st = Ok (mk_pst r1 (mk_builder ps (C ++ [Node ClauseLR (lf t :: map lf bs ++ y)])) [] a la sc)) by (intros st ->; apply finish_step).
    assert (E0 : forall y, ((C ++ [leaf t]) ++ map lf bs) ++ y = C ++ (lf t :: map lf bs ++ y)) by (intros; rewrite <- !app_assoc; reflexivity).
    assert (E1 : (C ++ [leaf t]) ++ map lf bs = C ++ (lf t :: map lf bs)) by (rewrite <- !app_assoc; reflexivity).
    apply ev_all. intros n. destruct Hd as [|u q Hn|s q|c q|c d s q|u q Hn1 Hn2 Hn3 Hn4].
    - cbn [p_peek p_lex list_pk hd_error option_map bind]. apply Fin. now rewrite app_nil_r, E1.
    - unfold p_peek. cbn [p_lex list_pk hd_error option_map].
      assert (E : (match fst u with CommandName Generic => eat_as list_pk list_nx TokenCommandSym (mk_pst (u :: q) (mk_builder ((ClauseLR, List.length C) :: ps) ((C ++ [leaf t]) ++ map lf bs)) [] a la sc : pst)
         | CommandName _ | Dollar => Ok (mk_pst (u :: q) (mk_builder ((ClauseLR, List.length C) :: ps) ((C ++ [leaf t]) ++ map lf bs)) [] a la sc) | _ => Fuel end) = Ok (mk_pst (u :: q) (mk_builder ((ClauseLR, List.length C) :: ps) ((C ++ [leaf t]) ++ map lf bs)) [] a la sc)).
      { destruct Hn as [->|(c & -> & Hc)]; [reflexivity|]. destruct c; try reflexivity. now contradiction Hc. }
      destruct Hn as [Hn|(c & Hn & Hc)]; rewrite Hn in E |- *; [|destruct c; try contradiction]; cbn [bind]; apply Fin; now rewrite app_nil_r, E1.
    - cbn [p_peek p_lex list_pk hd_error option_map fst]. unfold eat_as, lex_eat. cbn [p_lex list_pk hd_error list_nx bind]. apply Fin. unfold token_, with_b, with_lex, b_token. cbn. now rewrite E0.
    - cbn [p_peek p_lex list_pk hd_error option_map fst]. unfold single_char. cbn [p_lex list_pk hd_error].
      assert (E : lex_consume list_pk list_nx list_set (utf8_len c) (token_ TokenWord [c] (mk_pst ((Word, [c]) :: q) (mk_builder ((ClauseLR, List.length C) :: ps) ((C ++ [leaf t]) ++ map lf bs)) [] a la sc : pst)) = Ok (mk_pst q (mk_builder ((ClauseLR, List.length C) :: ps) (C ++ (lf t :: map lf bs ++ [Leaf TokenWord [c]]))) [] a la sc)).
      { unfold token_, with_b, b_token. cbn [p_lex p_b p_trivia p_start p_last p_scope b_parents b_children]. rewrite E0. replace (utf8_len c) with (blen [c]) by (cbn; lia). apply consume_all. }
      refine (eq_trans (f_equal (fun x => bind x _) E) _). cbn [bind]. now apply Fin.
    - cbn [p_peek p_lex list_pk hd_error option_map fst]. unfold single_char. cbn [p_lex list_pk hd_error].
      assert (E : lex_consume list_pk list_nx list_set (utf8_len c) (token_ TokenWord [c] (mk_pst ((Word, c :: d :: s) :: q) (mk_builder ((ClauseLR, List.length C) :: ps) ((C ++ [leaf t]) ++ map lf bs)) [] a la sc : pst)) = Ok (mk_pst ((Word, d :: s) :: q) (mk_builder ((ClauseLR, List.length C) :: ps) (C ++ (lf t :: map lf bs ++ [Leaf TokenWord [c]]))) [] a la sc)).
      { unfold token_, with_b, b_token. cbn [p_lex p_b p_trivia p_start p_last p_scope b_parents b_children]. rewrite E0. rewrite <- (Nat.add_0_r (utf8_len c)). rewrite consume_shift by discriminate. reflexivity. }
      refine (eq_trans (f_equal (fun x => bind x _) E) _). cbn [bind]. now apply Fin.
    - assert (E : eat (mk_pst (u :: q) (mk_builder ((ClauseLR, List.length C) :: ps) ((C ++ [leaf t]) ++ map lf bs)) [] a la sc : pst) = Ok (mk_pst q (mk_builder ((ClauseLR, List.length C) :: ps) (C ++ (lf t :: map lf bs ++ [lf u]))) [] a la sc)).
      { rewrite eat_step. change (leaf u) with (lf u). now rewrite E0. }
      unfold p_peek. cbn [p_lex list_pk hd_error option_map].
      destruct u as [u s]. cbn [fst] in *. unfold no_delimiter in Hn1. cbn [fst] in Hn1.
      destruct u; try (rewrite E; cbn [bind]; now apply Fin); try contradiction.
      + exfalso. apply Hn1. now left.
      + exfalso. apply Hn1. right. exists c. split; [reflexivity|]. intros ->. now apply Hn2.
  Qed.
  Lemma delimiter_simple r x r' : delimiter r x r' -> Forall simple r -> Forall simple r'.
  Proof.
    intros H Hs. destruct H as [|u q Hn|s q|c q|c d s q|u q Hn1 Hn2 Hn3 Hn4]; try exact Hs; inversion Hs as [|? ? H1 H2]; subst; try exact H2.
    constructor; [cbn; discriminate|exact H2].
  Qed.
  Lemma clause_simple t r x r' : clause t r x r' -> Forall simple r -> Forall simple r'.
  Proof. intros [bs r0 y r1 Hb Hh Hd] Hs. apply Forall_app in Hs as [_ Hs]. eapply delimiter_simple; eassumption. Qed.

  Lemma lr_element t r c1 r1 xs r2 (cl : list tree) r' : fst t = CommandName CLeft -> clause t r c1 r1 -> reads_content (Some Pair) r1 xs r2 -> (Forall simple r2 -> Forall simple r') ->
    (forall ps C a la sc, ev (fun n => match p_peek list_pk (mk_pst r2 (mk_builder ps C) [] a la sc : pst) with
       | Some (CommandName CRight) => clause_lr list_pk list_nx list_set (run n) (mk_pst r2 (mk_builder ps C) [] a la sc : pst) | _ => Ok (mk_pst r2 (mk_builder ps C) [] a la sc) end =
       Ok (mk_pst r' (mk_builder ps (C ++ cl)) [] a la sc))) ->
    reads_element t r (Node ItemLR (c1 :: xs ++ cl)) r'.
  Proof.
    intros Ht H1 H2 H3 H4 Hw. inversion Hw as [|? ? Hw1 Hw2]. subst. pose proof (clause_simple _ _ _ _ H1 Hw2) as Hs1. split; [apply H3; now apply H2|].
    intros ps C a la sc. exists true. apply ev_run. cbn [dispatch]. unfold Parser.content, p_peek. cbn [p_lex list_pk hd_error option_map]. rewrite Ht.
    eapply ev_bind; [|apply ev_all; reflexivity]. unfold item_lr. rewrite start_step.
    eapply ev_bind; [eapply clause_ev2; exact H1|].
    eapply ev_bind; [exact (item_list_reads (Some Pair) _ _ _ _ _ _ _ _ H2 Hs1)|].
    eapply ev_bind; [apply H4|]. apply ev_all. intros n.
    replace (((C ++ [c1]) ++ xs) ++ cl) with (C ++ (c1 :: xs ++ cl)) by (rewrite <- !app_assoc; reflexivity). apply finish_step.
  Qed.
  Lemma env_element t r xs r2 (cl : list tree) r' : fst t = CommandName BeginEnvironment -> reads_content (Some Env) r xs r2 -> (Forall simple r2 -> Forall simple r') ->
    (forall ps C a la sc, match p_peek list_pk (mk_pst r2 (mk_builder ps C) [] a la sc : pst) with
       | Some (CommandName EndEnvironment) => let* st := eat (start_node ItemEnd (mk_pst r2 (mk_builder ps C) [] a la sc : pst)) in finish_node st
       | _ => Ok (mk_pst r2 (mk_builder ps C) [] a la sc) end =
       Ok (mk_pst r' (mk_builder ps (C ++ cl)) [] a la sc)) ->
    reads_element t r (Node ItemEnv (Node ItemBegin [lf t] :: xs ++ cl)) r'.
  Proof.
    intros Ht H2 H3 H4 Hw. inversion Hw as [|? ? Hw1 Hw2]. subst. split; [apply H3; now apply H2|].
    intros ps C a la sc. exists true. apply ev_run. cbn [dispatch]. unfold Parser.content, p_peek. cbn [p_lex list_pk hd_error option_map]. rewrite Ht.
    eapply ev_bind; [|apply ev_all; reflexivity]. unfold environment. rewrite !start_step. cbn [p_lex list_pk hd_error]. destruct t as [t s]. cbn [fst] in Ht. subst t.
    cbn [p_lex list_pk hd_error]. rewrite eat_step. cbn [bind].
    unfold simple_token in Hw1. cbn [fst snd] in Hw1. unfold argless_env in Hw1.
    assert (Ea : forall st : pst, (match option_map en_args (get_env sp s) with None | Some PNone | Some (PFixed 0) => Ok st | Some _ => Fuel end) = Ok st).
    { intros st. destruct (get_env sp s) as [e|]; [|reflexivity]. cbn. destruct (Hw1 e eq_refl) as [-> | ->]; reflexivity. }
    assert (Ec : forall (st : pst) n, (match option_map en_args (get_env sp s) with None | Some PNone | Some (PFixed 0) => Ok st | Some p => match_arguments (run n) false (start_match p) st end) = Ok st).
    { intros st n. specialize (Ea st). destruct (option_map en_args (get_env sp s)) as [[|[|]| | |]|]; try discriminate Ea; reflexivity. }
    eapply ev_bind; [apply ev_all; intros n; apply Ec|].
    rewrite finish_step. cbn [bind]. eapply ev_bind; [exact (item_list_reads (Some Env) _ _ _ _ _ _ _ _ H2 Hw2)|].
    eapply ev_bind; [apply ev_all; intros n; apply H4|]. apply ev_all. intros n.
    replace (((C ++ [Node ItemBegin [leaf (CommandName BeginEnvironment, s)]]) ++ xs) ++ cl) with (C ++ (Node ItemBegin [lf (CommandName BeginEnvironment, s)] :: xs ++ cl)) by (rewrite <- !app_assoc; reflexivity). apply finish_step.
  Qed.

  Lemma sound : (forall o ts xs r, content o ts xs r -> reads_content o ts xs r) /\
    (forall t ts x r, element t ts x r -> reads_element t ts x r).
  Proof.
    apply content_element_ind.
    - intros o Hs. split; [exact Hs|]. intros ps C a la. exists la. apply ev_run, ev_all. intros n. rewrite app_nil_r. reflexivity.
    - intros o t r He Hs. split; [exact Hs|]. intros ps C a la. exists la. apply ev_run, ev_all. intros n. cbn [dispatch]. unfold list_loop, p_peek.
      cbn [p_lex list_pk hd_error option_map p_scope]. apply stop_iff in He. rewrite He, app_nil_r. reflexivity.
    - intros o t r x r' xs r'' He Hx IHx Hxs IHxs Hs. destruct (IHx Hs) as [Hs' Hr]. destruct (IHxs Hs') as [Hs'' Hc]. split; [exact Hs''|]. intros ps C a la.
      destruct (Hr ps C a la (scope_of o)) as [att E1].
      destruct (Hc ps (C ++ [x]) a (if att then Some (List.length C) else la)) as [la' E2]. exists la'. destruct t as [t s].
      refine (loop_step gm sp false att t s r (scope_of o) ps C a la (List.length C) _ _ (stop_false _ _ He) _ eq_refl E1 _); [discriminate|].
      cbn [loop]. rewrite <- app_assoc in E2. destruct att; exact E2.
    - intros t r Hm Hs. inversion Hs as [|? ? Hs1 Hs2]. subst. split; [exact Hs2|]. intros ps C a la sc.
      assert (K : forall att : bool, ev (fun n => (let* st := eat (mk_pst (t :: r) (mk_builder ps C) [] a la sc : pst) in Ok (att, st)) = Ok (att, mk_pst r (mk_builder ps (C ++ [lf t])) [] a la sc))).
      { intros att. apply ev_all. intros n. rewrite eat_step. reflexivity. }
      destruct t as [t s]. cbn [fst] in Hm. unfold mark in Hm. cbn [In] in Hm.
      repeat (destruct Hm as [<-|Hm]; [first [exists true; apply ev_run; exact (K true) | exists false; apply ev_run; exact (K false)]|]). contradiction.
    - intros t r Hm Hs. inversion Hs as [|? ? Hs1 Hs2]. subst. split; [exact Hs2|]. intros ps C a la sc. exists true.
      assert (K : ev (fun n => (let* st := error_node list_pk list_nx (mk_pst (t :: r) (mk_builder ps C) [] a la sc : pst) in Ok (true, st)) = Ok (true, mk_pst r (mk_builder ps (C ++ [Node TokenError [lf t]])) [] a la sc))).
      { apply ev_all. intros n. unfold error_node. rewrite start_step, eat_step. cbn [bind]. rewrite finish_step. reflexivity. }
      destruct t as [t s]. cbn [fst] in Hm. destruct Hm as [Hm|[m ->]]; [|apply ev_run; exact K].
      cbn [In] in Hm. repeat (destruct Hm as [<-|Hm]; [apply ev_run; exact K|]). contradiction.
    - intros t r Hm Hs. inversion Hs as [|? ? Hs1 Hs2]. subst. split; [exact Hs2|]. intros ps C a la sc. exists true. apply ev_run, ev_all. intros n.
      destruct t as [t s]. cbn [fst] in Hm.
      assert (Hname : exists name, s = 92%N :: name /\ argless sp name) by (destruct Hm as [-> | ->]; exact Hs1).
      destruct Hname as (name & -> & Hn). clear Hs1. cbn [dispatch].
      assert (E : command list_pk list_nx sp (run n) (mk_pst ((t, 92%N :: name) :: r) (mk_builder ps C) [] a la sc : pst) = Ok (true, mk_pst r (mk_builder ps (C ++ [Node ItemCmd [lf (t, 92%N :: name)]])) [] a la sc)).
      { unfold command. cbn [p_lex list_pk hd_error]. assert (Es : strip_prefix (tx "\") (92%N :: name) = Some name) by reflexivity. rewrite Es.
        assert (K : (let* st := eat (start_node ItemCmd (mk_pst ((t, 92%N :: name) :: r) (mk_builder ps C) [] a la sc : pst)) in
          let* st := finish_node st in Ok (true, st)) = Ok (true, mk_pst r (mk_builder ps (C ++ [Node ItemCmd [lf (t, 92%N :: name)]])) [] a la sc)).
        { rewrite start_step, eat_step. cbn [bind]. rewrite finish_step. reflexivity. }
        destruct (get_cmd sp name) as [c|] eqn:Ec; [|exact K]. cbn [option_map]. destruct (Hn c Ec) as [-> | ->]; exact K. }
      destruct Hm as [-> | ->]; exact E.
    - intros t ts r Ht Hts Hr Hs. split; [inversion Hs as [|? ? _ Hs2]; subst; now apply Forall_app in Hs2|]. intros ps C a la sc. exists true. apply ev_run. cbn [dispatch].
      assert (K : ev (fun n => (let* st := p_text list_pk list_nx (run n) (mk_pst (t :: ts ++ r) (mk_builder ps C) [] a la sc : pst) in Ok (true, st)) = Ok (true, mk_pst r (mk_builder ps (C ++ [Node ItemText (map lf (t :: ts))])) [] a la sc))).
      { eapply ev_bind; [|apply ev_all; reflexivity]. unfold p_text. rewrite start_step, eat_step. cbn [bind].
        eapply ev_bind; [unfold rec_; eapply ev_bind; [apply (texts_ev ts r); assumption|apply ev_all; intros n; reflexivity]|]. apply ev_all. intros n.
        replace ((C ++ [leaf t]) ++ map lf ts) with (C ++ map lf (t :: ts)) by (cbn [map]; rewrite <- app_assoc; reflexivity). apply finish_step. }
      destruct t as [t s]. cbn [fst] in Ht. destruct Ht as [<-|[<-|[]]]; exact K.
    - intros c t k r xs t' r' Ho Hc IH Hcl. eapply group_element; [exact Ho|exact IH|intros H; now inversion H|]. apply eat_if_yes; [exact Hcl| |]; intros ->; cbn in Ho; intuition discriminate.
    - intros c t k r xs r' Ho Hc IH Hcl. rewrite <- (app_nil_r xs). eapply group_element; [exact Ho|exact IH|auto|].
      apply eat_if_no; [exact Hcl| |]; intros ->; cbn in Ho; intuition discriminate.
    - intros t r xs t' r' Ht Hc IH Hcl. eapply env_element; [exact Ht|exact IH|intros H; now inversion H|]. intros ps C a la sc. destruct t' as [t' s']. cbn in Hcl. subst t'.
      cbn [p_peek p_lex list_pk hd_error option_map fst]. rewrite start_step, eat_step. cbn [bind]. apply finish_step.
    - intros t r xs r' Ht Hc IH Hcl. rewrite <- (app_nil_r xs). eapply env_element; [exact Ht|exact IH|auto|]. intros ps C a la sc. rewrite app_nil_r. destruct r' as [|[t' s'] r']; [reflexivity|].
      cbn [p_peek p_lex list_pk hd_error option_map fst]. cbn in Hcl. destruct t' as [| | |[]|[]| | | | | | | | | | | | | | | | [] | |]; try reflexivity. now contradiction Hcl.
    - intros t r c1 r1 xs t' r2 c2 r' Ht H1 Hc IH Hcl H2. eapply lr_element; [exact Ht|exact H1|exact IH| |].
      + intros H. inversion H. subst. eapply clause_simple; eassumption.
      + intros ps C a la sc. destruct t' as [t' s']. cbn in Hcl. subst t'. cbn [p_peek p_lex list_pk hd_error option_map fst]. eapply clause_ev2. exact H2.
    - intros t r c1 r1 xs r' Ht H1 Hc IH Hcl. rewrite <- (app_nil_r xs). eapply lr_element; [exact Ht|exact H1|exact IH|auto|].
      intros ps C a la sc. apply ev_all. intros n. rewrite app_nil_r. destruct r' as [|[t' s'] r']; [reflexivity|].
      cbn [p_peek p_lex list_pk hd_error option_map fst]. cbn in Hcl. destruct t' as [| | |[]|[]| | | | | | | | | | | | | | | | [] | |]; try reflexivity. now contradiction Hcl.
  Qed.
End Sound.

(** ** Every sequence of such tokens has a reading *)
Section Total.
  Variable sp : spec.
  Notation simple := (simple_token sp).
  Lemma ends_dec o t : {ends_in o t} + {~ ends_in o t}.
  Proof. destruct (stop_by_scope (scope_of o) t) eqn:E; [left; now apply stop_iff|right]. intros H. apply stop_iff in H. congruence. Qed.
  Lemma closes_dec c t : {closes c t} + {~ closes c t}.
  Proof. destruct c; apply token_eq_dec. Qed.
  Lemma split_run (P : tok -> Prop) : (forall t, {P t} + {~ P t}) -> forall ts : list tok, exists a b, ts = a ++ b /\ Forall P a /\ ~ heads P b.
  Proof.
    intros D ts. induction ts as [|t ts (a & b & -> & H1 & H2)]; [now exists [], []|].
    destruct (D t); [exists (t :: a), b; auto|]. exists [], (t :: a ++ b). auto.
  Qed.
  Lemma blank_dec t : {blank_token t} + {~ blank_token t}. Proof. apply in_dec, token_eq_dec. Qed.
  Lemma text_dec t : {text_token t} + {~ text_token t}. Proof. apply in_dec, token_eq_dec. Qed.
  Lemma size_app a b : toks_size (a ++ b) = toks_size a + toks_size b.
  Proof. induction a as [|t a IH]; [reflexivity|]. change ((t :: a) ++ b) with (t :: (a ++ b)). unfold toks_size in *. cbn [fold_right]. lia. Qed.
  Lemma size_cons t b : toks_size (t :: b) = S (List.length (snd t)) + toks_size b. Proof. reflexivity. Qed.
  Lemma delimiter_total r : Forall simple r -> ~ heads blank_token r -> exists x r', delimiter r x r' /\ toks_size r' <= toks_size r.
  Proof.
    intros Hs Hb. destruct r as [|[t s] r]; [exists [], []; split; [constructor|lia]|].
    destruct (token_eq_dec t Word) as [->|N1].
    - inversion Hs as [|? ? H1 _]; subst. destruct s as [|c [|d s]]; [now contradiction H1| |].
      + exists [Leaf TokenWord [c]], r. split; [constructor|]. rewrite size_cons. lia.
      + exists [Leaf TokenWord [c]], ((Word, d :: s) :: r). split; [constructor|]. rewrite !size_cons. cbn. lia.
    - destruct (token_eq_dec t (CommandName Generic)) as [->|N2]; [exists [Leaf TokenCommandSym s], r; split; [constructor|rewrite size_cons; lia]|].
      assert (D : no_delimiter (t, s) \/ ~ no_delimiter (t, s)).
      { unfold no_delimiter. cbn [fst]. destruct t; try (right; intros [|(? & ? & ?)]; discriminate).
        - left. now left.
        - left. right. exists c. split; [reflexivity|]. intros ->. now apply N2. }
      destruct D as [D|D]; [exists [], ((t, s) :: r); split; [now apply d_none|apply le_n]|].
      exists [lf (t, s)], r. split; [now apply d_other|]. rewrite size_cons. lia.
  Qed.
  Lemma clause_total t r : Forall simple r -> exists x r', clause t r x r' /\ toks_size r' <= toks_size r.
  Proof.
    intros Hs. destruct (split_run _ blank_dec r) as (a & b & -> & Ha & Hb). apply Forall_app in Hs as [_ Hs].
    destruct (delimiter_total b Hs Hb) as (x & r' & Hd & Hl). eexists. exists r'. split; [econstructor; eassumption|]. rewrite size_app. lia.
  Qed.
  Lemma total n : forall o ts, toks_size ts <= n -> Forall simple ts ->
    exists xs r, content o ts xs r /\ toks_size r <= toks_size ts /\ match r with [] => True | t :: _ => ends_in o (fst t) end.
  Proof.
    induction n as [|n IH]; intros o ts Hn Hs.
    - destruct ts as [|t ts]; [exists [], []; split; [constructor|split; [lia|exact I]]|]. rewrite size_cons in Hn. lia.
    - destruct ts as [|t ts]; [exists [], []; split; [constructor|split; [lia|exact I]]|].
      destruct (ends_dec o (fst t)) as [E|E]; [exists [], (t :: ts); split; [now constructor|split; [lia|exact E]]|].
      rewrite size_cons in Hn. inversion Hs as [|? ? Hs1 Hs2]. subst.
      assert (K : exists x r', element t ts x r' /\ toks_size r' <= toks_size ts /\ Forall simple r').
      { assert (Sub : forall c, exists xs r, content (Some c) ts xs r /\ toks_size r <= toks_size ts /\ Forall simple r).
        { intros c. destruct (IH (Some c) ts) as (xs & r & H1 & H2 & _); [lia|exact Hs2|]. exists xs, r. split; [exact H1|]. split; [exact H2|].
          eapply (proj1 (sound (fun _ _ => false) sp)); eassumption. }
        assert (Grp : forall c k, opens_with c (fst t) k -> exists x r', element t ts x r' /\ toks_size r' <= toks_size ts /\ Forall simple r').
        { intros c k Ho. destruct (Sub c) as (xs & r & H1 & H2 & H3).
          assert (D : (exists t' r', r = t' :: r' /\ closes c (fst t')) \/ ~ heads (fun t => closes c (fst t)) r).
          { destruct r as [|t' r']; [right; auto|]. destruct (closes_dec c (fst t')); [left; eauto|right; auto]. }
          destruct D as [(t' & r' & -> & Hc)|D].
          - eexists. exists r'. split; [eapply e_closed; eassumption|]. rewrite size_cons in H2. split; [lia|now inversion H3].
          - eexists. exists r. split; [eapply e_open; eassumption|]. now split. }
        assert (Mark : mark (fst t) -> exists x r', element t ts x r' /\ toks_size r' <= toks_size ts /\ Forall simple r').
        { intros Hm. eexists. exists ts. split; [now apply e_mark|]. split; [lia|exact Hs2]. }
        assert (Err : misplaced (fst t) -> exists x r', element t ts x r' /\ toks_size r' <= toks_size ts /\ Forall simple r').
        { intros Hm. eexists. exists ts. split; [now apply e_error|]. split; [lia|exact Hs2]. }
        assert (Cmd : control (fst t) -> exists x r', element t ts x r' /\ toks_size r' <= toks_size ts /\ Forall simple r').
        { intros Hm. eexists. exists ts. split; [now apply e_command|]. split; [lia|exact Hs2]. }
        assert (Txt : In (fst t) [Word; Comma] -> exists x r', element t ts x r' /\ toks_size r' <= toks_size ts /\ Forall simple r').
        { intros Ht. destruct (split_run _ text_dec ts) as (a & b & -> & Ha & Hb). eexists. exists b. split; [now apply e_text|]. rewrite size_app. split; [lia|].
          now apply Forall_app in Hs2. }
        destruct t as [k s]. cbn [fst] in *.
        destruct k as [| | |b|b| | | | | | | | | | | | | | | |c| |m]; try contradiction; try (apply Mark; cbn; tauto); try (apply Txt; cbn; tauto).
        - destruct b; [|apply Mark; cbn; tauto|apply Mark; cbn; tauto]. apply (Grp Group ItemCurly). cbn. tauto.
        - destruct b; [|apply Mark; cbn; tauto|apply Mark; cbn; tauto]. apply Err. left. cbn. tauto.
        - apply (Grp Dollars ItemFormula). cbn. tauto.
        - destruct c; try contradiction; try (apply Mark; cbn; tauto); try (apply Cmd; unfold control; tauto); try (apply Err; left; cbn; tauto).
          + destruct (Sub Env) as (xs & r & H1 & H2 & H3).
            assert (D : (exists t' r', r = t' :: r' /\ closes Env (fst t')) \/ ~ heads (fun t => closes Env (fst t)) r).
            { destruct r as [|t' r']; [right; auto|]. destruct (closes_dec Env (fst t')); [left; eauto|right; auto]. }
            destruct D as [(t' & r' & -> & Hc)|D].
            * eexists. exists r'. split; [eapply e_env; [reflexivity|eassumption|exact Hc]|]. rewrite size_cons in H2. split; [lia|now inversion H3].
            * eexists. exists r. split; [eapply e_env_open; [reflexivity|eassumption|exact D]|]. now split.
          + apply (Grp Math ItemFormula). cbn. tauto.
          + destruct (clause_total (CommandName CLeft, s) ts Hs2) as (c1 & r1 & Hc1 & L1). pose proof (clause_simple sp _ _ _ _ Hc1 Hs2) as Hs3.
            destruct (IH (Some Pair) r1) as (xs & r & H1 & H2 & _); [lia|exact Hs3|].
            assert (H3 : Forall simple r) by (eapply (proj1 (sound (fun _ _ => false) sp)); eassumption).
            assert (D : (exists t' r', r = t' :: r' /\ closes Pair (fst t')) \/ ~ heads (fun t => closes Pair (fst t)) r).
            { destruct r as [|t' r']; [right; auto|]. destruct (closes_dec Pair (fst t')); [left; eauto|right; auto]. }
            destruct D as [(t' & r' & -> & Hc)|D].
            * inversion H3 as [|? ? _ H4]. subst. destruct (clause_total t' r' H4) as (c2 & r2 & Hc2 & L2). pose proof (clause_simple sp _ _ _ _ Hc2 H4) as H5.
              eexists. exists r2. split; [eapply e_pair; [reflexivity|exact Hc1|exact H1|exact Hc|exact Hc2]|]. rewrite size_cons in H2. split; [lia|exact H5].
            * eexists. exists r. split; [eapply e_pair_open; [reflexivity|exact Hc1|exact H1|exact D]|]. split; [lia|exact H3].
        - apply Err. right. now exists m. }
      destruct K as (x & r' & Hx & Lx & Sx). destruct (IH o r') as (xs & r & H1 & H2 & H3); [lia|exact Sx|].
      exists (x :: xs), r. split; [eapply c_cons; eassumption|]. rewrite size_cons. split; [lia|exact H3].
  Qed.
End Total.

(* ------------------------------------------------------------------ *)
(** * C55  Delimiters pair up as specified, whatever the source *)

(** Every sequence of such tokens has exactly one reading, and the parser finds it. *)
Theorem C55_pairing : forall gm sp fuel ts t, Forall (simple_token sp) ts -> parse_fuel ts <= fuel ->
  (parse_list gm sp fuel ts = Ok t <-> exists xs, t = Node ScopeRoot xs /\ content None ts xs []).
Proof.
  intros gm sp fuel ts t Hs Hf.
  assert (W : Forall word_ok ts).
  { eapply Forall_impl; [|exact Hs]. intros [k s] H. destruct k; try exact (fun E => ltac:(discriminate E)). intros _. exact H. }
  assert (Snd : forall xs, content None ts xs [] -> parse_list gm sp fuel ts = Ok (Node ScopeRoot xs)).
  { intros xs H. destruct (proj1 (sound gm sp) _ _ _ _ H Hs) as [_ K].
    assert (E : ev (fun n => parse_list gm sp n ts = Ok (Node ScopeRoot xs))).
    { unfold parse_list, parse. change (start_node ScopeRoot (pst_new ts)) with (mk_pst ts (mk_builder [(ScopeRoot, 0)] []) [] None None Root : lpst).
      eapply ev_bind; [apply (item_list_reads gm sp None ts xs [] [(ScopeRoot, 0)] [] None None Root); [exact (proj1 (sound gm sp) _ _ _ _ H)|exact Hs]|].
      apply ev_all. intros n. refine (eq_trans (f_equal (fun x => bind x _) (finish_step ScopeRoot xs [] [] [] [] None None Root)) _). reflexivity. }
    destruct E as [N E]. rewrite <- (E (Nat.max N fuel)) by lia. symmetry. eapply parse_fuel_mono; [reflexivity| |lia].
    now apply parse_stops. }
  split.
  - intros H. destruct (total sp (toks_size ts) None ts (le_n _) Hs) as (xs & r & H1 & H2 & H3). destruct r as [|? ?]; [|contradiction].
    rewrite (Snd xs H1) in H. injection H as <-. eauto.
  - intros (xs & -> & H). now apply Snd.
Qed.
Print Assumptions C55_pairing.

(** The same for sources, with and without macro expansion. *)
Theorem C55_source : forall macros page sp src ts, 2 <= page -> tokens_of macros page sp src ts -> Forall (simple_token sp) ts ->
  exists xs f0, content None ts xs [] /\ forall fuel, f0 <= fuel -> parse_source macros fuel page sp src = Ok (Node ScopeRoot xs).
Proof.
  intros m page sp src ts Hp Ht Hs. destruct (total sp (toks_size ts) None ts (le_n _) Hs) as (xs & r & H1 & H2 & H3). destruct r as [|? ?]; [|contradiction].
  destruct (parse_source_enough _ _ _ _ _ Hp Ht) as [f0 Hf]. exists xs, f0. split; [exact H1|]. intros fuel L. rewrite (Hf fuel L).
  apply C55_pairing; [exact Hs|lia|]. eauto.
Qed.
Print Assumptions C55_source.

(** The reading of a sequence is unique. *)
Theorem C55_unique : forall sp ts xs ys, Forall (simple_token sp) ts -> content None ts xs [] -> content None ts ys [] -> xs = ys.
Proof.
  intros sp ts xs ys Hs H1 H2.
  assert (E1 : parse_list (fun _ _ => false) sp (parse_fuel ts) ts = Ok (Node ScopeRoot xs)) by (apply C55_pairing; [exact Hs|lia|eauto]).
  assert (E2 : parse_list (fun _ _ => false) sp (parse_fuel ts) ts = Ok (Node ScopeRoot ys)) by (apply C55_pairing; [exact Hs|lia|eauto]).
  congruence.
Qed.
Print Assumptions C55_unique.

(** A broken source: the brace ends the formula, the pair and the group; the
    second [\end] is an error, the environment stays open. *)
Definition C55_broken : text := tx "\begin{a}{x\left(\( y }\right] $z\end{a} \end{b} u".
Example C55_example : Forall (simple_token DEFAULT_SPEC) (stream_toks (lex_stream DEFAULT_SPEC C55_broken)) /\
  parse_without_macro 300 PAGE DEFAULT_SPEC C55_broken = Ok (Node ScopeRoot
    [Node ItemEnv [Node ItemBegin [Leaf TokenCommandSym (tx "a")];
       Node ItemCurly [Leaf TokenLBrace (tx "{"); Node ItemText [Leaf TokenWord (tx "x")];
         Node ItemLR [Node ClauseLR [Leaf ClauseCommandName (tx "\left"); Leaf TokenLParen (tx "(")];
           Node ItemFormula [Leaf TokenBeginMath (tx "\("); Leaf TokenWhiteSpace (tx " ");
             Node ItemText [Leaf TokenWord (tx "y"); Leaf TokenWhiteSpace (tx " ")]]];
         Leaf TokenRBrace (tx "}")];
       Node ItemCmd [Leaf ClauseCommandName (tx "\right")]; Leaf TokenRBracket (tx "]"); Leaf TokenWhiteSpace (tx " ");
       Node ItemFormula [Leaf TokenDollar (tx "$"); Node ItemText [Leaf TokenWord (tx "z")]];
       Node ItemEnd [Leaf TokenCommandSym (tx "a")]];
     Leaf TokenWhiteSpace (tx " "); Node TokenError [Leaf TokenCommandSym (tx "b")]; Leaf TokenWhiteSpace (tx " ");
     Node ItemText [Leaf TokenWord (tx "u")]]).
Proof.
  split; [|vm_compute; reflexivity].
  assert (E : stream_toks (lex_stream DEFAULT_SPEC C55_broken) =
    [(CommandName BeginEnvironment, tx "a"); (TLeft Curly, tx "{"); (Word, tx "x"); (CommandName CLeft, tx "\left"); (TLeft Paren, tx "(");
     (CommandName BeginMath, tx "\("); (Whitespace, tx " "); (Word, tx "y"); (Whitespace, tx " "); (TRight Curly, tx "}"); (CommandName CRight, tx "\right");
     (TRight Bracket, tx "]"); (Whitespace, tx " "); (Dollar, tx "$"); (Word, tx "z"); (CommandName EndEnvironment, tx "a"); (Whitespace, tx " ");
     (CommandName EndEnvironment, tx "b"); (Whitespace, tx " "); (Word, tx "u")]) by (vm_compute; reflexivity).
  assert (E1 : get_env DEFAULT_SPEC (tx "a") = None) by (vm_compute; reflexivity).
  assert (E2 : get_cmd DEFAULT_SPEC (tx "right") = None) by (vm_compute; reflexivity).
  rewrite E. repeat match goal with |- Forall _ (_ :: _) => apply Forall_cons | |- Forall _ [] => apply Forall_nil end; unfold simple_token; cbn [fst snd]; try discriminate; try exact I.
  all: first [ exists (tx "right"); split; [reflexivity|intros c Hc; rewrite E2 in Hc; discriminate]
             | intros e He; rewrite E1 in He; discriminate | unfold tx; discriminate | idtac ].
Qed.
