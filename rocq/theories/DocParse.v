(** How the parser reads documents (for C54). *)
From Verif Require Export DocConv ParserText.
Local Open Scope nat_scope.
Notation item := DocSpec.item.

(** from some amount of fuel on *)
Definition ev (P : nat -> Prop) : Prop := exists N, forall n, N <= n -> P n.
Lemma ev_all (P : nat -> Prop) : (forall n, P n) -> ev P.
Proof. intros H. exists 0. auto. Qed.
Lemma ev_bind {A B} (f : nat -> res A) (g : nat -> A -> res B) x R :
  ev (fun n => f n = Ok x) -> ev (fun n => g n x = R) -> ev (fun n => bind (f n) (g n) = R).
Proof.
  intros [N1 H1] [N2 H2]. exists (Nat.max N1 N2). intros n Hn. rewrite H1 by lia. cbn [bind]. apply H2. lia.
Qed.
Lemma ev_eq {A} (f g : nat -> res A) R : (forall n, f n = g n) -> ev (fun n => g n = R) -> ev (fun n => f n = R).
Proof. intros H [N H1]. exists N. intros n Hn. rewrite H. auto. Qed.

Definition toksl (l : list item) (k : list tok) : list tok := fold_right toks k l.
Lemma toksl_app a b k : toksl (a ++ b) k = toksl a (toksl b k).
Proof. apply fold_right_app. Qed.

(** ** Heads *)
Definition is_infix (i : item) : bool := match i with IInfix _ _ _ => true | _ => false end.
Definition head_tok (i : item) : token :=
  match i with
  | IWord _ => Word
  | ISpace x => fst (space_tok x)
  | IMark c => mark_token c
  | IPrime => Apostrophe
  | INewline => NewLine
  | IGroup _ => TLeft Curly
  | IBracket _ => TLeft Bracket
  | IScript sup _ _ => if sup then Caret else Underscore
  | ICmd _ _ | IPost _ | IGreedy _ _ | IInfix _ _ _ => CommandName Generic
  | ICode typst _ => fst (code_open typst)
  | ILR _ _ _ _ _ => CommandName CLeft
  | IEnv _ _ _ _ => CommandName BeginEnvironment
  | IFormula f _ => fst (f_open f)
  end.
Lemma toks_head i k : is_infix i = false -> exists s r, toks i k = (head_tok i, s) :: r.
Proof.
  intros Hi. destruct i; try discriminate Hi; cbn [toks head_tok]; try (eexists; eexists; reflexivity).
  - exists (snd (space_tok x)), k. destruct x; reflexivity.
  - destruct sup; eexists; eexists; reflexivity.
  - destruct typst; eexists; eexists; reflexivity.
  - destruct k0; eexists; eexists; reflexivity.
Qed.
Definition stops (P : token -> bool) (k : list tok) : Prop := match k with [] => True | t :: _ => P (fst t) = false end.
Definition okw (k : list tok) : Prop := match k with (Word, []) :: _ => False | _ => True end.
Definition isp (i : item) : bool := match i with ISpace _ => true | _ => false end.

Lemma split_spaces (l : list item) : exists g l', l = map ISpace g ++ l' /\ match l' with i :: _ => isp i = false | [] => True end.
Proof.
  induction l as [|i l IH]; [now exists [], []|]. destruct (isp i) eqn:E; [|now exists [], (i :: l)].
  destruct i; try discriminate. destruct IH as (g & l' & -> & H). now exists (x :: g), l'.
Qed.
Lemma split_text (l : list item) : exists p l', l = p ++ l' /\ Forall (fun i => textlike i = true) p /\ match l' with i :: _ => textlike i = false | [] => True end.
Proof.
  induction l as [|i l IH]; [now exists [], []|]. destruct (textlike i) eqn:E; [|now exists [], (i :: l)].
  destruct IH as (p & l' & -> & H1 & H2). exists (i :: p), l'. auto.
Qed.
Lemma toksl_spaces g k : toksl (map ISpace g) k = map space_tok g ++ k.
Proof. induction g as [|x g IH]; [reflexivity|]. cbn [map toksl fold_right toks app]. now rewrite <- IH. Qed.

(** ** Sizes *)
Fixpoint isize (i : item) : nat :=
  let args (l : list (list space * item)) := fold_right (fun (p : list space * item) n => (let (_, a) := p in isize a) + n) 0 l in
  let list l := fold_right (fun i n => isize i + n) 0 l in
  match i with
  | IGroup l | IBracket l | IFormula _ l | IGreedy _ l => S (list l)
  | IScript _ _ a => S (isize a)
  | ICmd _ l => S (args l)
  | IInfix l1 _ l2 => S (list l1 + list l2)
  | ILR _ _ body _ _ => S (list body)
  | IEnv _ l body _ => S (args l + list body)
  | _ => 1
  end.
Definition lsize (l : list item) : nat := fold_right (fun i n => isize i + n) 0 l.
Lemma isize_pos i : 1 <= isize i. Proof. destruct i; cbn; lia. Qed.
Lemma lsize_app a b : lsize (a ++ b) = lsize a + lsize b.
Proof. induction a as [|i a IH]; [reflexivity|]. cbn [app lsize fold_right] in *. unfold lsize in IH at 1. rewrite IH. unfold lsize. lia. Qed.

Section Parse.
  Variable gm : text -> text -> bool.
  Variable sp : spec.
  Notation pst := (@Parser.pst (list tok)).
  Notation run := (Parser.run list_pk list_nx list_set gm sp).
  Notation typ := (typ sp).
  Notation wf := (wf sp gm).
  Notation wf_list := (wf_list sp gm).
  Notation means := (means sp).
  Notation meansl := (meansl sp).
  Notation argm := (argm sp).
  Notation elem := (elem sp).
  Notation piece_of := (piece_of sp).
  Notation item_of := (item_of sp).
  Notation eat := (eat list_pk list_nx).

  Lemma ev_run c st R : ev (fun n => dispatch list_pk list_nx list_set gm sp (run n) c st = R) -> ev (fun n => run n c st = R).
  Proof. intros [N H]. exists (S N). intros n Hn. destruct n as [|n]; [lia|]. cbn [Parser.run]. apply H. lia. Qed.

  (** the elementary steps *)
  Lemma eat_step t k ps C tr a la sc : eat (mk_pst (t :: k) (mk_builder ps C) tr a la sc) = Ok (mk_pst k (mk_builder ps (C ++ [leaf t])) tr a la sc).
  Proof. destruct t. reflexivity. Qed.
  Lemma start_step kd k ps C tr a la sc : start_node kd (mk_pst k (mk_builder ps C) tr a la sc : pst) = mk_pst k (mk_builder ((kd, List.length C) :: ps) C) tr a la sc.
  Proof. reflexivity. Qed.
  Lemma finish_step kd X k ps C tr a la sc : finish_node (mk_pst k (mk_builder ((kd, List.length C) :: ps) (C ++ X)) tr a la sc : pst) = Ok (mk_pst k (mk_builder ps (C ++ [Node kd X])) tr a la sc).
  Proof.
    unfold finish_node, b_finish_node. cbn [p_b b_parents b_children bind]. rewrite firstn_app, Nat.sub_diag, firstn_all, skipn_app, Nat.sub_diag, skipn_all.
    cbn [firstn skipn app]. rewrite app_nil_r. reflexivity.
  Qed.
  Lemma start_at_step kd cp k ps C tr a la sc : cp <= List.length C -> match ps with (_, f) :: _ => f <= cp | [] => True end ->
    start_node_at cp kd (mk_pst k (mk_builder ps C) tr a la sc : pst) = Ok (mk_pst k (mk_builder ((kd, cp) :: ps) C) tr a la sc).
  Proof.
    intros H1 H2. unfold start_node_at, b_start_at. cbn [p_b b_children b_parents]. destruct (Nat.ltb_spec (List.length C) cp); [lia|].
    destruct ps as [|[x f] ps]; [reflexivity|]. destruct (Nat.ltb_spec cp f); [lia|]. reflexivity.
  Qed.
  Lemma extract_step g k ps : forall C a la sc,
    extract_holding_trivia (mk_pst k (mk_builder ps C) (map space_tok g) a la sc : pst) = mk_pst k (mk_builder ps (C ++ map leaf (map space_tok g))) [] a la sc.
  Proof.
    intros C a la sc. unfold extract_holding_trivia. cbn [p_trivia].
    assert (K : forall tr, fold_left (fun (st : pst) t => token_ (kind_of_token (fst t)) (snd t) st) (map space_tok g) (mk_pst k (mk_builder ps C) tr a la sc)
      = mk_pst k (mk_builder ps (C ++ map leaf (map space_tok g))) tr a la sc); [|now rewrite K].
    induction g as [|x g IH] in C |- *; intros tr; cbn [map fold_left]; [now rewrite app_nil_r|].
    specialize (IH (C ++ [leaf (space_tok x)]) tr). rewrite <- app_assoc in IH. exact IH.
  Qed.
  Lemma space_trivia x : is_trivia (fst (space_tok x)) = true. Proof. destruct x; reflexivity. Qed.

  Lemma trivia_ev g : forall k ps C tr a la sc, stops is_trivia k ->
    ev (fun n => run n KTrivia (mk_pst (map space_tok g ++ k) (mk_builder ps C) tr a la sc) = Ok (true, mk_pst k (mk_builder ps (C ++ map leaf (map space_tok g))) tr a la sc)).
  Proof.
    induction g as [|x g IH]; intros k ps C tr a la sc Hk; apply ev_run; cbn [map app dispatch]; unfold trivia_loop, p_peek; cbn [p_lex list_pk hd_error].
    - apply ev_all. intros n. rewrite app_nil_r. destruct k as [|t k]; [reflexivity|]. cbn [list_pk hd_error option_map]. unfold stops in Hk. now rewrite Hk.
    - cbn [option_map]. rewrite space_trivia, eat_step. cbn [bind].
      eapply ev_eq; [reflexivity|]. specialize (IH k ps (C ++ [leaf (space_tok x)]) tr a la sc Hk). rewrite <- app_assoc in IH. exact IH.
  Qed.
  Lemma text_ev p : forall k ps C tr a la sc, Forall (fun i => textlike i = true) p -> stops is_text_component k ->
    ev (fun n => run n KText (mk_pst (toksl p k) (mk_builder ps C) tr a la sc) = Ok (true, mk_pst k (mk_builder ps (C ++ map leaf (map item_tok p))) tr a la sc)).
  Proof.
    induction p as [|i p IH]; intros k ps C tr a la sc Hp Hk; apply ev_run; cbn [map app dispatch]; unfold text_loop, p_peek; cbn [p_lex list_pk hd_error].
    - apply ev_all. intros n. rewrite app_nil_r. cbn [toksl fold_right]. destruct k as [|t k]; [reflexivity|]. cbn [list_pk hd_error option_map]. unfold stops in Hk. now rewrite Hk.
    - inversion Hp as [|? ? Hi Hp']; subst. assert (E : toksl (i :: p) k = item_tok i :: toksl p k) by (destruct i; try discriminate; reflexivity).
      assert (Et : is_text_component (fst (item_tok i)) = true).
      { destruct i; try discriminate; try reflexivity; [destruct x; reflexivity|]. cbn in Hi. apply N.eqb_eq in Hi. subst. reflexivity. }
      rewrite E. cbn [list_pk hd_error option_map]. rewrite Et, eat_step. cbn [bind].
      specialize (IH k ps (C ++ [leaf (item_tok i)]) tr a la sc Hp' Hk). rewrite <- app_assoc in IH. exact IH.
  Qed.
  Lemma ev_run_inv c st R : ev (fun n => run n c st = R) -> ev (fun n => dispatch list_pk list_nx list_set gm sp (run n) c st = R).
  Proof. intros [N H]. exists N. intros n Hn. apply (H (S n)). lia. Qed.

  (** ** The two loops that read lists *)
  Definition loop (gr : bool) (cur : nat) : call := if gr then KMatch true AMGreedy cur else KList cur.
  Lemma greedy_cur : forall n c1 c2 (st : pst), run n (KMatch true AMGreedy c1) st = run n (KMatch true AMGreedy c2) st.
  Proof.
    induction n as [|n IH]; intros c1 c2 st; [reflexivity|]. cbn [Parser.run dispatch]. unfold match_loop.
    destruct (list_pk (p_lex st)) as [[t s]|]; [|reflexivity]. destruct t; try reflexivity; (destruct (eat st) as [st'| |]; try reflexivity; cbn [bind]; apply IH).
  Qed.
  (** tokens at which a greedy loop stops *)
  Definition halt (sc : scope) (t : token) : bool :=
    stop_by_scope sc t || match t with Ampersand => true | NewLine => match sc with Environment => true | _ => false end | _ => false end.
  Definition halts (sc : scope) (k : list tok) : Prop := match k with [] => True | t :: _ => halt sc (fst t) = true end.
  Definition ends (sc : scope) (rest : list tok) : Prop :=
    match rest with [] => True | t :: _ => stop_by_scope sc (fst t) = true end.
  Lemma ends_halts sc k : ends sc k -> halts sc k.
  Proof. destruct k as [|t k]; [auto|]. cbn. unfold halt. intros ->. reflexivity. Qed.
  Lemma greedy_stop sc k cur b a la : halts sc k ->
    ev (fun n => run n (KMatch true AMGreedy cur) (mk_pst k b [] a la sc) = Ok (true, mk_pst k b [] a la sc)).
  Proof.
    intros H. apply ev_run, ev_all. intros n. cbn [dispatch]. unfold match_loop. cbn [p_lex p_scope].
    destruct k as [|[t s] k]; [reflexivity|]. cbn [list_pk hd_error]. cbn [halts fst] in H. unfold halt in H.
    destruct t; try reflexivity; cbn [andb negb]; try (rewrite orb_false_r in H; rewrite H; reflexivity); try (destruct sc; discriminate H).
    destruct sc; try discriminate H; reflexivity.
  Qed.
  Lemma list_stop sc k cur b a la : ends sc k ->
    ev (fun n => run n (KList cur) (mk_pst k b [] a la sc) = Ok (true, mk_pst k b [] a la sc)).
  Proof.
    intros H. apply ev_run, ev_all. intros n. cbn [dispatch]. unfold list_loop, p_peek. cbn [p_lex p_scope].
    destruct k as [|[t s] k]; [reflexivity|]. cbn [list_pk hd_error option_map fst]. cbn [ends fst] in H. now rewrite H.
  Qed.
  Definition quits (gr : bool) (sc : scope) (k : list tok) : Prop := if gr then halts sc k else ends sc k.
  Lemma loop_stop gr sc k cur b a la : quits gr sc k ->
    ev (fun n => run n (loop gr cur) (mk_pst k b [] a la sc) = Ok (true, mk_pst k b [] a la sc)).
  Proof. destruct gr; [apply greedy_stop|apply list_stop]. Qed.
  (** one turn of either *)
  Lemma loop_step (gr att : bool) t s k sc ps C a la cur (st' : pst) R :
    stop_by_scope sc t = false -> (gr = true -> halt sc t = false) -> cur = List.length C ->
    ev (fun n => run n (KContent true) (mk_pst ((t, s) :: k) (mk_builder ps C) [] a la sc) = Ok (att, st')) ->
    ev (fun n => run n (loop gr (checkpoint st')) (if att then with_last (Some cur) st' else st') = R) ->
    ev (fun n => run n (loop gr cur) (mk_pst ((t, s) :: k) (mk_builder ps C) [] a la sc) = R).
  Proof.
    intros Hs Hh -> H1 H2. destruct gr; cbn [loop] in *.
    - specialize (Hh eq_refl).
      set (cur := List.length C) in *. set (st := mk_pst ((t, s) :: k) (mk_builder ps C) [] a la sc : pst) in *.
      assert (H2' : ev (fun n => run n (KMatch true AMGreedy cur) (if att then with_last (Some cur) st' else st') = R)).
      { eapply ev_eq; [intros n; apply greedy_cur|exact H2]. }
      assert (K : ev (fun n => (if stop_by_scope sc t then Ok (true, st) else
          let* (attachable, st) := p_arg true (run n (KContent true)) st in
          run n (KMatch true AMGreedy cur) (if true && attachable then with_last (Some cur) st else st)) = R)).
      { rewrite Hs. eapply ev_bind; [exact H1|]. cbv beta iota. destruct att; exact H2'. }
      pose proof (ev_run_inv _ _ _ H1) as Hc. cbn [dispatch] in Hc.
      apply ev_run. cbn [dispatch]. unfold match_loop, st. cbn [p_lex p_scope list_pk hd_error].
      unfold content, p_peek, st in Hc. cbn [p_lex list_pk hd_error option_map fst] in Hc.
      destruct t; try exact K; try (unfold halt in Hh; cbn in Hh; rewrite ?orb_true_r in Hh; discriminate Hh).
      + destruct Hc as [n0 Hc]. specialize (Hc n0 (le_n _)). rewrite eat_step in *. cbn [bind] in *. injection Hc as <- <-. exact H2'.
      + destruct Hc as [n0 Hc]. specialize (Hc n0 (le_n _)). rewrite eat_step in *. cbn [bind] in *. injection Hc as <- <-. exact H2'.
      + destruct Hc as [n0 Hc]. specialize (Hc n0 (le_n _)). rewrite eat_step in *. cbn [bind] in *. injection Hc as <- <-. exact H2'.
      + destruct b; cbn [match_as_term].
        * unfold p_arg. change (negb (ARG_TERM =? ARG_TERM)%N) with false. cbv iota.
          destruct Hc as [n0 Hc], H2' as [n1 H2']. exists (n0 + n1). intros n Hn. specialize (Hc n ltac:(lia)). specialize (H2' n ltac:(lia)).
          destruct (item_group list_pk list_nx (run n) CurlyItem _) as [st1| |]; try discriminate Hc. cbn [bind] in *. injection Hc as <- <-. exact H2'.
        * destruct Hc as [n0 Hc]. specialize (Hc n0 (le_n _)). unfold p_arg. change (negb (ARG_BRACKET =? ARG_TERM)%N) with true. cbv iota. rewrite eat_step in *. cbn [bind] in *. injection Hc as <- <-. exact H2'.
        * destruct Hc as [n0 Hc]. specialize (Hc n0 (le_n _)). unfold p_arg. change (negb (ARG_PAREN =? ARG_TERM)%N) with true. cbv iota. rewrite eat_step in *. cbn [bind] in *. injection Hc as <- <-. exact H2'.
      + assert (E : (match sc with Environment => true | _ => false end) = false) by (unfold halt in Hh; now apply orb_false_elim in Hh). rewrite E. exact K.
    - apply ev_run. cbn [dispatch]. unfold list_loop, p_peek. cbn [p_lex p_scope list_pk hd_error option_map fst]. rewrite Hs.
      eapply ev_bind; [exact H1|]. cbv beta iota. destruct att; exact H2.
  Qed.

  (** ** The invariant of a list being read *)
  Notation items_of := (Forall2 (fun e y => piece_of (PItem e) y)).
  Definition Inv (B : list tree) (st : pstate) (D : list tree) (la : option nat) : Prop :=
    match snd st with
    | None => Forall2 piece_of (fst st) D /\ la = None
    | Some (p, mid) =>
      exists D1 x ys, D = D1 ++ x :: ys /\ Forall2 piece_of (fst st) D1 /\ piece_of p x /\ items_of mid ys /\
        la = Some (List.length (B ++ D1)) /\ steady (piece_den sp p)
    end.
  Definition steps (l : list item) (st : pstate) : pstate := fold_left pstep (map elem l) st.
  Lemma steps_cons i l st : steps (i :: l) st = steps l (pstep st (elem i)). Proof. reflexivity. Qed.
  Lemma steps_app l1 l2 st : steps (l1 ++ l2) st = steps l2 (steps l1 st).
  Proof. unfold steps. rewrite map_app. apply fold_left_app. Qed.
  Lemma parts_steps l : parts sp l = pclose (steps l ([], None)). Proof. reflexivity. Qed.
  Lemma items_pieces mid ys : items_of mid ys -> Forall2 piece_of (map PItem mid) ys.
  Proof. induction 1; constructor; assumption. Qed.
  Lemma inv_pieces B st D la : Inv B st D la -> Forall2 piece_of (pclose st) D.
  Proof.
    destruct st as [d [[p mid]|]]; cbn.
    - intros (D1 & x & ys & -> & H1 & H2 & H3 & _). apply Forall2_app; [exact H1|]. constructor; [exact H2|]. now apply items_pieces.
    - intros [H _]. unfold pclose. cbn. now rewrite app_nil_r.
  Qed.
  Lemma inv_nil B : Inv B ([], None) [] None. Proof. split; [constructor|reflexivity]. Qed.
  (** a run of text ends where the text ends *)
  Definition open_ok (st : pstate) (l : list item) : Prop :=
    match snd st with Some (PText _, []) => match l with i :: _ => textlike i = false | [] => True end | _ => True end.
  (** one step of the specification, when no run of text is continued *)
  Definition start_of (e : el) : piece := if begins_text (e_item e) then PText [e] else PItem e.
  Definition step1 (st : pstate) (e : el) : pstate :=
    match snd st with
    | None => if carries (e_item e) then (fst st, Some (start_of e, [])) else (fst st ++ [PItem e], None)
    | Some (p, mid) =>
      if attaches (e_item e) then (fst st, Some (PAttach p mid e, []))
      else if carries (e_item e) then (fst st ++ p :: map PItem mid, Some (start_of e, []))
      else if closes (e_item e) then (fst st ++ p :: map PItem mid ++ [PItem e], None)
      else (fst st, Some (p, mid ++ [e]))
    end.
  Lemma pstep_step1 st i l : open_ok st (i :: l) -> pstep st (elem i) = step1 st (elem i).
  Proof.
    destruct st as [d [[p mid]|]]; cbn [open_ok snd]; [|reflexivity]. destruct p as [e|es|p b e]; try reflexivity.
    destruct mid; [|reflexivity]. intros H. cbn. now rewrite H.
  Qed.
  Lemma inv_carry B st D la i x : Inv B st D la -> open_ok st [i] -> carries i = true -> attaches i = false -> begins_text i = false -> item_of i x ->
    Inv B (pstep st (elem i)) (D ++ [x]) (Some (List.length (B ++ D))).
  Proof.
    intros H Ho Hc Ha Hb Hx. rewrite (pstep_step1 _ _ _ Ho). pose proof (inv_pieces _ _ _ _ H) as Hp. unfold step1, start_of. cbn [e_item elem].
    assert (S : steady (piece_den sp (PItem (elem i)))) by now apply steady_carries.
    destruct st as [d [[p mid]|]]; cbn [snd fst] in *; rewrite ?Ha, ?Hc, ?Hb.
    - exists D, x, []. split; [reflexivity|]. split; [exact Hp|]. split; [exact Hx|]. split; [constructor|]. now split.
    - exists D, x, []. split; [reflexivity|]. split; [|split; [exact Hx|split; [constructor|now split]]]. unfold pclose in Hp. cbn in Hp. now rewrite app_nil_r in Hp.
  Qed.
  Lemma inv_other B st D la i x : Inv B st D la -> open_ok st [i] -> carries i = false -> attaches i = false -> closes i = false -> item_of i x ->
    Inv B (pstep st (elem i)) (D ++ [x]) la.
  Proof.
    intros H Ho Hc Ha Hb Hx. rewrite (pstep_step1 _ _ _ Ho). unfold step1. cbn [e_item elem].
    destruct st as [d [[p mid]|]]; cbn [snd fst] in *; rewrite ?Ha, ?Hc, ?Hb; unfold Inv in *; cbn [snd fst] in *.
    - destruct H as (D1 & y & ys & -> & H1 & H2 & H3 & H4). exists D1, y, (ys ++ [x]). split; [rewrite <- app_assoc; reflexivity|]. split; [exact H1|]. split; [exact H2|].
      split; [|exact H4]. apply Forall2_app; [exact H3|]. constructor; [exact Hx|constructor].
    - destruct H as [H1 ->]. split; [|reflexivity]. apply Forall2_app; [exact H1|]. constructor; [exact Hx|constructor].
  Qed.
  Lemma inv_bare B d D la i x : Inv B (d, None) D la -> carries i = false -> item_of i x ->
    Inv B (pstep (d, None) (elem i)) (D ++ [x]) la.
  Proof.
    intros [H1 ->] Hc Hx. cbn. rewrite Hc. split; [|reflexivity]. apply Forall2_app; [exact H1|]. constructor; [exact Hx|constructor].
  Qed.
  Lemma inv_attach B d p mid D1 i z : open_ok (d, Some (p, mid)) [i] -> attaches i = true -> Forall2 piece_of d D1 -> steady (piece_den sp p) ->
    piece_of (PAttach p mid (elem i)) z -> Inv B (pstep (d, Some (p, mid)) (elem i)) (D1 ++ [z]) (Some (List.length (B ++ D1))).
  Proof.
    intros Ho Ha H1 Hs Hz. rewrite (pstep_step1 _ _ _ Ho). unfold step1. cbn [e_item elem snd fst]. rewrite Ha.
    exists D1, z, []. split; [reflexivity|]. split; [exact H1|]. split; [exact Hz|]. split; [constructor|]. split; [reflexivity|]. now apply steady_attach.
  Qed.
  Lemma inv_close B st D la i x : Inv B st D la -> closes i = true -> item_of i x -> Inv B (pstep st (elem i)) (D ++ [x]) None.
  Proof.
    intros H Hc Hx. pose proof (inv_pieces _ _ _ _ H) as Hp.
    assert (Ho : open_ok st [i]). { unfold open_ok. destruct (snd st) as [[[] []]|]; try exact I. destruct i; try discriminate; reflexivity. }
    rewrite (pstep_step1 _ _ _ Ho). unfold step1. cbn [e_item elem].
    assert (Ha : attaches i = false) by (destruct i; try discriminate; reflexivity). assert (Hca : carries i = false) by (destruct i; try discriminate; reflexivity).
    assert (G : Forall2 piece_of (pclose st ++ [PItem (elem i)]) (D ++ [x])). { apply Forall2_app; [exact Hp|]. constructor; [exact Hx|constructor]. }
    destruct st as [d [[p mid]|]]; cbn [snd fst] in *; rewrite ?Ha, ?Hca, ?Hc; unfold Inv; cbn [snd fst]; (split; [|reflexivity]); unfold pclose in G; cbn in G.
    - rewrite <- app_assoc in G. cbn in G. exact G.
    - now rewrite app_nil_r in G.
  Qed.
  Lemma inv_spaces B g : forall st D la, Inv B st D la -> match snd st with Some (PText _, []) => False | _ => True end ->
    Inv B (steps (map ISpace g) st) (D ++ map leaf (map space_tok g)) la.
  Proof.
    induction g as [|x g IH]; intros st D la H Hs; [now rewrite app_nil_r|]. cbn [map]. rewrite steps_cons.
    change (leaf (space_tok x) :: map leaf (map space_tok g)) with ([leaf (space_tok x)] ++ map leaf (map space_tok g)). rewrite app_assoc.
    assert (Ho : open_ok st [ISpace x]) by (unfold open_ok; destruct (snd st) as [[[] []]|]; try exact I; contradiction).
    apply IH; [apply (inv_other B st D la (ISpace x)); try assumption; try reflexivity; apply (simple_item sp (ISpace x) I)|].
    rewrite (pstep_step1 _ _ _ Ho). unfold step1. destruct (snd st) as [[p mid]|]; cbn; [|exact I]. destruct p; try exact I. now destruct mid.
  Qed.
  Lemma steps_text d p es : Forall (fun i => textlike i = true) p -> steps p (d, Some (PText es, [])) = (d, Some (PText (es ++ map elem p), [])).
  Proof.
    intros H. revert es. induction H as [|i p Hi H IH]; intros es; [now rewrite app_nil_r|]. rewrite steps_cons. cbn [pstep e_item elem map]. rewrite Hi.
    rewrite IH, <- app_assoc. reflexivity.
  Qed.
  Lemma textlike_simple i : textlike i = true -> simple i.
  Proof. destruct i; try discriminate; try (intros; exact I). intros H. apply N.eqb_eq in H. subst. cbn. tauto. Qed.
  Lemma inv_text B st D la i p : Inv B st D la -> open_ok st [i] -> begins_text i = true -> Forall (fun i => textlike i = true) p ->
    Inv B (steps (i :: p) st) (D ++ [Node ItemText (map leaf (map item_tok (i :: p)))]) (Some (List.length (B ++ D))).
  Proof.
    intros H Ho Hb Ht. rewrite steps_cons, (pstep_step1 _ _ _ Ho). pose proof (inv_pieces _ _ _ _ H) as Hp.
    assert (Hc : carries i = true). { destruct i; try discriminate; try reflexivity. cbn in *. apply N.eqb_eq in Hb. subst. reflexivity. }
    assert (Ha : attaches i = false) by (destruct i; try discriminate; reflexivity).
    assert (Hti : textlike i = true) by (destruct i; try discriminate; exact Hb || reflexivity).
    assert (E : exists d', step1 st (elem i) = (d', Some (PText [elem i], [])) /\ pclose st = d').
    { destruct st as [d [[q mid]|]]; unfold step1, start_of, pclose; cbn [e_item elem snd fst]; rewrite ?Ha, Hc, Hb; eexists; split; try reflexivity. now rewrite app_nil_r. }
    destruct E as (d' & -> & Ed). rewrite steps_text by exact Ht. cbn [app]. rewrite Ed in Hp.
    assert (Hl : items_of (map elem (i :: p)) (map leaf (map item_tok (i :: p)))).
    { assert (G : Forall (fun i => textlike i = true) (i :: p)) by now constructor. clear - G. induction G as [|j q Hj G IH]; constructor; [|exact IH]. now apply simple_item, textlike_simple. }
    assert (Hs : steady (alld (map (fun e => e_den e false) (elem i :: map elem p)))) by (apply (steady_seq (typ i false)); now apply steady_carries).
    exists D, (Node ItemText (map leaf (map item_tok (i :: p)))), []. split; [reflexivity|]. split; [exact Hp|]. split; [now apply text_piece|]. split; [constructor|]. split; [reflexivity|exact Hs].
  Qed.
  Lemma open_step st i l l' : open_ok st (i :: l) -> begins_text i = false -> open_ok (pstep st (elem i)) l'.
  Proof.
    intros Ho Hb. rewrite (pstep_step1 _ _ _ Ho). unfold step1, start_of. cbn [e_item elem]. rewrite Hb. destruct (snd st) as [[p mid]|].
    - destruct (attaches i); [exact I|]. destruct (carries i); [exact I|]. destruct (closes i); [exact I|]. unfold open_ok. cbn. destruct p; try exact I. now destruct mid.
    - destruct (carries i); exact I.
  Qed.
  Lemma step_some st e : snd st <> None -> closes (e_item e) = false -> snd (pstep st e) <> None.
  Proof.
    destruct st as [d [[p mid]|]]; [|contradiction]. intros _ Hc. cbn. rewrite Hc.
    destruct p as [q|es|q b q']; try (destruct (attaches (e_item e)), (carries (e_item e)); discriminate).
    destruct mid; [destruct (textlike (e_item e)); [discriminate|]|]; destruct (attaches (e_item e)), (carries (e_item e)); discriminate.
  Qed.
  Lemma step_carries st e : carries (e_item e) = true -> snd (pstep st e) <> None.
  Proof.
    intros Hc. destruct st as [d [[p mid]|]]; cbn; rewrite ?Hc; [|discriminate].
    destruct p as [q|es|q b q']; try (destruct (attaches (e_item e)); discriminate).
    destruct mid; [destruct (textlike (e_item e)); [discriminate|]|]; destruct (attaches (e_item e)); discriminate.
  Qed.
  Lemma wf_cons W pl g first based i r : wf_list W pl g first based (i :: r) = true ->
    W i = true /\ match i with IInfix _ _ _ => first | IPost _ => based | _ => true end = true /\
    (closes i = true -> match r with j :: _ => separator pl j | [] => true end = true) /\ (g = true -> separator pl i = false) /\ takes_bracket sp gm i && opens r = false /\
    wf_list W pl g false (carries i || (based && negb (closes i))) r = true.
  Proof.
    intros H. cbn [DocSpec.wf_list] in H. apply andb_true_iff in H as [H H5]. apply andb_true_iff in H as [H H6]. apply andb_true_iff in H as [H H4]. apply andb_true_iff in H as [H H3]. apply andb_true_iff in H as [H1 H2].
    split; [exact H1|]. split; [exact H2|]. split; [|split; [|split; [now apply negb_true_iff|exact H5]]].
    - intros E. rewrite E in H3. exact H3.
    - intros ->. cbn in H4. now destruct (separator pl i).
  Qed.
  Lemma wf_tail W pl g p l : forall first based st, wf_list W pl g first based (p ++ l) = true -> (based = true -> snd st <> None) ->
    exists b, wf_list W pl g (match p with [] => first | _ => false end) b l = true /\ (b = true -> snd (steps p st) <> None).
  Proof.
    induction p as [|i p IH]; intros first based st H Hb; [exists based; now split|].
    apply wf_cons in H as (_ & _ & _ & _ & _ & K). destruct (IH _ _ (pstep st (elem i)) K) as (b & H1 & H2).
    - intros E. apply orb_true_iff in E as [E|E]; [now apply step_carries|]. apply andb_true_iff in E as [E1 E2]. apply step_some; [now apply Hb|]. cbn. now destruct (closes i).
    - exists b. split; [|exact H2]. now destruct p.
  Qed.

  (** ** What is to be shown of lists *)
  Definition compat (pl : place) (sc : scope) : Prop :=
    match pl with
    | Free => In sc [Root; CmdFormula; LR; CurlyItem]
    | InEnv => sc = Environment
    | InDollar => sc = DollarFormula
    | InBracket => sc = BracketItem
    end.
  Definition pok (ps : list (kind * nat)) (B : list tree) : Prop := match ps with (_, f) :: _ => f <= List.length B | [] => True end.
  Definition kont (k : list tok) : Prop := stops (fun t => is_text_component t || match t with TLeft Bracket => true | _ => false end) k.
  Definition bracket (k : list tok) : bool := match k with (TLeft Bracket, _) :: _ => true | _ => false end.
  Definition open_list (l : list item) : bool := forallb (fun i => negb (closes i)) l.
  Definition wfl (pl : place) (gr first based : bool) (l : list item) : Prop := wf_list (wf pl gr) pl gr first based l = true.
  Definition ListOk (l : list item) : Prop :=
    forall pl gr first based sc k ps B st D la a,
      compat pl sc -> wfl pl gr first based l -> kont k -> (open_list l = true \/ halts sc k) -> pok ps B ->
      Inv B st D la -> open_ok st l -> (based = true -> snd st <> None) -> (first = true -> st = ([], None) /\ a = Some (List.length B)) ->
      exists D' la' a',
        (forall R, ev (fun n => run n (loop gr (List.length (B ++ D'))) (mk_pst k (mk_builder ps (B ++ D')) [] a' la' sc) = R) ->
                   ev (fun n => run n (loop gr (List.length (B ++ D))) (mk_pst (toksl l k) (mk_builder ps (B ++ D)) [] a la sc) = R)) /\
        Inv B (steps l st) D' la' /\ (open_list l = true -> a' = a).
  (** of the lists below a bound *)
  Definition AllOk (N : nat) : Prop := forall l, lsize l < N -> ListOk l.

  (** ** Heads of the tokens of well-formed documents *)
  Lemma wf_mark pl gr c : wf pl gr (IMark c) = true -> In c (map fst mark_tokens) /\ (pl = InBracket -> c <> 93%N).
  Proof.
    intros H. cbn [DocSpec.wf] in H. apply andb_true_iff in H as [H1 H2]. split; [now apply is_char_in|]. intros -> ->. discriminate H2.
  Qed.
  Lemma wf_stop pl gr sc i : compat pl sc -> wf pl gr i = true -> stop_by_scope sc (head_tok i) = false.
  Proof.
    intros Hc Hw. destruct i; cbn [head_tok]; try discriminate Hw; try (destruct sc; reflexivity).
    - destruct x, sc; reflexivity.
    - apply wf_mark in Hw as [Hin Hb]. cbn in Hin. repeat (destruct Hin as [<-|Hin]; [destruct sc; try reflexivity; destruct pl; cbn in Hc; try discriminate Hc; try (now elim (Hb eq_refl)); intuition discriminate|]). contradiction.
    - destruct sup, sc; reflexivity.
    - destruct typst, sc; reflexivity.
    - cbn [DocSpec.wf] in Hw. destruct k, sc; try reflexivity; destruct pl; cbn in Hc; try discriminate Hc; try discriminate Hw; intuition discriminate.
  Qed.
  Lemma wf_halt pl gr sc i : compat pl sc -> wf pl gr i = true -> separator pl i = false -> halt sc (head_tok i) = false.
  Proof.
    intros Hc Hw Hs. unfold halt. rewrite (wf_stop pl gr sc i Hc Hw). cbn [orb]. destruct i; try reflexivity.
    - destruct x; reflexivity.
    - apply wf_mark in Hw as [Hin _]. cbn in Hin. repeat (destruct Hin as [<-|Hin]; [try reflexivity; discriminate Hs|]). contradiction.
    - cbn. destruct pl; cbn in Hs; try discriminate Hs; destruct sc; try reflexivity; cbn in Hc; try discriminate Hc; intuition discriminate.
    - destruct sup; reflexivity.
    - destruct typst; reflexivity.
    - destruct k; reflexivity.
  Qed.
  Lemma separator_halt pl sc i k : compat pl sc -> separator pl i = true -> halts sc (toks i k) /\ kont (toks i k).
  Proof.
    intros Hc Hs. destruct i; try discriminate Hs.
    - cbn in Hs. apply N.eqb_eq in Hs. subst c. cbn. unfold halt. rewrite orb_true_r. now split.
    - destruct pl; try discriminate Hs. cbn in Hc. subst sc. now split.
  Qed.
  Lemma mark_comma c : In c (map fst mark_tokens) -> is_text_component (mark_token c) = (c =? 44)%N.
  Proof. intros Hin. cbn in Hin. repeat (destruct Hin as [<-|Hin]; [reflexivity|]). contradiction. Qed.
  Lemma mark_trivia c : In c (map fst mark_tokens) -> is_trivia (mark_token c) = false.
  Proof. intros Hin. cbn in Hin. repeat (destruct Hin as [<-|Hin]; [reflexivity|]). contradiction. Qed.
  Lemma head_text pl gr i : wf pl gr i = true -> is_text_component (head_tok i) = textlike i.
  Proof.
    intros Hw. destruct i; try reflexivity.
    - destruct x; reflexivity.
    - apply wf_mark in Hw as [Hin _]. now apply mark_comma.
    - destruct sup; reflexivity.
    - destruct typst; reflexivity.
    - destruct k; reflexivity.
  Qed.
  Lemma head_trivia pl gr i : wf pl gr i = true -> is_trivia (head_tok i) = isp i.
  Proof.
    intros Hw. destruct i; try reflexivity.
    - destruct x; reflexivity.
    - apply wf_mark in Hw as [Hin _]. now apply mark_trivia.
    - destruct sup; reflexivity.
    - destruct typst; reflexivity.
    - destruct k; reflexivity.
  Qed.
  Lemma end_quiet sc t : stop_by_scope sc t = true -> is_text_component t || match t with TLeft Bracket => true | _ => false end = false.
  Proof. destruct sc; try discriminate; destruct t as [| | |[]|[]| | | | | | | | | | | | | | | | | |]; try discriminate; reflexivity. Qed.
  Lemma ends_kont sc k : ends sc k -> kont k.
  Proof. destruct k as [|t k]; [auto|]. apply end_quiet. Qed.
  Lemma text_trivia t : is_text_component t = false -> is_trivia t = false.
  Proof. destruct t; try discriminate; reflexivity. Qed.
  Lemma kont_text k : kont k -> stops is_text_component k.
  Proof. destruct k as [|t k]; [auto|]. cbn. intros H. now apply orb_false_iff in H as [H _]. Qed.
  Lemma kont_bracket k : kont k -> bracket k = false.
  Proof. destruct k as [|[t s] k]; [auto|]. cbn. intros H. apply orb_false_iff in H as [_ H]. now destruct t as [| | |[]|[]| | | | | | | | | | | | | | | | | |]. Qed.
  Lemma kont_trivia k : kont k -> stops is_trivia k.
  Proof. intros H. apply kont_text in H. destruct k as [|t k]; [auto|]. now apply text_trivia. Qed.
  Lemma kont_okw k : kont k -> okw k.
  Proof. destruct k as [|[[] []] k]; try exact (fun _ => I). discriminate. Qed.
  Lemma head_infix pl gr based i l : wfl pl gr false based (i :: l) -> is_infix i = false.
  Proof. intros H. apply wf_cons in H as (_ & H & _). destruct i; try reflexivity. discriminate. Qed.
  Lemma list_text pl gr based l k : wfl pl gr false based l -> kont k -> match l with i :: _ => textlike i = false | [] => True end -> stops is_text_component (toksl l k).
  Proof.
    intros Hw He Hl. destruct l as [|i l]; [now apply kont_text|]. pose proof (head_infix _ _ _ _ _ Hw) as Hi. apply wf_cons in Hw as (Hw & _).
    cbn [toksl fold_right]. destruct (toks_head i (fold_right toks k l) Hi) as (s & r & ->). cbn. rewrite (head_text pl gr); assumption.
  Qed.
  Lemma list_trivia pl gr based l k : wfl pl gr false based l -> kont k -> match l with i :: _ => isp i = false | [] => True end -> stops is_trivia (toksl l k).
  Proof.
    intros Hw He Hl. destruct l as [|i l]; [now apply kont_trivia|]. pose proof (head_infix _ _ _ _ _ Hw) as Hi. apply wf_cons in Hw as (Hw & _).
    cbn [toksl fold_right]. destruct (toks_head i (fold_right toks k l) Hi) as (s & r & ->). cbn. rewrite (head_trivia pl gr); assumption.
  Qed.
  Lemma mark_bracket c (k : list tok) : In c (map fst mark_tokens) -> bracket ((mark_token c, [c]) :: k) = (c =? 91)%N.
  Proof. intros Hin. cbn in Hin. repeat (destruct Hin as [<-|Hin]; [reflexivity|]). contradiction. Qed.
  Lemma list_bracket pl gr based l k g : wfl pl gr false based l -> kont k -> match l with i :: _ => isp i = false | [] => True end -> bracket (toksl l k) = opens (map ISpace g ++ l).
  Proof.
    intros Hw He Hl. assert (E : opens (map ISpace g ++ l) = opens l) by (induction g as [|x g IH]; [reflexivity|exact IH]). rewrite E. clear E.
    destruct l as [|i l]; [now apply kont_bracket|]. pose proof (head_infix _ _ _ _ _ Hw) as Hi. apply wf_cons in Hw as (Hw & _). cbn [toksl fold_right].
    destruct i; try discriminate Hl; try discriminate Hi; try discriminate Hw; try reflexivity.
    - apply wf_mark in Hw as [Hin _]. cbn [toks]. now apply mark_bracket.
    - destruct sup; reflexivity.
    - destruct typst; reflexivity.
    - destruct k0; reflexivity.
  Qed.
  Lemma item_okw pl gr i k : wf pl gr i = true -> is_infix i = false -> okw (toks i k).
  Proof.
    intros Hw Hi. destruct i; try discriminate Hi; try discriminate Hw; try exact I; cbn [toks].
    - cbn in Hw. destruct w; [discriminate|exact I].
    - destruct x; exact I.
    - destruct (mark_token c) eqn:E; exact I.
    - destruct sup; exact I.
    - destruct typst; exact I.
    - destruct k0; exact I.
  Qed.
  Lemma wf_infix pl gr l1 name l2 : wf pl gr (IInfix l1 name l2) = true ->
    normal_name name /\ option_map cs_args (get_cmd sp name) = Some SInfixGreedy /\ wfl pl gr false false l1 /\ open_list l1 = true /\ wfl pl true true false l2.
  Proof.
    intros H. cbn [DocSpec.wf] in H. repeat (apply andb_true_iff in H as [H ?]). unfold normal_name. split; [now destruct (among name own_way)|].
    split; [destruct (option_map cs_args (get_cmd sp name)) as [[]|]; try discriminate; reflexivity|]. split; [assumption|]. split; assumption.
  Qed.
  Lemma list_okw pl gr first based l k : wfl pl gr first based l -> kont k -> okw (toksl l k).
  Proof.
    intros Hw He. destruct l as [|i l]; [now apply kont_okw|]. apply wf_cons in Hw as (Hw & _). cbn [toksl fold_right].
    destruct (is_infix i) eqn:Ei; [|now apply (item_okw pl gr)]. destruct i; try discriminate Ei. apply wf_infix in Hw as (_ & _ & Hw & _). cbn [toks].
    destruct l1 as [|j l1]; [exact I|]. cbn [fold_right]. pose proof (head_infix _ _ _ _ _ Hw) as Hi. apply wf_cons in Hw as (Hw & _). now apply (item_okw pl gr).
  Qed.

  (** ** Whole lists, and groups *)
  Lemma whole_ev l pl gr sc k ps B a la : ListOk l -> compat pl sc -> wfl pl gr true false l -> kont k -> (open_list l = true \/ halts sc k) -> quits gr sc k -> pok ps B ->
    a = Some (List.length B) -> la = None ->
    exists D la' a', ev (fun n => run n (loop gr (List.length B)) (mk_pst (toksl l k) (mk_builder ps B) [] a la sc) =
                     Ok (true, mk_pst k (mk_builder ps (B ++ D)) [] a' la' sc)) /\ Forall2 piece_of (parts sp l) D.
  Proof.
    intros HL Hc Hw Hk Ho Hq Hp -> ->.
    destruct (HL pl gr true false sc k ps B ([], None) [] None (Some (List.length B)) Hc Hw Hk Ho Hp (inv_nil _) I) as (D & la' & a' & H1 & H2 & _); [discriminate|now split|].
    exists D, la', a'. split; [|exact (inv_pieces _ _ _ _ H2)]. rewrite app_nil_r in H1. apply H1. now apply loop_stop.
  Qed.
  Lemma list_ev l pl sc k ps B a la sc0 : ListOk l -> compat pl sc -> wfl pl false true false l -> ends sc k -> pok ps B ->
    exists D, ev (fun n => item_list (run n) sc (mk_pst (toksl l k) (mk_builder ps B) [] a la sc0) =
                        Ok (mk_pst k (mk_builder ps (B ++ D)) [] a la sc0)) /\ Forall2 piece_of (parts sp l) D.
  Proof.
    intros HL Hc Hw He Hp.
    destruct (whole_ev l pl false sc k ps B _ _ HL Hc Hw (ends_kont _ _ He) (or_intror (ends_halts _ _ He)) He Hp eq_refl eq_refl) as (D & la' & a' & Hev & HD).
    exists D. split; [|exact HD].
    unfold item_list, rec_. unfold checkpoint, b_checkpoint. cbn [p_b b_children].
    eapply ev_bind; [eapply ev_bind; [exact Hev|apply ev_all; intros n; reflexivity]|]. apply ev_all. intros n. reflexivity.
  Qed.
  Definition group_of (sc : scope) : option (token * kind) :=
    match sc with
    | CurlyItem => Some (TRight Curly, ItemCurly)
    | BracketItem => Some (TRight Bracket, ItemBracket)
    | DollarFormula => Some (Dollar, ItemFormula)
    | CmdFormula => Some (CommandName EndMath, ItemFormula)
    | _ => None
    end.
  Lemma token_eqb_refl t : token_eqb t t = true.
  Proof. unfold token_eqb. destruct (token_eq_dec t t); [reflexivity|contradiction]. Qed.
  Lemma group_ev l pl sc o ct gk k ps C a la sc0 : ListOk l -> compat pl sc -> wfl pl false true false l -> group_of sc = Some (fst ct, gk) ->
    exists D, ev (fun n => item_group list_pk list_nx (run n) sc (mk_pst (o :: toksl l (ct :: k)) (mk_builder ps C) [] a la sc0) =
                        Ok (mk_pst k (mk_builder ps (C ++ [Node gk (leaf o :: D ++ [leaf ct])])) [] a la sc0)) /\ Forall2 piece_of (parts sp l) D.
  Proof.
    intros HL Hc Hw Hg. assert (He : ends sc (ct :: k)).
    { cbn. destruct sc; try discriminate Hg; injection Hg as <- _; reflexivity. }
    destruct (list_ev l pl sc (ct :: k) ((gk, List.length C) :: ps) (C ++ [leaf o]) a la sc0 HL Hc Hw He) as (D & Hev & HD).
    { cbn. rewrite app_length. lia. }
    exists D. split; [|exact HD]. unfold item_group.
    assert (E : match sc with
                | CurlyItem => Ok (TRight Curly, ItemCurly)
                | BracketItem => Ok (TRight Bracket, ItemBracket)
                | ParenItem => Ok (TRight Paren, ItemParen)
                | DollarFormula => Ok (Dollar, ItemFormula)
                | CmdFormula => Ok (CommandName EndMath, ItemFormula)
                | _ => Panic "parser.rs:337 assert"
                end = Ok (fst ct, gk)) by (destruct sc; try discriminate Hg; injection Hg as <- <-; reflexivity).
    rewrite E. cbn [bind]. rewrite start_step, eat_step. cbn [bind].
    eapply ev_bind; [exact Hev|]. apply ev_all. intros n. unfold eat_if_, p_peek. cbn [p_lex list_pk hd_error option_map].
    rewrite token_eqb_refl, eat_step. cbn [bind].
    replace (((C ++ [leaf o]) ++ D) ++ [leaf ct]) with (C ++ (leaf o :: D ++ [leaf ct])) by (rewrite <- !app_assoc; reflexivity).
    apply finish_step.
  Qed.

  (** ** Elements that are read by themselves *)
  Definition Reads (ns att : bool) (i : item) : Prop := forall ps C a la sc k, okw k ->
    exists x, ev (fun n => run n (KContent ns) (mk_pst (toks i k) (mk_builder ps C) [] a la sc) = Ok (att, mk_pst k (mk_builder ps (C ++ [x])) [] a la sc)) /\ item_of i x /\ is_node x = true.

  Lemma group_reads ns l : ListOk l -> wfl Free false true false l -> Reads ns true (IGroup l).
  Proof.
    intros HL Hw ps C a la sc k _.
    destruct (group_ev l Free CurlyItem (TLeft Curly, tx "{") (TRight Curly, tx "}") ItemCurly k ps C a la sc HL) as (D & Hev & HD); [cbn; tauto|exact Hw|reflexivity|].
    eexists. split; [|split; [exact (group_item sp l D HD)|reflexivity]].
    apply ev_run. cbn [dispatch]. unfold content, p_peek. cbn [toks p_lex list_pk hd_error option_map fst].
    eapply ev_bind; [exact Hev|]. apply ev_all. reflexivity.
  Qed.
  Lemma formula_reads ns f l : ListOk l -> wfl (match f with FInline | FDisplay => InDollar | _ => Free end) false true false l -> Reads ns false (IFormula f l).
  Proof.
    intros HL Hw ps C a la sc k _.
    set (lv := match f with FInline | FDisplay => InDollar | _ => Free end) in *.
    set (fs := match f with FInline | FDisplay => DollarFormula | _ => CmdFormula end).
    assert (Hc : compat lv fs) by (unfold lv, fs; destruct f; cbn; tauto).
    destruct (group_ev l lv fs (f_open f) (f_close f) ItemFormula k ps C a la sc HL Hc Hw) as (D & Hev & HD); [unfold fs; destruct f; reflexivity|].
    eexists. split; [|split; [exact (formula_item sp f l D HD)|reflexivity]].
    apply ev_run. cbn [dispatch]. unfold content, p_peek. cbn [toks p_lex list_pk hd_error option_map fst].
    destruct f; (eapply ev_bind; [exact Hev|]; apply ev_all; reflexivity).
  Qed.
  (** code *)
  Lemma code_ev ts : forall n k ps C tr a la sc, balanced n ts = true ->
    exists X, ev (fun m => run m (KIfs n) (mk_pst (ts ++ code_close :: k) (mk_builder ps C) tr a la sc) = Ok (true, mk_pst k (mk_builder ps (C ++ X)) tr a la sc)) /\ flat_map tree_text X = flat_map snd ts.
  Proof.
    induction ts as [|t ts IH]; intros n k ps C tr a la sc Hb.
    - destruct n; [|discriminate]. exists []. split; [|reflexivity]. apply ev_run, ev_all. intros m. rewrite app_nil_r. reflexivity.
    - assert (K : forall n', balanced n' ts = true ->
        (forall m, ifs_loop list_pk list_nx (run m) n (mk_pst (t :: ts ++ code_close :: k) (mk_builder ps C) tr a la sc : pst) =
           let* st := eat (mk_pst (t :: ts ++ code_close :: k) (mk_builder ps C) tr a la sc : pst) in run m (KIfs n') st) ->
        exists X, ev (fun m => run m (KIfs n) (mk_pst ((t :: ts) ++ code_close :: k) (mk_builder ps C) tr a la sc) = Ok (true, mk_pst k (mk_builder ps (C ++ X)) tr a la sc)) /\ flat_map tree_text X = flat_map snd (t :: ts)).
      { intros n' Hn' E. destruct (IH n' k ps (C ++ [leaf t]) tr a la sc Hn') as (X & Hev & HX). exists (leaf t :: X). split.
        - apply ev_run. cbn [dispatch app]. eapply ev_eq; [exact E|]. rewrite eat_step. cbn [bind]. rewrite <- app_assoc in Hev. exact Hev.
        - cbn. now rewrite HX. }
      destruct t as [t s]. cbn [balanced] in Hb.
      destruct t; try (apply (K n Hb); intros m; reflexivity).
      destruct c; try (apply (K n Hb); intros m; reflexivity).
      + apply (K (S n) Hb). intros m. reflexivity.
      + destruct n as [|n']; [discriminate|]. apply (K n' Hb). intros m. reflexivity.
  Qed.
  Lemma code_reads ns typst ts : balanced 0 ts = true -> Reads ns true (ICode typst ts).
  Proof.
    intros Hb ps C a la sc k _. set (kd := if typst then ItemTypstCode else ItemBlockComment).
    destruct (code_ev ts 0 k ((kd, List.length C) :: ps) C [] a la sc Hb) as (X & Hev & HX).
    exists (Node kd X). split; [|split; [now apply code_item|reflexivity]].
    apply ev_run. cbn [dispatch].
    assert (E : forall n, content list_pk list_nx list_set sp (run n) ns (mk_pst (toks (ICode typst ts) k) (mk_builder ps C) [] a la sc : pst) =
      let* st := if_block list_pk list_nx (run n) kd (mk_pst (toks (ICode typst ts) k) (mk_builder ps C) [] a la sc : pst) in Ok (true, st)) by (intros n; unfold kd; destruct typst; reflexivity).
    eapply ev_eq; [exact E|]. eapply ev_bind; [|apply ev_all; intros n; reflexivity]. unfold if_block. rewrite start_step.
    assert (Ed : drop_ list_pk list_nx (mk_pst (toks (ICode typst ts) k) (mk_builder ((kd, List.length C) :: ps) C) [] a la sc : pst) = Ok (mk_pst (ts ++ code_close :: k) (mk_builder ((kd, List.length C) :: ps) C) [] a la sc)) by (destruct typst; reflexivity).
    rewrite Ed. cbn [bind]. eapply ev_bind; [unfold rec_; eapply ev_bind; [exact Hev|apply ev_all; intros n; reflexivity]|]. apply ev_all. intros n. apply finish_step.
  Qed.

  (** a bare command *)
  Lemma no_args_eq name : no_args sp name = true -> match option_map cs_args (get_cmd sp name) with None | Some (SRight PNone) | Some (SRight (PFixed 0)) => True | _ => False end.
  Proof. unfold no_args. destruct (option_map cs_args (get_cmd sp name)) as [[[|[|pp]| | |]| |]|]; try discriminate; intros; exact I. Qed.
  Lemma bare_ev name k ps C tr a la sc ns : 
    match option_map cs_args (get_cmd sp name) with None | Some (SRight PNone) | Some (SRight (PFixed 0)) => True | _ => False end ->
    ev (fun n => run n (KContent ns) (mk_pst ((CommandName Generic, 92%N :: name) :: k) (mk_builder ps C) tr a la sc) =
      Ok (true, mk_pst k (mk_builder ps (C ++ [cmd_node name []])) tr a la sc)).
  Proof.
    intros Ha. apply ev_run. cbn [dispatch]. unfold content, p_peek. cbn [toks p_lex list_pk hd_error option_map fst].
    unfold command. cbn [p_lex list_pk hd_error]. assert (E : strip_prefix (tx "\") (92%N :: name) = Some name) by reflexivity. rewrite E. clear E.
    apply ev_all. intros n.
    assert (K : (let* st := eat (start_node ItemCmd (mk_pst ((CommandName Generic, 92%N :: name) :: k) (mk_builder ps C) tr a la sc : pst)) in
       let* st := finish_node st in Ok (true, st)) = Ok (true, mk_pst k (mk_builder ps (C ++ [cmd_node name []])) tr a la sc)).
    { rewrite start_step, eat_step. cbn [bind]. rewrite finish_step. reflexivity. }
    destruct (option_map cs_args (get_cmd sp name)) as [[[| [|]| | |]| |]|]; try contradiction; exact K.
  Qed.
  Lemma bare_item name : bare_command sp name = true -> item_of (ICmd name []) (cmd_node name []).
  Proof.
    intros H. apply andb_true_iff in H as [Hn Ha]. apply cmd_item; [constructor|constructor| |].
    - unfold own_cond. apply negb_true_iff in Hn. cbn [among existsb] in Hn. repeat (apply orb_false_elim in Hn as [? Hn]).
      destruct (teqb name (tx "item")); [reflexivity|].
      repeat match goal with H : teqb name ?t = false |- _ => rewrite H; clear H end. reflexivity.
    - intros cmd E Hg. apply no_args_eq in Ha. rewrite E in Ha. cbn in Ha. rewrite Hg in Ha. exact Ha.
  Qed.
  Lemma bare_reads ns name : bare_command sp name = true -> Reads ns true (ICmd name []).
  Proof.
    intros H ps C a la sc k _. exists (cmd_node name []). split; [|split; [now apply bare_item|reflexivity]]. cbn [toks fold_right].
    apply andb_true_iff in H as [_ Ha]. now apply bare_ev, no_args_eq.
  Qed.

  (** ** Single characters *)
  Definition arg_toks (a : item) (k : list tok) : list tok := match a with IWord w => glue w k | _ => toks a k end.
  Definition args_toks (l : list (list space * item)) (k : list tok) : list tok :=
    fold_right (fun (p : list space * item) k => let (g, a) := p in map space_tok g ++ arg_toks a k) k l.
  Notation lex_consume := (lex_consume list_pk list_nx list_set).
  Lemma glue_cases c k : okw k -> (exists s r, k = (Word, s) :: r /\ s <> [] /\ glue [c] k = (Word, c :: s) :: r) \/ glue [c] k = (Word, [c]) :: k.
  Proof.
    intros H. destruct k as [|[t s] r]; [now right|]. destruct t; try now right. destruct s as [|d s]; [contradiction|].
    left. exists (d :: s), r. repeat split; discriminate.
  Qed.
  Lemma utf8_len_pos c : 1 <= utf8_len c. Proof. unfold utf8_len. repeat destruct (_ <? _)%N; lia. Qed.
  Lemma blen_pos s : s <> [] -> 1 <= blen s.
  Proof. destruct s as [|c s]; [contradiction|]. intros _. cbn [blen fold_right]. pose proof (utf8_len_pos c). unfold blen. cbn. lia. Qed.
  Lemma consume_shift c s r n b tr a la sc : s <> [] ->
    lex_consume (utf8_len c + n) (mk_pst ((Word, c :: s) :: r) b tr a la sc : pst) =
    if Nat.ltb 0 n then lex_consume n (mk_pst ((Word, s) :: r) b tr a la sc) else Ok (mk_pst ((Word, s) :: r) b tr a la sc).
  Proof.
    intros Hs. pose proof (blen_pos s Hs) as Hb. unfold Parser.lex_consume. cbn [p_lex list_pk hd_error].
    assert (Eb : blen (c :: s) = utf8_len c + blen s) by reflexivity. rewrite Eb.
    assert (El : Nat.leb (utf8_len c + blen s) (utf8_len c + n) = Nat.leb (blen s) n).
    { destruct (Nat.leb_spec (utf8_len c + blen s) (utf8_len c + n)), (Nat.leb_spec (blen s) n); try reflexivity; lia. }
    rewrite El. pose proof (utf8_len_pos c) as Hc.
    assert (Ex : split_bytes (utf8_len c + n) (c :: s) = match split_bytes n s with Some (x, y) => Some (c :: x, y) | None => None end).
    { cbn [split_bytes]. destruct (utf8_len c + n) eqn:E; [lia|]. rewrite <- E. destruct (Nat.leb_spec (utf8_len c) (utf8_len c + n)); [|lia].
      replace (utf8_len c + n - utf8_len c) with n by lia. destruct (split_bytes n s) as [[x y]|]; reflexivity. }
    rewrite Ex. destruct (Nat.ltb_spec 0 n) as [Hn|Hn].
    - destruct (Nat.leb (blen s) n); [reflexivity|]. destruct (split_bytes n s) as [[x y]|]; reflexivity.
    - replace n with 0 by lia. destruct (Nat.leb_spec (blen s) 0); [lia|]. rewrite split_bytes_0. reflexivity.
  Qed.
  Lemma consume_all s r b tr a la sc : lex_consume (blen s) (mk_pst ((Word, s) :: r) b tr a la sc : pst) = Ok (mk_pst r b tr a la sc).
  Proof. unfold Parser.lex_consume. cbn [p_lex list_pk hd_error]. now rewrite Nat.leb_refl. Qed.
  Lemma consume_glue c k b tr a la sc : okw k -> lex_consume (utf8_len c) (mk_pst (glue [c] k) b tr a la sc : pst) = Ok (mk_pst k b tr a la sc).
  Proof.
    intros H. destruct (glue_cases c k H) as [(s & r & -> & Hs & ->)| ->].
    - rewrite <- (Nat.add_0_r (utf8_len c)). rewrite consume_shift by exact Hs. reflexivity.
    - replace (utf8_len c) with (blen [c]) by (cbn; lia). apply consume_all.
  Qed.
  (** ** Arguments *)
  Definition argb (a : item) : bool :=
    match a with
    | IWord w => match w with [_] => true | _ => false end
    | IGroup l => wf_list (wf Free false) Free false true false l
    | IBracket l => wf_list (wf InBracket false) InBracket false true false l
    | ICmd name [] => bare_command sp name
    | _ => false
    end.
  Lemma argb_okarg g a : argb a = true -> okarg (g, a).
  Proof. destruct a; try discriminate; try (intros; exact I); cbn; [destruct w as [|? []]|destruct args]; try discriminate; intros; exact I. Qed.
  Lemma item_argm g a x : argb a = true -> item_of a x -> is_node x = match a with IWord _ => false | _ => true end -> argm x (g, a).
  Proof.
    intros Ha Hx Hn. split; [exact (po_means _ _ _ Hx)|]. split; [exact (po_text _ _ _ Hx)|]. split; [exact Hn|]. rewrite (po_kind _ _ _ Hx). destruct a; try discriminate; reflexivity.
  Qed.
  Lemma char_of g c : argm (Leaf TokenWord [c]) (g, IWord [c]).
  Proof. apply item_argm; [reflexivity|exact (simple_item sp (IWord [c]) I)|reflexivity]. Qed.
  Lemma single_reads a ps C r la sc k N : AllOk N -> isize a <= N -> argb a = true -> match a with IBracket _ => false | _ => true end = true -> okw k ->
    exists x, ev (fun n => run n (KContent false) (mk_pst (arg_toks a k) (mk_builder ps C) [] r la sc) = Ok (true, mk_pst k (mk_builder ps (C ++ [x])) [] r la sc)) /\ forall g, argm x (g, a).
  Proof.
    intros HN Hs Ha Hb Hk. destruct a; try discriminate Ha; try discriminate Hb.
    - cbn in Ha. destruct w as [|c [|]]; try discriminate Ha. exists (Leaf TokenWord [c]). split; [|intros g; apply char_of]. apply ev_run. cbn [dispatch arg_toks]. apply ev_all. intros n.
      assert (Eg : exists s r, glue [c] k = (Word, c :: s) :: r) by (destruct (glue_cases c k Hk) as [(s & r0 & _ & _ & ->)| ->]; eauto).
      destruct Eg as (s & r0 & Eg). unfold content, p_peek. cbn [p_lex]. rewrite Eg. cbn [list_pk hd_error option_map fst].
      unfold single_char. cbn [p_lex list_pk hd_error]. rewrite <- Eg. unfold token_. cbn [with_b p_b p_lex p_trivia p_start p_last p_scope b_token b_parents b_children].
      unfold with_b. cbn [p_b p_lex p_trivia p_start p_last p_scope]. unfold b_token. cbn [b_parents b_children]. rewrite consume_glue by exact Hk. reflexivity.
    - destruct (group_reads false l) with (ps := ps) (C := C) (a := r) (la := la) (sc := sc) (k := k) as (x & Hev & Hx & Hn); [apply HN; cbn in Hs; exact Hs|exact Ha|exact Hk|].
      exists x. split; [exact Hev|]. intros g. now apply item_argm.
    - destruct args; [|discriminate]. destruct (bare_reads false name Ha ps C r la sc k Hk) as (x & Hev & Hx & Hn). exists x. split; [exact Hev|]. intros g. now apply item_argm.
  Qed.

  (** ** Argument matchers *)
  Inductive path : matcher -> text -> matcher -> Prop :=
  | path_nil m : path m [] m
  | path_cons m c m1 r m' : try_match gm m c = (true, m1) -> match_as_term gm m c = (Some false, m1) -> path m1 r m' -> path m (c :: r) m'.
  Definition refuses (m : matcher) (br : bool) : Prop :=
    fst (try_match gm m ARG_TERM) = false /\ forall c, In c (if br then tx "tbp" else tx "tp") -> fst (match_as_term gm m c) = None.
  Lemma atmost_path mx : forall n j, (j + N.of_nat n = mx)%N -> path (AMAtMost mx j) (repeat 116%N n) (AMAtMost mx mx).
  Proof.
    induction n as [|n IH]; intros j E; cbn [repeat].
    - replace j with mx by lia. constructor.
    - assert (L : (j <? mx)%N = true) by (apply N.ltb_lt; lia).
      econstructor; [| |apply (IH (j + 1)%N); lia]; cbn; rewrite L; reflexivity.
  Qed.
  Lemma atmost_refuses mx br : refuses (AMAtMost mx mx) br.
  Proof. split; [cbn; apply N.ltb_irrefl|]. intros c _. cbn. now rewrite N.ltb_irrefl. Qed.
  Lemma none_refuses br : refuses AMNone br.
  Proof. split; [reflexivity|]. intros c _. reflexivity. Qed.
  Lemma fits_path p kinds br : fits gm p kinds = true -> more_fits gm p kinds && br = false -> is_greedy (start_match p) = false /\ exists m', path (start_match p) kinds m' /\ refuses m' br.
  Proof.
    intros H Hbr. assert (K : forall mx, kinds = repeat 116%N (N.to_nat mx) ->
      is_greedy (if (mx =? 0)%N then AMNone else AMAtMost mx 0) = false /\ exists m', path (if (mx =? 0)%N then AMNone else AMAtMost mx 0) kinds m' /\ refuses m' br).
    { intros mx ->. destruct (N.eqb_spec mx 0) as [->|Hne]; (split; [reflexivity|]).
      - exists AMNone. split; [constructor|apply none_refuses].
      - exists (AMAtMost mx mx). split; [apply atmost_path; lia|apply atmost_refuses]. }
    destruct p as [|len|mn mx| |re]; cbn [fits start_match] in *.
    - apply teqb_eq in H. subst. split; [reflexivity|]. exists AMNone. split; [constructor|apply none_refuses].
    - apply K. now apply teqb_eq.
    - apply K. now apply teqb_eq.
    - discriminate.
    - apply andb_true_iff in H as [H1 H2]. rewrite forallb_forall in H1, H2. split; [reflexivity|]. exists (AMGlob re kinds). split.
      + assert (G : forall pre post, kinds = pre ++ post -> path (AMGlob re pre) post (AMGlob re kinds)).
        { intros pre post. revert pre. induction post as [|c post IH]; intros pre E.
          - rewrite app_nil_r in E. subst. constructor.
          - assert (G : gm re (pre ++ [c]) = true).
            { assert (L : List.length kinds = List.length pre + S (List.length post)) by (rewrite E, app_length; reflexivity).
              specialize (H1 (List.length pre)). rewrite in_seq in H1. specialize (H1 ltac:(lia)). rewrite E in H1.
              replace (firstn (S (List.length pre)) (pre ++ c :: post)) with (pre ++ [c]) in H1; [exact H1|].
              change (c :: post) with ([c] ++ post). rewrite app_assoc. rewrite firstn_app.
              replace (S (List.length pre)) with (List.length (pre ++ [c])) by (rewrite app_length; cbn; lia). rewrite firstn_all, Nat.sub_diag. cbn. now rewrite app_nil_r. }
            econstructor; [| |apply (IH (pre ++ [c])); rewrite <- app_assoc; exact E]; cbn; rewrite G; reflexivity. }
        exact (G [] kinds eq_refl).
      + assert (H2' : forall c, In c (if br then tx "tbp" else tx "tp") -> gm re (kinds ++ [c]) = false).
        { intros c Hc. assert (H2c : In c (tx "tp") -> gm re (kinds ++ [c]) = false) by (intros Hc'; specialize (H2 c Hc'); now apply negb_true_iff in H2).
          destruct br; [|now apply H2c]. cbn [more_fits] in Hbr. rewrite andb_true_r in Hbr. destruct Hc as [<-|[<-|[<-|[]]]]; [apply H2c; cbn; tauto|exact Hbr|apply H2c; cbn; tauto]. }
        split; [cbn; apply H2'; destruct br; cbn; tauto|]. intros c Hc. cbn. now rewrite H2'.
  Qed.

  (** ** Reading arguments *)
  Notation word_args := (word_args gm).
  Definition shift_words (d : nat) (r : res (bool * matcher * nat * pst)) : res (bool * matcher * nat * pst) :=
    let* (b, m, n, st) := r in Ok (b, m, d + n, st).
  Definition relex (l : list tok) (r : res (bool * matcher * nat * pst)) : res (bool * matcher * nat * pst) :=
    let* (b, m, n, st) := r in Ok (b, m, n, with_lex l st).
  Lemma words_shift d cs : forall m n (st : pst), word_args cs m (d + n) st = shift_words d (word_args cs m n st).
  Proof.
    induction cs as [|c r IH]; intros m n st; [reflexivity|]. cbn [Parser.word_args]. destruct (try_match gm m ARG_TERM) as [ok m1].
    destruct ok; cbn [negb]; [|reflexivity]. destruct (p_arg false _ st) as [[b st1]| |]; try reflexivity. cbn [bind].
    rewrite <- Nat.add_assoc. apply IH.
  Qed.
  Lemma words_relex l cs : forall m n (st : pst), word_args cs m n (with_lex l st) = relex l (word_args cs m n st).
  Proof.
    induction cs as [|c r IH]; intros m n st; [reflexivity|]. cbn [Parser.word_args]. destruct (try_match gm m ARG_TERM) as [ok m1].
    destruct ok; cbn [negb]; [|reflexivity]. destruct st as [lx [ps C] tr a la sc].
    assert (E : forall lx, p_arg false (fun st => Ok (true, token_ TokenWord [c] st)) (mk_pst lx (mk_builder ps C) tr a la sc : pst) =
      Ok (true, mk_pst lx (mk_builder ps (C ++ [arg_node (Leaf TokenWord [c])])) [] a la sc)).
    { intros lx'. unfold p_arg. unfold ignore_holding_trivia, with_trivia. cbn [p_lex p_b p_start p_last p_scope]. rewrite start_step. cbn [bind].
      change (token_ TokenWord [c] (mk_pst lx' (mk_builder ((ClauseArgument, List.length C) :: ps) C) [] a la sc : pst)) with
        (mk_pst lx' (mk_builder ((ClauseArgument, List.length C) :: ps) (C ++ [Leaf TokenWord [c]])) [] a la sc : pst).
      rewrite finish_step. reflexivity. }
    unfold with_lex at 1. cbn [p_b p_trivia p_start p_last p_scope]. rewrite !E. cbn [bind].
    change (mk_pst l (mk_builder ps (C ++ [arg_node (Leaf TokenWord [c])])) [] a la sc) with
      (with_lex l (mk_pst lx (mk_builder ps (C ++ [arg_node (Leaf TokenWord [c])])) [] a la sc : pst)). apply IH.
  Qed.
  Lemma word_arg c k m m1 cur ps C tr sc R : okw k -> try_match gm m ARG_TERM = (true, m1) ->
    ev (fun n => run n (KMatch false m1 cur) (mk_pst k (mk_builder ps (C ++ [arg_node (Leaf TokenWord [c])])) [] None None sc) = R) ->
    ev (fun n => run n (KMatch false m cur) (mk_pst (glue [c] k) (mk_builder ps C) tr None None sc) = R).
  Proof.
    intros Hk Hm Hev.
    assert (E : forall lx, p_arg false (fun st => Ok (true, token_ TokenWord [c] st)) (mk_pst lx (mk_builder ps C) tr None None sc : pst) =
      Ok (true, mk_pst lx (mk_builder ps (C ++ [arg_node (Leaf TokenWord [c])])) [] None None sc)).
    { intros lx'. unfold p_arg. unfold ignore_holding_trivia, with_trivia. cbn [p_lex p_b p_start p_last p_scope]. rewrite start_step. cbn [bind].
      change (token_ TokenWord [c] (mk_pst lx' (mk_builder ((ClauseArgument, List.length C) :: ps) C) [] None None sc : pst)) with
        (mk_pst lx' (mk_builder ((ClauseArgument, List.length C) :: ps) (C ++ [Leaf TokenWord [c]])) [] None None sc : pst).
      rewrite finish_step. reflexivity. }
    destruct (glue_cases c k Hk) as [(s & r & -> & Hs & ->)| ->].
    - destruct Hev as [N Hev]. exists (S N). intros n Hn. destruct n as [|n]; [lia|]. rewrite <- (Hev (S n)) by lia. cbn [Parser.run dispatch].
      unfold match_loop. cbn [p_lex list_pk hd_error Parser.word_args]. rewrite Hm. cbn [negb]. rewrite E. cbn [bind].
      set (st1 := mk_pst ((Word, c :: s) :: r) (mk_builder ps (C ++ [arg_node (Leaf TokenWord [c])])) [] None None sc : pst).
      change (mk_pst ((Word, s) :: r) (mk_builder ps (C ++ [arg_node (Leaf TokenWord [c])])) [] None None sc : pst) with (with_lex ((Word, s) :: r) st1).
      rewrite words_relex. rewrite (Nat.add_comm 0). rewrite words_shift.
      assert (G : word_args s m1 0 st1 = relex ((Word, c :: s) :: r) (word_args s m1 0 st1)) by (rewrite <- words_relex; reflexivity).
      match goal with |- context [shift_words _ ?W] => change W with (word_args s m1 0 st1) end.
      destruct (word_args s m1 0 st1) as [[[[b m2] j] st2]| |]; try reflexivity. cbn [shift_words relex bind] in *.
      injection G as G. pose proof (utf8_len_pos c) as Hc. destruct (Nat.ltb_spec 0 (utf8_len c + j)); [|lia].
      destruct st2 as [lx b2 tr2 a2 la2 sc2]. unfold with_lex in *. cbn [p_lex p_b p_trivia p_start p_last p_scope] in *. injection G as ->.
      rewrite consume_shift by exact Hs. reflexivity.
    - apply ev_run. cbn [dispatch]. unfold match_loop. cbn [p_lex list_pk hd_error Parser.word_args]. rewrite Hm. cbn [negb]. rewrite E. cbn [bind].
      pose proof (utf8_len_pos c) as Hc. destruct (Nat.ltb_spec 0 (0 + utf8_len c)); [|lia].
      replace (0 + utf8_len c) with (blen [c]) by (cbn; lia). rewrite consume_all. cbn [bind]. exact Hev.
  Qed.
  Lemma gap_match g : forall k m cur b tr a la sc R,
    ev (fun n => run n (KMatch false m cur) (mk_pst k b (tr ++ map space_tok g) a la sc) = R) ->
    ev (fun n => run n (KMatch false m cur) (mk_pst (map space_tok g ++ k) b tr a la sc) = R).
  Proof.
    induction g as [|x g IH]; intros k m cur b tr a la sc R H; [now rewrite app_nil_r in H|]. cbn [map app] in *.
    apply ev_run. cbn [dispatch]. unfold match_loop. cbn [p_lex list_pk hd_error].
    assert (E : hold_trivia list_pk list_nx (mk_pst (space_tok x :: map space_tok g ++ k) b tr a la sc : pst) = Ok (mk_pst (map space_tok g ++ k) b (tr ++ [space_tok x]) a la sc)) by (destruct x; reflexivity).
    assert (H' : ev (fun n => run n (KMatch false m cur) (mk_pst (map space_tok g ++ k) b (tr ++ [space_tok x]) a la sc) = R)).
    { apply IH. rewrite <- app_assoc. exact H. }
    destruct x; cbn [space_tok] in *; rewrite E; cbn [bind]; exact H'.
  Qed.
  Lemma refuse_match k m cur b tr a la sc : refuses m (bracket k) -> is_greedy m = false -> stops is_trivia k -> okw k ->
    ev (fun n => run n (KMatch false m cur) (mk_pst k b tr a la sc) = Ok (true, mk_pst k b tr a la sc)).
  Proof.
    intros [H1 H2] _ Hk Hw. apply ev_run. apply ev_all. intros n. cbn [dispatch]. unfold match_loop. cbn [p_lex p_scope].
    destruct k as [|[t s] k]; [reflexivity|]. cbn [list_pk hd_error]. cbn [stops fst] in Hk.
    assert (K : (if stop_by_scope sc t then Ok (true, mk_pst ((t, s) :: k) b tr a la sc : pst)
        else let '(ok, m0) := try_match gm m ARG_TERM in if negb ok then Ok (true, mk_pst ((t, s) :: k) b tr a la sc) else
          let* (attachable, st) := p_arg false (run n (KContent true)) (mk_pst ((t, s) :: k) b tr a la sc) in
          run n (KMatch false m0 cur) (if false && attachable then with_last (Some cur) st else st)) = Ok (true, mk_pst ((t, s) :: k) b tr a la sc)).
    { destruct (stop_by_scope sc t); [reflexivity|]. destruct (try_match gm m ARG_TERM) as [ok m0]. cbn in H1. subst ok. reflexivity. }
    destruct t; try discriminate Hk; try exact K; try reflexivity.
    - assert (G : forall (x : char) (f : bool -> matcher -> pres), In x (if match b0 with Bracket => true | _ => false end then tx "tbp" else tx "tp") -> (let '(r, m0) := match_as_term gm m x in match r with None => Ok (true, mk_pst ((TLeft b0, s) :: k) b tr a la sc : pst) | Some mt => f mt m0 end) = Ok (true, mk_pst ((TLeft b0, s) :: k) b tr a la sc)).
      { intros x f Hx. assert (Hx' : In x (if bracket ((TLeft b0, s) :: k) then tx "tbp" else tx "tp")) by (destruct b0; exact Hx). specialize (H2 x Hx'). destruct (match_as_term gm m x) as [r m0]. cbn in H2. now subst r. }
      destruct b0; apply (G _ (fun mt m0 => _)); cbn; tauto.
    - destruct s as [|c s]; [contradiction|]. cbn [Parser.word_args]. destruct (try_match gm m ARG_TERM) as [ok m0]. cbn in H1. subst ok. reflexivity.
  Qed.

  Lemma one_arg N a k m m1 cur ps C tr sc : AllOk N -> isize a <= N -> argb a = true -> okw k ->
    try_match gm m (arg_kind a) = (true, m1) -> match_as_term gm m (arg_kind a) = (Some false, m1) ->
    exists x, (forall R, ev (fun n => run n (KMatch false m1 cur) (mk_pst k (mk_builder ps (C ++ [arg_node x])) [] None None sc) = R) ->
                ev (fun n => run n (KMatch false m cur) (mk_pst (arg_toks a k) (mk_builder ps C) tr None None sc) = R)) /\
              forall g, argm x (g, a).
  Proof.
    intros HN Hs Ha Hk H1 H2. destruct a; try discriminate Ha; cbn [arg_kind] in *.
    - cbn in Ha. destruct w as [|c [|]]; try discriminate Ha. exists (Leaf TokenWord [c]). split; [|intros g; apply (char_of g c)]. intros R HR. cbn [arg_toks]. now apply (word_arg c k m m1).
    - destruct (group_ev l Free CurlyItem (TLeft Curly, tx "{") (TRight Curly, tx "}") ItemCurly k ((ClauseArgument, List.length C) :: ps) C None None sc) as (D & Hev & HD); [apply HN; exact Hs|cbn; tauto|exact Ha|reflexivity|].
      exists (Node ItemCurly (leaf (TLeft Curly, tx "{") :: D ++ [leaf (TRight Curly, tx "}")])). split; [|intros g; apply item_argm; [exact Ha|exact (group_item sp l D HD)|reflexivity]].
      intros R HR. apply ev_run. cbn [dispatch arg_toks toks]. unfold match_loop. cbn [p_lex list_pk hd_error]. change (ARG_TERM) with 116%N. rewrite H2.
      eapply ev_bind; [unfold p_arg; eapply ev_bind; [eapply ev_bind; [exact Hev|apply ev_all; reflexivity]|apply ev_all; intros n; rewrite finish_step; reflexivity]|].
      exact HR.
    - destruct (group_ev l InBracket BracketItem (TLeft Bracket, tx "[") (TRight Bracket, tx "]") ItemBracket k ((ClauseArgument, List.length C) :: ps) C None None sc) as (D & Hev & HD); [apply HN; exact Hs|reflexivity|exact Ha|reflexivity|].
      exists (Node ItemBracket (leaf (TLeft Bracket, tx "[") :: D ++ [leaf (TRight Bracket, tx "]")])). split; [|intros g; apply item_argm; [exact Ha|exact (bracket_item sp l D HD)|reflexivity]].
      intros R HR. apply ev_run. cbn [dispatch arg_toks toks]. unfold match_loop. cbn [p_lex list_pk hd_error]. change (ARG_BRACKET) with 98%N. rewrite H2.
      eapply ev_bind; [unfold p_arg; eapply ev_bind; [eapply ev_bind; [exact Hev|apply ev_all; reflexivity]|apply ev_all; intros n; rewrite finish_step; reflexivity]|].
      exact HR.
    - destruct args; [|discriminate]. destruct (bare_reads true name Ha ((ClauseArgument, List.length C) :: ps) C None None sc k Hk) as (x & Hev & Hx & Hn).
      exists x. split; [|intros g; now apply item_argm].
      intros R HR. apply ev_run. cbn [dispatch arg_toks toks fold_right]. unfold name_tok, match_loop. cbn [p_lex p_scope list_pk hd_error].
      assert (E : stop_by_scope sc (CommandName Generic) = false) by (destruct sc; reflexivity). rewrite E. change (ARG_TERM) with 116%N. rewrite H1. cbn [negb].
      eapply ev_bind; [unfold p_arg; eapply ev_bind; [exact Hev|apply ev_all; intros n; rewrite finish_step; reflexivity]|]. exact HR.
  Qed.
  Definition asize (args : list (list space * item)) : nat := fold_right (fun (p : list space * item) n => (let (_, a) := p in isize a) + n) 0 args.
  Definition argsb (args : list (list space * item)) : bool := forallb (fun p : list space * item => let (_, a) := p in argb a) args.
  Lemma argsb_okarg args : argsb args = true -> Forall okarg args.
  Proof. intros H. unfold argsb in H. rewrite forallb_forall in H. apply Forall_forall. intros [g a] Hin. apply argb_okarg, (H (g, a) Hin). Qed.
  Lemma arg_okw a k : argb a = true -> okw k -> okw (arg_toks a k).
  Proof.
    intros H Hk. destruct a; try discriminate; try exact I. cbn in H. destruct w as [|c [|]]; try discriminate H. cbn [arg_toks].
    destruct (glue_cases c k Hk) as [(s & r & _ & _ & ->)| ->]; exact I.
  Qed.
  Lemma args_okw args k : argsb args = true -> okw k -> okw (args_toks args k).
  Proof.
    intros H Hk. induction args as [|[g a] args IH]; [exact Hk|]. apply andb_true_iff in H as [Ha H]. specialize (IH H). cbn [args_toks fold_right]. fold (args_toks args k).
    destruct g as [|x g]; [now apply arg_okw|]. destruct x; exact I.
  Qed.
  Lemma args_ev N args : AllOk N -> forall m m' cur ps C tr sc k g, asize args <= N -> argsb args = true -> 
    path m (arg_kinds args) m' -> refuses m' (bracket k) -> is_greedy m' = false -> stops is_trivia k -> okw k ->
    exists xs g', ev (fun n => run n (KMatch false m cur) (mk_pst (args_toks args (map space_tok g ++ k)) (mk_builder ps C) (map space_tok tr) None None sc) =
                       Ok (true, mk_pst k (mk_builder ps (C ++ map arg_node xs)) (map space_tok g') None None sc)) /\
               Forall2 argm xs args /\ (args = [] -> g' = tr ++ g) /\ (args <> [] -> g' = g).
  Proof.
    intros HN. induction args as [|[ga a] args IH]; intros m m' cur ps C tr sc k g Hs Ha Hp Hr Hg Hk Hw.
    - inversion Hp; subst. exists [], (tr ++ g). split; [|split; [constructor|split; [reflexivity|contradiction]]]. cbn [args_toks fold_right map].
      apply gap_match. rewrite app_nil_r, map_app. now apply refuse_match.
    - apply andb_true_iff in Ha as [Ha Has]. unfold arg_kinds in Hp. cbn [map snd] in Hp. inversion Hp as [|? ? m1 ? ? P1 P2 P3]; subst. cbn [asize fold_right] in Hs. fold (asize args) in Hs.
      set (K := args_toks args (map space_tok g ++ k)).
      assert (Kw : okw K) by (apply args_okw; [exact Has|destruct g as [|[] ?]; [exact Hw|exact I|exact I|exact I]]).
      destruct (one_arg N a K m m1 cur ps C (map space_tok tr ++ map space_tok ga) sc HN ltac:(lia) Ha Kw P1 P2) as (x & Hx & Hm).
      destruct (IH m1 m' cur ps (C ++ [arg_node x]) [] sc k g ltac:(lia) Has P3 Hr Hg Hk Hw) as (xs & g' & Hev & Hxs & G1 & G2).
      exists (x :: xs), g'. split; [|split; [now constructor|split; [discriminate|intros _; destruct args; [now apply G1|now apply G2]]]].
      cbn [args_toks fold_right]. fold (args_toks args (map space_tok g ++ k)). fold K. apply gap_match. apply Hx.
      rewrite <- app_assoc in Hev. exact Hev.
  Qed.

  (** ** Commands with arguments *)
  Lemma right_ev N name p args ps C a la sc k g : AllOk N -> asize args <= N -> argsb args = true ->
    option_map cs_args (get_cmd sp name) = Some (SRight p) ->
    match p with PNone | PFixed 0 | PGreedy => False | _ => True end ->
    fits gm p (arg_kinds args) = true -> more_fits gm p (arg_kinds args) && bracket k = false -> stops is_trivia k -> okw k ->
    exists xs, ev (fun n => run n (KContent true) (mk_pst ((CommandName Generic, 92%N :: name) :: args_toks args (map space_tok g ++ k)) (mk_builder ps C) [] a la sc) =
                  Ok (true, mk_pst k (mk_builder ps (C ++ cmd_node name xs :: map leaf (map space_tok g))) [] a None sc)) /\ Forall2 argm xs args.
  Proof.
    intros HN Hs Ha Hc Hp Hf Hmf Hk Hw. destruct (fits_path _ _ _ Hf Hmf) as (Hg & m' & Hpath & Hr).
    assert (Hg' : is_greedy m' = false) by (clear -Hpath Hg; induction Hpath as [|m c m1 r m' H1 H2 H3 IH]; [exact Hg|]; apply IH; destruct m; cbn in *; try discriminate; try (injection H1 as _ <-; reflexivity); destruct (negb _); [discriminate|]; injection H1 as _ <-; reflexivity).
    destruct (args_ev N args HN (start_match p) m' (List.length (C ++ [Leaf ClauseCommandName (92%N :: name)])) ((ItemCmd, List.length C) :: ps) (C ++ [Leaf ClauseCommandName (92%N :: name)]) [] sc k g Hs Ha Hpath Hr Hg' Hk Hw) as (xs & g' & Hev & Hxs & G1 & G2).
    assert (g' = g) as -> by (destruct args; [now apply G1|now apply G2]). clear G1 G2.
    exists xs. split; [|exact Hxs]. apply ev_run. cbn [dispatch]. unfold content, p_peek. cbn [p_lex list_pk hd_error option_map fst].
    unfold command. cbn [p_lex list_pk hd_error]. assert (E : strip_prefix (tx "\") (92%N :: name) = Some name) by reflexivity. rewrite E, Hc. clear E.
    assert (K : ev (fun n => right_command list_pk list_nx (run n) p (start_node ItemCmd (mk_pst ((CommandName Generic, 92%N :: name) :: args_toks args (map space_tok g ++ k)) (mk_builder ps C) [] a la sc : pst)) =
       Ok (true, mk_pst k (mk_builder ps (C ++ cmd_node name xs :: map leaf (map space_tok g))) [] a None sc))).
    { unfold right_command. rewrite start_step, eat_step. cbn [bind]. rewrite Hg. cbn [negb].
      eapply ev_bind.
      - unfold match_arguments. cbn [with_last with_start p_start p_last p_lex p_b p_trivia p_scope]. rewrite Hg. cbn [Bool.eqb negb].
        eapply ev_bind; [|apply ev_all; intros n; reflexivity]. unfold rec_. eapply ev_bind; [exact Hev|apply ev_all; intros n; reflexivity].
      - apply ev_all. intros n. unfold with_last, with_start. cbn [p_start p_last p_lex p_b p_trivia p_scope].
        rewrite <- app_assoc. rewrite finish_step. cbn [bind]. rewrite extract_step. rewrite <- app_assoc. reflexivity. }
    destruct p as [|[|pp]| | |]; try contradiction; exact K.
  Qed.

  (** ** Environments *)
  Lemma item_list_ev l pl sc k ps B D0 st0 first based a la sc0 : ListOk l -> compat pl sc -> wfl pl false first based l -> ends sc k -> pok ps B ->
    Inv B st0 D0 None -> open_ok st0 l -> (based = true -> snd st0 <> None) -> (first = true -> st0 = ([], None)) ->
    exists D, ev (fun n => item_list (run n) sc (mk_pst (toksl l k) (mk_builder ps (B ++ D0)) [] a la sc0) =
                        Ok (mk_pst k (mk_builder ps (B ++ D)) [] a la sc0)) /\ Forall2 piece_of (pclose (steps l st0)) D.
  Proof.
    intros HL Hc Hw He Hp Hi Ho Hb Hf.
    destruct (HL pl false first based sc k ps B st0 D0 None (Some (List.length (B ++ D0))) Hc Hw (ends_kont _ _ He) (or_intror (ends_halts _ _ He)) Hp Hi Ho Hb) as (D & la' & a' & H1 & H2 & _).
    { intros E. specialize (Hf E). split; [exact Hf|]. subst st0. destruct Hi as [Hi _]. cbn in Hi. inversion Hi; subst. now rewrite app_nil_r. }
    exists D. split; [|exact (inv_pieces _ _ _ _ H2)].
    assert (Hev : ev (fun n => run n (KList (List.length (B ++ D0))) (mk_pst (toksl l k) (mk_builder ps (B ++ D0)) [] (Some (List.length (B ++ D0))) None sc) = Ok (true, mk_pst k (mk_builder ps (B ++ D)) [] a' la' sc))).
    { apply H1. now apply (loop_stop false). }
    unfold item_list, rec_. unfold checkpoint, b_checkpoint. cbn [p_b b_children].
    eapply ev_bind; [eapply ev_bind; [exact Hev|apply ev_all; intros n; reflexivity]|]. apply ev_all. intros n. reflexivity.
  Qed.
  Lemma wf_env pl gr name args body name' : wf pl gr (IEnv name args body name') = true ->
    trim name = name /\ argsb args = true /\ wfl InEnv false (negb (env_args sp name)) false body /\
    match get_env sp name with
    | None => args = []
    | Some shape => (fits gm (en_args shape) (arg_kinds args) = true /\ more_fits gm (en_args shape) (arg_kinds args) && opens body = false) /\ (en_feature shape = FTable -> match args with (_, IGroup _) :: _ => True | _ => False end)
    end.
  Proof.
    intros H. cbn [DocSpec.wf] in H. apply andb_true_iff in H as [H H4]. apply andb_true_iff in H as [H H3]. apply andb_true_iff in H as [H1 H2].
    split; [now apply teqb_eq|]. split; [exact H2|]. split; [exact H3|]. destruct (get_env sp name) as [shape|].
    - apply andb_true_iff in H4 as [H4 H5]. apply andb_true_iff in H4 as [H4 H6]. split; [split; [exact H4|now apply negb_true_iff]|]. intros E. rewrite E in H5. destruct args as [|[g []] ?]; try discriminate; exact I.
    - destruct args; [reflexivity|discriminate].
  Qed.
  Lemma env_ev N pl gr name args body name' ns ps C a la sc k : AllOk N -> isize (IEnv name args body name') <= N -> wf pl gr (IEnv name args body name') = true ->
    exists x la', ev (fun n => run n (KContent ns) (mk_pst (toks (IEnv name args body name') k) (mk_builder ps C) [] a la sc) = Ok (true, mk_pst k (mk_builder ps (C ++ [x])) [] a la' sc)) /\
      item_of (IEnv name args body name') x.
  Proof.
    intros HN Hs Hw. apply wf_env in Hw as (Ht & Ha & Hb & He).
    cbn [isize] in Hs. fold (asize args) in Hs. fold (lsize body) in Hs.
    set (K := (CommandName EndEnvironment, name') :: k).
    assert (Hends : ends Environment K) by reflexivity.
    (* what follows the begin node *)
    assert (Hcont : forall l' st0 first based xs E la, wfl InEnv false first based l' -> lsize l' < N -> Inv (C ++ [begin_node name xs]) st0 E None -> open_ok st0 l' ->
        (based = true -> snd st0 <> None) -> (first = true -> st0 = ([], None)) ->
      exists D, ev (fun n => (let* st := item_list (run n) Environment (mk_pst (toksl l' K) (mk_builder ((ItemEnv, List.length C) :: ps) (C ++ begin_node name xs :: E)) [] a la sc : pst) in
          let* st := match p_peek list_pk st with
                     | Some (CommandName EndEnvironment) => let st := start_node ItemEnd st in let* st := eat st in finish_node st
                     | _ => Ok st
                     end in finish_node st) = Ok (mk_pst k (mk_builder ps (C ++ [env_node name xs D name'])) [] a la sc)) /\ Forall2 piece_of (pclose (steps l' st0)) D).
    { intros l' st0 first based xs E la0 Hl Hsz Hi Ho Hb1 Hb2.
      destruct (item_list_ev l' InEnv Environment K ((ItemEnv, List.length C) :: ps) (C ++ [begin_node name xs]) E st0 first based a la0 sc (HN l' Hsz)) as (D & Hev & HD); try assumption; [reflexivity|cbn; rewrite app_length; lia|].
      exists D. split; [|exact HD]. rewrite <- !app_assoc in Hev. cbn [app] in Hev. eapply ev_bind; [exact Hev|]. apply ev_all. intros n. unfold p_peek, K. cbn [p_lex list_pk hd_error option_map fst].
      cbv zeta. rewrite start_step, eat_step. cbn [bind].
      rewrite finish_step. cbn [bind]. rewrite <- app_assoc. cbn [app]. rewrite finish_step. reflexivity. }
    assert (Hfin : forall xs D, Forall2 argm xs args -> Forall2 piece_of (parts sp body) D -> item_of (IEnv name args body name') (env_node name xs D name')).
    { intros xs D Hxs HD. apply env_item; [exact Hxs|exact Ht| |exact HD]. intros shape Es. rewrite Es in He. apply He. }
    (* whether the begin node takes arguments *)
    assert (Hkk : (args = [] /\ env_args sp name = false /\ forall n (st : pst), match option_map en_args (get_env sp name) with None | Some PNone | Some (PFixed 0) => Ok st | Some p => match_arguments (run n) false (start_match p) st end = Ok st) \/
      (exists p, (fits gm p (arg_kinds args) = true /\ more_fits gm p (arg_kinds args) && opens body = false) /\ env_args sp name = true /\ forall n (st : pst), match option_map en_args (get_env sp name) with None | Some PNone | Some (PFixed 0) => Ok st | Some p => match_arguments (run n) false (start_match p) st end = match_arguments (run n) false (start_match p) st)).
    { unfold env_args. destruct (get_env sp name) as [shape|]; [|left; now split]. cbn [option_map]. destruct He as [He _].
      destruct (en_args shape) as [|[|pp]|mn mx| |re]; try (right; eexists; split; [exact He|split; reflexivity]).
      - left. split; [|now split]. destruct He as [He _]. cbn in He. apply teqb_eq in He. destruct args; [reflexivity|discriminate].
      - left. split; [|now split]. destruct He as [He _]. cbn in He. apply teqb_eq in He. destruct args; [reflexivity|discriminate]. }
    assert (Hrun : forall x la' (R : nat -> res pst),
      ev (fun n => R n = Ok (mk_pst k (mk_builder ps (C ++ [x])) [] a la' sc)) ->
      (forall n, environment list_pk list_nx sp (run n) (mk_pst ((CommandName BeginEnvironment, name) :: args_toks args (toksl body K)) (mk_builder ps C) [] a la sc : pst) = R n) ->
      ev (fun n => run n (KContent ns) (mk_pst (toks (IEnv name args body name') k) (mk_builder ps C) [] a la sc) = Ok (true, mk_pst k (mk_builder ps (C ++ [x])) [] a la' sc))).
    { intros x la' R HR HE. apply ev_run. cbn [dispatch]. unfold content, p_peek. cbn [toks p_lex list_pk hd_error option_map fst].
      eapply ev_bind; [|apply ev_all; intros n; reflexivity]. eapply ev_eq; [|exact HR]. exact HE. }
    destruct Hkk as [(E & Ea & Hm)|(p & (Hf & Hmf) & Ea & Hm)]; rewrite Ea in Hb; cbn [negb] in Hb.
    - destruct (Hcont body ([], None) true false [] [] la Hb ltac:(lia) (inv_nil _) I ltac:(discriminate) ltac:(reflexivity)) as (D & Hev & HD). exists (env_node name [] D name'), la.
      split; [|apply Hfin; [rewrite E; constructor|exact HD]].
      eapply Hrun; [exact Hev|]. intros n. unfold environment. rewrite !start_step. cbn [p_lex list_pk hd_error]. rewrite eat_step. cbn [bind]. rewrite Hm. cbn [bind].
      rewrite finish_step. cbn [bind]. rewrite E. reflexivity.
    - destruct (split_spaces body) as (g & body' & Eb & Hb').
      unfold wfl in Hb. rewrite Eb in Hb. destruct (wf_tail _ _ _ (map ISpace g) body' false false ([], None) Hb ltac:(discriminate)) as (bb & Hw' & Hbb).
      assert (Hwb : wfl InEnv false false bb body') by (destruct g; exact Hw').
      rewrite Eb in Hmf. rewrite <- (list_bracket InEnv false bb body' K g Hwb (ends_kont _ _ Hends) Hb') in Hmf.
      destruct (fits_path _ _ _ Hf Hmf) as (Hg & m' & Hpath & Hr).
      assert (Hg' : is_greedy m' = false) by (clear -Hpath Hg; induction Hpath as [|m c m1 r m' H1 H2 H3 IH]; [exact Hg|]; apply IH; destruct m; cbn in *; try discriminate; try (injection H1 as _ <-; reflexivity); destruct (negb _); [discriminate|]; injection H1 as _ <-; reflexivity).
      set (C1 := C ++ [Leaf TokenCommandSym name]).
      destruct (args_ev N args HN (start_match p) m' (List.length C1) ((ItemBegin, List.length C) :: (ItemEnv, List.length C) :: ps) C1 [] sc (toksl body' K) g ltac:(lia) Ha Hpath Hr Hg') as (xs & g' & Hev & Hxs & G1 & G2);
        [now apply (list_trivia InEnv false bb)|now apply (list_okw InEnv false false bb)|].
      assert (g' = g) as -> by (destruct args; [now apply G1|now apply G2]). clear G1 G2.
      assert (Hi0 : Inv (C ++ [begin_node name xs]) (steps (map ISpace g) ([], None)) (map leaf (map space_tok g)) None) by exact (inv_spaces (C ++ [begin_node name xs]) g ([], None) [] None (inv_nil _) I).
      assert (Ho0 : open_ok (steps (map ISpace g) ([], None)) body').
      { clear. assert (G : forall d, snd (steps (map ISpace g) (d, None)) = None) by (induction g as [|x g IH]; intros d; [reflexivity|]; cbn [map]; rewrite steps_cons; cbn; apply IH). unfold open_ok. now rewrite G. }
      destruct (Hcont body' (steps (map ISpace g) ([], None)) false bb xs (map leaf (map space_tok g)) None Hwb) as (D & Hev2 & HD); [rewrite Eb, lsize_app in Hs; lia|exact Hi0|exact Ho0|exact Hbb|discriminate|].
      rewrite <- steps_app, <- Eb in HD.
      exists (env_node name xs D name'), None. split; [|now apply Hfin].
      eapply Hrun; [|intros n; reflexivity]. unfold environment. rewrite !start_step. cbn [p_lex list_pk hd_error]. rewrite eat_step. cbn [bind].
      eapply ev_bind.
      + eapply ev_eq; [intros n; apply Hm|]. unfold match_arguments. cbn [with_last with_start p_start p_last p_lex p_b p_trivia p_scope]. rewrite Hg. cbn [Bool.eqb negb].
        eapply ev_bind; [|apply ev_all; intros n; reflexivity]. unfold rec_. rewrite Eb, toksl_app, toksl_spaces. eapply ev_bind; [exact Hev|apply ev_all; intros n; reflexivity].
      + unfold with_last, with_start, C1. cbn [p_start p_last p_lex p_b p_trivia p_scope].
        rewrite <- app_assoc. rewrite finish_step. cbn [bind]. rewrite extract_step. rewrite <- app_assoc. exact Hev2.
  Qed.

  (** ** [\left ... \right] *)
  Lemma delim_head d k : wf_delim d = true -> okw k -> stops is_trivia (delim_toks d k).
  Proof.
    intros Hd Hk. destruct d as [c|c|name]; [| |exact eq_refl].
    - cbn [delim_toks]. destruct (glue_cases c k Hk) as [(s & r & _ & _ & ->)| ->]; reflexivity.
    - apply mark_trivia. now apply is_char_in.
  Qed.
  Lemma clause_ev (l : bool) g d k ps C a la sc : wf_delim d = true -> okw k ->
    ev (fun n => clause_lr list_pk list_nx list_set (run n) (mk_pst ((CommandName (if l then CLeft else CRight), if l then tx "\left" else tx "\right") :: map space_tok g ++ delim_toks d k) (mk_builder ps C) [] a la sc : pst) =
      Ok (mk_pst k (mk_builder ps (C ++ [clause_tree l g d])) [] a la sc)).
  Proof.
    intros Hd Hk. unfold clause_lr. rewrite start_step, eat_step. cbn [bind].
    eapply ev_bind; [unfold rec_; eapply ev_bind; [apply trivia_ev; now apply delim_head|apply ev_all; intros n; reflexivity]|].
    apply ev_all. intros n. 
    set (C1 := (C ++ [leaf (CommandName (if l then CLeft else CRight), if l then tx "\left" else tx "\right")]) ++ map leaf (map space_tok g)).
    set (ps1 := (ClauseLR, List.length C) :: ps).
    assert (E : match p_peek list_pk (mk_pst (delim_toks d k) (mk_builder ps1 C1) [] a la sc : pst) with
      | Some (CommandName Generic) => eat_as list_pk list_nx TokenCommandSym (mk_pst (delim_toks d k) (mk_builder ps1 C1) [] a la sc)
      | Some (CommandName _) | Some Dollar | None => Ok (mk_pst (delim_toks d k) (mk_builder ps1 C1) [] a la sc)
      | Some Word => single_char list_pk list_nx list_set (mk_pst (delim_toks d k) (mk_builder ps1 C1) [] a la sc)
      | Some _ => eat (mk_pst (delim_toks d k) (mk_builder ps1 C1) [] a la sc) end = Ok (mk_pst k (mk_builder ps1 (C1 ++ [delim_tree d])) [] a la sc)).
    { destruct d as [c|c|name]; unfold p_peek; cbn [p_lex delim_toks].
      - assert (Eg : exists s r, glue [c] k = (Word, c :: s) :: r) by (destruct (glue_cases c k Hk) as [(s & r0 & _ & _ & ->)| ->]; eauto).
        destruct Eg as (s & r0 & Eg). rewrite Eg. cbn [list_pk hd_error option_map fst]. unfold single_char. cbn [p_lex list_pk hd_error]. rewrite <- Eg.
        unfold token_. cbn [p_b]. unfold with_b. cbn [p_b p_lex p_trivia p_start p_last p_scope]. unfold b_token. cbn [b_parents b_children]. now rewrite consume_glue by exact Hk.
      - cbn [list_pk hd_error option_map fst]. rewrite eat_step. apply is_char_in in Hd. cbn in Hd. repeat (destruct Hd as [<-|Hd]; [reflexivity|]). contradiction.
      - reflexivity. }
    change (let* st := match p_peek list_pk (mk_pst (delim_toks d k) (mk_builder ps1 C1) [] a la sc : pst) with
      | Some (CommandName Generic) => eat_as list_pk list_nx TokenCommandSym (mk_pst (delim_toks d k) (mk_builder ps1 C1) [] a la sc)
      | Some (CommandName _) | Some Dollar | None => Ok (mk_pst (delim_toks d k) (mk_builder ps1 C1) [] a la sc)
      | Some Word => single_char list_pk list_nx list_set (mk_pst (delim_toks d k) (mk_builder ps1 C1) [] a la sc)
      | Some _ => eat (mk_pst (delim_toks d k) (mk_builder ps1 C1) [] a la sc) end in finish_node st = Ok (mk_pst k (mk_builder ps (C ++ [clause_tree l g d])) [] a la sc)).
    rewrite E. cbn [bind]. unfold C1, ps1. rewrite <- !app_assoc. rewrite finish_step. unfold clause_tree. destruct l; reflexivity.
  Qed.
  Lemma lr_reads N pl gr g1 d1 body g2 d2 : AllOk N -> isize (ILR g1 d1 body g2 d2) <= N -> wf pl gr (ILR g1 d1 body g2 d2) = true -> forall ns, Reads ns true (ILR g1 d1 body g2 d2).
  Proof.
    intros HN Hs Hw ns ps C a la sc k Hk. cbn [DocSpec.wf] in Hw. apply andb_true_iff in Hw as [Hw Hb]. apply andb_true_iff in Hw as [H1 H2].
    cbn [isize] in Hs. fold (lsize body) in Hs.
    set (K := (CommandName CRight, tx "\right") :: map space_tok g2 ++ delim_toks d2 k).
    assert (Hends : ends LR K) by reflexivity.
    destruct (list_ev body Free LR K ((ItemLR, List.length C) :: ps) (C ++ [clause_tree true g1 d1]) a la sc (HN body ltac:(lia))) as (D & Hev & HD); [cbn; tauto|exact Hb|exact Hends|cbn; rewrite app_length; lia|].
    exists (lr_tree g1 d1 D g2 d2). split; [|split; [now apply lr_item|reflexivity]].
    apply ev_run. cbn [dispatch]. unfold content, p_peek. cbn [toks p_lex list_pk hd_error option_map fst].
    eapply ev_bind; [|apply ev_all; intros n; reflexivity]. unfold item_lr. rewrite start_step.
    eapply ev_bind; [apply (clause_ev true g1 d1 (toksl body K)); [exact H1|now apply (list_okw Free false true false)]|].
    eapply ev_bind; [exact Hev|]. unfold p_peek, K. cbn [p_lex list_pk hd_error option_map fst].
    eapply ev_bind; [apply (clause_ev false g2 d2 k); assumption|]. apply ev_all. intros n. rewrite <- !app_assoc. apply finish_step.
  Qed.

  (** ** Scripts *)
  Definition mark_tok (sup : bool) : tok := if sup then (Caret, tx "^") else (Underscore, tx "_").
  Lemma mark_leaf_eq sup : leaf (mark_tok sup) = Leaf (mark_kind sup) (mark_text sup). Proof. destruct sup; reflexivity. Qed.
  Definition notb (a : item) : bool := match a with IBracket _ => false | _ => true end.
  Lemma single_head a k : argb a = true -> okw k -> stops is_trivia (arg_toks a k).
  Proof.
    intros Ha Hk. destruct a; try discriminate; try exact eq_refl. cbn in Ha. destruct w as [|c [|]]; try discriminate Ha. cbn [arg_toks].
    destruct (glue_cases c k Hk) as [(s & r & _ & _ & ->)| ->]; reflexivity.
  Qed.
  (** the mark and what follows, inside of the node *)
  Lemma script_inner N sup gap a ps C r la sc k : AllOk N -> isize a <= N -> argb a = true -> notb a = true -> okw k ->
    exists x, ev (fun n => (let* st := eat (mk_pst (mark_tok sup :: map space_tok gap ++ arg_toks a k) (mk_builder ps C) [] r la sc : pst) in
         let* st := rec_ (run n) KTrivia st in rec_ (run n) (KContent false) st) =
      Ok (mk_pst k (mk_builder ps (C ++ leaf (mark_tok sup) :: map leaf (map space_tok gap) ++ [x])) [] r la sc)) /\ argm x (gap, a).
  Proof.
    intros HN Hs Ha Hb Hk. rewrite eat_step. cbn [bind].
    destruct (single_reads a ps ((C ++ [leaf (mark_tok sup)]) ++ map leaf (map space_tok gap)) r la sc k N HN Hs Ha Hb Hk) as (x & Hev & Hx).
    exists x. split; [|apply Hx].
    eapply ev_bind; [unfold rec_; eapply ev_bind; [apply trivia_ev; now apply single_head|apply ev_all; intros n; reflexivity]|].
    unfold rec_. eapply ev_bind; [exact Hev|]. apply ev_all. intros n. rewrite <- !app_assoc. reflexivity.
  Qed.
  Lemma script_bare_ev N sup gap a ps C r sc k : AllOk N -> isize a <= N -> argb a = true -> notb a = true -> okw k ->
    exists x, ev (fun n => run n (KContent true) (mk_pst (toks (IScript sup gap a) k) (mk_builder ps C) [] r None sc) = Ok (false, mk_pst k (mk_builder ps (C ++ [x])) [] r None sc)) /\
      item_of (IScript sup gap a) x.
  Proof.
    intros HN Hs Ha Hb Hk. destruct (script_inner N sup gap a ((ItemAttachComponent, List.length C) :: ps) C r None sc k HN Hs Ha Hb Hk) as (x & Hev & Hm).
    eexists. split; [|exact (script_item sp sup gap a x Hm)]. rewrite mark_leaf_eq in Hev. apply ev_run. cbn [dispatch].
    assert (E : forall n, content list_pk list_nx list_set sp (run n) true (mk_pst (toks (IScript sup gap a) k) (mk_builder ps C) [] r None sc : pst) =
      let* st := (let* st := (let* st := eat (mk_pst (mark_tok sup :: map space_tok gap ++ arg_toks a k) (mk_builder ((ItemAttachComponent, List.length C) :: ps) C) [] r None sc : pst) in
       let* st := rec_ (run n) KTrivia st in rec_ (run n) (KContent false) st) in finish_node st) in Ok (false, st)).
    { intros n. destruct sup; cbn [content]; unfold content, p_peek; cbn [toks p_lex list_pk hd_error option_map fst]; unfold attach_component; cbn [p_last negb]; rewrite start_step; cbn [mark_tok]; rewrite !eat_step; reflexivity. }
    eapply ev_eq; [exact E|]. eapply ev_bind; [eapply ev_bind; [exact Hev|]|]; apply ev_all; intros n; [apply finish_step|reflexivity].
  Qed.
  Lemma script_based_ev N sup gap a ps B D1 D2 r sc k : AllOk N -> isize a <= N -> argb a = true -> notb a = true -> okw k -> pok ps B ->
    exists x, ev (fun n => run n (KContent true) (mk_pst (toks (IScript sup gap a) k) (mk_builder ps (B ++ D1 ++ D2)) [] r (Some (List.length (B ++ D1))) sc) =
        Ok (false, mk_pst k (mk_builder ps (B ++ D1 ++ [Node ItemAttachComponent (Node ClauseArgument D2 :: Leaf (mark_kind sup) (mark_text sup) :: map leaf (map space_tok gap) ++ [x])])) [] r (Some (List.length (B ++ D1))) sc)) /\
      argm x (gap, a).
  Proof.
    intros HN Hs Ha Hb Hk Hp. set (cp := List.length (B ++ D1)).
    destruct (script_inner N sup gap a ((ItemAttachComponent, cp) :: ps) ((B ++ D1) ++ [Node ClauseArgument D2]) r (Some cp) sc k HN Hs Ha Hb Hk) as (x & Hev & Hm).
    exists x. split; [|exact Hm]. rewrite mark_leaf_eq in Hev. apply ev_run. cbn [dispatch].
    assert (E : forall n, content list_pk list_nx list_set sp (run n) true (mk_pst (toks (IScript sup gap a) k) (mk_builder ps (B ++ D1 ++ D2)) [] r (Some cp) sc : pst) =
        let* st := (let* st := (let* st := eat (mk_pst (mark_tok sup :: map space_tok gap ++ arg_toks a k) (mk_builder ((ItemAttachComponent, cp) :: ps) ((B ++ D1) ++ [Node ClauseArgument D2])) [] r (Some cp) sc : pst) in
         let* st := rec_ (run n) KTrivia st in rec_ (run n) (KContent false) st) in finish_node st) in Ok (false, st)).
    { intros n. assert (F : forall (lx : list tok) (f : pst -> res pst), (let* st := start_node_at cp ItemAttachComponent (mk_pst lx (mk_builder ps (B ++ D1 ++ D2)) [] r (Some cp) sc) in
         let* st := start_node_at cp ClauseArgument st in let* st := finish_node st in f st) = f (mk_pst lx (mk_builder ((ItemAttachComponent, cp) :: ps) ((B ++ D1) ++ [Node ClauseArgument D2])) [] r (Some cp) sc)).
      { intros lx f. assert (L : cp <= List.length (B ++ D1 ++ D2)) by (unfold cp; rewrite !app_length; lia).
        rewrite start_at_step; [|exact L|destruct ps as [|[kk ff] ps]; [exact I|]; cbn in Hp; unfold cp; rewrite app_length; lia].
        cbn [bind]. rewrite start_at_step; [|exact L|cbn; lia]. cbn [bind]. rewrite app_assoc. unfold cp. rewrite finish_step. reflexivity. }
      assert (G : content list_pk list_nx list_set sp (run n) true (mk_pst (toks (IScript sup gap a) k) (mk_builder ps (B ++ D1 ++ D2)) [] r (Some cp) sc : pst) =
        let* st := attach_component list_pk list_nx (run n) true (mk_pst (mark_tok sup :: map space_tok gap ++ arg_toks a k) (mk_builder ps (B ++ D1 ++ D2)) [] r (Some cp) sc : pst) in Ok (false, st)) by (destruct sup; reflexivity).
      rewrite G. unfold attach_component. cbn [p_last]. rewrite F. rewrite !eat_step. reflexivity. }
    eapply ev_eq; [exact E|]. eapply ev_bind; [eapply ev_bind; [exact Hev|]|]; apply ev_all; intros n; [|reflexivity].
    rewrite <- (app_assoc (B ++ D1)). unfold cp. cbn [app]. rewrite finish_step. rewrite <- app_assoc. reflexivity.
  Qed.
  Lemma prime_based_ev ps B D1 D2 r sc k : pok ps B ->
    ev (fun n => run n (KContent true) (mk_pst (toks IPrime k) (mk_builder ps (B ++ D1 ++ D2)) [] r (Some (List.length (B ++ D1))) sc) =
        Ok (false, mk_pst k (mk_builder ps (B ++ D1 ++ [Node ItemAttachComponent [Node ClauseArgument D2; Leaf TokenApostrophe (tx "'")]])) [] r (Some (List.length (B ++ D1))) sc)).
  Proof.
    intros Hp. set (cp := List.length (B ++ D1)). apply ev_run. apply ev_all. intros n. cbn [dispatch]. unfold content, p_peek. cbn [toks p_lex list_pk hd_error option_map fst].
    unfold attach_component. cbn [p_last]. assert (L : cp <= List.length (B ++ D1 ++ D2)) by (unfold cp; rewrite !app_length; lia).
    rewrite start_at_step; [|exact L|destruct ps as [|[kk ff] ps]; [exact I|]; cbn in Hp; unfold cp; rewrite app_length; lia].
    cbn [bind]. rewrite start_at_step; [|exact L|cbn; lia]. cbn [bind]. rewrite app_assoc. unfold cp. rewrite finish_step. cbn [bind]. rewrite eat_step. cbn [bind].
    rewrite <- (app_assoc (B ++ D1)). cbn [app]. rewrite finish_step. cbn [bind]. rewrite <- app_assoc. reflexivity.
  Qed.


  (** ** Postfix commands *)
  Lemma command_at_ev cp lx ps B D1 D2 r la sc : cp = List.length (B ++ D1) -> pok ps B ->
    start_command_at (Some cp) (mk_pst lx (mk_builder ps (B ++ D1 ++ D2)) [] r la sc : pst) = Ok (mk_pst lx (mk_builder ((ItemCmd, cp) :: ps) ((B ++ D1) ++ [Node ClauseArgument D2])) [] r la sc).
  Proof.
    intros Ec Hp. unfold start_command_at. assert (L : cp <= List.length (B ++ D1 ++ D2)) by (subst cp; rewrite !app_length; lia).
    rewrite start_at_step; [|exact L|destruct ps as [|[kk ff] ps]; [exact I|]; cbn in Hp; subst cp; rewrite app_length; lia].
    cbn [bind]. rewrite start_at_step; [|exact L|cbn; lia]. cbn [bind]. rewrite app_assoc. subst cp. apply finish_step.
  Qed.
  Lemma post_ev name ps B D1 D2 r sc k : option_map cs_args (get_cmd sp name) = Some SLeft1 -> pok ps B ->
    ev (fun n => run n (KContent true) (mk_pst (toks (IPost name) k) (mk_builder ps (B ++ D1 ++ D2)) [] r (Some (List.length (B ++ D1))) sc) =
        Ok (false, mk_pst k (mk_builder ps (B ++ D1 ++ [post_node D2 name])) [] r (Some (List.length (B ++ D1))) sc)).
  Proof.
    intros Hc Hp. apply ev_run, ev_all. intros n. cbn [dispatch]. unfold content, p_peek. cbn [toks p_lex list_pk hd_error option_map fst name_tok].
    unfold command. cbn [p_lex list_pk hd_error name_tok]. assert (E : strip_prefix (tx "\") (92%N :: name) = Some name) by reflexivity. rewrite E, Hc. clear E. cbn [p_last].
    rewrite (command_at_ev _ _ _ _ _ _ _ _ _ eq_refl Hp). cbn [bind]. rewrite eat_step. cbn [bind]. rewrite <- app_assoc. rewrite finish_step. cbn [bind]. rewrite <- app_assoc. reflexivity.
  Qed.
  (** ** Commands that take the rest *)
  Lemma greedy_ev l pl sc k name ps C r : ListOk l -> compat pl sc -> wfl pl true true false l -> kont k -> halts sc k -> forall la,
    exists D, ev (fun n => right_command list_pk list_nx (run n) PGreedy (mk_pst (name_tok name :: toksl l k) (mk_builder ps C) [] r la sc : pst) =
      (let* st := finish_node (mk_pst k (mk_builder ps ((C ++ [Leaf ClauseCommandName (92%N :: name)]) ++ [Node ClauseArgument D])) [] r None sc : pst) in Ok (false, extract_holding_trivia st))) /\ Forall2 piece_of (parts sp l) D.
  Proof.
    intros HL Hc Hw Hk Hh la. set (C1 := C ++ [Leaf ClauseCommandName (92%N :: name)]).
    destruct (whole_ev l pl true sc k ((ClauseArgument, List.length C1) :: ps) C1 _ _ HL Hc Hw Hk (or_intror Hh) Hh (le_n _) eq_refl eq_refl) as (D & la' & a' & Hev & HD).
    exists D. split; [|exact HD]. unfold right_command. rewrite eat_step. cbn [bind start_match is_greedy]. change (leaf (name_tok name)) with (Leaf ClauseCommandName (92%N :: name)). fold C1.
    eapply ev_bind; [|apply ev_all; intros n; reflexivity]. rewrite start_step.
    eapply ev_bind.
    - unfold match_arguments. cbn [with_last with_start p_start p_last p_lex p_b p_trivia p_scope is_greedy Bool.eqb negb].
      eapply ev_bind; [|apply ev_all; intros n; reflexivity]. unfold rec_. eapply ev_bind; [exact Hev|apply ev_all; intros n; reflexivity].
    - apply ev_all. intros n. unfold with_last, with_start. cbn [p_start p_last p_lex p_b p_trivia p_scope]. apply finish_step.
  Qed.

  (** ** Lists *)
  Definition Goal l gr sc k ps B st D la a : Prop :=
    exists D' la' a',
      (forall R, ev (fun n => run n (loop gr (List.length (B ++ D'))) (mk_pst k (mk_builder ps (B ++ D')) [] a' la' sc) = R) ->
                 ev (fun n => run n (loop gr (List.length (B ++ D))) (mk_pst (toksl l k) (mk_builder ps (B ++ D)) [] a la sc) = R)) /\
      Inv B (steps l st) D' la' /\ (open_list l = true -> a' = a).
  Lemma go i con l'' pl gr first based sc k ps B st D la a att a1 la1 Dn :
    ListOk l'' -> compat pl sc -> wfl pl gr first based ((i :: con) ++ l'') -> is_infix i = false -> kont k ->
    (open_list ((i :: con) ++ l'') = true \/ halts sc k) -> pok ps B -> (based = true -> snd st <> None) ->
    ev (fun n => run n (KContent true) (mk_pst (toksl ((i :: con) ++ l'') k) (mk_builder ps (B ++ D)) [] a la sc) =
                 Ok (att, mk_pst (toksl l'' k) (mk_builder ps (B ++ Dn)) [] a1 la1 sc)) ->
    Inv B (steps (i :: con) st) Dn (if att then Some (List.length (B ++ D)) else la1) -> open_ok (steps (i :: con) st) l'' -> (closes i = false -> a1 = a) ->
    Goal ((i :: con) ++ l'') gr sc k ps B st D la a.
  Proof.
    intros HL Hc Hw Hi Hk Ho Hp Hb Hev Hinv Hop Ha.
    assert (Ho' : open_list ((i :: con) ++ l'') = true -> closes i = false /\ open_list l'' = true).
    { unfold open_list. rewrite forallb_app. intros E. apply andb_true_iff in E as [E1 E2]. cbn in E1. apply andb_true_iff in E1 as [E1 _]. split; [now apply negb_true_iff|exact E2]. }
    destruct (wf_tail _ _ _ (i :: con) l'' first based st Hw Hb) as (bb & Hw'' & Hbb). cbn iota in Hw''.
    destruct (HL pl gr false bb sc k ps B (steps (i :: con) st) Dn (if att then Some (List.length (B ++ D)) else la1) a1 Hc Hw'' Hk) as (D' & la' & a' & H1 & H2 & H3); try assumption.
    { destruct Ho as [Ho|Ho]; [left; now apply Ho'|now right]. }
    { discriminate. }
    exists D', la', a'. split; [|split].
    - intros R HR. specialize (H1 R HR). 
      destruct (toks_head i (toksl (con ++ l'') k) Hi) as (s & r & E).
      assert (E' : toksl ((i :: con) ++ l'') k = (head_tok i, s) :: r) by exact E. rewrite E' in *.
      change ((i :: con) ++ l'') with (i :: con ++ l'') in Hw. apply wf_cons in Hw as (Hwi & _ & _ & Hsep & _).
      eapply loop_step; [exact (wf_stop _ _ _ _ Hc Hwi)|intros Eg; exact (wf_halt _ _ _ _ Hc Hwi (Hsep Eg))|reflexivity|exact Hev|].
      destruct att; exact H1.
    - rewrite steps_app. exact H2.
    - intros E. apply Ho' in E as [E1 E2]. rewrite (H3 E2). now apply Ha.
  Qed.
  (** an element that something can be attached to *)
  Lemma go_carry i l pl gr first based sc k ps B st D la a la1 x :
    ListOk l -> compat pl sc -> wfl pl gr first based (i :: l) -> kont k -> (open_list (i :: l) = true \/ halts sc k) -> pok ps B -> Inv B st D la -> open_ok st (i :: l) ->
    (based = true -> snd st <> None) -> carries i = true -> begins_text i = false ->
    ev (fun n => run n (KContent true) (mk_pst (toksl (i :: l) k) (mk_builder ps (B ++ D)) [] a la sc) =
                 Ok (true, mk_pst (toksl l k) (mk_builder ps ((B ++ D) ++ [x])) [] a la1 sc)) ->
    item_of i x -> Goal (i :: l) gr sc k ps B st D la a.
  Proof.
    intros HL Hc Hw Hk Ho Hp Hi Hop Hb Hca Hbt Hev Hx. rewrite <- app_assoc in Hev.
    apply (go i [] l pl gr first based sc k ps B st D la a true a la1 (D ++ [x])); try assumption.
    - destruct i; try discriminate Hca; reflexivity.
    - apply (inv_carry B st D la i x); try assumption. destruct i; try discriminate Hca; reflexivity.
    - exact (open_step st i l l Hop Hbt).
    - reflexivity.
  Qed.
  Lemma go_other i l pl gr first based sc k ps B st D la a x :
    ListOk l -> compat pl sc -> wfl pl gr first based (i :: l) -> kont k -> (open_list (i :: l) = true \/ halts sc k) -> pok ps B -> Inv B st D la -> open_ok st (i :: l) ->
    (based = true -> snd st <> None) -> carries i = false -> attaches i = false -> closes i = false ->
    ev (fun n => run n (KContent true) (mk_pst (toksl (i :: l) k) (mk_builder ps (B ++ D)) [] a la sc) =
                 Ok (false, mk_pst (toksl l k) (mk_builder ps ((B ++ D) ++ [x])) [] a la sc)) ->
    item_of i x -> Goal (i :: l) gr sc k ps B st D la a.
  Proof.
    intros HL Hc Hw Hk Ho Hp Hi Hop Hb Hca Hat Hcl Hev Hx. rewrite <- app_assoc in Hev.
    apply (go i [] l pl gr first based sc k ps B st D la a false a la (D ++ [x])); try assumption.
    - destruct i; try discriminate Hcl; reflexivity.
    - exact (inv_other B st D la i x Hi Hop Hca Hat Hcl Hx).
    - refine (open_step st i l l Hop _). destruct i; try discriminate Hca; try reflexivity. cbn in *. destruct (c =? 44)%N eqn:E; [|reflexivity]. apply N.eqb_eq in E. subst. discriminate Hca.
    - reflexivity.
  Qed.
  Lemma go_bare i l pl gr first based sc k ps B d D la a x :
    ListOk l -> compat pl sc -> wfl pl gr first based (i :: l) -> kont k -> (open_list (i :: l) = true \/ halts sc k) -> pok ps B -> Inv B (d, None) D la ->
    (based = true -> snd (d, @None (piece * list el)) <> None) -> attaches i = true ->
    ev (fun n => run n (KContent true) (mk_pst (toksl (i :: l) k) (mk_builder ps (B ++ D)) [] a None sc) =
                 Ok (false, mk_pst (toksl l k) (mk_builder ps ((B ++ D) ++ [x])) [] a None sc)) ->
    item_of i x -> Goal (i :: l) gr sc k ps B (d, None) D la a.
  Proof.
    intros HL Hc Hw Hk Ho Hp Hi Hb Hat Hev Hx. rewrite <- app_assoc in Hev. assert (la = None) as -> by now destruct Hi.
    assert (Hca : carries i = false) by (destruct i; try discriminate Hat; reflexivity).
    apply (go i [] l pl gr first based sc k ps B (d, None) D None a false a None (D ++ [x])); try assumption.
    - destruct i; try discriminate Hat; reflexivity.
    - exact (inv_bare B d D None i x Hi Hca Hx).
    - refine (open_step (d, None) i l l I _). destruct i; try discriminate Hat; reflexivity.
    - reflexivity.
  Qed.
  Lemma go_attach i l pl gr first based sc k ps B d p mid D1 x ys a z :
    ListOk l -> compat pl sc -> wfl pl gr first based (i :: l) -> kont k -> (open_list (i :: l) = true \/ halts sc k) -> pok ps B -> open_ok (d, Some (p, mid)) (i :: l) ->
    attaches i = true -> Forall2 piece_of d D1 -> steady (piece_den sp p) ->
    ev (fun n => run n (KContent true) (mk_pst (toksl (i :: l) k) (mk_builder ps (B ++ D1 ++ x :: ys)) [] a (Some (List.length (B ++ D1))) sc) =
                 Ok (false, mk_pst (toksl l k) (mk_builder ps (B ++ D1 ++ [z])) [] a (Some (List.length (B ++ D1))) sc)) ->
    piece_of (PAttach p mid (elem i)) z -> Goal (i :: l) gr sc k ps B (d, Some (p, mid)) (D1 ++ x :: ys) (Some (List.length (B ++ D1))) a.
  Proof.
    intros HL Hc Hw Hk Ho Hp Hop Hat Hd Hs Hev Hz.
    apply (go i [] l pl gr first based sc k ps B (d, Some (p, mid)) (D1 ++ x :: ys) (Some (List.length (B ++ D1))) a false a (Some (List.length (B ++ D1))) (D1 ++ [z])); try assumption.
    - destruct i; try discriminate Hat; reflexivity.
    - discriminate.
    - exact (inv_attach B d p mid D1 i z Hop Hat Hd Hs Hz).
    - refine (open_step (d, Some (p, mid)) i l l Hop _). destruct i; try discriminate Hat; reflexivity.
    - reflexivity.
  Qed.

  Theorem lists_ok : forall N, AllOk N.
  Proof.
    induction N as [|N IHN]; intros l Hsz; [lia|]. intros pl gr first based sc k ps B st D la a Hc Hw Hk Ho Hp Hi Hop Hb Hf.
    change (Goal l gr sc k ps B st D la a). destruct l as [|i l].
    { exists D, la, a. split; [intros R HR; exact HR|]. split; [exact Hi|reflexivity]. }
    cbn [lsize fold_right] in Hsz. fold (lsize l) in Hsz. pose proof (isize_pos i) as Hpos.
    assert (HL : forall l0, lsize l0 <= lsize l -> ListOk l0) by (intros l0 H0; apply IHN; lia).
    pose proof (wf_cons _ _ _ _ _ _ _ Hw) as (Hwi & Hwp & Hws & Hwg & Hwt & Hwl).
    pose proof (list_okw _ _ _ _ _ _ Hwl Hk) as Hkw.
    (* words and commas *)
    assert (Htext : begins_text i = true -> Goal (i :: l) gr sc k ps B st D la a).
    { intros Hi'. destruct (split_text l) as (p & l'' & -> & Hpt & Hl'').
      assert (Hop' : open_ok st [i]) by (unfold open_ok in *; destruct (snd st) as [[[] []]|]; exact Hop).
      assert (Hsi : toks i (toksl (p ++ l'') k) = item_tok i :: toksl (p ++ l'') k) by (destruct i; try discriminate Hi'; reflexivity).
      change (i :: p ++ l'') with ((i :: p) ++ l'') in *. rewrite lsize_app in *.
      apply (go i p l'' pl gr first based sc k ps B st D la a true a la (D ++ [Node ItemText (map leaf (map item_tok (i :: p)))])); try assumption.
      - apply HL. lia.
      - destruct i; try discriminate Hi'; reflexivity.
      - destruct (wf_tail _ _ _ (i :: p) l'' first based st Hw Hb) as (bb & Hw'' & _). cbn iota in Hw''.
        assert (Hkt : stops is_text_component (toksl l'' k)) by now apply (list_text pl gr bb).
        apply ev_run. cbn [dispatch]. cbn [app]. change (toksl (i :: p ++ l'') k) with (toks i (toksl (p ++ l'') k)). rewrite Hsi, toksl_app.
        assert (E : forall n, content list_pk list_nx list_set sp (run n) true (mk_pst (item_tok i :: toksl p (toksl l'' k)) (mk_builder ps (B ++ D)) [] a la sc : pst) =
          let* st := p_text list_pk list_nx (run n) (mk_pst (item_tok i :: toksl p (toksl l'' k)) (mk_builder ps (B ++ D)) [] a la sc : pst) in Ok (true, st)).
        { intros n. destruct i; try discriminate Hi'; [reflexivity|]. cbn in Hi'. apply N.eqb_eq in Hi'. subst. reflexivity. }
        eapply ev_eq; [exact E|]. eapply ev_bind; [|apply ev_all; intros n; reflexivity]. unfold p_text. rewrite start_step, eat_step. cbn [bind].
        eapply ev_bind; [unfold rec_; eapply ev_bind; [now apply text_ev|apply ev_all; intros n; reflexivity]|]. apply ev_all. intros n. rewrite <- (app_assoc (B ++ D)). rewrite (app_assoc B D). apply finish_step.
      - now apply (inv_text B st D la i p).
      - assert (Hx : exists d es, steps (i :: p) st = (d, Some (PText es, []))).
        { rewrite steps_cons, (pstep_step1 _ _ _ Hop'). assert (Hca : carries i = true) by (destruct i; try discriminate; try reflexivity; cbn in *; apply N.eqb_eq in Hi'; subst; reflexivity).
          assert (Ha : attaches i = false) by (destruct i; try discriminate; reflexivity).
          assert (E : exists d', step1 st (elem i) = (d', Some (PText [elem i], []))) by (unfold step1, start_of; cbn [e_item elem]; rewrite Ha, Hca, Hi'; destruct (snd st) as [[q mid]|]; eauto).
          destruct E as (d' & ->). rewrite steps_text by exact Hpt. eauto. }
        destruct Hx as (d & es & ->). exact Hl''.
      - reflexivity. }
    (* tokens that nothing is attached to *)
    assert (Hleaf : simple i -> carries i = false -> i <> IPrime -> Goal (i :: l) gr sc k ps B st D la a).
    { intros Hs Hca Hnp. apply (go_other i l pl gr first based sc k ps B st D la a (leaf (item_tok i))); try assumption.
      - apply HL. lia.
      - destruct i; try contradiction; reflexivity.
      - destruct i; try contradiction; reflexivity.
      - apply ev_run. apply ev_all. intros n. cbn [dispatch]. change (toksl (i :: l) k) with (toks i (toksl l k)). rewrite (simple_toks i _ Hs).
        assert (E : content list_pk list_nx list_set sp (run n) true (mk_pst (item_tok i :: toksl l k) (mk_builder ps (B ++ D)) [] a la sc : pst) =
          let* st := eat (mk_pst (item_tok i :: toksl l k) (mk_builder ps (B ++ D)) [] a la sc : pst) in Ok (false, st)).
        { destruct i; try contradiction; try discriminate Hca; try reflexivity; [destruct x; reflexivity|]. cbn in Hs. repeat (destruct Hs as [<-|Hs]; [try discriminate Hca; reflexivity|]). contradiction. }
        rewrite E, eat_step. reflexivity.
      - now apply simple_item. }
    (* what follows a command that takes the rest *)
    assert (Hnext : closes i = true -> kont (toksl l k) /\ halts sc (toksl l k)).
    { intros Hcl. specialize (Hws Hcl). destruct l as [|j l].
      - split; [exact Hk|]. destruct Ho as [Ho|Ho]; [|exact Ho]. cbn in Ho. rewrite Hcl in Ho. discriminate Ho.
      - destruct (separator_halt pl sc j (toksl l k) Hc Hws) as [Hh Hko]. now split. }
    destruct i as [w|x|ch| | |g|g|sup gap arg|name args|name|name body|l1 name l2|typst ts|g1 d1 body g2 d2|name args body name'|f body].
    - now apply Htext.
    - apply Hleaf; [exact I|reflexivity|discriminate].
    - apply wf_mark in Hwi as [Hin Hbr]. destruct (N.eqb_spec ch 44) as [->|Hne]; [now apply Htext|].
      destruct (carries (IMark ch)) eqn:Eca; [|apply Hleaf; [exact Hin|first [exact Eca|reflexivity]|discriminate]].
      apply (go_carry (IMark ch) l pl gr first based sc k ps B st D la a la (leaf (item_tok (IMark ch)))); try assumption; [apply HL; lia|cbn; now apply N.eqb_neq| |now apply simple_item].
      apply ev_run. apply ev_all. intros n. cbn [dispatch]. change (toksl (IMark ch :: l) k) with (item_tok (IMark ch) :: toksl l k).
      assert (E : content list_pk list_nx list_set sp (run n) true (mk_pst (item_tok (IMark ch) :: toksl l k) (mk_builder ps (B ++ D)) [] a la sc : pst) =
        let* st := eat (mk_pst (item_tok (IMark ch) :: toksl l k) (mk_builder ps (B ++ D)) [] a la sc : pst) in Ok (true, st)).
      { cbn in Hin. repeat (destruct Hin as [<-|Hin]; [try discriminate Eca; try (exfalso; apply Hne; reflexivity); reflexivity|]). contradiction. }
      rewrite E, eat_step. reflexivity.
    - (* prime *)
      destruct st as [d [[p mid]|]].
      + destruct Hi as (D1 & x & ys & -> & H1 & H2 & H3 & -> & H5).
        eapply (go_attach IPrime l pl gr first based sc k ps B d p mid D1 x ys a); try assumption; try exact eq_refl; [apply HL; lia|exact (prime_based_ev ps B D1 (x :: ys) a sc (toksl l k) Hp)|]. now apply prime_piece.
      + apply (go_bare IPrime l pl gr first based sc k ps B d D la a (leaf (item_tok IPrime))); try assumption; try exact eq_refl; [apply HL; lia| |now apply simple_item].
        apply ev_run. apply ev_all. intros n. reflexivity.
    - apply Hleaf; [exact I|reflexivity|discriminate].
    - (* groups *)
      destruct (group_reads true g) with (ps := ps) (C := B ++ D) (a := a) (la := la) (sc := sc) (k := toksl l k) as (x & Hev & Hx & _); [apply IHN; cbn in Hsz; unfold lsize; lia|exact Hwi|exact Hkw|].
      apply (go_carry (IGroup g) l pl gr first based sc k ps B st D la a la x); try assumption; try exact eq_refl; try (apply HL; lia).
    - discriminate.
    - (* scripts *)
      assert (Hss : isize arg <= N) by (cbn [isize] in Hsz; lia).
      cbn [DocSpec.wf] in Hwi. apply andb_true_iff in Hwi as [Hwa Hwn]. change (argb arg = true) in Hwa. change (notb arg = true) in Hwn.
      destruct st as [d [[p mid]|]].
      + destruct Hi as (D1 & x & ys & -> & H1 & H2 & H3 & -> & H5).
        destruct (script_based_ev N sup gap arg ps B D1 (x :: ys) a sc (toksl l k) IHN Hss Hwa Hwn Hkw Hp) as (y & Hev & Hy).
        eapply (go_attach (IScript sup gap arg) l pl gr first based sc k ps B d p mid D1 x ys a); try assumption; try exact eq_refl; [apply HL; lia|exact Hev|]. now apply script_piece.
      + assert (la = None) as -> by now destruct Hi.
        destruct (script_bare_ev N sup gap arg ps (B ++ D) a sc (toksl l k) IHN Hss Hwa Hwn Hkw) as (x & Hev & Hx).
        apply (go_bare (IScript sup gap arg) l pl gr first based sc k ps B d D None a x); try assumption; try exact eq_refl; try (apply HL; lia).
    - (* commands *)
      assert (Hwc : argsb args = true /\ match option_map cs_args (get_cmd sp name) with None => match args with [] => true | _ => false end | Some (SRight p) => fits gm p (arg_kinds args) | _ => false end = true /\ own_cond name args).
      { cbn [DocSpec.wf] in Hwi. apply andb_true_iff in Hwi as [Hwi W3]. apply andb_true_iff in Hwi as [W1 W2]. split; [exact W1|]. split; [exact W2|exact W3]. }
      destruct Hwc as (W1 & W2 & W3).
      assert (Hcmd : forall xs, Forall2 argm xs args -> item_of (ICmd name args) (cmd_node name xs)).
      { intros xs Hxs. apply cmd_item; [exact Hxs|now apply argsb_okarg|exact W3|]. intros cmd E Hg. rewrite E in W2. cbn in W2. rewrite Hg in W2. discriminate W2. }
      assert (Hsplit : (args = [] /\ match option_map cs_args (get_cmd sp name) with None | Some (SRight PNone) | Some (SRight (PFixed 0)) => True | _ => False end) \/
        exists p, option_map cs_args (get_cmd sp name) = Some (SRight p) /\ match p with PNone | PFixed 0 | PGreedy => False | _ => True end /\ fits gm p (arg_kinds args) = true).
      { destruct (option_map cs_args (get_cmd sp name)) as [[p| |]|]; try discriminate W2; [|left; split; [destruct args; [reflexivity|discriminate W2]|exact I]].
        destruct p as [|[|pp]|mn mx| |re]; try (right; eexists; split; [reflexivity|]; split; [exact I|exact W2]); try discriminate W2; left; (split; [|exact I]); cbn in W2; apply teqb_eq in W2; destruct args; try reflexivity; discriminate W2. }
      destruct Hsplit as [[-> Hbr]|(p & Ep & Hpp & Hfit)].
      + apply (go_carry (ICmd name []) l pl gr first based sc k ps B st D la a la (cmd_node name [])); try assumption; try exact eq_refl; [apply HL; lia| |apply Hcmd; constructor].
        apply (bare_ev name (toksl l k)). exact Hbr.
      + destruct (split_spaces l) as (g & l'' & -> & Hl'').
        assert (Hw2 : wfl pl gr first based ((ICmd name args :: map ISpace g) ++ l'')) by exact Hw.
        destruct (wf_tail _ _ _ (ICmd name args :: map ISpace g) l'' first based st Hw2 Hb) as (bb & Hw'' & _). cbn iota in Hw''.
        destruct (right_ev N name p args ps (B ++ D) a la sc (toksl l'' k) g IHN) as (xs & Hev & Hxs); try assumption;
          [cbn [isize] in Hsz; fold (asize args) in Hsz; lia|rewrite (list_bracket pl gr bb l'' k g Hw'' Hk Hl''); cbn [takes_bracket] in Hwt; rewrite Ep in Hwt; exact Hwt|now apply (list_trivia pl gr bb)|now apply (list_okw pl gr false bb)|].
        change (ICmd name args :: map ISpace g ++ l'') with ((ICmd name args :: map ISpace g) ++ l'') in *. rewrite lsize_app in *.
        assert (Hop' : open_ok st [ICmd name args]) by (unfold open_ok; destruct (snd st) as [[[] []]|]; reflexivity).
        assert (Hst : pstep st (elem (ICmd name args)) = (pclose st, Some (PItem (elem (ICmd name args)), []))).
        { rewrite (pstep_step1 _ _ _ Hop'). unfold step1, start_of, pclose. cbn. destruct (snd st) as [[q mid]|]; [reflexivity|now rewrite app_nil_r]. }
        apply (go (ICmd name args) (map ISpace g) l'' pl gr first based sc k ps B st D la a true a None (D ++ cmd_node name xs :: map leaf (map space_tok g))); try assumption; [apply HL; lia|reflexivity| | | |reflexivity].
        * assert (E : toksl ((ICmd name args :: map ISpace g) ++ l'') k = (CommandName Generic, 92%N :: name) :: args_toks args (map space_tok g ++ toksl l'' k)).
          { cbn [app toksl fold_right]. fold (toksl (map ISpace g ++ l'') k). rewrite toksl_app, toksl_spaces. reflexivity. }
          rewrite E. rewrite <- app_assoc in Hev. exact Hev.
        * rewrite steps_cons. change (D ++ cmd_node name xs :: map leaf (map space_tok g)) with (D ++ [cmd_node name xs] ++ map leaf (map space_tok g)). rewrite app_assoc.
          apply inv_spaces; [|rewrite Hst; exact I]. apply (inv_carry B st D la (ICmd name args)); try assumption; try reflexivity. now apply Hcmd.
        * rewrite steps_cons, Hst. clear. assert (G : forall d q mid, snd (steps (map ISpace g) (d, Some (PItem q, mid))) = Some (PItem q, mid ++ map elem (map ISpace g))).
          { induction g as [|x g IH]; intros d q mid; [now rewrite app_nil_r|]. cbn [map]. rewrite steps_cons. cbn [pstep]. cbn [e_item elem attaches carries closes]. rewrite IH, <- app_assoc. reflexivity. }
          unfold open_ok. rewrite G. exact I.
    - (* postfix *)
      clear Hwt.
      cbn in Hwp. specialize (Hb Hwp). destruct st as [d [[p mid]|]]; [|now contradiction Hb].
      cbn [DocSpec.wf] in Hwi. apply andb_true_iff in Hwi as [W1 W2]. apply negb_true_iff in W1.
      assert (E : option_map cs_args (get_cmd sp name) = Some SLeft1) by (destruct (option_map cs_args (get_cmd sp name)) as [[]|]; try discriminate W2; reflexivity).
      destruct Hi as (D1 & x & ys & -> & H1 & H2 & H3 & -> & H5).
      eapply (go_attach (IPost name) l pl gr first based sc k ps B d p mid D1 x ys a); try assumption; try exact eq_refl; [apply HL; lia|exact (post_ev name ps B D1 (x :: ys) a sc (toksl l k) E Hp)|]. now apply post_piece.
    - (* greedy *)
      clear Hwt.
      cbn [DocSpec.wf] in Hwi. apply andb_true_iff in Hwi as [W W3]. apply andb_true_iff in W as [W1 W2].
      assert (E : option_map cs_args (get_cmd sp name) = Some (SRight PGreedy)) by (destruct (option_map cs_args (get_cmd sp name)) as [[[]| |]|]; try discriminate W2; reflexivity).
      destruct (Hnext eq_refl) as [Hkn Hhn].
      destruct (greedy_ev body pl sc (toksl l k) name ((ItemCmd, List.length (B ++ D)) :: ps) (B ++ D) a) with (la := la) as (X & Hev & HX); try assumption; [apply IHN; cbn [isize] in Hsz; unfold lsize; lia|].
      assert (Hx : item_of (IGreedy name body) (greedy_node name X)).
      { apply greedy_item; [|exact E|exact HX]. apply orb_true_iff in W1 as [W1|W1]; [now left|right]. now apply negb_true_iff. }
      apply (go (IGreedy name body) [] l pl gr first based sc k ps B st D la a false a None (D ++ [greedy_node name X])); try assumption; [apply HL; lia|reflexivity| | | |reflexivity].
      + apply ev_run. cbn [dispatch app]. change (toksl (IGreedy name body :: l) k) with (name_tok name :: toksl body (toksl l k)).
        unfold content, p_peek. cbn [p_lex list_pk hd_error option_map fst name_tok]. unfold command. cbn [p_lex list_pk hd_error]. try (unfold name_tok at 1; cbn [list_pk hd_error]).
        assert (Es : strip_prefix (tx "\") (92%N :: name) = Some name) by reflexivity. rewrite Es, E. clear Es. rewrite start_step.
        destruct Hev as [n0 Hev]. exists n0. intros n Hn. etransitivity; [exact (Hev n Hn)|]. rewrite <- app_assoc. rewrite finish_step. cbn [bind]. rewrite <- app_assoc. reflexivity.
      + cbn [steps map fold_left]. apply (inv_close B st D la (IGreedy name body)); try assumption; reflexivity.
      + cbn [steps map fold_left]. exact (open_step st (IGreedy name body) l l Hop eq_refl).
    - (* infix *)
      clear Hwt.
      cbn in Hwp. destruct (Hf Hwp) as [-> ->]. assert (D = []) as -> by (destruct Hi as [Hi _]; inversion Hi; reflexivity). assert (la = None) as -> by now destruct Hi.
      apply wf_infix in Hwi as (W1 & W2 & W3 & W4 & W5). destruct (Hnext eq_refl) as [Hkn Hhn].
      cbn [isize] in Hsz. fold (lsize l1) in Hsz. fold (lsize l2) in Hsz.
      destruct (IHN l1 ltac:(lia) pl gr false false sc (name_tok name :: toksl l2 (toksl l k)) ps B ([], None) [] None (Some (List.length B)) Hc W3 eq_refl (or_introl W4) Hp Hi I) as (D1 & la1 & a1 & H1 & H2 & H3); [discriminate|discriminate|].
      specialize (H3 W4). subst a1. pose proof (inv_pieces _ _ _ _ H2) as HD1.
      destruct (greedy_ev l2 pl sc (toksl l k) name ((ItemCmd, List.length B) :: ps) (B ++ [Node ClauseArgument D1]) None (IHN l2 ltac:(lia)) Hc W5 Hkn Hhn la1) as (D2 & Hev & HD2).
      assert (Hx : item_of (IInfix l1 name l2) (infix_node D1 name D2)) by now apply infix_item.
      assert (Hi' : Inv B (pstep ([], None) (elem (IInfix l1 name l2))) ([] ++ [infix_node D1 name D2]) None) by (apply (inv_close B ([], None) [] None (IInfix l1 name l2)); try assumption; reflexivity).
      destruct (wf_tail _ _ _ [IInfix l1 name l2] l first based ([], None) Hw Hb) as (bb & Hw'' & Hbb). cbn iota in Hw''.
      destruct (HL l (le_n _) pl gr false bb sc k ps B (pstep ([], None) (elem (IInfix l1 name l2))) [infix_node D1 name D2] None None Hc Hw'' Hk) as (D' & la' & a' & G1 & G2 & _); try assumption.
      { destruct Ho as [Ho|Ho]; [cbn in Ho; discriminate Ho|now right]. }
      { discriminate. }
      exists D', la', a'. split; [|split; [exact G2|cbn; discriminate]].
      intros R HR. specialize (G1 R HR). change (toksl (IInfix l1 name l2 :: l) k) with (toksl l1 (name_tok name :: toksl l2 (toksl l k))). apply H1. clear H1.
      eapply (loop_step gr false); [destruct sc; reflexivity|intros _; destruct sc; reflexivity|reflexivity| |exact (G1 : ev (fun n : nat => run n (loop gr (checkpoint (mk_pst (toksl l k) (mk_builder ps (B ++ [infix_node D1 name D2])) [] None None sc))) (mk_pst (toksl l k) (mk_builder ps (B ++ [infix_node D1 name D2])) [] None None sc) = R))].
      apply ev_run. cbn [dispatch]. unfold content, p_peek. cbn [p_lex list_pk hd_error option_map fst]. unfold command. cbn [p_lex list_pk hd_error]. try (unfold name_tok at 1; cbn [list_pk hd_error]).
      assert (Es : strip_prefix (tx "\") (92%N :: name) = Some name) by reflexivity. rewrite Es, W2. clear Es. cbn [p_start]. unfold with_start. cbn [p_lex p_b p_trivia p_last p_scope].
      pose proof (command_at_ev (List.length B) (name_tok name :: toksl l2 (toksl l k)) ps B [] D1 None la1 sc) as Hat. rewrite app_nil_r in Hat. cbn [app] in Hat. specialize (Hat eq_refl Hp).
      destruct Hev as [n0 Hev]. exists n0. intros n Hn. refine (eq_trans (f_equal (fun x => bind x _) Hat) _). cbn [bind]. etransitivity; [exact (Hev n Hn)|]. rewrite <- !app_assoc. cbn [app]. rewrite finish_step. reflexivity.
    - (* code *)
      destruct (code_reads true typst ts Hwi ps (B ++ D) a la sc (toksl l k) Hkw) as (x & Hev & Hx & _).
      apply (go_carry (ICode typst ts) l pl gr first based sc k ps B st D la a la x); try assumption; try exact eq_refl; try (apply HL; lia).
    - (* left, right *)
      destruct (lr_reads N pl gr g1 d1 body g2 d2 IHN ltac:(lia) Hwi true ps (B ++ D) a la sc (toksl l k) Hkw) as (x & Hev & Hx & _).
      apply (go_carry (ILR g1 d1 body g2 d2) l pl gr first based sc k ps B st D la a la x); try assumption; try exact eq_refl; try (apply HL; lia).
    - (* environments *)
      destruct (env_ev N pl gr name args body name' true ps (B ++ D) a la sc (toksl l k) IHN ltac:(lia) Hwi) as (x & la' & Hev & Hx).
      apply (go_carry (IEnv name args body name') l pl gr first based sc k ps B st D la a la' x); try assumption; try exact eq_refl; try (apply HL; lia).
    - (* formulas *)
      destruct (formula_reads true f body) with (ps := ps) (C := B ++ D) (a := a) (la := la) (sc := sc) (k := toksl l k) as (x & Hev & Hx & _).
      { apply IHN. cbn [isize] in Hsz. unfold lsize. lia. }
      { cbn [DocSpec.wf] in Hwi. destruct f, pl; try discriminate Hwi; exact Hwi. }
      { exact Hkw. }
      apply (go_other (IFormula f body) l pl gr first based sc k ps B st D la a x); try assumption; try exact eq_refl; try (apply HL; lia).
  Qed.
End Parse.
