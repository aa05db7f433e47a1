(** A relational pass over the converter: two converters on two trees that
    differ in comments only (C39), or on the same tree with an invariant on
    the indentation (C35). *)
From Verif Require Export ConvTerm.
Local Open Scope nat_scope.

(** ** Trees that differ in comments only *)
(** what the converter copies from the source or inspects as text *)
Definition verbatim (k : kind) (ch : list tree) : Prop :=
  match k with
  | TokenError | ItemTypstCode | ItemBegin => True
  | ItemCmd =>
      (exists name, command_named (Node k ch) name /\ In name (map tx ["label"; "includegraphics"; "color"]%string)) \/
      (* no comments in place of arguments *)
      exists c, In (Node ItemBlockComment c) ch
  | ClauseLR => exists s r, ch = Leaf TokenComment s :: r
  | ItemFormula => ~ (exists k' s r, ch = Leaf k' s :: r) \/ ~ (exists r k' s, ch = r ++ [Leaf k' s])
  | _ => False
  end.
Definition colored (k : kind) (ch : list tree) : Prop :=
  exists name, command_named (Node k ch) name /\ In name (map tx ["textcolor"; "colorbox"]%string).
Inductive alike : tree -> tree -> Prop :=
| al_leaf k s : alike (Leaf k s) (Leaf k s)
| al_comment s s' : alike (Leaf TokenComment s) (Leaf TokenComment s')
| al_block c c' : alike (Node ItemBlockComment c) (Node ItemBlockComment c')
| al_node k c c' : Forall2 alike c c' -> (verbatim k c -> c = c') ->
    (colored k c -> option_map tree_text (hd_error (arguments (Node k c))) = option_map tree_text (hd_error (arguments (Node k c')))) ->
    alike (Node k c) (Node k c').
Lemma alike_refl t : alike t t.
Proof.
  induction t as [k s|k ch IH] using tree_ind2; [constructor|]. constructor; auto. induction IH; constructor; auto.
Qed.
Lemma alike_all l : Forall2 alike l l.
Proof. induction l; constructor; auto using alike_refl. Qed.
Lemma alike_kind a b : alike a b -> tkind a = tkind b.
Proof. now intros []. Qed.
Lemma alike_node a b : alike a b -> is_node a = is_node b.
Proof. now intros []. Qed.

Lemma f2_filter {A} (P : A -> A -> Prop) (f : A -> bool) l l' : (forall a b, P a b -> f a = f b) ->
  Forall2 P l l' -> Forall2 P (filter f l) (filter f l').
Proof.
  intros H. induction 1 as [|a b l l' Hab _ IH]; [constructor|]. cbn. rewrite <- (H _ _ Hab). destruct (f a); auto.
Qed.
Lemma alike_has k a b : alike a b -> has_kind k a = has_kind k b.
Proof. intros H. unfold has_kind. now rewrite (alike_kind _ _ H). Qed.
Lemma alike_leaf_of k l l' : k <> TokenComment -> Forall2 alike l l' ->
  match find (fun c => match c with Leaf k' _ => kind_eqb k' k | Node _ _ => false end) l with Some (Leaf _ s) => Some s | _ => None end
  = match find (fun c => match c with Leaf k' _ => kind_eqb k' k | Node _ _ => false end) l' with Some (Leaf _ s) => Some s | _ => None end.
Proof.
  intros N. induction 1 as [|a b l l' Hab _ IH]; [reflexivity|]. cbn [find]. destruct Hab as [k' s|s s'|c c'|k' c c' _ _ _]; try exact IH.
  - destruct (kind_eqb k' k); [reflexivity|exact IH].
  - unfold kind_eqb. destruct (kind_eq_dec TokenComment k) as [E|]; [now symmetry in E|exact IH].
Qed.

(** ** The pass *)
(** the indentation is [n], and at least 2 in a list *)
Definition indented (n : nat) (s : cst) : Prop := c_indent s = n /\ (is_list_env (c_env s) = true -> 2 <= n).
Lemma indented_enter n k s : indented n s -> is_list_env k = false -> indented n (enter_env k s).
Proof. intros [H1 H2] Hk. unfold enter_env, indented. cbn. rewrite Hk. split; [lia|discriminate]. Qed.
Definition agree (n : nat) {A} (st : A -> cst) (x y : cres A) : Prop := x = y /\ forall a, y = COk a -> indented n (st a).
Lemma agree_bind {A B} n (st : A -> cst) (x y : cres A) (f g : A -> cres B) : agree n st x y ->
  (forall a, indented n (st a) -> f a = g a) -> cbind x f = cbind y g.
Proof. intros [-> H] Hf. destruct y; cbn; auto. Qed.
Lemma agree_bind2 {A B} n (st : A -> cst) (st' : B -> cst) (x y : cres A) (f g : A -> cres B) : agree n st x y ->
  (forall a, indented n (st a) -> agree n st' (f a) (g a)) -> agree n st' (cbind x f) (cbind y g).
Proof. intros [-> H] Hf. destruct y; cbn; auto; (split; [reflexivity|discriminate]). Qed.
Lemma agree_ok {A} n (st : A -> cst) a : indented n (st a) -> agree n st (COk a) (COk a).
Proof. intros H. split; [reflexivity|]. intros b E. now injection E as <-. Qed.
Lemma agree_fail {A} n (st : A -> cst) (x : cres A) : (forall a, x <> COk a) -> agree n st x x.
Proof. intros H. split; [reflexivity|]. intros b E. now apply H in E. Qed.
Lemma bind_eq {A B} (x : cres A) (f g : A -> cres B) : (forall a, f a = g a) -> cbind x f = cbind x g.
Proof. intros H. destruct x; cbn; auto. Qed.

Section Agree.
  Variable sp : spec.
  Variables r1 r2 : tree -> cst -> cout.
  Variable n : nat.
  Hypothesis H : forall u1 u2 s, alike u1 u2 -> indented n s -> agree n fst (r1 u1 s) (r2 u2 s).
  Local Notation ag := (agree n (@fst cst text)).

  Lemma each_agree f g l l' : Forall2 (fun u1 u2 => forall s, indented n s -> ag (f u1 s) (g u2 s)) l l' ->
    forall s, indented n s -> ag (each f l s) (each g l' s).
  Proof.
    induction 1 as [|a b l l' Hab _ IH]; intros s Hs; [now apply agree_ok|]. cbn [each]. eapply agree_bind2; [apply Hab, Hs|].
    intros [s1 o1] H1. eapply agree_bind2; [apply IH, H1|]. intros [s2 o2] H2. now apply agree_ok.
  Qed.
  Lemma each_alike f g l l' : Forall2 alike l l' -> (forall u1 u2 s, alike u1 u2 -> indented n s -> ag (f u1 s) (g u2 s)) ->
    forall s, indented n s -> ag (each f l s) (each g l' s).
  Proof. intros Hl Hf. apply each_agree. induction Hl; constructor; auto. Qed.
  Lemma attach_agree l l' : Forall2 alike l l' -> forall a b s, indented n s -> ag (attach_loop r1 a b l s) (attach_loop r2 a b l' s).
  Proof.
    induction 1 as [|t t' l l' Ht _ IH]; intros a b s Hs; [now apply agree_ok|]. cbn [attach_loop].
    assert (N : forall b, ag (let! (s, o1) := r1 t s in let! (s, o2) := attach_loop r1 a b l s in COk (s, o1 ++ o2))
                              (let! (s, o1) := r2 t' s in let! (s, o2) := attach_loop r2 a b l' s in COk (s, o1 ++ o2))).
    { intros b'. eapply agree_bind2; [apply H; assumption|]. intros [s1 o1] H1. eapply agree_bind2; [apply IH, H1|]. intros [? ?] ?. now apply agree_ok. }
    destruct a; [|apply N]. destruct Ht as [k m|x x'|c c'|k c c' Hc Hv]; try apply N.
    destruct k; try apply N; (eapply agree_bind2; [apply IH, Hs|intros [? ?] ?; now apply agree_ok]).
  Qed.
  Lemma comma_agree k l l' : Forall2 alike l l' -> forall s, indented n s -> ag (comma_args r1 k l s) (comma_args r2 k l' s).
  Proof.
    induction 1 as [|t t' l l' Ht Hl IH]; intros s Hs; [now apply agree_ok|]. cbn [comma_args]. eapply agree_bind2; [apply H; assumption|].
    intros [s1 o1] H1. cbv zeta. eapply agree_bind2; [apply IH, H1|]. intros [s2 o2] H2.
    rewrite (alike_has k _ _ Ht). destruct Hl; now apply agree_ok.
  Qed.
  Lemma named_agree l l' : Forall2 alike l l' -> forall i s, indented n s -> ag (named_args r1 i l s) (named_args r2 i l' s).
  Proof.
    induction 1 as [|t t' l l' Ht Hl IH]; intros i s Hs; [now apply agree_ok|]. cbn [named_args]. eapply agree_bind2; [apply H; assumption|].
    intros [s1 o1] H1. eapply agree_bind2; [apply IH, H1|]. intros [s2 o2] H2. now apply agree_ok.
  Qed.
  Lemma alike_children t t' : alike t t' -> tkind t <> ItemBlockComment -> Forall2 alike (children t) (children t').
  Proof. intros [] N; cbn; auto. now contradiction N. Qed.
  Lemma alike_arguments t t' : alike t t' -> tkind t <> ItemBlockComment -> Forall2 alike (arguments t) (arguments t').
  Proof.
    intros Ht N. apply f2_filter; [|now apply alike_children]. intros a b Hab. now rewrite (alike_kind _ _ Hab), (alike_node _ _ Hab).
  Qed.
  Lemma alike_name t t' : alike t t' -> tkind t <> ItemBlockComment -> cmd_name_tok t = cmd_name_tok t'.
  Proof. intros Ht N. apply alike_leaf_of; [discriminate|]. now apply alike_children. Qed.
  Lemma alike_begin_end t t' : alike t t' -> is_begin_end t = is_begin_end t'.
  Proof. intros Ht. unfold is_begin_end. now rewrite !(alike_has _ _ _ Ht). Qed.
  Lemma alike_body t t' : alike t t' -> tkind t <> ItemBlockComment -> Forall2 alike (body_of t) (body_of t').
  Proof.
    intros Ht N. apply f2_filter; [|now apply alike_children]. intros a b Hab. now rewrite (alike_begin_end _ _ Hab).
  Qed.
  (** begin clauses are equal *)
  Lemma alike_begin t t' : alike t t' -> tkind t <> ItemBlockComment -> env_begin t = env_begin t'.
  Proof.
    intros Ht N. unfold env_begin, nodes_of. pose proof (alike_children _ _ Ht N) as Hc. induction Hc as [|a b l l' Hab _ IH]; [reflexivity|].
    cbn [filter]. rewrite <- (alike_kind _ _ Hab), <- (alike_node _ _ Hab).
    destruct (is_node a && kind_eqb (tkind a) ItemBegin) eqn:E; [|exact IH]. cbn [hd_error]. f_equal.
    apply andb_prop in E as [E1 E2]. unfold kind_eqb in E2. destruct (kind_eq_dec (tkind a) ItemBegin) as [Ek|]; [|discriminate].
    destruct Hab as [k s|s s'|c c'|k c c' Hc Hv]; try discriminate; try reflexivity. cbn in Ek. subst k. f_equal. now apply Hv.
  Qed.
  Lemma alike_named t t' : alike t t' -> is_named_arg t = is_named_arg t'.
  Proof.
    intros Ht. destruct (kind_eq_dec (tkind t) ItemBlockComment) as [E|E].
    - destruct Ht; cbn in E; try discriminate; subst; reflexivity.
    - pose proof (alike_name _ _ Ht E) as Hn. destruct Ht as [k s|s s'|c c'|k c c' Hc Hv]; cbn [is_named_arg]; try reflexivity.
      destruct k; try reflexivity. unfold cmd_name. now rewrite Hn.
  Qed.
  Lemma named_is_cmd t b : is_named_arg t = COk b -> b = true -> tkind t = ItemCmd.
  Proof. intros E ->. destruct t as [k s|k c]; cbn in E; destruct k; try discriminate; reflexivity. Qed.
  Lemma caption_agree l l' : Forall2 alike l l' -> forall c c', option_map tkind c = option_map tkind c' ->
     match c, c' with Some x, Some y => alike x y | None, None => True | _, _ => False end ->
     (exists d d', find_caption l c = COk d /\ find_caption l' c' = COk d' /\ match d, d' with Some x, Some y => alike x y | None, None => True | _, _ => False end)
     \/ (find_caption l c = find_caption l' c' /\ forall d, find_caption l c <> COk d).
  Proof.
    induction 1 as [|a b l l' Hab _ IH]; intros c c' Hk Hc; [left; exists c, c'; auto|]. cbn [find_caption]. rewrite <- (alike_named _ _ Hab).
    destruct (is_named_arg a) as [nm|e|p|] eqn:En; try (right; split; [reflexivity|discriminate]). cbn [cbind].
    destruct nm; [|now apply IH]. pose proof (named_is_cmd _ _ En eq_refl) as Ek. assert (Nk : tkind a <> ItemBlockComment) by (rewrite Ek; discriminate).
    unfold cmd_name. rewrite <- (alike_name _ _ Hab Nk). destruct (cmd_name_tok a) as [nm|]; [|right; split; [reflexivity|discriminate]].
    cbn [unwrap cbind]. destruct (tail1 _ nm) as [m|e|p|]; try (right; split; [reflexivity|discriminate]). cbn [cbind].
    destruct (teqb m _); [|now apply IH]. pose proof (alike_arguments _ _ Hab Nk) as Ha. inversion Ha as [E1 E2|x y lx ly Hxy Hll E1 E2].
    - right. split; [reflexivity|discriminate].
    - cbn [hd_error unwrap cbind]. apply IH; [cbn; f_equal; now apply alike_kind|exact Hxy].
  Qed.
  Lemma pre_agree t t' : alike t t' -> preprocess_exterior t = preprocess_exterior t'.
  Proof.
    intros Ht. unfold preprocess_exterior. rewrite <- (alike_kind _ _ Ht). destruct (tkind t) eqn:Ek; try reflexivity.
    unfold cmd_name. rewrite <- (alike_name _ _ Ht); [reflexivity|]. rewrite Ek. discriminate.
  Qed.
  Lemma cells_agree l l' : Forall2 alike l l' -> forall e s, indented n s -> ag (table_cells r1 e l s) (table_cells r2 e l' s).
  Proof.
    induction 1 as [|t t' l l' Ht _ IH]; intros e s Hs; [now apply agree_ok|]. cbn [table_cells]. rewrite <- (alike_begin_end _ _ Ht).
    destruct (is_begin_end t); [now apply IH|]. rewrite <- (pre_agree _ _ Ht).
    destruct (if e then preprocess_exterior t else _) as [[e2 o0]|er|p|]; try (apply agree_fail; discriminate). cbn [cbind].
    eapply agree_bind2 with (st := fun x : bool * cst * text => snd (fst x)).
    - destruct e2; [now apply agree_ok|]. rewrite <- (alike_kind _ _ Ht).
      assert (N : agree n (fun x : bool * cst * text => snd (fst x)) (let! (s0, o) := r1 t s in COk (false, s0, o)) (let! (s0, o) := r2 t' s in COk (false, s0, o))).
      { eapply agree_bind2; [apply H; assumption|]. intros [? ?] ?. now apply agree_ok. }
      destruct (tkind t); try exact N; now apply agree_ok.
    - intros [[e3 s3] o3] H3. eapply agree_bind2; [now apply IH|]. intros [? ?] ?. now apply agree_ok.
  Qed.
  Lemma alike_zws l l' : Forall2 alike l l' -> forallb is_brace_or_space l = forallb is_brace_or_space l'.
  Proof.
    induction 1 as [|a b l l' Hab _ IH]; [reflexivity|]. cbn. rewrite IH. f_equal. unfold is_brace_or_space. now rewrite (alike_kind _ _ Hab).
  Qed.
  Lemma alike_text_arg u1 u2 s : alike u1 u2 -> indented n s -> ag (text_arg r1 u1 s) (text_arg r2 u2 s).
  Proof.
    intros Hu Hs. unfold text_arg. rewrite (alike_has _ _ _ Hu). destruct (has_kind _ u2); [|now apply agree_ok]. cbv zeta.
    eapply agree_bind2; [apply H; assumption|]. intros [? ?] ?. now apply agree_ok.
  Qed.
  Lemma color_agree t t' s name : alike t t' -> cmd_name_tok t = Some name -> tkind t = ItemCmd -> is_node t = true ->
    In (tl name) (map tx ["color"; "textcolor"; "colorbox"]%string) -> name <> [] ->
    indented n s -> convert_command_color sp r1 t s = convert_command_color sp r2 t' s.
  Proof.
    intros Ht Hn Hk Hnode Hin Hne Hs. assert (Nk : tkind t <> ItemBlockComment) by (rewrite Hk; discriminate).
    unfold convert_command_color. rewrite <- (alike_name _ _ Ht Nk), Hn. cbv zeta.
    assert (A : exists m c c' b b', (color_args name t = COk (m, c, b) /\ color_args name t' = COk (m, c', b') /\
       match c, c' with Some x, Some y => alike x y | None, None => True | _, _ => False end /\ Forall2 alike b b') \/
       (color_args name t = color_args name t' /\ forall x, color_args name t <> COk x)).
    { assert (Same : t = t' -> exists m c c' b b', (color_args name t = COk (m, c, b) /\ color_args name t' = COk (m, c', b') /\
       match c, c' with Some x, Some y => alike x y | None, None => True | _, _ => False end /\ Forall2 alike b b') \/
       (color_args name t = color_args name t' /\ forall x, color_args name t <> COk x)).
      { intros <-. destruct (color_args name t) as [[[m c] b]|e|p|].
        - exists m, c, c, b, b. left. repeat split; [destruct c; auto using alike_refl|apply alike_all].
        - exists None, None, None, [], []. right. split; [reflexivity|discriminate].
        - exists None, None, None, [], []. right. split; [reflexivity|discriminate].
        - exists None, None, None, [], []. right. split; [reflexivity|discriminate]. }
      destruct name as [|c0 name]; [contradiction|]. cbn [tl] in Hin.
      pose proof (alike_arguments _ _ Ht Nk) as Ha.
      destruct Ht as [k x|x x'|c c'|k c c' Hc Hv Hcol]; try (now apply Same); try discriminate. cbn in Hk. subst k.
      assert (Hnm : command_named (Node ItemCmd c) name) by (split; [reflexivity|eauto]).
      cbn in Hin. destruct Hin as [E|E].
      - apply Same. f_equal. apply Hv. left. exists name. split; [exact Hnm|]. subst name. simpl. auto.
      - assert (Hcc : colored ItemCmd c) by (exists name; split; [exact Hnm|]; destruct E as [<- |[<- |[]]]; simpl; auto).
        specialize (Hcol Hcc).
        assert (Ec : teqb (c0 :: name) (tx "\color") = false).
        { apply teqb_neq. change (tx "\color") with (92%N :: tx "color"). intros G. injection G as _ G. subst name.
          destruct E as [E|[E|[]]]; discriminate E. }
        unfold color_args. rewrite Ec. inversion Ha as [E1 E2|x y lx ly Hxy Hl E1 E2].
        + exists None, None, None, [], []. left. repeat split. constructor.
        + rewrite <- E1, <- E2 in Hcol. cbn in Hcol. injection Hcol as Hcol. rewrite Hcol. cbv zeta.
          match goal with |- context [if ?b then _ else _] => destruct b end.
          * inversion Hl as [|x1 y1 lx1 ly1 H1 H2]; subst; eexists _, _, _, _, _; left; repeat split; cbn; auto.
          * eexists _, _, _, _, _; left; repeat split; cbn; auto. }
    destruct A as (m & c & c' & b & b' & [(-> & -> & Hc & Hb)|[<- Hx]]).
    2:{ destruct (color_args name t) as [x|e|p|]; try reflexivity. now contradiction (Hx x). }
    cbn [cbind]. eapply agree_bind with (n := n) (st := fst).
    - destruct c as [x|], c' as [y|]; try contradiction; [|now apply agree_ok]. eapply agree_bind2; [apply H; assumption|].
      intros [? ?] ?. now apply agree_ok.
    - intros [s2 o2] H2. eapply agree_bind with (n := n) (st := fst); [apply each_alike; [exact Hb| |exact H2]|intros [? ?] _; reflexivity].
      intros u1 u2 s3 Hu H3. destruct (is_math s3); [|now apply H]. eapply agree_bind2; [apply H; assumption|]. intros [? ?] ?. now apply agree_ok.
  Qed.

  (** lists indent their contents *)
  Definition list_b (t : tree) : bool :=
    match tkind t with
    | ItemEnv =>
      match env_name_tok t with
      | Some x => match option_map en_feature (get_env sp (trim x)) with Some FItemize | Some FEnumerate => true | _ => false end
      | None => false
      end
    | _ => false
    end.
  Lemma last_snoc' k body c : last_token (Node k (body ++ [c])) = last_token c.
  Proof.
    cbn [last_token]. induction body as [|b body IH]; [reflexivity|]. cbn [app].
    destruct (body ++ [c]) as [|x y] eqn:Eb; [destruct body; discriminate|]. exact IH.
  Qed.
  Lemma formula_agree c c' : alike (Node ItemFormula c) (Node ItemFormula c') ->
    formula_is_valid (Node ItemFormula c) = formula_is_valid (Node ItemFormula c') /\
    formula_is_inline (Node ItemFormula c) = formula_is_inline (Node ItemFormula c').
  Proof.
    intros Ht. assert (D0 : (exists k s r, c = Leaf k s :: r) \/ ~ exists k s r, c = Leaf k s :: r).
    { destruct c as [|[k s|k x] r]; [right; intros (k & s & r & E); discriminate|left; eauto|right; intros (k' & s & r' & E); discriminate]. }
    inversion Ht as [| | |k' x y Hc Hv Hcol E1 E2]. subst.
    destruct D0 as [(k & s & r & ->)|D0]; [|rewrite (Hv (or_introl D0)); auto].
    inversion Hc as [|a b la lb Hab Hl E1 E2]. subst. 
    assert (F : exists s', b = Leaf k s' /\ (k = TokenComment \/ s = s')).
    { inversion Hab; subst; eauto. }
    destruct F as (s' & -> & Hks).
    assert (Fi : formula_is_inline (Node ItemFormula (Leaf k s :: r)) = formula_is_inline (Node ItemFormula (Leaf k s' :: lb))).
    { unfold formula_is_inline. cbn [first_token]. destruct Hks as [-> | ->]; [|reflexivity]. unfold leaf_is. cbn [fst snd]. unfold kind_eqb. cbn. reflexivity. }
    split; [|exact Fi].
    destruct (list_eq_dec N.eq_dec s s') as [Es|Es].
    - subst s'. 
      assert (D : (exists body k' x, Leaf k s :: r = body ++ [Leaf k' x]) \/ ~ exists body k' x, Leaf k s :: r = body ++ [Leaf k' x]).
      { destruct (rev (Leaf k s :: r)) as [|[k' x|k' x] y] eqn:Er.
        - apply (f_equal (@List.length tree)) in Er. rewrite rev_length in Er. discriminate.
        - left. exists (rev y), k', x. rewrite <- (rev_involutive (Leaf k s :: r)), Er. reflexivity.
        - right. intros (bd & k2 & x2 & Eb). rewrite Eb, rev_app_distr in Er. discriminate. }
      destruct D as [(body & k' & x & Eb)|D]; [|specialize (Hv (or_intror D)); now injection Hv as ->].
      rewrite Eb in Hc. apply Forall2_app_inv_l in Hc as (l1 & l2 & Hl1 & Hl2 & Eb').
      inversion Hl2 as [|a b la lb' Hab' Hn E1 E2]. subst. inversion Hn. subst.
      rewrite Eb, Eb'. unfold formula_is_valid. rewrite !last_snoc'. rewrite <- Eb, <- Eb'. cbn [first_token].
      inversion Hab'; subst; cbn [last_token]; [reflexivity|]. unfold kind_eqb at 2 4 6 8. cbn.
      rewrite !andb_false_r. reflexivity.
    - destruct Hks as [-> |]; [|contradiction]. unfold formula_is_valid. cbn [first_token].
      destruct (last_token (Node ItemFormula (Leaf TokenComment s :: r))) as [[k1 x1]|], (last_token (Node ItemFormula (Leaf TokenComment s' :: lb))) as [[k2 x2]|]; reflexivity.
  Qed.

  Lemma command_agree t t' s : alike t t' -> tkind t = ItemCmd -> indented n s ->
    convert_cmd sp r1 t s = convert_cmd sp r2 t' s.
  Proof.
    intros Ht Hk Hs. assert (Nk : tkind t <> ItemBlockComment) by (rewrite Hk; discriminate).
    pose proof (alike_name _ _ Ht Nk) as Hn. pose proof (alike_node _ _ Ht) as Hnode.
    pose proof (alike_arguments _ _ Ht Nk) as Harg. pose proof (alike_children _ _ Ht Nk) as Hch.
    unfold convert_cmd. destruct (is_node t) eqn:Et; [|destruct t; [|discriminate]; destruct t'; [reflexivity|discriminate]].
    assert (C : forall X Y : cout, match t with Leaf _ _ => X | Node _ _ => Y end = Y) by (intros; destruct t; [discriminate|reflexivity]).
    assert (C' : forall X Y : cout, match t' with Leaf _ _ => X | Node _ _ => Y end = Y) by (intros; destruct t'; [discriminate|reflexivity]).
    rewrite C, C'. clear C C'. unfold cmd_name. rewrite <- Hn. destruct (cmd_name_tok t) as [full|] eqn:Ef; [|reflexivity]. cbn [unwrap cbind].
    destruct (tail1 _ full) as [nm|e|p|] eqn:Etl; try reflexivity. cbn [cbind]. apply tail1_ok in Etl as [c0 ->].
    assert (Same : In nm (map tx ["label"; "includegraphics"; "color"]%string) -> t = t').
    { intros Hin. destruct Ht as [k x|x x'|c c'|k c c' Hc Hv Hcol]; try reflexivity; try discriminate. cbn in Hk. subst k. f_equal. apply Hv.
      left. exists nm. split; [|exact Hin]. split; [reflexivity|eauto]. }
    destruct (teqb nm (tx "item")); [reflexivity|].
    destruct (teqb nm (tx "label")) eqn:E1. { apply teqb_eq in E1. subst nm. rewrite Same by (simpl; auto). reflexivity. }
    destruct (teqb nm (tx "includegraphics")) eqn:E2. { apply teqb_eq in E2. subst nm. rewrite Same by (simpl; auto). reflexivity. }
    destruct (teqb nm (tx "color") || teqb nm (tx "textcolor") || teqb nm (tx "colorbox")) eqn:E3.
    - eapply color_agree; eauto; [|discriminate]. cbn [tl]. apply orb_prop in E3 as [E3|E3]; [apply orb_prop in E3 as [E3|E3]|]; apply teqb_eq in E3; subst; simpl; auto.
    - unfold convert_normal_command, cmd_name. rewrite Ef, <- Hn. cbn [unwrap cbind]. apply bind_eq. intros m. cbv zeta.
      assert (Hargs : Forall2 alike (filter (fun x => negb (has_kind ClauseCommandName x)) (children t)) (filter (fun x => negb (has_kind ClauseCommandName x)) (children t'))).
      { apply f2_filter; [|exact Hch]. intros a b Hab. now rewrite (alike_has _ _ _ Hab). }
      assert (Hb : forall c la, filter (fun x => negb (has_kind ClauseCommandName x)) (children t) = Node ItemBlockComment c :: la -> t = t').
      { intros c la E. assert (Hin : In (Node ItemBlockComment c) (children t)).
        { assert (G : In (Node ItemBlockComment c) (filter (fun x => negb (has_kind ClauseCommandName x)) (children t))) by (rewrite E; now left).
          now apply filter_In in G. }
        destruct Ht as [k x|x x'|cc cc'|k cc cc' Hc Hv Hcol]; try reflexivity; try discriminate. cbn in Hk. subst k. f_equal. apply Hv. right. eauto. }
      assert (Hb' : forall c la, filter (fun x => negb (has_kind ClauseCommandName x)) (children t) = Node ItemBlockComment c :: la ->
         filter (fun x => negb (has_kind ClauseCommandName x)) (children t') = Node ItemBlockComment c :: la).
      { intros c la E. now rewrite <- (Hb _ _ E). }
      clear Hb.
      set (args := filter _ (children t)) in *. set (args' := filter _ (children t')) in *. clearbody args args'.
      destruct (get_cmd sp m) as [c|]; [|reflexivity].
      set (tn := typst_name_of _ _ _). set (s2 := if teqb _ _ then _ else s).
      assert (H2 : indented n s2). { unfold s2. match goal with |- indented _ (if ?b then _ else _) => destruct b end; [now apply indented_enter|exact Hs]. } clearbody s2.
      eapply agree_bind with (n := n) (st := fst); [|intros [? ?] _; reflexivity].
      assert (A : ag (if is_math s2 && negb (starts_with (tx "#") tn)
            then let! (s, o) := comma_args r1 ClauseArgument args s2 in COk (s, tx "(" ++ o ++ tx ")")
            else let! (s, o) := each (text_arg r1) args s2 in COk (s, o ++ tx ";"))
           (if is_math s2 && negb (starts_with (tx "#") tn)
            then let! (s, o) := comma_args r2 ClauseArgument args' s2 in COk (s, tx "(" ++ o ++ tx ")")
            else let! (s, o) := each (text_arg r2) args' s2 in COk (s, o ++ tx ";"))).
      { destruct (is_math s2 && _).
        - eapply agree_bind2; [now apply comma_agree|]. intros [? ?] ?. now apply agree_ok.
        - eapply agree_bind2 with (st := fst); [|intros [? ?] ?; now apply agree_ok]. apply each_alike; [exact Hargs| |exact H2]. intros. now apply alike_text_arg. }
      destruct (cs_args c) as [p| |]; try exact A. destruct p; try exact A; [now apply agree_ok|].
      destruct Hargs as [|a b la lb Hab Hl]; [apply agree_fail; discriminate|].
      destruct Hab as [k x|x x'|ch ch'|k ch ch' Hc Hv Hcol]; try (apply agree_fail; discriminate).
      + specialize (Hb' _ _ eq_refl). injection Hb' as <- <-. eapply agree_bind2; [apply comma_agree; [apply alike_all|exact H2]|]. intros [? ?] ?. now apply agree_ok.
      + eapply agree_bind2; [now apply comma_agree|]. intros [? ?] ?. now apply agree_ok.
  Qed.

  Lemma env_agree t t' s : alike t t' -> tkind t = ItemEnv -> (is_list_env (c_env s) = true -> 2 <= c_indent s) -> c_indent s + (if list_b t then 2 else 0) = n ->
    convert_env sp r1 t s = convert_env sp r2 t' s.
  Proof.
    intros Ht Hk Hs0 Hs. assert (Nk : tkind t <> ItemBlockComment) by (rewrite Hk; discriminate).
    pose proof (alike_begin _ _ Ht Nk) as Hb. pose proof (alike_body _ _ Ht Nk) as Hbody. pose proof (alike_children _ _ Ht Nk) as Hch.
    assert (En : env_name_tok t' = env_name_tok t) by (unfold env_name_tok; now rewrite Hb).
    assert (Ea : env_arguments t' = env_arguments t) by (unfold env_arguments; now rewrite Hb).
    unfold convert_env. rewrite En. unfold list_b in Hs. rewrite Hk in Hs. destruct (env_name_tok t) as [nm|]; [|reflexivity]. cbn [unwrap cbind].
    destruct (get_env sp (trim nm)) as [shape|]; [|reflexivity]. cbv zeta. cbn [option_map] in Hs.
    assert (Hl : is_list_env (env_of_feature (en_feature shape)) = match en_feature shape with FItemize | FEnumerate => true | _ => false end)
      by (destruct (en_feature shape); reflexivity).
    assert (Hn' : forall k, k = env_of_feature (en_feature shape) -> indented n (enter_env k s)).
    { intros k ->. unfold indented. cbn. rewrite Hl. destruct (en_feature shape); (split; [exact Hs|]); try discriminate; intros _; lia. }
    destruct (is_list_env (env_of_feature (en_feature shape))) eqn:El.
    - eapply agree_bind with (n := n) (st := fst); [|intros [? ?] _; reflexivity]. apply each_alike; [exact Hbody|exact H|]. now apply Hn'.
    - f_equal.
      
      destruct (is_math_env _).
      + rewrite Ea. eapply agree_bind with (n := n) (st := fst); [apply named_agree; [apply alike_all|]|].
        { change (indented n (enter_env (env_of_feature (en_feature shape)) s)). now apply Hn'. }
        intros [s1 o1] H1. eapply agree_bind with (n := n) (st := fst); [apply each_alike; [exact Hbody|exact H|exact H1]|]. intros [? ?] _. reflexivity.
      + assert (Z : forall k g, k = env_of_feature (en_feature shape) ->
            (let! (s0, o) := each r1 (body_of t) (enter_env k s) in let! s2 := exit_env (c_env s) s0 in COk (s2, g o)) =
            (let! (s0, o) := each r2 (body_of t') (enter_env k s) in let! s2 := exit_env (c_env s) s0 in COk (s2, g o : list N))).
        { intros k g Ek. eapply agree_bind with (n := n) (st := fst); [apply each_alike; [exact Hbody|exact H|now apply Hn']|]. intros [? ?] _. reflexivity. }
        destruct (env_of_feature _) eqn:Ef; try exact (Z _ (fun o => tx "#" ++ alias_or (en_alias shape) (trim nm) ++ tx "[" ++ o ++ tx "];") eq_refl).
        * unfold convert_env_figure. destruct (caption_agree _ _ Hch None None eq_refl I) as [(d & d' & E1 & E2 & Hd)|[E1 E2]].
          2:{ rewrite <- E1. destruct (find_caption (children t) None) as [d|e|p|]; try reflexivity. now contradiction (E2 d). }
          rewrite E1, E2. cbn [cbind]. cbv zeta. eapply agree_bind with (n := n) (st := fst).
          { assert (H1 : indented n (enter_env EFigure s)) by now apply Hn'.
            destruct d as [x|], d' as [y|]; try contradiction; [|now apply agree_ok]. eapply agree_bind2; [apply H; assumption|].
            intros [? ?] ?. now apply agree_ok. }
          intros [s2 o2] H2. eapply agree_bind with (n := n) (st := fst); [|intros [? ?] _; reflexivity]. apply each_alike; [exact Hch| |exact H2].
          intros u1 u2 s3 Hu H3. unfold figure_child. rewrite <- (alike_begin_end _ _ Hu), <- (alike_named _ _ Hu).
          destruct (is_begin_end u1); [now apply agree_ok|]. destruct (is_named_arg u1) as [[|]|e|p|]; cbn [cbind]; try (apply agree_fail; discriminate).
          { now apply agree_ok. } { now apply H. }
        * unfold convert_env_table. rewrite Ea. do 2 (apply bind_eq; intros ?). apply bind_eq. intros [al vl]. cbv zeta.
          eapply agree_bind with (n := n) (st := fst); [apply cells_agree; [exact Hch|now apply Hn']|]. intros [? ?] _. reflexivity.
  Qed.
  Lemma step_agree t t' s : alike t t' -> (is_list_env (c_env s) = true -> 2 <= c_indent s) -> c_indent s + (if list_b t then 2 else 0) = n ->
    convert_step sp r1 t s = convert_step sp r2 t' s.
  Proof.
    intros Ht Hs0 Hs. unfold convert_step. rewrite <- (alike_kind _ _ Ht).
    set (s1 := match tkind t with TokenWhiteSpace => s | _ => _ end).
    assert (H1 : c_indent s1 + (if list_b t then 2 else 0) = n) by (unfold s1; destruct (tkind t); exact Hs).
    assert (H0 : is_list_env (c_env s1) = true -> 2 <= c_indent s1) by (unfold s1; destruct (tkind t); exact Hs0).
    clearbody s1. cbv zeta. clear Hs Hs0 s.
    destruct (kind_eq_dec (tkind t) ItemEnv) as [Ek|Ek]. { rewrite Ek. now apply env_agree. }
    assert (Hs : indented n s1). { assert (E : c_indent s1 = n) by (unfold list_b in H1; destruct (tkind t); try lia; now contradiction Ek). split; [exact E|]. now rewrite <- E. }
    destruct (kind_eq_dec (tkind t) ItemCmd) as [Ec|Ec]. { rewrite Ec. now apply command_agree. }
    destruct (kind_eq_dec (tkind t) ItemFormula) as [Ef|Ef].
    { rewrite Ef. destruct Ht as [k x|x x'|c c'|k c c' Hc Hv Hcol]; try reflexivity; cbn [tkind] in Ef; [discriminate|]. subst k.
      destruct (formula_agree c c') as [E1 E2]; [now constructor|]. unfold convert_formula. cbn [node_children cbind]. rewrite E1, E2.
      destruct (negb _); [reflexivity|]. cbv zeta. eapply agree_bind with (n := n) (st := fst); [apply each_alike; [exact Hc|exact H|exact Hs]|].
      intros [? ?] _. reflexivity. }
    destruct Ht as [k x|x x'|c c'|k c c' Hc Hv Hcol]; try reflexivity.
    cbn [tkind] in *. cbn [node_children cbind].
    assert (K : each r1 c s1 = each r2 c' s1) by (apply each_alike; [exact Hc|exact H|exact Hs]).
    destruct k; try reflexivity; try exact K; try congruence.
    - now rewrite (Hv I).
    - unfold convert_clause_lr. cbn [node_children cbind]. destruct Hc as [|a b la lb Hab Hl]; [reflexivity|].
      assert (G : forall nm, each (fun a s => let! (s, o) := match a with
          | Leaf TokenWord w => if teqb w (tx ".") then COk (s, []) else r1 a s | _ => r1 a s end in COk (s, o ++ [32%N])) la s1 =
         each (fun a s => let! (s, o) := match a with
          | Leaf TokenWord w => if teqb w (tx ".") then COk (s, []) else r2 a s | _ => r2 a s end in COk (s, o ++ [32%N])) lb s1 /\ nm = (nm : text)).
      { intros nm. split; [|reflexivity]. apply each_alike; [exact Hl| |exact Hs]. intros u1 u2 s2 Hu H2. eapply agree_bind2 with (st := fst); [|intros [? ?] ?; now apply agree_ok].
        destruct Hu as [k y|y y'|d d'|k d d' Hd Hdv Hdc]; try (apply H; [constructor; auto|assumption]).
        destruct k; try (apply H; [constructor|assumption]). destruct (teqb y (tx ".")); [now apply agree_ok|]. apply H; [constructor|assumption]. }
      destruct Hab as [k y|y y'|d d'|k d d' Hd Hdv Hdc]; try reflexivity.
      + apply bind_eq. intros nm. cbv zeta. rewrite (proj1 (G nm)). reflexivity.
      + assert (E : Leaf TokenComment y :: la = Leaf TokenComment y' :: lb) by (apply Hv; eexists _, _; reflexivity). injection E as -> ->.
        apply bind_eq. intros nm. cbv zeta. rewrite (proj1 (G nm)). reflexivity.
    - unfold convert_curly_group. cbn [node_children cbind]. cbv zeta. rewrite <- (alike_zws _ _ Hc).
      eapply agree_bind with (n := n) (st := fst); [|intros [? ?] _; reflexivity]. apply each_alike; [exact Hc|exact H|].
      destruct (_ && _); [|exact Hs]. now apply indented_enter.
    - now rewrite (Hv I).
    - unfold convert_attach_component. cbn [node_children cbind]. destruct (is_math s1); [now apply attach_agree|exact K].
  Qed.
End Agree.
