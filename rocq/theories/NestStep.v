(** The pieces of every layout keep the brackets and dollars nested (C69). *)
From Verif Require Export NestMain.
From Verif Require Import ConvFacts ConvTerm RenderAll P_Conv4 P_Render NestLeaf RenderSpec NestSpec.
Local Open Scope N_scope.

(** what is needed of the names in a specification *)
Definition names_even (sp : spec) : Prop :=
  (forall name sh, get_cmd sp name = Some sh -> even 0 (or_default (cs_alias sh) name ++ [32]) = true /\
     (cs_args sh <> SRight PNone -> even 0 (or_default (cs_alias sh) name) = true)) /\
  (forall name sh, get_env sp name = Some sh -> even 0 (or_default (en_alias sh) name) = true) /\
  (forall name, In name colored -> even 0 (color_alias sp name) = true).

Section Step.
  Variable gm : text -> text -> bool.
  Variables sp' sp : spec.
  Hypothesis Hnames : names_even sp.
  Variable b0 : bool.
  Notation moves := (NestFacts.moves b0).
  Notation formula := (NestFacts.formula b0).

  Definition good (t : tree) : Prop := (ok_tree gm sp' t /\ ok_leaf t) /\
    forall x, seen x t -> tidy sp x /\ forall k s, x = Leaf k s -> copied k -> quiet s.
  Lemma good_under x t : good t -> under x t -> good x.
  Proof.
    intros [[H1 H2] H3] Hu. split; [|intros y Hy; apply H3; eapply under_seen; eauto].
    eapply seen_ok; [eapply under_seen; [exact Hu|constructor]|exact H1|exact H2].
  Qed.

  (** ** Pieces *)
  Definition calm (p : place) (st : text) : Prop := mode_of p = MText -> formula st = false.
  Definition fits (p : place) (t : tree) (st st' : text) : Prop := calm p st /\
    match role_of t with Plain => st' = st | Opens => st' = 41 :: st | Closes => st = 41 :: st' | Symbol => False end.
  Inductive goes : text -> list piece -> text -> Prop :=
  | go_end st : goes st [] st
  | go_txt st s st1 l st' : moves st s st1 -> goes st1 l st' -> goes st (Txt s :: l) st'
  | go_blank st s l st' : quiet s -> goes st l st' -> goes st (Blank s :: l) st'
  | go_line st s l st' : quiet s -> goes st l st' -> goes st (Line s :: l) st'
  | go_put p t st st1 l st' : fits p t st st1 -> goes st1 l st' -> goes st (Put p t :: l) st'
  | go_symbol p s st l st' : goes st l st' -> goes st (Put p (Leaf TokenCommandSym s) :: Txt [32] :: l) st'
  | go_keep st x l st' : quiet x -> goes st l st' -> goes st (Keep x :: l) st'
  | go_labels st l st' : goes st l st' -> goes st (Labels :: l) st'
  | go_fail st e l st' : goes st (Fail e :: l) st'
  | go_crash st l st' : goes st (Crash :: l) st'.
  Lemma goes_app a : forall st st1 b st', goes st a st1 -> goes st1 b st' -> goes st (a ++ b) st'.
  Proof.
    intros st st1 b st' H. revert b st'. induction H; intros b1 st2 Hb; cbn [app]; try (econstructor; eauto; fail). exact Hb.
  Qed.
  Lemma goes_puts p st l : calm p st -> Forall (fun t => role_of t = Plain) l -> goes st (map (Put p) l) st.
  Proof.
    intros Hc H. induction H as [|t l Ht _ IH]; [constructor|]. cbn [map]. apply (go_put p t st st); [|exact IH]. split; [exact Hc|]. now rewrite Ht.
  Qed.
  Lemma goes_commas k p st l : calm p st -> Forall (fun t => role_of t = Plain) l -> goes st (commas k p l) st.
  Proof.
    intros Hc H. induction H as [|t l Ht Hl IH]; [constructor|].
    assert (F : fits p t st st) by (split; [exact Hc|now rewrite Ht]).
    destruct l as [|t2 l]; [apply (go_put p t st st); [exact F|constructor]|].
    change (commas k p (t :: t2 :: l)) with (Put p t :: (if kind_eqb (tkind t) k then [Txt (tx ",")] else []) ++ commas k p (t2 :: l)).
    apply (go_put p t st st); [exact F|]. destruct (kind_eqb _ _); [|exact IH]. apply (go_txt st (tx ",") st); [reflexivity|exact IH].
  Qed.
  Lemma goes_brackets p st l : Forall (fun t => role_of t = Plain) l -> goes st (flat_map (in_brackets p) l) st.
  Proof.
    intros H. induction H as [|t l Ht Hl IH]; [constructor|]. cbn [flat_map]. apply (goes_app _ _ st); [|exact IH].
    unfold in_brackets. destruct (kind_eqb _ _); [|constructor]. apply (go_txt st (tx "[") (93 :: st)); [reflexivity|].
    apply (go_put _ t (93 :: st) (93 :: st)); [split; [intros _; reflexivity|now rewrite Ht]|]. apply (go_txt _ (tx "]") st); [reflexivity|constructor].
  Qed.
  Lemma goes_arguments p st l : calm p st -> Forall (fun t => role_of t = Plain) l ->
    forall n, goes st (decimal_argument n l (fun a => [Put p a])) st.
  Proof.
    intros Hc H. induction H as [|t l Ht Hl IH]; intros n; [constructor|]. cbn [decimal_argument app].
    apply (go_txt st _ st); [apply moves_quiet; apply (quiet_app (tx "arg")); [|apply quiet_app; [apply quiet_dec|]]|].
    1,2: repeat (constructor; [rewrite loud_iff; intuition discriminate|]); constructor.
    apply (go_put p t st st); [split; [exact Hc|now rewrite Ht]|]. apply (go_txt st (tx ",") st); [reflexivity|apply IH].
  Qed.
  Lemma goes_labels p st : goes st (labels p) st.
  Proof. unfold labels. destruct (mode_of p); [apply go_labels|]; constructor. Qed.
  Lemma calm_round p st : calm p st -> calm p (41 :: st). Proof. intros H. exact H. Qed.
  Lemma calm_square p st : calm p (93 :: st). Proof. intros _. reflexivity. Qed.
  Lemma calm_math p st : mode_of p = MMath -> calm p st. Proof. intros H X. rewrite H in X. discriminate. Qed.
  Lemma calm_within e p st : calm p st -> calm (within e p) st. Proof. exact (fun H => H). Qed.
  Lemma calm_group p st : calm p st -> calm (group_place p) st.
  Proof. unfold group_place, calm. destruct (mode_of p) eqn:E, (env_of p); try rewrite E; cbn; rewrite ?E; auto; discriminate. Qed.
  Lemma calm_command p tn st : calm p st -> calm (command_place p tn) st.
  Proof. unfold command_place. destruct (teqb tn _); auto. Qed.
  Lemma moves_even s st : even 0 s = true -> moves st s st. Proof. apply even_level. Qed.

  (** cells *)
  Definition level (b : bool) (st : text) : text := if b then 93 :: st else st.
  Definition after_cell (b : bool) (t : tree) : bool :=
    match tkind t, b with
    | (TokenAmpersand | ItemNewLine), _ => false
    | (TokenWhiteSpace | TokenLineBreak), b => b
    | _, true => true
    | _, false => match rule_of t with Some _ => false | None => true end
    end.
  Lemma rule_text t o : rule_of t = Some o -> forall st, moves st o st.
  Proof.
    unfold rule_of. destruct (_ || _); [intros [= <-]; reflexivity|]. destruct (_ || _); [intros [= <-]; reflexivity|discriminate].
  Qed.
  Lemma goes_cells p st l : calm p st -> Forall (fun t => role_of t = Plain) l ->
    forall b, goes (level b st) (cells p b l) (level (fold_left after_cell l b) st).
  Proof.
    intros Hc H. induction H as [|t l Ht Hl IH]; intros b; [constructor|]. cbn [fold_left].
    assert (D : goes (level b st) (match b, rule_of t with
        | true, _ => Put p t :: cells p true l
        | false, Some o => Txt o :: cells p false l
        | false, None => Txt (tx "[") :: Put p t :: cells p true l end)
        (level (fold_left after_cell l (match b, rule_of t with true, _ => true | false, Some _ => false | false, None => true end)) st)).
    { destruct b; cbn [level].
      - apply (go_put p t (93 :: st) (93 :: st)); [split; [apply calm_square|now rewrite Ht]|]. apply (IH true).
      - destruct (rule_of t) as [o|] eqn:Er.
        + apply (go_txt st o st); [eapply rule_text; eauto|apply (IH false)].
        + apply (go_txt st _ (93 :: st)); [reflexivity|]. apply (go_put p t (93 :: st) (93 :: st)); [split; [apply calm_square|now rewrite Ht]|]. apply (IH true). }
    unfold after_cell at 2. cbn [cells].
    destruct (tkind t); destruct b; try exact D; cbn [level] in *;
      try (apply (go_put p t (93 :: st) (93 :: st)); [split; [apply calm_square|now rewrite Ht]|]; apply (IH true));
      try (apply (IH false));
      (eapply go_txt; [|apply (IH false)]; reflexivity).
  Qed.
  Lemma no_cell_stays l : Forall no_cell l -> fold_left after_cell l false = false.
  Proof.
    induction 1 as [|t l Ht _ IH]; [reflexivity|]. cbn [fold_left].
    assert (E : after_cell false t = false); [|now rewrite E].
    unfold after_cell. destruct Ht as [[E|[E|[]]]|Ht]; [now rewrite <- E..|].
    destruct (rule_of t); [|congruence]. now destruct (tkind t).
  Qed.
  Lemma cells_end l : cells_closed l -> fold_left after_cell l false = false.
  Proof.
    intros [H|(a & s & b & -> & Hs & H)]; [now apply no_cell_stays|]. rewrite fold_left_app. cbn [fold_left].
    assert (E : forall x, after_cell x s = false); [|rewrite E; now apply no_cell_stays].
    intros x. unfold after_cell. destruct Hs as [-> | ->]; reflexivity.
  Qed.

  (** ** What the pieces come to *)
  Definition carry_ok (c : carry) : Prop := match waiting c with Some x => quiet x | None => True end.
  Lemma before_written s o c x : before s o = Written c x -> exists y, o = Written c y /\ x = s ++ y.
  Proof. destruct o; cbn; try discriminate. intros [= -> <-]. eauto. Qed.
  Lemma symbol_shows p c s c' o : renders sp p c (Leaf TokenCommandSym s) (Written c' o) ->
    carry_ok c -> carry_ok c' /\ forall st, moves st (o ++ [32]) st.
  Proof.
    intros H Hc. inversion H as [p0 c0 t0 ps o0 Hl Ho]; subst. inversion Hl; subst; try discriminate;
      repeat match goal with
      | N : command_named _ _ |- _ => destruct N as [N _]; discriminate N
      | N : environment_named _ _ |- _ => destruct N as [N _]; discriminate N
      end.
    - inversion Ho as [|? ? ? o1 Ho1 E1 E2 E3| | | | | | | | |]; subst. apply before_written in E3 as (y & -> & ->).
      inversion Ho1; subst. split; [exact Hc|]. intros st. rewrite app_nil_r. apply moves_even. now apply (proj1 Hnames).
    - inversion Ho.
  Qed.

  Definition keeps_nested (t : tree) : Prop := forall p c c' o st st', good t -> fits p t st st' -> carry_ok c -> sane p ->
    renders sp p c t (Written c' o) -> carry_ok c' /\ moves st o st'.
  Lemma goes_comes ps : forall c c' o st st', goes st ps st' -> comes_to sp c ps (Written c' o) -> carry_ok c ->
    (forall q x, In (Put q x) ps -> sane q /\ good x /\ keeps_nested x) -> carry_ok c' /\ moves st o st'.
  Proof.
    intros c c' o st st' H. revert c c' o.
    induction H as [st|st s st1 l st' Hs Hl IH|st s l st' Hs Hl IH|st s l st' Hs Hl IH|p t st st1 l st' Hf Hl IH|p s st l st' Hl IH|st x l st' Hx Hl IH|st l st' Hl IH|st e l st'|st l st'];
      intros c c' o Ho Hc HP;
      inversion Ho as [c0|c0 s0 l0 o0 Ho0|c0 s0 l0 o0 Ho0|c0 s0 l0 o0 Ho0|c0 p0 t0 c1 x0 l0 o0 Hr Ho0|c0 p0 t0 e0 l0 Hr|c0 p0 t0 l0 Hr|c0 x0 l0 o0 Ho0|c0 l0 o0 Ho0|c0 e0 l0|c0 l0]; subst;
      try match goal with E : before _ _ = Written _ _ |- _ => apply before_written in E as (y & -> & ->) end.
    - split; [exact Hc|reflexivity].
    - eapply IH in Ho0 as [H1 H2]; [|exact Hc|intros q x Hx; apply HP; now right]. split; [exact H1|]. eapply moves_app; eauto.
    - eapply IH in Ho0 as [H1 H2]; [|exact Hc|intros q x Hx; apply HP; now right]. split; [exact H1|].
      eapply moves_app; [|exact H2]. destruct (fresh c); [reflexivity|now apply moves_quiet].
    - eapply IH in Ho0 as [H1 H2]; [|exact Hc|intros q x Hx; apply HP; now right]. split; [exact H1|].
      eapply moves_app; [|exact H2]. now apply moves_quiet.
    - destruct (HP p t (or_introl eq_refl)) as (S1 & S2 & S3). destruct (S3 p c c1 x0 st st1 S2 Hf Hc S1 Hr) as [K1 K2].
      eapply IH in Ho0 as [H1 H2]; [|exact K1|intros q x Hx; apply HP; now right]. split; [exact H1|]. eapply moves_app; eauto.
    - destruct (symbol_shows _ _ _ _ _ Hr Hc) as [K1 K2].
      inversion Ho0 as [|c2 s2 l2 o2 Ho2 E1 E2 E3| | | | | | | | |]; subst.
      apply before_written in E3 as (z & -> & ->).
      eapply IH in Ho2 as [H1 H2]; [|exact K1|intros q x Hx; apply HP; right; now right]. split; [exact H1|].
      rewrite app_assoc. eapply moves_app; [apply K2|exact H2].
    - eapply IH in Ho0 as [H1 H2]; [|exact Hx|intros q y Hy; apply HP; now right]. split; [exact H1|exact H2].
    - eapply IH in Ho0 as [H1 H2]; [|exact I|intros q y0 Hy; apply HP; now right]. split; [exact H1|].
      eapply moves_app; [|exact H2]. unfold carry_ok in Hc. destruct (waiting c) as [w|]; [|reflexivity].
      apply moves_quiet. constructor; [rewrite loud_iff; intuition discriminate|]. apply quiet_app; [exact Hc|].
      constructor; [rewrite loud_iff; intuition discriminate|constructor].
  Qed.
  (** ** Every layout *)
  Lemma quiet_seen t k s : good t -> seen (Leaf k s) t -> copied k -> quiet s.
  Proof. intros [_ H] Hs. exact (proj2 (H _ Hs) k s eq_refl). Qed.
  Lemma fits_plain p t st st' : fits p t st st' -> role_of t = Plain -> st' = st.
  Proof. intros [_ H] E. now rewrite E in H. Qed.
  Lemma roles_under t l : good t -> tkind t <> ItemLR -> tkind t <> ClauseLR -> (forall x, In x l -> under x t) ->
    Forall (fun x => role_of x = Plain) l.
  Proof.
    intros [[H _] _] N1 N2 Hl. apply Forall_forall. intros x Hx. apply ordinary_role. eapply under_ordinary; eauto.
  Qed.
  Lemma roles_children t : good t -> tkind t <> ItemLR -> tkind t <> ClauseLR -> ~ opaque_kind (tkind t) ->
    Forall (fun x => role_of x = Plain) (children t).
  Proof. intros Hg N1 N2 N3. apply (roles_under t); auto. intros x Hx. left. auto. Qed.
  Lemma typst_even p name sh : get_cmd sp name = Some sh -> cs_args sh <> SRight PNone -> even 0 (typst_name p name (cs_alias sh)) = true.
  Proof.
    intros Hg Hn. apply (proj1 Hnames) in Hg as [_ Hg]. unfold typst_name.
    destruct (mode_of p); [|auto]. destruct (teqb name _); [reflexivity|]. destruct (teqb name _); [reflexivity|auto].
  Qed.
  Lemma typst_even_blank p name sh st : get_cmd sp name = Some sh -> moves st (typst_name p name (cs_alias sh) ++ tx " ") st.
  Proof.
    intros Hg. apply (proj1 Hnames) in Hg as [Hg _]. apply moves_even. unfold typst_name.
    destruct (mode_of p); [|exact Hg]. destruct (teqb name _); [reflexivity|]. destruct (teqb name _); [reflexivity|exact Hg].
  Qed.
  (** options of pictures *)
  Definition soft (s : text) : Prop := Forall (fun c => ~ In c (tx "()[]$")) s.
  Lemma soft_char c : ~ In c (tx "()[]$") -> c <> 92 -> ~ loud c.
  Proof. intros H N X. rewrite loud_iff in X. apply H. cbn. intuition (subst; auto 10). Qed.
  Lemma moves_soft s st : soft s -> moves st (s ++ tx ", ") st.
  Proof.
    induction s as [s IH] using (induction_ltof1 _ (@List.length char)). unfold ltof in IH. intros H.
    destruct s as [|c s]; [reflexivity|]. apply Forall_cons_iff in H as [Hc H].
    destruct (N.eqb_spec c 92) as [-> |N].
    - destruct s as [|d s]; [reflexivity|]. apply Forall_cons_iff in H as [Hd H]. exact (IH s ltac:(cbn; lia) H).
    - unfold NestFacts.moves. cbn [app]. rewrite nest_quiet by now apply soft_char. apply IH; [cbn; lia|exact H].
  Qed.
  Lemma soft_incl a b : incl a b -> soft b -> soft a.
  Proof. unfold soft. rewrite !Forall_forall. auto. Qed.
  Lemma measure_soft v m : measure v m -> soft v -> soft m.
  Proof.
    intros [w _ (n & -> & _)|w _ _ (n & -> & _)|_ _] H; [| |exact H]; apply Forall_app in H as [H _]; apply Forall_app; (split; [exact H|]);
      repeat (constructor; [cbn; intuition discriminate|]); constructor.
  Qed.
  Lemma option_moves s o st : graphics_option s o -> soft s -> moves st o st.
  Proof.
    intros H Hs. assert (T : soft (trim s)) by (eapply soft_incl; [apply trim_incl|exact Hs]).
    destruct H as [k v m (_ & _ & E) Hk Hm|k r (_ & _ & E) _ Hk|k r _ _]; [| |reflexivity].
    - assert (V : soft (trim v)).
      { eapply soft_incl; [|exact T]. intros x Hx. apply trim_incl in Hx. rewrite E. eapply joined_in; [|exact Hx]. right. now left. }
      apply (moves_app b0 (trim k) st st); [destruct Hk as [-> | ->]; reflexivity|]. apply (moves_app b0 (tx ": ") st st); [reflexivity|].
      apply moves_soft. eapply measure_soft; eauto.
    - apply (moves_app b0 (trim k) st st); [destruct Hk as [-> | ->]; reflexivity|]. reflexivity.
  Qed.
  Lemma graphics_moves t o st : command_named t (tx "includegraphics") -> picture_quiet t -> graphics t o -> moves st o st.
  Proof.
    intros Hn Hq (b & a & m & opts & Hb & Ha & Hm & Ho & ->). destruct (Hq Hn) as [Q1 Q2].
    apply (moves_app b0 (tx "#image(") st (41 :: st)); [reflexivity|].
    apply (moves_app b0 opts _ (41 :: st)).
    { destruct Ho as [|a' m' parts outs Hc (_ & _ & E) Hf]; [reflexivity|].
      assert (T : soft (trim m')) by (eapply soft_incl; [apply trim_incl|eapply Q1; eassumption]).
      assert (T2 : Forall soft parts).
      { apply Forall_forall. intros x Hx. eapply soft_incl; [|exact T]. intros y Hy. rewrite E. eapply joined_in; eauto. }
      clear E T Hc. induction Hf as [|x y l l' H _ IH]; [reflexivity|]. apply Forall_cons_iff in T2 as [T1 T2]. cbn [List.concat].
      apply (moves_app b0 y _ (41 :: st)); [eapply option_moves; eauto|auto]. }
    apply (moves_app b0 [34] _ (41 :: st)); [reflexivity|]. apply (moves_app b0 (trim m) _ (41 :: st)).
    { apply moves_quiet. eapply quiet_incl; [apply trim_incl|]. eapply Q2; eassumption. }
    reflexivity.
  Qed.
  (** colours *)
  Lemma goes_color p al model color body st : calm p st -> even 0 al = true ->
    match model with Some m => quiet m | None => True end ->
    Forall (fun x => role_of x = Plain) body -> match color with Some x => role_of x = Plain | None => True end ->
    goes st (color_pieces p al model color body) st.
  Proof.
    intros Hc Ha Hm Hb Hx. unfold color_pieces.
    apply (goes_app _ _ (93 :: 41 :: st)).
    { apply (go_txt _ _ (93 :: 41 :: st)); [|constructor]. apply (moves_app b0 al _ st); [now apply moves_even|].
      apply (moves_app b0 (tx "(") _ (41 :: st)); [reflexivity|].
      apply (moves_app b0 _ _ (41 :: st)); [|reflexivity]. destruct model as [m|]; [|reflexivity].
      apply (moves_app b0 (tx "[") _ (93 :: 41 :: st)); [reflexivity|]. apply (moves_app b0 m _ (93 :: 41 :: st)); [now apply moves_quiet|reflexivity]. }
    apply (goes_app _ _ (93 :: 41 :: st)).
    { destruct color as [x|]; [|apply (go_txt _ _ (93 :: 41 :: st)); [reflexivity|constructor]].
      apply (go_put _ x _ (93 :: 41 :: st)); [|constructor]. split; [apply calm_square|now rewrite Hx]. }
    apply (goes_app _ _ (93 :: st)). { apply (go_txt _ _ (93 :: st)); [reflexivity|constructor]. }
    destruct (mode_of p) eqn:Em.
    - apply (goes_app _ _ (93 :: st)); [apply goes_puts; [apply calm_square|exact Hb]|]. apply (go_txt _ _ st); [reflexivity|constructor].
    - apply (goes_app _ _ (93 :: st)); [|apply (go_txt _ _ st); [reflexivity|constructor]].
      induction Hb as [|x l Hx' _ IH]; [constructor|]. cbn [flat_map]. apply (goes_app _ _ (93 :: st)); [|exact IH].
      apply (go_txt _ _ (36 :: 93 :: st)); [apply moves_dollar; reflexivity|].
      apply (go_put _ x _ (36 :: 93 :: st)); [split; [now apply calm_math|now rewrite Hx']|]. apply (go_txt _ _ (93 :: st)); [reflexivity|constructor].
  Qed.
  (** tables *)
  Lemma table_moves al cols st : even 0 al = true -> moves st (table_front al cols) (41 :: st).
  Proof.
    intros Ha. unfold table_front.
    apply (moves_app b0 (tx "#") _ st); [reflexivity|]. apply (moves_app b0 al _ st); [now apply moves_even|].
    apply (moves_app b0 (tx "(stroke: none,") _ (41 :: st)); [reflexivity|]. apply (moves_app b0 [10] _ (41 :: st)); [reflexivity|].
    apply (moves_app b0 (tx "columns: ") _ (41 :: st)); [reflexivity|]. apply (moves_app b0 (dec _) _ (41 :: st)); [apply moves_quiet, quiet_dec|].
    apply (moves_app b0 (tx ",") _ (41 :: st)); [reflexivity|]. apply (moves_app b0 [10] _ (41 :: st)); [reflexivity|].
    apply (moves_app b0 (tx "align: (") _ (41 :: 41 :: st)); [reflexivity|].
    apply (moves_app b0 (flat_map alignment _) _ (41 :: 41 :: st)).
    { induction (filter letter cols) as [|c l IH]; [reflexivity|]. cbn [flat_map]. apply (moves_app b0 (alignment c) _ (41 :: 41 :: st)); [|exact IH].
      unfold alignment. destruct (c =? 108); [reflexivity|]. destruct (c =? 99); reflexivity. }
    apply (moves_app b0 (tx "),") _ (41 :: st)); [reflexivity|]. apply (moves_app b0 [10] _ (41 :: st)); [reflexivity|].
    apply (moves_app b0 (flat_map _ _) _ (41 :: st)); [|reflexivity].
    induction (bars 0 cols) as [|v l IH]; [reflexivity|]. cbn [flat_map]. rewrite <- !app_assoc.
    apply (moves_app b0 (tx "table.vline(stroke: .5pt, x: ") _ (41 :: 41 :: st)); [reflexivity|].
    apply (moves_app b0 (dec _) _ (41 :: 41 :: st)); [apply moves_quiet, quiet_dec|].
    apply (moves_app b0 (tx "), ") _ (41 :: st)); [reflexivity|exact IH].
  Qed.

End Step.
