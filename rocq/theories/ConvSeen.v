(** What a successful conversion has converted, it has converted successfully
    (C32, C38). *)
From Verif Require Export ConvTerm.
Local Open Scope nat_scope.

Ltac inl := cbn; repeat first [left; reflexivity | right].
Section Seen.
  Variable sp : spec.
  Variable rec : tree -> cst -> cout.
  (** [u] has been converted *)
  Definition done (u : tree) : Prop := exists s r, rec u s = COk r.

  Lemma each_done (f : tree -> cst -> cout) l : forall s r, each f l s = COk r -> forall u, In u l -> exists s r, f u s = COk r.
  Proof.
    induction l as [|t l IH]; intros s r E u Hu; [contradiction|]. cbn [each] in E.
    apply cbind_ok in E as ([s1 o1] & E1 & E). destruct Hu as [-> |Hu]; [eauto|].
    apply cbind_ok in E as ([s2 o2] & E2 & _). eapply IH; eauto.
  Qed.
  Lemma comma_done k l : forall s r, comma_args rec k l s = COk r -> forall u, In u l -> done u.
  Proof.
    induction l as [|t l IH]; intros s r E u Hu; [contradiction|]. cbn [comma_args] in E.
    apply cbind_ok in E as ([s1 o1] & E1 & E). destruct Hu as [-> |Hu]; [eexists _, _; eauto|].
    cbv zeta in E. apply cbind_ok in E as ([s2 o2] & E2 & _). eapply IH; eauto.
  Qed.
  Lemma named_done l : forall i s r, named_args rec i l s = COk r -> forall u, In u l -> done u.
  Proof.
    induction l as [|t l IH]; intros i s r E u Hu; [contradiction|]. cbn [named_args] in E.
    apply cbind_ok in E as ([s1 o1] & E1 & E). destruct Hu as [-> |Hu]; [eexists _, _; eauto|].
    apply cbind_ok in E as ([s2 o2] & E2 & _). eapply IH; eauto.
  Qed.
  Lemma attach_done l : forall a b s r, attach_loop rec a b l s = COk r -> forall u, In u l -> ~ script_mark u -> done u.
  Proof.
    induction l as [|t l IH]; intros a b s r E u Hu Hm; [contradiction|]. cbn [attach_loop] in E.
    assert (N : forall b, (let! (s, o1) := rec t s in let! (s, o2) := attach_loop rec a b l s in COk (s, o1 ++ o2)) = COk r -> done u).
    { intros b' E'. apply cbind_ok in E' as ([s1 o1] & E1 & E'). destruct Hu as [-> |Hu]; [eexists _, _; eauto|].
      apply cbind_ok in E' as ([s2 o2] & E2 & _). eapply IH; eauto. }
    assert (M : forall m x, (let! (s, o) := attach_loop rec false b l s in COk (s, m ++ x ++ tx "(" ++ o)) = COk r -> In u l -> done u).
    { intros m x E' Hu'. apply cbind_ok in E' as ([s2 o2] & E2 & _). eapply IH; eauto. }
    destruct a; [|now apply N in E]. destruct t as [k m|k c]; [|now apply N in E].
    destruct k; try (now apply N in E); (destruct Hu as [<- |Hu]; [now destruct Hm|now apply M in E]).
  Qed.
  Lemma cells_done l : forall e s r, table_cells rec e l s = COk r -> forall u, In u l ->
    ~ In (tkind u) [ItemBegin; ItemEnd; TokenAmpersand; ItemNewLine; TokenWhiteSpace; TokenLineBreak] ->
    (forall name, command_named u name -> ~ In name rule_names) -> done u.
  Proof.
    induction l as [|t l IH]; intros e s r E u Hu Hk Hn; [contradiction|]. cbn [table_cells] in E.
    destruct Hu as [-> |Hu].
    - assert (Eb : is_begin_end u = false).
      { unfold is_begin_end, has_kind, kind_eqb.
        destruct (kind_eq_dec (tkind u) ItemBegin) as [e0|]; [exfalso; apply Hk; rewrite e0; inl|].
        destruct (kind_eq_dec (tkind u) ItemEnd) as [e0|]; [exfalso; apply Hk; rewrite e0; inl|reflexivity]. }
      rewrite Eb in E. apply cbind_ok in E as ([e1 o0] & E0 & E). apply cbind_ok in E as ([[e2 s2] o2] & E1 & _).
      assert (e1 = false) as ->.
      { destruct e; [|now injection E0 as <- _]. unfold preprocess_exterior in E0.
        destruct (tkind u) eqn:Ek; try (now injection E0 as <- _); try (exfalso; apply Hk; inl; fail).
        apply cbind_ok in E0 as (n0 & En0 & E0). apply cbind_ok in E0 as (n & En & E0).
        apply tail1_ok in En as [c ->].
        assert (Hnn : ~ In n rule_names).
        { apply Hn. split; [exact Ek|]. exists c. unfold cmd_name in En0. destruct (cmd_name_tok u); [now injection En0 as ->|discriminate]. }
        assert (Er : rule_text n = None).
        { unfold rule_text, rule_names in *. cbn [map In] in Hnn.
          repeat match goal with |- (if teqb n ?x then _ else _) = _ =>
            let G := fresh in destruct (teqb n x) eqn:G; [exfalso; apply teqb_eq in G; subst n; apply Hnn; inl|clear G] end.
          reflexivity. }
        rewrite Er in E0. now injection E0 as <- _. }
      assert (Z : (let! (s0, o) := rec u s in COk (false, s0, o)) = COk (e2, s2, o2) -> done u).
      { intros E'. apply cbind_ok in E' as ([s3 o3] & E3 & _). eexists _, _; eauto. }
      destruct (tkind u); try (now apply Z in E1); exfalso; apply Hk; inl.
    - destruct (is_begin_end t); [eapply IH; eauto|]. apply cbind_ok in E as ([e1 o0] & E0 & E).
      apply cbind_ok in E as ([[e2 s2] o2] & E1 & E). apply cbind_ok in E as ([s3 o3] & E2 & _). eapply IH; eauto.
  Qed.

  (** ** One step *)
  Variables (t : tree) (s : cst) (r : cst * list N).
  Hypothesis E : convert_step sp rec t s = COk r.

  (** a command that is not treated by name *)
  Lemma normal_step name : command_named t name -> ~ In name special_names ->
    exists s', convert_normal_command sp rec t s' = COk r.
  Proof.
    intros [Hk (c & Hn)] Hs. unfold convert_step in E. rewrite Hk in E. cbv zeta in E. unfold convert_cmd in E.
    destruct t as [|k ch] eqn:Et; [discriminate|]. rewrite <- Et in *. apply cbind_ok in E as (n0 & En0 & E'). apply cbind_ok in E' as (n' & En & E').
    unfold cmd_name in En0. rewrite Hn in En0. injection En0 as <-. destruct (tail1_ok _ _ _ En) as [c' Ec]. injection Ec as <- <-.
    unfold special_names in Hs. cbn [map] in Hs.
    repeat match goal with H : (if teqb name ?x then _ else _) = _ |- _ =>
            let G := fresh in destruct (teqb name x) eqn:G; [exfalso; apply teqb_eq in G; subst name; apply Hs; inl|] end.
    destruct (_ || _) eqn:Eo; [|eauto]. exfalso. apply Hs. apply orb_prop in Eo as [Eo|Eo]; [apply orb_prop in Eo as [Eo|Eo]|]; apply teqb_eq in Eo; subst name; inl.
  Qed.
  Lemma normal_name s' name : convert_normal_command sp rec t s' = COk r -> command_named t name ->
    exists c s1 s2 o, get_cmd sp name = Some c /\
      (match cs_args c with
        | SRight PNone => COk (s1, tx " ")
        | SRight PGreedy =>
          match filter (fun x => negb (has_kind ClauseCommandName x)) (children t) with
          | Node _ ch :: _ =>
            let! (s, o) := comma_args rec ItemCurly ch s1 in COk (s, tx "(" ++ o ++ tx ")")
          | _ => CPanic "converter.rs:781 unwrap"
          end
        | _ =>
          if is_math s1 && negb (starts_with (tx "#") (typst_name_of name c s')) then
            let! (s, o) := comma_args rec ClauseArgument (filter (fun x => negb (has_kind ClauseCommandName x)) (children t)) s1 in COk (s, tx "(" ++ o ++ tx ")")
          else
            let! (s, o) := each (text_arg rec) (filter (fun x => negb (has_kind ClauseCommandName x)) (children t)) s1 in COk (s, o ++ tx ";")
        end) = COk (s2, o).
  Proof.
    intros E' [Hk (c & Hn)]. unfold convert_normal_command in E'. apply cbind_ok in E' as (n0 & En0 & E'). apply cbind_ok in E' as (n' & En & E').
    unfold cmd_name in En0. rewrite Hn in En0. injection En0 as <-. destruct (tail1_ok _ _ _ En) as [c' Ec]. injection Ec as <- <-.
    cbv zeta in E'. destruct (get_cmd sp name) as [sh|]; [|discriminate].
    apply cbind_ok in E' as ([s2 o] & E1 & _). eexists sh, _, s2, o. split; [reflexivity|exact E1].
  Qed.
  (** environments *)
  Definition env_step (f : ctx_feature) : Prop :=
    exists s', match f with
    | FFigure => exists tn r', convert_env_figure rec t EFigure tn s' = COk r'
    | FTable => exists tn r', convert_env_table rec t ETable tn s' = COk r'
    | FMath | FMatrix | FCases => exists s2 r1 r2, named_args rec 0 (env_arguments t) s' = COk r1 /\ each rec (body_of t) s2 = COk r2
    | _ => exists r2, each rec (body_of t) s' = COk r2
    end.
  Lemma environment_step f : environment_is sp t f -> env_step f.
  Proof.
    intros (name & [Hk (n & Hn & ->)] & Hf). unfold convert_step in E. rewrite Hk in E. cbv zeta in E. unfold convert_env in E.
    rewrite Hn in E. cbn [unwrap cbind] in E. destruct (get_env sp (trim n)) as [shape|]; [|discriminate]. injection Hf as Hf.
    unfold env_step. rewrite Hf in E. clear Hf. set (s1 := set_skip false s) in *. clearbody s1.
    destruct f; cbn [env_of_feature is_list_env is_math_env] in E.
    all: try (apply cbind_ok in E as ([s2 o2] & E2 & _); cbv zeta in E2; apply cbind_ok in E2 as ([s3 o3] & E3 & E2);
              apply cbind_ok in E2 as ([s4 o4] & E4 & _); eexists _, _, _, _; eauto; fail).
    all: try (apply cbind_ok in E as ([s2 o2] & E2 & _); apply cbind_ok in E2 as ([s3 o3] & E3 & E2); eauto; fail).
    - apply cbind_ok in E as ([s2 o2] & E2 & _). exists s1. eauto.
    - apply cbind_ok in E as ([s2 o2] & E2 & _). exists s1. eauto.
    - apply cbind_ok in E as ([s2 o2] & E2 & _). eauto.
    - apply cbind_ok in E as ([s2 o2] & E2 & _). eauto.
  Qed.

  (** success excludes errors at the root *)
  Lemma step_no_cause e : error_cause sp e t -> e = EItem.
  Proof.
    intros He. destruct e; cbn in He; try reflexivity; exfalso.
    - destruct He as [He _]. unfold convert_step in E. now rewrite He in E.
    - unfold convert_step in E. now rewrite He in E.
    - unfold convert_step in E. destruct He as [He|He]; now rewrite He in E.
    - unfold convert_step in E. destruct He as [Hk Hv]. rewrite Hk in E. unfold convert_formula in E. apply cbind_ok in E as (ch & _ & E'). now rewrite Hv in E'.
    - destruct He as [[[Hc Hs]|(c & ->)] Hg].
      + destruct (normal_step _ Hc Hs) as [s' E']. destruct (normal_name _ _ E' Hc) as (c & _ & _ & _ & Hg' & _). congruence.
      + cbn in E. apply cbind_ok in E as (n' & En & E'). destruct (tail1_ok _ _ _ En) as [c' Ec]. injection Ec as <- <-.
        now rewrite Hg in E'.
    - destruct He as [[Hk (n0 & Hn & ->)] Hg]. unfold convert_step in E. rewrite Hk in E. unfold convert_env in E. rewrite Hn in E. cbn [unwrap cbind] in E. now rewrite Hg in E.
    - destruct He as (Hf & Hn & a & l & b & cols & e & Ea & Et & Hb & Hl & Hin).
      destruct (environment_step _ Hf) as (s' & tn & r' & E').
      unfold convert_env_table in E'. rewrite Ea in E'. cbn [hd_error unwrap cbind] in E'.
      rewrite Et, strip_ends_quoted in E' by assumption. cbn [cbind] in E'. apply cbind_ok in E' as ([al vl] & Ec & _).
      revert Ec. generalize 0. revert al vl Hin. generalize (trim cols). intros l0. clear - Hn.
      induction l0 as [|x l0 IHl]; intros al vl Hin i Ec; [contradiction|]. cbn [table_columns] in Ec.
      destruct ((x =? 108)%N || (x =? 99)%N || (x =? 114)%N) eqn:E1.
      + apply cbind_ok in Ec as ([al' vl'] & Ec & _). destruct Hin as [-> |Hin]; [|eapply IHl; eauto]. apply Hn.
        apply orb_prop in E1 as [E1|E1]; [apply orb_prop in E1 as [E1|E1]|]; apply N.eqb_eq in E1; subst c; inl.
      + destruct (x =? 124)%N eqn:E2; [|discriminate]. apply cbind_ok in Ec as ([al' vl'] & Ec & _). destruct Hin as [-> |Hin]; [|eapply IHl; eauto]. apply Hn.
        apply N.eqb_eq in E2; subst c; inl.
  Qed.

  Lemma container_step k ch c : t = Node k ch -> container k -> In c ch -> done c.
  Proof.
    intros -> Hk Hc. unfold convert_step in E. cbn [tkind] in E. set (s1 := match k with TokenWhiteSpace => s | _ => _ end) in E. clearbody s1. cbv zeta in E.
    unfold container in Hk. cbn [In] in Hk.
    destruct Hk as [<- |[<- |[<- |[<- |[<- |[<- |[<- |[<- |[]]]]]]]]]; try (cbn [node_children cbind] in E; eapply each_done; eauto; fail).
    - unfold convert_formula in E. cbn [node_children cbind] in E. destruct (negb _); [discriminate|]. cbv zeta in E.
      apply cbind_ok in E as ([s2 o2] & E2 & _). eapply each_done; eauto.
    - unfold convert_curly_group in E. cbn [node_children cbind] in E. cbv zeta in E.
      apply cbind_ok in E as ([s2 o2] & E2 & _). eapply each_done; eauto.
  Qed.
  Lemma clause_step n l c : t = Node ClauseLR (n :: l) -> In c l -> c <> Leaf TokenWord (tx ".") -> done c.
  Proof.
    intros -> Hc Hd. unfold convert_step in E. cbn [tkind] in E. cbv zeta in E. unfold convert_clause_lr in E. cbn [node_children cbind] in E.
    destruct n as [k x|k x]; [|discriminate]. apply cbind_ok in E as (n & _ & E'). cbv zeta in E'. apply cbind_ok in E' as ([s2 o2] & E2 & _).
    destruct (each_done _ _ _ _ E2 c Hc) as (s3 & r3 & E3). apply cbind_ok in E3 as ([s4 o4] & E4 & _).
    assert (Z : rec c s3 = COk (s4, o4) -> done c) by (intros; eexists _, _; eauto).
    destruct c as [k' w|k' c']; [|auto]. destruct k'; auto. destruct (teqb w (tx ".")) eqn:Ew; [|auto].
    apply teqb_eq in Ew. subst w. contradiction.
  Qed.
  Lemma script_step ch c : t = Node ItemAttachComponent ch -> In c ch -> ~ script_mark c -> done c.
  Proof.
    intros -> Hc Hm. unfold convert_step in E. cbn [tkind] in E. cbv zeta in E. unfold convert_attach_component in E. cbn [node_children cbind] in E.
    destruct (is_math _); [eapply attach_done; eauto|eapply each_done; eauto].
  Qed.
  Lemma argument_step name shape c : command_named t name -> ~ In name special_names ->
    option_map cs_args (get_cmd sp name) = Some shape -> shape <> SRight PNone -> shape <> SRight PGreedy ->
    In c (children t) -> tkind c = ClauseArgument -> done c.
  Proof.
    intros Hc Hs Hg H1 H2 Hin Hk. destruct (normal_step _ Hc Hs) as [s' E'].
    destruct (normal_name _ _ E' Hc) as (sh & s1 & s2 & o & Hg' & E2). rewrite Hg' in Hg. injection Hg as Hg. rewrite Hg in E2.
    assert (Ha : In c (filter (fun x => negb (has_kind ClauseCommandName x)) (children t))).
    { apply filter_In. split; [exact Hin|]. unfold has_kind. now rewrite Hk. }
    assert (Z : (if is_math s1 && negb (starts_with (tx "#") (typst_name_of name sh s')) then
            let! (s, o) := comma_args rec ClauseArgument (filter (fun x => negb (has_kind ClauseCommandName x)) (children t)) s1 in COk (s, tx "(" ++ o ++ tx ")")
          else
            let! (s, o) := each (text_arg rec) (filter (fun x => negb (has_kind ClauseCommandName x)) (children t)) s1 in COk (s, o ++ tx ";")) = COk (s2, o) -> done c).
    { destruct (_ && _); intros E3; apply cbind_ok in E3 as ([s3 o3] & E3 & _); [eapply comma_done; eauto|].
      destruct (each_done _ _ _ _ E3 c Ha) as (s4 & r4 & E4). unfold text_arg in E4.
      assert (Hh : has_kind ClauseArgument c = true) by (unfold has_kind; now rewrite Hk). rewrite Hh in E4. cbv zeta in E4.
      apply cbind_ok in E4 as ([s5 o5] & E5 & _). eexists _, _; eauto. }
    destruct shape as [p| |]; [|auto..]. destruct p; auto; contradiction.
  Qed.
  Lemma greedy_step name k a l c : command_named t name -> ~ In name special_names ->
    option_map cs_args (get_cmd sp name) = Some (SRight PGreedy) ->
    filter (fun x => negb (has_kind ClauseCommandName x)) (children t) = Node k a :: l -> In c a -> done c.
  Proof.
    intros Hc Hs Hg Hf Hin. destruct (normal_step _ Hc Hs) as [s' E'].
    destruct (normal_name _ _ E' Hc) as (sh & s1 & s2 & o & Hg' & E2). rewrite Hg' in Hg. injection Hg as Hg. rewrite Hg, Hf in E2.
    apply cbind_ok in E2 as ([s3 o3] & E3 & _). eapply comma_done; eauto.
  Qed.
  Lemma color_step name c : command_named t name -> In name [tx "textcolor"; tx "colorbox"] ->
    (forall a l, arguments t = a :: l -> forall x, tree_text a <> 91%N :: x) -> In c (arguments t) -> done c.
  Proof.
    intros [Hk (c0 & Hn)] Hs Hm Hin. unfold convert_step in E. rewrite Hk in E. cbv zeta in E. unfold convert_cmd in E.
    destruct t as [|k ch] eqn:Et; [discriminate|]. rewrite <- Et in *. apply cbind_ok in E as (n0 & En0 & E'). apply cbind_ok in E' as (n' & En & E').
    unfold cmd_name in En0. rewrite Hn in En0. injection En0 as <-. destruct (tail1_ok _ _ _ En) as [c' Ec]. injection Ec as <- <-.
    assert (E2 : convert_command_color sp rec t (set_skip false s) = COk r).
    { destruct Hs as [<- |[<- |[]]]; exact E'. }
    clear E'. unfold convert_command_color in E2. rewrite Hn in E2. cbv zeta in E2.
    apply cbind_ok in E2 as ([[model color] body] & Ea & E2).
    unfold color_args in Ea. assert (Ec : teqb (c0 :: name) (tx "\color") = false).
    { apply teqb_neq. change (tx "\color") with (92%N :: tx "color"). intros G. injection G as _ G. destruct Hs as [<- |[<- |[]]]; discriminate G. }
    rewrite Ec in Ea. destruct (arguments t) as [|a0 l] eqn:Earg; [contradiction|]. specialize (Hm _ _ eq_refl).
    assert (Ex : match tree_text a0 with
        | [] => false
        | a :: l1 => match rev (a :: l1) with [] => false
          | b :: _ => (a =? 91)%N && (b =? 93)%N && Nat.leb 2 (blen (tree_text a0)) end end = false).
    { destruct (tree_text a0) as [|x0 l0]; [reflexivity|]. destruct (rev _); [reflexivity|].
      destruct (N.eqb_spec x0 91); [|reflexivity]. subst x0. exfalso. eapply Hm. reflexivity. }
    cbv zeta in Ea. rewrite Ex in Ea. injection Ea as <- <- <-.
    apply cbind_ok in E2 as ([s2 o2] & E3 & E2). apply cbind_ok in E3 as ([s3 o3] & E3 & _).
    destruct Hin as [-> |Hin]; [eexists _, _; eauto|].
    apply cbind_ok in E2 as ([s4 o4] & E4 & _). destruct (each_done _ _ _ _ E4 c Hin) as (s5 & r5 & E5).
    destruct (is_math s5); [|eexists _, _; eauto]. apply cbind_ok in E5 as ([s6 o6] & E6 & _). eexists _, _; eauto.
  Qed.
  Lemma not_begin_end c : ~ In (tkind c) [ItemBegin; ItemEnd] -> is_begin_end c = false.
  Proof.
    intros Hk. unfold is_begin_end, has_kind, kind_eqb.
    destruct (kind_eq_dec (tkind c) ItemBegin) as [e0|]; [exfalso; apply Hk; rewrite e0; inl|].
    destruct (kind_eq_dec (tkind c) ItemEnd) as [e0|]; [exfalso; apply Hk; rewrite e0; inl|reflexivity].
  Qed.
  Lemma body_step f c : environment_is sp t f -> f <> FFigure -> f <> FTable ->
    In c (children t) -> ~ In (tkind c) [ItemBegin; ItemEnd] -> done c.
  Proof.
    intros Hf N1 N2 Hin Hk. assert (Hb : In c (body_of t)).
    { apply filter_In. split; [exact Hin|]. now rewrite not_begin_end. }
    destruct (environment_step _ Hf) as [s' H]. destruct f; try contradiction;
      try (destruct H as [r2 H]; eapply each_done; eauto; fail); destruct H as (s2 & r1 & r2 & _ & H); eapply each_done; eauto.
  Qed.
  Lemma env_argument_step f c : environment_is sp t f -> In f [FMath; FMatrix; FCases] -> In c (env_arguments t) -> done c.
  Proof.
    intros Hf Hin Hc. destruct (environment_step _ Hf) as [s' H].
    destruct Hin as [<- |[<- |[<- |[]]]]; destruct H as (s2 & r1 & r2 & H & _); eapply named_done; eauto.
  Qed.
  Lemma figure_step c : environment_is sp t FFigure -> In c (children t) -> ~ In (tkind c) [ItemBegin; ItemEnd] ->
    (forall n, cmd_name_tok c = Some n -> ~ In n [tx "\caption"; tx "\centering"]) -> done c.
  Proof.
    intros Hf Hin Hk Hn. destruct (environment_step _ Hf) as (s' & tn & r' & E').
    unfold convert_env_figure in E'. apply cbind_ok in E' as (cap & _ & E'). cbv zeta in E'. apply cbind_ok in E' as ([s1 o1] & _ & E').
    apply cbind_ok in E' as ([s2 o2] & E2 & _). destruct (each_done _ _ _ _ E2 c Hin) as (s3 & r3 & E3).
    unfold figure_child in E3. rewrite not_begin_end in E3 by exact Hk. apply cbind_ok in E3 as (b & Eb & E3).
    destruct b; [|eexists _, _; eauto]. exfalso. unfold is_named_arg in Eb. destruct c as [k x|k ch]; destruct k; try discriminate.
    apply cbind_ok in Eb as (n & En & Eb). injection Eb as Eb. unfold cmd_name in En.
    destruct (cmd_name_tok (Node ItemCmd ch)) as [n'|] eqn:En'; [|discriminate]. injection En as ->. apply (Hn n eq_refl).
    apply orb_prop in Eb as [Eb|Eb]; apply teqb_eq in Eb; subst n; inl.
  Qed.
  Lemma cell_step c : environment_is sp t FTable -> In c (children t) ->
    ~ In (tkind c) [ItemBegin; ItemEnd; TokenAmpersand; ItemNewLine; TokenWhiteSpace; TokenLineBreak] ->
    (forall name, command_named c name -> ~ In name rule_names) -> done c.
  Proof.
    intros Hf Hin Hk Hn. destruct (environment_step _ Hf) as (s' & tn & r' & E').
    unfold convert_env_table in E'. do 2 (apply cbind_ok in E' as (? & _ & E')). apply cbind_ok in E' as ([al vl] & _ & E'). cbv zeta in E'.
    apply cbind_ok in E' as ([s2 o2] & E2 & _). eapply cells_done; eauto.
  Qed.
End Seen.

(** everything converted on the way to a success has been converted successfully *)
Lemma converted_done sp t t' : converted sp t t' -> forall fuel s r, convert sp fuel t s = COk r ->
  exists fuel' s' r', convert sp fuel' t' s' = COk r'.
Proof.
  intros H. induction H as [t|k ch c t' Hk Hin _ IH|n l c t' Hin Hd _ IH|ch c t' Hin Hm _ IH
    |t name shape c t' Hc Hs Hg H1 H2 Hin Hk _ IH|t name k a l c t' Hc Hs Hg Hf Hin _ IH|t name c t' Hc Hs Hm Hin _ IH
    |t f c t' Hf N1 N2 Hin Hk _ IH|t f c t' Hf Hin Hc _ IH|t c t' Hf Hin Hk Hn _ IH|t c t' Hf Hin Hk Hn _ IH]; intros fuel s r E; [eauto|..];
    (destruct fuel as [|fuel]; [discriminate|]); cbn [convert] in E.
  - destruct (container_step _ _ _ _ _ E _ _ c eq_refl Hk Hin) as (s' & r' & E'). eauto.
  - destruct (clause_step _ _ _ _ _ E _ _ c eq_refl Hin Hd) as (s' & r' & E'). eauto.
  - destruct (script_step _ _ _ _ _ E _ c eq_refl Hin Hm) as (s' & r' & E'). eauto.
  - destruct (argument_step _ _ _ _ _ E _ _ c Hc Hs Hg H1 H2 Hin Hk) as (s' & r' & E'). eauto.
  - destruct (greedy_step _ _ _ _ _ E _ _ _ _ c Hc Hs Hg Hf Hin) as (s' & r' & E'). eauto.
  - destruct (color_step _ _ _ _ _ E _ c Hc Hs Hm Hin) as (s' & r' & E'). eauto.
  - destruct (body_step _ _ _ _ _ E _ c Hf N1 N2 Hin Hk) as (s' & r' & E'). eauto.
  - destruct (env_argument_step _ _ _ _ _ E _ c Hf Hin Hc) as (s' & r' & E'). eauto.
  - destruct (figure_step _ _ _ _ _ E c Hf Hin Hk Hn) as (s' & r' & E'). eauto.
  - destruct (cell_step _ _ _ _ _ E c Hf Hin Hk Hn) as (s' & r' & E'). eauto.
Qed.
