(** Texts read by \label, \includegraphics, \color and tables. *)
From Verif Require Export RenderFacts.
From Verif Require Import P_Conv2.
Local Open Scope N_scope.

Lemma strip_ends_cut site s m : strip_ends site s = COk m <-> cut s m.
Proof.
  split.
  - intros H. apply strip_ends_ok in H as (b & e & -> & Hb & He). exists b, e. auto.
  - intros (b & e & -> & Hb & He). now apply strip_ends_quoted.
Qed.
Lemma strip_ends_or site s : (exists m, strip_ends site s = COk m /\ cut s m) \/
  ((exists x, strip_ends site s = CPanic x) /\ forall m, ~ cut s m).
Proof.
  destruct (strip_ends site s) as [m|e|x|] eqn:E.
  - left. exists m. split; [reflexivity|]. now apply strip_ends_cut in E.
  - exfalso. unfold strip_ends in E. destruct (Nat.ltb _ _); [discriminate|]. destruct (split_bytes _ _) as [[]|]; [|discriminate].
    destruct (split_bytes _ _) as [[]|]; discriminate.
  - right. split; [eauto|]. intros m H. apply (strip_ends_cut site) in H. congruence.
  - exfalso. unfold strip_ends in E. destruct (Nat.ltb _ _); [discriminate|]. destruct (split_bytes _ _) as [[]|]; [|discriminate].
    destruct (split_bytes _ _) as [[]|]; discriminate.
Qed.
Lemma cut_unique s m m' : cut s m -> cut s m' -> m = m'.
Proof. intros H H'. apply (strip_ends_cut ""%string) in H, H'. congruence. Qed.

(** ** separators *)
Lemma split_joined c s : joined c (split_on c s) = s /\ Forall (fun x => ~ In c x) (split_on c s) /\ split_on c s <> [].
Proof.
  induction s as [|x s (IH1 & IH2 & IH3)]; cbn [split_on].
  - split; [reflexivity|]. split; [repeat constructor; auto|discriminate].
  - destruct (N.eqb_spec x c) as [-> |N].
    + split; [|split; [constructor; [intros []|exact IH2]|discriminate]].
      destruct (split_on c s) as [|w ws]; [contradiction|]. cbn [joined app] in *. now rewrite IH1.
    + destruct (split_on c s) as [|w ws]; [contradiction|]. inversion_clear IH2 as [|? ? Hw Hws].
      split; [|split; [constructor; [intros [E|E]; [congruence|auto]|exact Hws]|discriminate]].
      destruct ws as [|w2 ws]; cbn [joined app] in *; now rewrite IH1.
Qed.
Lemma separated_split c s : separated c (split_on c s) s.
Proof. destruct (split_joined c s) as (H1 & H2 & H3). split; [exact H3|]. split; [exact H2|now symmetry]. Qed.
Lemma split_no c x : ~ In c x -> split_on c x = [x].
Proof.
  induction x as [|a x IH]; intros H; [reflexivity|]. cbn [split_on].
  destruct (N.eqb_spec a c) as [-> |N]; [exfalso; apply H; now left|]. rewrite IH; [reflexivity|]. intros G. apply H. now right.
Qed.
Lemma split_app c x s : ~ In c x -> split_on c (x ++ c :: s) = x :: split_on c s.
Proof.
  induction x as [|a x IH]; intros H; cbn [app split_on].
  - now rewrite N.eqb_refl.
  - destruct (N.eqb_spec a c) as [-> |N]; [exfalso; apply H; now left|]. rewrite IH; [reflexivity|]. intros G. apply H. now right.
Qed.
Lemma split_separated c parts s : separated c parts s -> split_on c s = parts.
Proof.
  intros (Hn & Hf & ->). induction parts as [|x parts IH]; [contradiction|]. inversion_clear Hf as [|? ? Hx Hr].
  destruct parts as [|y parts]; cbn [joined]; [now apply split_no|].
  rewrite split_app by assumption. f_equal. apply IH; [discriminate|assumption].
Qed.

(** ** suffixes *)
Lemma strip_suffix_some u v w : strip_suffix u v = Some w <-> v = w ++ u.
Proof.
  unfold strip_suffix. split.
  - destruct (strip_prefix (rev u) (rev v)) as [r|] eqn:E; [|discriminate]. intros [= <-].
    apply strip_prefix_app in E. rewrite <- (rev_involutive v), E, rev_app_distr, rev_involutive. reflexivity.
  - intros ->. rewrite rev_app_distr, strip_prefix_intro. cbn. now rewrite rev_involutive.
Qed.
Lemma strip_suffix_none u v : strip_suffix u v = None <-> ~ ends_in u v.
Proof.
  split.
  - intros E [w ->]. assert (strip_suffix u (w ++ u) = Some w) by now apply strip_suffix_some. congruence.
  - intros H. destruct (strip_suffix u v) as [w|] eqn:E; [|reflexivity]. exfalso. apply H. exists w. now apply strip_suffix_some.
Qed.
Lemma repeat_last (u : text) n : List.concat (repeat u (S n)) = List.concat (repeat u n) ++ u.
Proof.
  induction n as [|n IH]; [cbn; now rewrite app_nil_r|].
  change (List.concat (repeat u (S (S n)))) with (u ++ List.concat (repeat u (S n))).
  change (List.concat (repeat u (S n))) with (u ++ List.concat (repeat u n)) at 2. rewrite IH. apply app_assoc.
Qed.
Lemma trim_fuel (u : text) : u <> [] -> forall n v, (List.length v <= n)%nat -> without_unit u v (trim_end_matches_fuel n u v).
Proof.
  intros Hu. induction n as [|n IH]; intros v L.
  - destruct v; [|cbn in L; lia]. exists O. cbn. split; [reflexivity|]. intros w E. symmetry in E. apply app_eq_nil in E as [_ E]. contradiction.
  - cbn [trim_end_matches_fuel]. destruct (strip_suffix u v) as [w|] eqn:E.
    + apply strip_suffix_some in E. subst v. rewrite app_length in L.
      assert (1 <= List.length u)%nat by (destruct u; [contradiction|cbn; lia]).
      destruct (IH w ltac:(lia)) as (k & Ek & Hk). exists (S k). split; [|exact Hk]. rewrite repeat_last, app_assoc, <- Ek. reflexivity.
    + exists O. cbn. rewrite app_nil_r. split; [reflexivity|]. intros w ->. apply strip_suffix_none in E. apply E. now exists w.
Qed.
Lemma trim_without u v : u <> [] -> without_unit u v (trim_end_matches u v).
Proof. intros H. now apply trim_fuel. Qed.
Lemma without_unit_unique u v w w' : without_unit u v w -> without_unit u v w' -> w = w'.
Proof.
  intros (n & E & H) (n' & E' & H'). rewrite E in E'. clear E v. revert w w' n' H H' E'.
  induction n as [|n IH]; intros w w' n' H H' E.
  - destruct n' as [|n']; [cbn in E; now rewrite !app_nil_r in E|]. rewrite repeat_last in E. cbn in E. rewrite app_nil_r, app_assoc in E.
    exfalso. eapply H. exact E.
  - destruct n' as [|n'].
    + rewrite repeat_last in E. cbn in E. rewrite app_nil_r, app_assoc in E. exfalso. eapply H'. symmetry. exact E.
    + rewrite !repeat_last, !app_assoc in E. apply app_inv_tail in E. eauto.
Qed.

(** ** options of \includegraphics *)
Definition measured (value : text) : text :=
  match strip_suffix (tx "\textwidth") value with
  | Some _ => trim_end_matches (tx "\textwidth") value ++ tx " * 100%"
  | None =>
    match strip_suffix (tx "\textheight") value with
    | Some _ => trim_end_matches (tx "\textheight") value ++ tx " * 100%"
    | None => value
    end
  end.
Lemma measure_iff v o : measure v o <-> measured v = o.
Proof.
  unfold measured. split.
  - intros [w H1 H2|w H1 H2 H3|H1 H2].
    + destruct (strip_suffix (tx "\textwidth") v) eqn:E; [|now apply strip_suffix_none in E].
      f_equal. eapply without_unit_unique; [now apply trim_without|exact H2].
    + apply strip_suffix_none in H1. rewrite H1.
      destruct (strip_suffix (tx "\textheight") v) eqn:E; [|now apply strip_suffix_none in E].
      f_equal. eapply without_unit_unique; [now apply trim_without|exact H3].
    + apply strip_suffix_none in H1, H2. now rewrite H1, H2.
  - destruct (strip_suffix (tx "\textwidth") v) as [w|] eqn:E; intros <-.
    + apply me_width; [|now apply trim_without]. apply strip_suffix_some in E. now exists w.
    + apply strip_suffix_none in E. destruct (strip_suffix (tx "\textheight") v) as [w|] eqn:E2.
      * apply me_height; [exact E| |now apply trim_without]. apply strip_suffix_some in E2. now exists w.
      * apply strip_suffix_none in E2. now apply me_plain.
Qed.
Lemma size_iff k : teqb k (tx "width") || teqb k (tx "height") = true <-> is_size k.
Proof. rewrite orb_true_iff, !teqb_eq. reflexivity. Qed.
Lemma graphics_option_iff s o : graphics_option s o <-> graphics_opt s = o.
Proof.
  unfold graphics_opt. fold measured. cbv zeta. split.
  - intros [k v m Hs Hk Hm|k r Hs Hr Hk|k r Hs Hk]; rewrite (split_separated _ _ _ Hs); cbn [hd].
    + apply size_iff in Hk. rewrite Hk. fold (measured (trim v)). apply measure_iff in Hm. now rewrite Hm.
    + apply size_iff in Hk. rewrite Hk. destruct r as [|v [|v2 r]]; [|exfalso; now apply Hr|]; reflexivity.
    + destruct (teqb (trim k) (tx "width") || teqb (trim k) (tx "height")) eqn:E; [|reflexivity]. apply size_iff in E. contradiction.
  - pose proof (separated_split 61 (trim s)) as Hs. destruct (split_on 61 (trim s)) as [|k r] eqn:E; [destruct Hs as [Hs _]; contradiction|].
    cbn [hd]. destruct (teqb (trim k) (tx "width") || teqb (trim k) (tx "height")) eqn:Ek.
    + apply size_iff in Ek. destruct r as [|v [|v2 r]]; intros <-.
      * eapply go_no_value; [exact Hs|discriminate|exact Ek].
      * fold (measured (trim v)). apply (go_size s k v (measured (trim v))); [exact Hs|exact Ek|]. now apply measure_iff.
      * eapply go_no_value; [exact Hs|discriminate|exact Ek].
    + intros <-. eapply go_other; [exact Hs|]. intros G. apply size_iff in G. congruence.
Qed.
Lemma graphics_outs parts outs : Forall2 graphics_option parts outs <-> outs = map graphics_opt parts.
Proof.
  split.
  - induction 1 as [|x y l l' H _ IH]; [reflexivity|]. apply graphics_option_iff in H. cbn. now subst.
  - intros ->. induction parts; constructor; [now apply graphics_option_iff|assumption].
Qed.
Lemma find_arg_ok k l o : find_arg k l = COk o <-> picked k l o.
Proof.
  unfold find_arg, picked. split.
  - induction l as [|a l IH]; [intros [= <-]; constructor|]. destruct (first_child a) as [x|] eqn:E; cbn [unwrap cbind]; [|discriminate].
    unfold has_kind, kind_eqb. destruct (kind_eq_dec (tkind x) k) as [Ek|Nk].
    + intros [= <-]. exists [], l. split; [reflexivity|]. split; [constructor|]. unfold starts_as. rewrite E. cbn. now subst.
    + assert (Ho : starts_otherwise k a) by (exists (tkind x); rewrite E; split; [reflexivity|exact Nk]).
      intros H. specialize (IH H). destruct o as [b|]; [|now constructor].
      destruct IH as (l1 & l2 & -> & H1 & H2). exists (a :: l1), l2. split; [reflexivity|]. split; [now constructor|exact H2].
  - assert (S : forall a, starts_otherwise k a -> exists x, first_child a = Some x /\ has_kind k x = false).
    { intros a (k' & E & N). destruct (first_child a) as [x|]; [|discriminate]. exists x. split; [reflexivity|].
      injection E as E. unfold has_kind, kind_eqb. destruct (kind_eq_dec (tkind x) k); [congruence|reflexivity]. }
    destruct o as [b|].
    + intros (l1 & l2 & -> & H1 & H2). induction H1 as [|a l1 Ha _ IH]; cbn [app].
      * unfold starts_as in H2. destruct (first_child b) as [x|]; [|discriminate]. injection H2 as H2. cbn [unwrap cbind].
        unfold has_kind, kind_eqb. destruct (kind_eq_dec (tkind x) k); [reflexivity|contradiction].
      * destruct (S a Ha) as (x & Ex & Ek). rewrite Ex. cbn [unwrap cbind]. rewrite Ek. exact IH.
    + intros H. induction H as [|a l Ha _ IH]; [reflexivity|]. destruct (S a Ha) as (x & Ex & Ek). rewrite Ex. cbn [unwrap cbind]. rewrite Ek. exact IH.
Qed.
Lemma find_arg_total k l : (exists o, find_arg k l = COk o) \/ (exists s, find_arg k l = CPanic s).
Proof.
  unfold find_arg. induction l as [|a l IH]; [eauto|]. destruct (first_child a) as [x|]; cbn [unwrap cbind]; [|eauto].
  destruct (has_kind k x); eauto.
Qed.
Lemma graphics_iff t s o : graphics t o <-> convert_command_includegraphics t s = COk (s, o).
Proof.
  unfold convert_command_includegraphics, graphics. split.
  - intros (op & a & m & opts & H1 & H2 & H3 & H4 & ->). apply find_arg_ok in H1, H2. rewrite H1. cbn [cbind]. rewrite H2. cbn [cbind unwrap].
    rewrite (proj2 (strip_ends_cut _ _ _) H3). cbn [cbind]. destruct H4 as [|b m' parts outs H5 H6 H7]; [reflexivity|].
    rewrite (proj2 (strip_ends_cut _ _ _) H5). cbn [cbind]. rewrite (split_separated _ _ _ H6). apply graphics_outs in H7. subst outs.
    rewrite <- flat_map_concat_map. reflexivity.
  - intros H. apply cbind_ok in H as (op & H1 & H). apply cbind_ok in H as (a' & H2 & H). apply cbind_ok in H as (a & Ea & H).
    destruct a' as [a'|]; [|discriminate]. injection Ea as ->. apply cbind_ok in H as (m & H3 & H). apply cbind_ok in H as (opts & H4 & H).
    injection H as <-. apply find_arg_ok in H1, H2. apply strip_ends_cut in H3. exists op, a, m, opts. split; [exact H1|]. split; [exact H2|].
    split; [exact H3|]. split; [|reflexivity]. destruct op as [b|]; [|injection H4 as <-; constructor].
    apply cbind_ok in H4 as (m' & H5 & H4). injection H4 as <-. apply strip_ends_cut in H5. rewrite flat_map_concat_map.
    eapply gs_some; [exact H5|apply separated_split|now apply graphics_outs].
Qed.
Lemma graphics_total t s : (exists o, convert_command_includegraphics t s = COk (s, o)) \/
  (exists x, convert_command_includegraphics t s = CPanic x).
Proof.
  unfold convert_command_includegraphics.
  destruct (find_arg_total ItemBracket (Syntax.arguments t)) as [[o ->]|[x ->]]; cbn [cbind]; [|eauto].
  destruct (find_arg_total ItemCurly (Syntax.arguments t)) as [[o2 ->]|[x ->]]; cbn [cbind]; [|eauto].
  destruct o2 as [a|]; cbn [unwrap cbind]; [|eauto].
  destruct (strip_ends_or "converter.rs:544 str slice" (tree_text a)) as [(m & -> & _)|[[x ->] _]]; cbn [cbind]; [|eauto].
  destruct o as [b|]; cbn [cbind]; [|eauto].
  destruct (strip_ends_or "converter.rs:550 str slice" (tree_text b)) as [(m' & -> & _)|[[x ->] _]]; cbn [cbind]; eauto.
Qed.

(** ** colours *)
Lemma skip_solid l : solid l (Converter.skip_trivia l).
Proof.
  induction l as [|t l (w & Hw & E & Hs)]; cbn [Converter.skip_trivia].
  - exists []. split; [constructor|]. split; [reflexivity|exact I].
  - destruct (kind_is_trivia (tkind t)) eqn:Ek.
    + exists (t :: w). split; [now constructor|]. split; [cbn; now rewrite E at 1|exact Hs].
    + exists []. split; [constructor|]. split; [reflexivity|exact Ek].
Qed.
Lemma solid_skip l r : solid l r -> Converter.skip_trivia l = r.
Proof.
  intros (w & Hw & -> & Hs). induction Hw as [|t w Ht _ IH]; cbn [app Converter.skip_trivia].
  - destruct r as [|t r]; [reflexivity|]. cbn [Converter.skip_trivia]. now rewrite Hs.
  - now rewrite Ht.
Qed.
Lemma has_kind_iff k t : has_kind k t = true <-> tkind t = k.
Proof. unfold has_kind, kind_eqb. destruct (kind_eq_dec (tkind t) k); split; congruence. Qed.
Lemma has_kind_not k t : has_kind k t = false <-> tkind t <> k.
Proof. unfold has_kind, kind_eqb. destruct (kind_eq_dec (tkind t) k); split; congruence. Qed.
Lemma take_closed a y r : Forall (fun t => tkind t <> TokenRBracket) a -> tkind y = TokenRBracket ->
  take_model (a ++ y :: r) = (flat_map tree_text a, r).
Proof.
  intros H Hy. induction H as [|t a Ht _ IH]; cbn [app take_model].
  - apply has_kind_iff in Hy. now rewrite Hy.
  - apply has_kind_not in Ht. now rewrite Ht, IH.
Qed.
Lemma take_open a : Forall (fun t => tkind t <> TokenRBracket) a -> take_model a = (flat_map tree_text a, []).
Proof. intros H. induction H as [|t a Ht _ IH]; [reflexivity|]. cbn [take_model]. apply has_kind_not in Ht. now rewrite Ht, IH. Qed.
Lemma bracket_or l : (exists a y r, l = a ++ y :: r /\ Forall (fun t => tkind t <> TokenRBracket) a /\ tkind y = TokenRBracket) \/
  Forall (fun t => tkind t <> TokenRBracket) l.
Proof.
  induction l as [|t l IH]; [right; constructor|]. destruct (kind_eq_dec (tkind t) TokenRBracket) as [E|N].
  - left. exists [], t, l. split; [reflexivity|]. split; [constructor|exact E].
  - destruct IH as [(a & y & r & -> & H1 & H2)|H]; [left|right; now constructor].
    exists (t :: a), y, r. split; [reflexivity|]. split; [now constructor|exact H2].
Qed.
Definition model_of (l : list tree) : option text * list tree :=
  match l with
  | x :: r => if has_kind TokenLBracket x then let '(m, r') := take_model r in (Some m, r') else (None, l)
  | [] => (None, l)
  end.
Lemma color_model_iff l m r : color_model l m r <-> model_of l = (m, r).
Proof.
  split.
  - intros [l' H|x a y r' Hx Ha Hy|x a Hx Ha]; cbn [model_of].
    + destruct l' as [|x l']; [reflexivity|]. cbn [model_of]. apply has_kind_not in H. now rewrite H.
    + apply has_kind_iff in Hx. rewrite Hx. now rewrite take_closed.
    + apply has_kind_iff in Hx. rewrite Hx. now rewrite take_open.
  - destruct l as [|x l]; cbn [model_of]; [intros [= <- <-]; now constructor|].
    destruct (has_kind TokenLBracket x) eqn:E.
    + apply has_kind_iff in E. destruct (bracket_or l) as [(a & y & r' & -> & H1 & H2)|H].
      * rewrite take_closed by assumption. intros [= <- <-]. now apply cm_closed.
      * rewrite take_open by assumption. intros [= <- <-]. now apply cm_open.
    + intros [= <- <-]. apply cm_none. now apply has_kind_not in E.
Qed.
Lemma model_text s : (exists m, s = tx "[" ++ m ++ tx "]" /\
    match s, rev s with a :: _, b :: _ => (a =? 91) && (b =? 93) && Nat.leb 2 (blen s) | _, _ => false end = true /\
    match strip_ends "" s with COk x => Some x | _ => None end = Some m) \/
  ((forall m, s <> tx "[" ++ m ++ tx "]") /\
    match s, rev s with a :: _, b :: _ => (a =? 91) && (b =? 93) && Nat.leb 2 (blen s) | _, _ => false end = false).
Proof.
  destruct (match s, rev s with a :: _, b :: _ => (a =? 91) && (b =? 93) && Nat.leb 2 (blen s) | _, _ => false end) eqn:E.
  - left. destruct s as [|a s]; [discriminate|]. destruct (rev (a :: s)) as [|b q] eqn:Er; [discriminate|].
    apply andb_true_iff in E as [E E3]. apply andb_true_iff in E as [E1 E2]. apply N.eqb_eq in E1, E2. subst a b.
    apply (f_equal (@rev N)) in Er. rewrite rev_involutive in Er. cbn [rev] in Er.
    destruct (rev q) as [|x m] eqn:Eq; cbn [app] in Er; [exfalso; discriminate Er|].
    injection Er as <- ->. exists m. split; [reflexivity|]. split; [now rewrite E3|].
    now rewrite strip_ends_quoted.
  - right. split; [|now destruct s]. intros m ->.
    assert (R : rev (91 :: m ++ [93]) = 93 :: rev m ++ [91]) by (cbn [rev]; now rewrite rev_app_distr).
    change (tx "[" ++ m ++ tx "]") with (91 :: m ++ [93]) in E. cbv iota in E. rewrite R in E. cbn [N.eqb Pos.eqb andb] in E.
    apply Nat.leb_gt in E. cbn [blen] in E. rewrite blen_app in E. cbn [blen] in E. pose proof (utf8_len_pos 91). pose proof (utf8_len_pos 93). lia.
Qed.
Lemma color_args_ok t name model color body : In name colored ->
  color_args (92 :: name) t = COk (model, color, body) <-> color_parts t name model color body.
Proof.
  intros Hn. unfold color_args.
  assert (En : teqb (92 :: name) (tx "\color") = teqb name (tx "color")).
  { repeat destruct Hn as [<- |Hn]; try contradiction; reflexivity. }
  rewrite En. destruct (teqbP name (tx "color")) as [-> |Nn].
  - split.
    + destruct (Syntax.arguments t) as [|root r] eqn:Ea; [discriminate|]. cbn [hd_error unwrap cbind]. cbv zeta.
      pose proof (skip_solid (children root)) as Hs. fold (model_of (Converter.skip_trivia (children root))).
      destruct (model_of (Converter.skip_trivia (children root))) as [md l1] eqn:Em. apply color_model_iff in Em.
      pose proof (skip_solid l1) as Hs1. intros H.
      assert (E : (model, color, body) = (md, hd_error (Converter.skip_trivia l1), tl (Converter.skip_trivia l1))).
      { destruct (Converter.skip_trivia l1); injection H as <- <- <-; reflexivity. }
      injection E as -> -> ->. eapply co_color; eassumption.
    + intros H. inversion H as [root r l md l1 l2 Ha Hs Hm Hs1 E1 E2 E3 E4|nm Hx|nm a m r Hx|nm a r Hx]; subst; try (exfalso; now apply Hx).
      rewrite Ha. cbn [hd_error unwrap cbind]. cbv zeta. apply solid_skip in Hs. apply color_model_iff in Hm.
      fold (model_of (Converter.skip_trivia (children root))). rewrite Hs, Hm. apply solid_skip in Hs1. rewrite Hs1. now destruct l2.
  - split.
    + destruct (Syntax.arguments t) as [|a r] eqn:Ea; [intros [= <- <- <-]; now apply co_none|]. cbv zeta.
      destruct (model_text (tree_text a)) as [(m & Em & E & Es)|[Em E]]; rewrite E.
      * rewrite Es. intros [= <- <- <-]. eapply co_model; eassumption.
      * intros [= <- <- <-]. eapply co_plain; eassumption.
    + intros H. inversion H as [root r l md l1 l2 Ha Hs Hm Hs1 E1 E2 E3 E4|nm Hx Ha|nm a m r Hx Ha Hm|nm a r Hx Ha Hm]; subst.
      * exfalso. now apply Nn.
      * now rewrite Ha.
      * rewrite Ha. cbv zeta. destruct (model_text (tree_text a)) as [(m' & Em & E & Es)|[Em E]]; rewrite E; [|now apply Em in Hm].
        rewrite Es. rewrite Em in Hm. apply app_inv_head in Hm. apply app_inv_tail in Hm. now subst.
      * rewrite Ha. cbv zeta. destruct (model_text (tree_text a)) as [(m' & Em & E & Es)|[Em E]]; rewrite E; [now apply Hm in Em|reflexivity].
Qed.
Lemma color_args_total t name : In name colored ->
  (exists m c b, color_args (92 :: name) t = COk (m, c, b)) \/
  ((exists x, color_args (92 :: name) t = CPanic x) /\ name = tx "color" /\ Syntax.arguments t = []).
Proof.
  intros Hn. unfold color_args.
  assert (En : teqb (92 :: name) (tx "\color") = teqb name (tx "color")).
  { repeat destruct Hn as [<- |Hn]; try contradiction; reflexivity. }
  rewrite En. destruct (teqbP name (tx "color")) as [-> |Nn].
  - destruct (Syntax.arguments t) as [|root r]; cbn [hd_error unwrap cbind]; [right; eauto|left]. cbv zeta.
    fold (model_of (Converter.skip_trivia (children root))). destruct (model_of _) as [m l]. destruct (Converter.skip_trivia l); eauto.
  - left. destruct (Syntax.arguments t) as [|a r]; [eauto|]. cbv zeta.
    destruct (model_text (tree_text a)) as [(m & Em & E & Es)|[Em E]]; rewrite E; eauto.
Qed.

(** ** columns *)
Lemma letter_cases c : In c (tx "lcr|") -> (letter c = true /\ ((c =? 108) || (c =? 99) || (c =? 114)) = true) \/
  (letter c = false /\ ((c =? 108) || (c =? 99) || (c =? 114)) = false /\ (c =? 124) = true).
Proof. intros H. repeat destruct H as [<- |H]; try contradiction; cbn; auto. Qed.
Lemma columns_good s : forall i, Forall (fun c => In c (tx "lcr|")) s ->
  table_columns i s = COk (filter letter s, bars i s).
Proof.
  induction s as [|c s IH]; intros i H; [reflexivity|]. inversion_clear H as [|? ? Hc Hs]. cbn [table_columns filter bars].
  destruct (letter_cases c Hc) as [[E1 E2]|(E1 & E2 & E3)]; rewrite E1, E2.
  - rewrite IH by assumption. reflexivity.
  - rewrite E3, IH by assumption. reflexivity.
Qed.
Lemma columns_wrong good c rest : forall i, Forall (fun c => In c (tx "lcr|")) good -> ~ In c (tx "lcr|") ->
  table_columns i (good ++ c :: rest) = CErr (EAlignment c).
Proof.
  induction good as [|x good IH]; intros i H Hc.
  - cbn [app table_columns]. assert (N : forall y, In y (tx "lcr|") -> (c =? y) = false) by (intros y Hy; apply N.eqb_neq; intros ->; contradiction).
    rewrite (N 108), (N 99), (N 114), (N 124) by (cbn; tauto). reflexivity.
  - inversion_clear H as [|? ? Hx Hg]. cbn [app table_columns].
    destruct (letter_cases x Hx) as [[E1 E2]|(E1 & E2 & E3)]; rewrite E2; [|rewrite E3]; rewrite IH by assumption; reflexivity.
Qed.
Lemma columns_or s : Forall (fun c => In c (tx "lcr|")) s \/
  exists good c rest, s = good ++ c :: rest /\ Forall (fun c => In c (tx "lcr|")) good /\ ~ In c (tx "lcr|").
Proof.
  induction s as [|c s IH]; [left; constructor|]. destruct (in_dec N.eq_dec c (tx "lcr|")) as [Hc|Hc].
  - destruct IH as [H|(g & x & r & -> & Hg & Hx)]; [left; now constructor|right]. exists (c :: g), x, r. split; [reflexivity|]. split; [now constructor|exact Hx].
  - right. exists [], c, s. split; [reflexivity|]. split; [constructor|exact Hc].
Qed.
Lemma align_alignment l : Forall (fun c => letter c = true) l -> flat_map align_name l = flat_map alignment l.
Proof.
  intros H. induction H as [|c l Hc _ IH]; [reflexivity|]. cbn [flat_map]. rewrite IH. f_equal. unfold align_name, alignment.
  destruct (c =? 108) eqn:E1; [reflexivity|]. destruct (c =? 99) eqn:E2; [reflexivity|]. destruct (c =? 114) eqn:E3; [reflexivity|].
  exfalso. unfold letter in Hc. change (tx "lcr") with [108; 99; 114] in Hc. cbn [existsb] in Hc. rewrite E1, E2, E3 in Hc. discriminate.
Qed.
