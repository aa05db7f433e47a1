(** What an element comes to is at most quadratic in its size (C74). *)
From Verif Require Export SizeStep.
From Verif Require Import Api ConvFacts ConvTerm RenderAll P_Conv4 P_Render SizeSpec RenderSpec.
Local Open Scope nat_scope.

Lemma cut_length s m : cut s m -> List.length m <= List.length s.
Proof. intros (b & e & -> & _). cbn. rewrite app_length. lia. Qed.
Lemma joined_length c parts : parts <> [] -> list_sum (map (@List.length char) parts) + List.length parts = 1 + List.length (joined c parts).
Proof.
  induction parts as [|x [|y r] IH]; intros H; [congruence|cbn; lia|]. specialize (IH ltac:(discriminate)).
  change (joined c (x :: y :: r)) with (x ++ c :: joined c (y :: r)). rewrite app_length. cbn [List.length map list_sum fold_right] in *.
  fold (list_sum (map (@List.length char) r)) in *. lia.
Qed.
Lemma measure_length v m : measure v m -> List.length m <= List.length v + 7.
Proof.
  intros H. destruct H as [w _ (n & -> & _)|w _ _ (n & -> & _)| ]; rewrite ?app_length; cbn [List.length tx]; change (List.length (tx " * 100%")) with 7; lia.
Qed.
Lemma option_length s o : graphics_option s o -> List.length o <= List.length s + 20.
Proof.
  intros H. destruct H as [k v m (_ & _ & E) Hs Hm|k r (_ & _ & E) Hr Hs|k r H1 H2].
  - apply measure_length in Hm. pose proof (trim_length s). pose proof (trim_length k). pose proof (trim_length v). rewrite E in H. cbn [joined] in H. rewrite app_length in H. cbn [List.length] in H.
    rewrite !app_length. change (List.length (tx ": ")) with 2. change (List.length (tx ", ")) with 2. lia.
  - pose proof (trim_length s). pose proof (trim_length k). rewrite !app_length. change (List.length (tx ": ")) with 2. change (List.length (tx ", ")) with 2.
    assert (List.length k <= List.length (trim s)); [|lia]. rewrite E. destruct r; cbn [joined]; rewrite ?app_length; lia.
  - cbn. lia.
Qed.
Lemma options_length parts outs : Forall2 graphics_option parts outs ->
  List.length (List.concat outs) <= list_sum (map (@List.length char) parts) + 20 * List.length parts.
Proof.
  induction 1 as [|s o parts outs H _ IH]; [apply le_n|]. apply option_length in H. cbn [List.concat map List.length list_sum fold_right]. fold (list_sum (map (@List.length char) parts)).
  rewrite app_length. lia.
Qed.
Lemma graphics_length t o : graphics t o -> List.length o <= 23 * vol t + 41.
Proof.
  intros (oa & a & m & opts & Ho & Ha & Hm & Hopts & ->). pose proof (vols_arguments t) as V.
  assert (A : forall k b, picked k (arguments t) (Some b) -> List.length (tree_text b) <= vol t).
  { intros k b (l1 & l2 & E & _). pose proof (text_vol b). assert (vol b <= vols (arguments t)); [|lia]. apply vols_in. rewrite E. apply in_or_app. right. now left. }
  apply A in Ha. apply cut_length in Hm. pose proof (trim_length m).
  assert (O : List.length opts <= 21 * vol t + 21).
  { destruct Hopts as [|b mb parts outs Hb (Hs1 & Hs2 & Hs3) Hf]; [cbn; lia|]. apply A in Ho. apply cut_length in Hb. pose proof (trim_length mb).
    apply options_length in Hf. pose proof (joined_length 44%N parts Hs1). rewrite <- Hs3 in *. lia. }
  rewrite !app_length. change (List.length (tx "#image(")) with 7. change (List.length (tx ")")) with 1. cbn [List.length]. lia.
Qed.
Lemma solid_vol l r : solid l r -> vols r <= vols l.
Proof. intros (w & _ & -> & _). rewrite vols_app. lia. Qed.
Lemma model_vol l m r : color_model l m r -> vols r + match m with Some x => List.length x | None => 0 end <= vols l.
Proof.
  intros [l' H|x a z r' H1 H2 H3|x a H1 H2]; [lia| |]; pose proof (texts_vol a); rewrite ?vols_cons, ?vols_app, ?vols_cons, ?vols_nil; lia.
Qed.
Definition vol_opt (o : option tree) : nat := match o with Some x => vol x | None => 0 end.
Lemma hd_vol l : vol_opt (hd_error l) + vols (tl l) = vols l.
Proof. destruct l; reflexivity. Qed.
Lemma color_vol t name model color body : color_parts t name model color body ->
  match model with Some x => List.length x | None => 0 end <= vol t /\ vol_opt color + vols body + 2 <= vol t.
Proof.
  intros H. pose proof (vols_arguments t) as V. destruct H as [root r l model l1 l2 Ha Hs Hm Hs2|name Hn Ha|name a m r Hn Ha Et|name a r Hn Ha Et]; rewrite Ha in V; rewrite ?vols_cons in V.
  - apply solid_vol in Hs, Hs2. apply model_vol in Hm. pose proof (hd_vol l2). pose proof (vols_children root). lia.
  - cbn [vol_opt]. rewrite vols_nil in *. lia.
  - pose proof (hd_vol r). pose proof (text_vol a) as T. rewrite Et, !app_length in T. lia.
  - cbn [vol_opt]. lia.
Qed.

(** ** Indentation *)
Lemma within_indent e p : indent_of (within e p) <= indent_of p + 2.
Proof. destruct e; cbn; lia. Qed.
Lemma group_indent p : indent_of (group_place p) <= indent_of p + 2.
Proof. unfold group_place. destruct (mode_of p), (env_of p); try (cbn; lia). Qed.
Lemma command_indent p tn : indent_of (command_place p tn) <= indent_of p + 2.
Proof. unfold command_place. destruct (teqb _ _); cbn; lia. Qed.
Lemma lays_indent sp p t ps q x : lays sp p t ps -> In (Put q x) ps -> indent_of q <= indent_of p + 2.
Proof.
  intros Hl Hin.
  assert (S : indent_of p <= indent_of p + 2) by lia.
  destruct Hl as [s|s|s|k s o Ho|k s o Ho|y name sh Hg|y name Hg|s|t Hk|k ch Hk|ch|ch|k ch Hk|ch i Hd|ch Hd|ch Hh|ch Hm Hh|k y name ch
    |ch Hm|ch Hm Hf|l1 k m l2 Hm Hf Hb Hk|l1 k m l2 Hm Hb Hk
    |t Hn Hi|t Hn Hi|t l Hn Hla|t Hn Hla|t o Hn Hgr|t Hn Hgr|t name model color body Hn Hc Hcp|t Hn Ha
    |t name Hn Hsp Hg|t name sh Hn Hsp Hg Hc|t name sh tn k ch r Hn Hsp Hg Hc Ho Et|t name sh Hn Hsp Hg Hc Ho|t name sh tn Hn Hsp Hg Hc1 Hc2 Et Hm Hh|t name sh tn Hn Hsp Hg Hc1 Hc2 Et Hm
    |t name Hn Hg|t name sh Hn Hg Hf|t name sh r Hn Hg Hf Hq|t name sh Hn Hg Hf|t name sh o Hn Hg Hf Hc|t name sh y Hn Hg Hf Hx Hxc Hxa
    |t name sh cols Hn Hg Hf Hc Hgood|t name sh good y rest Hn Hg Hf Hc Hgood Hx|t name sh Hn Hg Hf Hc].
  all: try (exfalso; cbn in Hin; repeat destruct Hin as [Hin|Hin]; try discriminate; contradiction).
  all: try (apply in_puts in Hin as [-> Hin]; first [exact S|apply group_indent|apply within_indent]).
  all: try (destruct Hin as [Hin|Hin]; [discriminate|]).
  all: repeat (first [apply in_app_or in Hin as [Hin|Hin] | destruct Hin as [Hin|Hin]; [discriminate|]]).
  all: try (exfalso; cbn in Hin; repeat destruct Hin as [Hin|Hin]; try discriminate; contradiction).
  all: try (apply in_puts in Hin as [-> Hin]; first [exact S|apply group_indent|apply within_indent]).
  all: try (apply in_commas in Hin as [-> Hin]; first [exact S|apply command_indent]).
  all: try (apply in_bracketed in Hin as [-> Hin]; apply command_indent).
  all: try (apply in_cells in Hin as [-> Hin]; apply within_indent).
  all: try (apply in_arguments in Hin as [-> Hin]; subst r; apply within_indent).
  all: try (apply in_puts in Hin as [-> Hin]; subst r; apply within_indent).
  all: try (unfold labels in Hin; exfalso; destruct (mode_of p); repeat destruct Hin as [Hin|Hin]; try discriminate; contradiction).
  all: try (exfalso; destruct (teqb name _); repeat destruct Hin as [Hin|Hin]; try discriminate; contradiction).
  - apply in_flat_map in Hin as (a & Ha & Hin). apply in_app_or in Hin as [Hin|[Hin|[]]]; [|discriminate].
    assert (E : In (Put q x) [Put p a]).
    { destruct a as [k' s|k' c]; [|exact Hin]. destruct k'; try exact Hin. destruct (teqb s _); [destruct Hin|exact Hin]. }
    destruct E as [E|[]]. injection E as <- <-. exact S.
  - unfold label_pieces in Hin. exfalso. destruct (env_of p), (mode_of p); cbn in Hin; repeat destruct Hin as [Hin|Hin]; try discriminate; contradiction.
  - destruct color as [c|]; destruct Hin as [Hin|[]]; [|discriminate]. injection Hin as <- <-. exact S.
  - destruct (mode_of p).
    + apply in_app_or in Hin as [Hin|[Hin|[]]]; [|discriminate]. apply in_puts in Hin as [-> Hin]. exact S.
    + apply in_app_or in Hin as [Hin|[Hin|[]]]; [|discriminate]. apply in_flat_map in Hin as (b & Hb & Hin). repeat destruct Hin as [Hin|Hin]; try discriminate; try contradiction. injection Hin as <- <-. exact S.
  - destruct o as [a|]; [|destruct Hin]. repeat destruct Hin as [Hin|Hin]; try discriminate; try contradiction. injection Hin as <- <-. apply within_indent.
Qed.

(** ** Layouts *)
Lemma under_vol x t : under x t -> vol x + 2 <= vol t.
Proof.
  pose proof (vols_children t). intros [[H1 _]|(c & H1 & H2 & _)]; [apply vols_in in H1; lia|].
  apply vols_in in H1, H2. pose proof (vols_children c). lia.
Qed.
Section All.
  Variable sp : spec.
  Variables M D K : nat.
  Hypothesis HK : M + 100 + 60 * D <= K.
  Hypothesis Hcmd : forall name sh, get_cmd sp name = Some sh -> alias_short M (cs_alias sh).
  Hypothesis Henv : forall name sh, get_env sp name = Some sh -> alias_short M (en_alias sh).
  Notation cost := (SizeStep.cost K).
  Ltac lens := repeat match goal with |- context[List.length (tx ?s)] => let n := eval vm_compute in (List.length (tx s)) in change (List.length (tx s)) with n end.
  Lemma cost_single s t : List.length s <= K -> cost [Txt s] <= K * (vol t - 1).
  Proof. intros H. rewrite (cost_txt K), (cost_nil K), Nat.add_0_r. pose proof (vol_pos t). transitivity (K * 1); [lia|]. apply Nat.mul_le_mono_l. lia. Qed.
  Lemma wrap x n c v : c <= x + K * n -> x <= K -> n + 2 <= v -> c <= K * (v - 1).
  Proof. intros H1 H2 H3. pose proof (spare M D K HK x n v H2 H3). lia. Qed.
  Lemma lays_cost p t ps : lays sp p t ps -> vol t + indent_of p <= D -> cost ps <= K * (vol t - 1).
  Proof.
    intros Hl HD. pose proof (vol_pos t) as Vp. pose proof (vols_children t) as Vc.
    assert (Z : cost [] <= K * (vol t - 1)) by (rewrite (cost_nil K); apply Nat.le_0_l).
    destruct Hl as [s|s|s|k s o Ho|k s o Ho|y name sh Hg|y name Hg|s|t Hk|k ch Hk|ch|ch|k ch Hk|ch i Hd|ch Hd|ch Hh|ch Hm Hh|k y name ch
      |ch Hm|ch Hm Hf|l1 k m l2 Hm Hf Hb Hk|l1 k m l2 Hm Hb Hk
      |t Hn Hi|t Hn Hi|t l Hn Hla|t Hn Hla|t o Hn Hgr|t Hn Hgr|t name model color body Hn Hc Hcp|t Hn Ha
      |t name Hn Hsp Hg|t name sh Hn Hsp Hg Hc|t name sh tn k ch r Hn Hsp Hg Hc Ho Et|t name sh Hn Hsp Hg Hc Ho|t name sh tn Hn Hsp Hg Hc1 Hc2 Et Hm Hh|t name sh tn Hn Hsp Hg Hc1 Hc2 Et Hm
      |t name Hn Hg|t name sh Hn Hg Hf|t name sh r Hn Hg Hf Hq|t name sh Hn Hg Hf|t name sh o Hn Hg Hf Hc|t name sh y Hn Hg Hf Hx Hxc Hxa
      |t name sh cols Hn Hg Hf Hc Hgood|t name sh good y rest Hn Hg Hf Hc Hgood Hx|t name sh Hn Hg Hf Hc].
    all: try exact Z.
    all: try (apply cost_single).
    - (* word *) rewrite vol_leaf in *. destruct (mode_of p); [lia|]. assert (E : List.length (flat_map (fun c : N => [c; 32%N]) s) = 2 * List.length s) by (clear; induction s; cbn in *; lia). lia.
    - (* blank *) rewrite vol_leaf in *. lia.
    - (* line *) rewrite vol_leaf in *. unfold indented. rewrite app_length, repeat_length. lia.
    - (* punctuation *) destruct k; cbn [punctuation] in Ho; try discriminate; injection Ho as <-; cbn [List.length]; lens; lia.
    - destruct k; cbn [placed] in Ho; try discriminate; injection Ho as <-; [destruct (mode_of p)|destruct (env_of p)|destruct (env_of p)]; cbn [List.length]; lens; lia.
    - (* symbols *) apply Hcmd in Hg. pose proof (alias_length M D K HK _ name Hg). rewrite vol_leaf in *. cbn [List.length] in *. lia.
    - (* code *) pose proof (text_vol (Node ItemTypstCode ch)). lia.
    - (* containers *) eapply (wrap 0 (vols ch)); [apply (cost_puts M D K HK)|lia|rewrite vol_node; lia].
    - (* formulas *) eapply (wrap 80 (vols ch)); [|lia|rewrite vol_node; lia]. rewrite (cost_txt K), (cost_app K), (cost_txt K), (cost_nil K).
      pose proof (cost_puts M D K HK (in_mode MMath p) ch). unfold around_formula. destruct (mode_of p), i; cbn [fst snd List.length]; lens; lia.
    - (* groups *) eapply (wrap 0 (vols ch)); [apply (cost_puts M D K HK)|lia|rewrite vol_node; lia].
    - eapply (wrap 4 (vols ch)); [|lia|rewrite vol_node; lia]. rewrite (cost_app K), (cost_txt K), (cost_nil K). pose proof (cost_puts M D K HK (group_place p) ch). lens. lia.
    - (* delimiters *) eapply (wrap 4 (vols ch)); [|lia|rewrite vol_node, vols_cons; lia]. rewrite !(cost_app K).
      assert (A : cost (if teqb name (tx "left") then [Txt (tx "lr(")] else []) <= 3) by (destruct (teqb name (tx "left")); rewrite ?(cost_txt K), ?(cost_nil K); lens; lia).
      assert (B : cost (if teqb name (tx "right") then [Txt (tx ")")] else []) <= 1) by (destruct (teqb name (tx "right")); rewrite ?(cost_txt K), ?(cost_nil K); lens; lia).
      match goal with |- _ + (cost ?f + _) <= _ => assert (C : cost f <= K * vols ch); [|lia] end.
      clear -HK. induction ch as [|x ch IH]; [apply Nat.le_0_l|]. cbn [flat_map]. rewrite !(cost_app K), vols_cons, Nat.mul_add_distr_l, (cost_txt K), (cost_nil K).
      pose proof (put_slack M D K HK p x) as S. assert (E : cost (match x with Leaf TokenWord s => if teqb s (tx ".") then [] else [Put p x] | _ => [Put p x] end) <= cost [Put p x]).
      { destruct x as [[] s|]; try apply le_n. destruct (teqb s _); [apply Nat.le_0_l|apply le_n]. }
      rewrite (cost_cons K (Put p x)), (cost_nil K) in E. lens. lia.
    - (* scripts *) eapply (wrap 0 (vols ch)); [apply (cost_puts M D K HK)|lia|rewrite vol_node; lia].
    - eapply (wrap 0 (vols ch)); [apply (cost_puts M D K HK)|lia|rewrite vol_node; lia].
    - rewrite vol_node, vols_app, vols_cons, vol_leaf in *. eapply (wrap (List.length m + 2) (vols l1 + vols l2)); [|lia|lia].
      rewrite !(cost_app K), (cost_txt K), !(cost_app K), (cost_txt K), (cost_nil K), app_length, Nat.mul_add_distr_l. pose proof (cost_puts M D K HK p l1). pose proof (cost_puts M D K HK p l2). lens. lia.
    - rewrite vol_node, vols_app, vols_cons, vol_leaf in *. eapply (wrap (List.length m + 5) (vols l1 + vols l2)); [|lia|lia].
      rewrite !(cost_app K), (cost_txt K), !(cost_app K), (cost_txt K), (cost_nil K), !app_length, Nat.mul_add_distr_l. pose proof (cost_puts M D K HK p l1). pose proof (cost_puts M D K HK p l2). lens. lia.
    - (* \item *) unfold indented. rewrite !app_length, repeat_length. destruct (env_of p); cbn [List.length]; lens; lia.
    - (* \label *) destruct Hla as (a & r & m & Ea & Hcut & ->). apply cut_length in Hcut. pose proof (trim_length m). pose proof (text_vol a).
      pose proof (vols_arguments t) as Va. rewrite Ea, vols_cons in Va.
      assert (A : cost [Keep (trim m)] <= K * (vol t - 1)).
      { change (cost [Keep (trim m)]) with (cost [Txt (32%N :: 32%N :: trim m)]). apply cost_single. cbn [List.length]. lia. }
      assert (B : cost [Txt (tx "<" ++ trim m ++ tx ">")] <= K * (vol t - 1)) by (apply cost_single; rewrite !app_length; lens; lia).
      unfold label_pieces. destruct (env_of p), (mode_of p); try exact A; try exact B; exact Z.
    - (* \includegraphics *) apply graphics_length in Hgr. lia.
    - (* colours *) apply color_vol in Hcp as [C1 C2].
      assert (Al : List.length (color_alias sp name) <= M + 10).
      { unfold color_alias. destruct (get_cmd sp name) as [c|] eqn:G; [|lens; lia]. apply Hcmd in G. unfold or_default. destruct (cs_alias c); [cbn in G; lia|lens; lia]. }
      eapply (wrap (M + vol t + 60) (vol_opt color + vols body)); [|lia|lia]. unfold color_pieces. cbn [app].
      rewrite Nat.mul_add_distr_l, !(cost_cons K), !(cost_app K), !(cost_cons K). cbn [piece_cost].
      assert (P1 : cost (match color with Some c => [Put (in_mode MText p) c] | None => [Txt (tx "black")] end) <= 5 + K * vol_opt color).
      { destruct color as [c|]; cbn [vol_opt]; rewrite (cost_cons K), (cost_nil K); [pose proof (put_slack M D K HK (in_mode MText p) c); lia|cbn [piece_cost]; lens; lia]. }
      assert (P2 : cost (match mode_of p with MText => map (Put p) body ++ [Txt (tx "];")] | MMath => flat_map (fun b => [Txt (tx "$"); Put p b; Txt (tx "$")]) body ++ [Txt (tx "]")] end) <= 2 + K * vols body).
      { destruct (mode_of p); rewrite (cost_app K), (cost_txt K), (cost_nil K).
        - pose proof (cost_puts M D K HK p body). lens. lia.
        - assert (Q : cost (flat_map (fun b => [Txt (tx "$"); Put p b; Txt (tx "$")]) body) <= K * vols body); [|lens; lia].
          clear -HK. induction body as [|b l IH]; [apply Nat.le_0_l|]. cbn [flat_map]. rewrite (cost_app K), vols_cons, Nat.mul_add_distr_l, (cost_txt K), (cost_cons K), (cost_txt K), (cost_nil K).
          pose proof (put_slack M D K HK p b). lens. lia. }
      rewrite !app_length. destruct model as [x|]; rewrite ?app_length; lens; lia.
    - (* bare *) pose proof (name_length sp M D K HK Hcmd p name sh Hg). apply cmd_name_vol in Hn. rewrite app_length. lens. lia.
    - (* greedy *) pose proof (name_length sp M D K HK Hcmd p name sh Hg). rewrite <- Et in *. apply cmd_name_vol in Hn. rewrite Ho, vols_cons, vol_node in Hn.
      eapply (wrap (M + 20 + List.length name) (vols ch)); [|lia|lia]. rewrite (cost_txt K), (cost_app K), (cost_txt K), (cost_nil K), app_length.
      pose proof (cost_commas M D K HK ItemCurly (command_place p tn) ch). lens. lia.
    - pose proof (name_length sp M D K HK Hcmd p name sh Hg). rewrite <- Et in *. apply cmd_name_vol in Hn.
      eapply (wrap (M + 20 + List.length name) (vols (operands t))); [|lia|lia]. rewrite (cost_txt K), (cost_app K), (cost_txt K), (cost_nil K), app_length.
      pose proof (cost_commas M D K HK ClauseArgument (command_place p tn) (operands t)). lens. lia.
    - pose proof (name_length sp M D K HK Hcmd p name sh Hg). rewrite <- Et in *. apply cmd_name_vol in Hn.
      eapply (wrap (M + 20 + List.length name) (vols (operands t))); [|lia|lia]. rewrite (cost_txt K), (cost_app K), (cost_txt K), (cost_nil K).
      pose proof (cost_brackets M D K HK (command_place p tn) (operands t)). lens. lia.
    - (* lists *) pose proof (vols_filter (fun x => negb (delimiter x)) (children t)). fold (inside t) in *. eapply (wrap 0 (vols (inside t))); [apply (cost_puts M D K HK)|lia|lia].
    - (* formulas *) pose proof (env_name_vol _ _ Hn). pose proof (alias_length M D K HK _ name (Henv _ _ Hg)).
      assert (E : vols (env_arguments t) + vols (inside t) <= vols (children t)).
      { unfold env_arguments. destruct (env_begin t) as [b|] eqn:Eb; [|rewrite vols_nil; apply vols_filter]. apply env_begin_in in Eb as [E1 E2].
        pose proof (vols_filter_in (fun x => negb (delimiter x)) _ _ E1) as V. cbn beta in V. rewrite E2 in V. specialize (V eq_refl). fold (inside t) in V. pose proof (vols_arguments b). lia. }
      eapply (wrap (M + List.length name + 20) (vols (env_arguments t) + vols (inside t))); [|lia|lia].
      rewrite (cost_txt K), !(cost_app K), (cost_txt K), (cost_labels K), !app_length, Nat.mul_add_distr_l.
      pose proof (cost_arguments M D K HK r (env_arguments t) 0 ltac:(lia)). pose proof (cost_puts M D K HK r (inside t)). unfold dollars. destruct (mode_of p); cbn [fst snd List.length]; lens; lia.
    - pose proof (env_name_vol _ _ Hn). pose proof (alias_length M D K HK _ name (Henv _ _ Hg)). pose proof (vols_filter (fun x => negb (delimiter x)) (children t)). fold (inside t) in *.
      eapply (wrap (M + List.length name + 20) (vols (inside t))); [|lia|lia].
      rewrite (cost_txt K), !(cost_app K), (cost_txt K), (cost_labels K), !app_length. pose proof (cost_puts M D K HK (within ENone p) (inside t)). lens. lia.
    - (* figures *) pose proof (env_name_vol _ _ Hn). pose proof (alias_length M D K HK _ name (Henv _ _ Hg)).
      assert (E : vol_opt o + vols (figure_body t) <= vols (children t)).
      { unfold figure_body, inside. inversion Hc as [l1 H1 E1 E2|l1 x a r l2 H1 H2 H3 H4 E1 E2]; subst; cbn [vol_opt].
        - etransitivity; [apply vols_filter|apply vols_filter].
        - assert (Hx : In x (children t)) by (rewrite <- E1; apply in_or_app; right; now left). rewrite E1.
          assert (Hd : negb (delimiter x) = true). { unfold is_command in H1. destruct x as [|[] cx]; try discriminate; reflexivity. }
          assert (Hx2 : In x (filter (fun y => negb (delimiter y)) (children t))) by now apply filter_In.
          pose proof (vols_filter_in (fun y => negb (is_command (tx "caption") y || is_command (tx "centering") y)) _ _ Hx2) as V.
          cbn beta in V. rewrite H1 in V. specialize (V eq_refl). pose proof (vols_filter (fun y => negb (delimiter y)) (children t)).
          pose proof (vols_arguments x) as Va. rewrite H2, vols_cons in Va. lia. }
      eapply (wrap (M + List.length name + 40) (vol_opt o + vols (figure_body t))); [|lia|lia].
      rewrite (cost_txt K), !(cost_app K), (cost_txt K), !(cost_app K), (cost_txt K), (cost_labels K), !app_length, Nat.mul_add_distr_l.
      pose proof (cost_puts M D K HK (within EFigure p) (figure_body t)).
      assert (P : cost (match o with Some a => [Txt (tx "caption: ["); Put (within EFigure p) a; Txt (tx "],")] | None => [] end) <= 12 + K * vol_opt o).
      { destruct o as [a|]; cbn [vol_opt]; [|apply Nat.le_0_l]. rewrite (cost_txt K), (cost_cons K), (cost_txt K), (cost_nil K). pose proof (put_slack M D K HK (within EFigure p) a). lens. lia. }
      lens. lia.
    - (* tables *) pose proof (env_name_vol _ _ Hn). pose proof (alias_length M D K HK _ name (Henv _ _ Hg)).
      assert (E : List.length cols + 4 + vols (inside t) <= vols (children t)).
      { destruct Hc as (a & r & m & Ea & Hcut & ->). apply cut_length in Hcut. pose proof (trim_length m). pose proof (text_vol a).
        unfold env_arguments in Ea. destruct (env_begin t) as [b|] eqn:Eb; [|discriminate]. apply env_begin_in in Eb as [E1 E2].
        pose proof (vols_filter_in (fun x => negb (delimiter x)) _ _ E1) as V. cbn beta in V. rewrite E2 in V. specialize (V eq_refl). fold (inside t) in V.
        pose proof (vols_arguments b) as Vb. rewrite Ea, vols_cons in Vb. lia. }
      pose proof (front_length M D K HK (or_default (en_alias sh) name) cols ltac:(lia) ltac:(lia)) as F.
      eapply (wrap 2 (1 + List.length cols + vols (inside t))); [|lia|lia].
      rewrite (cost_txt K), !(cost_app K), (cost_txt K), (cost_labels K), !Nat.mul_add_distr_l. pose proof (cost_cells M D K HK (within ETable p) (inside t) false). lens. lia.
  Qed.

  (** ** Elements *)
  Definition waits (c : carry) : nat := match waiting c with Some x => 2 + List.length x | None => 0 end.
  Definition bounded (p : place) (t : tree) : Prop := forall c c' o, renders sp p c t (Written c' o) -> List.length o + waits c' <= K * (vol t - 1) + waits c.
  Lemma before_written s o c x : Written c x = before s o -> exists y, o = Written c y /\ x = s ++ y.
  Proof. destruct o; cbn; try discriminate. intros [= <- ->]. eauto. Qed.
  Lemma comes_cost ps : (forall q x, In (Put q x) ps -> bounded q x) -> forall c c' o, comes_to sp c ps (Written c' o) ->
    List.length o + waits c' <= cost ps + waits c.
  Proof.
    induction ps as [|y l IH]; intros P c c' o H.
    - inversion H; subst. cbn. lia.
    - assert (IH' := IH (fun q x Hx => P q x (or_intror Hx))). rewrite (cost_cons K).
      inversion H as [|c1 s1 l1 o1 Ho E1 E2 E3|c1 s1 l1 o1 Ho E1 E2 E3|c1 s1 l1 o1 Ho E1 E2 E3|c1 p1 t1 c2 y1 l1 o1 Hr Ho E1 E2 E3| | |c1 s1 l1 o1 Ho|c1 l1 o1 Ho E1 E2 E3| | ]; subst;
        try (symmetry in E3; apply before_written in E3 as (z & -> & ->)); cbn [piece_cost].
      + apply IH' in Ho. rewrite app_length. lia.
      + apply IH' in Ho. rewrite app_length. change (waits (mk_carry false (waiting c))) with (waits c) in Ho. destruct (fresh c); cbn [List.length]; lia.
      + apply IH' in Ho. rewrite app_length. change (waits (mk_carry true (waiting c))) with (waits c) in Ho. lia.
      + apply IH' in Ho. rewrite app_length. pose proof (P p1 t1 (or_introl eq_refl) _ _ _ Hr). lia.
      + apply IH' in Ho. change (waits (mk_carry (fresh c) (Some s1))) with (2 + List.length s1) in Ho. lia.
      + apply IH' in Ho. change (waits (mk_carry (fresh c) None)) with 0 in Ho. rewrite app_length. change (waits c) with (match waiting c with Some x => 2 + List.length x | None => 0 end).
        destruct (waiting c); cbn [List.length app]; rewrite ?app_length; cbn [List.length]; lia.
  Qed.
  Theorem all_bounded n : forall t p, vol t <= n -> vol t + indent_of p <= D -> sane p -> bounded p t.
  Proof.
    induction n as [|n IH]; intros t p L HD Hs c c' o Hr; [pose proof (vol_pos t); lia|].
    inversion Hr as [p0 c0 t0 ps o0 Hl Ho]; subst. pose proof (lays_cost p t ps Hl HD).
    assert (Q : List.length o + waits c' <= cost ps + waits (at_element t c)).
    { eapply comes_cost; [|exact Ho]. intros q x Hx. destruct (layout_below sp p t ps q x Hs Hl Hx) as [S1 S2]. apply under_vol in S2.
      pose proof (lays_indent sp p t ps q x Hl Hx). apply IH; [lia|lia|exact S1]. }
    assert (W : waits (at_element t c) = waits c) by (unfold at_element; destruct (tkind t); reflexivity). lia.
  Qed.
End All.
