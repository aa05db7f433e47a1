(** C80: braces around braces make no difference. *)
From Verif Require Import Api ConvSpec ConvFacts ConvTerm ParserTotal ParserSource ParserEnd ParserShape GramSpec GramSound GramComplete P_Parser P_Gram P_Conv P_Conv3 P_Conv4 RenderAll P_Render.
From Verif Require Import ShieldFacts FormulaFacts P_Shield P_Shield2 P_Formula P_Braces P_Place ShieldSpec FormulaSpec RenderFacts RenderMain RenderSpec GramSpec.
Local Open Scope nat_scope.

Lemma enclosed_closed d w ts : enclosed d w ts -> enclosed (S d) w (ts ++ [rbrace]).
Proof.
  revert d w. induction ts as [|t r IH]; intros d w H.
  - destruct H as [-> ->]. cbn. auto.
  - cbn [app enclosed] in *. destruct (role_of (fst t)); try (apply IH; exact H); try contradiction.
    + destruct H as [H1 H2]. split; [exact H1|]. now apply IH.
    + destruct H as [H1 H2]. split; [exact H1|]. destruct d; [contradiction|]. now apply IH.
Qed.
Lemma braced_content ts : content_of_group ts -> content_of_group (braced ts).
Proof. intros H. unfold content_of_group, braced. cbn [enclosed lbrace fst role_of]. split; [discriminate|]. now apply enclosed_closed. Qed.
Lemma argued_closed sp ts : argued sp ts -> argued sp (ts ++ [rbrace]).
Proof.
  induction ts as [|t r IH]; cbn [app argued]; [intros _; split; [intros E; discriminate E|exact I]|]. intros [H1 H2]. split; [|now apply IH].
  intros E. destruct (H1 E) as [H|[H (bs & v & w & -> & Hb & Hv)]]; [now left|]. right. split; [exact H|]. exists bs, v, (w ++ [rbrace]).
  split; [now rewrite <- app_assoc|]. auto.
Qed.
Lemma argued_braced sp ts : argued sp ts -> argued sp (braced ts).
Proof. intros H. split; [intros E; discriminate E|now apply argued_closed]. Qed.
Lemma group_again p : group_place (group_place p) = group_place p.
Proof. destruct p as [m e n]. destruct m, e; reflexivity. Qed.
Lemma group_mode p : mode_of (group_place p) = mode_of p.
Proof. destruct p as [m e n]. destruct m, e; reflexivity. Qed.
Lemma lays_group sp p ch ps : lays sp p (Node ItemCurly ch) ps -> lays sp (group_place p) (Node ItemCurly ch) ps.
Proof.
  intros H. assert (E : ps = map (Put (group_place p)) ch /\ (mode_of p = MText \/ ~ hollow ch) \/ ps = map (Put (group_place p)) ch ++ [Txt (tx "zws ")] /\ mode_of p = MMath /\ hollow ch).
  { inversion H; subst; auto; try discriminate;
      try (match goal with X : container_kind _ |- _ => exfalso; unfold container_kind in X; cbn in X; repeat destruct X as [X|X]; try discriminate X; exact X end);
      try (match goal with X : _ \/ _ |- _ => destruct X as [X|X]; discriminate X end);
      match goal with X : command_named _ _ |- _ => destruct X as [X _]; discriminate X | X : environment_named _ _ |- _ => destruct X as [X _]; discriminate X end. }
  destruct E as [[-> E]|(-> & E1 & E2)].
  - rewrite <- (group_again p) at 2. apply la_group. rewrite group_mode. exact E.
  - rewrite <- (group_again p) at 2. apply la_hollow_group; [rewrite group_mode; exact E1|exact E2].
Qed.
Lemma twice_converts sp m g o : tkind g = ItemCurly -> converts_to sp m (Node ScopeRoot [g]) o ->
  converts_to sp m (Node ScopeRoot [Node ItemCurly (lf lbrace :: [g] ++ [lf rbrace])]) (framed [] [] o).
Proof.
  intros K R. apply root_renders in R. apply root_renders. cbn [map app] in *. set (q := group_place (outermost m)).
  assert (R' : comes_to sp c0 (Put q g :: []) o).
  { assert (G : forall o', renders sp (outermost m) c0 g o' -> renders sp q c0 g o').
    { intros o' H. inversion H; subst. destruct g as [k s|k ch]; cbn [tkind] in K; subst k.
      - econstructor; [|eassumption]. exfalso.
        match goal with X : lays _ _ _ _ |- _ => inversion X; subst; try discriminate;
          try (match goal with Y : command_named _ _ |- _ => destruct Y as [Y _]; discriminate Y | Y : environment_named _ _ |- _ => destruct Y as [Y _]; discriminate Y end) end.
      - econstructor; [apply lays_group; eassumption|eassumption]. }
    inversion R; subst; [eapply ct_put; [apply G; eassumption|eassumption]|apply ct_put_failed, G; assumption|apply ct_put_crashed, G; assumption]. }
  assert (I : forall o', comes_to sp c0 (map (Put q) (lf lbrace :: [g] ++ [lf rbrace])) o' ->
    renders sp (outermost m) c0 (Node ItemCurly (lf lbrace :: [g] ++ [lf rbrace])) o').
  { intros o' Ho. econstructor; [apply la_group; right|exact Ho]. unfold hollow. cbn [app]. intros H. apply Forall_cons_iff in H as [_ H]. apply Forall_cons_iff in H as [H _].
    rewrite K in H. cbn in H. repeat destruct H as [H|H]; try discriminate H; exact H. }
  cbn [map app] in I. change [Put q g; Put q (lf rbrace)] with ([Put q g] ++ [Put q (lf rbrace)]) in I.
  destruct o as [c x|er|]; cbn [framed app].
  - rewrite app_nil_r.
    assert (I' : renders sp (outermost m) c0 (Node ItemCurly (lf lbrace :: [g] ++ [lf rbrace])) (Written (mk_carry false (waiting c)) x)).
    { apply I. change (Written ?k x) with (RenderSpec.before [] (Written k x)). eapply ct_put; [apply (quiet_renders sp lbrace); reflexivity|].
      rewrite <- (app_nil_r x). change (Written ?k (x ++ [])) with (RenderSpec.before x (Written k [])). eapply comes_app; [exact R'|].
      change (Written ?k []) with (RenderSpec.before [] (Written k [])). eapply ct_put; [apply (quiet_renders sp rbrace); reflexivity|apply ct_end]. }
    rewrite <- (app_nil_r x). change (Written ?k (x ++ [])) with (RenderSpec.before x (Written k [])). eapply ct_put; [exact I'|apply ct_end].
  - apply ct_put_failed. apply I. change (Failed er) with (RenderSpec.before [] (Failed er)). eapply ct_put; [apply (quiet_renders sp lbrace); reflexivity|].
    apply comes_bad; [exact R'|constructor].
  - apply ct_put_crashed. apply I. change Crashed with (RenderSpec.before [] Crashed). eapply ct_put; [apply (quiet_renders sp lbrace); reflexivity|].
    apply comes_bad; [exact R'|constructor].
Qed.

(* ------------------------------------------------------------------ *)
(** * C80: braces around braces *)
(** [src'] are the tokens [{ts}], [src''] the tokens [{{ts}}]: in both modes the
    two are converted alike. *)
Theorem C80_output : forall macros m page sp src' src'' ts, 2 <= page ->
  tokens_of macros page (spec_or_default sp) src' (braced ts) ->
  tokens_of macros page (spec_or_default sp) src'' (braced (braced ts)) ->
  content_of_group ts -> argued (spec_or_default sp) ts ->
  exists f0, forall fuel, f0 <= fuel -> (exists t'', parse_source macros fuel page (spec_or_default sp) src'' = Ok t'') ->
    (forall o, convert_source macros m fuel page src'' sp = COk o <-> convert_source macros m fuel page src' sp = COk o) /\
    (forall er, convert_source macros m fuel page src'' sp = CErr er <-> convert_source macros m fuel page src' sp = CErr er) /\
    ((exists n, convert_source macros m fuel page src'' sp = CPanic n) <-> exists n, convert_source macros m fuel page src' sp = CPanic n).
Proof.
  intros macros m page sp src src' ts Hp Ht Ht' Hc Ar.
  destruct (C56_source _ _ _ _ _ Hp Ht) as [f0 H0]. exists f0. intros fuel L [t' Hf].
  destruct (C78_tree _ _ _ _ _ _ _ Hp Ht Ht' (braced_content _ Hc) (argued_braced _ _ Ar) (ex_intro _ fuel Hf)) as (ch & f1 & -> & H1).
  assert (R : reading gm_real (spec_or_default sp) (braced ts) (Node ScopeRoot ch)).
  { pose proof (H1 (Nat.max f0 f1) ltac:(lia)) as K. now apply (proj1 (H0 (Nat.max f0 f1) ltac:(lia))) in K. }
  assert (Hs : parse_source macros fuel page (spec_or_default sp) src = Ok (Node ScopeRoot ch)) by now apply (proj1 (H0 fuel L)).
  replace (braced ts) with (List.concat (map braced [ts])) in R by (cbn [map List.concat]; apply app_nil_r).
  apply reading_braces in R as (gs & Hg & E); [|now constructor]. inversion Hg as [|x1 g xs1 gs1 G1 G2]; subst. inversion G2; subst. injection E as ->.
  pose proof (group_kind _ _ _ _ G1) as K.
  rewrite (convert_of_tree _ _ _ _ _ _ _ Hs), (convert_of_tree _ _ _ _ _ _ _ Hf).
  pose proof (C59_parsed _ _ _ _ _ _ Hp Hs) as W1. pose proof (C59_parsed _ _ _ _ _ _ Hp Hf) as W2.
  destruct (outcome_same DEFAULT_SPEC m m [] [] _ _ W1 W2) as (A & B & C); [intros o; now apply twice_converts|].
  split; [|split; [exact B|exact C]]. intros o. rewrite A. cbn [app]. split; [intros (x & Hx & ->); now rewrite app_nil_r|]. intros Hx. exists o. now rewrite app_nil_r.
Qed.
Print Assumptions C80_output.

(** A case that meets the hypotheses, with a row end, which C79 excludes. *)
Definition C80_body : text := tx "\frac{a}{b {c d}} \\ \begin{pmatrix} x & y \\ u & v \end{pmatrix} \left( z_1^{{2}} \right) \textbf{so} \sum\limits_i".
Definition C80_once : text := tx "{" ++ C80_body ++ tx "}".
Definition C80_twice : text := tx "{" ++ C80_once ++ tx "}".
Example C80_example :
  tokens_of false PAGE DEFAULT_SPEC C80_once (braced (C77_toks C80_body)) /\
  tokens_of false PAGE DEFAULT_SPEC C80_twice (braced (braced (C77_toks C80_body))) /\
  content_of_group (C77_toks C80_body) /\ argued DEFAULT_SPEC (C77_toks C80_body) /\
  (exists t', parse_source false 1500 PAGE DEFAULT_SPEC C80_twice = Ok t') /\
  exists o, convert_source false MMath 1500 PAGE C80_once None = COk o /\
    convert_source false MMath 1500 PAGE C80_twice None = COk o /\ 60 <= List.length o.
Proof.
  split; [split; [vm_compute; reflexivity|vm_compute; reflexivity]|].
  split; [split; [vm_compute; reflexivity|vm_compute; reflexivity]|].
  split; [apply enclosed_b_ok; vm_compute; reflexivity|]. split; [apply argued_b_ok; vm_compute; reflexivity|].
  split; [eexists; vm_compute; reflexivity|]. eexists. split; [vm_compute; reflexivity|]. split; [vm_compute; reflexivity|]. apply Nat.leb_le. vm_compute. reflexivity.
Qed.

(* ------------------------------------------------------------------ *)
(** * When the braced source can be read *)
(** With C23's conditions on the tokens of [src] (no postfix or infix command
    after a script mark; no environment with greedy arguments in the
    specification) nothing needs to be known about the braced source. *)
Lemma scripts_closed sp ts : scripts_ok sp ts -> scripts_ok sp (ts ++ [rbrace]).
Proof.
  assert (K : ~ takes_left sp rbrace) by (intros [H _]; cbn in H; discriminate H).
  induction ts as [|t r IH]; intros H.
  - cbn [app scripts_ok]. split; [intros X; discriminate X|exact I].
  - cbn [app scripts_ok] in *. destruct H as [H1 H2]. split; [|now apply IH]. intros E. specialize (H1 E). clear -H1 K.
    induction r as [|u r IH]; [exact K|]. rewrite <- app_comm_cons. destruct u as [k s']. cbn [ParserText.skip_trivia fst] in *. destruct (is_trivia k); [now apply IH|exact H1].
Qed.
Lemma scripts_braced sp ts : scripts_ok sp ts -> scripts_ok sp (braced ts).
Proof. intros H. split; [intros X; discriminate X|now apply scripts_closed]. Qed.
Lemma braced_read macros page sp src' ts : 2 <= page -> tokens_of macros page sp src' (braced ts) -> no_greedy_environments sp -> scripts_ok sp ts ->
  exists f0, forall fuel, f0 <= fuel -> exists t', parse_source macros fuel page sp src' = Ok t'.
Proof.
  intros Hp Ht Hg Hs. destruct (C23_source_partial _ _ _ _ _ Hp Ht Hg (scripts_braced _ _ Hs)) as (t & f0 & H). exists f0. intros fuel L. exists t. now apply H.
Qed.
Definition converted_alike (macros : bool) (m : mode) (page : nat) (sp : option spec) (src src' : text) : Prop :=
  exists f0, forall fuel, f0 <= fuel ->
    (forall o, convert_source macros m fuel page src' sp = COk o <-> convert_source macros m fuel page src sp = COk o) /\
    (forall er, convert_source macros m fuel page src' sp = CErr er <-> convert_source macros m fuel page src sp = CErr er) /\
    ((exists n, convert_source macros m fuel page src' sp = CPanic n) <-> exists n, convert_source macros m fuel page src sp = CPanic n).
Theorem C78_always : forall macros page sp src src' ts, 2 <= page ->
  tokens_of macros page (spec_or_default sp) src ts -> tokens_of macros page (spec_or_default sp) src' (braced ts) ->
  content_of_group ts -> argued (spec_or_default sp) ts -> no_greedy_environments (spec_or_default sp) -> scripts_ok (spec_or_default sp) ts ->
  converted_alike macros MText page sp src src'.
Proof.
  intros macros page sp src src' ts Hp Ht Ht' Hc Ar Hg Hs. destruct (braced_read _ _ _ _ _ Hp Ht' Hg Hs) as [f1 H1].
  destruct (C78_output _ _ _ _ _ _ Hp Ht Ht' Hc Ar) as [f0 H0]. exists (Nat.max f0 f1). intros fuel L. apply H0; [lia|]. apply H1. lia.
Qed.
Print Assumptions C78_always.
Theorem C79_always : forall macros page sp src src' ts, 2 <= page ->
  tokens_of macros page (spec_or_default sp) src ts -> tokens_of macros page (spec_or_default sp) src' (braced ts) ->
  content_of_group ts -> argued (spec_or_default sp) ts -> no_greedy_environments (spec_or_default sp) -> scripts_ok (spec_or_default sp) ts ->
  Forall (fun u => fst u <> NewLine /\ snd u <> tx "\label") ts ->
  exists z, (z = [] \/ z = tx "zws ") /\ exists f0, forall fuel, f0 <= fuel ->
    (forall o, convert_source macros MMath fuel page src' sp = COk o <-> exists x, convert_source macros MMath fuel page src sp = COk x /\ o = x ++ z) /\
    (forall er, convert_source macros MMath fuel page src' sp = CErr er <-> convert_source macros MMath fuel page src sp = CErr er) /\
    ((exists n, convert_source macros MMath fuel page src' sp = CPanic n) <-> exists n, convert_source macros MMath fuel page src sp = CPanic n).
Proof.
  intros macros page sp src src' ts Hp Ht Ht' Hc Ar Hg Hs Hn. destruct (braced_read _ _ _ _ _ Hp Ht' Hg Hs) as [f1 H1].
  destruct (C23_source_partial _ _ _ _ _ Hp Ht Hg Hs) as (t & f2 & H2).
  destruct (C79_plain _ _ _ _ _ _ _ Hp Ht Ht' Hc Ar (ex_intro _ f2 (H2 f2 (le_n _))) Hn) as [f0 H0].
  exists (if blank_only t then tx "zws " else []). split; [destruct (blank_only t); auto|].
  exists (Nat.max f0 f1). intros fuel L. apply H0; [lia|]. apply H1. lia.
Qed.
Print Assumptions C79_always.
Theorem C80_always : forall macros m page sp src' src'' ts, 2 <= page ->
  tokens_of macros page (spec_or_default sp) src' (braced ts) -> tokens_of macros page (spec_or_default sp) src'' (braced (braced ts)) ->
  content_of_group ts -> argued (spec_or_default sp) ts -> no_greedy_environments (spec_or_default sp) -> scripts_ok (spec_or_default sp) ts ->
  converted_alike macros m page sp src' src''.
Proof.
  intros macros m page sp src' src'' ts Hp Ht Ht' Hc Ar Hg Hs. destruct (braced_read _ _ _ _ _ Hp Ht' Hg (scripts_braced _ _ Hs)) as [f1 H1].
  destruct (C80_output _ m _ _ _ _ _ Hp Ht Ht' Hc Ar) as [f0 H0]. exists (Nat.max f0 f1). intros fuel L. apply H0; [lia|]. apply H1. lia.
Qed.
Print Assumptions C80_always.
(** The example of C80 and the default specification meet these conditions too. *)
Fixpoint scripts_b (sp : spec) (ts : list tok) : bool :=
  match ts with
  | [] => true
  | t :: r => (negb (is_script (fst t)) || match ParserText.skip_trivia r with u :: _ => match fst u with CommandName _ => false | _ => true end | [] => true end) && scripts_b sp r
  end.
Lemma scripts_b_ok sp ts : scripts_b sp ts = true -> scripts_ok sp ts.
Proof.
  induction ts as [|t r IH]; cbn [scripts_b scripts_ok]; [auto|]. intros H. apply andb_prop in H as [H1 H2]. split; [|auto].
  intros E. rewrite E in H1. cbn [negb orb] in H1. destruct (ParserText.skip_trivia r) as [|u r']; [exact I|]. intros [K _]. destruct (fst u) as [| | |b|b| | | | | | | | | | | | | | | |c| |n]; try discriminate K; try discriminate H1; destruct b; discriminate K.
Qed.
Example C80_conditions : no_greedy_environments DEFAULT_SPEC /\ scripts_ok DEFAULT_SPEC (C77_toks C80_body).
Proof. split; [exact C23_default_spec|]. apply scripts_b_ok. vm_compute. reflexivity. Qed.

(* ------------------------------------------------------------------ *)
(** * C77: which of the delimiters are used does not matter *)
(** A formula between [$]s is converted like the same formula between [\(] and
    [\)], one between [$$]s like the one between [\[] and [\]]. *)
Theorem C77_delimiters : forall macros page sp src src1 src2 ts a1 b1 a2 b2 s e, 2 <= page ->
  tokens_of macros page (spec_or_default sp) src ts ->
  tokens_of macros page (spec_or_default sp) src1 (a1 :: ts ++ [b1]) -> tokens_of macros page (spec_or_default sp) src2 (a2 :: ts ++ [b2]) ->
  In (a1, b1, (s, e)) opening_closing -> In (a2, b2, (s, e)) opening_closing -> argued (spec_or_default sp) ts ->
  exists f0, forall fuel, f0 <= fuel ->
    (exists ch, parse_source macros fuel page (spec_or_default sp) src1 = Ok (Node ScopeRoot [formula a1 ch b1])) ->
    (exists ch, parse_source macros fuel page (spec_or_default sp) src2 = Ok (Node ScopeRoot [formula a2 ch b2])) ->
    (forall o, convert_source macros MText fuel page src1 sp = COk o <-> convert_source macros MText fuel page src2 sp = COk o) /\
    (forall er, convert_source macros MText fuel page src1 sp = CErr er <-> convert_source macros MText fuel page src2 sp = CErr er) /\
    ((exists n, convert_source macros MText fuel page src1 sp = CPanic n) <-> exists n, convert_source macros MText fuel page src2 sp = CPanic n).
Proof.
  intros macros page sp src src1 src2 ts a1 b1 a2 b2 s e Hp Ht H1 H2 I1 I2 Ar.
  destruct (C77_output _ _ _ _ _ _ _ _ _ _ Hp Ht H1 I1 Ar) as [f1 K1]. destruct (C77_output _ _ _ _ _ _ _ _ _ _ Hp Ht H2 I2 Ar) as [f2 K2].
  exists (Nat.max f1 f2). intros fuel L P1 P2. destruct (K1 fuel ltac:(lia) P1) as (A1 & B1 & C1). destruct (K2 fuel ltac:(lia) P2) as (A2 & B2 & C2).
  split; [|split].
  - intros o. rewrite A1, A2. reflexivity.
  - intros er. rewrite B1, B2. reflexivity.
  - rewrite C1, C2. reflexivity.
Qed.
Print Assumptions C77_delimiters.
Definition C77_parens : text := tx "\(" ++ C77_body ++ tx "\)".
Example C77_delimiters_example :
  tokens_of false PAGE DEFAULT_SPEC C77_parens ((CommandName BeginMath, tx "\(") :: C77_toks C77_body ++ [(CommandName EndMath, tx "\)")]) /\
  (exists ch, parse_source false 800 PAGE DEFAULT_SPEC C77_parens = Ok (Node ScopeRoot [formula (CommandName BeginMath, tx "\(") ch (CommandName EndMath, tx "\)")])) /\
  exists o, convert_source false MText 800 PAGE C77_parens None = COk o /\ convert_source false MText 800 PAGE C77_wrapped None = COk o.
Proof.
  split; [split; [vm_compute; reflexivity|vm_compute; reflexivity]|].
  split.
  - set (x := parse_source false 800 PAGE DEFAULT_SPEC C77_parens). vm_compute in x.
    match goal with x := Ok (Node ScopeRoot [Node ItemFormula (?a :: ?l)]) |- _ => exists (removelast l) end. subst x. vm_compute. reflexivity.
  - eexists. split; vm_compute; reflexivity.
Qed.

(* ------------------------------------------------------------------ *)
(** * C78: a text put together from groups *)
(** [{s1}{s2}...] is converted, as a text, to what [s1], [s2], ... are converted
    to, one after the other ([srcs] are the sources with braces, [bares] those
    without). *)
Lemma all_alike macros page sp srcs bares xs : 2 <= page -> no_greedy_environments (spec_or_default sp) ->
  Forall2 (fun s x => tokens_of macros page (spec_or_default sp) s (braced x)) srcs xs ->
  Forall2 (fun s x => tokens_of macros page (spec_or_default sp) s x) bares xs ->
  Forall (fun x => content_of_group x /\ argued (spec_or_default sp) x /\ scripts_ok (spec_or_default sp) x) xs ->
  exists f0, forall fuel, f0 <= fuel ->
    Forall2 (fun s b => forall o, convert_source macros MText fuel page s sp = COk o <-> convert_source macros MText fuel page b sp = COk o) srcs bares.
Proof.
  intros Hp Hg H. revert bares. induction H as [|s x srcs xs Hs H IH]; intros bares B C.
  - inversion B; subst. exists 0. intros. constructor.
  - inversion B as [|b x' bares' xs' Hb B']; subst. inversion C as [|x' xs' (C1 & C2 & C3) C']; subst.
    destruct (IH _ B' C') as [f1 K1]. destruct (C78_always _ _ _ _ _ _ Hp Hb Hs C1 C2 Hg C3) as [f2 K2].
    exists (Nat.max f1 f2). intros fuel L. constructor; [exact (proj1 (K2 fuel ltac:(lia)))|apply K1; lia].
Qed.
Theorem C78_concat : forall macros page sp src srcs bares xs, 2 <= page ->
  tokens_of macros page (spec_or_default sp) src (List.concat (map braced xs)) ->
  Forall2 (fun s x => tokens_of macros page (spec_or_default sp) s (braced x)) srcs xs ->
  Forall2 (fun s x => tokens_of macros page (spec_or_default sp) s x) bares xs ->
  no_greedy_environments (spec_or_default sp) ->
  Forall (fun x => content_of_group x /\ argued (spec_or_default sp) x /\ scripts_ok (spec_or_default sp) x) xs ->
  Forall (Forall (fun u => snd u <> tx "\label")) xs ->
  exists f0, forall fuel, f0 <= fuel ->
    (forall o, convert_source macros MText fuel page src sp = COk o <->
       exists os, Forall2 (fun b x => convert_source macros MText fuel page b sp = COk x) bares os /\ o = List.concat os).
Proof.
  intros macros page sp src srcs bares xs Hp Ht Hs Hb Hg Hc Hl.
  destruct (all_alike _ _ _ _ _ _ Hp Hg Hs Hb Hc) as [f1 K1].
  assert (Hx : Forall content_of_group xs) by (eapply Forall_impl; [|exact Hc]; intros x X; apply X).
  destruct (C70_concat macros MText page sp src srcs xs Hp Ht Hs Hx Hl) as [f2 K2].
  exists (Nat.max f1 f2). intros fuel L o. destruct (K2 fuel ltac:(lia)) as [K _]. specialize (K1 fuel ltac:(lia)). rewrite K.
  assert (E : forall os, Forall2 (fun s x => convert_source macros MText fuel page s sp = COk x) srcs os <->
                         Forall2 (fun b x => convert_source macros MText fuel page b sp = COk x) bares os).
  { clear -K1. induction K1 as [|s b srcs bares E F IH]; intros os; (split; intros H; inversion H; subst; constructor); try (apply E; assumption); apply IH; assumption. }
  split; intros (os & H & ->); exists os; (split; [now apply E|reflexivity]).
Qed.
Print Assumptions C78_concat.
Definition C78_a : text := tx "Let $x_{1}$ be \textbf{bold}, ".
Definition C78_b : text := tx "\begin{itemize} \item one \item $\begin{array}{c} y \end{array}$ \end{itemize} and {so} on.".
Example C78_concat_example :
  tokens_of false PAGE DEFAULT_SPEC (tx "{" ++ C78_a ++ tx "}{" ++ C78_b ++ tx "}") (List.concat (map braced [C77_toks C78_a; C77_toks C78_b])) /\
  Forall2 (fun s x => tokens_of false PAGE DEFAULT_SPEC s (braced x)) [tx "{" ++ C78_a ++ tx "}"; tx "{" ++ C78_b ++ tx "}"] [C77_toks C78_a; C77_toks C78_b] /\
  Forall2 (fun s x => tokens_of false PAGE DEFAULT_SPEC s x) [C78_a; C78_b] [C77_toks C78_a; C77_toks C78_b] /\
  Forall (fun x => content_of_group x /\ argued DEFAULT_SPEC x /\ scripts_ok DEFAULT_SPEC x) [C77_toks C78_a; C77_toks C78_b] /\
  exists o1 o2, convert_source false MText 1500 PAGE C78_a None = COk o1 /\ convert_source false MText 1500 PAGE C78_b None = COk o2 /\
    convert_source false MText 1500 PAGE (tx "{" ++ C78_a ++ tx "}{" ++ C78_b ++ tx "}") None = COk (o1 ++ o2) /\ 80 <= List.length (o1 ++ o2).
Proof.
  split; [split; vm_compute; reflexivity|].
  split; [constructor; [split; vm_compute; reflexivity|constructor; [split; vm_compute; reflexivity|constructor]]|].
  split; [constructor; [split; vm_compute; reflexivity|constructor; [split; vm_compute; reflexivity|constructor]]|].
  split.
  { constructor; [|constructor; [|constructor]]; (split; [apply enclosed_b_ok; vm_compute; reflexivity|split; [apply argued_b_ok; vm_compute; reflexivity|apply scripts_b_ok; vm_compute; reflexivity]]). }
  eexists. eexists. split; [vm_compute; reflexivity|]. split; [vm_compute; reflexivity|]. split; [vm_compute; reflexivity|]. apply Nat.leb_le. vm_compute. reflexivity.
Qed.
