(** C76: the names of a user's macros do not matter: a consistent renaming gives
    the renamed expansion, hence the same conversion if no renamed command is
    left over.

    The meaning of macros is that of ExpandSpec.v, through C58; the renaming is
    written out here, on tokens. *)
From Verif Require Import Api P_Lex DelimSpec P_Delim P_Macro ParserSource ParserEnd P_Parser P_Conv3 DefaultSpec P_Render P_Expand ExpandSpec.
Local Open Scope N_scope.

(** ** Renamings *)
(** the names with a meaning from the start *)
Definition reserved : list string :=
  List.map fst command_definers ++ List.map fst environment_definers ++ taken_names ++
  ["mitexrecurse"; "invalid number of arguments"]%string.
(** different names stay different, and reserved names keep their meaning *)
Definition renaming (pi : text -> text) : Prop :=
  (forall a b, pi a = pi b -> a = b) /\ Forall (fun n => pi (tx n) = tx n) reserved.
(** only the names of commands (and the names in error tokens) are replaced *)
Definition renamed (pi : text -> text) (t : tok) : tok :=
  match t with
  | (CommandName Generic, c :: n) => (CommandName Generic, c :: pi n)
  | (TError, s) => (TError, pi s)
  | _ => t
  end.
(** commands with a lexical meaning ([\left], [\iftrue], ...) are not renamed,
    and no environments are defined *)
Definition renamable (pi : text -> text) (t : tok) : Prop :=
  match t with
  | (CommandName Generic, _ :: n) => existsb (fun d => teqb n (tx (fst d))) environment_definers = false
  | (CommandName Generic, []) => True
  | (CommandName _, _ :: n) => pi n = n
  | _ => True
  end.

Section Rename.
  Variable pi : text -> text.
  Hypothesis Hpi : renaming pi.
  Notation r := (renamed pi).
  Notation rs := (List.map (renamed pi)).
  Notation ok := (Forall (renamable pi)).
  Lemma inj a b : pi a = pi b -> a = b. Proof. apply Hpi. Qed.
  Lemma fixes n : In n reserved -> pi (tx n) = tx n.
  Proof. intros H. destruct Hpi as [_ F]. rewrite Forall_forall in F. now apply F. Qed.
  Lemma in_reserved n : existsb (String.eqb n) reserved = true -> In n reserved.
  Proof. intros H. apply existsb_exists in H as (x & H & E). apply String.eqb_eq in E. now subst x. Qed.
  Lemma unreserved n s : In s reserved -> pi n = tx s -> n = tx s.
  Proof. intros H E. rewrite <- (fixes s H) in E. now apply inj. Qed.
  Lemma r_kind t : fst (r t) = fst t.
  Proof. destruct t as [[] s]; try reflexivity. destruct c; try reflexivity. destruct s; reflexivity. Qed.
  Lemma r_same t : fst t <> CommandName Generic -> fst t <> TError -> r t = t.
  Proof. destruct t as [[] s]; cbn [fst]; intros H1 H2; try reflexivity; try congruence. destruct c; try reflexivity; congruence. Qed.
  Lemma r_word s : r (Word, s) = (Word, s). Proof. reflexivity. Qed.

  Lemma trivia_rs l : trivia l -> trivia (rs l).
  Proof. intros H. apply Forall_map. eapply Forall_impl; [|exact H]. intros t E. now rewrite r_kind. Qed.
  Lemma past_rs l a : past_trivia l a -> past_trivia (rs l) (rs a).
  Proof.
    intros (w & W & -> & S). exists (rs w). split; [now apply trivia_rs|]. split; [apply map_app|]. destruct a as [|t a]; [exact I|]. cbn. now rewrite r_kind.
  Qed.
  Lemma past_ok l a : past_trivia l a -> ok l -> ok a.
  Proof. intros (w & _ & -> & _) H. now apply Forall_app in H. Qed.
  Lemma total_rs w l : (forall t, w (r t) = w t) -> total w (rs l) = total w l.
  Proof. intros H. induction l as [|t l IH]; [reflexivity|]. cbn. fold (total w (rs l)) (total w l). now rewrite H, IH. Qed.
  Lemma curly_r t : curly_weight (r t) = curly_weight t. Proof. unfold curly_weight. now rewrite r_kind. Qed.
  Lemma if_r t : if_weight (r t) = if_weight t. Proof. unfold if_weight. now rewrite r_kind. Qed.
  Lemma upto_rs w (P : token -> Prop) l a b : (forall t, w (r t) = w t) -> upto w P l a b -> upto w P (rs l) (rs a) (rs b).
  Proof.
    intros Hw (-> & F & E). split; [apply map_app|]. split.
    - intros a1 y b1 H Hy. apply map_eq_app in H as (a0 & c & -> & <- & H). destruct c as [|y0 c]; [discriminate H|]. injection H as <- <-.
      rewrite total_rs by exact Hw. apply (F a0 y0 c eq_refl). now rewrite r_kind in Hy.
    - destruct b as [|y b]; [exact I|]. cbn. rewrite r_kind. destruct E as [E1 E2]. split; [exact E1|]. now rewrite total_rs.
  Qed.
  Lemma enclosed_rs bk l a b : enclosed bk l a b -> enclosed bk (rs l) (rs a) (rs b).
  Proof. intros (c & U & ->). exists (rs c). split; [now apply upto_rs; [exact curly_r|]|]. destruct c; reflexivity. Qed.
  Lemma enclosed_ok bk l a b : enclosed bk l a b -> ok l -> ok a /\ ok b.
  Proof. intros (c & (-> & _) & ->) H. apply Forall_app in H as [H1 H2]. split; [exact H1|]. destruct c; [exact H2|]. now apply Forall_cons_iff in H2. Qed.
  Lemma single_rs bk l p b : single bk l p b -> single bk (rs l) (option_map r p) (rs b).
  Proof.
    intros H. destruct H as [l H|l t l1 H1 H2|l t l1 y b H1 H2 E|l t l1 y b H1 H2 E]; cbn [option_map].
    - apply sg_empty. exact (past_rs _ _ H).
    - apply (sg_end bk (rs l) (r t) (rs l1)); [exact (past_rs _ _ H1)|exact (past_rs _ _ H2)].
    - apply (sg_closed bk (rs l) (r t) (rs l1) (r y)); [exact (past_rs _ _ H1)|exact (past_rs _ _ H2)|now rewrite r_kind].
    - apply (sg_open bk (rs l) (r t) (rs l1) (r y)); [exact (past_rs _ _ H1)|exact (past_rs _ _ H2)|now rewrite r_kind].
  Qed.
  Lemma single_ok bk l p b : single bk l p b -> ok l -> ok b /\ (forall t, p = Some t -> renamable pi t).
  Proof.
    intros H O. destruct H as [l H|l t l1 H1 H2|l t l1 y b H1 H2 E|l t l1 y b H1 H2 E].
    - split; [constructor|discriminate].
    - split; [constructor|discriminate].
    - apply past_ok in H1; [|exact O]. apply Forall_cons_iff in H1 as [T O1]. apply past_ok in H2; [|exact O1]. apply Forall_cons_iff in H2 as [_ O2].
      split; [exact O2|]. now intros ? [= <-].
    - apply past_ok in H1; [|exact O]. apply Forall_cons_iff in H1 as [T O1]. apply past_ok in H2; [|exact O1].
      split; [exact H2|]. now intros ? [= <-].
  Qed.

  (** arguments *)
  Lemma letters_rs cs : List.map rs (List.map (fun c => [(Word, [c])]) cs) = List.map (fun c => [(Word, [c])]) cs.
  Proof. rewrite map_map. now apply map_ext. Qed.
  Lemma letters_ok cs : Forall (fun a => ok a) (List.map (fun c => [(Word, [c])] : list tok) cs).
  Proof. apply Forall_map. apply Forall_forall. intros c _. constructor; [exact I|constructor]. Qed.
  Lemma word_rs v : rs (word_or_nothing v) = word_or_nothing v. Proof. now destruct v. Qed.
  Lemma word_ok' v : ok (word_or_nothing v). Proof. destruct v; [constructor|constructor; [exact I|constructor]]. Qed.
  Lemma arguments_rs n l args m b : arguments n l args m b -> arguments n (rs l) (List.map rs args) m (rs b).
  Proof.
    intros H. induction H as [l|n l H|n l x l1 a q args m b H E N _ IH|n l cs v l1 H E|n l cs l1 args m b H _ IH|n l t l1 args m b H E1 E2 _ IH].
    - constructor.
    - apply ar_end. exact (past_rs _ _ H).
    - cbn [List.map]. apply (ar_group n (rs l) (r x) (rs l1) (rs a) (rs q)); [exact (past_rs _ _ H)|now rewrite r_kind|now apply enclosed_rs|exact IH].
    - rewrite letters_rs, map_app, word_rs. apply ar_long_word; [exact (past_rs _ _ H)|exact E].
    - rewrite map_app, letters_rs. apply (ar_short_word n (rs l) cs (rs l1)); [exact (past_rs _ _ H)|exact IH].
    - cbn [List.map]. apply (ar_token n (rs l) (r t) (rs l1)); [exact (past_rs _ _ H)|now rewrite r_kind|now rewrite r_kind|exact IH].
  Qed.
  Lemma arguments_ok n l args m b : arguments n l args m b -> ok l -> Forall (fun a => ok a) args /\ ok b.
  Proof.
    intros H. induction H as [l|n l H|n l x l1 a q args m b H E N _ IH|n l cs v l1 H E|n l cs l1 args m b H _ IH|n l t l1 args m b H E1 E2 _ IH]; intros O.
    - split; [constructor|exact O].
    - split; constructor.
    - apply past_ok in H; [|exact O]. apply Forall_cons_iff in H as [_ H]. apply enclosed_ok in N as [N1 N2]; [|exact H]. destruct (IH N2). split; [now constructor|assumption].
    - apply past_ok in H; [|exact O]. apply Forall_cons_iff in H as [_ H]. split; [apply letters_ok|]. apply Forall_app. split; [apply word_ok'|exact H].
    - apply past_ok in H; [|exact O]. apply Forall_cons_iff in H as [_ H]. destruct (IH H). split; [apply Forall_app; split; [apply letters_ok|assumption]|assumption].
    - apply past_ok in H; [|exact O]. apply Forall_cons_iff in H as [T H]. destruct (IH H). split; [constructor; [constructor; [exact T|constructor]|assumption]|assumption].
  Qed.
  Lemma supplied_rs o args m res : supplied o args m res -> supplied (option_map rs o) (List.map rs args) m (option_map (List.map rs) res).
  Proof.
    intros H. destruct H as [args|args d E|args E|args m]; cbn [option_map]; try constructor.
    - rewrite map_app. cbn [List.map]. apply su_default. now rewrite E.
    - now rewrite E.
  Qed.
  Lemma supplied_ok o args m res : supplied o args (m : nat) (Some res) -> Forall (fun a => ok a) args -> (forall d, o = Some d -> ok d) -> Forall (fun a => ok a) res.
  Proof. intros H A D. inversion H; subst; [exact A|]. apply Forall_app. split; [exact A|]. constructor; [auto|constructor]. Qed.

  (** bodies *)
  Scheme instance_m := Minimality for instance Sort Prop
    with verbatim_m := Minimality for verbatim Sort Prop.
  Lemma instance_rs args : (forall b o, instance args b o -> instance (List.map rs args) (rs b) (rs o)) /\
    (forall d b o, verbatim args d b o -> verbatim (List.map rs args) d (rs b) (rs o)).
  Proof.
    assert (H : forall P Q : Prop, (P /\ Q) -> P /\ Q) by auto.
    split; [apply (instance_m args (fun b o => instance (List.map rs args) (rs b) (rs o)) (fun d b o => verbatim (List.map rs args) d (rs b) (rs o)))
           |apply (verbatim_m args (fun b o => instance (List.map rs args) (rs b) (rs o)) (fun d b o => verbatim (List.map rs args) d (rs b) (rs o)))].
    all: clear H; intros; cbn [List.map]; rewrite ?map_app.
    all: try (constructor; rewrite ?r_kind; auto; fail).
    all: try (replace (rs (nth (N.to_nat (i - 1)) args [])) with (nth (N.to_nat (i - 1)) (List.map rs args) []) by (change (@nil tok) with (rs []) at 1; apply map_nth); now constructor).
    all: try (apply in_command; [|assumption]; intros E; now apply (unreserved name "mitexrecurse") in E; [|apply in_reserved; vm_compute; reflexivity]).
    all: try (change (renamed pi (cmd (tx "mitexrecurse"))) with (cmd (pi (tx "mitexrecurse"))); rewrite (fixes "mitexrecurse") by (apply in_reserved; vm_compute; reflexivity); now apply in_recurse).
    all: try (apply vb_single; rewrite ?r_kind; auto; unfold is_curly in *; now rewrite r_kind).
    all: try (apply vb_inside; rewrite ?r_kind; auto; unfold is_curly in *; now rewrite r_kind).
    all: try (apply in_tok; rewrite ?r_kind; auto).
  Qed.
  Lemma nth_ok args : Forall (fun a => ok a) args -> forall n, ok (nth n args []).
  Proof. intros H. induction H; intros [|n]; cbn; auto. Qed.
  Lemma instance_ok args : Forall (fun a => ok a) args -> (forall b o, instance args b o -> ok b -> ok o) /\ (forall d b o, verbatim args d b o -> ok b -> ok o).
  Proof.
    intros A. split; [apply (instance_m args (fun b o => ok b -> ok o) (fun d b o => ok b -> ok o))|apply (verbatim_m args (fun b o => ok b -> ok o) (fun d b o => ok b -> ok o))].
    all: intros; try match goal with H : ok (_ :: _) |- _ => apply Forall_cons_iff in H as [? ?] end; auto.
    all: try (apply Forall_app; split; [now apply nth_ok|auto]).
  Qed.
  Lemma digit_r t : digit_word (r t) -> digit_word t.
  Proof. intros (c & w & E & D). assert (K : fst t = Word) by (rewrite <- r_kind, E; reflexivity). rewrite r_same in E by (rewrite K; discriminate). now exists c, w. Qed.
  Lemma marks_rs b d f : marks_of b d f -> marks_of (rs b) (rs d) f.
  Proof.
    intros H. induction H as [|h c w q q' f D _ IH|h t q q' f D _ IH|t q q' f D _ IH]; cbn [List.map] in *.
    - constructor.
    - now apply (mk_param h c w (rs q) (rs q') f).
    - apply (mk_hash h (r t) (rs q) (rs q') f); [intros X; now apply D, digit_r|exact IH].
    - apply mk_tok; [now rewrite r_kind|exact IH].
  Qed.
  Lemma marks_ok b d f : marks_of b d f -> ok b -> ok d.
  Proof.
    intros H. induction H as [|h c w q q' f D _ IH|h t q q' f D _ IH|t q q' f D _ IH]; intros O.
    - constructor.
    - apply Forall_cons_iff in O as [_ O]. apply Forall_cons_iff in O as [_ O]. constructor; [exact I|]. constructor; [exact I|auto].
    - apply Forall_cons_iff in O as [_ O]. constructor; [exact I|auto].
    - apply Forall_cons_iff in O as [T O]. constructor; [exact T|auto].
  Qed.
  Lemma empties_rs l : without_empty_words (rs l) = rs (without_empty_words l).
  Proof.
    induction l as [|t l IH]; [reflexivity|]. cbn [List.map without_empty_words filter]. fold (without_empty_words (rs l)) (without_empty_words l). rewrite IH.
    destruct t as [[] s]; try reflexivity; [destruct s; reflexivity|]. destruct c; try reflexivity. destruct s; reflexivity.
  Qed.
  Lemma stored_rs b d : stored_as b d -> stored_as (rs b) (rs d).
  Proof. intros (x & f & M & ->). exists (rs x), f. split; [now apply marks_rs|]. destruct f; [symmetry; apply empties_rs|reflexivity]. Qed.
  Lemma stored_ok b d : stored_as b d -> ok b -> ok d.
  Proof. intros (x & f & M & ->) O. apply marks_ok in M; [|exact O]. destruct f; [|exact M]. rewrite Forall_forall in M |- *. intros t H. apply filter_In in H as [H _]. auto. Qed.

  (** definitions *)
  Lemma r_to_word t s : r t = (Word, s) -> t = (Word, s).
  Proof. intros E. assert (K : fst t = Word) by (rewrite <- r_kind, E; reflexivity). now rewrite r_same in E by (rewrite K; discriminate). Qed.
  Lemma name_rs p name : name_in false p name -> (forall t, p = Some t -> renamable pi t) -> name_in false (option_map r p) (option_map pi name).
  Proof.
    intros H O. inversion H as [s E|k n E|q E1 E2]; subst; [discriminate| |].
    - specialize (O _ eq_refl). cbn [option_map]. destruct k; try (change (renamed pi (CommandName ?k, 92 :: n)) with (CommandName k, 92 :: n)); cbn in O |- *;
        try rewrite O; now apply na_command.
    - apply na_none; [intros X; discriminate X|]. intros _ k s X. destruct p as [t|]; [|discriminate X]. cbn [option_map] in X. injection X as X.
      destruct t as [[] s0]; try discriminate X.
      all: now eapply (E2 eq_refl).
  Qed.
  Lemma named_rs l name b : named false l name b -> ok l -> named false (rs l) (option_map pi name) (rs b).
  Proof.
    intros H O. inversion H as [l0 b0 H1 H2|l0 x l1 p n b0 H1 E H2 H3]; subst.
    - apply nm_none; [exact (past_rs _ _ H1)|]. intros t q E. destruct b as [|t0 b]; [discriminate E|]. injection E as <- _. rewrite r_kind. exact (H2 t0 b eq_refl).
    - assert (O1 := past_ok _ _ H1 O). apply Forall_cons_iff in O1 as [_ O1]. assert (O2 := single_ok _ _ _ _ H2 O1).
      apply (nm_braced false (rs l) (r x) (rs l1) (option_map r p)); [exact (past_rs _ _ H1)|now rewrite r_kind|exact (single_rs _ _ _ _ H2)|].
      apply name_rs; [exact H3|apply O2].
  Qed.
  Lemma named_ok l name b : named false l name b -> ok l -> ok b.
  Proof.
    intros H O. inversion H as [l0 b0 H1 H2|l0 x l1 p n b0 H1 E H2 H3]; subst; [exact (past_ok _ _ H1 O)|].
    assert (O1 := past_ok _ _ H1 O). apply Forall_cons_iff in O1 as [_ O1]. exact (proj1 (single_ok _ _ _ _ H2 O1)).
  Qed.
  Definition sg (x : nat * option (list tok)) := (fst x, option_map rs (snd x)).
  Lemma signature_rs l x b : signature l x b -> signature (rs l) (option_map sg x) (rs b).
  Proof.
    intros H. destruct H as [l H|x l p b E H1 H2|x l s n b E H1 H2 H3|x l s n y q o b E H1 H2 E2 H3]; cbn [option_map List.map].
    - apply si_none. intros t q E. destruct l as [|t0 l]; [discriminate E|]. injection E as <- _. rewrite r_kind. exact (H t0 l eq_refl).
    - apply (si_bad (r x) (rs l) (option_map r p)); [now rewrite r_kind|exact (single_rs _ _ _ _ H1)|].
      intros s n X. destruct p as [t|]; [|discriminate X]. cbn [option_map] in X. injection X as X. apply r_to_word in X as ->. now apply H2.
    - apply (si_count (r x) (rs l) s n (rs b)); [now rewrite r_kind|exact (single_rs _ _ _ _ H1)|exact H2|].
      intros t q X. destruct b as [|t0 b]; [discriminate X|]. injection X as <- _. rewrite r_kind. exact (H3 t0 b eq_refl).
    - apply (si_default (r x) (rs l) s n (r y) (rs q) (rs o) (rs b)); [now rewrite r_kind|exact (single_rs _ _ _ _ H1)|exact H2|now rewrite r_kind|now apply enclosed_rs].
  Qed.
  Lemma signature_ok l x b : signature l x b -> ok l -> ok b /\ (forall n o, x = Some (n, Some o) -> ok o).
  Proof.
    intros H O. destruct H as [l H|x l p b E H1 H2|x l s n b E H1 H2 H3|x l s n y q o b E H1 H2 E2 H3].
    - split; [exact O|discriminate].
    - apply Forall_cons_iff in O as [_ O]. apply single_ok in H1 as [H1 _]; [|exact O]. split; [exact H1|discriminate].
    - apply Forall_cons_iff in O as [_ O]. apply single_ok in H1 as [H1 _]; [|exact O]. split; [exact H1|discriminate].
    - apply Forall_cons_iff in O as [_ O]. apply single_ok in H1 as [H1 _]; [|exact O]. apply Forall_cons_iff in H1 as [_ H1]. apply enclosed_ok in H3 as [H3 H4]; [|exact H1].
      split; [exact H4|]. now intros ? ? [= _ <-].
  Qed.
  Lemma body_rs l a b : body_in l a b -> body_in (rs l) (rs a) (rs b).
  Proof. intros H. destruct H as [x l a b E H|t l E]; [apply (bo_group (r x)); [now rewrite r_kind|now apply enclosed_rs]|apply (bo_token (r t)); now rewrite r_kind]. Qed.
  Lemma body_ok l a b : body_in l a b -> ok l -> ok a /\ ok b.
  Proof. intros H O. destruct H as [x l a b E H|t l E]; apply Forall_cons_iff in O as [T O]; [exact (enclosed_ok _ _ _ _ H O)|split; [constructor; [exact T|constructor]|exact O]]. Qed.

  (** meanings *)
  Definition mng (m : meaning) : meaning :=
    match m with Command n o b => Command n (option_map rs o) (rs b) | _ => m end.
  Definition harmless (m : meaning) : Prop :=
    match m with
    | Definer true _ => True
    | Command _ o b => ok b /\ (forall d, o = Some d -> ok d)
    | Environment _ _ _ _ => False
    | _ => True
    end.
  Definition def_ (d : option (text * meaning)) := option_map (fun x => (pi (fst x), mng (snd x))) d.
  Lemma definition_rs l d b : definition false l d b -> ok l -> definition false (rs l) (def_ d) (rs b).
  Proof.
    intros H O. inversion H as [l0 b0 H1|l0 n l1 b0 H1 H2|l0 n l1 p H1 H2|l0 name l1 n o l2 body df b0 E H1 H2 H3 H4| | |]; subst; try discriminate; cbn [def_ option_map].
    - apply de_no_name. exact (named_rs _ _ _ H1 O).
    - eapply de_no_signature; [exact (named_rs _ _ _ H1 O)|exact (signature_rs _ _ _ H2)].
    - eapply de_no_body; [exact (named_rs _ _ _ H1 O)|exact (signature_rs _ _ _ H2)].
    - cbn [fst snd mng]. eapply de_command; [reflexivity|exact (named_rs _ _ _ H1 O)|exact (signature_rs _ _ _ H2)|exact (body_rs _ _ _ H3)|exact (stored_rs _ _ H4)].
  Qed.
  Lemma definition_ok l d b : definition false l d b -> ok l -> ok b /\ (forall name m, d = Some (name, m) -> harmless m).
  Proof.
    intros H O. inversion H as [l0 b0 H1|l0 n l1 b0 H1 H2|l0 n l1 p H1 H2|l0 name l1 n o l2 body df b0 E H1 H2 H3 H4| | |]; subst; try discriminate.
    - split; [exact (named_ok _ _ _ H1 O)|discriminate].
    - apply named_ok in H1; [|exact O]. split; [exact (proj1 (signature_ok _ _ _ H2 H1))|discriminate].
    - split; [constructor|discriminate].
    - apply named_ok in H1; [|exact O]. destruct (signature_ok _ _ _ H2 H1) as [O2 D]. destruct (body_ok _ _ _ H3 O2) as [O3 O4]. split; [exact O4|].
      intros nm m [= _ <-]. split; [exact (stored_ok _ _ H4 O3)|]. intros d ->. now eapply D.
  Qed.

  (** tables *)
  Definition alike (tb tb' : table) : Prop := forall name, tb' (pi name) = option_map mng (tb name).
  Definition tame (tb : table) : Prop :=
    forall name m, tb name = Some m -> harmless m /\ forall how, m = Definer true how -> existsb (fun d => teqb name (tx (fst d))) environment_definers = true.
  Lemma bind_alike tb tb' name m : alike tb tb' -> alike (bind_name name m tb) (bind_name (pi name) (mng m) tb').
  Proof.
    intros A x. unfold bind_name. destruct (teqbP (pi x) (pi name)) as [E|E], (teqbP x name) as [E'|E']; try reflexivity; [now apply inj in E|subst x; contradiction|apply A].
  Qed.
  Lemma bind_tame tb name m : tame tb -> harmless m -> (forall how, m <> Definer true how) -> tame (bind_name name m tb).
  Proof. intros T H D x k. unfold bind_name. destruct (teqb x name); [intros [= <-]; split; [exact H|intros how E; now apply D in E]|apply T]. Qed.
  Definition tidy (tb : table) : Prop := forall name, ~ is_environment (tb name).
  Lemma bind_tidy tb name m : tidy tb -> (forall n o b d, m <> Environment n o b d) -> tidy (bind_name name m tb).
  Proof. intros T D x. unfold bind_name. destruct (teqb x name); [|apply T]. destruct m; cbn; auto. intros _. now eapply D. Qed.
  Lemma updates_rs how name m tb tb1 es tb' : updates how name m tb tb1 es -> alike tb tb' -> tidy tb' -> (forall n o b d, m <> Environment n o b d) ->
    exists tb1', updates how (pi name) (mng m) tb' tb1' (rs es) /\ alike tb1 tb1' /\ tidy tb1'.
  Proof.
    intros H A T D. assert (N : tb' (pi name) = None <-> tb name = None) by (rewrite (A name); destruct (tb name); split; intros X; try discriminate X; reflexivity).
    assert (D' : forall n o b d, mng m <> Environment n o b d) by (intros n o b d E; destruct m; try discriminate E; now eapply D).
    destruct H as [H|H|H1 H2].
    - exists (bind_name (pi name) (mng m) tb'). split; [apply up_ok; tauto|split; [now apply bind_alike|now apply bind_tidy]].
    - exists (bind_name (pi name) (mng m) tb'). split; [apply (up_error how (pi name)); tauto|split; [now apply bind_alike|now apply bind_tidy]].
    - exists tb'. split; [apply up_provided; tauto|split; [exact A|exact T]].
  Qed.
  Lemma updates_tame how name m tb tb1 es : updates how name m tb tb1 es -> tame tb -> harmless m -> (forall how, m <> Definer true how) -> tame tb1.
  Proof. intros H T Hm D. destruct H; [now apply bind_tame|now apply bind_tame|exact T]. Qed.

  (** ** One step, a run *)
  Lemma conditional_r t : conditional (r t) <-> conditional t.
  Proof. unfold conditional, if_, else_, fi_. now rewrite r_kind. Qed.
  Lemma fi_r b t : match b with Shown | Hidden => [] | _ => [r t] end = rs (match b with Shown | Hidden => [] | _ => [t] end).
  Proof. now destruct b. Qed.
  Lemma flips_rs b b' o k : flips b b' o k -> flips b b' (rs o) k.
  Proof. intros H. destruct H; constructor. Qed.
  Lemma skipped_rs l b : skipped l b -> skipped (rs l) (rs b).
  Proof. intros [a H]. exists (rs a). apply upto_rs; [exact if_r|exact H]. Qed.
  Lemma skipped_ok l b : skipped l b -> ok l -> ok b.
  Proof. intros [a (-> & _)] H. now apply Forall_app in H. Qed.

  Lemma no_env tb name : tame tb -> ~ is_environment (tb name).
  Proof. intros T. destruct (tb name) as [m|] eqn:E; [|intros []]. destruct (T _ _ E) as [H _]. destruct m; cbn in *; auto. Qed.
  Lemma definer_cmd tb name env how n : tame tb -> tb name = Some (Definer env how) ->
    renamable pi (CommandName Generic, n :: name) -> env = false.
  Proof. intros T E R. destruct env; [|reflexivity]. destruct (T _ _ E) as [_ X]. specialize (X how eq_refl). cbv beta iota delta [renamable] in R. rewrite R in X. discriminate X. Qed.
  Lemma command_harmless l name m b : definition false l (Some (name, m)) b -> exists n o d, m = Command n o d.
  Proof. intros H. inversion H; subst; try discriminate. eauto. Qed.
  Lemma rewrites_rs st l o st1 l1 tb' : rewrites st l o st1 l1 -> ok l -> tame (names st) -> alike (names st) tb' -> tidy tb' ->
    exists tb1', rewrites (mk_state tb' (conds st)) (rs l) (rs o) (mk_state tb1' (conds st1)) (rs l1) /\
      ok l1 /\ tame (names st1) /\ alike (names st1) tb1' /\ tidy tb1'.
  Proof.
    intros H O T A Y.
    destruct H as [st t l H1 H2 H3|st c name l H1 H2|st c dn l env how name m tb errors rest H1 H2 H3 H4|st c dn l env how rest H1 H2 H3
      |st c name l n o body found m args rest out H1 H2 H3 H4 H5|st c name l n o body found m rest H1 H2 H3 H4
      |st name l n o b d found m args l1 body y rest bout dout H1|st name l n o b d found m rest H1|st name l n o b d found m args l1 body H1|st name l n o b d found m args l1 body y rest H1
      |st i t l H1|st t l b bs b' out skip rest H1 H2 H3 H4|st t l H1 H2|st t l b bs H1 H2|st t l H1 H2]; cbn [List.map names conds] in *.
    - apply Forall_cons_iff in O as [_ O]. exists tb'. split; [|auto]. apply rw_copy; [now rewrite conditional_r|now rewrite r_kind|intros _; apply Y].
    - apply Forall_cons_iff in O as [_ O]. exists tb'. split; [|auto]. change (renamed pi (CommandName Generic, c :: name)) with (CommandName Generic, c :: pi name).
      apply rw_command; [exact H1|]. cbn [names]. rewrite (A name). assert (N := no_env _ name T). destruct (names st name) as [[]|]; cbn in *; auto.
    - apply Forall_cons_iff in O as [R O]. assert (env = false) as -> by exact (definer_cmd _ _ _ _ _ T H2 R).
      destruct (command_harmless _ _ _ _ H3) as (n & o & d & ->). destruct (definition_ok _ _ _ H3 O) as [O' Hm].
      destruct (updates_rs _ _ _ _ _ _ _ H4 A Y ltac:(discriminate)) as (tb1' & U & A' & Y'). exists tb1'. split; [|split; [exact O'|split; [|split; [exact A'|exact Y']]]].
      + change (renamed pi (CommandName Generic, c :: dn)) with (CommandName Generic, c :: pi dn).
        eapply (rw_define (mk_state tb' (conds st)) c (pi dn) (rs l) false how (pi name) (mng (Command n o d)) tb1'); [exact H1| |exact (definition_rs _ _ _ H3 O)|exact U].
        cbn [names]. rewrite (A dn), H2. reflexivity.
      + eapply updates_tame; [exact H4|exact T|exact (Hm _ _ eq_refl)|discriminate].
    - apply Forall_cons_iff in O as [R O]. assert (env = false) as -> by exact (definer_cmd _ _ _ _ _ T H2 R).
      destruct (definition_ok _ _ _ H3 O) as [O' _]. exists tb'. split; [|auto].
      change (renamed pi (CommandName Generic, c :: dn)) with (CommandName Generic, c :: pi dn).
      eapply (rw_define_nothing (mk_state tb' (conds st)) c (pi dn) (rs l) false how); [exact H1| |exact (definition_rs _ _ _ H3 O)]. cbn [names]. rewrite (A dn), H2. reflexivity.
    - apply Forall_cons_iff in O as [R O]. destruct (T _ _ H2) as [[Ob Oo] _]. destruct (arguments_ok _ _ _ _ _ H3 O) as [Oa Or].
      pose proof (supplied_ok _ _ _ _ H4 Oa Oo) as Os. exists tb'. split.
      + change (renamed pi (CommandName Generic, c :: name)) with (CommandName Generic, c :: pi name). rewrite map_app.
        eapply (rw_call (mk_state tb' (conds st)) c (pi name) (rs l) n (option_map rs o) (rs body)); [exact H1| |exact (arguments_rs _ _ _ _ _ H3)|exact (supplied_rs _ _ _ _ H4)|exact (proj1 (instance_rs _) _ _ H5)].
        cbn [names]. rewrite (A name), H2. reflexivity.
      + split; [|auto]. apply Forall_app. split; [exact (proj1 (instance_ok _ Os) _ _ H5 Ob)|exact Or].
    - apply Forall_cons_iff in O as [R O]. destruct (arguments_ok _ _ _ _ _ H3 O) as [Oa Or]. exists tb'. split; [|auto].
      change (renamed pi (CommandName Generic, c :: name)) with (CommandName Generic, c :: pi name).
      change (renamed pi (TError, tx "invalid number of arguments")) with (TError, pi (tx "invalid number of arguments")).
      rewrite (fixes "invalid number of arguments") by (apply in_reserved; vm_compute; reflexivity).
      eapply (rw_call_short (mk_state tb' (conds st)) c (pi name) (rs l) n (option_map rs o) (rs body)); [exact H1| |exact (arguments_rs _ _ _ _ _ H3)|exact (supplied_rs _ _ _ _ H4)].
      cbn [names]. rewrite (A name), H2. reflexivity.
    - exfalso. apply (no_env _ name T). rewrite H1. exact I.
    - exfalso. apply (no_env _ name T). rewrite H1. exact I.
    - exfalso. apply (no_env _ name T). rewrite H1. exact I.
    - exfalso. apply (no_env _ name T). rewrite H1. exact I.
    - apply Forall_cons_iff in O as [_ O]. exists tb'. split; [|auto].
      replace (rs (match i with IfTrue => [] | _ => [t] end)) with (match i with IfTrue => [] | _ => [r t] end) by now destruct i.
      apply (rw_if (mk_state tb' (conds st)) i). unfold if_. now rewrite r_kind.
    - apply Forall_cons_iff in O as [_ O]. exists tb'. split.
      + eapply (rw_else (mk_state tb' (conds st)) (r t) (rs l) b bs b' (rs out) skip (rs rest)); [unfold else_; now rewrite r_kind|exact H2|now apply flips_rs|].
        destruct skip; [now apply skipped_rs|now subst rest].
      + split; [|auto]. destruct skip; [exact (skipped_ok _ _ H4 O)|now subst rest].
    - apply Forall_cons_iff in O as [_ O]. exists tb'. split; [|auto]. apply rw_else_copy; [unfold else_; now rewrite r_kind|exact H2].
    - apply Forall_cons_iff in O as [_ O]. exists tb'. split; [|auto]. rewrite <- fi_r.
      apply (rw_fi (mk_state tb' (conds st)) (r t) (rs l) b bs); [unfold fi_; now rewrite r_kind|exact H2].
    - apply Forall_cons_iff in O as [_ O]. exists tb'. split; [|auto]. apply rw_fi_copy; [unfold fi_; now rewrite r_kind|exact H2].
  Qed.
  Lemma steps_rs st l o st1 l1 : steps st l o st1 l1 -> forall tb', ok l -> tame (names st) -> alike (names st) tb' -> tidy tb' ->
    exists tb1', steps (mk_state tb' (conds st)) (rs l) (rs o) (mk_state tb1' (conds st1)) (rs l1).
  Proof.
    intros H. induction H as [st l|st l out sta la out' stb lb H H' IH]; intros tb' O T A Y; [exists tb'; constructor|].
    destruct (rewrites_rs _ _ _ _ _ _ H O T A Y) as (tb1 & R & O1 & T1 & A1 & Y1). destruct (IH tb1 O1 T1 A1 Y1) as [tb2 S].
    exists tb2. rewrite map_app. eapply st_step; [exact R|exact S].
  Qed.

  (** ** The beginning *)
  Lemma initial_tame : tame initial_names.
  Proof.
    intros name m. unfold initial_names. destruct (find _ command_definers) as [[s how]|] eqn:E1; [intros [= <-]; split; [exact I|discriminate]|].
    destruct (find _ environment_definers) as [[s how]|] eqn:E2; [intros [= <-]; split; [exact I|]|].
    - intros how' _. apply find_some in E2. apply existsb_exists. exists (s, how). exact E2.
    - destruct (existsb _ taken_names); [intros [= <-]; split; [exact I|discriminate]|discriminate].
  Qed.
  Lemma initial_tidy : tidy initial_names.
  Proof. intros name. exact (no_env _ name initial_tame). Qed.
  Lemma pi_reserved s name : In s reserved -> teqb (pi name) (tx s) = teqb name (tx s).
  Proof.
    intros H. destruct (teqbP (pi name) (tx s)) as [E|E], (teqbP name (tx s)) as [E'|E']; try reflexivity.
    - now apply (unreserved name s H) in E.
    - subst name. now rewrite (fixes s H) in E.
  Qed.
  Lemma find_pi (l : list (string * defining)) name : incl (List.map fst l) reserved ->
    find (fun d => teqb (pi name) (tx (fst d))) l = find (fun d => teqb name (tx (fst d))) l.
  Proof.
    induction l as [|d l IH]; intros H; [reflexivity|]. cbn [find]. rewrite (pi_reserved (fst d)) by (apply H; now left). rewrite IH; [reflexivity|]. intros x Hx. apply H. now right.
  Qed.
  Lemma initial_alike : alike initial_names initial_names.
  Proof.
    intros name. unfold initial_names. rewrite !find_pi by (intros x Hx; unfold reserved; rewrite !in_app_iff; tauto).
    assert (E : existsb (fun n => teqb (pi name) (tx n)) taken_names = existsb (fun n => teqb name (tx n)) taken_names).
    { assert (F : forall l, incl l reserved -> existsb (fun n => teqb (pi name) (tx n)) l = existsb (fun n => teqb name (tx n)) l).
      { induction l as [|d l IH]; intros H; [reflexivity|]. cbn [existsb]. rewrite (pi_reserved d) by (apply H; now left). rewrite IH; [reflexivity|]. intros x Hx. apply H. now right. }
      apply F. intros x Hx. unfold reserved. rewrite !in_app_iff. tauto. }
    rewrite E. clear E. destruct (find _ command_definers) as [[s how]|]; [reflexivity|]. destruct (find _ environment_definers) as [[s how]|]; [reflexivity|].
    destruct (existsb _ taken_names); reflexivity.
  Qed.
  Lemma expands_rs l o : ok l -> expands initial l o -> expands initial (rs l) (rs o).
  Proof.
    intros O [st' H]. destruct (steps_rs _ _ _ _ _ H initial_names O initial_tame initial_alike initial_tidy) as [tb' S]. exists (mk_state tb' (conds st')). exact S.
  Qed.
End Rename.

(** ** Theorems *)
(** token sequences *)
Theorem C76_expansion : forall pi l out, renaming pi -> Forall (renamable pi) l ->
  expands initial l out -> expands initial (List.map (renamed pi) l) (List.map (renamed pi) out).
Proof. intros pi l out H O E. now apply expands_rs. Qed.
Print Assumptions C76_expansion.
(** sources: the expansion is the renamed one *)
Theorem C76_tokens : forall pi page sp src1 src2 ts out, (2 <= page)%nat -> renaming pi ->
  lexed sp src1 ts true -> lexed sp src2 (List.map (renamed pi) ts) true -> Forall (renamable pi) ts ->
  tokens_of true page sp src1 out -> tokens_of true page sp src2 (List.map (renamed pi) out).
Proof.
  intros pi page sp s1 s2 ts out Hp H L1 L2 O T. apply expanded_iff in T as (ts' & L & E); [|exact Hp]. apply expanded_iff; [exact Hp|].
  exists (List.map (renamed pi) ts). split; [exact L2|]. apply C57_stream in L1 as [L1 _]. apply C57_stream in L as [L _]. rewrite L1 in L. subst ts'. now apply C76_expansion.
Qed.
Print Assumptions C76_tokens.
(** if only macros were renamed (none of the new or old names is left after
    expansion), the answer of the conversion is the same *)
Theorem C76_conversion : forall pi page sp src1 src2 ts out m, (2 <= page)%nat -> renaming pi ->
  lexed (spec_or_default sp) src1 ts true -> lexed (spec_or_default sp) src2 (List.map (renamed pi) ts) true ->
  Forall (renamable pi) ts -> tokens_of true page (spec_or_default sp) src1 out -> List.map (renamed pi) out = out ->
  exists f0, forall fuel, (f0 <= fuel)%nat ->
    convert_source true m fuel page src1 sp = convert_source true m fuel page src2 sp.
Proof.
  intros pi page sp s1 s2 ts out m Hp H L1 L2 O T F. pose proof (C76_tokens _ _ _ _ _ _ _ Hp H L1 L2 O T) as T2. rewrite F in T2.
  destruct (parse_source_enough _ _ _ _ _ Hp T) as [f1 H1]. destruct (parse_source_enough _ _ _ _ _ Hp T2) as [f2 H2].
  exists (Nat.max f1 f2). intros fuel L. specialize (H1 fuel ltac:(lia)). specialize (H2 fuel ltac:(lia)).
  unfold convert_source, convert_inner. fold (spec_or_default sp). now rewrite H1, H2.
Qed.
Print Assumptions C76_conversion.

(** ** Cases: [\pair] and [\old] become [\p] and [\pair]; words and other
    commands stay *)
Definition swap3 (a b c : string) (x : text) : text :=
  if teqb x (tx a) then tx b else if teqb x (tx b) then tx c else if teqb x (tx c) then tx a else x.
Definition C76_pi : text -> text := swap3 "old" "pair" "p".
Definition C76_one : text := tx "\newcommand{\pair}[2]{(#1,p#2)}\newcommand{\old}{\pair{a}}\frac\old b{\pair xy}".
Definition C76_two : text := tx "\newcommand{\p}[2]{(#1,p#2)}\newcommand{\pair}{\p{a}}\frac\pair b{\p xy}".
Lemma swap3_inj a b c : tx a <> tx b -> tx b <> tx c -> tx a <> tx c -> forall x y, swap3 a b c x = swap3 a b c y -> x = y.
Proof.
  intros H1 H2 H3 x y. unfold swap3.
  destruct (teqbP x (tx a)), (teqbP x (tx b)), (teqbP x (tx c)), (teqbP y (tx a)), (teqbP y (tx b)), (teqbP y (tx c)); congruence.
Qed.
Example C76_case : renaming C76_pi /\
  exists ts out, lexed DEFAULT_SPEC C76_one ts true /\ lexed DEFAULT_SPEC C76_two (List.map (renamed C76_pi) ts) true /\
    List.map (renamed C76_pi) ts <> ts /\ Forall (renamable C76_pi) ts /\
    tokens_of true 2 DEFAULT_SPEC C76_one out /\ List.map (renamed C76_pi) out = out /\ out <> [].
Proof.
  split.
  - split; [apply swap3_inj; vm_compute; discriminate|]. apply Forall_forall. intros x Hx.
    assert (B : forallb (fun n => teqb (C76_pi (tx n)) (tx n)) reserved = true) by (vm_compute; reflexivity).
    rewrite forallb_forall in B. specialize (B x Hx). now destruct (teqbP (C76_pi (tx x)) (tx x)).
  - assert (X : match expand_all 400 2 engine_new DEFAULT_SPEC C76_one with Ok out => out <> [] /\ List.map (renamed C76_pi) out = out | _ => False end)
      by (vm_compute; split; [discriminate|reflexivity]).
    destruct (expand_all 400 2 engine_new DEFAULT_SPEC C76_one) as [out| |] eqn:E; try contradiction. destruct X as [X1 X2].
    exists (stream_toks (lex_stream DEFAULT_SPEC C76_one)), out.
    split; [apply C57_stream; split; [reflexivity|vm_compute; reflexivity]|].
    split; [apply C57_stream; split; vm_compute; reflexivity|].
    split; [vm_compute; discriminate|].
    split; [|split; [apply expand_expanded in E; [exact E|apply le_n]|split; [exact X2|exact X1]]].
    assert (B : forallb (fun t => match t with
        | (CommandName Generic, _ :: n) => negb (existsb (fun d => teqb n (tx (fst d))) environment_definers)
        | (CommandName Generic, []) => true
        | (CommandName _, _ :: n) => teqb (C76_pi n) n
        | _ => true end) (stream_toks (lex_stream DEFAULT_SPEC C76_one)) = true) by (vm_compute; reflexivity).
    apply Forall_forall. intros t Ht. rewrite forallb_forall in B. specialize (B t Ht). destruct t as [[] [|a s]]; try exact I; destruct c; try exact I;
      cbn [renamable]; try (now apply Bool.negb_true_iff in B); try (now destruct (teqbP (C76_pi s) s)).
Qed.
