(** Properties C35, C36: lists and tables. *)
From Verif Require Import Api ConvTerm ConvSeen ConvAlike P_Conv.
Local Open Scope nat_scope.

(* ------------------------------------------------------------------ *)
(** * C36  Table column specifications are read exactly *)

Definition column_letter (c : char) : bool := existsb (N.eqb c) (tx "lcr").
Definition bar (c : char) : bool := (c =? 124)%N.
Definition count (f : char -> bool) (s : text) : nat := List.length (filter f s).

Lemma columns_spec s : forall i, Forall (fun c => column_letter c = true \/ bar c = true) s ->
  exists vl, table_columns i s = COk (filter column_letter s, vl) /\ List.length vl = count bar s /\
    forall a b, s = a ++ 124%N :: b -> nth_error vl (count bar a) = Some (i + count column_letter a).
Proof.
  induction s as [|c s IH]; intros i H.
  - exists []. repeat split. intros [|] ? ?; discriminate.
  - inversion_clear H as [|? ? Hc Hs]. cbn [table_columns].
    assert (El : (c =? 108)%N || (c =? 99)%N || (c =? 114)%N = column_letter c).
    { unfold column_letter. simpl. now rewrite orb_false_r, orb_assoc. }
    rewrite El. destruct (column_letter c) eqn:Ec.
    + destruct (IH (S i) Hs) as (vl & E & L & N). rewrite E. cbn [cbind]. exists vl. cbn [filter]. rewrite Ec.
      assert (Eb : bar c = false).
      { unfold bar. destruct (N.eqb_spec c 124); [subst; discriminate|reflexivity]. }
      split; [reflexivity|]. unfold count in *. cbn [filter]. rewrite Eb. split; [exact L|]. intros a b Eab.
      destruct a as [|x a]; [injection Eab as -> _; discriminate|]. injection Eab as <- Eab. cbn [filter]. rewrite Ec, Eb.
      rewrite (N _ _ Eab). cbn. f_equal. lia.
    + destruct Hc as [Hc|Hc]; [discriminate|]. unfold bar in Hc. rewrite Hc. destruct (IH i Hs) as (vl & E & L & N). rewrite E. cbn [cbind].
      exists (i :: vl). cbn [filter]. rewrite Ec. split; [reflexivity|]. unfold count in *. cbn [filter]. unfold bar at 1. rewrite Hc.
      split; [cbn; now rewrite L|]. intros a b Eab. destruct a as [|x a]; [cbn; f_equal; lia|]. injection Eab as <- Eab.
      cbn [filter]. rewrite Ec. unfold bar at 1. rewrite Hc. cbn [List.length nth_error]. now apply N in Eab.
Qed.
Lemma columns_bad s c r : Forall (fun c => column_letter c = true \/ bar c = true) s -> column_letter c = false -> bar c = false ->
  forall i, table_columns i (s ++ c :: r) = CErr (EAlignment c).
Proof.
  intros Hs Hc Hb. induction s as [|x s IH]; intros i.
  - cbn. unfold column_letter in Hc. simpl in Hc. rewrite orb_false_r in Hc. rewrite orb_assoc in Hc. rewrite Hc. unfold bar in Hb. now rewrite Hb.
  - inversion_clear Hs as [|? ? Hx Hs']. cbn [app table_columns]. rewrite !(IH Hs'). cbn [cbind].
    assert (El : (x =? 108)%N || (x =? 99)%N || (x =? 114)%N = column_letter x).
    { unfold column_letter. simpl. now rewrite orb_false_r, orb_assoc. }
    rewrite El. destruct (column_letter x); [reflexivity|]. destruct Hx as [Hx|Hx]; [discriminate|]. unfold bar in Hx. now rewrite Hx.
Qed.

(** The text in front of the cells: number of columns, alignments in order, and
    the positions of the vertical rules *)
Definition alignment_word (c : char) : text :=
  if (c =? 108)%N then tx "left" else if (c =? 99)%N then tx "center" else tx "right".
Definition table_head (name : text) (columns : nat) (letters : text) (rules : list nat) : text :=
  tx "#" ++ name ++ tx "(stroke: none," ++ [10%N] ++
  tx "columns: " ++ dec (N.of_nat columns) ++ tx "," ++ [10%N] ++
  tx "align: (" ++ flat_map (fun c => alignment_word c ++ tx ", ") letters ++ tx ")," ++ [10%N] ++
  flat_map (fun v => tx "table.vline(stroke: .5pt, x: " ++ dec (N.of_nat v) ++ tx "), ") rules ++ [10%N].

(** the column specification of a table environment: its first argument,
    without the enclosing braces and the blanks inside them *)
Definition column_spec (t : tree) (cols : text) : Prop :=
  exists a r inner, env_arguments t = a :: r /\ tree_text a = tx "{" ++ inner ++ tx "}" /\ cols = trim inner.

Lemma align_words l : Forall (fun c => column_letter c = true) l ->
  flat_map align_name l = flat_map (fun c => alignment_word c ++ tx ", ") l.
Proof.
  induction l as [|c l IH]; intros H; [reflexivity|]. inversion_clear H as [|? ? Hc Hl]. cbn [flat_map]. rewrite (IH Hl). f_equal.
  unfold align_name, alignment_word. unfold column_letter in Hc. simpl in Hc.
  destruct (c =? 108)%N; [reflexivity|]. destruct (c =? 99)%N; [reflexivity|]. destruct (c =? 114)%N; [reflexivity|]. discriminate.
Qed.
Lemma filter_all {A} (f : A -> bool) l : Forall (fun c => f c = true) (filter f l).
Proof. apply Forall_forall. intros x Hx. now apply filter_In in Hx. Qed.

Lemma table_step sp fuel t s a r inner : environment_is sp t FTable -> env_arguments t = a :: r ->
  tree_text a = tx "{" ++ inner ++ tx "}" ->
  exists tn, convert sp (S fuel) t s =
   (let! (s, o) := (let! (aligns, vlines) := table_columns 0 (trim inner) in
    let prev := c_env (set_skip false s) in
    let s := enter_env ETable (set_skip false s) in
    let head :=
      tx "#" ++ tn ++ tx "(" ++ tx "stroke: none," ++ [10%N]
      ++ tx "columns: " ++ dec (N.of_nat (List.length aligns)) ++ tx "," ++ [10%N]
      ++ tx "align: (" ++ flat_map align_name aligns ++ tx ")," ++ [10%N]
      ++ flat_map (fun v => tx "table.vline(stroke: .5pt, x: " ++ dec (N.of_nat v) ++ tx "), ") vlines
      ++ [10%N] in
    let! (s, o) := table_cells (convert sp fuel) true (children t) s in
    let! s := exit_env prev s in
    COk (s, head ++ o ++ tx ");")) in let '(s, ol) := flush_label s in COk (s, o ++ ol)) /\
   (exists name shape, environment_named t name /\ get_env sp name = Some shape /\ tn = alias_or (en_alias shape) name).
Proof.
  intros (name & (Hk & n & Hn & Hname) & Hf) Ha Ht. destruct (get_env sp name) as [shape|] eqn:Eg; [|discriminate].
  injection Hf as Hf. exists (alias_or (en_alias shape) name). split.
  - cbn [convert]. unfold convert_step. rewrite Hk. cbv zeta. unfold convert_env. rewrite Hn. cbn [unwrap cbind]. rewrite <- Hname, Eg.
    rewrite Hf. cbn [env_of_feature is_list_env is_math_env]. unfold convert_env_table. rewrite Ha. cbn [unwrap cbind hd_error].
    rewrite Ht. rewrite (strip_ends_quoted _ 123%N inner 125%N) by lia. reflexivity.
  - exists name, shape. repeat split; auto. exists n. auto.
Qed.

(** A column specification of [l], [c], [r] and [|]: the table starts with the
    head for its letters and bars. *)
Theorem C36_columns : forall sp fuel t s s' o cols,
  environment_is sp t FTable -> column_spec t cols ->
  Forall (fun c => column_letter c = true \/ bar c = true) cols ->
  convert sp fuel t s = COk (s', o) ->
  exists name rules cells,
    o = table_head name (count column_letter cols) (filter column_letter cols) rules ++ cells /\
    List.length rules = count bar cols /\
    forall a b, cols = a ++ tx "|" ++ b -> nth_error rules (count bar a) = Some (count column_letter a).
Proof.
  intros sp fuel t s s' o cols Hf (a & r & inner & Ha & Ht & ->) Hc E. destruct fuel as [|fuel]; [discriminate|].
  destruct (table_step sp fuel t s a r inner Hf Ha Ht) as (tn & E' & _). rewrite E' in E. clear E'.
  destruct (columns_spec (trim inner) 0 Hc) as (vl & Ec & L & N). rewrite Ec in E. cbn [cbind] in E. cbv zeta in E.
  apply cbind_ok in E as ([s1 o1] & E1 & E). apply cbind_ok in E1 as ([s2 o2] & E2 & E1). apply cbind_ok in E1 as (s3 & E3 & E1).
  injection E1 as <- <-. destruct (flush_label s3) as [s4 ol]. injection E as _ <-.
  exists tn, vl, (o2 ++ tx ");" ++ ol). split; [|split; [exact L|]].
  - unfold count. rewrite (align_words _ (filter_all _ _)).
    transitivity ((table_head tn (List.length (filter column_letter (trim inner))) (filter column_letter (trim inner)) vl ++ o2 ++ tx ");") ++ ol); [reflexivity|].
    now repeat rewrite <- app_assoc.
  - intros x y Exy. specialize (N x y Exy). exact N.
Qed.
Print Assumptions C36_columns.
(** Any other character is reported: the first one. *)
Theorem C36_error : forall sp fuel t s good c rest, environment_is sp t FTable -> column_spec t (good ++ c :: rest) ->
  Forall (fun c => column_letter c = true \/ bar c = true) good -> column_letter c = false -> bar c = false ->
  convert sp (S fuel) t s = CErr (EAlignment c).
Proof.
  intros sp fuel t s good c rest Hf (a & r & inner & Ha & Ht & Hi) Hg H1 H2.
  destruct (table_step sp fuel t s a r inner Hf Ha Ht) as (tn & E' & _). rewrite E', <- Hi, (columns_bad _ _ _ Hg H1 H2). reflexivity.
Qed.
Print Assumptions C36_error.
Example C36_example :
  convert_text 300 PAGE (tx "\begin{tabular}{ |l||cr| }a\end{tabular}") None =
    COk (table_head (tx "table") 3 (tx "lcr") [0; 1; 1; 3] ++ tx "[a);") /\
  convert_text 300 PAGE (tx "\begin{tabular}{l@r}a\end{tabular}") None = CErr (EAlignment 64%N).
Proof. split; vm_compute; reflexivity. Qed.

(* ------------------------------------------------------------------ *)
(** * C39  Comments do not reach the output *)

Lemma convert_indented sp fuel t s s' o n : indented n s -> convert sp fuel t s = COk (s', o) -> indented n s'.
Proof. intros [H1 H2] E. apply C29_context in E as (_ & E2 & E3). unfold indented. now rewrite E2, E3. Qed.
Lemma convert_alike sp fuel : forall t t' s, alike t t' -> (is_list_env (c_env s) = true -> 2 <= c_indent s) ->
  convert sp fuel t s = convert sp fuel t' s.
Proof.
  induction fuel as [|n IH]; intros t t' s Ht Hl; [reflexivity|]. cbn [convert].
  apply step_agree with (n := c_indent s + (if list_b sp t then 2 else 0)); auto.
  intros u1 u2 s1 Hu H1. split.
  - apply IH; [exact Hu|]. destruct H1 as [E1 H1]. now rewrite E1.
  - intros [s2 o2] E. eapply convert_indented; eauto.
Qed.
(** [alike t t'] (ConvAlike.v): the trees differ only in the text of line
    comments and in the contents of block comments, outside of the elements
    whose source text is copied or inspected. *)
Theorem C39_tree : forall sp m t t', alike t t' -> convert_tree sp m t = convert_tree sp m t'.
Proof.
  intros sp m t t' H. unfold convert_tree. f_equal.
  set (f := Nat.max (S (height t)) (S (height t'))).
  rewrite (convert_enough sp (S (height t)) f t) by lia. rewrite (convert_enough sp (S (height t')) f t') by lia.
  apply convert_alike; [exact H|discriminate].
Qed.
Print Assumptions C39_tree.

(* ------------------------------------------------------------------ *)
(** * C35  List indentation never underflows *)

(** A converter that checks, at every element it converts, that the
    indentation is twice the number of enclosing lists, and that it is in a
    list at all if the environment says so: *)
Fixpoint checked (sp : spec) (fuel depth : nat) (t : tree) (s : cst) : cout :=
  match fuel with
  | O => CFuel
  | S n =>
    if (c_indent s =? 2 * depth) && (negb (is_list_env (c_env s)) || (1 <=? depth)) then
      convert_step sp (checked sp n (if list_b sp t then S depth else depth)) t s
    else CPanic "wrong indentation"
  end.
Lemma checked_same sp fuel : forall depth t s, indented (2 * depth) s -> checked sp fuel depth t s = convert sp fuel t s.
Proof.
  induction fuel as [|n IH]; intros d t s [Hi Hl]; [reflexivity|]. cbn [checked convert].
  assert (E : (c_indent s =? 2 * d) && (negb (is_list_env (c_env s)) || (1 <=? d)) = true).
  { rewrite Hi, Nat.eqb_refl. destruct (is_list_env (c_env s)); [|reflexivity]. specialize (Hl eq_refl). apply Nat.leb_le. lia. }
  rewrite E. apply step_agree with (n := 2 * (if list_b sp t then S d else d)).
  - intros u1 u2 s1 Hu H1. rewrite IH by exact H1. split.
    + apply convert_alike; [exact Hu|]. destruct H1 as [E1 H1]. now rewrite E1.
    + intros [s2 o2] E2. eapply convert_indented; eauto.
  - apply alike_refl.
  - intros L. rewrite Hi. auto.
  - rewrite Hi. destruct (list_b sp t); lia.
Qed.
(** the check never fails, on any tree: *)
Theorem C35_depth : forall sp fuel m t, checked sp fuel 0 t (cst_new m) = convert sp fuel t (cst_new m).
Proof. intros. apply checked_same. split; [reflexivity|discriminate]. Qed.
Print Assumptions C35_depth.
(** no subtraction of the indentation overflows, on any tree *)
Theorem C35_no_underflow : forall sp m t p, convert_tree sp m t = CPanic p ->
  p <> "converter.rs:84 subtract with overflow"%string /\ p <> "converter.rs:474 subtract with overflow"%string.
Proof.
  intros sp m t p E. set (R := fun f => match f with FailPanic p => underflow p = false | _ => True end).
  assert (G : forall n u s, (is_list_env (c_env s) = true -> 2 <= c_indent s) ->
     cwp (convert sp n u s) (fun r => same_context s (fst r)) R).
  { induction n as [|n IH]; intros u s Hs; [exact I|]. cbn [convert]. apply step_restores with (R := R).
    - intros v Hv s' [Hp|Hs']; [|now apply IH]. exfalso. now specialize (Hp "converter.rs:84 subtract with overflow"%string).
    - intros e _. exact I.
    - left. intros q Hq. exact Hq.
    - right. exact Hs. }
  specialize (G (S (height t)) t (cst_new m)). unfold convert_tree in E.
  destruct (convert sp (S (height t)) t (cst_new m)) as [[s o]|e|q|]; try discriminate. injection E as ->.
  assert (U : underflow p = false) by (apply G; discriminate). split; intros ->; discriminate U.
Qed.
Print Assumptions C35_no_underflow.
(** \item: a line break, two blanks for each list around the innermost one, the marker *)
Theorem C35_item : forall sp fuel depth ch s, command_named (Node ItemCmd ch) (tx "item") ->
  cmd_name_tok (Node ItemCmd ch) = Some (tx "\item") -> c_indent s = 2 * S depth ->
  (c_env s = EItemize -> convert sp (S fuel) (Node ItemCmd ch) s = COk (set_skip false s, 10%N :: repeat 32%N (2 * depth) ++ tx "- ")) /\
  (c_env s = EEnumerate -> convert sp (S fuel) (Node ItemCmd ch) s = COk (set_skip false s, 10%N :: repeat 32%N (2 * depth) ++ tx "+ ")) /\
  (is_list_env (c_env s) = false -> convert sp (S fuel) (Node ItemCmd ch) s = CErr EItem).
Proof.
  intros sp fuel d ch s _ Hn Hi.
  assert (E : convert sp (S fuel) (Node ItemCmd ch) s = convert_command_item (set_skip false s)).
  { cbn [convert]. unfold convert_step. cbn [tkind]. cbv zeta. unfold convert_cmd, cmd_name. rewrite Hn. reflexivity. }
  rewrite E. unfold convert_command_item, set_skip, spaces. cbn [c_env c_indent]. rewrite Hi.
  assert (L : (2 * S d <? 2) = false) by (apply Nat.ltb_ge; lia). rewrite L. replace (2 * S d - 2) with (2 * d) by lia.
  split; [|split]; [intros ->; reflexivity|intros ->; reflexivity|]. destruct (c_env s); (reflexivity || discriminate).
Qed.
Print Assumptions C35_item.
(** lines inside [depth] lists are indented by two blanks for each *)
Theorem C35_line_break : forall sp fuel depth x s, c_indent s = 2 * depth ->
  convert sp (S fuel) (Leaf TokenLineBreak x) s = COk (set_skip true s, x ++ repeat 32%N (2 * depth)).
Proof. intros sp fuel d x s H. cbn. unfold spaces. now rewrite H. Qed.
Print Assumptions C35_line_break.
(** \item outside of a list is an error *)
Theorem C35_outside : forall sp fuel ch s, cmd_name_tok (Node ItemCmd ch) = Some (tx "\item") ->
  is_list_env (c_env s) = false -> convert sp (S fuel) (Node ItemCmd ch) s = CErr EItem.
Proof.
  intros sp fuel ch s Hn He. cbn [convert]. unfold convert_step. cbn [tkind]. cbv zeta. unfold convert_cmd, cmd_name. rewrite Hn.
  cbn [unwrap cbind]. change (convert_command_item (set_skip false s) = CErr EItem). unfold convert_command_item, set_skip. cbn [c_env].
  destruct (c_env s); (reflexivity || discriminate).
Qed.
Print Assumptions C35_outside.
Example C35_example :
  convert_text 300 PAGE (tx "\begin{itemize}\item a\begin{enumerate}\item b" ++ [10%N] ++ tx " c\end{enumerate}\end{itemize}") None =
    COk ([10%N] ++ tx "-  a" ++ [10%N] ++ tx "  +  b" ++ [10%N] ++ tx "    c") /\
  convert_text 300 PAGE (tx "a \item b") None = CErr EItem /\
  (exists e, convert_text 300 PAGE (tx "\begin{itemize}{\item a}$\item$\end{itemize}") None = COk e).
Proof. repeat split; try (vm_compute; reflexivity). eexists; vm_compute; reflexivity. Qed.
