(** One step of the converter writes the pieces of the element's layout. *)
From Verif Require Export RenderSpec ConvFacts.
Local Open Scope N_scope.

Definition st (p : place) (c : carry) : cst := mk_cst (mode_of p) (env_of p) (indent_of p) (waiting c) (fresh c).
Definition shows (p : place) (r : cout) (o : outcome) : Prop :=
  match r, o with
  | COk (s, x), Written c y => s = st p c /\ x = y
  | CErr e, Failed e' => e = e'
  | CPanic _, Crashed => True
  | _, _ => False
  end.
Definition then_ (o : outcome) (k : carry -> outcome) : outcome :=
  match o with Written c x => before x (k c) | _ => o end.
Definition label_text (c : carry) : text := match waiting c with Some x => tx "<" ++ x ++ tx ">" | None => [] end.
Fixpoint interp (F : place -> carry -> tree -> outcome) (ps : list piece) (c : carry) : outcome :=
  match ps with
  | [] => Written c []
  | Txt s :: l => before s (interp F l c)
  | Blank s :: l => before (if fresh c then [] else s) (interp F l (mk_carry false (waiting c)))
  | Line s :: l => before s (interp F l (mk_carry true (waiting c)))
  | Put p t :: l => then_ (F p c t) (interp F l)
  | Keep x :: l => interp F l (mk_carry (fresh c) (Some x))
  | Labels :: l => before (label_text c) (interp F l (mk_carry (fresh c) None))
  | Fail e :: _ => Failed e
  | Crash :: _ => Crashed
  end.

Lemma before_nil o : before [] o = o. Proof. now destruct o. Qed.
Lemma before_app a b o : before a (before b o) = before (a ++ b) o.
Proof. destruct o; cbn; [|reflexivity..]. now rewrite app_assoc. Qed.
Lemma then_before s o k : then_ (before s o) k = before s (then_ o k).
Proof. destruct o; cbn; [|reflexivity..]. now rewrite before_app. Qed.
Lemma then_then o k h : then_ (then_ o k) h = then_ o (fun c => then_ (k c) h).
Proof. destruct o; cbn; [|reflexivity..]. apply then_before. Qed.
Lemma then_nil o : then_ o (fun c => Written c []) = o.
Proof. destruct o; cbn; [|reflexivity..]. now rewrite app_nil_r. Qed.
Lemma interp_app F a b : forall c, interp F (a ++ b) c = then_ (interp F a c) (interp F b).
Proof.
  induction a as [|x a IH]; intros c; cbn [app interp then_].
  - now rewrite before_nil.
  - destruct x; rewrite ?then_before, ?IH; try reflexivity.
    rewrite then_then. destruct (F p c t); cbn; [|reflexivity..]. now rewrite IH.
Qed.
Lemma interp_put F p t c : interp F [Put p t] c = F p c t.
Proof. cbn. apply then_nil. Qed.
Lemma interp_txt F s l c : interp F (Txt s :: l) c = before s (interp F l c). Proof. reflexivity. Qed.
Lemma interp_txt1 F s c : interp F [Txt s] c = Written c s. Proof. cbn. now rewrite app_nil_r. Qed.

Lemma shows_bind p q x o k h : shows q x o ->
  (forall c y, shows p (k (st q c, y)) (before y (h c))) ->
  shows p (cbind x k) (then_ o h).
Proof.
  destruct x as [[s y]|e|e|]; destruct o as [c z|e'|]; cbn [shows]; intros H G; try contradiction; auto.
  destruct H as [-> ->]. cbn. apply G.
Qed.
Lemma shows_before p x o s : shows p x o -> shows p (let! (a, y) := x in COk (a, s ++ y)) (before s o).
Proof. destruct x as [[a y]|e|e|]; destruct o as [c z|e'|]; cbn; intuition congruence. Qed.
Lemma shows_after p x o s : shows p x o -> shows p (let! (a, y) := x in COk (a, y ++ s)) (then_ o (fun c => Written c s)).
Proof. destruct x as [[a y]|e|e|]; destruct o as [c z|e'|]; cbn; intuition congruence. Qed.
Lemma shows_ok p c o : shows p (COk (st p c, o)) (Written c o). Proof. split; reflexivity. Qed.
Lemma shows_eq p x o o' : shows p x o -> o = o' -> shows p x o'. Proof. now intros H <-. Qed.

(** a list of elements *)
Lemma each_shows F p f g l : (forall t, In t l -> forall c, shows p (f t (st p c)) (interp F (g t) c)) ->
  forall c, shows p (each f l (st p c)) (interp F (flat_map g l) c).
Proof.
  induction l as [|t l IH]; intros H c; [apply shows_ok|]. cbn [each flat_map]. rewrite interp_app.
  eapply shows_bind; [apply H; now left|]. intros c1 y. cbn beta iota.
  apply shows_before. apply IH. intros u Hu. apply H. now right.
Qed.
Lemma flat_map_put p l : flat_map (fun t => [Put p t]) l = map (Put p) l.
Proof. induction l as [|t l IH]; [reflexivity|]. cbn. now rewrite IH. Qed.
Lemma each_puts F p f l : (forall t, In t l -> forall c, shows p (f t (st p c)) (F p c t)) ->
  forall c, shows p (each f l (st p c)) (interp F (map (Put p) l) c).
Proof.
  intros H c. rewrite <- flat_map_put. apply each_shows. intros t Ht c'. rewrite interp_put. now apply H.
Qed.

(** places *)
Lemma st_mode m p c : set_mode m (st p c) = st (in_mode m p) c. Proof. reflexivity. Qed.
Lemma st_mode_back p q c : env_of q = env_of p -> indent_of q = indent_of p -> set_mode (mode_of p) (st q c) = st p c.
Proof. intros E1 E2. unfold set_mode, st. cbn. now rewrite E1, E2. Qed.
Lemma st_enter e p c : enter_env e (st p c) = st (within e p) c.
Proof.
  unfold enter_env, st, within, is_list_env.
  destruct e; cbn [c_mode c_env c_indent c_label c_skip mode_of env_of indent_of]; rewrite ?Nat.add_0_r; reflexivity.
Qed.
Lemma st_exit_as m e p c : exit_env (env_of p) (st (in_mode m (within e p)) c) = COk (st (in_mode m p) c).
Proof.
  unfold exit_env, st, within, in_mode, is_list_env.
  destruct e; cbn [c_mode c_env c_indent c_label c_skip mode_of env_of indent_of]; try reflexivity.
  all: destruct (Nat.ltb_spec (indent_of p + 2) 2); [lia|]; rewrite Nat.add_sub; reflexivity.
Qed.
Lemma st_exit e p c : exit_env (env_of p) (st (within e p) c) = COk (st p c).
Proof. pose proof (st_exit_as (mode_of p) e p c) as H. exact H. Qed.
Lemma st_element t p c : match tkind t with TokenWhiteSpace => st p c | _ => set_skip false (st p c) end = st p (at_element t c).
Proof. unfold at_element. now destruct (tkind t). Qed.
