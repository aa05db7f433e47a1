(** Reasoning tools for the parser: weakest preconditions over [res], the
    parser's functions on plain token lists. *)
From Verif Require Export Parser BaseFacts.

Definition wp {A} (pn fl : Prop) (x : res A) (Q : A -> Prop) : Prop :=
  match x with
  | Ok a => Q a
  | Panic _ => pn
  | Fuel => fl
  end.
Section Wp.
  Context {A B : Type} {pn fl : Prop}.
  Lemma wp_bind (x : res A) (f : A -> res B) Q :
    wp pn fl x (fun a => wp pn fl (f a) Q) -> wp pn fl (bind x f) Q.
  Proof. destruct x; auto. Qed.
  Lemma wp_mono (x : res A) (P Q : A -> Prop) :
    wp pn fl x P -> (forall a, P a -> Q a) -> wp pn fl x Q.
  Proof. destruct x; simpl; auto. Qed.
  Lemma wp_and (x : res A) (P Q : A -> Prop) :
    wp pn fl x P -> wp pn fl x Q -> wp pn fl x (fun a => P a /\ Q a).
  Proof. destruct x; simpl; auto. Qed.
  Lemma wp_ok (x : res A) (Q : A -> Prop) a : wp pn fl x Q -> x = Ok a -> Q a.
  Proof. intros H ->. exact H. Qed.
End Wp.
(** partial correctness *)
Lemma wp_intro {A} (x : res A) (Q : A -> Prop) : (forall a, x = Ok a -> Q a) -> wp True True x Q.
Proof. destruct x; simpl; auto. Qed.
(** what holds of a normal result holds whether or not the others may occur *)
Lemma wp_post {A} pn fl (x : res A) (P Q : A -> Prop) :
  wp pn fl x (fun a => P a -> Q a) -> wp True True x P -> wp pn fl x Q.
Proof. destruct x; simpl; auto. Qed.

(** The parser's state and functions on token lists *)
Notation lpst := (@pst (list tok)).
Notation lpres := (@pres (list tok)).
Notation leat := (eat list_pk list_nx).
Notation lrec := (call -> lpst -> lpres).
Notation chd st := (b_children (p_b st)).
Notation par st := (b_parents (p_b st)).

Ltac wps :=
  repeat first
   [ progress cbn [wp]
   | apply wp_bind
   | match goal with |- wp _ _ (Ok _) _ => cbn [wp] end ].
