(** Gaussian rationals: the coefficients of operator terms.  Every finite
    Python int, float or complex is such a number; the operations are exact
    (rounding of float arithmetic is not modelled here). *)
From Coq Require Import ZArith QArith Qcanon Ring Field Lia.
Local Open Scope Qc_scope.

Record GQ := mkGQ { re : Qc; im : Qc }.

Declare Scope gq_scope.
Delimit Scope gq_scope with gq.
Bind Scope gq_scope with GQ.

Definition g0 := mkGQ 0 0.
Definition g1 := mkGQ 1 0.
Definition gi := mkGQ 0 1.
Definition gadd a b := mkGQ (re a + re b) (im a + im b).
Definition gmul a b := mkGQ (re a * re b - im a * im b) (re a * im b + im a * re b).
Definition gopp a := mkGQ (- re a) (- im a).
Definition gsub a b := mkGQ (re a - re b) (im a - im b).
(** Python's [.conjugate()]. *)
Definition gconj a := mkGQ (re a) (- im a).
Definition gz (z : Z) := mkGQ (Q2Qc (inject_Z z)) 0.
Definition ghalf := mkGQ (Q2Qc (1 # 2)) 0.

Lemma gq_eq a b : re a = re b -> im a = im b -> a = b.
Proof. destruct a, b; cbn; congruence. Qed.

Lemma gq_ring : ring_theory g0 g1 gadd gmul gsub gopp eq.
Proof.
  constructor; intros; apply gq_eq; cbn; ring.
Qed.
Add Ring GQring : gq_ring.

Infix "+" := gadd : gq_scope.
Infix "*" := gmul : gq_scope.
Infix "-" := gsub : gq_scope.
Notation "- x" := (gopp x) : gq_scope.
Notation "0" := g0 : gq_scope.
Notation "1" := g1 : gq_scope.

Lemma gq_eq_dec (a b : GQ) : {a = b} + {a <> b}.
Proof.
  destruct (Qc_eq_dec (re a) (re b)) as [E|E]; [|right; congruence].
  destruct (Qc_eq_dec (im a) (im b)) as [E'|E']; [left; now apply gq_eq|right; congruence].
Defined.
Definition geqb (a b : GQ) : bool := if gq_eq_dec a b then true else false.

Lemma gconj_add a b : gconj (a + b)%gq = (gconj a + gconj b)%gq.
Proof. apply gq_eq; cbn; ring. Qed.
Lemma gconj_mul a b : gconj (a * b)%gq = (gconj a * gconj b)%gq.
Proof. apply gq_eq; cbn; ring. Qed.
Lemma gconj_invol a : gconj (gconj a) = a.
Proof. apply gq_eq; cbn; ring. Qed.
Lemma gconj_0 : gconj g0 = g0. Proof. apply gq_eq; cbn; ring. Qed.
Lemma gconj_1 : gconj g1 = g1. Proof. apply gq_eq; cbn; ring. Qed.
Lemma gconj_opp a : gconj (- a)%gq = (- gconj a)%gq.
Proof. apply gq_eq; cbn; ring. Qed.
Lemma gi_sq : (gi * gi)%gq = (- g1)%gq.
Proof. apply gq_eq; cbn; ring. Qed.
Lemma ghalf_double : (ghalf + ghalf)%gq = g1.
Proof. apply gq_eq; apply Qc_is_canon; reflexivity. Qed.
Lemma g1_neq_0 : g1 <> g0.
Proof. intros [=]. Qed.

Lemma gopp_neq_0 a : a <> g0 -> (- a)%gq <> g0.
Proof. intros H E. apply H. replace a with (- - a)%gq by ring. rewrite E. ring. Qed.

Lemma geqb_spec a b : Bool.reflect (a = b) (geqb a b).
Proof. unfold geqb. destruct (gq_eq_dec a b); constructor; auto. Qed.
