(** Finite sums and matrices given by entry functions; definitions used by
    specifications (nothing here comes from the code). *)
From Coq Require Import List Arith ZArith Bool Lia Ring.
From Verif Require Import GQ.
Import ListNotations.
Local Open Scope gq_scope.

(** Sum of [f] over a list. *)
Fixpoint lsum {A} (f : A -> GQ) (l : list A) : GQ :=
  match l with [] => 0 | x :: r => f x + lsum f r end.
(** Sum of f(0) ... f(n-1). *)
Definition bigsum (n : nat) (f : nat -> GQ) : GQ := lsum f (seq 0 n).

(** A matrix is its entry function; dimensions are carried separately. *)
Definition mat := nat -> nat -> GQ.
Definition mmul (k : nat) (a b : mat) : mat := fun i j => bigsum k (fun l => a i l * b l j).
Definition madd (a b : mat) : mat := fun i j => a i j + b i j.
Definition msub (a b : mat) : mat := fun i j => a i j - b i j.
Definition mscale (c : GQ) (a : mat) : mat := fun i j => c * a i j.
Definition mid : mat := fun i j => if Nat.eqb i j then 1 else 0.
Definition mzero : mat := fun _ _ => 0.
(** Conjugate transpose. *)
Definition mdag (a : mat) : mat := fun i j => gconj (a j i).
(** Equality of m x n matrices. *)
Definition meq (m n : nat) (a b : mat) : Prop := forall i j, (i < m)%nat -> (j < n)%nat -> a i j = b i j.

Section Sums.
  Context {A : Type}.
  Implicit Types (f g : A -> GQ) (l : list A).

  Lemma lsum_ext f g l : (forall x, In x l -> f x = g x) -> lsum f l = lsum g l.
  Proof.
    induction l as [|x l IH]; cbn; intros H; [reflexivity|].
    rewrite H by auto. rewrite IH; auto.
  Qed.
  Lemma lsum_0 l : lsum (fun _ => 0) l = 0.
  Proof. induction l as [|x l IH]; cbn; [reflexivity|rewrite IH; ring]. Qed.
  Lemma lsum_zero f l : (forall x, In x l -> f x = 0) -> lsum f l = 0.
  Proof. intros H. rewrite (lsum_ext f (fun _ => 0)); auto. apply lsum_0. Qed.
  Lemma lsum_add f g l : lsum (fun x => f x + g x) l = lsum f l + lsum g l.
  Proof. induction l as [|x l IH]; cbn; [ring|rewrite IH; ring]. Qed.
  Lemma lsum_sub f g l : lsum (fun x => f x - g x) l = lsum f l - lsum g l.
  Proof. induction l as [|x l IH]; cbn; [ring|rewrite IH; ring]. Qed.
  Lemma lsum_mul_l c f l : lsum (fun x => c * f x) l = c * lsum f l.
  Proof. induction l as [|x l IH]; cbn; [ring|rewrite IH; ring]. Qed.
  Lemma lsum_mul_r c f l : lsum (fun x => f x * c) l = lsum f l * c.
  Proof. induction l as [|x l IH]; cbn; [ring|rewrite IH; ring]. Qed.
  Lemma lsum_app f l m : lsum f (l ++ m) = lsum f l + lsum f m.
  Proof. induction l as [|x l IH]; cbn; [ring|rewrite IH; ring]. Qed.
  Lemma lsum_conj f l : gconj (lsum f l) = lsum (fun x => gconj (f x)) l.
  Proof. induction l as [|x l IH]; cbn; [apply gconj_0|rewrite gconj_add, IH; reflexivity]. Qed.
  Lemma lsum_single f l x : NoDup l -> In x l -> (forall y, In y l -> y <> x -> f y = 0) -> lsum f l = f x.
  Proof.
    induction l as [|y l IH]; cbn; intros Hn Hx H; [contradiction|].
    inversion Hn as [|? ? Hy Hl]; subst. destruct Hx as [->|Hx].
    - rewrite lsum_zero; [ring|]. intros z Hz. apply H; auto. congruence.
    - rewrite (H y); auto; [|congruence]. rewrite IH; auto. ring.
  Qed.
End Sums.

Lemma lsum_map {A B} (f : B -> GQ) (h : A -> B) l : lsum f (map h l) = lsum (fun x => f (h x)) l.
Proof. induction l; cbn; congruence. Qed.

Lemma lsum_swap {A B} (f : A -> B -> GQ) l m :
  lsum (fun x => lsum (fun y => f x y) m) l = lsum (fun y => lsum (fun x => f x y) l) m.
Proof.
  induction l as [|x l IH]; cbn.
  - symmetry. apply lsum_0.
  - rewrite IH, lsum_add. reflexivity.
Qed.

Lemma bigsum_ext n f g : (forall i, (i < n)%nat -> f i = g i) -> bigsum n f = bigsum n g.
Proof. intros H. apply lsum_ext. intros i Hi. apply in_seq in Hi. apply H. lia. Qed.
Lemma bigsum_zero n f : (forall i, (i < n)%nat -> f i = 0) -> bigsum n f = 0.
Proof. intros H. apply lsum_zero. intros i Hi. apply in_seq in Hi. apply H. lia. Qed.
Lemma bigsum_single n f k : (k < n)%nat -> (forall i, (i < n)%nat -> i <> k -> f i = 0) -> bigsum n f = f k.
Proof.
  intros Hk H. apply lsum_single.
  - apply seq_NoDup.
  - apply in_seq; lia.
  - intros i Hi. apply in_seq in Hi. apply H; lia.
Qed.

Lemma mmul_assoc k l a b c i j : mmul l (mmul k a b) c i j = mmul k a (mmul l b c) i j.
Proof.
  unfold mmul, bigsum.
  rewrite (lsum_ext _ (fun x => lsum (fun y => a i y * b y x * c x j) (seq 0 k))).
  2:{ intros x _. rewrite <- lsum_mul_r. reflexivity. }
  rewrite lsum_swap. apply lsum_ext. intros y _. rewrite <- lsum_mul_l. apply lsum_ext. intros; ring.
Qed.

Lemma mmul_id_l n a i j : (i < n)%nat -> mmul n mid a i j = a i j.
Proof.
  intros Hi. unfold mmul. rewrite (bigsum_single n _ i); auto.
  - unfold mid. rewrite Nat.eqb_refl. ring.
  - intros k _ Hk. unfold mid. destruct (Nat.eqb_spec i k); [congruence|ring].
Qed.
Lemma mmul_id_r n a i j : (j < n)%nat -> mmul n a mid i j = a i j.
Proof.
  intros Hj. unfold mmul. rewrite (bigsum_single n _ j); auto.
  - unfold mid. rewrite Nat.eqb_refl. ring.
  - intros k _ Hk. unfold mid. destruct (Nat.eqb_spec k j); [congruence|ring].
Qed.
Lemma mdag_mul k a b i j : mdag (mmul k a b) i j = mmul k (mdag b) (mdag a) i j.
Proof.
  unfold mdag, mmul, bigsum. rewrite lsum_conj. apply lsum_ext. intros x _. rewrite gconj_mul. ring.
Qed.
Lemma mmul_ext m k n a a' b b' : meq m k a a' -> meq k n b b' -> meq m n (mmul k a b) (mmul k a' b').
Proof. intros Ha Hb i j Hi Hj. apply bigsum_ext. intros l Hl. now rewrite Ha, Hb. Qed.
