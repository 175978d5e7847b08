(** Vocabulary for C58: spectra as densities. *)
From Coq Require Import Reals List Arith.
From Coquelicot Require Import Coquelicot.
From Verif Require Import CVec Lanczos_Spec GF_Model GF_Spec Free_Spec.
Local Open Scope C_scope.

(** v_0 b_0 + ... + v_(d-1) b_(d-1). *)
Definition superposition (d : nat) (v : nat -> C) (b : nat -> vec) : vec := fun i => csum d (fun j => v j * b j i).
(** sum over i, j of G_ij v_j conj(v_i) *)
Definition form (d : nat) (G : cmat) (v : nat -> C) : C := csum d (fun i => csum d (fun j => G i j * (v j * Cj (v i)))).
(** -Im g / pi: what the demos plot. *)
Definition spectrum (g : C) : R := (- Im g / PI)%R.

(** The integral of f over the whole line is l. *)
Definition integrates_to (f : R -> R) (l : R) : Prop :=
  (forall a b, ex_RInt f a b) /\
  forall eps, (0 < eps)%R -> exists M, forall a b, (a < - M)%R -> (M < b)%R -> (Rabs (RInt f a b - l) < eps)%R.

(** e_0 ... e_(n-1): an orthonormal basis of C^n of eigenvectors of H with real
    energies E_k, in which every vector is expanded. *)
Definition eigenbasis (n : nat) (H : cmat) (E : nat -> R) (e : nat -> vec) : Prop :=
  orthonormal n n e /\
  (forall k, (k < n)%nat -> veqn n (mv n H (e k)) (fun i => RtoC (E k) * e k i)) /\
  forall v, veqn n v (fun i => csum n (fun k => inner n (e k) v * e k i)).
(** <x|H|x> *)
Definition energy (n : nat) (H : cmat) (x : vec) : R := Re (inner n x (mv n H x)).
