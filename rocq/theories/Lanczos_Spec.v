(** Vocabulary for the Lanczos part (C43-C46). *)
From Coq Require Import Reals List Arith ZArith.
From Coquelicot Require Import Complex.
From Verif Require Import CVec Lanczos_Model.
Local Open Scope C_scope.

(** b_0 ... b_(d-1) are orthonormal in C^n. *)
Definition orthonormal (n d : nat) (b : nat -> vec) : Prop :=
  forall i j, (i < d)%nat -> (j < d)%nat -> inner n (b i) (b j) = if Nat.eqb i j then c1 else c0.
(** v is a linear combination of f_0 ... f_(m-1). *)
Definition in_span (n m : nat) (f : nat -> vec) (v : vec) : Prop :=
  exists c : nat -> C, forall i, (i < n)%nat -> v i = csum m (fun k => c k * f k i).
(** M^k v. *)
Fixpoint power (n : nat) (M : cmat) (k : nat) (v : vec) : vec :=
  match k with O => v | S k' => mv n M (power n M k' v) end.
(** M v minus its components along b_0 ... b_(d-1). *)
Definition residual (n : nat) (M : cmat) (d : nat) (b : nat -> vec) (v : vec) : vec :=
  fun i => mv n M v i - csum d (fun k => inner n (b k) (mv n M v) * b k i).
(** The array [m] is the matrix of [M] in the basis b_0 ... b_(d-1). *)
Definition represents_matrix (n : nat) (M : cmat) (d : nat) (b : nat -> vec) (m : ndarray2) : Prop :=
  nd_rows m = d /\ nd_cols m = d /\
  forall i j, (i < d)%nat -> (j < d)%nat -> sandwich n (b i) M (b j) = RtoC (nd_el m i j).
(** The list [l] holds the coordinates of [v] in the basis. *)
Definition coordinates (n d : nat) (b : nat -> vec) (v : vec) (l : list C) : Prop :=
  length l = d /\ forall i, (i < d)%nat -> nth i l c0 = inner n (b i) v.
