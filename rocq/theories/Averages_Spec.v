(** Vocabulary for the averages (C30). *)
From Coq Require Import Reals.
From Coquelicot Require Import Complex.
From Verif Require Import GQ Mat CVec Averages_Model.
Local Open Scope C_scope.

(** <psi|A psi> / <psi|psi>. *)
Definition expectation (n : nat) (A : cmat) (psi : vec) : C := sandwich n psi A psi / inner n psi psi.
(** A matrix of Gaussian rationals read as a complex matrix. *)
Definition cm (a : mat) : cmat := fun i j => emb (a i j).
(** A vector of C^n that is not the zero vector. *)
Definition nonzero (n : nat) (v : vec) : Prop := exists i, (i < n)%nat /\ v i <> c0.
