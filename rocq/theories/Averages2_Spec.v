(** Vocabulary for C30: the columns of an array as a mixed state. *)
From Coq Require Import Reals Arith.
From Coquelicot Require Import Complex.
From Verif Require Import CVec Averages_Spec.
Local Open Scope nat_scope.
Local Open Scope C_scope.

(** an entry of the array is not 0 *)
Definition some_entry (n m : nat) (K : nat -> nat -> C) : Prop := exists i c, (i < n)%nat /\ (c < m)%nat /\ K i c <> c0.
(** the share of column c in the total weight *)
Definition weight (n m : nat) (K : nat -> nat -> C) (c : nat) : R := (norm2 n (fun i => K i c) / rsum m (fun c => norm2 n (fun i => K i c)))%R.
(** the mixture of the columns, each with its weight *)
Definition mixture (n m : nat) (K : nat -> nat -> C) (A : cmat) : C := csum m (fun c => RtoC (weight n m K c) * expectation n A (fun i => K i c)).
