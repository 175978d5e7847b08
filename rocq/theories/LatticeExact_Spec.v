(** Specification vocabulary: distances between two sites of the cluster itself (C37). *)
From Coq Require Import List Reals.
From Verif Require Import Lattice_Model.
Open Scope R_scope.

Definition within (L : lattice) (y : R) : Prop := exists p q, In p (points L) /\ In q (points L) /\ y = dist p q.
