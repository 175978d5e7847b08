(** Specification vocabulary: distances of the infinite lattice, before any rounding (C37). *)
From Coq Require Import List Reals ZArith.
From Verif Require Import Lattice_Model Lattice_Spec.
Import ListNotations.
Open Scope R_scope.

(** delta is the n-th distance between sites of the infinite lattice: exactly n
    different distances (0 among them) are smaller. *)
Definition exact_nth (L : lattice) (n : nat) (delta : R) : Prop :=
  lattice_distance L delta /\ exists l, NoDup l /\ List.length l = n /\ forall u, In u l <-> (lattice_distance L u /\ u < delta).
