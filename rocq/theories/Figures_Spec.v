(** Vocabulary for C62. *)
From Coq Require Import List Reals ZArith.
From Verif Require Import Py Lattice_Model Lattice_Spec Reciprocal_Spec.
Import ListNotations.
Open Scope R_scope.

(** p lies on one of the lines *)
Definition drawn (lines : list (point * point)) (p : point) : Prop := exists g, In g lines /\ on_segment (fst g) (snd g) p.
(** The boundary of the first Brillouin zone: as near to another point of the reciprocal
    lattice as to the origin. *)
Definition zone_boundary (BS : list point) (k : point) : Prop :=
  first_BZ 2 BS k /\ exists ns, List.length ns = List.length BS /\ (exists n, In n ns /\ n <> 0%Z) /\ norm k = dist k (shift ns BS).
(** The area of the unit cell. *)
Definition area (a0 a1 : point) : R := Rabs (coord 0 a0 * coord 1 a1 - coord 1 a0 * coord 0 a1).
(** the line with an end point e, seen from the other end point *)
Definition joins (l : nat * nat) (i j : nat) : Prop := l = (i, j) \/ l = (j, i).
