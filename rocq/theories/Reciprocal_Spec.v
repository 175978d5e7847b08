(** What the reciprocal-space constants should be (C52). *)
From Coq Require Import List Reals ZArith.
From Verif Require Import Py Lattice_Model Lattice_Spec.
Import ListNotations.
Open Scope R_scope.

(** the points of the d-dimensional space, padded with zeros *)
Definition in_space (d : nat) (k : point) : Prop := let '(x, y, z) := k in match d with O => x = 0 /\ y = 0 /\ z = 0 | 1%nat => y = 0 /\ z = 0 | 2%nat => z = 0 | _ => True end.
(** b_i . a_j = 2 pi delta_ij *)
Definition dual_to (AS BS : list point) : Prop :=
  List.length BS = List.length AS /\
  forall i j, (i < List.length AS)%nat -> (j < List.length AS)%nat -> vdot (nth i BS v0) (nth j AS v0) = if Nat.eqb i j then 2 * PI else 0.

(** The first Brillouin zone: the points at least as near to the origin as to any
    other point of the reciprocal lattice. *)
Definition first_BZ (d : nat) (BS : list point) (k : point) : Prop :=
  in_space d k /\ forall ns, List.length ns = List.length BS -> norm k <= dist k (shift ns BS).

(** k is the middle of p and q; p lies between c and c' *)
Definition middle (k p q : point) : Prop := k = vscale (1 / 2) (vadd p q).
Definition on_segment (c c' p : point) : Prop := exists t, 0 <= t <= 1 /\ p = vadd (vscale (1 - t) c) (vscale t c').
(** A corner of a convex region: not the middle of two other points of it. *)
Definition corner (Z : point -> Prop) (k : point) : Prop := Z k /\ forall p q, Z p -> Z q -> middle k p q -> p = k /\ q = k.
(** The middle of an edge: halfway between two corners, and in the middle only of
    points between those corners. *)
Definition edge_middle (Z : point -> Prop) (k : point) : Prop :=
  exists c c', corner Z c /\ corner Z c' /\ c <> c' /\ middle k c c' /\ forall p q, Z p -> Z q -> middle k p q -> on_segment c c' p.
(** The centre of a face of the first Brillouin zone: halfway between the origin and
    a point of the reciprocal lattice, with every further point of that lattice farther away. *)
Definition face_centre (BS : list point) (k : point) : Prop :=
  exists ns, List.length ns = List.length BS /\ (exists n, In n ns /\ n <> 0%Z) /\ k = vscale (1 / 2) (shift ns BS) /\
    forall ms, List.length ms = List.length BS -> ms <> ns -> (exists m, In m ms /\ m <> 0%Z) -> norm k < dist k (shift ms BS).
(** The centre: every line through it is halved by it. *)
Definition centre (Z : point -> Prop) (k : point) : Prop := Z k /\ forall p, Z p -> Z (vsub (vscale 2 k) p).

(** The list has exactly the points with the property, each once. *)
Definition lists (P : point -> Prop) (l : list point) : Prop := NoDup l /\ forall k, P k <-> In k l.
