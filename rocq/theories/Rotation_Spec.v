(** Specification vocabulary for rotations (C42): what a 3 x 3 matrix does to a
    vector, and what "turn by theta about n" means, without matrices. *)
From Coq Require Import Reals.
From Verif Require Import Rotation_Model.
Open Scope R_scope.

Definition vec : Type := R * R * R.
Definition vadd (u v : vec) : vec := let '(x, y, z) := u in let '(x', y', z') := v in (x + x', y + y', z + z').
Definition vscale (k : R) (u : vec) : vec := let '(x, y, z) := u in (k * x, k * y, k * z).
Definition vdot (u v : vec) : R := let '(x, y, z) := u in let '(x', y', z') := v in x * x' + y * y' + z * z'.
Definition vcross (u v : vec) : vec :=
  let '(x, y, z) := u in let '(x', y', z') := v in (y * z' - z * y', z * x' - x * z', x * y' - y * x').
Definition vlen (u : vec) : R := sqrt (vdot u u).
Definition vopp (u : vec) : vec := vscale (-1) u.
(** the image of a column vector *)
Definition apply (m : mat3) (v : vec) : vec :=
  let '(M3 a b c d e f g h i) := m in let '(x, y, z) := v in
  (a * x + b * y + c * z, d * x + e * y + f * z, g * x + h * y + i * z).
(** determinant *)
Definition det (m : mat3) : R :=
  let '(M3 a b c d e f g h i) := m in a * (e * i - f * h) - b * (d * i - f * g) + c * (d * h - e * g).

(** The counterclockwise turn by theta about the unit vector n (Rodrigues): the
    part along n stays; the part across n turns from v towards n x v. *)
Definition turn (n : vec) (theta : R) (v : vec) : vec :=
  vadd (vscale (vdot n v) n)
       (vadd (vscale (cos theta) (vadd v (vscale (- vdot n v) n))) (vscale (sin theta) (vcross n v))).

Definition ex : vec := (1, 0, 0).
Definition ey : vec := (0, 1, 0).
Definition ez : vec := (0, 0, 1).

(** lengths and angles are kept *)
Definition isometry (m : mat3) : Prop := forall u v, vdot (apply m u) (apply m v) = vdot u v.
(** The unit vector in direction (alpha, beta): beta from the z axis, alpha from
    the x axis in the xy plane. *)
Definition direction (alpha beta : R) : vec := (sin beta * cos alpha, sin beta * sin alpha, cos beta).
Definition degrees (a : R) : R := a * (PI / 180).
