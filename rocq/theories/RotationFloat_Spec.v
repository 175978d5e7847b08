(** Specification vocabulary for rotations in double precision (C42). *)
From Coq Require Import Reals Floats.SpecFloat.
From Verif Require Import Py Float64_Model Float64_Proofs LineFloat_Spec Rotation_Model RotationFloat_Model.
Open Scope R_scope.

(** f computes g to two units of 10^-16 (on arguments of up to about a million), as
    the sine and cosine of a numerical library do. *)
Definition accurate (f : f64 -> f64) (g : R -> R) : Prop :=
  forall x, number x -> Rabs (f2R x) <= IZR (2 ^ 20) -> number (f x) /\ Rabs (f2R (f x) - g (f2R x)) <= 2 / 10 ^ 16.

(** The double x is a number within d of r; a matrix is, entry by entry. *)
Definition near (d : R) (x : f64) (r : R) : Prop := number x /\ Rabs (f2R x - r) <= d.
Definition near3 (d : R) (A : fmat3) (M : mat3) : Prop :=
  let '(FM3 a b c x y z p q r) := A in
  let '(M3 a' b' c' x' y' z' p' q' r') := M in
  (near d a a' /\ near d b b' /\ near d c c') /\ (near d x x' /\ near d y y' /\ near d z z') /\ (near d p p' /\ near d q q' /\ near d r r').

(** An angle of at most two turns in degrees, or at most a million radians. *)
Definition modest (deg : bool) (t : f64) : Prop := number t /\ Rabs (f2R t) <= if deg then 720 else 1000000.
(** What the sine and cosine of an angle may be off by: an angle in degrees is
    converted with a relative error. *)
Definition slop (deg : bool) (t : R) : R := 3 / 10 ^ 16 + if deg then 1 / 10 ^ 15 * Rabs (t * PI / 180) else 0.
