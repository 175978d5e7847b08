(** Specification vocabulary for lines in the plane with double coordinates (C40). *)
From Coq Require Import List ZArith Reals Floats.SpecFloat.
From Verif Require Import Py Float64_Model Float64_Proofs Line2D_Model.
Open Scope R_scope.

(** A double that is neither infinite nor nan, and one of at most 2^400. *)
Definition number (x : f64) : Prop := fvalid x = true /\ ffinite x = true.
Definition usual (x : f64) : Prop := number x /\ Rabs (f2R x) <= IZR (2 ^ 400).
Definition usual_point (p : f64 * f64) : Prop := usual (fst p) /\ usual (snd p).
(** The point itself. *)
Definition value (p : f64 * f64) : R * R := (f2R (fst p), f2R (snd p)).
Definition fpt (p : f64 * f64) : list f64 := cons (fst p) (cons (snd p) nil).

(** One part in 10^15. *)
Definition bit : R := 1 / 1000000000000000.
(** The answer [a] for a point whose signed distance (along an axis) from the line is
    [d], if that distance is known up to [E] only: [lo] and [hi] are the two sides. *)
Definition told (d tol E : R) (lo hi a : location) : Prop :=
  (a = ON /\ Rabs d <= tol * (1 + bit) + E) \/ (a = lo /\ d < E - tol) \/ (a = hi /\ tol - E < d).
(** What a height y on a line through a point of height y0 may be off by. *)
Definition slack (y y0 : R) : R := 2 * bit * (Rabs (y - y0) + Rabs y0) + / IZR (2 ^ 1074).
