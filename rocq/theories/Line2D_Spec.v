(** Specification vocabulary for lines in the plane (C40). *)
From Coq Require Import List Reals.
Import ListNotations.
Open Scope R_scope.

(** (x, y) is on the line through p and q. *)
Definition on_line (p q : R * R) (r : R * R) : Prop :=
  exists t, r = (fst p + t * (fst q - fst p), snd p + t * (snd q - snd p)).

(** With tolerance tol the two points are neither identical nor almost on a
    common horizontal or vertical line (exactly on one is fine). *)
Definition clean (tol : R) (p q : R * R) : Prop :=
  (fst q = fst p \/ tol < Rabs (fst q - fst p)) /\
  (snd q = snd p \/ tol < Rabs (snd q - snd p)) /\
  p <> q.

(** Where r lies: above (below) the point of the line with the same x by more
    than tol, left (right) of a vertical line by more than tol. *)
Definition above (tol : R) (p q r : R * R) : Prop := exists y, on_line p q (fst r, y) /\ y + tol < snd r.
Definition below (tol : R) (p q r : R * R) : Prop := exists y, on_line p q (fst r, y) /\ snd r < y - tol.
Definition near (tol : R) (p q r : R * R) : Prop := exists y, on_line p q (fst r, y) /\ Rabs (snd r - y) <= tol.
Definition vertical (p q : R * R) : Prop := fst p = fst q.

Definition pt (p : R * R) : list R := [fst p; snd p].
