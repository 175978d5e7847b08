(** Vocabulary for C59_nearest: the textbook bands of independent particles hopping
    with amplitude t between nearest neighbours. *)
From Coq Require Import Reals String List ZArith.
From Coquelicot Require Import Complex.
From Verif Require Import CVec Lattice_Model LatticeGen_Model.
Import ListNotations.
Local Open Scope R_scope.

(** The sum of cos k.a over half of the six nearest neighbours a of a site of the
    triangular lattice with the translation vectors a1, a2 (at 60 degrees). *)
Definition hexagon (a1 a2 k : point) : R := cos (vdot k a1) + cos (vdot k a2) + cos (vdot k (vsub a1 a2)).
Definition angle1 : point := (1, 0, 0).
Definition angle2 : point := (1 / 2, sqrt 3 / 2, 0).
(** |1 + e^(ik.a1) + e^(ik.a2)| of the honeycomb lattice *)
Definition dirac (k : point) : R := sqrt (3 + 2 * hexagon angle1 angle2 k).

(** The energies of momentum k, one for each point of the cell. *)
Definition bands (name : string) (t : R) (k : point) : list R :=
  let '(kx, ky, kz) := k in
  if String.eqb name "chain" then [2 * t * cos kx]
  else if String.eqb name "square" then [2 * t * (cos kx + cos ky)]
  else if String.eqb name "cubic" then [2 * t * (cos kx + cos ky + cos kz)]
  else if String.eqb name "triangle" then [2 * t * hexagon angle1 angle2 k]
  else if String.eqb name "honeycomb" then [t * dirac k; - (t * dirac k)]
  else [- (2 * t); t + t * dirac k; t - t * dirac k].
(** the average of 1/(z - E) over the bands *)
Definition band_average (z : C) (l : list R) : C := (RtoC (/ INR (length l)) * fold_right (fun e s => / (z - RtoC e) + s)%C c0 l)%C.
