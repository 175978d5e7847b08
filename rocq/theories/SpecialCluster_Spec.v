(** What the special clusters should be (C51). *)
From Coq Require Import String List Reals ZArith.
From Verif Require Import Lattice_Model Lattice_Spec LatticeGen_Model LatticeGen_Spec.
Import ListNotations.
Open Scope R_scope.

(** a cell whose points are displaced by o *)
Definition displaced (o : point) (c : cell) : cell := Cell (cdim c) (map (vadd o) (cpoints c)) (cvectors c).
(** name, number of points, and the lattice that the cluster divides *)
Definition special_table : list (string * (nat * cell)) :=
  let square := displaced (1 / 2, 1 / 2, 0) square_cell in
  let square' := displaced (1 / 2, 0, 0) square_cell in
  let honeycomb' := displaced (1 / 2, 0, 0) honeycomb_cell in
  [("square_cross", (12%nat, square)); ("square_12", (12%nat, square)); ("cross", (12%nat, square));
   ("square_z", (10%nat, square')); ("z", (10%nat, square'));
   ("square_s", (10%nat, square')); ("s", (10%nat, square'));
   ("triangle_star", (13%nat, triangle_cell)); ("triangle_13", (13%nat, triangle_cell)); ("star", (13%nat, triangle_cell)); ("SD", (13%nat, triangle_cell));
   ("honeycomb_benzene", (6%nat, honeycomb')); ("honeycomb_6", (6%nat, honeycomb')); ("benzene", (6%nat, honeycomb'));
   ("honeycomb_diphenyl", (10%nat, honeycomb_cell)); ("honeycomb_10", (10%nat, honeycomb_cell)); ("diphenyl", (10%nat, honeycomb_cell));
   ("honeycomb_gear", (24%nat, honeycomb')); ("honeycomb_24", (24%nat, honeycomb')); ("gear", (24%nat, honeycomb'))]%string.

(** The shape of each cluster: which sites of the divided lattice belong to it.  The
    cross is the sites within sqrt (5/2) of its centre; the two 10-site clusters are
    the 4 x 3 rectangle without two opposite corners; the star, the benzene ring and
    the gear are the sites within sqrt 3, sqrt (1/3), sqrt (7/3) of the centre; diphenyl is two
    benzene rings centred at (-1/2, 0) and (1/2, 0). *)
Definition within (r2 : R) (p : point) : Prop := let '(x, y, _) := p in x * x + y * y <= r2.
Definition z_shape (p : point) : Prop := let '(x, y, _) := p in Rabs x <= 3 / 2 /\ Rabs y <= 1 /\ x * y <= 1.
Definition s_shape (p : point) : Prop := let '(x, y, _) := p in Rabs x <= 3 / 2 /\ Rabs y <= 1 /\ -1 <= x * y.
Definition two_rings (p : point) : Prop := within (1 / 3) (vadd p (1 / 2, 0, 0)) \/ within (1 / 3) (vadd p (-1 / 2, 0, 0)).
Definition shape_table : list (string * (point -> Prop)) :=
  [("square_cross", within (5 / 2)); ("square_12", within (5 / 2)); ("cross", within (5 / 2));
   ("square_z", z_shape); ("z", z_shape); ("square_s", s_shape); ("s", s_shape);
   ("triangle_star", within 3); ("triangle_13", within 3); ("star", within 3); ("SD", within 3);
   ("honeycomb_benzene", within (1 / 3)); ("honeycomb_6", within (1 / 3)); ("benzene", within (1 / 3));
   ("honeycomb_diphenyl", two_rings); ("honeycomb_10", two_rings); ("diphenyl", two_rings);
   ("honeycomb_gear", within (7 / 3)); ("honeycomb_24", within (7 / 3)); ("gear", within (7 / 3))]%string.
