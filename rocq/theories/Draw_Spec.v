(** The lattices Draw2DLattice advertises (C53), written out. *)
From Coq Require Import String List Reals ZArith.
From Verif Require Import Lattice_Model.
Import ListNotations.
Open Scope R_scope.

Inductive net := Square | Triangle | Honeycomb | Kagome.
(** The names a user may give, and the file each lattice is saved to by default. *)
Definition named (s : string) (n : net) : Prop :=
  match n with
  | Square => s = "s" \/ s = "square"
  | Triangle => s = "t" \/ s = "triangle"
  | Honeycomb => s = "h" \/ s = "honeycomb"
  | Kagome => s = "k" \/ s = "kagome"
  end%string.
Definition file_of (n : net) : string :=
  match n with Square => "square.pdf" | Triangle => "triangle.pdf" | Honeycomb => "honeycomb.pdf" | Kagome => "kagome.pdf" end%string.
(** Sites per unit cell. *)
Definition members (n : net) : nat := match n with Square | Triangle => 1 | Honeycomb => 2 | Kagome => 3 end.
(** Member j of the unit cell (a, b). *)
Definition place (n : net) (a b : Z) (j : nat) : point :=
  let hex := (IZR a + IZR b / 2, IZR b * sqrt 3 / 2) in
  match n, j with
  | Square, _ => (IZR a, IZR b, 0)
  | Honeycomb, 1%nat => (fst hex, snd hex + / sqrt 3, 0)
  | Kagome, 1%nat => (fst hex + / 4, snd hex + sqrt 3 / 4, 0)
  | Kagome, 2%nat => (fst hex + / 2, snd hex, 0)
  | _, _ => (fst hex, snd hex, 0)
  end.
(** Distance of nearest neighbours. *)
Definition spacing (n : net) : R := match n with Square | Triangle => 1 | Honeycomb => / sqrt 3 | Kagome => / 2 end.
(** The unit cells drawn. *)
Definition drawn_cell (num0 num1 : Z) (a b : Z) : Prop := (- num0 <= a <= num0)%Z /\ (- num1 <= b <= num1)%Z.
