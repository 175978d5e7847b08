(** HamiltonianPy/lattice/_lattice_database.py: the reciprocal-space constants.
    Coordinates are exact reals (the code computes them in binary64); points are
    padded with zeros to three coordinates. *)
From Coq Require Import String List Reals ZArith Bool.
From Coquelicot Require Import Complex.
From Verif Require Import Py CVec LinSolve Lattice_Model LatticeGen_Model.
Import ListNotations.
Open Scope R_scope.
Local Open Scope res_scope.

(** AS.T *)
Definition transposed (AS : list point) : cmat := fun i j => RtoC (coord i (nth j AS v0)).
(** column j of the identity matrix *)
Definition unit_column (j : nat) : vec := fun i => if Nat.eqb i j then RtoC 1 else RtoC 0.
(** _BSCalculator, line 59: 2 * np.pi * np.linalg.inv(AS.T), where d is the number of
    columns of AS.  inv solves AS.T X = 1 column by column (LinSolve.solve); it raises
    LinAlgError if the matrix is not square or is singular. *)
Definition BSCalculator (d : nat) (AS : list point) : res (list point) :=
  if negb (Nat.eqb (List.length AS) d) then Err LinAlgError
  else
    columns <- mapM (fun j => solve d (transposed AS) (unit_column j)) (seq 0 d) ;;
    Ok (map (fun i => let entry j := Re (nth j columns vzero i) in vscale (2 * PI) (entry 0%nat, entry 1%nat, entry 2%nat)) (seq 0 d)).
(** np.dot(coeff, BS) / den *)
Definition dot_over (coeff : list (list Z)) (BS : list point) (den : R) : list point := map (fun ns => vscale (/ den) (comb ns BS)) coeff.

(** lines 68-69 *)
Definition SQUARE_XS_COEFF : list (list Z) := [[0; -1]; [-1; 0]; [0; 1]; [1; 0]]%Z.
Definition SQUARE_MS_COEFF : list (list Z) := [[-1; -1]; [-1; 1]; [1; 1]; [1; -1]]%Z.
(** lines 77-78 *)
Definition HEXAGON_MS_COEFF_60 : list (list Z) := [[0; -1]; [-1; -1]; [-1; 0]; [0; 1]; [1; 1]; [1; 0]]%Z.
Definition HEXAGON_KS_COEFF_60 : list (list Z) := [[1; -1]; [-1; -2]; [-2; -1]; [-1; 1]; [1; 2]; [2; 1]]%Z.
(** lines 81-82 *)
Definition HEXAGON_MS_COEFF_120 : list (list Z) := [[0; -1]; [-1; 0]; [-1; 1]; [0; 1]; [1; 0]; [1; -1]]%Z.
Definition HEXAGON_KS_COEFF_120 : list (list Z) := [[1; -2]; [-1; -1]; [-2; 1]; [-1; 2]; [1; 1]; [2; -1]]%Z.

(** X_BS = _BSCalculator(X_AS), for each cell or cluster X *)
Definition BS_of (c : cell) : res (list point) := BSCalculator (cdim c) (cvectors c).
(** np.dot(coeff, X_BS) / den *)
Definition points_of (coeff : list (list Z)) (den : R) (c : cell) : res (list point) := BS <- BS_of c ;; Ok (dot_over coeff BS den).

(** lines 95-98 *)
Definition CHAIN_CELL_BS := BS_of chain_cell.
Definition CHAIN_CELL_GAMMA : point := (0, 0, 0).
Definition CHAIN_CELL_ES := points_of [[-1]; [1]]%Z 2 chain_cell.
(** lines 104-110 *)
Definition SQUARE_CELL_BS := BS_of square_cell.
Definition SQUARE_CELL_GAMMA : point := (0, 0, 0).
Definition SQUARE_CELL_XS := points_of SQUARE_XS_COEFF 2 square_cell.
Definition SQUARE_CELL_MS := points_of SQUARE_MS_COEFF 2 square_cell.
(** lines 116-122 *)
Definition TRIANGLE_CELL_BS := BS_of triangle_cell.
Definition TRIANGLE_CELL_GAMMA : point := (0, 0, 0).
Definition TRIANGLE_CELL_MS := points_of HEXAGON_MS_COEFF_60 2 triangle_cell.
Definition TRIANGLE_CELL_KS := points_of HEXAGON_KS_COEFF_60 3 triangle_cell.
(** lines 130-136 *)
Definition HONEYCOMB_CELL_BS := BS_of honeycomb_cell.
Definition HONEYCOMB_CELL_GAMMA : point := (0, 0, 0).
Definition HONEYCOMB_CELL_MS := points_of HEXAGON_MS_COEFF_60 2 honeycomb_cell.
Definition HONEYCOMB_CELL_KS := points_of HEXAGON_KS_COEFF_60 3 honeycomb_cell.
(** lines 144-150 *)
Definition KAGOME_CELL_BS := BS_of kagome_cell.
Definition KAGOME_CELL_GAMMA : point := (0, 0, 0).
Definition KAGOME_CELL_MS := points_of HEXAGON_MS_COEFF_60 2 kagome_cell.
Definition KAGOME_CELL_KS := points_of HEXAGON_KS_COEFF_60 3 kagome_cell.
(** lines 158-180 *)
Definition CUBIC_CELL_BS := BS_of cubic_cell.
Definition CUBIC_CELL_GAMMA : point := (0, 0, 0).
Definition CUBIC_CELL_XS := points_of
  [[-1; 0; 0]; [1; 0; 0]; [0; -1; 0]; [0; 1; 0]; [0; 0; -1]; [0; 0; 1]]%Z 2 cubic_cell.
Definition CUBIC_CELL_MS := points_of
  [[-1; -1; 0]; [-1; 1; 0]; [1; 1; 0]; [1; -1; 0];
   [-1; 0; -1]; [-1; 0; 1]; [1; 0; 1]; [1; 0; -1];
   [0; -1; -1]; [0; -1; 1]; [0; 1; 1]; [0; 1; -1]]%Z 2 cubic_cell.
Definition CUBIC_CELL_KS := points_of
  [[-1; -1; -1]; [-1; 1; -1]; [1; 1; -1]; [1; -1; -1];
   [-1; -1; 1]; [-1; 1; 1]; [1; 1; 1]; [1; -1; 1]]%Z 2 cubic_cell.
(** lines 195-197 *)
Definition SQUARE_CROSS_BS := BS_of square_cross.
Definition SQUARE_CROSS_GAMMA : point := (0, 0, 0).
(** lines 213-219 *)
Definition SQUARE_Z_BS := BS_of square_z.
Definition SQUARE_Z_GAMMA : point := (0, 0, 0).
Definition SQUARE_Z_XS := points_of SQUARE_XS_COEFF 2 square_z.
Definition SQUARE_Z_MS := points_of SQUARE_MS_COEFF 2 square_z.
(** lines 235-241 *)
Definition SQUARE_S_BS := BS_of square_s.
Definition SQUARE_S_GAMMA : point := (0, 0, 0).
Definition SQUARE_S_XS := points_of SQUARE_XS_COEFF 2 square_s.
Definition SQUARE_S_MS := points_of SQUARE_MS_COEFF 2 square_s.
(** lines 261-267 *)
Definition TRIANGLE_STAR_BS := BS_of triangle_star.
Definition TRIANGLE_STAR_GAMMA : point := (0, 0, 0).
Definition TRIANGLE_STAR_MS := points_of HEXAGON_MS_COEFF_60 2 triangle_star.
Definition TRIANGLE_STAR_KS := points_of HEXAGON_KS_COEFF_60 3 triangle_star.
(** lines 282-288 *)
Definition HONEYCOMB_BENZENE_BS := BS_of honeycomb_benzene.
Definition HONEYCOMB_BENZENE_GAMMA : point := (0, 0, 0).
Definition HONEYCOMB_BENZENE_MS := points_of HEXAGON_MS_COEFF_60 2 honeycomb_benzene.
Definition HONEYCOMB_BENZENE_KS := points_of HEXAGON_KS_COEFF_60 3 honeycomb_benzene.
(** lines 304-306 *)
Definition HONEYCOMB_DIPHENYL_BS := BS_of honeycomb_diphenyl.
Definition HONEYCOMB_DIPHENYL_GAMMA : point := (0, 0, 0).
(** lines 332-338 *)
Definition HONEYCOMB_GEAR_BS := BS_of honeycomb_gear.
Definition HONEYCOMB_GEAR_GAMMA : point := (0, 0, 0).
Definition HONEYCOMB_GEAR_MS := points_of HEXAGON_MS_COEFF_60 2 honeycomb_gear.
Definition HONEYCOMB_GEAR_KS := points_of HEXAGON_KS_COEFF_60 3 honeycomb_gear.
