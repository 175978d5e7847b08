(** HamiltonianPy/lattice/lattice.py: the data plotted by Lattice.show and ShowFirstBZ, and
    HamiltonianPy/tools/Octahedron.py.  Coordinates are exact reals; matplotlib is not
    modelled: a figure is the list of what the calls of plot and text receive. *)
From Coq Require Import String List Reals ZArith Bool.
From Verif Require Import Py Lattice_Model Reciprocal_Model ColorPrint_Model Text_Model.
Import ListNotations.
Open Scope R_scope.
Local Open Scope res_scope.

(** ** Lattice.show, lattice.py:350-400 *)
(** lines 364-372: [clusters], one array per translation. *)
Definition show_clusters (L : lattice) (scope : int_arg) : res (list (list point)) :=
  match scope with
  | NotInt => Err AssertionError
  | AnInt s =>
      if negb (0 <=? s)%Z then Err AssertionError
      else if Nat.leb 3 (space_dim L) then Err RuntimeError
      else Ok (map (fun tmp => map (fun p => vadd p (comb tmp (vectors L))) (points L))
                   (product (zrange (- s) (s + 1)) (List.length (vectors L))))
  end.
(** lines 374-382: the marks drawn; a chain is drawn along the x axis (ys = zeros). *)
Definition show_marks (L : lattice) (clusters : list (list point)) : list (R * R) :=
  flat_map (map (fun p => if Nat.eqb (space_dim L) 1 then (coord 0 p, 0) else (coord 0 p, coord 1 p))) clusters.
(** lines 384-390: the limits of the axes, from those matplotlib chose. *)
Definition show_limits (left right bottom top : R) : (R * R) * (R * R) :=
  let half := Rmax (right - left) (top - bottom) / 2 in
  let x_center := (right + left) / 2 in
  let y_center := (top + bottom) / 2 in
  ((x_center - half, x_center + half), (y_center - half, y_center + half)).
(** lines 391, 394: the title, and the name of the file. *)
Definition show_title (name : string) (scope : Z) : string := (name ++ ",scope=" ++ dec scope)%string.
Definition show_file (name : string) (scope : Z) : string := (show_title name scope ++ ".png")%string.

(** ** ShowFirstBZ, lattice.py:598-633 *)
(** lines 626-630: the line drawn for the reciprocal-lattice point dR. *)
Definition bisector (scale : R) (dR : point) : point * point :=
  let center := vscale (1 / 2) dR in
  let orthogonal_vector := (- coord 1 dR, coord 0 dR, 0) in
  (vadd center (vscale scale orthogonal_vector), vsub center (vscale scale orthogonal_vector)).
(** lines 614-630: the labelled marks and the lines; Bs = 2 pi inv(As.T) as in
    _BSCalculator (line 616). *)
Definition show_first_bz (As : array_arg) (scale : R) : res (list (string * point) * list (point * point)) :=
  match As with
  | Arr cols rows =>
      if negb (Nat.eqb cols 2 && Nat.eqb (List.length rows) 2) then Err AssertionError
      else
        Bs <- BSCalculator 2 rows ;;
        let coeffs := product (zrange (-1) 2) 2 in
        Ok (map (fun coeff => (tuple_repr (map dec coeff), comb coeff Bs)) coeffs,
            map (fun coeff => bisector scale (comb coeff Bs)) (filter (fun coeff => negb (zs_eqb coeff [0; 0]%Z)) coeffs))
  | NotArr2 => Err AssertionError
  end.

(** ** tools/Octahedron.py *)
(** Octahedron.py:20-26 *)
Definition oct_point (i : nat) : point :=
  match i with
  | 0%nat => (0, 0, 0) | 1%nat => (1, -1, 0) | 2%nat => (1, 1, 0) | 3%nat => (-1, 1, 0) | 4%nat => (-1, -1, 0)
  | 5%nat => (0, 0, sqrt 2) | _ => (0, 0, - sqrt 2)
  end.
(** Octahedron.py:30-51: the end points of [lines] *)
Definition oct_lines : list (nat * nat) :=
  [(1, 2); (2, 3); (3, 4); (4, 1); (0, 1); (0, 2); (0, 3); (0, 4); (0, 5); (0, 6); (5, 1); (5, 2); (5, 3); (5, 4); (6, 1); (6, 2); (6, 3); (6, 4)]%nat.
(** Octahedron.py:65: the corners *)
Definition oct_corners : list nat := [1; 2; 3; 4; 5; 6]%nat.
