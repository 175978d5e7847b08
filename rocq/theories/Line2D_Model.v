(** Model of HamiltonianPy/line2d.py, on real numbers (float rounding is not
    modelled; plotting is left out, __repr__ and __str__ are in Text3_Model). *)
From Coq Require Import List Reals String Bool.
From Verif Require Import Py.
Import ListNotations.
Open Scope R_scope.
Local Open Scope res_scope.

(** [a <= b] as a Python bool *)
Definition Rleb (a b : R) : bool := if Rle_dec a b then true else false.
Definition Rltb (a b : R) : bool := if Rlt_dec a b then true else false.

(** Location, line2d.py:18-33 *)
Inductive location := ON | BELOW | ABOVE | LEFT | RIGHT.
Definition loc_eqb (a b : location) : bool :=
  match a, b with ON, ON | BELOW, BELOW | ABOVE, ABOVE | LEFT, LEFT | RIGHT, RIGHT => true | _, _ => false end.

Record line := MkLine {
  l_x0 : R; l_y0 : R; l_dx : R; l_dy : R;    (* _p0, _dr *)
  IsHorizontal : bool; IsVertical : bool
}.

(** Line2D(p0, p1, tol=tol), line2d.py:67-94 *)
Definition make_line (p0 p1 : list R) (tol : R) : res line :=
  match p0, p1 with
  | [x0; y0], [x1; y1] =>
      let dx := x1 - x0 in
      let dy := y1 - y0 in
      if Rleb (Rabs dx) tol && Rleb (Rabs dy) tol then Err ValueError
      else Ok (MkLine x0 y0 dx dy (Rleb (Rabs dy) tol) (Rleb (Rabs dx) tol))
  | _, _ => Err AssertionError
  end.

(** linspace(0, 1, num=101, endpoint=True) *)
Definition default_ratios : list R := map (fun k => INR k / 100) (seq 0 101).

(** PointsFactory, line2d.py:133-163 *)
Definition PointsFactory (l : line) (ratios : option (list R)) : list (R * R) :=
  let rs := match ratios with None => default_ratios | Some rs => rs end in
  map (fun r => (l_x0 l + r * l_dx l, l_y0 l + r * l_dy l)) rs.

(** LocationRelation, line2d.py:192-236 *)
Definition LocationRelation (l : line) (point : list R) (tol : R) : res location :=
  match point with
  | [x; y] =>
      if IsHorizontal l then
        Ok (if Rleb (Rabs (y - l_y0 l)) tol then ON else if Rltb y (l_y0 l) then BELOW else ABOVE)
      else if IsVertical l then
        Ok (if Rleb (Rabs (x - l_x0 l)) tol then ON else if Rltb x (l_x0 l) then LEFT else RIGHT)
      else
        let y_on := l_dy l / l_dx l * (x - l_x0 l) + l_y0 l in
        Ok (if Rleb (Rabs (y - y_on)) tol then ON else if Rltb y y_on then BELOW else ABOVE)
  | _ => Err ValueError
  end.

(** Coordinate (and __call__), line2d.py:264-312 *)
Definition Coordinate (l : line) (known : R) (which : string) : res (R * R) :=
  let isx := String.eqb which "x" in
  let isy := String.eqb which "y" in
  _ <- assert_ (isx || isy) ;;
  if IsHorizontal l then
    if isx then Ok (known, l_y0 l) else Err RuntimeError
  else if IsVertical l then
    if isy then Ok (l_x0 l, known) else Err RuntimeError
  else
    if isx then Ok (known, l_dy l / l_dx l * (known - l_x0 l) + l_y0 l)
    else Ok (l_dx l / l_dy l * (known - l_y0 l) + l_x0 l, known).
