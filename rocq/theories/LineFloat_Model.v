(** Model of HamiltonianPy/line2d.py once more, on IEEE doubles: the points are
    arrays of floats, the tolerances floats (Line2D_Model is the same code on reals).
    Left out: arrays of ints; the warnings of numpy. *)
From Coq Require Import List ZArith Bool String Floats.SpecFloat.
From Verif Require Import Py Float64_Model Line2D_Model.
Import ListNotations.
Local Open Scope res_scope.

(** np.abs(a) <= b; False if one is nan *)
Definition abs_le (a b : f64) : bool := SFleb (SFabs a) b.

Record fline := MkFLine {
  fl_x0 : f64; fl_y0 : f64; fl_dx : f64; fl_dy : f64;    (* _p0, _dr *)
  fl_horizontal : bool; fl_vertical : bool
}.

(** Line2D(p0, p1, tol=tol), line2d.py:67-94 *)
Definition fmake_line (p0 p1 : list f64) (tol : f64) : res fline :=
  match p0, p1 with
  | [x0; y0], [x1; y1] =>
      let dx := fsub x1 x0 in
      let dy := fsub y1 y0 in
      if abs_le dx tol && abs_le dy tol then Err ValueError
      else Ok (MkFLine x0 y0 dx dy (abs_le dy tol) (abs_le dx tol))
  | _, _ => Err AssertionError
  end.

(** LocationRelation, line2d.py:192-236 *)
Definition FLocationRelation (l : fline) (point : list f64) (tol : f64) : res location :=
  match point with
  | [x; y] =>
      if fl_horizontal l then
        Ok (if abs_le (fsub y (fl_y0 l)) tol then ON else if flt y (fl_y0 l) then BELOW else ABOVE)
      else if fl_vertical l then
        Ok (if abs_le (fsub x (fl_x0 l)) tol then ON else if flt x (fl_x0 l) then LEFT else RIGHT)
      else
        let y_on := fadd (fmul (fdiv (fl_dy l) (fl_dx l)) (fsub x (fl_x0 l))) (fl_y0 l) in
        Ok (if abs_le (fsub y y_on) tol then ON else if flt y y_on then BELOW else ABOVE)
  | _ => Err ValueError
  end.

(** Coordinate (and __call__), line2d.py:264-312 *)
Definition FCoordinate (l : fline) (known : f64) (which : string) : res (f64 * f64) :=
  let isx := String.eqb which "x" in
  let isy := String.eqb which "y" in
  _ <- assert_ (isx || isy) ;;
  if fl_horizontal l then
    if isx then Ok (known, fl_y0 l) else Err RuntimeError
  else if fl_vertical l then
    if isy then Ok (fl_x0 l, known) else Err RuntimeError
  else
    if isx then Ok (known, fadd (fmul (fdiv (fl_dy l) (fl_dx l)) (fsub known (fl_x0 l))) (fl_y0 l))
    else Ok (fadd (fmul (fdiv (fl_dx l) (fl_dy l)) (fsub known (fl_y0 l))) (fl_x0 l), known).
