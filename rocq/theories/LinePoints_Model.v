(** Model of Line2D.PointsFactory of HamiltonianPy/line2d.py in double precision. *)
From Coq Require Import List ZArith Floats.SpecFloat.
From Verif Require Import Py Float64_Model Bond_Model Line2D_Model LineFloat_Model.
Import ListNotations.

(** np.linspace(0, 1, num=101, endpoint=True), line2d.py:157: arange(0, 101) times
    the step 1 / 100, plus 0; the last one is 1. *)
Definition one64 : f64 := S754_finite false 4503599627370496 (-52).
Definition fdefault_ratios : list f64 :=
  let step := fdiv one64 (flt_of 100) in
  (map (fun k => fadd (fmul (flt_of (Z.of_nat k)) step) (S754_zero false)) (seq 0 100) ++ [one64])%list.
(** PointsFactory, line2d.py:135-162: p0 + ratio * dr.  Left out: an argument
    [ratios] that is no 1D array (an AssertionError). *)
Definition FPointsFactory (l : fline) (ratios : option (list f64)) : list (f64 * f64) :=
  let rs := match ratios with None => fdefault_ratios | Some rs => rs end in
  map (fun r => (fadd (fl_x0 l) (fmul r (fl_dx l)), fadd (fl_y0 l) (fmul r (fl_dy l)))) rs.
