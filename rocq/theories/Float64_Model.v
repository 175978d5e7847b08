(** IEEE binary64 as used by Python's [float]: the standard library's
    [SpecFloat] (pure Gallina), specialised to precision 53, emax 1024. *)
From Coq Require Import ZArith Floats.SpecFloat Bool.
From Verif Require Import Py.
Open Scope Z_scope.

Definition prec64 := 53.
Definition emax64 := 1024.
(** A Python float: zero, infinity, nan or [S754_finite s m e] = (-1)^s m 2^e. *)
Definition f64 := spec_float.
Definition fvalid (f : f64) : bool := valid_binary prec64 emax64 f.

(** Python [x * y], [x / y] (y non-zero), [x + y], [x - y] on floats. *)
Definition fmul (x y : f64) : f64 := SFmul prec64 emax64 x y.
Definition fdiv (x y : f64) : f64 := SFdiv prec64 emax64 x y.
Definition fadd (x y : f64) : f64 := SFadd prec64 emax64 x y.
Definition fsub (x y : f64) : f64 := SFsub prec64 emax64 x y.
Definition flt (x y : f64) : bool := SFltb x y.

(** Python [float(z)] for an int: correctly rounded; OverflowError when too big. *)
Definition float_of_int (z : Z) : res f64 :=
  match binary_normalize prec64 emax64 z 0 false with
  | S754_infinity _ => Err OverflowError
  | f => Ok f
  end.

(** Python [int(f)]: truncation towards zero. *)
Definition int_of_float (f : f64) : res Z :=
  match f with
  | S754_zero _ => Ok 0
  | S754_infinity _ => Err OverflowError
  | S754_nan => Err ValueError
  | S754_finite s m e =>
      let a := if 0 <=? e then Zpos m * 2 ^ e else Zpos m / 2 ^ (- e) in
      Ok (if s then - a else a)
  end.

(** Python true division [a / b] of two ints: the correctly rounded quotient
    (longobject.c long_true_divide); ZeroDivisionError, OverflowError. *)
Definition int_true_div (a b : Z) : res f64 :=
  match b with
  | 0 => Err ZeroDivisionError
  | _ =>
    match a with
    | 0 => Ok (S754_zero (b <? 0))
    | _ =>
      let s := xorb (a <? 0) (b <? 0) in
      let '(mz, ez, lz) := SFdiv_core_binary prec64 emax64 (Z.abs a) 0 (Z.abs b) 0 in
      match binary_round_aux prec64 emax64 s mz ez lz with
      | S754_infinity _ => Err OverflowError
      | f => Ok f
      end
    end
  end.
