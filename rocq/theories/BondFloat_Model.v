(** Model of Bond.getLength of HamiltonianPy/bond.py in double precision. *)
From Coq Require Import List ZArith Bool Floats.SpecFloat.
From Verif Require Import Py Float64_Model State_Model Bond_Model KPath_Model.
Import ListNotations.
Open Scope Z_scope.

(** np.linalg.norm(self._p0 - self._p1), bond.py:154: the differences as floats,
    their squares added from the first on, the root.  Simplified: the dot product
    is taken without fused multiplications. *)
Definition flength (b : bond) : f64 := row_norm float_arith (as_floats (arr_sub (b_p0 b) (b_p1 b))).

(** np.rint: the nearest integer, the even one of two. *)
Definition frint (f : f64) : f64 :=
  match f with
  | S754_finite s m e =>
      if 0 <=? e then f
      else
        let d := 2 ^ (- e) in
        let q := Zpos m / d in let r := Zpos m mod d in
        let k := if 2 * r <? d then q else if d <? 2 * r then q + 1 else if Z.even q then q else q + 1 in
        binary_normalize prec64 emax64 (cond_Zopp s k) 0 s
  | _ => f
  end.
(** numpy's power_of_ten (calculation.c): a table up to 10^8, products from 10^9 on *)
Fixpoint tens (k : nat) (x : f64) : f64 := match k with O => x | S k' => tens k' (fmul x (flt_of 10)) end.
Definition power_of_ten (n : Z) : f64 := if n <? 9 then flt_of (10 ^ n) else tens (Z.to_nat (n - 9)) (flt_of (10 ^ 9)).
(** np.around(x, ndigits) of a float64 *)
Definition faround (nd : option Z) (x : f64) : f64 :=
  match nd with
  | None => x
  | Some n =>
      if n =? 0 then frint x
      else if 0 <? n then fdiv (frint (fmul x (power_of_ten n))) (power_of_ten n)
      else fmul (frint (fdiv x (power_of_ten (- n)))) (power_of_ten (- n))
  end.
(** getLength, bond.py:137-155 *)
Definition fgetLength (b : bond) (nd : option Z) : f64 := faround nd (flength b).
