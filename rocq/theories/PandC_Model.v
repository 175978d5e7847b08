(** Model of tools/PandC.py. *)
From Coq Require Import ZArith Bool Floats.SpecFloat.
From Verif Require Import Py Float64_Model.
Open Scope Z_scope.
Local Open Scope res_scope.

(** An argument: a Python int, or an object of any other type (only
    [isinstance(., int)] is observed; a bool is the int 0 or 1). *)
Inductive arg := AInt (z : Z) | AOther.

(** math.factorial on an int (PandC.py:12): ValueError below zero. *)
Fixpoint zfact (n : nat) : Z :=
  match n with O => 1 | S m => Z.of_nat (S m) * zfact m end.
Definition factorial (z : Z) : res Z :=
  if z <? 0 then Err ValueError else Ok (zfact (Z.to_nat z)).

(** [x / y] with x a float and y an int (CPython float_div): y is first
    converted (OverflowError if too large), ZeroDivisionError on zero. *)
Definition float_div_int (x : f64) (y : Z) : res f64 :=
  fy <- float_of_int y ;;
  match fy with S754_zero _ => Err ZeroDivisionError | _ => Ok (fdiv x fy) end.

(** PandC.py:38-39 and 67-68: the two assertions, left to right. *)
Definition check_args (n k : arg) : res (Z * Z) :=
  match n with
  | AOther => Err AssertionError
  | AInt n =>
    _ <- assert_ (0 <=? n) ;;
    match k with
    | AOther => Err AssertionError
    | AInt k => _ <- assert_ ((0 <=? k) && (k <=? n)) ;; Ok (n, k)
    end
  end.

(** Permutation, PandC.py:15-44. *)
Definition Permutation_ (n k : arg) (repeat : bool) : res Z :=
  ' (n, k) <- check_args n k ;;
  if repeat then Ok (n ^ k)
  else
    a <- factorial n ;;
    b <- factorial (n - k) ;;
    q <- int_true_div a b ;;
    int_of_float q.

(** Combination, PandC.py:47-74.  Operands are evaluated left to right:
    factorial / factorial, then the third factorial, then the second division. *)
Definition Combination_ (n k : arg) (repeat : bool) : res Z :=
  ' (n, k) <- check_args n k ;;
  if repeat then
    a <- factorial (n + k - 1) ;;
    b <- factorial k ;;
    q <- int_true_div a b ;;
    c <- factorial (n - 1) ;;
    q2 <- float_div_int q c ;;
    int_of_float q2
  else
    a <- factorial n ;;
    b <- factorial k ;;
    q <- int_true_div a b ;;
    c <- factorial (n - k) ;;
    q2 <- float_div_int q c ;;
    int_of_float q2.
