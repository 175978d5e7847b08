(** Model of HamiltonianPy/bond.py. *)
From Coq Require Import List ZArith Bool Reals Floats.SpecFloat.
From Flocq Require Import Core.Core.
From Verif Require Import Py Float64_Model State_Model State_Spec.
Import ListNotations.
Open Scope Z_scope.
Local Open Scope res_scope.

(** A one-dimensional numpy array: dtype int64 or float64. *)
Inductive arr := AI (l : list Z) | AF (l : list f64).
Definition alen (a : arr) : nat := match a with AI l => List.length l | AF l => List.length l end.

(** int64 arithmetic wraps around. *)
Definition wrap64 (z : Z) : Z := (z + 2 ^ 63) mod 2 ^ 64 - 2 ^ 63.

(** What a user may pass as an endpoint: a sequence of numbers, or something
    whose array has another number of axes (a scalar, a nested list). *)
Inductive pobj := PVec (l : list pynum) | PShape (shape : list nat).

(** np.array(l, copy=True), bond.py:103-104: int64 if all are ints, float64 if
    ints and floats are mixed.  Simplified: ints are taken to fit in 64 bits,
    and items that are no real numbers raise TypeError (numpy would build an
    object or string array). *)
Definition to_float (c : pynum) : res f64 :=
  match c with NInt z => float_of_int z | NFlt f => Ok f | NOther => Err TypeError end.
Definition to_int (c : pynum) : option Z := match c with NInt z => Some z | _ => None end.
Fixpoint all_ints (l : list pynum) : option (list Z) :=
  match l with
  | [] => Some []
  | c :: r => match to_int c, all_ints r with Some z, Some zs => Some (z :: zs) | _, _ => None end
  end.
Definition np_array (l : list pynum) : res arr :=
  match all_ints l with
  | Some zs => Ok (AI zs)
  | None => fs <- mapM to_float l ;; Ok (AF fs)
  end.

(** bond.py:116 [tuple(int(_ZOOM * coord) for coord in p)]; [_ZOOM] fits in 64 bits. *)
Definition cells (zoom : Z) (a : arr) : res (list Z) :=
  match a with
  | AI l => Ok (map (fun z => wrap64 (zoom * z)) l)
  | AF l => mapM (fun f => quantise zoom (NFlt f)) l
  end.

(** Python's order on tuples of ints: [lexb s t] is [s <= t]. *)
Fixpoint lexb (s t : list Z) : bool :=
  match s, t with
  | [], _ => true
  | _ :: _, [] => false
  | x :: s', y :: t' => if x =? y then lexb s' t' else x <? y
  end.

Record bond := MkBond {
  b_p0 : arr; b_p1 : arr; b_dir : bool;
  b_form : list Z * list Z * bool            (* _tuple_form *)
}.

(** __init__ from two arrays, bond.py:105-119 *)
Definition init (zoom : Z) (p0 p1 : arr) (directional : bool) : res bond :=
  _ <- assert_ (match alen p0 with 1%nat | 2%nat | 3%nat => true | _ => false end) ;;
  _ <- assert_ (Nat.eqb (alen p1) (alen p0)) ;;
  t0 <- cells zoom p0 ;;
  t1 <- cells zoom p1 ;;
  let '(u0, u1) := if directional then (t0, t1) else if lexb t0 t1 then (t0, t1) else (t1, t0) in
  Ok (MkBond p0 p1 directional (u0, u1, directional)).

(** Bond(p0, p1, directional=...), bond.py:85-119 *)
Definition make_bond (zoom : Z) (p0 p1 : pobj) (directional : bool) : res bond :=
  match p0, p1 with
  | PVec l0, PVec l1 => a0 <- np_array l0 ;; a1 <- np_array l1 ;; init zoom a0 a1 directional
  | PVec l0, PShape _ => _ <- np_array l0 ;; Err AssertionError
  | PShape _, PVec l1 => _ <- np_array l1 ;; Err AssertionError
  | PShape _, PShape _ => Err AssertionError
  end.

(** endpoints, bond.py:121-127 (copies) *)
Definition endpoints (b : bond) : arr * arr := (b_p0 b, b_p1 b).

(** __hash__ (bond.py:237-242) is hash(_tuple_form); __eq__, __ne__ 244-262. *)
Definition hash_key (b : bond) : list Z * list Z * bool := b_form b.
Definition form_eqb (f g : list Z * list Z * bool) : bool :=
  let '(s0, s1, d) := f in let '(t0, t1, e) := g in
  if list_eq_dec Z.eq_dec s0 t0 then
    if list_eq_dec Z.eq_dec s1 t1 then Bool.eqb d e else false
  else false.
(** an operand of ==: a Bond, or something else *)
Inductive operand := OBond (b : bond) | OOther.
(** b == other: NotImplemented on both sides falls back to identity, False. *)
Definition bond_eq (b : bond) (o : operand) : bool :=
  match o with OBond c => form_eqb (b_form b) (b_form c) | OOther => false end.
Definition bond_ne (b : bond) (o : operand) : bool :=
  match o with OBond c => negb (form_eqb (b_form b) (b_form c)) | OOther => true end.
(** __lt__, __le__, __gt__, __ge__ (bond.py:264-274) are all NotImplemented. *)
Definition bond_cmp (o : cop) (b : bond) (other : operand) : res bool := Err TypeError.

(** ndarray subtraction: int64 wraps, mixed dtypes are promoted to float64. *)
Definition flt_of (z : Z) : f64 := match float_of_int z with Ok f => f | Err _ => S754_nan end.
Definition as_floats (a : arr) : list f64 := match a with AI l => map flt_of l | AF l => l end.
Fixpoint zip_with {A B C} (f : A -> B -> C) (l : list A) (m : list B) : list C :=
  match l, m with x :: l', y :: m' => f x y :: zip_with f l' m' | _, _ => [] end.
Definition arr_sub (a b : arr) : arr :=
  match a, b with
  | AI l, AI m => AI (zip_with (fun x y => wrap64 (x - y)) l m)
  | _, _ => AF (zip_with fsub (as_floats a) (as_floats b))
  end.

(** The real numbers in an array. *)
Definition values (a : arr) : list R :=
  match a with AI l => map IZR l | AF l => map (fun f => coord_value (NFlt f)) l end.

(** np.around(x, ndigits), ndigits = None leaves x alone.  Simplified: exact
    real arithmetic (round half to even), the float rounding of the result is
    not modelled. *)
Definition around (nd : option Z) (x : R) : R :=
  match nd with
  | None => x
  | Some n => (IZR (ZnearestE (x * powerRZ 10 n)) / powerRZ 10 n)%R
  end.

Definition sumR (l : list R) : R := fold_right Rplus 0%R l.
(** np.linalg.norm; simplified: exact square root and sum. *)
Definition norm (v : list R) : R := sqrt (sumR (map (fun x => (x * x)%R) v)).
(** getLength, bond.py:137-155 *)
Definition getLength (b : bond) (nd : option Z) : R := around nd (norm (values (arr_sub (b_p0 b) (b_p1 b)))).

(** getDisplace, bond.py:157-187 *)
Definition getDisplace (b : bond) (nd : option Z) : res (list R) :=
  if b_dir b then Ok (map (around nd) (values (arr_sub (b_p1 b) (b_p0 b)))) else Err NotImplementedError.

(** np.arctan2 on reals (a zero counts as +0.0). *)
Definition atan2 (y x : R) : R :=
  if Rlt_dec 0 x then atan (y / x)
  else if Rlt_dec x 0 then (if Rle_dec 0 y then (atan (y / x) + PI)%R else (atan (y / x) - PI)%R)
  else if Rlt_dec 0 y then (PI / 2)%R
  else if Rlt_dec y 0 then (- (PI / 2))%R
  else 0%R.

(** getAzimuth, bond.py:189-235; a float for one and two dimensions, an array
    of two for three.  Simplified: exact reals. *)
Inductive azimuth := AzOne (theta : R) | AzTwo (alpha beta : R).
Definition getAzimuth (b : bond) (radian : bool) (nd : option Z) : res azimuth :=
  if b_dir b then
    let coeff := if radian then 1%R else (180 / PI)%R in
    let fin t := around nd (coeff * t)%R in
    match values (arr_sub (b_p1 b) (b_p0 b)) with
    | [x] => Ok (AzOne (fin (if Rle_dec 0 x then 0%R else (- PI)%R)))
    | [x; y] => Ok (AzOne (fin (atan2 y x)))
    | [x; y; z] => Ok (AzTwo (fin (atan2 (sqrt (x * x + y * y)) z)) (fin (atan2 y x)))
    | _ => Err ValueError
    end
  else Err NotImplementedError.

(** flip, bond.py:310-327: a new Bond, quantised with the current _ZOOM. *)
Definition flip (zoom : Z) (b : bond) : res bond :=
  if b_dir b then init zoom (b_p1 b) (b_p0 b) true else Err NotImplementedError.

(** oppositeTo, bond.py:329-351 *)
Definition oppositeTo (zoom : Z) (b : bond) (other : operand) : res bool :=
  if b_dir b then
    match other with
    | OBond c => f <- flip zoom b ;; Ok (bond_eq f (OBond c))
    | OOther => Err TypeError
    end
  else Err NotImplementedError.
