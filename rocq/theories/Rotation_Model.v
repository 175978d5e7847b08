(** Model of HamiltonianPy/rotation3d.py, on real numbers (float rounding is not
    modelled: sin, cos, sqrt and pi are the mathematical ones). *)
From Coq Require Import List Reals Bool.
From Verif Require Import Py Line2D_Model.
Import ListNotations.
Open Scope R_scope.
Local Open Scope res_scope.

(** A 3 x 3 array, row by row. *)
Inductive mat3 := M3 (a b c d e f g h i : R).

(** np.matmul of two 3 x 3 arrays, .T, and division of an array by a number. *)
Definition matmul (p q : mat3) : mat3 :=
  let '(M3 a b c d e f g h i) := p in
  let '(M3 a' b' c' d' e' f' g' h' i') := q in
  M3 (a * a' + b * d' + c * g') (a * b' + b * e' + c * h') (a * c' + b * f' + c * i')
     (d * a' + e * d' + f * g') (d * b' + e * e' + f * h') (d * c' + e * f' + f * i')
     (g * a' + h * d' + i * g') (g * b' + h * e' + i * h') (g * c' + h * f' + i * i').
Definition transpose (p : mat3) : mat3 := let '(M3 a b c d e f g h i) := p in M3 a d g b e h c f i.
Definition mdiv (p : mat3) (k : R) : mat3 :=
  let '(M3 a b c d e f g h i) := p in M3 (a / k) (b / k) (c / k) (d / k) (e / k) (f / k) (g / k) (h / k) (i / k).
(** np.linalg.multi_dot: the association it chooses does not matter on exact
    numbers; here from the left. *)
Definition multi_dot (p : mat3) (ps : list mat3) : mat3 := fold_left matmul ps p.

(** The named constants, rotation3d.py:55-222. *)
Definition E := M3 1 0 0 0 1 0 0 0 1.
Definition INVERSION := M3 (-1) 0 0 0 (-1) 0 0 0 (-1).
Definition RX30 := M3 1 0 0 0 (sqrt 3 / 2) (- (1 / 2)) 0 (1 / 2) (sqrt 3 / 2).
Definition RX45 := M3 1 0 0 0 (1 / sqrt 2) (- (1 / sqrt 2)) 0 (1 / sqrt 2) (1 / sqrt 2).
Definition RX60 := M3 1 0 0 0 (1 / 2) (- (sqrt 3 / 2)) 0 (sqrt 3 / 2) (1 / 2).
Definition RX90 := M3 1 0 0 0 0 (-1) 0 1 0.
Definition RX180 := M3 1 0 0 0 (-1) 0 0 0 (-1).
Definition RX270 := M3 1 0 0 0 0 1 0 (-1) 0.
Definition RY30 := M3 (sqrt 3 / 2) 0 (1 / 2) 0 1 0 (- (1 / 2)) 0 (sqrt 3 / 2).
Definition RY45 := M3 (1 / sqrt 2) 0 (1 / sqrt 2) 0 1 0 (- (1 / sqrt 2)) 0 (1 / sqrt 2).
Definition RY60 := M3 (1 / 2) 0 (sqrt 3 / 2) 0 1 0 (- (sqrt 3 / 2)) 0 (1 / 2).
Definition RY90 := M3 0 0 1 0 1 0 (-1) 0 0.
Definition RY180 := M3 (-1) 0 0 0 1 0 0 0 (-1).
Definition RY270 := M3 0 0 (-1) 0 1 0 1 0 0.
Definition RZ30 := M3 (sqrt 3 / 2) (- (1 / 2)) 0 (1 / 2) (sqrt 3 / 2) 0 0 0 1.
Definition RZ45 := M3 (1 / sqrt 2) (- (1 / sqrt 2)) 0 (1 / sqrt 2) (1 / sqrt 2) 0 0 0 1.
Definition RZ60 := M3 (1 / 2) (- (sqrt 3 / 2)) 0 (sqrt 3 / 2) (1 / 2) 0 0 0 1.
Definition RZ90 := M3 0 (-1) 0 1 0 0 0 0 1.
Definition RZ180 := M3 (-1) 0 0 0 (-1) 0 0 0 1.
Definition RZ270 := M3 0 1 0 (-1) 0 0 0 0 1.
Definition R111_60 := mdiv (M3 2 (-1) 2 2 2 (-1) (-1) 2 2) 3.
Definition R111_120 := M3 0 0 1 1 0 0 0 1 0.
Definition R111_180 := mdiv (M3 (-1) 2 2 2 (-1) 2 2 2 (-1)) 3.
Definition R111_240 := M3 0 1 0 0 0 1 1 0 0.
Definition R111_300 := mdiv (M3 2 2 (-1) (-1) 2 2 2 (-1) 2) 3.
Definition AP0 := M3 1 0 0 0 0 1 0 1 0.
Definition AP1 := M3 0 0 1 0 1 0 1 0 0.
Definition AP2 := M3 0 1 0 1 0 0 0 0 1.

(** (theta * np.pi / 180) if deg else theta *)
Definition to_rad (deg : bool) (theta : R) : R := if deg then theta * PI / 180 else theta.
(** np.matmul(R, INVERSION) if inversion else R *)
Definition finish (inversion : bool) (m : mat3) : mat3 := if inversion then matmul m INVERSION else m.

(** RotationX, rotation3d.py:225-257 *)
Definition RotationX (theta : R) (deg inversion : bool) : mat3 :=
  let theta := to_rad deg theta in
  let sin_theta := sin theta in
  let cos_theta := cos theta in
  finish inversion (M3 1 0 0 0 cos_theta (- sin_theta) 0 sin_theta cos_theta).

(** RotationY, rotation3d.py:260-292 *)
Definition RotationY (theta : R) (deg inversion : bool) : mat3 :=
  let theta := to_rad deg theta in
  let sin_theta := sin theta in
  let cos_theta := cos theta in
  finish inversion (M3 cos_theta 0 sin_theta 0 1 0 (- sin_theta) 0 cos_theta).

(** RotationZ, rotation3d.py:295-327 *)
Definition RotationZ (theta : R) (deg inversion : bool) : mat3 :=
  let theta := to_rad deg theta in
  let sin_theta := sin theta in
  let cos_theta := cos theta in
  finish inversion (M3 cos_theta (- sin_theta) 0 sin_theta cos_theta 0 0 0 1).

(** The axis argument: a list, tuple or one-dimensional array of numbers, or
    an object of another type. *)
Inductive axis_arg := ASeq (l : list R) | AOther.

(** RotationGeneral, rotation3d.py:330-413; view is the module's _VIEW_AS_ZERO.
    Division by a zero dxy or dr happens only for view = 0 (numpy: nan); the
    theorems assume view > 0. *)
Definition RotationGeneral (view : R) (axis : axis_arg) (theta : R) (deg inversion : bool) : res mat3 :=
  match axis with
  | AOther => Err AssertionError
  | ASeq l =>
      r <- match l with
           | [alpha; beta] =>
               let alpha := to_rad deg alpha in
               let beta := to_rad deg beta in
               let theta := to_rad deg theta in
               Ok (sin alpha, cos alpha, (sin beta, cos beta), (sin theta, cos theta))
           | [x; y; z] =>
               let dxy := sqrt (x * x + y * y) in
               let dr := sqrt (x * x + y * y + z * z) in
               if Rltb dr view then Err ValueError
               else
                 let '(sin_alpha, cos_alpha) := if Rltb dxy view then (0, 1) else (y / dxy, x / dxy) in
                 let theta := to_rad deg theta in
                 Ok (sin_alpha, cos_alpha, (dxy / dr, z / dr), (sin theta, cos theta))
           | _ => Err ValueError
           end ;;
      let '(sin_alpha, cos_alpha, (sin_beta, cos_beta), (sin_theta, cos_theta)) := r in
      let RzAlpha := M3 cos_alpha (- sin_alpha) 0 sin_alpha cos_alpha 0 0 0 1 in
      let RyBeta := M3 cos_beta 0 sin_beta 0 1 0 (- sin_beta) 0 cos_beta in
      let RzTheta := M3 cos_theta (- sin_theta) 0 sin_theta cos_theta 0 0 0 1 in
      Ok (finish inversion (multi_dot RzAlpha [RyBeta; RzTheta; transpose RyBeta; transpose RzAlpha]))
  end.

(** RotationEuler, rotation3d.py:416-464 *)
Definition RotationEuler (alpha beta gamma : R) (deg inversion : bool) : mat3 :=
  let alpha := to_rad deg alpha in
  let beta := to_rad deg beta in
  let gamma := to_rad deg gamma in
  let RzAlpha := M3 (cos alpha) (- sin alpha) 0 (sin alpha) (cos alpha) 0 0 0 1 in
  let RyBeta := M3 (cos beta) 0 (sin beta) 0 1 0 (- sin beta) 0 (cos beta) in
  let RzGamma := M3 (cos gamma) (- sin gamma) 0 (sin gamma) (cos gamma) 0 0 0 1 in
  finish inversion (multi_dot RzAlpha [RyBeta; RzGamma]).

(** set_threshold, rotation3d.py:36-52: the new _VIEW_AS_ZERO (None: the
    argument is not a float). *)
Definition set_threshold (threshold : option R) : res R :=
  match threshold with
  | Some t => if Rleb 0 t then Ok t else Err AssertionError
  | None => Err AssertionError
  end.
