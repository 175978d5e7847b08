(** Model of HamiltonianPy/rotation3d.py in double precision. *)
From Coq Require Import List ZArith Bool Floats.SpecFloat.
From Verif Require Import Py Float64_Model State_Model Bond_Model KPath_Model.
Import ListNotations.
Open Scope Z_scope.
Local Open Scope res_scope.

(** A 3 x 3 array of doubles, row by row. *)
Inductive fmat3 := FM3 (a b c d e f g h i : f64).
Definition f0 : f64 := S754_zero false.
Definition f1 : f64 := S754_finite false 4503599627370496 (-52).
(** -x *)
Definition fneg (x : f64) : f64 := SFopp x.
(** np.pi *)
Definition npi : f64 := S754_finite false 7074237752028440 (-51).

(** np.matmul and np.dot of two 3 x 3 arrays: the products added from the first
    on.  Simplified: without fused multiplications. *)
Definition fdot3 (a b c a' b' c' : f64) : f64 := fadd (fadd (fmul a a') (fmul b b')) (fmul c c').
Definition fmatmul (p q : fmat3) : fmat3 :=
  let '(FM3 a b c d e f g h i) := p in
  let '(FM3 a' b' c' d' e' f' g' h' i') := q in
  FM3 (fdot3 a b c a' d' g') (fdot3 a b c b' e' h') (fdot3 a b c c' f' i')
      (fdot3 d e f a' d' g') (fdot3 d e f b' e' h') (fdot3 d e f c' f' i')
      (fdot3 g h i a' d' g') (fdot3 g h i b' e' h') (fdot3 g h i c' f' i').
Definition ftranspose (p : fmat3) : fmat3 := let '(FM3 a b c d e f g h i) := p in FM3 a d g b e h c f i.
(** np.linalg.multi_dot: of associations with the same cost numpy takes the one
    from the right (strict comparisons in _multi_dot_three and
    _multi_dot_matrix_chain_order). *)
Fixpoint fmulti_dot (p : fmat3) (ps : list fmat3) : fmat3 :=
  match ps with [] => p | q :: ps => fmatmul p (fmulti_dot q ps) end.

(** INVERSION, rotation3d.py:60-62 *)
Definition fINVERSION := FM3 (fneg f1) f0 f0 f0 (fneg f1) f0 f0 f0 (fneg f1).
(** np.matmul(R, INVERSION) if inversion else R *)
Definition ffinish (inversion : bool) (m : fmat3) : fmat3 := if inversion then fmatmul m fINVERSION else m.
(** (theta * np.pi / 180) if deg else theta; theta a float.  Simplified: for an int
    theta Python first converts it. *)
Definition fto_rad (deg : bool) (theta : f64) : f64 := if deg then fdiv (fmul theta npi) (flt_of 180) else theta.

(** The axis argument, a sequence of floats or an object of another type. *)
Inductive faxis_arg := FSeq (l : list f64) | FOther.

Section Library.
(** np.sin and np.cos: the numerical library's, whatever they are (the theorems
    assume them accurate).  Simplified: one function for scalars and for arrays. *)
Variables fsin fcos : f64 -> f64.

(** The matrices built from a sine and a cosine (used by several functions). *)
Definition fX (s c : f64) : fmat3 := FM3 f1 f0 f0 f0 c (fneg s) f0 s c.
Definition fY (s c : f64) : fmat3 := FM3 c f0 s f0 f1 f0 (fneg s) f0 c.
Definition fZ (s c : f64) : fmat3 := FM3 c (fneg s) f0 s c f0 f0 f0 f1.

(** RotationX, rotation3d.py:225-257 *)
Definition FRotationX (theta : f64) (deg inversion : bool) : fmat3 :=
  let theta := fto_rad deg theta in ffinish inversion (fX (fsin theta) (fcos theta)).
(** RotationY, rotation3d.py:260-292 *)
Definition FRotationY (theta : f64) (deg inversion : bool) : fmat3 :=
  let theta := fto_rad deg theta in ffinish inversion (fY (fsin theta) (fcos theta)).
(** RotationZ, rotation3d.py:295-327 *)
Definition FRotationZ (theta : f64) (deg inversion : bool) : fmat3 :=
  let theta := fto_rad deg theta in ffinish inversion (fZ (fsin theta) (fcos theta)).

(** RotationGeneral, rotation3d.py:330-413; view is _VIEW_AS_ZERO.  x ** 2 is one
    multiplication. *)
Definition FRotationGeneral (view : f64) (axis : faxis_arg) (theta : f64) (deg inversion : bool) : res fmat3 :=
  match axis with
  | FOther => Err AssertionError
  | FSeq l =>
      r <- match l with
           | [alpha; beta] =>
               let alpha := fto_rad deg alpha in
               let beta := fto_rad deg beta in
               let theta := fto_rad deg theta in
               Ok (fsin alpha, fcos alpha, (fsin beta, fcos beta), (fsin theta, fcos theta))
           | [x; y; z] =>
               let dxy := fsqrt (fadd (fmul x x) (fmul y y)) in
               let dr := fsqrt (fadd (fadd (fmul x x) (fmul y y)) (fmul z z)) in
               if flt dr view then Err ValueError
               else
                 let '(sin_alpha, cos_alpha) := if flt dxy view then (f0, f1) else (fdiv y dxy, fdiv x dxy) in
                 let theta := fto_rad deg theta in
                 Ok (sin_alpha, cos_alpha, (fdiv dxy dr, fdiv z dr), (fsin theta, fcos theta))
           | _ => Err ValueError
           end ;;
      let '(sin_alpha, cos_alpha, (sin_beta, cos_beta), (sin_theta, cos_theta)) := r in
      let RzAlpha := fZ sin_alpha cos_alpha in
      let RyBeta := fY sin_beta cos_beta in
      let RzTheta := fZ sin_theta cos_theta in
      Ok (ffinish inversion (fmulti_dot RzAlpha [RyBeta; RzTheta; ftranspose RyBeta; ftranspose RzAlpha]))
  end.

(** RotationEuler, rotation3d.py:416-464 *)
Definition FRotationEuler (alpha beta gamma : f64) (deg inversion : bool) : fmat3 :=
  let alpha := fto_rad deg alpha in
  let beta := fto_rad deg beta in
  let gamma := fto_rad deg gamma in
  let RzAlpha := fZ (fsin alpha) (fcos alpha) in
  let RyBeta := fY (fsin beta) (fcos beta) in
  let RzGamma := fZ (fsin gamma) (fcos gamma) in
  ffinish inversion (fmulti_dot RzAlpha [RyBeta; RzGamma]).
End Library.

(** np.sqrt(3)/2 and 1/np.sqrt(2), rotation3d.py:65-180 *)
Definition f_r3 : f64 := fdiv (fsqrt (flt_of 3)) (flt_of 2).
Definition f_r2 : f64 := fdiv f1 (fsqrt (flt_of 2)).
Definition f_h : f64 := fdiv f1 (flt_of 2).
(** -1/np.sqrt(2) is (-1)/np.sqrt(2) and -np.sqrt(3)/2 is (-np.sqrt(3))/2 *)
Definition f_mr2 : f64 := fdiv (fneg f1) (fsqrt (flt_of 2)).
Definition f_mr3 : f64 := fdiv (fneg (fsqrt (flt_of 3))) (flt_of 2).
Definition f_mh : f64 := fneg f_h.
(** the named constants with entries that are not 0, 1 or -1, in the order of the
    file: rotation3d.py:64-81, 103-120, 142-159, 182-195 *)
Definition fconstants : list fmat3 :=
  [ FM3 f1 f0 f0 f0 f_r3 f_mh f0 f_h f_r3; FM3 f1 f0 f0 f0 f_r2 f_mr2 f0 f_r2 f_r2; FM3 f1 f0 f0 f0 f_h f_mr3 f0 f_r3 f_h;
    FM3 f_r3 f0 f_h f0 f1 f0 f_mh f0 f_r3; FM3 f_r2 f0 f_r2 f0 f1 f0 f_mr2 f0 f_r2; FM3 f_h f0 f_r3 f0 f1 f0 f_mr3 f0 f_h;
    FM3 f_r3 f_mh f0 f_h f_r3 f0 f0 f0 f1; FM3 f_r2 f_mr2 f0 f_r2 f_r2 f0 f0 f0 f1; FM3 f_h f_mr3 f0 f_r3 f_h f0 f0 f0 f1;
    (let t x := fdiv (flt_of x) (flt_of 3) in FM3 (t 2) (t (-1)) (t 2) (t 2) (t 2) (t (-1)) (t (-1)) (t 2) (t 2));
    (let t x := fdiv (flt_of x) (flt_of 3) in FM3 (t (-1)) (t 2) (t 2) (t 2) (t (-1)) (t 2) (t 2) (t 2) (t (-1)));
    (let t x := fdiv (flt_of x) (flt_of 3) in FM3 (t 2) (t 2) (t (-1)) (t (-1)) (t 2) (t 2) (t 2) (t (-1)) (t 2)) ].
