From Coq Require Import List Reals Bool Lra Lia.
From Verif Require Import Py Line2D_Model Line2D_Proofs Rotation_Model Rotation_Spec.
Import ListNotations.
Open Scope R_scope.

Lemma v3_eq (a b c a' b' c' : R) : a = a' -> b = b' -> c = c' -> (a, b, c) = (a', b', c').
Proof. congruence. Qed.
Lemma sc t : cos t * cos t = 1 - sin t * sin t.
Proof. pose proof (sin2_cos2 t). unfold Rsqr in *. lra. Qed.

(** apply and products *)
Lemma apply_mul p q v : apply (matmul p q) v = apply p (apply q v).
Proof. destruct p, q, v as [[x y] z]. cbn. apply v3_eq; ring. Qed.
Lemma apply_inv v : apply INVERSION v = vopp v.
Proof. destruct v as [[x y] z]. cbn. apply v3_eq; ring. Qed.
Lemma apply_opp m v : apply m (vopp v) = vopp (apply m v).
Proof. destruct m, v as [[x y] z]. cbn. apply v3_eq; ring. Qed.
Lemma apply_finish b m v : apply (finish b m) v = if b then vopp (apply m v) else apply m v.
Proof. destruct b; [|reflexivity]. cbn [finish]. now rewrite apply_mul, apply_inv, apply_opp. Qed.
Lemma det_mul p q : det (matmul p q) = det p * det q.
Proof. destruct p, q. cbn. ring. Qed.
Lemma det_finish b m : det (finish b m) = if b then - det m else det m.
Proof. destruct b; [|reflexivity]. cbn [finish]. rewrite det_mul. cbn. ring. Qed.
Lemma apply_ext p q : (forall v, apply p v = apply q v) -> p = q.
Proof.
  intros H. destruct p as [a b c d e f g h i], q as [a' b' c' d' e' f' g' h' i'].
  pose proof (H ex) as H1. pose proof (H ey) as H2. pose proof (H ez) as H3. cbn in H1, H2, H3.
  injection H1 as H11 H12 H13. injection H2 as H21 H22 H23. injection H3 as H31 H32 H33.
  f_equal; lra.
Qed.

(** The conjugated rotation, in terms of any sines and cosines. *)
Definition conj_rot (sa ca sb cb st ct : R) : mat3 :=
  multi_dot (M3 ca (- sa) 0 sa ca 0 0 0 1)
    [M3 cb 0 sb 0 1 0 (- sb) 0 cb; M3 ct (- st) 0 st ct 0 0 0 1; transpose (M3 cb 0 sb 0 1 0 (- sb) 0 cb); transpose (M3 ca (- sa) 0 sa ca 0 0 0 1)].
Lemma conj_rot_turn sa ca sb cb theta v : ca * ca = 1 - sa * sa -> cb * cb = 1 - sb * sb ->
  apply (conj_rot sa ca sb cb (sin theta) (cos theta)) v = turn (sb * ca, sb * sa, cb) theta v.
Proof.
  intros A B. destruct v as [[x y] z]. unfold conj_rot, multi_dot, turn. cbn [fold_left transpose matmul apply vadd vscale vdot vcross].
  apply v3_eq; ring [A B].
Qed.

(** turns *)
Lemma turn_isometry n theta u v : vdot n n = 1 -> vdot (turn n theta u) (turn n theta v) = vdot u v.
Proof.
  destruct n as [[a b] c], u as [[x y] z], v as [[x' y'] z']. unfold turn. cbn [vadd vscale vdot vcross]. intros H.
  pose proof (sc theta) as S. set (s := sin theta) in *. set (k := cos theta) in *.
  assert (C : c * c = 1 - a * a - b * b) by lra. ring [C S].
Qed.
Lemma turn_axis n theta : vdot n n = 1 -> turn n theta n = n.
Proof.
  destruct n as [[a b] c]. unfold turn. cbn [vadd vscale vdot vcross]. intros ->.
  apply v3_eq; ring.
Qed.
Lemma turn_add n s t v : vdot n n = 1 -> turn n s (turn n t v) = turn n (s + t) v.
Proof.
  destruct n as [[a b] c], v as [[x y] z]. unfold turn. cbn [vadd vscale vdot vcross]. intros H.
  assert (C : c * c = 1 - a * a - b * b) by lra. rewrite cos_plus, sin_plus.
  apply v3_eq; ring [C].
Qed.
Lemma turn_zero n v : turn n 0 v = v.
Proof. destruct n as [[a b] c], v as [[x y] z]. unfold turn. cbn [vadd vscale vdot vcross]. rewrite cos_0, sin_0. apply v3_eq; ring. Qed.
Lemma turn_scale n t k v : turn n t (vscale k v) = vscale k (turn n t v).
Proof. destruct n as [[a b] c], v as [[x y] z]. unfold turn. cbn [vadd vscale vdot vcross]. apply v3_eq; ring. Qed.
(** determinant of a matrix that acts as a turn *)
Lemma turn_det m n theta : vdot n n = 1 -> (forall v, apply m v = turn n theta v) -> det m = 1.
Proof.
  intros H T. pose proof (T ex) as T1. pose proof (T ey) as T2. pose proof (T ez) as T3.
  destruct m as [m1 m2 m3 m4 m5 m6 m7 m8 m9], n as [[a b] c]. unfold turn in *. cbn [ex ey ez vadd vscale vdot vcross apply] in *.
  assert (C : c * c = 1 - a * a - b * b) by lra. pose proof (sc theta) as S.
  set (s := sin theta) in *. set (k := cos theta) in *.
  injection T1 as T11 T12 T13. injection T2 as T21 T22 T23. injection T3 as T31 T32 T33.
  assert (m1 = a * a + k * (1 - a * a)) by lra. assert (m2 = a * b - k * (a * b) - s * c) by lra. assert (m3 = a * c - k * (a * c) + s * b) by lra.
  assert (m4 = a * b - k * (a * b) + s * c) by lra. assert (m5 = b * b + k * (1 - b * b)) by lra. assert (m6 = b * c - k * (b * c) - s * a) by lra.
  assert (m7 = a * c - k * (a * c) - s * b) by lra. assert (m8 = b * c - k * (b * c) + s * a) by lra. assert (m9 = c * c + k * (1 - c * c)) by lra.
  subst m1 m2 m3 m4 m5 m6 m7 m8 m9. cbn [det]. clear - C S.
  ring [C S].
Qed.
Lemma vlen_pos_sq v : vlen v * vlen v = vdot v v.
Proof. unfold vlen. apply sqrt_sqrt. destruct v as [[x y] z]. cbn. pose proof (Rle_0_sqr x). pose proof (Rle_0_sqr y). pose proof (Rle_0_sqr z). unfold Rsqr in *. lra. Qed.
Lemma unit_scale v : vlen v <> 0 -> vdot (vscale (/ vlen v) v) (vscale (/ vlen v) v) = 1.
Proof.
  intros H. pose proof (vlen_pos_sq v) as S. set (l := vlen v) in *.
  assert (E : vdot (vscale (/ l) v) (vscale (/ l) v) = / l * / l * vdot v v) by (destruct v as [[x y] z]; cbn; ring).
  rewrite E, <- S. field. exact H.
Qed.
Lemma isometry_turn m n theta : vdot n n = 1 -> (forall v, apply m v = turn n theta v) -> isometry m.
Proof. intros H T u v. rewrite !T. now apply turn_isometry. Qed.
Lemma isometry_finish b m : isometry m -> isometry (finish b m).
Proof.
  intros H u v. rewrite !apply_finish. destruct b; [|apply H]. rewrite <- (H u v).
  destruct (apply m u) as [[x y] z], (apply m v) as [[x' y'] z']. cbn. ring.
Qed.
(** isometry is orthogonality *)
Lemma isometry_orthogonal m : isometry m <-> matmul (transpose m) m = E.
Proof.
  split; intros H.
  - destruct m as [a b c d e f g h i]. unfold isometry in H.
    pose proof (H ex ex). pose proof (H ex ey). pose proof (H ex ez). pose proof (H ey ex). pose proof (H ey ey). pose proof (H ey ez).
    pose proof (H ez ex). pose proof (H ez ey). pose proof (H ez ez). cbn in *. unfold E. f_equal; lra.
  - destruct m as [a b c d e f g h i]. intros [[x y] z] [[x' y'] z']. cbn in H. unfold E in H. injection H as H1 H2 H3 H4 H5 H6 H7 H8 H9. cbn.
    transitivity ((a * a + d * d + g * g) * (x * x') + (a * b + d * e + g * h) * (x * y') + (a * c + d * f + g * i) * (x * z')
       + (b * a + e * d + h * g) * (y * x') + (b * b + e * e + h * h) * (y * y') + (b * c + e * f + h * i) * (y * z')
       + (c * a + f * d + i * g) * (z * x') + (c * b + f * e + i * h) * (z * y') + (c * c + f * f + i * i) * (z * z')); [ring|].
    rewrite H1, H2, H3, H4, H5, H6, H7, H8, H9. ring.
Qed.
