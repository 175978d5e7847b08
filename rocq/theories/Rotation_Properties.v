(** C42: rotation matrices. *)
From Coq Require Import List Reals Bool Lra Lia.
From Verif Require Import Py Line2D_Model Line2D_Proofs Rotation_Model Rotation_Spec Rotation_Proofs.
Import ListNotations.
Open Scope R_scope.

(** with or without the inversion *)
Definition improper (inversion : bool) (v : vec) : vec := if inversion then vopp v else v.
Definition angle (deg : bool) (theta : R) : R := if deg then degrees theta else theta.
Lemma angle_to_rad deg t : to_rad deg t = angle deg t.
Proof. destruct deg; [|reflexivity]. cbn. unfold degrees. field. Qed.

(** What the reference turn is: linear, keeps the axis and all scalar products,
    and turns a perpendicular vector by theta towards n x v. *)
Theorem C42_turn : forall n theta, vdot n n = 1 ->
  turn n theta n = n /\ (forall u v, vdot (turn n theta u) (turn n theta v) = vdot u v) /\
  (forall v, vdot n v = 0 -> turn n theta v = vadd (vscale (cos theta) v) (vscale (sin theta) (vcross n v))) /\
  (forall s v, turn n s (turn n theta v) = turn n (s + theta) v) /\ (forall v, turn n 0 v = v).
Proof.
  intros n theta H. split; [now apply turn_axis|]. split; [intros; now apply turn_isometry|]. split; [|split].
  - intros v Z. unfold turn. rewrite Z. destruct n as [[a b] c], v as [[x y] z]. cbn. apply v3_eq; ring.
  - intros. now apply turn_add.
  - apply turn_zero.
Qed.
Print Assumptions C42_turn.

(** RotationX, RotationY and RotationZ turn by the angle about their axis. *)
Theorem C42_xyz : forall theta deg inversion v,
  apply (RotationX theta deg inversion) v = improper inversion (turn ex (angle deg theta) v) /\
  apply (RotationY theta deg inversion) v = improper inversion (turn ey (angle deg theta) v) /\
  apply (RotationZ theta deg inversion) v = improper inversion (turn ez (angle deg theta) v).
Proof.
  intros theta deg inversion [[x y] z]. unfold RotationX, RotationY, RotationZ. rewrite !apply_finish, !angle_to_rad. unfold improper, turn.
  destruct inversion; (split; [|split]); cbn [apply ex ey ez vadd vscale vdot vcross vopp]; apply v3_eq; ring.
Qed.
Print Assumptions C42_xyz.

(** RotationGeneral with a spherical axis (alpha, beta). *)
Theorem C42_general_spherical : forall view alpha beta theta deg inversion,
  exists m, RotationGeneral view (ASeq [alpha; beta]) theta deg inversion = Ok m /\
    vdot (direction (angle deg alpha) (angle deg beta)) (direction (angle deg alpha) (angle deg beta)) = 1 /\
    forall v, apply m v = improper inversion (turn (direction (angle deg alpha) (angle deg beta)) (angle deg theta) v).
Proof.
  intros view alpha beta theta deg inversion. eexists. split; [reflexivity|]. rewrite !angle_to_rad.
  pose proof (sc (angle deg alpha)) as A. pose proof (sc (angle deg beta)) as B. split.
  - unfold direction. cbn [vdot]. ring [A B].
  - intros v. rewrite apply_finish. fold (conj_rot (sin (angle deg alpha)) (cos (angle deg alpha)) (sin (angle deg beta)) (cos (angle deg beta)) (sin (angle deg theta)) (cos (angle deg theta))).
    rewrite conj_rot_turn by (apply sc). reflexivity.
Qed.
Print Assumptions C42_general_spherical.

(** The Cartesian branch, with the axis it really uses. *)
Lemma cartesian_branch view x y z theta deg inversion : 0 < view -> view <= vlen (x, y, z) ->
  let n := if Rltb (sqrt (x * x + y * y)) view then vscale (/ vlen (x, y, z)) (sqrt (x * x + y * y), 0, z) else vscale (/ vlen (x, y, z)) (x, y, z) in
  vdot n n = 1 /\ exists m, RotationGeneral view (ASeq [x; y; z]) theta deg inversion = Ok m /\
    forall v, apply m v = improper inversion (turn n (angle deg theta) v).
Proof.
  intros V L n. assert (Lp : vlen (x, y, z) <> 0) by lra.
  pose proof (vlen_pos_sq (x, y, z)) as Sq. cbn [vdot] in Sq.
  assert (Dp : 0 <= x * x + y * y) by (pose proof (Rle_0_sqr x); pose proof (Rle_0_sqr y); unfold Rsqr in *; lra).
  pose proof (sqrt_sqrt _ Dp) as Dq. set (d := sqrt (x * x + y * y)) in *. set (l := vlen (x, y, z)) in *.
  assert (Nn : vdot n n = 1).
  { unfold n. destruct (Rltb d view).
    - cbn [vscale vdot]. replace (/ l * d * (/ l * d) + / l * 0 * (/ l * 0) + / l * z * (/ l * z)) with (/ l * / l * (d * d + z * z)) by ring.
      rewrite Dq, <- Sq. field. lra.
    - cbn [vscale vdot]. replace (/ l * x * (/ l * x) + / l * y * (/ l * y) + / l * z * (/ l * z)) with (/ l * / l * (x * x + y * y + z * z)) by ring.
      rewrite <- Sq. field. lra. }
  split; [exact Nn|].
  assert (Ev : Rltb (sqrt (x * x + y * y + z * z)) view = false).
  { unfold Rltb. destruct (Rlt_dec _ view) as [H|H]; [|reflexivity]. change (sqrt (x * x + y * y + z * z)) with l in H. lra. }
  unfold RotationGeneral. rewrite Ev. fold d. change (sqrt (x * x + y * y + z * z)) with l.
  assert (B : z / l * (z / l) = 1 - d / l * (d / l)).
  { apply Rmult_eq_reg_l with (l * l); [|apply Rmult_integral_contrapositive_currified; lra]. field_simplify; [|lra|lra].
    replace (z ^ 2) with (l * l - d * d) by (rewrite Sq, Dq; ring). ring. }
  destruct (Rltb d view) eqn:Ed; cbv beta iota zeta delta [bind]; eexists; (split; [reflexivity|]); intros v; rewrite apply_finish, angle_to_rad.
  - fold (conj_rot 0 1 (d / l) (z / l) (sin (angle deg theta)) (cos (angle deg theta))).
    rewrite conj_rot_turn; [|ring|exact B]. replace (d / l * 1, d / l * 0, z / l) with n; [reflexivity|].
    unfold n. rewrite ?Ed. cbn [vscale]. apply v3_eq; field; lra.
  - assert (dn : d <> 0).
    { unfold Rltb in Ed. destruct (Rlt_dec d view); [discriminate|lra]. }
    fold (conj_rot (y / d) (x / d) (d / l) (z / l) (sin (angle deg theta)) (cos (angle deg theta))).
    rewrite conj_rot_turn; [| |exact B].
    + replace (d / l * (x / d), d / l * (y / d), z / l) with n; [reflexivity|].
      unfold n. rewrite ?Ed. cbn [vscale]. apply v3_eq; field; lra.
    + apply Rmult_eq_reg_l with (d * d); [|apply Rmult_integral_contrapositive_currified; lra]. field_simplify; [|lra|lra].
      replace (x ^ 2) with (d * d - y * y) by (rewrite Dq; ring). ring.
Qed.

(** RotationGeneral with a Cartesian axis that is not too short, and is either
    exactly along z or at least `view` away from the z axis. *)
Theorem C42_general_cartesian : forall view x y z theta deg inversion, 0 < view -> view <= vlen (x, y, z) ->
  (x = 0 /\ y = 0) \/ view <= vlen (x, y, 0) ->
  exists m, RotationGeneral view (ASeq [x; y; z]) theta deg inversion = Ok m /\
    forall v, apply m v = improper inversion (turn (vscale (/ vlen (x, y, z)) (x, y, z)) (angle deg theta) v).
Proof.
  intros view x y z theta deg inversion V L Hx.
  destruct (cartesian_branch view x y z theta deg inversion V L) as (_ & m & Em & Hm). exists m. split; [exact Em|].
  intros v. rewrite Hm. destruct Hx as [[-> ->]|Hx].
  - replace (0 * 0 + 0 * 0) with 0 by ring. rewrite sqrt_0. destruct (Rltb 0 view); reflexivity.
  - assert (Rltb (sqrt (x * x + y * y)) view = false) as ->; [|reflexivity].
    unfold Rltb. destruct (Rlt_dec _ view) as [H|H]; [|reflexivity]. unfold vlen in Hx. cbn [vdot] in Hx.
    replace (x * x + y * y + 0 * 0) with (x * x + y * y) in Hx by ring. lra.
Qed.
Print Assumptions C42_general_cartesian.

(** In the remaining case (a long enough axis, but less than `view` away from the
    z axis) the result is a turn about a unit vector within 2 view / |axis| of
    the requested direction. *)
Theorem C42_general_near_z : forall view x y z theta deg inversion, 0 < view -> view <= vlen (x, y, z) -> vlen (x, y, 0) < view ->
  exists m n, RotationGeneral view (ASeq [x; y; z]) theta deg inversion = Ok m /\ vdot n n = 1 /\
    vlen (vadd n (vopp (vscale (/ vlen (x, y, z)) (x, y, z)))) <= 2 * view / vlen (x, y, z) /\
    forall v, apply m v = improper inversion (turn n (angle deg theta) v).
Proof.
  intros view x y z theta deg inversion V L Hs.
  destruct (cartesian_branch view x y z theta deg inversion V L) as (Nn & m & Em & Hm).
  unfold vlen in Hs. cbn [vdot] in Hs. replace (x * x + y * y + 0 * 0) with (x * x + y * y) in Hs by ring.
  assert (Ed : Rltb (sqrt (x * x + y * y)) view = true) by (unfold Rltb; destruct (Rlt_dec _ view); [reflexivity|lra]).
  rewrite Ed in *. exists m. eexists. split; [exact Em|]. split; [exact Nn|]. split; [|exact Hm].
  assert (Dp : 0 <= x * x + y * y) by (pose proof (Rle_0_sqr x); pose proof (Rle_0_sqr y); unfold Rsqr in *; lra).
  pose proof (sqrt_sqrt _ Dp) as Dq. pose proof (sqrt_pos (x * x + y * y)) as Dn. set (d := sqrt (x * x + y * y)) in *.
  set (l := vlen (x, y, z)) in *. assert (lp : 0 < / l) by (apply Rinv_0_lt_compat; lra).
  unfold vlen at 1. apply Rle_trans with (sqrt ((2 * d * / l) * (2 * d * / l))).
  - apply sqrt_le_1_alt. cbn [vadd vopp vscale vdot].
    replace ((/ l * d + -1 * (/ l * x)) * (/ l * d + -1 * (/ l * x)) + (/ l * 0 + -1 * (/ l * y)) * (/ l * 0 + -1 * (/ l * y)) + (/ l * z + -1 * (/ l * z)) * (/ l * z + -1 * (/ l * z)))
      with (/ l * / l * (d * d - 2 * (d * x) + (x * x + y * y))) by ring.
    replace (2 * d * / l * (2 * d * / l)) with (/ l * / l * (4 * (d * d))) by ring.
    apply Rmult_le_compat_l; [left; now apply Rmult_lt_0_compat|]. rewrite <- Dq.
    assert (Xd : - d <= x).
    { destruct (Rle_dec (- d) x); [assumption|]. pose proof (Rle_0_sqr y). unfold Rsqr in *. nra. }
    nra.
  - rewrite sqrt_square by (apply Rmult_le_pos; lra). unfold Rdiv. apply Rmult_le_compat_r; lra.
Qed.
Print Assumptions C42_general_near_z.

(** Refuted there: with the default threshold 1e-10 the half turn about
    (0, 9e-11, 9e-11), an axis the function accepts, does not fix its axis. *)
Theorem C42_near_z_refuted : exists m, let a := 9 / 10 ^ 11 in
  RotationGeneral (/ 10 ^ 10) (ASeq [0; a; a]) 180 true false = Ok m /\ apply m (0, a, a) = (a, - a, 0).
Proof.
  assert (P : sqrt 2 * sqrt 2 = 2) by (apply sqrt_sqrt; lra). pose proof (sqrt_pos 2) as S0.
  set (a := 9 / 10 ^ 11). assert (ap : 0 < a) by (unfold a; lra).
  assert (D1 : sqrt (0 * 0 + a * a) = a) by (replace (0 * 0 + a * a) with (a * a) by ring; now apply sqrt_square, Rlt_le).
  assert (D2 : vlen (0, a, a) = sqrt 2 * a).
  { unfold vlen. cbn [vdot]. replace (0 * 0 + a * a + a * a) with ((sqrt 2 * a) * (sqrt 2 * a)); [apply sqrt_square; nra|].
    replace (sqrt 2 * a * (sqrt 2 * a)) with ((sqrt 2 * sqrt 2) * (a * a)) by ring. rewrite P. ring. }
  assert (S2 : 12 / 10 <= sqrt 2).
  { destruct (Rle_dec (12 / 10) (sqrt 2)); [assumption|]. nra. }
  destruct (cartesian_branch (/ 10 ^ 10) 0 a a 180 true false) as (_ & m & Em & Hm).
  { lra. }
  { rewrite D2. apply Rle_trans with (12 / 10 * a); [unfold a; lra|]. apply Rmult_le_compat_r; lra. }
  exists m. split; [exact Em|]. rewrite Hm, D1, D2.
  assert (Rltb a (/ 10 ^ 10) = true) as ->.
  { unfold Rltb. destruct (Rlt_dec a (/ 10 ^ 10)) as [H|H]; [reflexivity|]. elim H. unfold a. lra. }
  cbn [improper angle]. unfold degrees. replace (180 * (PI / 180)) with PI by field. unfold turn. rewrite cos_PI, sin_PI.
  assert (I : / (sqrt 2 * a) * a = / sqrt 2) by (field; lra).
  assert (J : / sqrt 2 * / sqrt 2 = / 2) by (rewrite <- Rinv_mult_distr by lra; now rewrite P).
  cbn [vscale vdot vadd vcross]. rewrite I, Rmult_0_r. set (k := / sqrt 2) in *.
  apply v3_eq; ring_simplify; replace (k ^ 2) with (/ 2) by (rewrite <- J; ring); field.
Qed.
Print Assumptions C42_near_z_refuted.

(** When RotationGeneral raises: a non-sequence, a wrong length, or a Cartesian
    axis shorter than the threshold. *)
Theorem C42_general_errors : forall view axis theta deg inversion,
  (RotationGeneral view axis theta deg inversion = Err AssertionError <-> axis = AOther) /\
  (RotationGeneral view axis theta deg inversion = Err ValueError <->
     exists l, axis = ASeq l /\ ((List.length l <> 2 /\ List.length l <> 3)%nat \/ exists x y z, l = [x; y; z] /\ vlen (x, y, z) < view)) /\
  (forall e, RotationGeneral view axis theta deg inversion = Err e -> e = AssertionError \/ e = ValueError).
Proof.
  intros view axis theta deg inversion. destruct axis as [l|].
  2:{ cbn. split; [tauto|]. split; [split; [discriminate|intros (l & [=] & _)]|intros e [= <-]; auto]. }
  assert (K : (exists m, RotationGeneral view (ASeq l) theta deg inversion = Ok m /\
                ((exists a b, l = [a; b]) \/ exists x y z, l = [x; y; z] /\ ~ vlen (x, y, z) < view)) \/
              (RotationGeneral view (ASeq l) theta deg inversion = Err ValueError /\
                ((List.length l <> 2 /\ List.length l <> 3)%nat \/ exists x y z, l = [x; y; z] /\ vlen (x, y, z) < view))).
  { destruct l as [|a [|b [|c [|d l]]]].
    - right. split; [reflexivity|]. left. cbn. lia.
    - right. split; [reflexivity|]. left. cbn. lia.
    - left. eexists. split; [reflexivity|]. left. now exists a, b.
    - cbn [RotationGeneral]. destruct (Rltb (sqrt (a * a + b * b + c * c)) view) eqn:Ev; unfold Rltb in Ev; destruct (Rlt_dec (sqrt (a * a + b * b + c * c)) view) as [H|H]; try discriminate.
      + right. split; [reflexivity|]. right. now exists a, b, c.
      + left. destruct (if Rltb (sqrt (a * a + b * b)) view then (0, 1) else _) as [sa ca]. eexists. split; [reflexivity|].
        right. now exists a, b, c.
    - right. split; [reflexivity|]. left. cbn. lia. }
  destruct K as [(m & -> & K)|[-> K]].
  - split; [split; discriminate|]. split; [|discriminate]. split; [discriminate|].
    intros (l' & [= <-] & [H|(x & y & z & -> & H)]).
    + destruct K as [(a & b & ->)|(x & y & z & -> & _)]; cbn in H; lia.
    + destruct K as [(a & b & [=])|(x' & y' & z' & [= <- <- <-] & N)]. contradiction.
  - split; [split; discriminate|]. split; [|intros e [= <-]; auto]. split; [|reflexivity].
    intros _. exists l. now split.
Qed.
Print Assumptions C42_general_errors.

(** RotationEuler turns by gamma about z, then by beta about y, then by alpha
    about z (fixed axes). *)
Theorem C42_euler : forall alpha beta gamma deg inversion v,
  apply (RotationEuler alpha beta gamma deg inversion) v =
  improper inversion (turn ez (angle deg alpha) (turn ey (angle deg beta) (turn ez (angle deg gamma) v))).
Proof.
  intros alpha beta gamma deg inversion v.
  destruct (C42_xyz alpha deg false (turn ey (angle deg beta) (turn ez (angle deg gamma) v))) as (_ & _ & A).
  destruct (C42_xyz beta deg false (turn ez (angle deg gamma) v)) as (_ & B & _).
  destruct (C42_xyz gamma deg false v) as (_ & _ & G). cbn [improper] in *.
  rewrite <- A, <- B, <- G. unfold RotationEuler. rewrite apply_finish.
  cbn [multi_dot fold_left]. rewrite !apply_mul. reflexivity.
Qed.
Print Assumptions C42_euler.

Lemma unit_e : vdot ex ex = 1 /\ vdot ey ey = 1 /\ vdot ez ez = 1.
Proof. cbn. lra. Qed.
Definition proper (inversion : bool) (m : mat3) : Prop :=
  isometry m /\ matmul (transpose m) m = E /\ det m = if inversion then -1 else 1.
Lemma proper_turn inversion m n theta : vdot n n = 1 -> (forall v, apply m v = turn n theta v) -> proper inversion (finish inversion m).
Proof.
  intros H T. pose proof (isometry_finish inversion m (isometry_turn m n theta H T)) as I.
  split; [exact I|]. split; [now apply isometry_orthogonal|]. rewrite det_finish, (turn_det m n theta H T). reflexivity.
Qed.
(** All of them return orthogonal matrices of determinant 1 (-1 with the
    inversion); RotationGeneral whenever it returns. *)
Theorem C42_orthogonal : forall alpha beta gamma view axis deg inversion, 0 < view ->
  proper inversion (RotationX alpha deg inversion) /\ proper inversion (RotationY alpha deg inversion) /\ proper inversion (RotationZ alpha deg inversion) /\
  proper inversion (RotationEuler alpha beta gamma deg inversion) /\
  (forall m, RotationGeneral view axis alpha deg inversion = Ok m -> proper inversion m).
Proof.
  intros alpha beta gamma view axis deg inversion V. destruct unit_e as (U1 & U2 & U3). split; [|split; [|split; [|split]]].
  - apply (proper_turn inversion (RotationX alpha deg false) ex (angle deg alpha) U1). intros v. apply (C42_xyz alpha deg false v).
  - apply (proper_turn inversion (RotationY alpha deg false) ey (angle deg alpha) U2). intros v. apply (C42_xyz alpha deg false v).
  - apply (proper_turn inversion (RotationZ alpha deg false) ez (angle deg alpha) U3). intros v. apply (C42_xyz alpha deg false v).
  - assert (I : isometry (RotationEuler alpha beta gamma deg false)).
    { intros u v. rewrite !C42_euler. cbn [improper]. now rewrite !turn_isometry. }
    pose proof (isometry_finish inversion _ I) as I'. split; [exact I'|]. split; [now apply isometry_orthogonal|].
    change (RotationEuler alpha beta gamma deg inversion) with (finish inversion (RotationEuler alpha beta gamma deg false)). rewrite det_finish.
    assert (det (RotationEuler alpha beta gamma deg false) = 1) as ->; [|reflexivity].
    change (det (matmul (matmul (RotationZ alpha deg false) (RotationY beta deg false)) (RotationZ gamma deg false)) = 1).
    rewrite !det_mul, (turn_det _ ez (angle deg alpha) U3), (turn_det _ ey (angle deg beta) U2), (turn_det _ ez (angle deg gamma) U3); [ring| | |]; intros v;
      [apply (C42_xyz gamma deg false v)|apply (C42_xyz beta deg false v)|apply (C42_xyz alpha deg false v)].
  - intros m Hm.
    assert (F : exists m0, RotationGeneral view axis alpha deg false = Ok m0 /\ m = finish inversion m0).
    { destruct axis as [l|]; [|discriminate]. cbn [RotationGeneral] in *.
      destruct (match l with [] => _ | _ => _ end) as [[[[sa ca] [sb cb]] [st ct]]|]; [|discriminate]. cbn [bind] in *.
      eexists. split; [reflexivity|]. injection Hm as <-. reflexivity. }
    destruct F as (m0 & E0 & ->).
    assert (T : exists n, vdot n n = 1 /\ forall v, apply m0 v = turn n (angle deg alpha) v).
    { destruct (C42_general_errors view axis alpha deg false) as (E1 & E2 & _).
      destruct axis as [l|]; [|discriminate].
      destruct l as [|a [|b [|c [|d l]]]]; try discriminate.
      - destruct (C42_general_spherical view a b alpha deg false) as (m1 & Em & Nn & H). rewrite E0 in Em. injection Em as <-. eauto.
      - destruct (Rlt_dec (vlen (a, b, c)) view) as [H|H].
        { assert (X : RotationGeneral view (ASeq [a; b; c]) alpha deg false = Err ValueError) by (apply E2; eexists; split; [reflexivity|]; right; now exists a, b, c). congruence. }
        destruct (cartesian_branch view a b c alpha deg false V ltac:(lra)) as (Nn & m1 & Em & H1). rewrite E0 in Em. injection Em as <-.
        eexists. split; [exact Nn|]. exact H1. }
    destruct T as (n & Nn & T). exact (proper_turn inversion m0 n (angle deg alpha) Nn T).
Qed.
Print Assumptions C42_orthogonal.

(** The requested axis is fixed (reversed, with the inversion). *)
Theorem C42_axis_fixed : forall view theta deg inversion, 0 < view ->
  apply (RotationX theta deg inversion) ex = improper inversion ex /\
  apply (RotationY theta deg inversion) ey = improper inversion ey /\
  apply (RotationZ theta deg inversion) ez = improper inversion ez /\
  (forall alpha beta m, RotationGeneral view (ASeq [alpha; beta]) theta deg inversion = Ok m ->
     apply m (direction (angle deg alpha) (angle deg beta)) = improper inversion (direction (angle deg alpha) (angle deg beta))) /\
  (forall x y z m, (x = 0 /\ y = 0) \/ view <= vlen (x, y, 0) -> RotationGeneral view (ASeq [x; y; z]) theta deg inversion = Ok m ->
     apply m (x, y, z) = improper inversion (x, y, z)).
Proof.
  intros view theta deg inversion V. destruct unit_e as (U1 & U2 & U3).
  split; [|split; [|split; [|split]]].
  - destruct (C42_xyz theta deg inversion ex) as (A & _ & _). rewrite A. f_equal. now apply turn_axis.
  - destruct (C42_xyz theta deg inversion ey) as (_ & A & _). rewrite A. f_equal. now apply turn_axis.
  - destruct (C42_xyz theta deg inversion ez) as (_ & _ & A). rewrite A. f_equal. now apply turn_axis.
  - intros alpha beta m Hm. destruct (C42_general_spherical view alpha beta theta deg inversion) as (m1 & Em & Nn & H).
    rewrite Hm in Em. injection Em as <-. rewrite H. f_equal. now apply turn_axis.
  - intros x y z m Hx Hm. destruct (Rlt_dec (vlen (x, y, z)) view) as [L|L].
    { assert (X : RotationGeneral view (ASeq [x; y; z]) theta deg inversion = Err ValueError) by (apply C42_general_errors; eexists; split; [reflexivity|]; right; now exists x, y, z). congruence. }
    destruct (C42_general_cartesian view x y z theta deg inversion V ltac:(lra) Hx) as (m1 & Em & H). rewrite Hm in Em. injection Em as <-.
    rewrite H. f_equal. set (l := vlen (x, y, z)) in *.
    assert (Eq : (x, y, z) = vscale l (vscale (/ l) (x, y, z))) by (cbn [vscale]; apply v3_eq; field; lra).
    rewrite Eq at 2. rewrite turn_scale, turn_axis; [now rewrite <- Eq|]. unfold l. apply unit_scale. fold l. lra.
Qed.
Print Assumptions C42_axis_fixed.

(** Angles about one axis add: the matrix product is the rotation by the sum
    (any axis the function accepts). *)
Theorem C42_angles_add : forall view s t deg, 0 < view ->
  matmul (RotationX s deg false) (RotationX t deg false) = RotationX (s + t) deg false /\
  matmul (RotationY s deg false) (RotationY t deg false) = RotationY (s + t) deg false /\
  matmul (RotationZ s deg false) (RotationZ t deg false) = RotationZ (s + t) deg false /\
  (forall axis m1 m2, RotationGeneral view axis s deg false = Ok m1 -> RotationGeneral view axis t deg false = Ok m2 ->
     RotationGeneral view axis (s + t) deg false = Ok (matmul m1 m2)).
Proof.
  intros view s t deg V. destruct unit_e as (U1 & U2 & U3).
  assert (An : angle deg (s + t) = angle deg s + angle deg t) by (destruct deg; cbn; unfold degrees; ring).
  split; [|split; [|split]].
  - apply apply_ext. intros v. rewrite apply_mul. destruct (C42_xyz s deg false (apply (RotationX t deg false) v)) as (A & _). destruct (C42_xyz t deg false v) as (B & _).
    destruct (C42_xyz (s + t) deg false v) as (C & _). rewrite A, B, C, An. cbn [improper]. now apply turn_add.
  - apply apply_ext. intros v. rewrite apply_mul. destruct (C42_xyz s deg false (apply (RotationY t deg false) v)) as (_ & A & _). destruct (C42_xyz t deg false v) as (_ & B & _).
    destruct (C42_xyz (s + t) deg false v) as (_ & C & _). rewrite A, B, C, An. cbn [improper]. now apply turn_add.
  - apply apply_ext. intros v. rewrite apply_mul. destruct (C42_xyz s deg false (apply (RotationZ t deg false) v)) as (_ & _ & A). destruct (C42_xyz t deg false v) as (_ & _ & B).
    destruct (C42_xyz (s + t) deg false v) as (_ & _ & C). rewrite A, B, C, An. cbn [improper]. now apply turn_add.
  - intros axis m1 m2 H1 H2.
    assert (T : exists n, vdot n n = 1 /\ forall r, exists m, RotationGeneral view axis r deg false = Ok m /\ forall v, apply m v = turn n (angle deg r) v).
    { destruct axis as [l|]; [|discriminate]. destruct l as [|a [|b [|c [|d l]]]]; try discriminate.
      - exists (direction (angle deg a) (angle deg b)). split; [destruct (C42_general_spherical view a b s deg false) as (m & _ & H & _); exact H|]. intros r.
        destruct (C42_general_spherical view a b r deg false) as (m & Em & _ & H). now exists m.
      - destruct (Rlt_dec (vlen (a, b, c)) view) as [L|L].
        { assert (X : RotationGeneral view (ASeq [a; b; c]) s deg false = Err ValueError) by (apply C42_general_errors; eexists; split; [reflexivity|]; right; now exists a, b, c). congruence. }
        destruct (cartesian_branch view a b c s deg false V ltac:(lra)) as (Nn & _). eexists. split; [exact Nn|]. intros r.
        destruct (cartesian_branch view a b c r deg false V ltac:(lra)) as (_ & m & Em & H). exists m. split; [exact Em|exact H]. }
    destruct T as (n & Nn & T). destruct (T s) as (m1' & E1 & A). destruct (T t) as (m2' & E2 & B). destruct (T (s + t)) as (m3 & E3 & C).
    rewrite E1 in H1. injection H1 as ->. rewrite E2 in H2. injection H2 as ->. rewrite E3. f_equal. apply apply_ext. intros v.
    rewrite apply_mul, A, B, C, An. symmetry. now apply turn_add.
Qed.
Print Assumptions C42_angles_add.

(** Degrees and radians agree; a Cartesian axis is never converted, spherical
    angles are. *)
Theorem C42_degrees : forall view t inversion,
  RotationX t true inversion = RotationX (degrees t) false inversion /\
  RotationY t true inversion = RotationY (degrees t) false inversion /\
  RotationZ t true inversion = RotationZ (degrees t) false inversion /\
  (forall b c, RotationEuler t b c true inversion = RotationEuler (degrees t) (degrees b) (degrees c) false inversion) /\
  (forall a b, RotationGeneral view (ASeq [a; b]) t true inversion = RotationGeneral view (ASeq [degrees a; degrees b]) (degrees t) false inversion) /\
  (forall x y z, RotationGeneral view (ASeq [x; y; z]) t true inversion = RotationGeneral view (ASeq [x; y; z]) (degrees t) false inversion).
Proof.
  intros view t inversion. assert (D : forall a, to_rad true a = to_rad false (degrees a)) by (intros a; apply angle_to_rad).
  unfold RotationX, RotationY, RotationZ, RotationEuler. rewrite D.
  split; [reflexivity|]. split; [reflexivity|]. split; [reflexivity|]. split; [|split].
  - intros b c. now rewrite !D.
  - intros a b. unfold RotationGeneral. now rewrite !D.
  - intros x y z. unfold RotationGeneral. now rewrite !D.
Qed.
Print Assumptions C42_degrees.

(** ** The named constants *)
Lemma deg30 : to_rad true 30 = PI / 6. Proof. cbn. field. Qed.
Lemma deg45 : to_rad true 45 = PI / 4. Proof. cbn. field. Qed.
Lemma deg60 : to_rad true 60 = PI / 3. Proof. cbn. field. Qed.
Lemma deg90 : to_rad true 90 = PI / 2. Proof. cbn. field. Qed.
Lemma deg120 : to_rad true 120 = 2 * (PI / 3). Proof. cbn. field. Qed.
Lemma deg180 : to_rad true 180 = PI. Proof. cbn. field. Qed.
Lemma deg240 : to_rad true 240 = PI / 3 + PI. Proof. cbn. field. Qed.
Lemma deg270 : to_rad true 270 = 3 * (PI / 2). Proof. cbn. field. Qed.
Lemma deg300 : to_rad true 300 = - (PI / 3) + 2 * PI. Proof. cbn. field. Qed.
Lemma sc270 : sin (3 * (PI / 2)) = -1 /\ cos (3 * (PI / 2)) = 0.
Proof. split; [apply sin_3PI2|]. replace (3 * (PI / 2)) with (PI / 2 + PI) by field. rewrite neg_cos, cos_PI2. ring. Qed.
Lemma sc240 : sin (PI / 3 + PI) = - (sqrt 3 / 2) /\ cos (PI / 3 + PI) = - (1 / 2).
Proof. rewrite neg_sin, neg_cos, sin_PI3, cos_PI3. auto. Qed.
Lemma sc300 : sin (- (PI / 3) + 2 * PI) = - (sqrt 3 / 2) /\ cos (- (PI / 3) + 2 * PI) = 1 / 2.
Proof. rewrite sin_plus, cos_plus, sin_2PI, cos_2PI, sin_neg, cos_neg, sin_PI3, cos_PI3. split; ring. Qed.
Theorem C42_constants_xyz :
  E = RotationX 0 true false /\ E = RotationY 0 true false /\ E = RotationZ 0 true false /\
  INVERSION = RotationX 0 true true /\
  RX30 = RotationX 30 true false /\ RX45 = RotationX 45 true false /\ RX60 = RotationX 60 true false /\
  RX90 = RotationX 90 true false /\ RX180 = RotationX 180 true false /\ RX270 = RotationX 270 true false /\
  RY30 = RotationY 30 true false /\ RY45 = RotationY 45 true false /\ RY60 = RotationY 60 true false /\
  RY90 = RotationY 90 true false /\ RY180 = RotationY 180 true false /\ RY270 = RotationY 270 true false /\
  RZ30 = RotationZ 30 true false /\ RZ45 = RotationZ 45 true false /\ RZ60 = RotationZ 60 true false /\
  RZ90 = RotationZ 90 true false /\ RZ180 = RotationZ 180 true false /\ RZ270 = RotationZ 270 true false.
Proof.
  assert (Z : to_rad true 0 = 0) by (cbn; field).
  unfold RotationX, RotationY, RotationZ. rewrite Z, deg30, deg45, deg60, deg90, deg180, deg270.
  destruct sc270 as [-> ->].
  rewrite sin_0, cos_0, sin_PI6, cos_PI6, sin_PI4, cos_PI4, sin_PI3, cos_PI3, sin_PI2, cos_PI2, sin_PI, cos_PI.
  repeat match goal with |- _ /\ _ => split end; cbn [finish matmul INVERSION]; unfold INVERSION, E, RX30, RX45, RX60, RX90, RX180, RX270, RY30, RY45, RY60, RY90, RY180, RY270, RZ30, RZ45, RZ60, RZ90, RZ180, RZ270; f_equal; lra.
Qed.
Print Assumptions C42_constants_xyz.

Lemma sqrt3 : sqrt 3 * sqrt 3 = 3 /\ 1 < sqrt 3.
Proof. assert (H : sqrt 3 * sqrt 3 = 3) by (apply sqrt_sqrt; lra). split; [exact H|]. pose proof (sqrt_pos 3). nra. Qed.
Lemma general_matrix view x y z theta m : 0 < view -> view <= vlen (x, y, z) -> (x = 0 /\ y = 0) \/ view <= vlen (x, y, 0) ->
  forall inversion, (forall v, apply m v = improper inversion (turn (vscale (/ vlen (x, y, z)) (x, y, z)) (degrees theta) v)) ->
  RotationGeneral view (ASeq [x; y; z]) theta true inversion = Ok m.
Proof.
  intros V L Hx inversion T. destruct (C42_general_cartesian view x y z theta true inversion V L Hx) as (m' & Em & H).
  rewrite Em. f_equal. apply apply_ext. intros v. now rewrite H, T.
Qed.
(** The [111] rotations and the anti-cyclic permutations (half turns with the
    inversion), for any threshold up to 1. *)
Theorem C42_constants_111 : forall view, 0 < view <= 1 ->
  RotationGeneral view (ASeq [1; 1; 1]) 60 true false = Ok R111_60 /\
  RotationGeneral view (ASeq [1; 1; 1]) 120 true false = Ok R111_120 /\
  RotationGeneral view (ASeq [1; 1; 1]) 180 true false = Ok R111_180 /\
  RotationGeneral view (ASeq [1; 1; 1]) 240 true false = Ok R111_240 /\
  RotationGeneral view (ASeq [1; 1; 1]) 300 true false = Ok R111_300 /\
  RotationGeneral view (ASeq [0; 1; -1]) 180 true true = Ok AP0 /\
  RotationGeneral view (ASeq [1; 0; -1]) 180 true true = Ok AP1 /\
  RotationGeneral view (ASeq [1; -1; 0]) 180 true true = Ok AP2.
Proof.
  intros view [V0 V1]. destruct sqrt3 as [S3 P3].
  assert (P2 : sqrt 2 * sqrt 2 = 2) by (apply sqrt_sqrt; lra). assert (Q2 : 1 <= sqrt 2) by (pose proof (sqrt_pos 2); nra).
  assert (L1 : vlen (1, 1, 1) = sqrt 3) by (unfold vlen; cbn; f_equal; ring).
  assert (L2 : vlen (1, 1, 0) = sqrt 2) by (unfold vlen; cbn; f_equal; ring).
  assert (L3 : vlen (0, 1, -1) = sqrt 2) by (unfold vlen; cbn; f_equal; ring).
  assert (L4 : vlen (1, 0, -1) = sqrt 2) by (unfold vlen; cbn; f_equal; ring).
  assert (L5 : vlen (1, -1, 0) = sqrt 2) by (unfold vlen; cbn; f_equal; ring).
  assert (L6 : vlen (0, 1, 0) = 1) by (unfold vlen; cbn; replace (0 * 0 + 1 * 1 + 0 * 0) with 1 by ring; apply sqrt_1).
  assert (L7 : vlen (1, 0, 0) = 1) by (unfold vlen; cbn; replace (1 * 1 + 0 * 0 + 0 * 0) with 1 by ring; apply sqrt_1).
  assert (I3 : / sqrt 3 * / sqrt 3 = / 3) by (rewrite <- Rinv_mult_distr by lra; now rewrite S3).
  assert (I2 : / sqrt 2 * / sqrt 2 = / 2) by (rewrite <- Rinv_mult_distr by lra; now rewrite P2).
  assert (K : sqrt 3 = 3 * / sqrt 3) by (apply Rmult_eq_reg_r with (sqrt 3); [|lra]; rewrite Rmult_assoc, Rinv_l, S3 by lra; ring).
  assert (G : forall theta m s c, sin (degrees theta) = s * / sqrt 3 -> cos (degrees theta) = c ->
     m = M3 (1 / 3 + c * (2 / 3)) (1 / 3 - c / 3 - s / 3) (1 / 3 - c / 3 + s / 3)
            (1 / 3 - c / 3 + s / 3) (1 / 3 + c * (2 / 3)) (1 / 3 - c / 3 - s / 3)
            (1 / 3 - c / 3 - s / 3) (1 / 3 - c / 3 + s / 3) (1 / 3 + c * (2 / 3)) ->
     RotationGeneral view (ASeq [1; 1; 1]) theta true false = Ok m).
  { intros theta m s c Es Ec ->. apply general_matrix; [exact V0|rewrite L1; lra|right; rewrite L2; lra|].
    intros [[x y] z]. rewrite L1. cbn [improper]. unfold turn. rewrite Es, Ec. cbn [vscale vdot vadd vcross apply].
    set (k := / sqrt 3) in *. apply v3_eq; field_simplify; replace (k ^ 2) with (/ 3) by (rewrite <- I3; ring); field. }
  assert (D : forall a, degrees a = to_rad true a) by (intros a; symmetry; apply angle_to_rad).
  split; [|split; [|split; [|split; [|split; [|split; [|split]]]]]].
  - apply (G 60 _ (3 / 2) (1 / 2)); rewrite ?D, ?deg60, ?sin_PI3, ?cos_PI3; [rewrite K at 1; field; lra|reflexivity|unfold R111_60; cbn; f_equal; field].
  - apply (G 120 _ (3 / 2) (- (1 / 2))); rewrite ?D, ?deg120, ?sin_2PI3, ?cos_2PI3; [rewrite K at 1; field; lra|lra|unfold R111_120; f_equal; field].
  - apply (G 180 _ 0 (-1)); rewrite ?D, ?deg180, ?sin_PI, ?cos_PI; [ring|reflexivity|unfold R111_180; cbn; f_equal; field].
  - destruct sc240 as [A B]. apply (G 240 _ (- (3 / 2)) (- (1 / 2))); rewrite ?D, ?deg240, ?A, ?B; [rewrite K at 1; field; lra|lra|unfold R111_240; f_equal; field].
  - destruct sc300 as [A B]. apply (G 300 _ (- (3 / 2)) (1 / 2)); rewrite ?D, ?deg300, ?A, ?B; [rewrite K at 1; field; lra|lra|unfold R111_300; cbn; f_equal; field].
  - apply general_matrix; [exact V0|rewrite L3; lra|right; rewrite L6; lra|]. intros [[x y] z]. rewrite L3, D, deg180. unfold turn. rewrite sin_PI, cos_PI.
    set (k := / sqrt 2) in *. unfold AP0. cbn [improper vopp vscale vdot vadd vcross apply].
    apply v3_eq; field_simplify; try replace (k ^ 2) with (/ 2) by (rewrite <- I2; ring); field.
  - apply general_matrix; [exact V0|rewrite L4; lra|right; rewrite L7; lra|]. intros [[x y] z]. rewrite L4, D, deg180. unfold turn. rewrite sin_PI, cos_PI.
    set (k := / sqrt 2) in *. unfold AP1. cbn [improper vopp vscale vdot vadd vcross apply].
    apply v3_eq; field_simplify; try replace (k ^ 2) with (/ 2) by (rewrite <- I2; ring); field.
  - apply general_matrix; [exact V0|rewrite L5; lra|right; rewrite L5; lra|]. intros [[x y] z]. rewrite L5, D, deg180. unfold turn. rewrite sin_PI, cos_PI.
    set (k := / sqrt 2) in *. unfold AP2. cbn [improper vopp vscale vdot vadd vcross apply].
    apply v3_eq; field_simplify; try replace (k ^ 2) with (/ 2) by (rewrite <- I2; ring); field.
Qed.
Print Assumptions C42_constants_111.

(** set_threshold accepts exactly the non-negative floats. *)
Theorem C42_set_threshold : forall t,
  (forall v, set_threshold t = Ok v <-> (t = Some v /\ 0 <= v)) /\
  (forall e, set_threshold t = Err e -> e = AssertionError).
Proof.
  intros [t|]; cbn; [|split; [intros v; split; [discriminate|intros [[=] _]]|intros e [= <-]; reflexivity]].
  unfold Rleb. destruct (Rle_dec 0 t) as [H|H]; split; try discriminate.
  - intros v. split; [intros [= <-]; auto|intros [[= <-] _]; reflexivity].
  - intros v. split; [discriminate|intros [[= <-] N]; contradiction].
  - intros e [= <-]. reflexivity.
Qed.
Print Assumptions C42_set_threshold.

(** Non-vacuity: the default threshold and the axis (3, 4, 12). *)
Example C42_example : 0 < / 10 ^ 10 /\ / 10 ^ 10 <= vlen (3, 4, 12) /\ / 10 ^ 10 <= vlen (3, 4, 0) /\
  vlen (0, / 10 ^ 11, 1) < 2 /\ vlen (0, / 10 ^ 11, 0) < / 10 ^ 10 /\
  apply (RotationZ 90 true false) (1, 2, 3) = (-2, 1, 3).
Proof.
  assert (vlen (3, 4, 12) = 13) as -> by (unfold vlen; cbn; replace (3 * 3 + 4 * 4 + 12 * 12) with (13 * 13) by ring; apply sqrt_square; lra).
  assert (vlen (3, 4, 0) = 5) as -> by (unfold vlen; cbn; replace (3 * 3 + 4 * 4 + 0 * 0) with (5 * 5) by ring; apply sqrt_square; lra).
  assert (vlen (0, / 10 ^ 11, 0) = / 10 ^ 11) as -> by (unfold vlen; cbn [vdot]; replace (0 * 0 + / 10 ^ 11 * / 10 ^ 11 + 0 * 0) with (/ 10 ^ 11 * / 10 ^ 11) by ring; apply sqrt_square; lra).
  split; [lra|]. split; [lra|]. split; [lra|]. split; [|split; [lra|]].
  - unfold vlen. cbn [vdot]. apply Rlt_le_trans with (sqrt (2 * 2)); [apply sqrt_lt_1_alt; lra|rewrite sqrt_square; lra].
  - unfold RotationZ. rewrite deg90, sin_PI2, cos_PI2. cbn. apply v3_eq; ring.
Qed.
