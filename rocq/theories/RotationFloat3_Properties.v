(** C42 in double precision: an axis of any direction. *)
From Coq Require Import List ZArith Bool Reals Lra Lia Floats.SpecFloat.
From Flocq Require Import Core.Raux Core.Zaux Core.Defs Core.Float_prop Core.Generic_fmt Core.FLT Core.Round_NE IEEE754.BinarySingleNaN.
From Verif Require Import Py Float64_Model Float64_Proofs State_Model State_Proofs Bond_Model Bond_Spec Bond_Proofs KPath_Model KPathFloat_Proofs KPathRound_Proofs LineFloat_Spec LineFloat_Proofs
  BondFloat_Model BondFloat_Properties Line2D_Model Line2D_Proofs Rotation_Model Rotation_Spec Rotation_Proofs Rotation_Properties RotationPi_Proofs RotationFloat_Model RotationFloat_Spec RotationFloat_Proofs RotationFloat_Proofs2 RotationFloat_Properties RotationFloat2_Properties.
Import ListNotations.
Open Scope R_scope.

Lemma tiny150 : 1 / 10 ^ 150 <= bpow radix2 (-299) * (u / 100).
Proof.
  replace (bpow radix2 (-299)) with (/ IZR (2 ^ 299)) by reflexivity.
  apply Rmult_le_reg_l with (IZR (2 ^ 299)); [apply IZR_lt; reflexivity|]. rewrite <- Rmult_assoc, Rinv_r, Rmult_1_l by (apply not_0_IZR; discriminate).
  apply Rle_trans with (1 / 10 ^ 55); [|unfold u; lra]. apply Rmult_le_reg_r with (10 ^ 150); [apply pow_lt; lra|]. unfold Rdiv. rewrite Rmult_1_l, Rmult_assoc, Rinv_l, Rmult_1_r by (apply pow_nonzero; lra).
  replace 150%nat with (55 + 95)%nat by reflexivity. rewrite pow_add, Rmult_1_l, <- Rmult_assoc, Rinv_l, Rmult_1_l by (apply pow_nonzero; lra). rewrite pow_IZR. apply IZR_le. vm_compute. discriminate.
Qed.
(** the distance from the z axis, however small *)
Lemma norm2_any x y : within 400 x -> within 400 y ->
  within 402 (fsqrt (fadd (fmul x x) (fmul y y))) /\ Rabs (f2R (fsqrt (fadd (fmul x x) (fmul y y))) - vlen (f2R x, f2R y, 0)) <= vlen (f2R x, f2R y, 0) * (9 * u) + 1 / 10 ^ 150.
Proof.
  intros Wx Wy. assert (v0 : 0 <= vlen (f2R x, f2R y, 0)) by apply sqrt_pos. assert (T0 : 0 <= 1 / 10 ^ 150) by (unfold Rdiv; rewrite Rmult_1_l; left; apply Rinv_0_lt_compat, pow_lt; lra).
  set (v := vlen (f2R x, f2R y, 0)) in *. set (dxy := fsqrt (fadd (fmul x x) (fmul y y))).
  assert (Z : Rabs (f2R dxy - v) <= v * (9 * u) + 1 / 10 ^ 150 /\ number dxy).
  { set (ds := [x; y]). assert (Fd : Forall (within 400) ds) by exact (Forall_cons _ Wx (Forall_cons _ Wy (Forall_nil _))).
    assert (G : Forall2 leg ds (map f2R ds)) by (clear - Fd; induction Fd as [|d ds W H IH]; constructor; [|exact IH]; split; [apply (within_le 400); [lia|exact W]|]; exists 0; split; [rewrite Rabs_R0; left; apply u_pos|ring]).
    destruct (legs_norm _ _ G ltac:(cbn; lia)) as (W & T & PT & E & B). change (row_norm float_arith ds) with dxy in W, E. set (X := sum _) in *. assert (PX : 0 <= X) by apply sum_squares_nonneg.
    pose proof (sqrt_near X T PX PT B) as Q. assert (EX : sqrt X = v) by (unfold X, ds, v, vlen, sum; cbn [map fold_right vdot]; f_equal; ring). rewrite EX in Q.
    split; [|eapply within_number; exact W]. rewrite E. pose proof (rnd_nonneg_bounds (sqrt T) (sqrt_pos T)) as R. apply Rabs_le_inv in Q. pose proof (sqrt_pos T).
    assert (Tiny : 1 / 10 ^ 155 + eta <= 1 / 10 ^ 150 * (1 / 10)).
    { assert (P : 1 / 10 ^ 155 = 1 / 10 ^ 150 * (1 / 10 ^ 5)) by (replace 155%nat with (150 + 5)%nat by reflexivity; rewrite pow_add; field; apply pow_nonzero; lra).
      assert (P2 : eta <= 1 / 10 ^ 155).
      { unfold eta. apply Rle_trans with (bpow radix2 (-600)); [apply bpow_le; lia|]. replace (bpow radix2 (-600)) with (/ IZR (2 ^ 600)) by reflexivity. unfold Rdiv. rewrite Rmult_1_l. apply Rinv_le_contravar; [apply pow_lt; lra|]. rewrite pow_IZR. apply IZR_le. vm_compute. discriminate. }
      rewrite P in *. set (k := 1 / 10 ^ 150) in *. nra. }
    apply Rabs_le. unfold u in *. set (k := 1 / 10 ^ 150) in *. set (k' := 1 / 10 ^ 155) in *. nra. }
  destruct Z as [Z [V F]]. split; [|exact Z]. split; [exact V|]. split; [exact F|].
  destruct (Rle_dec (bpow radix2 (-300)) v) as [L|L]; [apply (norm2 x y Wx Wy L)|]. apply Rabs_le_inv in Z.
  assert (K : bpow radix2 (-300) <= 1 / 10) by (apply Rle_trans with (bpow radix2 (-4)); [apply bpow_le; lia|change (bpow radix2 (-4)) with (/ 16); lra]).
  assert (K2 : 1 / 10 ^ 150 <= 1 / 10).
  { unfold Rdiv. rewrite !Rmult_1_l. apply Rinv_le_contravar; [lra|]. rewrite <- (pow_1 10) at 1. apply Rle_pow; [lra|lia]. }
  change 402%Z with (2 + 400)%Z. apply Rle_trans with 1; [apply Rabs_le; unfold u in Z; nra|]. change 1 with (bpow radix2 0). apply bpow_le. lia.
Qed.
(** a quotient whose numerator may be tiny *)
Lemma ratio_any a b p q rb : within 402 a -> within 402 b -> bpow radix2 (-301) <= f2R b -> bpow radix2 (-299) <= q -> 0 <= p <= q ->
  Rabs (f2R a - p) <= p * (9 * u) + 1 / 10 ^ 150 -> f2R b = q * rb -> Rabs (rb - 1) <= 9 * u -> near (13 / 10 ^ 15) (fdiv a b) (p / q).
Proof.
  intros Wa Wb Lb Q P Ha Eb Rb. destruct (within_div 402 (-301) a b ltac:(lia) Wa (proj1 Wb) (proj1 (proj2 Wb)) Lb) as [W E]. split; [eapply within_number; exact W|]. rewrite E.
  pose proof (bpow_gt_0 radix2 (-299)) as B0. assert (q0 : 0 < q) by lra. pose proof (near_inv rb (9 * u) Rb ltac:(unfold u; lra)) as I.
  assert (rb0 : 0 < rb) by (apply Rabs_le_inv in Rb; unfold u in Rb; lra).
  pose proof tiny150 as T. assert (T' : 1 / 10 ^ 150 <= q * (u / 100)) by (eapply Rle_trans; [exact T|]; apply Rmult_le_compat_r; [unfold u|]; lra). set (k := 1 / 10 ^ 150) in *.
  assert (PQ : 0 <= p / q <= 1) by (split; [apply Rmult_le_pos; [lra|left; now apply Rinv_0_lt_compat]|apply Rmult_le_reg_r with q; [lra|]; unfold Rdiv; rewrite Rmult_assoc, Rinv_l; lra]).
  assert (A : Rabs (f2R a / q - p / q) <= 91 / 10 * u).
  { replace (f2R a / q - p / q) with ((f2R a - p) * / q) by (field; lra). rewrite Rabs_mult, (Rabs_pos_eq (/ q)) by (left; now apply Rinv_0_lt_compat). apply Rmult_le_reg_r with q; [lra|]. rewrite Rmult_assoc, Rinv_l by lra. unfold u in *. nra. }
  assert (V : Rabs (f2R a / f2R b - p / q) <= 28 * u).
  { replace (f2R a / f2R b) with (f2R a / q * / rb) by (rewrite Eb; field; lra). apply Rabs_le_inv in A, I. set (s := f2R a / q) in *. set (t := p / q) in *. set (r := / rb) in *. replace (s * r - t) with ((s - t) * 1 + s * (r - 1)) by ring.
    apply Rle_trans with (91 / 10 * u + (101 / 100) * (18 * u)); [|unfold u; lra]. eapply Rle_trans; [apply Rabs_triang|]. apply Rplus_le_compat; [rewrite Rmult_1_r; apply Rabs_le; lra|].
    rewrite Rabs_mult. apply Rmult_le_compat; auto using Rabs_pos; apply Rabs_le; unfold u in *; lra. }
  assert (B2 : Rabs (f2R a / f2R b) <= 2) by (apply Rabs_le_inv in V; apply Rabs_le; unfold u in V; lra). pose proof (rnd_close _ _ B2) as C. pose proof eta_small. apply Rabs_le_inv in V, C. apply Rabs_le. unfold u in *. lra.
Qed.

(** RotationGeneral with any Cartesian axis that is long enough: a matrix within
    3e-12 of the exact turn about a unit vector that is the axis' direction, or,
    for an axis nearer than the threshold to the z axis, is off it by at most twice
    the threshold over the axis' length. *)
Theorem C42_rounding_any_axis : forall fsin fcos view x y z theta deg inversion, accurate fsin sin -> accurate fcos cos ->
  sensible view -> usual x -> usual y -> usual z -> modest deg theta ->
  f2R view * (1 + 1 / 10 ^ 14) <= vlen (f2R x, f2R y, f2R z) ->
  exists A M n, FRotationGeneral fsin fcos view (FSeq [x; y; z]) theta deg inversion = Ok A /\ near3 (3 / 10 ^ 12) A M /\
    vdot n n = 1 /\ (forall v, apply M v = improper inversion (turn n (angle deg (f2R theta)) v)) /\
    let axis := (f2R x, f2R y, f2R z) in
    (n = vscale (/ vlen axis) axis \/
     vlen (f2R x, f2R y, 0) <= f2R view * (1 + 1 / 10 ^ 14) /\ vlen (vadd n (vopp (vscale (/ vlen axis) axis))) <= 2 * f2R view * (1 + 1 / 10 ^ 14) / vlen axis).
Proof.
  intros fsin fcos view x y z theta deg inversion As Ac Sv Ux Uy Uz Mt L. pose proof Sv as ((Vv & Fv) & Bv & Bv'). pose proof (bpow_gt_0 radix2 (-299)) as P299.
  apply usual_within in Ux, Uy, Uz. assert (B300 : bpow radix2 (-300) <= f2R view) by (eapply Rle_trans; [|exact Bv]; apply bpow_le; lia).
  assert (V0 : 0 < f2R view) by lra. assert (Vb : f2R view <= f2R view * (1 + 1 / 10 ^ 14)) by nra.
  pose proof (modest_slop deg theta Mt) as S. assert (Ts : near (13 / 10 ^ 15) (fsin (fto_rad deg theta)) (sin (to_rad deg (f2R theta)))) by (eapply near_weaken; [exact S|]; apply trig_near; auto using sin_lip; now apply (modest_million deg)).
  assert (Tc : near (13 / 10 ^ 15) (fcos (fto_rad deg theta)) (cos (to_rad deg (f2R theta)))) by (eapply near_weaken; [exact S|]; apply trig_near; auto using cos_lip; now apply (modest_million deg)).
  destruct (norm3 x y z Ux Uy Uz ltac:(lra)) as (Wr & rr & Hrr & Er). pose proof (compare view _ _ _ Sv Wr Er Hrr L) as Fr.
  pose proof (vlen_le_coords (f2R x) (f2R y) (f2R z)) as (Cx & Cy & Cz & Cxy). pose proof (vlen_le_coords (f2R x) (f2R y) 0) as (Dx & Dy & _ & _).
  unfold FRotationGeneral. rewrite Fr. set (dr := fsqrt (fadd (fadd (fmul x x) (fmul y y)) (fmul z z))) in *. set (dxy := fsqrt (fadd (fmul x x) (fmul y y))) in *. cbv zeta.
  set (LR := vlen (f2R x, f2R y, f2R z)) in *. set (LXY := vlen (f2R x, f2R y, 0)) in *.
  destruct (norm2_any x y Ux Uy) as [Wd Hd]. fold dxy LXY in Wd, Hd. assert (LXY0 : 0 <= LXY) by apply sqrt_pos. pose proof tiny150 as T150. assert (T' : 1 / 10 ^ 150 <= f2R view * (u / 100)) by (eapply Rle_trans; [exact T150|]; apply Rmult_le_compat_r; [unfold u|]; lra). set (k := 1 / 10 ^ 150) in *.
  assert (Q9 : 9 / 10 <= rr) by (apply Rabs_le_inv in Hrr; unfold u in Hrr; lra).
  assert (Ldr : bpow radix2 (-301) <= f2R dr). { rewrite Er. apply Rle_trans with (bpow radix2 (-300) * / 2); [change (-301)%Z with (-300 + -1)%Z; rewrite bpow_plus; apply Rle_refl|]. pose proof (bpow_gt_0 radix2 (-300)). apply Rmult_le_compat; lra. }
  assert (W402 : forall a, within 400 a -> within 402 a) by (intros a; apply within_le; lia).
  assert (One : Rabs (1 - 1) <= 9 * u) by (rewrite Rminus_diag_eq, Rabs_R0 by reflexivity; unfold u; lra).
  assert (Ncb : near (13 / 10 ^ 15) (fdiv z dr) (f2R z / LR)) by (apply (ratio_near z dr (f2R z) LR 1 rr); auto; lra).
  assert (Nsb : near (13 / 10 ^ 15) (fdiv dxy dr) (LXY / LR)) by (apply (ratio_any dxy dr LXY LR rr); auto; lra).
  assert (SQ : LR * LR = LXY * LXY + f2R z * f2R z) by (unfold LR, LXY, vlen; cbn [vdot]; rewrite !sqrt_sqrt by nra; ring).
  assert (SXY : LXY * LXY = f2R x * f2R x + f2R y * f2R y) by (unfold LXY, vlen; cbn [vdot]; rewrite sqrt_sqrt by nra; ring).
  assert (IB : f2R z / LR * (f2R z / LR) = 1 - LXY / LR * (LXY / LR)).
  { apply Rmult_eq_reg_l with (LR * LR); [|apply Rmult_integral_contrapositive_currified; lra]. field_simplify; [|lra|lra]. cbn [pow]. lra. }
  assert (lp : 0 < / LR) by (apply Rinv_0_lt_compat; lra).
  assert (Fc : flt dxy view = Rlt_bool (f2R dxy) (f2R view)) by (apply flt_correct; [apply Wd|exact Vv|apply Wd|exact Fv]). rewrite Fc. apply Rabs_le_inv in Hd. unfold u in Hd, T'.
  destruct (Rlt_bool_spec (f2R dxy) (f2R view)) as [Hlt|Hge].
  - eexists. exists (finish inversion (conj_rot 0 1 (LXY / LR) (f2R z / LR) (sin (to_rad deg (f2R theta))) (cos (to_rad deg (f2R theta))))). exists (LXY / LR, 0, f2R z / LR).
    split; [reflexivity|]. split; [apply conj_near; [apply near_0; lra|apply near_f1; lra|exact Nsb|exact Ncb|exact Ts|exact Tc|ring|exact IB|apply sc]|].
    split; [cbn [vdot]; rewrite IB; ring|]. split.
    + intros v. rewrite apply_finish, conj_rot_turn by (first [ring|exact IB]). rewrite angle_to_rad. replace (LXY / LR * 1, LXY / LR * 0, f2R z / LR) with (LXY / LR, 0, f2R z / LR) by (apply v3_eq; ring). reflexivity.
    + right. assert (Hb : LXY <= f2R view * (1 + 1 / 10 ^ 14)) by lra. split; [exact Hb|].
      unfold vlen at 1. apply Rle_trans with (sqrt ((2 * LXY * / LR) * (2 * LXY * / LR))).
      * apply sqrt_le_1_alt. cbn [vadd vopp vscale vdot]. unfold Rdiv.
        replace ((LXY * / LR + -1 * (/ LR * f2R x)) * (LXY * / LR + -1 * (/ LR * f2R x)) + (0 + -1 * (/ LR * f2R y)) * (0 + -1 * (/ LR * f2R y)) + (f2R z * / LR + -1 * (/ LR * f2R z)) * (f2R z * / LR + -1 * (/ LR * f2R z)))
          with (/ LR * / LR * (LXY * LXY - 2 * (LXY * f2R x) + (f2R x * f2R x + f2R y * f2R y))) by ring.
        replace (2 * LXY * / LR * (2 * LXY * / LR)) with (/ LR * / LR * (4 * (LXY * LXY))) by ring. rewrite <- SXY.
        apply Rmult_le_compat_l; [left; now apply Rmult_lt_0_compat|]. apply Rabs_le_inv in Dx. nra.
      * rewrite sqrt_square by (apply Rmult_le_pos; lra). unfold Rdiv at 1. apply Rmult_le_compat_r; lra.
  - assert (LL : bpow radix2 (-300) <= LXY).
    { apply Rle_trans with (bpow radix2 (-299) * / 2); [change (-300)%Z with (-299 + -1)%Z; rewrite bpow_plus; apply Rle_refl|]. lra. }
    destruct (norm2 x y Ux Uy LL) as (_ & rd & Hrd & Ed). fold dxy LXY in Ed.
    assert (Q8 : 9 / 10 <= rd) by (apply Rabs_le_inv in Hrd; unfold u in Hrd; lra). pose proof (bpow_gt_0 radix2 (-300)) as P300.
    assert (Ldx : bpow radix2 (-301) <= f2R dxy) by (apply Rle_trans with (2 := Hge); eapply Rle_trans; [|exact B300]; apply bpow_le; lia).
    assert (IA : f2R x / LXY * (f2R x / LXY) = 1 - f2R y / LXY * (f2R y / LXY)).
    { apply Rmult_eq_reg_l with (LXY * LXY); [|apply Rmult_integral_contrapositive_currified; lra]. field_simplify; [|lra|lra]. cbn [pow]. lra. }
    eexists. exists (finish inversion (conj_rot (f2R y / LXY) (f2R x / LXY) (LXY / LR) (f2R z / LR) (sin (to_rad deg (f2R theta))) (cos (to_rad deg (f2R theta))))). exists (vscale (/ LR) (f2R x, f2R y, f2R z)).
    split; [reflexivity|]. split; [apply conj_near; [| |exact Nsb|exact Ncb|exact Ts|exact Tc|exact IA|exact IB|apply sc]|].
    + apply (ratio_near y dxy (f2R y) LXY 1 rd); auto; lra.
    + apply (ratio_near x dxy (f2R x) LXY 1 rd); auto; lra.
    + assert (EN : (LXY / LR * (f2R x / LXY), LXY / LR * (f2R y / LXY), f2R z / LR) = vscale (/ LR) (f2R x, f2R y, f2R z)) by (cbn [vscale]; apply v3_eq; field; lra).
      split; [cbn [vscale vdot]; replace (/ LR * f2R x * (/ LR * f2R x) + / LR * f2R y * (/ LR * f2R y) + / LR * f2R z * (/ LR * f2R z)) with (/ LR * / LR * (f2R x * f2R x + f2R y * f2R y + f2R z * f2R z)) by ring; rewrite <- SXY, <- SQ; field; lra|].
      split; [|now left]. intros v. rewrite apply_finish, conj_rot_turn by (first [exact IA|exact IB]). rewrite angle_to_rad, EN. reflexivity.
Qed.
Print Assumptions C42_rounding_any_axis.
