(** C42 in double precision. *)
From Coq Require Import List ZArith Bool Reals Lra Lia Floats.SpecFloat.
From Flocq Require Import Core.Raux Core.Zaux Core.Defs Core.Float_prop Core.Generic_fmt Core.FLT Core.Round_NE IEEE754.BinarySingleNaN.
From Verif Require Import Py Float64_Model Float64_Proofs State_Model State_Proofs Bond_Model Bond_Spec Bond_Proofs KPath_Model KPathFloat_Proofs KPathRound_Proofs LineFloat_Spec LineFloat_Proofs
  BondFloat_Model BondFloat_Properties Line2D_Model Line2D_Proofs Rotation_Model Rotation_Spec Rotation_Proofs Rotation_Properties RotationPi_Proofs RotationFloat_Model RotationFloat_Spec RotationFloat_Proofs RotationFloat_Proofs2.
Import ListNotations.
Open Scope R_scope.

(** The rotations about the coordinate axes: every entry of the array is a number,
    within 3 units of 10^-16 of the exact one for an angle in radians, and for an
    angle in degrees within that and one part in 10^15 of the angle in radians.  The
    inversion adds nothing. *)
Theorem C42_rounding_xyz : forall fsin fcos theta deg inversion, accurate fsin sin -> accurate fcos cos ->
  number theta -> Rabs (f2R theta) <= 1000000 ->
  slop deg (f2R theta) <= 1 /\
  near3 (slop deg (f2R theta)) (FRotationX fsin fcos theta deg inversion) (RotationX (f2R theta) deg inversion) /\
  near3 (slop deg (f2R theta)) (FRotationY fsin fcos theta deg inversion) (RotationY (f2R theta) deg inversion) /\
  near3 (slop deg (f2R theta)) (FRotationZ fsin fcos theta deg inversion) (RotationZ (f2R theta) deg inversion).
Proof.
  intros fsin fcos theta deg inversion As Ac N B. assert (M : million theta) by now split.
  pose proof (trig_near deg theta fsin sin As sin_lip M) as Hs. pose proof (trig_near deg theta fcos cos Ac cos_lip M) as Hc. pose proof (slop_pos deg (f2R theta)) as P.
  assert (L : slop deg (f2R theta) <= 1).
  { unfold slop. destruct deg; [|lra]. destruct pi_bounds as [_ U]. pose proof PI_RGT_0. replace (f2R theta * PI / 180) with (f2R theta * PI * / 180) by (unfold Rdiv; ring). rewrite !Rabs_mult. rewrite (Rabs_pos_eq PI), (Rabs_pos_eq (/ 180)) by lra.
    pose proof (Rabs_pos (f2R theta)). assert (Rabs (f2R theta) * PI <= 1000000 * (31416 / 10000)) by (apply Rmult_le_compat; lra). lra. }
  split; [exact L|]. unfold FRotationX, FRotationY, FRotationZ, RotationX, RotationY, RotationZ. split; [|split]; (apply finish_near; [exact L| |apply isometry_small]).
  - now apply near_fX.
  - apply isometry_X, sc.
  - now apply near_fY.
  - apply isometry_Y, sc.
  - now apply near_fZ.
  - apply isometry_Z, sc.
Qed.
Print Assumptions C42_rounding_xyz.

(** The product of three. *)
Theorem C42_rounding_euler : forall fsin fcos alpha beta gamma deg inversion, accurate fsin sin -> accurate fcos cos ->
  modest deg alpha -> modest deg beta -> modest deg gamma ->
  near3 (3 / 10 ^ 13) (FRotationEuler fsin fcos alpha beta gamma deg inversion) (RotationEuler (f2R alpha) (f2R beta) (f2R gamma) deg inversion).
Proof.
  intros fsin fcos alpha beta gamma deg inversion As Ac Ma Mb Mg. set (d := 13 / 10 ^ 15). assert (D : 0 <= d <= 1 / 100) by (unfold d; lra).
  assert (T : forall t, modest deg t -> near d (fsin (fto_rad deg t)) (sin (to_rad deg (f2R t))) /\ near d (fcos (fto_rad deg t)) (cos (to_rad deg (f2R t)))).
  { intros t M. pose proof (modest_slop deg t M) as S. split; (eapply near_weaken; [exact S|]); apply trig_near; auto using sin_lip, cos_lip; now apply (modest_million deg). }
  destruct (T _ Ma) as [A1 A2]. destruct (T _ Mb) as [B1 B2]. destruct (T _ Mg) as [G1 G2].
  pose proof (near_fZ d _ _ _ _ (proj1 D) A1 A2) as HA. pose proof (near_fY d _ _ _ _ (proj1 D) B1 B2) as HB. pose proof (near_fZ d _ _ _ _ (proj1 D) G1 G2) as HG.
  unfold FRotationEuler, RotationEuler. cbn [fmulti_dot]. unfold multi_dot. cbn [fold_left]. rewrite matmul_assoc.
  destruct (chain d _ _ _ _ d D D HB HG (isometry_Y _ _ (sc _)) (isometry_Z _ _ (sc _))) as [H1 I1].
  set (E1 := 3 * (d + d + d * d) + 2 / 10 ^ 15) in *. assert (K1 : 0 <= E1 <= 81 / 10 ^ 15) by (unfold E1, d; lra). clearbody E1.
  destruct (chain d _ _ _ _ E1 D ltac:(lra) HA H1 (isometry_Z _ _ (sc _)) I1) as [H2 I2].
  apply finish_near; [lra| |now apply isometry_small]. eapply near3_weaken; [|exact H2]. unfold d. lra.
Qed.
Print Assumptions C42_rounding_euler.

(** RotationGeneral with a spherical axis. *)
Theorem C42_rounding_spherical : forall fsin fcos view alpha beta theta deg inversion, accurate fsin sin -> accurate fcos cos ->
  modest deg alpha -> modest deg beta -> modest deg theta ->
  exists A M, FRotationGeneral fsin fcos view (FSeq [alpha; beta]) theta deg inversion = Ok A /\
    RotationGeneral (f2R view) (ASeq [f2R alpha; f2R beta]) (f2R theta) deg inversion = Ok M /\ near3 (3 / 10 ^ 12) A M.
Proof.
  intros fsin fcos view alpha beta theta deg inversion As Ac Ma Mb Mt. eexists. eexists. split; [reflexivity|]. split; [reflexivity|].
  assert (T : forall t, modest deg t -> near (13 / 10 ^ 15) (fsin (fto_rad deg t)) (sin (to_rad deg (f2R t))) /\ near (13 / 10 ^ 15) (fcos (fto_rad deg t)) (cos (to_rad deg (f2R t)))).
  { intros t M. pose proof (modest_slop deg t M) as S. split; (eapply near_weaken; [exact S|]); apply trig_near; auto using sin_lip, cos_lip; now apply (modest_million deg). }
  destruct (T _ Ma) as [A1 A2]. destruct (T _ Mb) as [B1 B2]. destruct (T _ Mt) as [G1 G2].
  apply conj_near; auto using sc.
Qed.
Print Assumptions C42_rounding_spherical.

Lemma norm2 x y : within 400 x -> within 400 y -> bpow radix2 (-300) <= vlen (f2R x, f2R y, 0) ->
  within 402 (fsqrt (fadd (fmul x x) (fmul y y))) /\ exists r, Rabs (r - 1) <= 9 * u /\ f2R (fsqrt (fadd (fmul x x) (fmul y y))) = vlen (f2R x, f2R y, 0) * r.
Proof.
  intros Wx Wy H. assert (E : sqrt (sum (map (fun x => x ^ 2) (map f2R [x; y]))) = vlen (f2R x, f2R y, 0)).
  { unfold vlen, sum. cbn [map fold_right vdot]. f_equal. ring. }
  pose proof (norm_near [x; y] (Forall_cons _ Wx (Forall_cons _ Wy (Forall_nil _))) ltac:(cbn; lia)) as K. cbv zeta in K. rewrite E in K. exact (K H).
Qed.
Lemma norm3 x y z : within 400 x -> within 400 y -> within 400 z -> bpow radix2 (-300) <= vlen (f2R x, f2R y, f2R z) ->
  within 402 (fsqrt (fadd (fadd (fmul x x) (fmul y y)) (fmul z z))) /\ exists r, Rabs (r - 1) <= 9 * u /\ f2R (fsqrt (fadd (fadd (fmul x x) (fmul y y)) (fmul z z))) = vlen (f2R x, f2R y, f2R z) * r.
Proof.
  intros Wx Wy Wz H. assert (E : sqrt (sum (map (fun x => x ^ 2) (map f2R [x; y; z]))) = vlen (f2R x, f2R y, f2R z)).
  { unfold vlen, sum. cbn [map fold_right vdot]. f_equal. ring. }
  pose proof (norm_near [x; y; z] (Forall_cons _ Wx (Forall_cons _ Wy (Forall_cons _ Wz (Forall_nil _)))) ltac:(cbn; lia)) as K. cbv zeta in K. rewrite E in K. exact (K H).
Qed.
Lemma vlen_le_coords x y z : Rabs x <= vlen (x, y, z) /\ Rabs y <= vlen (x, y, z) /\ Rabs z <= vlen (x, y, z) /\ vlen (x, y, 0) <= vlen (x, y, z).
Proof.
  unfold vlen. cbn [vdot]. assert (P : forall a, 0 <= a * a) by (intros; nra).
  assert (K : forall a s, a * a <= s -> Rabs a <= sqrt s). { intros a s Hs. rewrite <- sqrt_Rsqr_abs. now apply sqrt_le_1_alt. }
  pose proof (P x). pose proof (P y). pose proof (P z). repeat split; [apply K|apply K|apply K|apply sqrt_le_1_alt]; lra.
Qed.
(** A threshold that is not absurd: the default 1E-10, for instance. *)
Definition sensible (view : f64) : Prop := number view /\ bpow radix2 (-299) <= f2R view <= 1.
Lemma compare view d r x : sensible view -> within 402 d -> f2R d = x * r -> Rabs (r - 1) <= 9 * u -> f2R view * (1 + 1 / 10 ^ 14) <= x -> flt d view = false.
Proof.
  intros ((Vv & Fv) & B & _) (Vd & Fd & _) E Hr H. rewrite flt_correct by assumption. apply Rlt_bool_false. rewrite E. pose proof (bpow_gt_0 radix2 (-299)). apply Rabs_le_inv in Hr. unfold u in Hr.
  apply Rle_trans with (f2R view * (1 + 1 / 10 ^ 14) * r); [|apply Rmult_le_compat_r; lra]. rewrite Rmult_assoc. rewrite <- (Rmult_1_r (f2R view)) at 1. apply Rmult_le_compat_l; [lra|]. lra.
Qed.
(** RotationGeneral with a Cartesian axis that is not near the thresholds of the
    program: at least _VIEW_AS_ZERO long (and a little more), and either along z
    exactly or that far from it. *)
Theorem C42_rounding_cartesian : forall fsin fcos view x y z theta deg inversion, accurate fsin sin -> accurate fcos cos ->
  sensible view -> usual x -> usual y -> usual z -> modest deg theta ->
  f2R view * (1 + 1 / 10 ^ 14) <= vlen (f2R x, f2R y, f2R z) ->
  (f2R x = 0 /\ f2R y = 0) \/ f2R view * (1 + 1 / 10 ^ 14) <= vlen (f2R x, f2R y, 0) ->
  exists A M, FRotationGeneral fsin fcos view (FSeq [x; y; z]) theta deg inversion = Ok A /\
    RotationGeneral (f2R view) (ASeq [f2R x; f2R y; f2R z]) (f2R theta) deg inversion = Ok M /\ near3 (3 / 10 ^ 12) A M.
Proof.
  intros fsin fcos view x y z theta deg inversion As Ac Sv Ux Uy Uz Mt L Lxy. pose proof Sv as ((Vv & Fv) & Bv & Bv'). pose proof (bpow_gt_0 radix2 (-299)) as P299.
  apply usual_within in Ux, Uy, Uz. assert (B300 : bpow radix2 (-300) <= f2R view) by (eapply Rle_trans; [|exact Bv]; apply bpow_le; lia).
  assert (V0 : 0 < f2R view) by lra. assert (Vb : f2R view <= f2R view * (1 + 1 / 10 ^ 14)) by nra.
  pose proof (modest_slop deg theta Mt) as S. assert (Ts : near (13 / 10 ^ 15) (fsin (fto_rad deg theta)) (sin (to_rad deg (f2R theta)))) by (eapply near_weaken; [exact S|]; apply trig_near; auto using sin_lip; now apply (modest_million deg)).
  assert (Tc : near (13 / 10 ^ 15) (fcos (fto_rad deg theta)) (cos (to_rad deg (f2R theta)))) by (eapply near_weaken; [exact S|]; apply trig_near; auto using cos_lip; now apply (modest_million deg)).
  destruct (norm3 x y z Ux Uy Uz ltac:(lra)) as (Wr & rr & Hrr & Er). pose proof (compare view _ _ _ Sv Wr Er Hrr L) as Fr.
  pose proof (vlen_le_coords (f2R x) (f2R y) (f2R z)) as (Cx & Cy & Cz & Cxy). pose proof (vlen_le_coords (f2R x) (f2R y) 0) as (Dx & Dy & _ & _).
  unfold FRotationGeneral, RotationGeneral. rewrite Fr. set (dr := fsqrt (fadd (fadd (fmul x x) (fmul y y)) (fmul z z))) in *. set (dxy := fsqrt (fadd (fmul x x) (fmul y y))) in *.
  assert (RE : sqrt (f2R x * f2R x + f2R y * f2R y + f2R z * f2R z) = vlen (f2R x, f2R y, f2R z)) by reflexivity.
  assert (RXY : sqrt (f2R x * f2R x + f2R y * f2R y) = vlen (f2R x, f2R y, 0)) by (unfold vlen; cbn [vdot]; f_equal; ring). rewrite RE, RXY.
  set (LR := vlen (f2R x, f2R y, f2R z)) in *. set (LXY := vlen (f2R x, f2R y, 0)) in *.
  assert (RF : Rltb LR (f2R view) = false) by (unfold Rltb; destruct (Rlt_dec LR (f2R view)); [lra|reflexivity]). rewrite RF.
  assert (Q9 : 9 / 10 <= rr) by (apply Rabs_le_inv in Hrr; unfold u in Hrr; lra).
  assert (Ldr : bpow radix2 (-301) <= f2R dr). { rewrite Er. apply Rle_trans with (bpow radix2 (-300) * / 2); [change (-301)%Z with (-300 + -1)%Z; rewrite bpow_plus; apply Rle_refl|]. pose proof (bpow_gt_0 radix2 (-300)). apply Rmult_le_compat; lra. }
  assert (W402 : forall a, within 400 a -> within 402 a) by (intros a; apply within_le; lia).
  assert (One : Rabs (1 - 1) <= 9 * u) by (rewrite Rminus_diag_eq, Rabs_R0 by reflexivity; unfold u; lra).
  assert (Ncb : near (13 / 10 ^ 15) (fdiv z dr) (f2R z / LR)) by (apply (ratio_near z dr (f2R z) LR 1 rr); auto; lra).
  assert (IB : f2R z / LR * (f2R z / LR) = 1 - LXY / LR * (LXY / LR)).
  { assert (LR * LR = LXY * LXY + f2R z * f2R z). { unfold LR, LXY, vlen. cbn [vdot]. rewrite !sqrt_sqrt by nra. ring. } apply Rmult_eq_reg_l with (LR * LR); [|apply Rmult_integral_contrapositive_currified; lra]. field_simplify; [|lra|lra]. cbn [pow]. lra. }
  destruct Lxy as [[X0 Y0]|Lxy].
  - assert (Z0 : forall a, within 400 a -> f2R a = 0 -> within 800 (fmul a a) /\ f2R (fmul a a) = 0).
    { intros a Wa Ea. destruct (within_mul 400 400 a a ltac:(lia) Wa Wa) as [W E]. split; [exact W|]. rewrite E, Ea, Rmult_0_r. apply rnd64_0. }
    destruct (Z0 x Ux X0) as [W1 E1]. destruct (Z0 y Uy Y0) as [W2 E2]. destruct (within_add 800 _ _ ltac:(lia) W1 W2) as [W3 E3]. rewrite E1, E2, Rplus_0_r, rnd64_0 in E3.
    assert (W3' : within 0 (fadd (fmul x x) (fmul y y))) by (destruct W3 as (? & ? & _); split; [assumption|]; split; [assumption|]; rewrite E3, Rabs_R0; apply bpow_ge_0).
    destruct (within_sqrt 0 _ ltac:(lia) W3' ltac:(lra)) as [W4 E4]. rewrite E3, sqrt_0, rnd64_0 in E4. fold dxy in W4, E4.
    assert (LX : LXY = 0) by (unfold LXY, vlen; cbn [vdot]; rewrite X0, Y0; replace (0 * 0 + 0 * 0 + 0 * 0) with 0 by ring; apply sqrt_0).
    assert (FX : flt dxy view = true). { rewrite flt_correct; [|apply W4|exact Vv|apply W4|exact Fv]. apply Rlt_bool_true. lra. }
    assert (RX : Rltb LXY (f2R view) = true) by (unfold Rltb; destruct (Rlt_dec LXY (f2R view)); [reflexivity|lra]). rewrite FX, RX.
    eexists. eexists. split; [reflexivity|]. split; [reflexivity|]. apply conj_near; [apply near_0; lra|apply near_f1; lra| |exact Ncb|exact Ts|exact Tc|ring|exact IB|apply sc].
    apply (ratio_near dxy dr LXY LR 1 rr); auto; [apply (within_le 0); [lia|exact W4]|lra|rewrite LX, Rabs_R0; lra|rewrite E4, LX; ring].
  - destruct (norm2 x y Ux Uy ltac:(fold LXY; lra)) as (Wd & rd & Hrd & Ed). pose proof (compare view _ _ _ Sv Wd Ed Hrd Lxy) as FX. fold dxy LXY in Wd, Ed, FX.
    assert (RX : Rltb LXY (f2R view) = false) by (unfold Rltb; destruct (Rlt_dec LXY (f2R view)); [lra|reflexivity]). rewrite FX, RX.
    assert (Q8 : 9 / 10 <= rd) by (apply Rabs_le_inv in Hrd; unfold u in Hrd; lra).
    assert (Ldx : bpow radix2 (-301) <= f2R dxy). { rewrite Ed. apply Rle_trans with (bpow radix2 (-300) * / 2); [change (-301)%Z with (-300 + -1)%Z; rewrite bpow_plus; apply Rle_refl|]. pose proof (bpow_gt_0 radix2 (-300)). apply Rmult_le_compat; lra. }
    eexists. eexists. split; [reflexivity|]. split; [reflexivity|]. apply conj_near; [| | |exact Ncb|exact Ts|exact Tc| |exact IB|apply sc].
    + apply (ratio_near y dxy (f2R y) LXY 1 rd); auto; lra.
    + apply (ratio_near x dxy (f2R x) LXY 1 rd); auto; lra.
    + apply (ratio_near dxy dr LXY LR rd rr); auto; [lra|]. rewrite Rabs_pos_eq by lra. exact Cxy.
    + assert (LXY * LXY = f2R x * f2R x + f2R y * f2R y). { unfold LXY, vlen. cbn [vdot]. rewrite sqrt_sqrt by nra. ring. } apply Rmult_eq_reg_l with (LXY * LXY); [|apply Rmult_integral_contrapositive_currified; lra]. field_simplify; [|lra|lra]. cbn [pow]. lra.
Qed.
Print Assumptions C42_rounding_cartesian.

(** The errors do not depend on rounding, but for axes within one part in 10^14 of
    the threshold. *)
Theorem C42_rounding_errors : forall fsin fcos view theta deg inversion, sensible view ->
  FRotationGeneral fsin fcos view FOther theta deg inversion = Err AssertionError /\
  (forall l, (List.length l <> 2 /\ List.length l <> 3)%nat -> FRotationGeneral fsin fcos view (FSeq l) theta deg inversion = Err ValueError) /\
  (forall x y z, usual x -> usual y -> usual z -> vlen (f2R x, f2R y, f2R z) * (1 + 1 / 10 ^ 14) < f2R view ->
     FRotationGeneral fsin fcos view (FSeq [x; y; z]) theta deg inversion = Err ValueError).
Proof.
  intros fsin fcos view theta deg inversion Sv. split; [reflexivity|]. split.
  - intros l [H2 H3]. destruct l as [|a [|b [|c [|d l]]]]; try reflexivity; cbn in H2, H3; congruence.
  - intros x y z Ux Uy Uz H. apply usual_within in Ux, Uy, Uz. unfold FRotationGeneral. set (dr := fsqrt (fadd (fadd (fmul x x) (fmul y y)) (fmul z z))).
    assert (K : flt dr view = true); [|now rewrite K]. destruct Sv as ((Vv & Fv) & Bv & _).
    set (ds := [x; y; z]). assert (G : Forall2 leg ds (map f2R ds)).
    { assert (Fd : Forall (within 400) ds) by exact (Forall_cons _ Ux (Forall_cons _ Uy (Forall_cons _ Uz (Forall_nil _)))). clear - Fd. induction Fd as [|d ds W H IH]; constructor; [|exact IH]. split; [apply (within_le 400); [lia|exact W]|]. exists 0. split; [rewrite Rabs_R0; left; apply u_pos|ring]. }
    destruct (legs_norm _ _ G ltac:(cbn; lia)) as (W & T & PT & E & B). change (row_norm float_arith ds) with dr in W, E. set (X := sum _) in *. assert (PX : 0 <= X) by apply sum_squares_nonneg.
    pose proof (sqrt_near X T PX PT B) as Q. assert (EX : sqrt X = vlen (f2R x, f2R y, f2R z)) by (unfold X, ds, vlen, sum; cbn [map fold_right vdot]; f_equal; ring). rewrite EX in Q. set (v := vlen _) in *.
    rewrite flt_correct; [|apply W|exact Vv|apply W|exact Fv]. apply Rlt_bool_true. rewrite E. pose proof (rnd_nonneg_bounds (sqrt T) (sqrt_pos T)) as R.
    assert (v0 : 0 <= v) by apply sqrt_pos. apply Rabs_le_inv in Q.
    assert (Tiny : 1 / 10 ^ 155 + eta <= f2R view * (1 / 10 ^ 30)).
    { apply Rle_trans with (bpow radix2 (-299) * (1 / 10 ^ 30)); [|apply Rmult_le_compat_r; lra].
      assert (E1 : 1 / 10 ^ 155 <= bpow radix2 (-500)).
      { replace (bpow radix2 (-500)) with (/ IZR (2 ^ 500)) by reflexivity. unfold Rdiv. rewrite Rmult_1_l. apply Rinv_le_contravar; [apply IZR_lt; reflexivity|]. rewrite pow_IZR. apply IZR_le. vm_compute. discriminate. }
      assert (E2 : eta <= bpow radix2 (-500)) by (apply bpow_le; lia).
      assert (E3 : bpow radix2 (-500) + bpow radix2 (-500) <= bpow radix2 (-299) * bpow radix2 (-200)) by (rewrite <- bpow_plus; change (-299 + -200)%Z with (1 + -500)%Z; rewrite bpow_plus; change (bpow radix2 1) with 2; lra).
      assert (E4 : bpow radix2 (-200) <= 1 / 10 ^ 30) by (replace (bpow radix2 (-200)) with (/ IZR (2 ^ 200)) by reflexivity; change (2 ^ 200)%Z with 1606938044258990275541962092341162602522202993782792835301376%Z; lra).
      pose proof (bpow_gt_0 radix2 (-299)). nra. }
    unfold u in *. nra.
Qed.
Print Assumptions C42_rounding_errors.
