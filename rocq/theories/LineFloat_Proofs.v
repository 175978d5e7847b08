(** Error bounds for the heights computed by Line2D in doubles. *)
From Coq Require Import List ZArith Bool Reals Lra Lia Arith Floats.SpecFloat.
From Flocq Require Import Core Relative Plus_error IEEE754.BinarySingleNaN.
From Verif Require Import Py Float64_Model Float64_Proofs PandC_Proofs KPath_Model KPath_Proofs KPathFloat_Proofs KPathFloat2_Proofs KPathRound_Proofs Line2D_Model LineFloat_Model LineFloat_Spec.
Import ListNotations.
Open Scope R_scope.
#[local] Instance Hp64l : Prec_gt_0 prec64. Proof. reflexivity. Qed.
#[local] Instance Hm64l : Prec_lt_emax prec64 emax64. Proof. reflexivity. Qed.

Lemma usual_within x : usual x <-> within 400 x.
Proof.
  unfold usual, number, within. assert (E : IZR (2 ^ 400) = bpow radix2 400) by (apply (IZR_Zpower radix2); lia). rewrite E. tauto.
Qed.
Lemma fabs_correct x : number x -> number (SFabs x) /\ f2R (SFabs x) = Rabs (f2R x).
Proof.
  intros [V F]. destruct x as [s|s| |s m e]; try discriminate.
  - split; [split; reflexivity|]. cbn [SFabs f2R SF2R]. now rewrite Rabs_R0.
  - split; [split; [exact V|reflexivity]|]. cbn [SFabs f2R SF2R]. rewrite <- F2R_Zabs. f_equal. destruct s; reflexivity.
Qed.
Lemma fle_correct x y : number x -> number y -> SFleb x y = Rle_bool (f2R x) (f2R y).
Proof.
  intros [Vx Fx] [Vy Fy]. pose proof (Bleb_correct prec64 emax64 (SF2B x Vx) (SF2B y Vy)) as H. rewrite !is_finite_SF2B, !B2R_SF2B in H. unfold f2R. rewrite <- (H Fx Fy). unfold Bleb. now rewrite !B2SF_SF2B.
Qed.
Lemma abs_le_correct x tol : number x -> number tol -> abs_le x tol = Rle_bool (Rabs (f2R x)) (f2R tol).
Proof. intros Hx Ht. destruct (fabs_correct x Hx) as [N E]. unfold abs_le. rewrite fle_correct by assumption. now rewrite E. Qed.
Lemma within_number k x : within k x -> number x.
Proof. intros (V & F & _). now split. Qed.
Lemma number_fixed x : number x -> rnd64 (f2R x) = f2R x.
Proof. intros [V F]. now apply valid_format. Qed.
Lemma rnd64_abs x : rnd64 (Rabs x) = Rabs (rnd64 x).
Proof. apply round_NE_abs. auto with typeclass_instances. Qed.

(** a rounded difference against a tolerance *)
Lemma sub_small k x y tol : (-1074 <= k <= 1022)%Z -> within k x -> within k y -> number tol ->
  (Rabs (f2R x - f2R y) <= f2R tol -> abs_le (fsub x y) tol = true) /\ (abs_le (fsub x y) tol = true -> Rabs (f2R x - f2R y) <= f2R tol * (1 + bit)).
Proof.
  intros Hk Wx Wy Ht. destruct (within_sub k x y Hk Wx Wy) as [W E]. rewrite abs_le_correct by (auto using (within_number (k + 1))). rewrite E.
  split.
  - intros H. apply Rle_bool_true. rewrite <- rnd64_abs. rewrite <- (number_fixed tol Ht). now apply rnd64_le.
  - case Rle_bool_spec; [|discriminate]. intros H _. destruct (rnd_sum k k x y Wx Wy) as (_ & e & _ & He & _ & Er). rewrite Er, Rabs_mult in H.
    assert (B : 1 - u <= Rabs (1 + e)) by (apply Rabs_le_inv in He; rewrite Rabs_pos_eq; unfold u in *; lra). set (d := Rabs (f2R x - f2R y)) in *. assert (D : 0 <= d) by apply Rabs_pos.
    assert (d * (1 - u) <= f2R tol) by (eapply Rle_trans; [apply Rmult_le_compat_l; [exact D|exact B]|exact H]). unfold bit, u in *. lra.
Qed.

(** ** quotients of either sign *)
Lemma rel_signed x : bpow radix2 (-1022) <= Rabs x -> exists r, Rabs (r - 1) <= u /\ rnd64 x = x * r.
Proof.
  intros H. destruct (relative_error_N_FLT_ex radix2 (-1074) 53 eq_refl (fun z => negb (Z.even z)) x H) as (e & He & E). exists (1 + e). split; [|exact E].
  apply near_1. rewrite half_ulp in He. eapply Rle_trans; [exact He|apply u_bound].
Qed.
Lemma slope_bounds dy dx : within 401 dy -> within 401 dx -> bpow radix2 (-200) <= Rabs (f2R dx) -> bpow radix2 (-200) <= Rabs (f2R dy) ->
  within 601 (fdiv dy dx) /\ exists r, Rabs (r - 1) <= u /\ f2R (fdiv dy dx) = f2R dy / f2R dx * r.
Proof.
  intros (Vy & Fy & By) (Vx & Fx & Bx) Lx Ly. pose proof (bpow_gt_0 radix2 (-200)) as P. assert (X0 : f2R dx <> 0) by (intros X; rewrite X, Rabs_R0 in Lx; lra).
  assert (X1 : 0 < Rabs (f2R dx)) by lra.
  assert (A : Rabs (f2R dy / f2R dx) = Rabs (f2R dy) * / Rabs (f2R dx)) by (unfold Rdiv; rewrite Rabs_mult, Rabs_inv; reflexivity).
  assert (U : Rabs (f2R dy / f2R dx) <= bpow radix2 601).
  { rewrite A. replace (bpow radix2 601) with (bpow radix2 401 * / bpow radix2 (-200)) by (rewrite <- bpow_opp, <- bpow_plus; reflexivity). apply Rmult_le_compat; [apply Rabs_pos|left; now apply Rinv_0_lt_compat|exact By|apply Rinv_le; assumption]. }
  assert (Lo : bpow radix2 (-601) <= Rabs (f2R dy / f2R dx)).
  { rewrite A. replace (bpow radix2 (-601)) with (bpow radix2 (-200) * / bpow radix2 401) by (rewrite <- bpow_opp, <- bpow_plus; reflexivity). apply Rmult_le_compat; [lra|left; apply Rinv_0_lt_compat, bpow_gt_0|exact Ly|apply Rinv_le; assumption]. }
  destruct (fdiv_correct dy dx Vy Vx Fy Fx X0) as (E & F & V); [apply (rnd64_small 601); [lia|exact U]|].
  split; [split; [exact V|]; split; [exact F|]; rewrite E; apply rnd64_bound; [lia|exact U]|].
  rewrite E. apply rel_signed. eapply Rle_trans; [|exact Lo]. apply bpow_le. lia.
Qed.

(** ** (dy / dx) * (x - x0) + y0 *)
Definition height (x0 y0 dx dy x : f64) : f64 := fadd (fmul (fdiv dy dx) (fsub x x0)) y0.
Lemma height_bounds x0 y0 x1 y1 x : within 400 x0 -> within 400 y0 -> within 400 x1 -> within 400 y1 -> within 400 x ->
  let DX := f2R x1 - f2R x0 in let DY := f2R y1 - f2R y0 in bpow radix2 (-199) <= Rabs DX -> bpow radix2 (-199) <= Rabs DY ->
  within 1003 (height x0 y0 (fsub x1 x0) (fsub y1 y0) x) /\
  let S := DY / DX * (f2R x - f2R x0) in Rabs (f2R (height x0 y0 (fsub x1 x0) (fsub y1 y0) x) - (S + f2R y0)) <= 2 * bit * (Rabs S + Rabs (f2R y0)) + bpow radix2 (-1074).
Proof.
  intros Wx0 Wy0 Wx1 Wy1 Wx DX DY LX LY. pose proof u_pos as U0. pose proof (bpow_gt_0 radix2 (-199)) as P199. assert (H199 : bpow radix2 (-199) = 2 * bpow radix2 (-200)) by (change (-199)%Z with (-200 + 1)%Z; rewrite bpow_plus; change (bpow radix2 1) with 2; ring).
  destruct (within_sub 400 x1 x0 ltac:(lia) Wx1 Wx0) as [Wdx Edx]. destruct (rnd_sum 400 400 x1 x0 Wx1 Wx0) as (_ & e1 & _ & H1 & _ & R1'). rewrite R1' in Edx. fold DX in Edx.
  destruct (within_sub 400 y1 y0 ltac:(lia) Wy1 Wy0) as [Wdy Edy]. destruct (rnd_sum 400 400 y1 y0 Wy1 Wy0) as (_ & e2 & _ & H2' & _ & R2'). rewrite R2' in Edy. fold DY in Edy.
  change (400 + 1)%Z with 401%Z in *.
  assert (HALF : forall e, Rabs e <= u -> 1 / 2 <= Rabs (1 + e)) by (intros e He; apply Rabs_le_inv in He; rewrite Rabs_pos_eq; unfold u in *; lra).
  assert (Lx : bpow radix2 (-200) <= Rabs (f2R (fsub x1 x0))). { rewrite Edx, Rabs_mult. replace (bpow radix2 (-200)) with (bpow radix2 (-199) * (1 / 2)) by lra. apply Rmult_le_compat; try lra. now apply HALF. }
  assert (Ly : bpow radix2 (-200) <= Rabs (f2R (fsub y1 y0))). { rewrite Edy, Rabs_mult. replace (bpow radix2 (-200)) with (bpow radix2 (-199) * (1 / 2)) by lra. apply Rmult_le_compat; try lra. now apply HALF. }
  destruct (slope_bounds _ _ Wdy Wdx Lx Ly) as (Ws & rd & Hd & Ed).
  destruct (within_sub 400 x x0 ltac:(lia) Wx Wx0) as [Wd Exx]. destruct (rnd_sum 400 400 x x0 Wx Wx0) as (_ & e3 & _ & H3 & _ & R3'). rewrite R3' in Exx. change (400 + 1)%Z with 401%Z in Wd.
  destruct (within_mul 601 401 _ _ ltac:(lia) Ws Wd) as [Wm Em]. change (601 + 401)%Z with 1002%Z in Wm. destruct (rnd_err (f2R (fdiv (fsub y1 y0) (fsub x1 x0)) * f2R (fsub x x0))) as (e4 & h & H4 & Hh & E4). rewrite E4 in Em.
  destruct (within_add 1002 _ y0 ltac:(lia) Wm (within_le 400 1002 y0 ltac:(lia) Wy0)) as [Wh Eh]. destruct (rnd_sum 1002 400 _ y0 Wm Wy0) as (e5 & _ & H5 & _ & E5 & _). rewrite E5 in Eh. change (1002 + 1)%Z with 1003%Z in Wh.
  split; [exact Wh|]. intros S. unfold height. rewrite Eh, Em, Ed, Edx, Edy, Exx.
  assert (DX0 : DX <> 0) by (intros X; rewrite X, Rabs_R0 in LX; lra).
  assert (N1 : 1 + e1 <> 0). { apply Rabs_le_inv in H1. unfold u in *. lra. }
  set (rho := (1 + e2) * (/ (1 + e1) * (rd * ((1 + e3) * ((1 + e4) * (1 + e5)))))). set (Y0 := f2R y0).
  replace ((DY * (1 + e2) / (DX * (1 + e1)) * rd * ((f2R x - f2R x0) * (1 + e3)) * (1 + e4) + h + Y0) * (1 + e5) - (S + Y0)) with (S * (rho - 1) + (Y0 * e5 + h * (1 + e5))) by (unfold S, rho; field; split; assumption).
  assert (Hr : Rabs (rho - 1) <= 2 * bit).
  { pose proof (near_mul _ _ _ _ (near_1 _ _ H4) (near_1 _ _ H5)) as I1. pose proof (near_mul _ _ _ _ (near_1 _ _ H3) I1) as I2. pose proof (near_mul _ _ _ _ Hd I2) as I3.
    pose proof (near_inv _ _ (near_1 _ _ H1) ltac:(unfold u; lra)) as I0. pose proof (near_mul _ _ _ _ I0 I3) as I4. pose proof (near_mul _ _ _ _ (near_1 _ _ H2') I4) as I5. eapply Rle_trans; [exact I5|]. unfold u, bit. lra. }
  assert (Hh2 : Rabs (h * (1 + e5)) <= bpow radix2 (-1074)).
  { change (-1074)%Z with (-1075 + 1)%Z. rewrite bpow_plus, Rabs_mult. change (bpow radix2 1) with 2. apply Rmult_le_compat; auto using Rabs_pos. apply Rabs_le_inv in H5. rewrite Rabs_pos_eq; unfold u in *; lra. }
  assert (H5b : Rabs e5 <= 2 * bit) by (eapply Rle_trans; [exact H5|unfold u, bit; lra]).
  eapply Rle_trans; [apply Rabs_triang|]. replace (2 * bit * (Rabs S + Rabs Y0) + bpow radix2 (-1074)) with (2 * bit * Rabs S + (2 * bit * Rabs Y0 + bpow radix2 (-1074))) by ring. apply Rplus_le_compat.
  - rewrite Rabs_mult, Rmult_comm. apply Rmult_le_compat_r; [apply Rabs_pos|exact Hr].
  - eapply Rle_trans; [apply Rabs_triang|]. apply Rplus_le_compat; [|exact Hh2]. rewrite Rabs_mult, Rmult_comm. apply Rmult_le_compat_r; [apply Rabs_pos|exact H5b].
Qed.

(** ** the answer *)
Lemma side_told k y yon Y tol E lo hi : (-1074 <= k <= 1022)%Z -> within k y -> within k yon -> number tol -> Rabs (f2R yon - Y) <= E ->
  exists a, (if abs_le (fsub y yon) tol then ON else if flt y yon then lo else hi) = a /\ told (f2R y - Y) (f2R tol) E lo hi a.
Proof.
  intros Hk Wy Wo Ht HE. destruct (sub_small k y yon tol Hk Wy Wo Ht) as [S1 S2]. eexists. split; [reflexivity|]. apply Rabs_le_inv in HE. unfold told. destruct (abs_le (fsub y yon) tol).
  - specialize (S2 eq_refl). apply Rabs_le_inv in S2. left. split; [reflexivity|]. apply Rabs_le. lra.
  - assert (N : f2R tol < Rabs (f2R y - f2R yon)) by (apply Rnot_le_lt; intros H; specialize (S1 H); discriminate). destruct Wy as (Vy & Fy & _). destruct Wo as (Vo & Fo & _). right. rewrite flt_correct by assumption.
    case Rlt_bool_spec; intros L; [left|right]; (split; [reflexivity|]); unfold Rabs in N; destruct (Rcase_abs (f2R y - f2R yon)); lra.
Qed.
