(** Rounding of angles and axes. *)
From Coq Require Import List ZArith Bool Reals Lra Lia Floats.SpecFloat.
From Flocq Require Import Core.Raux Core.Zaux Core.Defs Core.Float_prop Core.Generic_fmt Core.FLT Core.Round_NE IEEE754.BinarySingleNaN.
From Verif Require Import Py Float64_Model Float64_Proofs State_Model State_Proofs Bond_Model Bond_Spec Bond_Proofs KPath_Model KPathFloat_Proofs KPathRound_Proofs LineFloat_Spec LineFloat_Proofs
  BondFloat_Model BondFloat_Properties Rotation_Model Rotation_Spec Rotation_Proofs RotationPi_Proofs RotationFloat_Model RotationFloat_Spec RotationFloat_Proofs.
Import ListNotations.
Open Scope R_scope.

Definition million (t : f64) : Prop := number t /\ Rabs (f2R t) <= 1000000.
Lemma million_within t : million t -> within 20 t.
Proof. intros [[V F] B]. split; [exact V|]. split; [exact F|]. change (bpow radix2 20) with 1048576. lra. Qed.
Lemma to_rad_near deg t : million t ->
  number (fto_rad deg t) /\ Rabs (f2R (fto_rad deg t) - to_rad deg (f2R t)) <= (if deg then 1 / 10 ^ 15 * Rabs (f2R t * PI / 180) else 0) + 1 / 10 ^ 40 /\ Rabs (f2R (fto_rad deg t)) <= IZR (2 ^ 20).
Proof.
  intros M. pose proof (million_within t M) as W. change (IZR (2 ^ 20)) with 1048576. destruct deg; cbn [fto_rad to_rad].
  2:{ destruct M as [N B]. split; [exact N|]. rewrite Rminus_diag_eq, Rabs_R0 by reflexivity. split; lra. }
  destruct npi_value as [Wp _]. destruct npi_near as (q & Hq & Eq). destruct (within_mul 20 2 t npi ltac:(lia) W Wp) as [W2 E2].
  unfold flt_of. destruct (float_int_exact 180 ltac:(lia)) as (g & -> & Wg & Eg). 
  destruct (within_div 22 7 (fmul t npi) g ltac:(lia) W2 (proj1 Wg) (proj1 (proj2 Wg))) as [W3 E3]; [rewrite Eg; change (bpow radix2 7) with 128; lra|].
  split; [eapply within_number; exact W3|]. split.
  2:{ apply Rle_trans with (1 := proj2 (proj2 W3)). change (bpow radix2 (22 - 7)) with 32768. lra. }
  rewrite E3, E2, Eg, Eq. destruct (rnd_err (f2R t * (PI * q))) as (e & h & He & Hh & ->). set (y := (_ + h) / 180). destruct (rnd_err y) as (e' & h' & He' & Hh' & ->). unfold y; clear y.
  set (v := f2R t * PI / 180). pose proof eta_small as ES. pose proof eta_pos.
  assert (Q : Rabs (q * ((1 + e) * (1 + e')) - 1) <= 9 / 10 ^ 16).
  { pose proof (near_mul _ _ _ _ (near_1 _ _ He) (near_1 _ _ He')) as A. pose proof (near_mul _ _ _ _ Hq A) as B. eapply Rle_trans; [exact B|]. unfold u. lra. }
  replace ((f2R t * (PI * q) * (1 + e) + h) / 180 * (1 + e') + h' - v) with (v * (q * ((1 + e) * (1 + e')) - 1) + (h * (1 + e') / 180 + h')) by (unfold v; field).
  eapply Rle_trans; [apply Rabs_triang|]. apply Rplus_le_compat.
  - rewrite Rabs_mult. rewrite Rmult_comm. apply Rmult_le_compat; auto using Rabs_pos; lra.
  - apply Rabs_le_inv in He', Hh, Hh'. unfold u in He'. assert (- (2 * eta) <= h * (1 + e') <= 2 * eta) by (split; nra). apply Rabs_le. lra.
Qed.
Lemma slop_pos deg t : 0 <= slop deg t.
Proof. unfold slop. destruct deg; [pose proof (Rabs_pos (t * PI / 180))|]; lra. Qed.
Lemma trig_near deg t f g : accurate f g -> (forall x y, Rabs (g x - g y) <= Rabs (x - y)) -> million t ->
  near (slop deg (f2R t)) (f (fto_rad deg t)) (g (to_rad deg (f2R t))).
Proof.
  intros A L M. destruct (to_rad_near deg t M) as (N & D & B). destruct (A _ N B) as [Nf Hf]. split; [exact Nf|].
  set (x := f2R (f _)) in *. set (y := f2R (fto_rad deg t)) in *. set (z := to_rad deg (f2R t)) in *. replace (x - g z) with ((x - g y) + (g y - g z)) by ring.
  eapply Rle_trans; [apply Rabs_triang|]. pose proof (L y z). unfold slop. lra.
Qed.
Lemma modest_million deg t : modest deg t -> million t.
Proof. intros [N B]. split; [exact N|]. destruct deg; lra. Qed.
Lemma modest_slop deg t : modest deg t -> slop deg (f2R t) <= 13 / 10 ^ 15.
Proof.
  intros [_ B]. unfold slop. destruct deg; [|lra]. destruct pi_bounds as [_ U]. pose proof PI_RGT_0. replace (f2R t * PI / 180) with (f2R t * PI * / 180) by (unfold Rdiv; ring). rewrite !Rabs_mult. rewrite (Rabs_pos_eq PI), (Rabs_pos_eq (/ 180)) by lra.
  pose proof (Rabs_pos (f2R t)). assert (Rabs (f2R t) * PI <= 720 * (31416 / 10000)) by (apply Rmult_le_compat; lra). lra.
Qed.

(** ** the products *)
Lemma sc1 a : cos a * cos a = 1 - sin a * sin a. Proof. apply sc. Qed.
Lemma chain d A B M N E : 0 <= d <= 1 / 100 -> 0 <= E <= 1 / 100 -> near3 d A M -> near3 E B N -> isometry M -> isometry N ->
  near3 (3 * (d + E + d * E) + 2 / 10 ^ 15) (fmatmul A B) (matmul M N) /\ isometry (matmul M N).
Proof.
  intros D DE HA HB IM IN. split; [|now apply isometry_matmul]. apply matmul_near; auto using isometry_small.
Qed.
Lemma conj_near sa ca sb cb st ct sa' ca' sb' cb' st' ct' inversion : let d := 13 / 10 ^ 15 in
  near d sa sa' -> near d ca ca' -> near d sb sb' -> near d cb cb' -> near d st st' -> near d ct ct' ->
  ca' * ca' = 1 - sa' * sa' -> cb' * cb' = 1 - sb' * sb' -> ct' * ct' = 1 - st' * st' ->
  near3 (3 / 10 ^ 12) (ffinish inversion (fmulti_dot (fZ sa ca) [fY sb cb; fZ st ct; ftranspose (fY sb cb); ftranspose (fZ sa ca)]))
    (finish inversion (conj_rot sa' ca' sb' cb' st' ct')).
Proof.
  intros d Nsa Nca Nsb Ncb Nst Nct Ia Ib It. assert (D : 0 <= d <= 1 / 100) by (unfold d; lra).
  pose proof (near_fZ d _ _ _ _ (proj1 D) Nsa Nca) as HA. pose proof (near_fY d _ _ _ _ (proj1 D) Nsb Ncb) as HB. pose proof (near_fZ d _ _ _ _ (proj1 D) Nst Nct) as HT.
  assert (EQ : conj_rot sa' ca' sb' cb' st' ct' = matmul (rZ sa' ca') (matmul (rY sb' cb') (matmul (rZ st' ct') (matmul (transpose (rY sb' cb')) (transpose (rZ sa' ca')))))).
  { unfold conj_rot, multi_dot. cbn [fold_left]. fold (rZ sa' ca') (rY sb' cb') (rZ st' ct'). rewrite !matmul_assoc. reflexivity. }
  rewrite EQ. cbn [fmulti_dot].
  destruct (chain d _ _ _ _ d D D (transpose_near _ _ _ HB) (transpose_near _ _ _ HA) (isometry_Yt _ _ Ib) (isometry_Zt _ _ Ia)) as [H1 I1].
  set (E1 := 3 * (d + d + d * d) + 2 / 10 ^ 15) in *. assert (B1 : 0 <= E1 <= 81 / 10 ^ 15) by (unfold E1, d; lra). clearbody E1.
  destruct (chain d _ _ _ _ E1 D ltac:(lra) HT H1 (isometry_Z _ _ It) I1) as [H2 I2].
  set (E2 := 3 * (d + E1 + d * E1) + 2 / 10 ^ 15) in *. assert (B2 : 0 <= E2 <= 286 / 10 ^ 15) by (unfold E2, d; lra). clearbody E2.
  destruct (chain d _ _ _ _ E2 D ltac:(lra) HB H2 (isometry_Y _ _ Ib) I2) as [H3 I3].
  set (E3 := 3 * (d + E2 + d * E2) + 2 / 10 ^ 15) in *. assert (B3 : 0 <= E3 <= 901 / 10 ^ 15) by (unfold E3, d; lra). clearbody E3.
  destruct (chain d _ _ _ _ E3 D ltac:(lra) HA H3 (isometry_Z _ _ Ia) I3) as [H4 I4].
  set (E4 := 3 * (d + E3 + d * E3) + 2 / 10 ^ 15) in *. assert (B4 : 0 <= E4 <= 3 / 10 ^ 12) by (unfold E4, d; lra). clearbody E4.
  apply finish_near; [lra| |now apply isometry_small]. eapply near3_weaken; [|exact H4]. lra.
Qed.

(** ** the axis *)
Lemma norm_near ds : Forall (within 400) ds -> (1 <= List.length ds <= 3)%nat ->
  let X := sum (map (fun x => x ^ 2) (map f2R ds)) in bpow radix2 (-300) <= sqrt X ->
  within 402 (row_norm float_arith ds) /\ exists r, Rabs (r - 1) <= 9 * u /\ f2R (row_norm float_arith ds) = sqrt X * r.
Proof.
  intros H L X Hx. assert (G : Forall2 leg ds (map f2R ds)).
  { clear - H. induction H as [|d ds W H IH]; constructor; [|exact IH]. split; [apply (within_le 400); [lia|exact W]|]. exists 0. split; [rewrite Rabs_R0; left; apply u_pos|ring]. }
  destruct (legs_norm _ _ G L) as (W & S & PS & E & B). fold X in B. assert (PX : 0 <= X) by apply sum_squares_nonneg. pose proof (sqrt_near X S PX PS B) as K.
  assert (T : 1 / 10 ^ 155 <= sqrt X * (u / 10)).
  { apply Rle_trans with (bpow radix2 (-300) * (u / 10)); [|apply Rmult_le_compat_r; [unfold u; lra|exact Hx]]. replace (bpow radix2 (-300)) with (/ IZR (2 ^ 300)) by reflexivity.
    apply Rmult_le_reg_l with (IZR (2 ^ 300)); [apply IZR_lt; reflexivity|]. rewrite <- Rmult_assoc, Rinv_r, Rmult_1_l by (apply not_0_IZR; discriminate).
    apply Rle_trans with (1 / 10 ^ 60); [|unfold u; lra]. apply Rmult_le_reg_r with (10 ^ 155); [apply pow_lt; lra|]. unfold Rdiv. rewrite Rmult_1_l, Rmult_assoc, Rinv_l, Rmult_1_r by (apply pow_nonzero; lra).
    replace 155%nat with (60 + 95)%nat by reflexivity. rewrite pow_add, Rmult_1_l, <- Rmult_assoc, Rinv_l, Rmult_1_l by (apply pow_nonzero; lra). rewrite pow_IZR. apply IZR_le. vm_compute. discriminate. }
  set (x := sqrt X) in *. assert (X0 : 0 < x) by (eapply Rlt_le_trans; [apply bpow_gt_0|exact Hx]). apply Rabs_le_inv in K. set (s := sqrt S) in *.
  assert (R1 : Rabs (s / x - 1) <= 71 / 10 * u).
  { replace (s / x - 1) with ((s - x) / x) by (field; lra). unfold Rdiv. rewrite Rabs_mult, (Rabs_pos_eq (/ x)) by (left; apply Rinv_0_lt_compat; lra).
    apply Rmult_le_reg_r with x; [exact X0|]. rewrite Rmult_assoc, Rinv_l, Rmult_1_r by lra. apply Rabs_le. lra. }
  destruct (rel_u s) as (r2 & Hr2 & E2).
  { apply Rle_trans with (bpow radix2 (-301)); [apply bpow_le; lia|]. change (-301)%Z with (-1 + -300)%Z. rewrite bpow_plus. change (bpow radix2 (-1)) with (/ 2). unfold u in *. lra. }
  assert (Ef : f2R (row_norm float_arith ds) = x * (s / x * r2)) by (rewrite E, E2; field; lra).
  assert (Hr : Rabs (s / x * r2 - 1) <= 9 * u) by (pose proof (near_mul _ _ _ _ R1 Hr2) as Q; eapply Rle_trans; [exact Q|]; unfold u; lra).
  split; [|exists (s / x * r2); now split].
  destruct W as (V & F & _). split; [exact V|]. split; [exact F|]. rewrite Ef. set (r := s / x * r2) in *. apply Rabs_le_inv in Hr. unfold u in Hr.
  assert (Xb : x <= bpow radix2 401).
  { unfold x. rewrite <- (sqrt_square (bpow radix2 401)) by apply bpow_ge_0. apply sqrt_le_1_alt. rewrite <- bpow_plus. change (401 + 401)%Z with (2 + 800)%Z. rewrite bpow_plus. change (bpow radix2 2) with 4. pose proof (bpow_gt_0 radix2 800).
    assert (Q : forall d, within 400 d -> f2R d ^ 2 <= bpow radix2 800).
    { intros d (_ & _ & Bd). rewrite <- (pow2_abs (f2R d)). change 800%Z with (400 + 400)%Z. rewrite bpow_plus. pose proof (Rabs_pos (f2R d)). cbn [pow]. rewrite Rmult_1_r. apply Rmult_le_compat; auto. }
    unfold X. destruct H as [|d1 ds W1 H]; cbn [map sum fold_right]; [unfold sum; cbn; lra|]. destruct H as [|d2 ds W2 H]; [unfold sum; cbn [map fold_right]; pose proof (Q _ W1); lra|].
    destruct H as [|d3 ds W3 H]; [unfold sum; cbn [map fold_right]; pose proof (Q _ W1); pose proof (Q _ W2); lra|]. destruct H as [|d4 ds W4 H]; [|cbn in L; lia]. unfold sum; cbn [map fold_right]. pose proof (Q _ W1); pose proof (Q _ W2); pose proof (Q _ W3). lra. }
  rewrite Rabs_pos_eq by (apply Rmult_le_pos; lra). change 402%Z with (1 + 401)%Z. rewrite bpow_plus. change (bpow radix2 1) with 2. nra.
Qed.
(** a quotient known to within a factor *)
Lemma ratio_near a b p q ra rb : within 402 a -> within 402 b -> bpow radix2 (-301) <= f2R b -> 0 < q -> Rabs p <= q ->
  f2R a = p * ra -> Rabs (ra - 1) <= 9 * u -> f2R b = q * rb -> Rabs (rb - 1) <= 9 * u -> near (13 / 10 ^ 15) (fdiv a b) (p / q).
Proof.
  intros Wa Wb Lb Q P Ea Ra Eb Rb. destruct (within_div 402 (-301) a b ltac:(lia) Wa (proj1 Wb) (proj1 (proj2 Wb)) Lb) as [W E]. split; [eapply within_number; exact W|]. rewrite E.
  assert (rb0 : 0 < rb) by (apply Rabs_le_inv in Rb; unfold u in Rb; lra).
  assert (K : Rabs (ra * / rb - 1) <= 28 * u).
  { pose proof (near_inv rb (9 * u) Rb ltac:(unfold u; lra)) as I. pose proof (near_mul _ _ _ _ Ra I) as M. eapply Rle_trans; [exact M|]. unfold u. lra. }
  assert (PQ : Rabs (p / q) <= 1).
  { unfold Rdiv. rewrite Rabs_mult, (Rabs_pos_eq (/ q)) by (left; apply Rinv_0_lt_compat; lra). apply Rmult_le_reg_r with q; [exact Q|]. rewrite Rmult_assoc, Rinv_l by lra. lra. }
  assert (V : f2R a / f2R b = p / q * (ra * / rb)) by (rewrite Ea, Eb; field; lra). rewrite V. set (t := p / q) in *. set (k := ra * / rb) in *.
  assert (T : Rabs (t * k - t) <= 28 * u).
  { replace (t * k - t) with (t * (k - 1)) by ring. rewrite Rabs_mult. pose proof (Rabs_pos t). pose proof (Rabs_pos (k - 1)). nra. }
  assert (T2 : Rabs (t * k) <= 2) by (apply Rabs_le_inv in T, PQ; unfold u in T; apply Rabs_le; lra). pose proof (rnd_close _ _ T2) as C. pose proof eta_small.
  apply Rabs_le_inv in T, C. apply Rabs_le. unfold u in *. lra.
Qed.
