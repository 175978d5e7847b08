(** Floating-point lemmas for KPath. *)
From Coq Require Import List ZArith Bool Reals Lra Lia Arith Floats.SpecFloat.
From Flocq Require Import Core Relative IEEE754.BinarySingleNaN.
From Verif Require Import Py Float64_Model Float64_Proofs PandC_Proofs KPath_Model KPath_Proofs.
Import ListNotations.
Local Open Scope Z_scope.
#[local] Instance Hp64' : Prec_gt_0 prec64. Proof. reflexivity. Qed.
#[local] Instance Hm64' : Prec_lt_emax prec64 emax64. Proof. reflexivity. Qed.

Lemma flt_correct x y : fvalid x = true -> fvalid y = true -> ffinite x = true -> ffinite y = true -> flt x y = Rlt_bool (f2R x) (f2R y).
Proof.
  intros Vx Vy Fx Fy. pose proof (Bltb_correct prec64 emax64 (SF2B x Vx) (SF2B y Vy)) as H. rewrite !is_finite_SF2B, !B2R_SF2B in H. unfold f2R. rewrite <- (H Fx Fy). unfold Bltb. now rewrite !B2SF_SF2B.
Qed.
Lemma fsqrt_correct x : fvalid x = true -> ffinite x = true -> (0 <= f2R x)%R -> f2R (fsqrt x) = rnd64 (sqrt (f2R x)) /\ ffinite (fsqrt x) = true /\ fvalid (fsqrt x) = true.
Proof.
  intros V F H. destruct x as [s|s| |s m e]; try discriminate.
  - cbn [fsqrt SFsqrt f2R SF2R]. rewrite sqrt_0, rnd64_0. repeat split; reflexivity.
  - destruct s.
    + exfalso. unfold f2R, SF2R in H. cbn [cond_Zopp] in H. change (Z.opp (Zpos m)) with (Zneg m) in H. pose proof (F2R_lt_0 radix2 (Float radix2 (Zneg m) e) ltac:(reflexivity)). lra.
    + unfold fsqrt, SFsqrt. pose proof (Bsqrt_correct_aux prec64 emax64 _ _ mode_NE m e V) as K. cbv zeta in K. destruct (SFsqrt_core_binary prec64 emax64 (Z.pos m) e) as [[mz ez] lz]. rewrite bra_equiv. destruct K as (K1 & K2 & K3 & _). auto.
Qed.
Lemma fadd_correct x y :
  fvalid x = true -> fvalid y = true -> ffinite x = true -> ffinite y = true ->
  (Rabs (rnd64 (f2R x + f2R y)) < bpow radix2 1024)%R ->
  f2R (fadd x y) = rnd64 (f2R x + f2R y) /\ ffinite (fadd x y) = true /\ fvalid (fadd x y) = true.
Proof.
  intros Vx Vy Fx Fy Hb.
  destruct x as [sx|sx| |sx mx ex]; try discriminate; destruct y as [sy|sy| |sy my ey]; try discriminate.
  - cbn [fadd SFadd f2R SF2R]. rewrite Rplus_0_r, rnd64_0. destruct (Bool.eqb sx sy); repeat split; reflexivity.
  - split; [|split; [reflexivity|exact Vy]]. change (f2R (S754_zero sx)) with 0%R. rewrite Rplus_0_l.
    symmetry. change (fadd (S754_zero sx) (S754_finite sy my ey)) with (S754_finite sy my ey). now apply valid_format.
  - split; [|split; [reflexivity|exact Vx]]. change (f2R (S754_zero sy)) with 0%R. rewrite Rplus_0_r.
    symmetry. change (fadd (S754_finite sx mx ex) (S754_zero sy)) with (S754_finite sx mx ex). now apply valid_format.
  - cbn [fadd SFadd]. set (ez := Z.min ex ey).
    assert (E : F2R (Float radix2 (cond_Zopp sx (Zpos (fst (shl_align mx ex ez))) + cond_Zopp sy (Zpos (fst (shl_align my ey ez)))) ez)
                = (f2R (S754_finite sx mx ex) + f2R (S754_finite sy my ey))%R).
    { cbn [f2R SF2R]. rewrite <- (align_value sx mx ex ez), <- (align_value sy my ey ez) by (unfold ez; lia).
      unfold F2R. cbn [Fnum Fexp]. rewrite plus_IZR. ring. }
    rewrite <- E in Hb |- *. exact (normalize_correct _ _ Hb).
Qed.

(** ** floats of bounded magnitude *)
Definition within (k : Z) (x : f64) : Prop := fvalid x = true /\ ffinite x = true /\ (Rabs (f2R x) <= bpow radix2 k)%R.
Lemma rnd64_bpow k : -1074 <= k -> rnd64 (bpow radix2 k) = bpow radix2 k.
Proof. intros H. apply round_generic; auto with typeclass_instances. apply generic_format_bpow. unfold FLT_exp. lia. Qed.
Lemma rnd64_opp x : rnd64 (- x) = (- rnd64 x)%R.
Proof. apply round_NE_opp. Qed.
Lemma rnd64_bound k x : -1074 <= k -> (Rabs x <= bpow radix2 k)%R -> (Rabs (rnd64 x) <= bpow radix2 k)%R.
Proof.
  intros Hk H. apply Rabs_le_inv in H as [H1 H2]. apply Rabs_le. apply rnd64_le in H1, H2. rewrite rnd64_opp in H1. rewrite rnd64_bpow in H1, H2 by exact Hk. lra.
Qed.
Lemma rnd64_small k x : -1074 <= k <= 1023 -> (Rabs x <= bpow radix2 k)%R -> (Rabs (rnd64 x) < bpow radix2 1024)%R.
Proof. intros Hk H. eapply Rle_lt_trans; [apply (rnd64_bound k); [lia|exact H]|apply bpow_lt; lia]. Qed.
Lemma within_le k l x : k <= l -> within k x -> within l x.
Proof. intros H (V & F & B). repeat split; auto. eapply Rle_trans; [exact B|now apply bpow_le]. Qed.
Lemma within_sub k x y : -1074 <= k <= 1022 -> within k x -> within k y -> within (k + 1) (fsub x y) /\ f2R (fsub x y) = rnd64 (f2R x - f2R y).
Proof.
  intros Hk (V1 & F1 & B1) (V2 & F2 & B2). assert (B : (Rabs (f2R x - f2R y) <= bpow radix2 (k + 1))%R).
  { rewrite bpow_plus_1. apply Rabs_le_inv in B1, B2. apply Rabs_le. cbn [radix_val radix2]. lra. }
  destruct (fsub_correct x y V1 V2 F1 F2) as (E & F & V); [apply (rnd64_small (k + 1)); [lia|exact B]|]. split; [|exact E]. repeat split; auto. rewrite E. apply rnd64_bound; [lia|exact B].
Qed.
Lemma within_add k x y : -1074 <= k <= 1022 -> within k x -> within k y -> within (k + 1) (fadd x y) /\ f2R (fadd x y) = rnd64 (f2R x + f2R y).
Proof.
  intros Hk (V1 & F1 & B1) (V2 & F2 & B2). assert (B : (Rabs (f2R x + f2R y) <= bpow radix2 (k + 1))%R).
  { rewrite bpow_plus_1. apply Rabs_le_inv in B1, B2. apply Rabs_le. cbn [radix_val radix2]. lra. }
  destruct (fadd_correct x y V1 V2 F1 F2) as (E & F & V); [apply (rnd64_small (k + 1)); [lia|exact B]|]. split; [|exact E]. repeat split; auto. rewrite E. apply rnd64_bound; [lia|exact B].
Qed.
Lemma within_mul k l x y : -1074 <= k + l <= 1023 -> within k x -> within l y -> within (k + l) (fmul x y) /\ f2R (fmul x y) = rnd64 (f2R x * f2R y).
Proof.
  intros Hk (V1 & F1 & B1) (V2 & F2 & B2). assert (B : (Rabs (f2R x * f2R y) <= bpow radix2 (k + l))%R).
  { rewrite Rabs_mult, bpow_plus. apply Rmult_le_compat; auto using Rabs_pos. }
  destruct (fmul_correct x y V1 V2 F1 F2) as (E & F & V); [apply (rnd64_small (k + l)); [lia|exact B]|]. split; [|exact E]. repeat split; auto. rewrite E. apply rnd64_bound; [lia|exact B].
Qed.
Lemma within_div k l x y : -1074 <= k - l <= 1023 -> within k x -> fvalid y = true -> ffinite y = true -> (bpow radix2 l <= f2R y)%R -> within (k - l) (fdiv x y) /\ f2R (fdiv x y) = rnd64 (f2R x / f2R y).
Proof.
  intros Hk (V1 & F1 & B1) V2 F2 B2. pose proof (bpow_gt_0 radix2 l) as P. assert (B : (Rabs (f2R x / f2R y) <= bpow radix2 (k - l))%R).
  { unfold Rdiv, Zminus. rewrite Rabs_mult, bpow_plus, bpow_opp. apply Rmult_le_compat; auto using Rabs_pos. rewrite Rabs_pos_eq; [apply Rinv_le; lra|left; apply Rinv_0_lt_compat; lra]. }
  destruct (fdiv_correct x y V1 V2 F1 F2) as (E & F & V); [lra|apply (rnd64_small (k - l)); [lia|exact B]|]. split; [|exact E]. repeat split; auto. rewrite E. apply rnd64_bound; [lia|exact B].
Qed.
Lemma within_sqrt k x : 0 <= k -> within k x -> (0 <= f2R x)%R -> within k (fsqrt x) /\ f2R (fsqrt x) = rnd64 (sqrt (f2R x)).
Proof.
  intros Hk (V & F & B) P. destruct (fsqrt_correct x V F P) as (E & F' & V'). split; [|exact E]. repeat split; auto. rewrite E. apply rnd64_bound; [lia|].
  rewrite Rabs_pos_eq by apply sqrt_pos. rewrite Rabs_pos_eq in B by exact P. assert (O : (1 <= bpow radix2 k)%R) by (change 1%R with (bpow radix2 0); apply bpow_le; lia).
  apply Rle_trans with (sqrt (bpow radix2 k * bpow radix2 k)); [apply sqrt_le_1; nra|rewrite sqrt_square by lra; lra].
Qed.
Lemma float_int z : Z.abs z <= 2 ^ 1000 -> exists f, float_of_int z = Ok f /\ within 1000 f /\ f2R f = rnd64 (IZR z).
Proof.
  intros H. assert (B : (Rabs (IZR z) <= bpow radix2 1000)%R) by (rewrite <- abs_IZR; rewrite <- IZR_Zpower by lia; apply IZR_le; exact H).
  destruct (float_of_int_correct z) as (f & E & V & F & W); [apply (rnd64_small 1000); [lia|exact B]|]. exists f. split; [exact E|]. split; [|exact V]. repeat split; auto. rewrite V. apply rnd64_bound; [lia|exact B].
Qed.
Lemma float_int_exact z : Z.abs z <= 2 ^ 53 -> exists f, float_of_int z = Ok f /\ within 53 f /\ f2R f = IZR z.
Proof.
  intros H. destruct (float_of_int_correct z) as (f & E & V & F & W); [apply (rnd64_fix z H)|]. rewrite rnd64_int in V by exact H. exists f. split; [exact E|]. split; [|exact V]. repeat split; auto. rewrite V, <- abs_IZR. rewrite <- IZR_Zpower by lia. apply IZR_le. exact H.
Qed.

(** ** the steps of KPath in floating point *)
Lemma rnd64_nonneg x : (0 <= x)%R -> (0 <= rnd64 x)%R.
Proof. intros H. rewrite <- rnd64_0. now apply rnd64_le. Qed.
Lemma square_within x : within 401 x -> within 802 (fmul x x) /\ (0 <= f2R (fmul x x))%R.
Proof. intros H. destruct (within_mul 401 401 x x) as [W E]; [lia|exact H|exact H|]. split; [exact W|]. rewrite E. apply rnd64_nonneg. nra. Qed.
Lemma norm_within row : (length row = 2 \/ length row = 3)%nat -> (forall x, In x row -> within 401 x) -> within 804 (row_norm float_arith row) /\ (0 <= f2R (row_norm float_arith row))%R.
Proof.
  intros L H. unfold row_norm. cbn [root float_arith mul add zero].
  set (s := match _ with [] => _ | _ => _ end). assert (W : within 804 s /\ (0 <= f2R s)%R).
  { unfold s. clear s. destruct row as [|a [|b [|c [|]]]]; cbn [length] in L; try lia; cbn [map fold_left].
    - destruct (square_within a) as [Wa Pa]; [apply H; now left|]. destruct (square_within b) as [Wb Pb]; [apply H; right; now left|]. destruct (within_add 802 (fmul a a) (fmul b b)) as [W E]; [lia|exact Wa|exact Wb|].
      split; [apply (within_le 803); [lia|exact W]|]. rewrite E. apply rnd64_nonneg. lra.
    - destruct (square_within a) as [Wa Pa]; [apply H; now left|]. destruct (square_within b) as [Wb Pb]; [apply H; right; now left|]. destruct (square_within c) as [Wc Pc]; [apply H; right; right; now left|].
      destruct (within_add 802 (fmul a a) (fmul b b)) as [W E]; [lia|exact Wa|exact Wb|]. assert (P : (0 <= f2R (fadd (fmul a a) (fmul b b)))%R) by (rewrite E; apply rnd64_nonneg; lra).
      destruct (within_add 803 (fadd (fmul a a) (fmul b b)) (fmul c c)) as [W' E']; [lia|exact W|apply (within_le 802); [lia|exact Wc]|]. split; [exact W'|]. rewrite E'. apply rnd64_nonneg. lra. }
  destruct W as [W P]. destruct (within_sqrt 804 s) as [W' E]; [lia|exact W|exact P|]. split; [exact W'|]. rewrite E. apply rnd64_nonneg, sqrt_pos.
Qed.
Lemma tiny_ge : (bpow radix2 (-14) <= f2R (tiny float_arith))%R /\ fvalid (tiny float_arith) = true /\ ffinite (tiny float_arith) = true.
Proof.
  split; [|split; reflexivity]. cbn [tiny float_arith f2R SF2R cond_Zopp]. unfold F2R. cbn [Fnum Fexp]. replace (bpow radix2 (-14)) with (IZR (2 ^ 52) * bpow radix2 (-66))%R by (rewrite (IZR_Zpower radix2) by lia; rewrite <- bpow_plus; reflexivity).
  apply Rmult_le_compat_r; [apply bpow_ge_0|]. apply IZR_le. lia.
Qed.
Lemma rel64 x : (bpow radix2 (-1022) <= x)%R -> exists e, (Rabs e <= bpow radix2 (-53))%R /\ rnd64 x = (x * (1 + e))%R.
Proof.
  intros Hx. destruct (relative_error_N_FLT_ex radix2 (-1074) 53 eq_refl (fun z => negb (Z.even z)) x) as (e & He & E).
  - rewrite Rabs_pos_eq; [exact Hx|]. eapply Rle_trans; [apply (bpow_ge_0 radix2 (-1022))|exact Hx].
  - exists e. split; [|exact E]. apply Rle_trans with (1 := He). replace (bpow radix2 (-53)) with (/ 2 * bpow radix2 (-52))%R; [apply Rle_refl|]. change (/ 2)%R with (bpow radix2 (-1)). rewrite <- bpow_plus. reflexivity.
Qed.
Lemma float_sampling m s l : 1 <= m < 2 ^ 52 -> within 804 s -> within 804 l -> (bpow radix2 (-14) <= f2R s <= f2R l)%R ->
  exists n, sampling float_arith m s l = Ok n /\ 1 <= Z.of_nat n <= 2 ^ 900 /\ m - 1 <= Z.of_nat n /\ (f2R l = f2R s -> Z.of_nat n <= m).
Proof.
  intros Hm Ws Wl Hs. unfold sampling. cbn [of_int to_int mul div float_arith].
  destruct (float_int_exact m) as (fm & -> & Wm & Em); [lia|]. cbn [bind].
  destruct (within_mul 53 804 fm l) as [Wp Ep]; [lia|exact Wm|exact Wl|]. rewrite Em in Ep.
  destruct (within_div 857 (-14) (fmul fm l) s) as [Wq Eq]; [lia|exact Wp|apply Ws|apply Ws|apply Hs|]. change (857 - -14) with 871 in Wq.
  destruct Wq as (Vq & Fq & Bq). rewrite (int_of_float_correct _ Fq). cbn [bind]. set (q := f2R (fdiv (fmul fm l) s)) in *. set (p := f2R (fmul fm l)) in *.
  set (S_ := f2R s) in *. set (L := f2R l) in *. pose proof (bpow_gt_0 radix2 (-14)) as T14. assert (Sp : (0 < S_)%R) by lra.
  pose proof (IZR_le _ _ (proj1 Hm)) as Hm1. 
  assert (M1 : (1 <= IZR m)%R) by exact Hm1.
  assert (U : bpow radix2 (-53) = (/ IZR (2 ^ 53))%R) by reflexivity. assert (M2 : (IZR m * bpow radix2 (-53) <= / 2)%R).
  { rewrite U. apply Rmult_le_reg_r with (IZR (2 ^ 53)); [apply IZR_lt; lia|]. rewrite Rmult_assoc, Rinv_l by (apply not_0_IZR; lia). replace (/ 2 * IZR (2 ^ 53))%R with (IZR (2 ^ 52)); [rewrite Rmult_1_r; apply IZR_le; lia|]. change (2 ^ 53) with (2 * 2 ^ 52). rewrite mult_IZR. lra. }
  destruct (rel64 (IZR m * L)) as (e & He & E).
  { apply Rle_trans with (bpow radix2 (-14)); [apply bpow_le; lia|]. nra. }
  rewrite <- Ep in E. apply Rabs_le_inv in He.
  assert (ME : (- / 2 <= IZR m * e <= / 2)%R) by (split; [apply Rle_trans with (IZR m * - bpow radix2 (-53))%R; [lra|apply Rmult_le_compat_l; lra]|apply Rle_trans with (IZR m * bpow radix2 (-53))%R; [apply Rmult_le_compat_l; lra|lra]]).
  assert (Q1 : (1 <= p / S_)%R /\ (IZR (m - 1) <= p / S_)%R).
  { assert (G : forall c, (c * S_ <= p)%R -> (c <= p / S_)%R). { intros c Hc. apply Rmult_le_reg_r with S_; [lra|]. unfold Rdiv. rewrite Rmult_assoc, Rinv_l, Rmult_1_r by lra. exact Hc. }
    assert (P1 : (IZR (m - 1) * S_ <= p)%R).
    { rewrite E, minus_IZR. apply Rle_trans with ((IZR m - 1) * L)%R; [apply Rmult_le_compat_l; lra|]. replace (IZR m * L * (1 + e))%R with ((IZR m + IZR m * e) * L)%R by ring. apply Rmult_le_compat_r; lra. }
    split; [|apply G; exact P1]. destruct (Z.eq_dec m 1) as [->|N1].
    - apply G. rewrite Ep, !Rmult_1_l. unfold L at 1. rewrite (valid_format l) by (apply Wl). fold L. lra.
    - apply G. apply Rle_trans with (IZR (m - 1) * S_)%R; [|exact P1]. apply Rmult_le_compat_r; [lra|]. apply IZR_le. lia. }
  destruct Q1 as [Q1 Q2]. apply rnd64_le in Q1, Q2. rewrite <- Eq in Q1, Q2. rewrite (rnd64_int (m - 1)) in Q2 by lia. change 1%R with (IZR 1) in Q1. rewrite rnd64_int in Q1 by lia.
  assert (Q0 : (0 <= q)%R) by lra. rewrite Ztrunc_floor by exact Q0. set (k := Zfloor q). assert (K1 : 1 <= k) by (apply Zfloor_lub; exact Q1). assert (K2 : m - 1 <= k) by (apply Zfloor_lub; exact Q2).
  destruct (Z.ltb_spec k 0); [lia|]. exists (Z.to_nat k). split; [reflexivity|]. rewrite Z2Nat.id by lia. split.
  { split; [exact K1|]. apply le_IZR. apply Rle_trans with q; [apply Zfloor_lb|]. rewrite Rabs_pos_eq in Bq by exact Q0. apply Rle_trans with (1 := Bq). rewrite (IZR_Zpower radix2) by lia. apply bpow_le. lia. }
  split; [exact K2|]. intros EL. fold L S_ in EL. assert (P2 : (p / S_ <= IZR (2 * m + 1) * bpow radix2 (-1))%R).
  { apply Rmult_le_reg_r with S_; [lra|]. unfold Rdiv. rewrite Rmult_assoc, Rinv_l, Rmult_1_r by lra. rewrite E, EL. change (bpow radix2 (-1)) with (/ 2)%R. rewrite plus_IZR, mult_IZR. replace (IZR m * S_ * (1 + e))%R with (IZR m * (1 + e) * S_)%R by ring. apply Rmult_le_compat_r; lra. }
  apply rnd64_le in P2. rewrite <- Eq in P2. fold q in P2.
  assert (H2 : rnd64 (IZR (2 * m + 1) * bpow radix2 (-1)) = (IZR (2 * m + 1) * bpow radix2 (-1))%R).
  { apply round_generic; auto with typeclass_instances. apply generic_format_FLT. exists (Float radix2 (2 * m + 1) (-1)); cbn [Fnum Fexp]; [reflexivity| |lia]. change (Z.pow (radix_val radix2) 53) with (2 ^ 53). lia. }
  rewrite H2 in P2. assert (X : (q < IZR (m + 1))%R). { eapply Rle_lt_trans; [exact P2|]. change (bpow radix2 (-1)) with (/ 2)%R. rewrite !plus_IZR, mult_IZR. lra. }
  assert (Y : (IZR k < IZR (m + 1))%R) by (eapply Rle_lt_trans; [apply Zfloor_lb|exact X]). apply lt_IZR in Y. lia.
Qed.

(** The first row of a segment is its start. *)
Definition frow (t : f64) (dR start : list f64) : list f64 := map (fun x => fadd (fmul t (fst x)) (snd x)) (combine dR start).
Lemma float_segment num dR start : 1 <= Z.of_nat num <= 2 ^ 900 -> length dR = length start -> (forall x, In x dR -> within 401 x) -> (forall x, In x start -> within 400 x) ->
  exists rows, segment float_arith num dR start = Ok rows /\ length rows = num /\ map f2R (nth 0 rows []) = map f2R start.
Proof.
  intros Hn Ld Hd Hs. destruct (float_int (Z.of_nat num)) as (fn & En & Wn & Vn); [lia|].
  assert (E : forall i, (i < num)%nat -> exists fi, float_of_int (Z.of_nat i) = Ok fi).
  { intros i Hi. destruct (float_int (Z.of_nat i)) as (fi & Ei & _); [lia|]. eauto. }
  set (g := fun i => match float_of_int (Z.of_nat i) with Ok fi => frow (fadd (fmul fi (fdiv (one float_arith) fn)) (zero float_arith)) dR start | Err _ => [] end).
  exists (map g (seq 0 num)). split.
  - unfold segment. apply mapM_ok. intros i Hi. apply in_seq in Hi. destruct (E i) as (fi & Ei); [lia|]. cbn [of_int float_arith]. unfold g. rewrite Ei, En. reflexivity.
  - split; [now rewrite map_length, seq_length|]. destruct num as [|num]; [cbn in Hn; lia|]. cbn [seq map nth]. unfold g. change (float_of_int (Z.of_nat 0)) with (Ok (S754_zero false)).
    assert (O : (1 <= f2R fn)%R). { rewrite Vn. apply rnd64_ge1. change 1%R with (IZR 1). apply IZR_le. lia. }
    destruct (within_div 0 0 (one float_arith) fn) as [Wd _]; [lia| |apply Wn|apply Wn|exact O|].
    { split; [reflexivity|]. split; [reflexivity|]. cbn [one float_arith f2R SF2R cond_Zopp]. unfold F2R. cbn [Fnum Fexp]. replace (IZR 4503599627370496 * bpow radix2 (-52))%R with (bpow radix2 0); [rewrite Rabs_pos_eq; [apply Rle_refl|apply bpow_ge_0]|]. change 4503599627370496 with (Z.pow (radix_val radix2) 52). rewrite IZR_Zpower by lia. rewrite <- bpow_plus. reflexivity. }
    change (0 - 0) with 0 in Wd. set (st := fdiv (one float_arith) fn) in *.
    assert (Wz : within 0 (S754_zero false)) by (split; [reflexivity|]; split; [reflexivity|]; cbn [f2R SF2R]; rewrite Rabs_R0; apply bpow_ge_0).
    destruct (within_mul 0 0 (S754_zero false) st) as [W1 E1]; [lia|exact Wz|exact Wd|]. change (f2R (S754_zero false)) with 0%R in E1. rewrite Rmult_0_l, rnd64_0 in E1.
    destruct (within_add 0 (fmul (S754_zero false) st) (zero float_arith)) as [W2 E2]; [lia|exact W1|exact Wz|]. change (f2R (zero float_arith)) with 0%R in E2. rewrite E1, Rplus_0_l, rnd64_0 in E2. change (0 + 1) with 1 in W2.
    set (t := fadd (fmul (S754_zero false) st) (zero float_arith)) in *. clearbody t. clear E1 W1. unfold frow. rewrite map_map. clear g E.
    revert start Ld Hs. induction dR as [|a dR IH]; intros [|b start] Ld Hs; try discriminate; [reflexivity|]. cbn [combine map fst snd]. f_equal; [|apply IH; [intros x Hx; apply Hd; now right|cbn in Ld; lia|intros x Hx; apply Hs; now right]].
    destruct (within_mul 1 401 t a) as [W3 E3]; [lia|exact W2|apply Hd; now left|]. rewrite E2, Rmult_0_l, rnd64_0 in E3.
    assert (Wb : within 400 b) by (apply Hs; now left). destruct (within_add 402 (fmul t a) b) as [_ E4]; [lia|exact W3|apply (within_le 400); [lia|exact Wb]|]. rewrite E4, E3, Rplus_0_l. apply valid_format; apply Wb.
Qed.
Lemma row_sub_within p q : (forall x, In x p -> within 400 x) -> (forall x, In x q -> within 400 x) -> forall x, In x (row_sub float_arith p q) -> within 401 x.
Proof.
  intros Hp Hq x Hx. unfold row_sub in Hx. apply in_map_iff in Hx as ([a b] & <- & Hab). cbn [fst snd sub float_arith]. destruct (within_sub 400 a b) as [W _]; [lia|apply Hp; eapply in_combine_l; exact Hab|apply Hq; eapply in_combine_r; exact Hab|exact W].
Qed.
Lemma row_sub_length {T} (A : arith T) p q : length p = length q -> length (row_sub A p q) = length p.
Proof. intros H. unfold row_sub. rewrite map_length, combine_length. lia. Qed.
Lemma float_minimum l : l <> [] -> (forall x, In x l -> within 804 x) -> In (minimum float_arith l) l /\ forall y, In y l -> (f2R (minimum float_arith l) <= f2R y)%R.
Proof.
  destruct l as [|x r]; [contradiction|intros _ H]. apply (minimum_spec float_arith (within 804) (fun a b => (f2R a <= f2R b)%R)); auto.
  - intros; apply Rle_refl.
  - intros a b c; apply Rle_trans.
  - intros a b (V & F & _) (V' & F' & _). cbn [less float_arith]. rewrite flt_correct by assumption. case Rlt_bool_spec; intros; [lra|discriminate].
  - intros a b (V & F & _) (V' & F' & _). cbn [less float_arith]. rewrite flt_correct by assumption. case Rlt_bool_spec; intros; [discriminate|lra].
Qed.
