(** Cells of the coordinate grid, with the exact rounding margin. *)
From Coq Require Import List ZArith Reals Bool String Lia Lra Psatz.
From Flocq Require Import Core.Core IEEE754.BinarySingleNaN Relative.
From Verif Require Import Py Float64_Model Float64_Proofs State_Model State_Spec State_Proofs.
Import ListNotations.
Open Scope Z_scope.

#[local] Instance prec53 : Prec_gt_0 53. Proof. reflexivity. Qed.
#[local] Instance vexp53 : Valid_exp (FLT_exp (-1074) 53). Proof. apply FLT_exp_valid. exact prec53. Qed.

Lemma pow10_lt p : 0 <= p <= 22 -> 5 ^ p < 2 ^ 53.
Proof.
  intros H. apply Z.le_lt_trans with (5 ^ 22); [apply Z.pow_le_mono_r; lia|vm_compute; reflexivity].
Qed.

Lemma rnd64_pow10 p : 0 <= p <= 22 -> rnd64 (IZR (10 ^ p)) = IZR (10 ^ p).
Proof.
  intros H. apply round_generic; auto with typeclass_instances. apply generic_format_FLT.
  exists (Float radix2 (5 ^ p) p); cbn [Fnum Fexp].
  - unfold F2R; cbn [Fnum Fexp]. rewrite <- IZR_Zpower by lia. rewrite <- mult_IZR. f_equal.
    change (10 ^ p) with ((5 * 2) ^ p). apply Z.pow_mul_l.
  - rewrite Z.abs_eq by (apply Z.pow_nonneg; lia). apply pow10_lt; auto.
  - lia.
Qed.

(** A multiple of the smallest double rounds with a relative error only. *)
Lemma rnd64_rel_multiple n : 
  (Rabs (rnd64 (IZR n * bpow radix2 (-1074)) - IZR n * bpow radix2 (-1074))
   <= bpow radix2 (-53) * Rabs (IZR n * bpow radix2 (-1074)))%R.
Proof.
  destruct (Z_lt_le_dec (Z.abs n) (2 ^ 53)) as [H|H].
  - assert (E : rnd64 (IZR n * bpow radix2 (-1074)) = (IZR n * bpow radix2 (-1074))%R).
    { apply round_generic; auto with typeclass_instances. apply generic_format_FLT.
      exists (Float radix2 n (-1074)); cbn [Fnum Fexp]; [reflexivity|exact H|lia]. }
    rewrite E, Rminus_diag_eq, Rabs_R0 by reflexivity.
    apply Rmult_le_pos; [apply bpow_ge_0|apply Rabs_pos].
  - pose proof (relative_error_N_FLT radix2 (-1074) 53 eq_refl (fun z => negb (Z.even z))
                  (IZR n * bpow radix2 (-1074))) as E.
    replace (bpow radix2 (-53)) with (/ 2 * bpow radix2 (-53 + 1))%R
      by (change (/ 2)%R with (bpow radix2 (-1)); rewrite <- bpow_plus; reflexivity).
    apply E. rewrite Rabs_mult, (Rabs_pos_eq (bpow _ _)) by apply bpow_ge_0.
    replace (bpow radix2 (-1074 + 53 - 1)) with (bpow radix2 52 * bpow radix2 (-1074))%R
      by (rewrite <- bpow_plus; reflexivity).
    apply Rmult_le_compat_r; [apply bpow_ge_0|]. rewrite <- abs_IZR.
    change (bpow radix2 52) with (IZR (2 ^ 52)). apply IZR_le. lia.
Qed.

Lemma f2R_multiple f : fvalid f = true -> ffinite f = true ->
  exists n, f2R f = (IZR n * bpow radix2 (-1074))%R.
Proof.
  intros V F. pose proof (valid_format f V F) as E.
  assert (G : generic_format radix2 (FLT_exp (-1074) 53) (f2R f)).
  { rewrite <- E. apply generic_format_round; auto with typeclass_instances. }
  apply FLT_format_generic in G; [|exact prec53]. destruct G as [[m e] G1 G2 G3]. cbn [Fnum Fexp] in *.
  exists (m * 2 ^ (e + 1074)). rewrite G1. unfold F2R; cbn [Fnum Fexp].
  rewrite mult_IZR. change (2 ^ (e + 1074)) with (Zpower radix2 (e + 1074)).
  rewrite IZR_Zpower by lia. rewrite Rmult_assoc, <- bpow_plus. do 2 f_equal. lia.
Qed.

Lemma product_rel p f : 0 <= p -> fvalid f = true -> ffinite f = true ->
  (Rabs (rnd64 (IZR (10 ^ p) * f2R f) - IZR (10 ^ p) * f2R f)
   <= bpow radix2 (-53) * Rabs (IZR (10 ^ p) * f2R f))%R.
Proof.
  intros Hp V F. destruct (f2R_multiple f V F) as (n & ->).
  rewrite <- Rmult_assoc, <- mult_IZR. apply rnd64_rel_multiple.
Qed.

Lemma finite_valid f : finite_coord (NFlt f) -> fvalid f = true /\ ffinite f = true.
Proof. destruct f; cbn; intuition. Qed.

(** What the quantisation of a finite double is, in every case. *)
Lemma quantise_float p f : 0 <= p <= 22 -> finite_coord (NFlt f) ->
  let y := rnd64 (IZR (10 ^ p) * coord_value (NFlt f)) in
  ((Rabs y < bpow radix2 1024)%R /\ quantise (10 ^ p) (NFlt f) = Ok (Ztrunc y)) \/
  ((bpow radix2 1024 <= Rabs y)%R /\ quantise (10 ^ p) (NFlt f) = Err OverflowError).
Proof.
  intros Hp Hc y. unfold y. rewrite coord_value_f2R.
  destruct (finite_valid _ Hc) as [V F].
  destruct (float_of_int_correct (10 ^ p)) as (zf & E & Ez & Fz & Vz).
  { rewrite rnd64_pow10 by auto. rewrite Rabs_pos_eq by (apply IZR_le; apply Z.pow_nonneg; lia).
    apply Rlt_le_trans with (IZR (2 ^ 74)).
    - apply IZR_lt. apply Z.le_lt_trans with (10 ^ 22); [apply Z.pow_le_mono_r; lia|vm_compute; reflexivity].
    - change (2 ^ 74) with (Zpower radix2 74). rewrite IZR_Zpower by lia. apply bpow_le. lia. }
  rewrite rnd64_pow10 in Ez by auto.
  unfold quantise. rewrite E.
  destruct (Rlt_or_le (Rabs (rnd64 (IZR (10 ^ p) * f2R f))) (bpow radix2 1024)) as [H|H].
  - left. split; auto. destruct (fmul_correct zf f Vz V Fz F) as (Em & Fm & Vm).
    { rewrite Ez. exact H. }
    rewrite (int_of_float_correct _ Fm), Em, Ez. reflexivity.
  - right. split; auto. destruct (fmul_overflow zf f Vz V Fz F) as (s & ->).
    { rewrite Ez. exact H. }
    reflexivity.
Qed.

Lemma Ztrunc_cell y : (0 <= y -> IZR (Ztrunc y) <= y < IZR (Ztrunc y) + 1)%R /\
  (y <= 0 -> IZR (Ztrunc y) - 1 < y <= IZR (Ztrunc y))%R.
Proof.
  split; intros H.
  - rewrite Ztrunc_floor by auto. pose proof (Zfloor_lb y). pose proof (Zfloor_ub y). lra.
  - rewrite Ztrunc_ceil by auto. pose proof (Zceil_ub y). pose proof (Zceil_lb y). lra.
Qed.

Lemma quantise_cell p c q : 0 <= p <= 22 -> finite_coord c -> quantise (10 ^ p) c = Ok q ->
  let s := (IZR (10 ^ p) * coord_value c)%R in
  exists y, (Rabs (y - s) <= bpow radix2 (-53) * Rabs s)%R /\
    ((0 <= y /\ IZR q <= y < IZR q + 1)%R \/ (y <= 0 /\ IZR q - 1 < y <= IZR q)%R).
Proof.
  intros Hp Hc Q s. destruct c as [z|f|]; [| |destruct Hc].
  - injection Q as <-. exists s. unfold s. cbn [coord_value]. rewrite <- mult_IZR. split.
    + rewrite Rminus_diag_eq, Rabs_R0 by reflexivity. apply Rmult_le_pos; [apply bpow_ge_0|apply Rabs_pos].
    + destruct (Rle_or_lt 0 (IZR (10 ^ p * z))); [left|right]; lra.
  - destruct (quantise_float p f Hp Hc) as [[_ E]|[_ E]]; rewrite E in Q; [|discriminate].
    injection Q as <-. exists (rnd64 s). split.
    + unfold s. rewrite coord_value_f2R. destruct (finite_valid _ Hc). apply product_rel; auto. lia.
    + destruct (Ztrunc_cell (rnd64 s)) as [A B].
      destruct (Rle_or_lt 0 (rnd64 s)) as [H|H]; [left|right].
      * split; [exact H|apply A; exact H].
      * assert (H' : (rnd64 s <= 0)%R) by lra. split; [exact H'|apply B; exact H'].
Qed.

Definition u : R := bpow radix2 (-53).
Lemma u_bounds : (0 < u < / 1000)%R.
Proof.
  unfold u. split; [apply bpow_gt_0|]. change (bpow radix2 (-53)) with (/ IZR (2 ^ 53))%R.
  apply Rinv_lt_contravar; [|apply IZR_lt; vm_compute; reflexivity].
  apply Rmult_lt_0_compat; [lra|apply IZR_lt; vm_compute; reflexivity].
Qed.

(** The value behind [q] keeps the sign and stays within the relative margin. *)
Lemma margin s y : (Rabs (y - s) <= u * Rabs s)%R ->
  (0 <= s -> s * (1 - u) <= y <= s * (1 + u))%R /\ (s <= 0 -> s * (1 + u) <= y <= s * (1 - u))%R.
Proof.
  intros H. apply Rabs_le_inv in H. split; intros Hs.
  - rewrite Rabs_pos_eq in H by auto. lra.
  - rewrite Rabs_left1 in H by auto. lra.
Qed.

Lemma quantise_cell_unique p c q k : 0 <= p <= 22 -> finite_coord c -> quantise (10 ^ p) c = Ok q ->
  let s := (IZR (10 ^ p) * coord_value c)%R in
  (0 <= k /\ (IZR k <= s * (1 - u) /\ s * (1 + u) < IZR k + 1)%R) \/
  (k <= 0 /\ (IZR k - 1 < s * (1 + u) /\ s * (1 - u) <= IZR k)%R) \/
  (k = 0 /\ (Rabs s * (1 + u) < 1)%R) -> q = k.
Proof.
  intros Hp Hc Q s H. destruct (quantise_cell p c q Hp Hc Q) as (y & Hy & Hq). fold s in Hy.
  destruct (margin s y Hy) as [Mp Mn]. pose proof u_bounds as U.
  assert (Hk : 0 <= k -> (0 <= IZR k)%R) by (intros; now apply IZR_le).
  assert (Hk' : k <= 0 -> (IZR k <= 0)%R) by (intros; now apply (IZR_le k 0)).
  assert (D : (IZR q < IZR (k + 1))%R /\ (IZR (k - 1) < IZR q)%R).
  { rewrite plus_IZR, minus_IZR.
    destruct H as [(H0 & H1 & H2)|[(H0 & H1 & H2)|(H0 & H1)]].
    - specialize (Hk H0). assert (Hs : (0 <= s)%R) by nra. specialize (Mp Hs).
      destruct Hq as [[? ?]|[? ?]]; split; nra.
    - specialize (Hk' H0). assert (Hs : (s <= 0)%R) by nra. specialize (Mn Hs).
      destruct Hq as [[? ?]|[? ?]]; split; nra.
    - subst k. destruct (Rle_or_lt 0 s) as [Hs|Hs].
      + rewrite Rabs_pos_eq in H1 by auto. specialize (Mp Hs). destruct Hq as [[? ?]|[? ?]]; split; nra.
      + rewrite Rabs_left in H1 by auto. assert (Hs' : (s <= 0)%R) by lra. specialize (Mn Hs').
        destruct Hq as [[? ?]|[? ?]]; split; nra. }
  destruct D as [D1 D2]. apply lt_IZR in D1. apply lt_IZR in D2. lia.
Qed.

(** Tight separation: one grid step plus the rounding margin, on one side of 0. *)
Lemma quantise_separates_tight p a b qa qb :
  0 <= p <= 22 -> finite_coord a -> finite_coord b ->
  quantise (10 ^ p) a = Ok qa -> quantise (10 ^ p) b = Ok qb ->
  let sa := (IZR (10 ^ p) * coord_value a)%R in let sb := (IZR (10 ^ p) * coord_value b)%R in
  ((0 <= sa /\ sa + 1 + u * (sa + sb) <= sb) \/
   (sb <= 0 /\ sa + 1 - u * (sa + sb) <= sb) \/
   (sa <= 0 <= sb /\ sa + 2 + u * (sb - sa) <= sb))%R -> qa < qb.
Proof.
  intros Hp Ha Hb Qa Qb sa sb H.
  destruct (quantise_cell p a qa Hp Ha Qa) as (ya & Hya & Ca). fold sa in Hya.
  destruct (quantise_cell p b qb Hp Hb Qb) as (yb & Hyb & Cb). fold sb in Hyb.
  destruct (margin _ _ Hya) as [Ap An]. destruct (margin _ _ Hyb) as [Bp Bn]. pose proof u_bounds as U.
  destruct H as [[H1 H2]|[[H1 H2]|[H1 H2]]].
  - assert (Hsb : (0 <= sb)%R) by nra. specialize (Ap H1). specialize (Bp Hsb).
    assert (Y : (ya + 1 <= yb)%R) by nra. assert (0 <= ya)%R by nra.
    assert (L : (IZR qa <= ya)%R) by (destruct Ca as [[? ?]|[? ?]]; [lra|]; assert (ya = 0)%R by lra;
      assert (IZR qa < 1)%R by lra; assert (qa < 1) by (apply lt_IZR; lra);
      assert (Hq : (IZR qa <= 0)%R) by (apply (IZR_le qa 0); lia); lra).
    assert (yb < IZR qb + 1)%R by (destruct Cb as [[? ?]|[? ?]]; lra).
    apply lt_IZR. lra.
  - assert (Hsa : (sa <= 0)%R) by nra. specialize (An Hsa). specialize (Bn H1).
    assert (Y : (ya + 1 <= yb)%R) by nra. assert (yb <= 0)%R by nra.
    assert (L : (yb <= IZR qb)%R) by (destruct Cb as [[? ?]|[? ?]]; [|lra]; assert (yb = 0)%R by lra;
      assert (-1 < IZR qb)%R by lra; assert (-1 < qb) by (apply lt_IZR; lra);
      assert (Hq : (0 <= IZR qb)%R) by (apply (IZR_le 0 qb); lia); lra).
    assert (IZR qa - 1 < ya)%R by (destruct Ca as [[? ?]|[? ?]]; lra).
    apply lt_IZR. lra.
  - destruct H1 as [H1 H1']. specialize (An H1). specialize (Bp H1').
    assert (Y : (ya + 2 <= yb)%R) by nra.
    assert (IZR qa - 1 < ya)%R by (destruct Ca as [[? ?]|[? ?]]; lra).
    assert (yb < IZR qb + 1)%R by (destruct Cb as [[? ?]|[? ?]]; lra).
    apply lt_IZR. lra.
Qed.

(** Precisions beyond 22: 10^p itself is rounded, so the margin doubles. *)
Lemma float_of_int_total z :
  (exists f, float_of_int z = Ok f) \/ float_of_int z = Err OverflowError.
Proof. unfold float_of_int. destruct (SpecFloat.binary_normalize _ _ _ _ _); eauto. Qed.

Lemma rnd64_rel_int z : (Rabs (rnd64 (IZR z) - IZR z) <= u * Rabs (IZR z))%R.
Proof.
  pose proof (rnd64_rel_multiple (z * 2 ^ 1074)) as H.
  assert (E : (IZR (z * 2 ^ 1074) * bpow radix2 (-1074) = IZR z)%R).
  { rewrite mult_IZR. change (2 ^ 1074) with (Zpower radix2 1074). rewrite IZR_Zpower by lia.
    rewrite Rmult_assoc, <- bpow_plus. replace (1074 + -1074) with 0 by reflexivity. cbn [bpow]. ring. }
  rewrite E in H. exact H.
Qed.

Lemma rnd64_of_int z : exists m, rnd64 (IZR z) = IZR m.
Proof.
  unfold rnd64. exists (Ztrunc (round radix2 (FLT_exp (-1074) 53) ZnearestE (IZR z))).
  destruct (Z.eq_dec z 0) as [->|Hz].
  - rewrite round_0 by auto with typeclass_instances. rewrite Ztrunc_IZR. reflexivity.
  - destruct (Z_le_gt_dec (Z.abs z) (2 ^ 53)) as [H|H].
    + pose proof (rnd64_int z H) as E. unfold rnd64 in E. rewrite E, Ztrunc_IZR. reflexivity.
    + unfold round at 1, F2R. cbn [Fnum Fexp].
      set (e := cexp radix2 (FLT_exp (-1074) 53) (IZR z)). set (m := ZnearestE _).
      assert (He : 0 <= e).
      { unfold e, cexp, FLT_exp. assert (53 < mag radix2 (IZR z)); [|lia].
        apply mag_gt_bpow. rewrite <- abs_IZR. change (bpow radix2 53) with (IZR (2 ^ 53)).
        apply IZR_le. lia. }
      assert (E : round radix2 (FLT_exp (-1074) 53) ZnearestE (IZR z) = IZR (m * Zpower radix2 e)).
      { unfold round, F2R. cbn [Fnum Fexp]. fold e m. rewrite mult_IZR, IZR_Zpower by auto. reflexivity. }
      rewrite E, Ztrunc_IZR, mult_IZR, IZR_Zpower by auto. reflexivity.
Qed.

Lemma quantise_cell_any zoom c q : 0 < zoom -> finite_coord c -> quantise zoom c = Ok q ->
  let s := (IZR zoom * coord_value c)%R in
  exists y, (Rabs (y - s) <= (2 * u + u * u) * Rabs s)%R /\
    ((0 <= y /\ IZR q <= y < IZR q + 1)%R \/ (y <= 0 /\ IZR q - 1 < y <= IZR q)%R).
Proof.
  intros Hz Hc Q s. pose proof u_bounds as U. destruct c as [z|f|]; [| |destruct Hc].
  - injection Q as <-. exists s. unfold s. cbn [coord_value]. rewrite <- mult_IZR. split.
    + rewrite Rminus_diag_eq, Rabs_R0 by reflexivity. apply Rmult_le_pos; [nra|apply Rabs_pos].
    + destruct (Rle_or_lt 0 (IZR (zoom * z))); [left|right]; lra.
  - destruct (finite_valid _ Hc) as [V F]. unfold quantise in Q.
    destruct (Rlt_or_le (Rabs (rnd64 (IZR zoom))) (bpow radix2 1024)) as [Hb|Hb].
    2:{ exfalso. unfold float_of_int, SpecFloat.binary_normalize in Q. destruct zoom as [|z|z]; try lia.
        rewrite bro_equiv in Q.
        pose proof (binary_round_correct prec64 emax64 eq_refl eq_refl mode_NE false z 0) as [Hv H].
        cbn [cond_Zopp] in H. unfold F2R in H; cbn [Fnum Fexp] in H.
        change (bpow radix2 0) with 1%R in H. rewrite Rmult_1_r in H.
        rewrite Rlt_bool_false in H by exact Hb. 
        destruct (binary_round prec64 emax64 mode_NE false z 0); try discriminate. }
    destruct (float_of_int_correct zoom Hb) as (zf & E & Ez & Fz & Vz). rewrite E in Q.
    destruct (rnd64_of_int zoom) as (m & Em). rewrite Em in Ez.
    destruct (Rlt_or_le (Rabs (rnd64 (IZR m * f2R f))) (bpow radix2 1024)) as [H|H].
    2:{ exfalso. destruct (fmul_overflow zf f Vz V Fz F) as (sg & G); [rewrite Ez; exact H|].
        rewrite G in Q. discriminate. }
    destruct (fmul_correct zf f Vz V Fz F) as (Ef & Fm & Vm); [rewrite Ez; exact H|].
    rewrite (int_of_float_correct _ Fm), Ef, Ez in Q. injection Q as <-.
    exists (rnd64 (IZR m * f2R f)). split.
    + unfold s. rewrite coord_value_f2R.
      assert (R1 : (Rabs (rnd64 (IZR m * f2R f) - IZR m * f2R f) <= u * Rabs (IZR m * f2R f))%R).
      { destruct (f2R_multiple f V F) as (n & ->). rewrite <- Rmult_assoc, <- mult_IZR. apply rnd64_rel_multiple. }
      pose proof (rnd64_rel_int zoom) as R2. rewrite Em in R2.
      assert (R3 : (Rabs (IZR m * f2R f - IZR zoom * f2R f) <= u * Rabs (IZR zoom * f2R f))%R).
      { replace (IZR m * f2R f - IZR zoom * f2R f)%R with ((IZR m - IZR zoom) * f2R f)%R by ring.
        rewrite !Rabs_mult, <- Rmult_assoc. apply Rmult_le_compat_r; [apply Rabs_pos|exact R2]. }
      pose proof (Rabs_triang (rnd64 (IZR m * f2R f) - IZR m * f2R f) (IZR m * f2R f - IZR zoom * f2R f)) as T.
      replace (rnd64 (IZR m * f2R f) - IZR m * f2R f + (IZR m * f2R f - IZR zoom * f2R f))%R
        with (rnd64 (IZR m * f2R f) - IZR zoom * f2R f)%R in T by ring.
      pose proof (Rabs_triang (IZR m * f2R f - IZR zoom * f2R f) (IZR zoom * f2R f)) as T2.
      replace (IZR m * f2R f - IZR zoom * f2R f + IZR zoom * f2R f)%R with (IZR m * f2R f)%R in T2 by ring.
      assert (R4 : (u * Rabs (IZR m * f2R f) <= u * ((1 + u) * Rabs (IZR zoom * f2R f)))%R)
        by (apply Rmult_le_compat_l; lra).
      lra.
    + destruct (Ztrunc_cell (rnd64 (IZR m * f2R f))) as [A B].
      destruct (Rle_or_lt 0 (rnd64 (IZR m * f2R f))) as [G|G]; [left|right].
      * split; [exact G|apply A; exact G].
      * assert (G' : (rnd64 (IZR m * f2R f) <= 0)%R) by lra. split; [exact G'|apply B; exact G'].
Qed.
