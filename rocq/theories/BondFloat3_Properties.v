(** C39 in doubles: rounding to n decimals, to integers and to powers of ten. *)
From Coq Require Import List ZArith Bool Reals Lra Lia Arith Floats.SpecFloat.
From Flocq Require Import Core.Raux Core.Zaux Core.Defs Core.Generic_fmt Core.Round_NE IEEE754.BinarySingleNaN.
From Verif Require Import Py Float64_Model Float64_Proofs PandC_Proofs State_Model State_Spec State_Proofs Bond_Model Bond_Spec Bond_Proofs
  KPath_Model KPathFloat_Proofs KPathRound_Proofs BondFloat_Model BondFloat_Properties.
Import ListNotations.
Local Open Scope R_scope.

Lemma nearest_even m d : (0 < d)%Z -> let q := (m / d)%Z in let r := (m mod d)%Z in
  ZnearestE (IZR m / IZR d) = (if 2 * r <? d then q else if d <? 2 * r then q + 1 else if Z.even q then q else q + 1)%Z.
Proof.
  intros hd q r. pose proof (Z.div_mod m d ltac:(lia)) as E. pose proof (Z.mod_pos_bound m d hd) as B. fold q r in E, B. assert (D : 0 < IZR d) by (apply IZR_lt; lia).
  assert (X : IZR m / IZR d = IZR q + IZR r / IZR d). { rewrite E, plus_IZR, mult_IZR. field. lra. }
  assert (Fl : Zfloor (IZR m / IZR d) = q) by (apply Zfloor_div; lia).
  assert (F1 : 0 <= IZR r / IZR d < 1).
  { destruct B as [B1 B2]. apply IZR_le in B1. apply IZR_lt in B2. split; [apply Rmult_le_pos; [lra|left; apply Rinv_0_lt_compat; lra]|]. apply (Rmult_lt_reg_r (IZR d)); [lra|]. unfold Rdiv. rewrite Rmult_assoc, Rinv_l by lra. lra. }
  unfold Znearest. rewrite Fl. replace (IZR m / IZR d - IZR q) with (IZR r / IZR d) by lra.
  assert (C : forall c, 0 < IZR r / IZR d -> Zceil (IZR m / IZR d) = c -> c = (q + 1)%Z).
  { intros c P <-. rewrite Zceil_floor_neq; rewrite Fl; [reflexivity|]. rewrite X. lra. }
  destruct (Rcompare_spec (IZR r / IZR d) (/ 2)) as [H|H|H].
  - assert (H2 : (2 * r < d)%Z). { apply lt_IZR. rewrite mult_IZR. apply (Rmult_lt_compat_r (IZR d)) in H; [|lra]. unfold Rdiv in H. rewrite Rmult_assoc, Rinv_l in H by lra. lra. }
    rewrite (proj2 (Z.ltb_lt _ _) H2). reflexivity.
  - assert (H2 : (2 * r = d)%Z). { apply eq_IZR. rewrite mult_IZR. apply (f_equal (fun t => t * IZR d)) in H. unfold Rdiv in H. rewrite Rmult_assoc, Rinv_l in H by lra. lra. }
    rewrite H2, Z.ltb_irrefl. destruct (Z.even q); [reflexivity|]. cbn [negb]. apply C; [lra|reflexivity].
  - assert (H2 : (d < 2 * r)%Z). { apply lt_IZR. rewrite mult_IZR. apply (Rmult_lt_compat_r (IZR d)) in H; [|lra]. unfold Rdiv in H. rewrite Rmult_assoc, Rinv_l in H by lra. lra. }
    rewrite (proj2 (Z.ltb_ge _ _)) by lia. rewrite (proj2 (Z.ltb_lt _ _) H2). apply C; [lra|reflexivity].
Qed.
Lemma nearest_opp x : ZnearestE (- x) = (- ZnearestE x)%Z.
Proof.
  rewrite Znearest_opp. f_equal. unfold Znearest. destruct (Rcompare _ _); try reflexivity. rewrite Z.even_opp, Z.even_add. cbn [Z.even]. destruct (Z.even (Zfloor x)); reflexivity.
Qed.
Lemma nearest_Z z : ZnearestE (IZR z) = z. Proof. apply Zrnd_IZR; apply valid_rnd_N. Qed.
Lemma frint_value f : fvalid f = true -> ffinite f = true ->
  f2R (frint f) = IZR (ZnearestE (f2R f)) /\ fvalid (frint f) = true /\ ffinite (frint f) = true /\ forall k, (53 <= k)%Z -> within k f -> within k (frint f).
Proof.
  intros V F. destruct f as [s|s| |s m e]; try discriminate.
  { cbn [frint f2R SF2R]. split; [now rewrite (nearest_Z 0)|]. repeat split; apply H0. }
  cbn [frint]. destruct (Z.leb_spec 0 e) as [He|He].
  - assert (E : f2R (S754_finite s m e) = IZR (cond_Zopp s (Z.pos m) * 2 ^ e)). { cbn [f2R SF2R]. unfold F2R. cbn [Fnum Fexp]. rewrite mult_IZR. f_equal. symmetry. change 2%Z with (radix_val radix2). now apply IZR_Zpower. }
    rewrite E, nearest_Z. repeat split; auto; apply H0.
  - set (d := (2 ^ - e)%Z). assert (hd : (0 < d)%Z) by (apply Z.pow_pos_nonneg; lia). pose proof (nearest_even (Zpos m) d hd) as N. cbv zeta in N |- *. match type of N with _ = ?kk => set (k := kk) in * end.
    assert (E : f2R (S754_finite s m e) = IZR (cond_Zopp s (Zpos m)) / IZR d). { cbn [f2R SF2R]. unfold F2R, Rdiv. cbn [Fnum Fexp]. f_equal. unfold d. change 2%Z with (radix_val radix2). rewrite IZR_Zpower by lia. rewrite bpow_opp, Rinv_inv. reflexivity. }
    assert (N' : ZnearestE (f2R (S754_finite s m e)) = cond_Zopp s k).
    { rewrite E. destruct s; cbn [cond_Zopp]; [|exact N]. rewrite opp_IZR. unfold Rdiv. rewrite Ropp_mult_distr_l_reverse. fold (IZR (Z.pos m) / IZR d). now rewrite nearest_opp, N. }
    rewrite N'. set (j := cond_Zopp s k) in *.
    assert (Bm : (Zpos m < 2 ^ 53)%Z). { change (SpecFloat.bounded prec64 emax64 m e = true) in V. unfold SpecFloat.bounded in V. apply andb_true_iff in V as [V _]. unfold SpecFloat.canonical_mantissa in V. apply Zeq_bool_eq in V. rewrite Digits.Zpos_digits2_pos in V. change (Z.max (Digits.Zdigits radix2 (Z.pos m) + e - 53) (-1074) = e) in V. apply (Digits.Zpower_gt_Zdigits radix2 53 (Z.pos m)). lia. }
    assert (Bj : (Z.abs j <= 2 ^ 53)%Z).
    { replace (Z.abs j) with (Z.abs k) by (unfold j; destruct s; cbn [cond_Zopp]; lia). rewrite <- N. assert (G : (0 <= ZnearestE (IZR (Z.pos m) / IZR d) <= Z.pos m)%Z); [|lia]. split.
      - rewrite <- (nearest_Z 0). apply Zrnd_le; [apply valid_rnd_N|]. apply Rmult_le_pos; [apply IZR_le; lia|left; apply Rinv_0_lt_compat, IZR_lt; lia].
      - rewrite <- (nearest_Z (Z.pos m)) at 2. apply Zrnd_le; [apply valid_rnd_N|]. apply (Rmult_le_reg_r (IZR d)); [apply IZR_lt; lia|]. unfold Rdiv. rewrite Rmult_assoc, Rinv_l by (apply not_0_IZR; lia). rewrite Rmult_1_r, <- mult_IZR. apply IZR_le. nia. }
    assert (G : f2R (SpecFloat.binary_normalize prec64 emax64 j 0 s) = IZR j /\ ffinite (SpecFloat.binary_normalize prec64 emax64 j 0 s) = true /\ fvalid (SpecFloat.binary_normalize prec64 emax64 j 0 s) = true).
    { destruct (Z.eq_dec j 0) as [->|Nj]; [repeat split; reflexivity|]. replace (SpecFloat.binary_normalize prec64 emax64 j 0 s) with (SpecFloat.binary_normalize prec64 emax64 j 0 false) by (destruct j; [contradiction|reflexivity|reflexivity]).
      assert (E0 : F2R (Float radix2 j 0) = IZR j) by (unfold F2R; cbn [Fnum Fexp]; change (bpow radix2 0) with 1; ring). destruct (normalize_correct j 0) as (G1 & G2 & G3); [rewrite E0; now apply rnd64_fix|]. rewrite E0, rnd64_int in G1 by exact Bj. auto. }
    destruct G as (G1 & G2 & G3). split; [exact G1|]. split; [exact G3|]. split; [exact G2|]. intros l Hl _. split; [exact G3|]. split; [exact G2|]. rewrite G1, <- abs_IZR.
    apply Rle_trans with (bpow radix2 53); [|apply bpow_le; exact Hl]. rewrite <- (IZR_Zpower radix2) by lia. apply IZR_le. exact Bj.
Qed.

(** np.around on doubles: with n = 0 the nearest integer (the even one of two, whatever
    the sign); with n decimals, or to a multiple of 10^n, one rounding of the scaled
    number, the nearest integer to it, one rounding back.  A number above 2^53 is an
    integer already. *)
Theorem C39_around : forall x n, fvalid x = true -> ffinite x = true ->
  f2R (faround None x) = f2R x /\
  f2R (faround (Some 0%Z) x) = IZR (ZnearestE (f2R x)) /\
  ((1 <= n <= 22)%Z -> Rabs (f2R x) <= IZR (2 ^ 800) ->
     f2R (faround (Some n) x) = to_double (IZR (ZnearestE (to_double (f2R x * IZR (10 ^ n)))) / IZR (10 ^ n)) /\
     f2R (faround (Some (- n)%Z) x) = to_double (IZR (ZnearestE (to_double (f2R x / IZR (10 ^ n)))) * IZR (10 ^ n))).
Proof.
  intros x n V F. split; [reflexivity|]. split; [apply frint_value; assumption|]. intros Hn B. assert (W : within 800 x). { split; [exact V|]. split; [exact F|]. apply Rle_trans with (1 := B). right. rewrite <- (IZR_Zpower radix2) by lia. reflexivity. }
  destruct (power_exact n ltac:(lia)) as (_ & Wp & Ep). assert (G1 : 1 <= f2R (power_of_ten n)) by (rewrite Ep; apply IZR_le; assert (0 < 10 ^ n)%Z by (apply Z.pow_pos_nonneg; lia); lia).
  unfold faround. rewrite (proj2 (Z.eqb_neq n 0)) by lia. rewrite (proj2 (Z.eqb_neq (- n) 0)) by lia. rewrite (proj2 (Z.ltb_lt 0 n)) by lia. rewrite (proj2 (Z.ltb_ge 0 (- n))) by lia. rewrite Z.opp_involutive. rewrite !to_double_rnd. split.
  - destruct (within_mul 800 74 x _ ltac:(lia) W Wp) as [Wm Em]. destruct (frint_value _ (proj1 Wm) (proj1 (proj2 Wm))) as (Ei & Vi & Fi & Wi). specialize (Wi (800 + 74)%Z ltac:(lia) Wm).
    destruct (within_div (800 + 74) 0 _ _ ltac:(lia) Wi (proj1 Wp) (proj1 (proj2 Wp))) as [_ ->]; [change (bpow radix2 0) with 1; exact G1|]. rewrite Ei, Em, Ep. reflexivity.
  - destruct (within_div 800 0 x _ ltac:(lia) W (proj1 Wp) (proj1 (proj2 Wp))) as [Wm Em]; [change (bpow radix2 0) with 1; exact G1|]. destruct (frint_value _ (proj1 Wm) (proj1 (proj2 Wm))) as (Ei & Vi & Fi & Wi). specialize (Wi (800 - 0)%Z ltac:(lia) Wm).
    destruct (within_mul (800 - 0) 74 _ _ ltac:(lia) Wi Wp) as [_ ->]. rewrite Ei, Em, Ep. reflexivity.
Qed.
Print Assumptions C39_around.
(** 2.5, -2.5 and 3.5 as integers; 1250 to hundreds. *)
Example around_case : forall e, e = (-51)%Z ->
  faround (Some 0%Z) (S754_finite false 5629499534213120 e) = S754_finite false 4503599627370496 e /\
  faround (Some 0%Z) (S754_finite true 5629499534213120 e) = S754_finite true 4503599627370496 e /\
  faround (Some 0%Z) (S754_finite false 7881299347898368 e) = S754_finite false 4503599627370496 (-50) /\
  faround (Some (-2)%Z) (flt_of 1250) = flt_of 1200 /\ fgetLength (MkBond (AI [0%Z]) (AI [1250%Z]) false ([], [], false)) (Some (-2)%Z) = flt_of 1200.
Proof. intros e ->. repeat split; vm_compute; reflexivity. Qed.
