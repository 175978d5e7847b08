(** The binary64 operations are correctly rounded (via Flocq). *)
From Coq Require Import ZArith Reals Floats.SpecFloat Bool Lia Lra Psatz.
From Flocq Require Import Core.Core IEEE754.BinarySingleNaN.
From Verif Require Import Py Float64_Model.
Open Scope Z_scope.

#[local] Instance Hprec64 : Prec_gt_0 prec64. Proof. reflexivity. Qed.
#[local] Instance Hmax64 : Prec_lt_emax prec64 emax64. Proof. reflexivity. Qed.

(** The real number a float denotes (0 for infinities and nan). *)
Definition f2R (f : f64) : R := SF2R radix2 f.
Definition ffinite (f : f64) : bool := is_finite_SF f.
(** Rounding to nearest even on binary64's (unbounded-exponent-above) grid. *)
Definition rnd64 (x : R) : R := round radix2 (FLT_exp (-1074) 53) ZnearestE x.

Lemma fexp64_FLT : SpecFloat.fexp prec64 emax64 = FLT_exp (-1074) 53.
Proof. reflexivity. Qed.

Lemma round_nearest_even_eq s m l :
  SpecFloat.round_nearest_even m l = choice_mode mode_NE s m l.
Proof. destruct l as [|[]]; try reflexivity. cbn. destruct (Z.even m); reflexivity. Qed.

Lemma bra_equiv sx mx ex lx :
  SpecFloat.binary_round_aux prec64 emax64 sx mx ex lx
  = binary_round_aux prec64 emax64 mode_NE sx mx ex lx.
Proof.
  unfold SpecFloat.binary_round_aux, binary_round_aux.
  destruct (shr_fexp _ _ _) as [mrs' e'].
  now rewrite (round_nearest_even_eq sx).
Qed.

Lemma bro_equiv s m e :
  SpecFloat.binary_round prec64 emax64 s m e = binary_round prec64 emax64 mode_NE s m e.
Proof.
  unfold SpecFloat.binary_round, binary_round, shl_align_fexp.
  destruct (shl_align _ _ _) as [mz ez]. apply bra_equiv.
Qed.

Lemma rnd64_0 : rnd64 0 = 0%R.
Proof. apply round_0. auto with typeclass_instances. Qed.

Lemma rnd64_le x y : (x <= y)%R -> (rnd64 x <= rnd64 y)%R.
Proof. apply round_le; auto with typeclass_instances. Qed.

(** Multiplication. *)
Lemma fmul_correct x y :
  fvalid x = true -> fvalid y = true -> ffinite x = true -> ffinite y = true ->
  (Rabs (rnd64 (f2R x * f2R y)) < bpow radix2 1024)%R ->
  f2R (fmul x y) = rnd64 (f2R x * f2R y) /\ ffinite (fmul x y) = true /\ fvalid (fmul x y) = true.
Proof.
  intros Vx Vy Fx Fy Hb.
  destruct x as [sx|sx| |sx mx ex]; try discriminate;
  destruct y as [sy|sy| |sy my ey]; try discriminate; cbn [fmul SFmul f2R SF2R];
    try (rewrite ?Rmult_0_l, ?Rmult_0_r, rnd64_0; repeat split; reflexivity).
  unfold fmul, SFmul. rewrite bra_equiv.
  pose proof (Bmult_correct_aux prec64 emax64 _ _ mode_NE sx mx ex Vx sy my ey Vy) as [Hv H].
  cbv zeta in Hv, H.
  rewrite Rlt_bool_true in H by exact Hb.
  destruct H as (H1 & H2 & _).
  split; [exact H1|]. split; [exact H2|exact Hv].
Qed.

Lemma fmul_overflow x y :
  fvalid x = true -> fvalid y = true -> ffinite x = true -> ffinite y = true ->
  (bpow radix2 1024 <= Rabs (rnd64 (f2R x * f2R y)))%R ->
  exists s, fmul x y = S754_infinity s.
Proof.
  intros Vx Vy Fx Fy Hb.
  destruct x as [sx|sx| |sx mx ex]; try discriminate;
  destruct y as [sy|sy| |sy my ey]; try discriminate; cbn [f2R SF2R] in Hb;
    try (rewrite ?Rmult_0_l, ?Rmult_0_r, rnd64_0, Rabs_R0 in Hb;
         exfalso; apply (Rlt_irrefl 0); eapply Rlt_le_trans; [apply (bpow_gt_0 radix2 1024)|exact Hb]).
  unfold fmul, SFmul. rewrite bra_equiv.
  pose proof (Bmult_correct_aux prec64 emax64 _ _ mode_NE sx mx ex Vx sy my ey Vy) as [Hv H].
  cbv zeta in Hv, H.
  rewrite Rlt_bool_false in H by exact Hb.
  rewrite H. eexists; reflexivity.
Qed.

(** Conversion of an int. *)
Lemma float_of_int_correct z :
  (Rabs (rnd64 (IZR z)) < bpow radix2 1024)%R ->
  exists f, float_of_int z = Ok f /\ f2R f = rnd64 (IZR z) /\ ffinite f = true /\ fvalid f = true.
Proof.
  intros Hb. unfold float_of_int, SpecFloat.binary_normalize.
  destruct z as [|p|p].
  - eexists; repeat split. cbn. now rewrite rnd64_0.
  - rewrite bro_equiv.
    pose proof (binary_round_correct prec64 emax64 _ _ mode_NE false p 0) as [Hv H].
    cbv zeta in Hv, H. unfold F2R in H; cbn [cond_Zopp Fnum Fexp bpow] in H. rewrite Rmult_1_r in H.
    rewrite Rlt_bool_true in H by exact Hb. destruct H as (H1 & H2 & _).
    destruct (binary_round prec64 emax64 mode_NE false p 0) as [s|s| |s m e]; try discriminate;
      eexists; (split; [reflexivity|]); auto.
  - rewrite bro_equiv.
    pose proof (binary_round_correct prec64 emax64 _ _ mode_NE true p 0) as [Hv H].
    cbv zeta in Hv, H. unfold F2R in H; cbn [cond_Zopp Fnum Fexp bpow Z.opp] in H. rewrite Rmult_1_r in H.
    rewrite Rlt_bool_true in H by exact Hb. destruct H as (H1 & H2 & _).
    destruct (binary_round prec64 emax64 mode_NE true p 0) as [s|s| |s m e]; try discriminate;
      eexists; (split; [reflexivity|]); auto.
Qed.

(** Integers up to 2^53 are representable. *)
Lemma rnd64_int z : Z.abs z <= 2 ^ 53 -> rnd64 (IZR z) = IZR z.
Proof.
  intros Hz. apply round_generic; auto with typeclass_instances.
  apply generic_format_FLT. 
  destruct (Z.eq_dec (Z.abs z) (2^53)) as [E|E].
  - exists (Float radix2 (Z.sgn z * 2^52) 1); cbn [Fnum Fexp].
    + unfold F2R; cbn [Fnum Fexp]. change (bpow radix2 1) with (IZR 2). rewrite <- mult_IZR. f_equal.
      rewrite <- Z.mul_assoc. change (2^52*2) with (2^53). rewrite <- E. lia.
    + change (Z.pow (radix_val radix2) 53) with (2^53). 
      rewrite Z.abs_mul. destruct z; cbn [Z.sgn Z.abs Z.mul]; vm_compute; reflexivity.
    + lia.
  - exists (Float radix2 z 0); cbn [Fnum Fexp].
    + unfold F2R; cbn. now rewrite Rmult_1_r.
    + change (Z.pow (radix_val radix2) 53) with (2^53). lia.
    + lia.
Qed.

Lemma Ztrunc_div_pos p e : 0 < e -> Ztrunc (IZR (Zpos p) * bpow radix2 (- e)) = Zpos p / 2 ^ e.
Proof.
  intros He. rewrite Ztrunc_floor.
  2:{ apply Rmult_le_pos; [apply IZR_le; lia|apply bpow_ge_0]. }
  rewrite bpow_opp. replace (bpow radix2 e) with (IZR (2 ^ e)).
  - change (IZR (Zpos p) * / IZR (2 ^ e))%R with (IZR (Zpos p) / IZR (2 ^ e))%R.
    apply Zfloor_div. assert (0 < 2 ^ e) by (apply Z.pow_pos_nonneg; lia). lia.
  - rewrite <- IZR_Zpower by lia. reflexivity.
Qed.

(** [int(f)] truncates. *)
Lemma int_of_float_correct f :
  ffinite f = true -> int_of_float f = Ok (Ztrunc (f2R f)).
Proof.
  intros Hf. destruct f as [s|s| |s m e]; try discriminate; cbn [int_of_float f2R SF2R].
  - now rewrite Ztrunc_IZR.
  - f_equal. unfold f2R; cbn [SF2R]. unfold F2R; cbn [Fnum Fexp].
    assert (Hpos : Ztrunc (IZR (Zpos m) * bpow radix2 e) =
                   if 0 <=? e then Zpos m * 2 ^ e else Zpos m / 2 ^ (- e)).
    { destruct (Z.leb_spec 0 e).
      - rewrite <- IZR_Zpower by lia. rewrite <- mult_IZR, Ztrunc_IZR. reflexivity.
      - rewrite <- (Z.opp_involutive e) at 1. apply Ztrunc_div_pos. lia. }
    destruct s; cbn [cond_Zopp].
    + rewrite opp_IZR, Ropp_mult_distr_l_reverse, Ztrunc_opp, Hpos. reflexivity.
    + rewrite Hpos. reflexivity.
Qed.

Lemma int_of_float_inf s : int_of_float (S754_infinity s) = Err OverflowError.
Proof. reflexivity. Qed.

(** True division of ints. *)
Lemma int_true_div_correct a b : b <> 0 ->
  if Rlt_bool (Rabs (rnd64 (IZR a / IZR b))) (bpow radix2 1024) then
    exists f, int_true_div a b = Ok f /\ f2R f = rnd64 (IZR a / IZR b) /\
              ffinite f = true /\ fvalid f = true
  else int_true_div a b = Err OverflowError.
Proof.
  intros Hb. destruct (Z.eq_dec a 0) as [->|Ha].
  - rewrite Rlt_bool_true.
    + exists (S754_zero (b <? 0)). split; [destruct b; try lia; reflexivity|].
      repeat split. cbn. unfold Rdiv. now rewrite Rmult_0_l, rnd64_0.
    + unfold Rdiv. rewrite Rmult_0_l, rnd64_0, Rabs_R0. apply bpow_gt_0.
  - assert (Habs : exists pa sa, Z.abs a = Zpos pa /\ a = cond_Zopp sa (Zpos pa) /\ (a <? 0) = sa).
    { destruct a as [|p|p]; [lia| |]; [exists p, false|exists p, true]; auto. }
    assert (Hbbs : exists pb sb, Z.abs b = Zpos pb /\ b = cond_Zopp sb (Zpos pb) /\ (b <? 0) = sb).
    { destruct b as [|p|p]; [lia| |]; [exists p, false|exists p, true]; auto. }
    destruct Habs as (pa & sa & Ea & Ea' & Es). destruct Hbbs as (pb & sb & Eb & Eb' & Es').
    pose proof (Bdiv_correct_aux prec64 emax64 _ _ mode_NE sa pa 0 sb pb 0) as [Hv H].
    cbv zeta in Hv, H. unfold F2R in H; cbn [Fnum Fexp bpow] in H. rewrite !Rmult_1_r in H.
    rewrite <- Ea', <- Eb' in H.
    assert (Eq : int_true_div a b =
      let '(mz, ez, lz) := SFdiv_core_binary prec64 emax64 (Zpos pa) 0 (Zpos pb) 0 in
      match binary_round_aux prec64 emax64 mode_NE (xorb sa sb) mz ez lz with
      | S754_infinity _ => Err OverflowError | f => Ok f end).
    { unfold int_true_div. rewrite Ea, Eb, Es, Es'.
      destruct b; [lia| |]; (destruct a; [lia| |]);
      destruct (SFdiv_core_binary prec64 emax64 _ 0 _ 0) as [[mz ez] lz]; rewrite bra_equiv; reflexivity. }
    rewrite Eq. clear Eq.
    destruct (SFdiv_core_binary prec64 emax64 (Zpos pa) 0 (Zpos pb) 0) as [[mz ez] lz].
    change (round radix2 (SpecFloat.fexp prec64 emax64) (round_mode mode_NE) (IZR a / IZR b))
      with (rnd64 (IZR a / IZR b)) in H.
    change emax64 with 1024 in H at 1.
    destruct (Rlt_bool _ _).
    + destruct H as (H1 & H2 & _).
      destruct (binary_round_aux prec64 emax64 mode_NE (xorb sa sb) mz ez lz); try discriminate;
        eexists; (split; [reflexivity|]); auto.
    + rewrite H. reflexivity.
Qed.

(** Subtraction. *)
Lemma valid_format f : fvalid f = true -> ffinite f = true -> rnd64 (f2R f) = f2R f.
Proof.
  intros V F. destruct f as [s|s| |s m e]; try discriminate; cbn [f2R SF2R].
  - apply rnd64_0.
  - apply round_generic; auto with typeclass_instances.
    pose proof (generic_format_B2R prec64 emax64 (B754_finite s m e V)) as G.
    rewrite fexp64_FLT in G. exact G.
Qed.
Lemma normalize_correct m e :
  (Rabs (rnd64 (F2R (Float radix2 m e))) < bpow radix2 1024)%R ->
  let z := SpecFloat.binary_normalize prec64 emax64 m e false in
  f2R z = rnd64 (F2R (Float radix2 m e)) /\ ffinite z = true /\ fvalid z = true.
Proof.
  intros Hb. cbv zeta. unfold SpecFloat.binary_normalize. destruct m as [|p|p].
  - unfold F2R. cbn [Fnum Fexp]. rewrite Rmult_0_l, rnd64_0. repeat split; reflexivity.
  - rewrite bro_equiv. pose proof (binary_round_correct prec64 emax64 _ _ mode_NE false p e) as [Hv H].
    cbv zeta in Hv, H. cbn [cond_Zopp] in H. rewrite Rlt_bool_true in H by exact Hb.
    destruct H as (H1 & H2 & _). auto.
  - rewrite bro_equiv. pose proof (binary_round_correct prec64 emax64 _ _ mode_NE true p e) as [Hv H].
    cbv zeta in Hv, H. cbn [cond_Zopp Z.opp] in H. rewrite Rlt_bool_true in H by exact Hb.
    destruct H as (H1 & H2 & _). auto.
Qed.
Lemma align_value s m e ez : ez <= e ->
  F2R (Float radix2 (cond_Zopp s (Zpos (fst (shl_align m e ez)))) ez) = F2R (Float radix2 (cond_Zopp s (Zpos m)) e).
Proof.
  intros H. pose proof (shl_align_correct m e ez) as A. pose proof (snd_shl_align m e ez H) as B.
  destruct (shl_align m e ez) as [m' e']. cbn [fst snd] in *. subst e'. destruct A as [A _].
  destruct s; cbn [cond_Zopp].
  - rewrite !F2R_Zopp. congruence.
  - congruence.
Qed.
Lemma fsub_correct x y :
  fvalid x = true -> fvalid y = true -> ffinite x = true -> ffinite y = true ->
  (Rabs (rnd64 (f2R x - f2R y)) < bpow radix2 1024)%R ->
  f2R (fsub x y) = rnd64 (f2R x - f2R y) /\ ffinite (fsub x y) = true /\ fvalid (fsub x y) = true.
Proof.
  intros Vx Vy Fx Fy Hb.
  destruct x as [sx|sx| |sx mx ex]; try discriminate; destruct y as [sy|sy| |sy my ey]; try discriminate.
  - cbn [fsub SFsub f2R SF2R]. rewrite Rminus_0_r, rnd64_0. destruct (Bool.eqb sx (negb sy)); repeat split; reflexivity.
  - assert (E : f2R (fsub (S754_zero sx) (S754_finite sy my ey)) = (0 - f2R (S754_finite sy my ey))%R).
    { cbn [fsub SFsub f2R SF2R]. rewrite Rminus_0_l. destruct sy; cbn [negb cond_Zopp]; [change (Zneg my) with (- Zpos my)|change (- Zpos my) with (- Zpos my)]; rewrite ?F2R_Zopp, ?Ropp_involutive; reflexivity. }
    split; [|split; [reflexivity|exact Vy]].
    change (f2R (S754_zero sx)) with 0%R. rewrite <- E. symmetry. apply valid_format; [exact Vy|reflexivity].
  - split; [|split; [reflexivity|exact Vx]]. change (f2R (S754_zero sy)) with 0%R. rewrite Rminus_0_r.
    symmetry. change (fsub (S754_finite sx mx ex) (S754_zero sy)) with (S754_finite sx mx ex). now apply valid_format.
  - cbn [fsub SFsub]. set (ez := Z.min ex ey).
    assert (E : F2R (Float radix2 (cond_Zopp sx (Zpos (fst (shl_align mx ex ez))) - cond_Zopp sy (Zpos (fst (shl_align my ey ez)))) ez)
                = (f2R (S754_finite sx mx ex) - f2R (S754_finite sy my ey))%R).
    { cbn [f2R SF2R]. rewrite <- (align_value sx mx ex ez), <- (align_value sy my ey ez) by (unfold ez; lia).
      unfold F2R. cbn [Fnum Fexp]. rewrite minus_IZR. ring. }
    rewrite <- E in Hb |- *. exact (normalize_correct _ _ Hb).
Qed.
