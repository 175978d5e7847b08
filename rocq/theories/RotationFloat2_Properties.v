(** C42 in double precision: constants, orthogonality and the library's functions. *)
From Coq Require Import List ZArith Bool Reals Lra Lia Floats.SpecFloat.
From Flocq Require Import Core.Raux Core.Zaux Core.Defs Core.Float_prop Core.Generic_fmt Core.FLT Core.Round_NE IEEE754.BinarySingleNaN.
From Verif Require Import Py Float64_Model Float64_Proofs State_Model State_Proofs Bond_Model Bond_Spec Bond_Proofs KPath_Model KPathFloat_Proofs KPathRound_Proofs LineFloat_Spec LineFloat_Proofs
  BondFloat_Model BondFloat_Properties Line2D_Model Line2D_Proofs Rotation_Model Rotation_Spec Rotation_Proofs Rotation_Properties RotationPi_Proofs RotationFloat_Model RotationFloat_Spec RotationFloat_Proofs RotationFloat_Proofs2 RotationFloat_Properties.
Import ListNotations.
Open Scope R_scope.

(** What the doubles of an array stand for. *)
Definition values (A : fmat3) : mat3 :=
  let '(FM3 a b c x y z p q r) := A in M3 (f2R a) (f2R b) (f2R c) (f2R x) (f2R y) (f2R z) (f2R p) (f2R q) (f2R r).
Definition close (d : R) (u v : vec) : Prop :=
  let '(x, y, z) := u in let '(x', y', z') := v in Rabs (x - x') <= d /\ Rabs (y - y') <= d /\ Rabs (z - z') <= d.
(** An array within d of an exact one sends a vector to within 3 d of its size of the
    exact image: with the theorems above, to within that of the turned vector. *)
Theorem C42_rounding_apply : forall d A M v, near3 d A M -> close (3 * d * vlen v) (apply (values A) v) (apply M v).
Proof.
  intros d A M [[x y] z] H. destruct A as [a b c e f g h i j], M as [a' b' c' e' f' g' h' i' j']. unfold near3 in H. destruct H as ((N1 & N2 & N3) & (N4 & N5 & N6) & (N7 & N8 & N9)). cbn [values apply close].
  pose proof (vlen_le_coords x y z) as (Cx & Cy & Cz & _). set (l := vlen (x, y, z)) in *.
  assert (K : forall p q r p' q' r', near d p p' -> near d q q' -> near d r r' -> Rabs (f2R p * x + f2R q * y + f2R r * z - (p' * x + q' * y + r' * z)) <= 3 * d * l).
  { intros p q r p' q' r' [_ Hp] [_ Hq] [_ Hr]. replace (f2R p * x + f2R q * y + f2R r * z - (p' * x + q' * y + r' * z)) with ((f2R p - p') * x + (f2R q - q') * y + (f2R r - r') * z) by ring.
    eapply Rle_trans; [apply Rabs_triang|]. eapply Rle_trans; [apply Rplus_le_compat_r, Rabs_triang|]. rewrite !Rabs_mult.
    assert (Rabs (f2R p - p') * Rabs x <= d * l) by (apply Rmult_le_compat; auto using Rabs_pos). assert (Rabs (f2R q - q') * Rabs y <= d * l) by (apply Rmult_le_compat; auto using Rabs_pos).
    assert (Rabs (f2R r - r') * Rabs z <= d * l) by (apply Rmult_le_compat; auto using Rabs_pos). lra. }
  repeat split; apply K; assumption.
Qed.
Print Assumptions C42_rounding_apply.

(** Matrices whose entries differ by at most d. *)
Definition entries_within (d : R) (M N : mat3) : Prop :=
  let '(M3 a b c x y z p q r) := M in
  let '(M3 a' b' c' x' y' z' p' q' r') := N in
  (Rabs (a - a') <= d /\ Rabs (b - b') <= d /\ Rabs (c - c') <= d) /\ (Rabs (x - x') <= d /\ Rabs (y - y') <= d /\ Rabs (z - z') <= d) /\ (Rabs (p - p') <= d /\ Rabs (q - q') <= d /\ Rabs (r - r') <= d).
(** Orthogonality, as exact arithmetic on the doubles shows it. *)
Theorem C42_rounding_orthogonal : forall d A M, 0 <= d <= 1 -> near3 d A M -> isometry M ->
  entries_within (9 * d) (matmul (transpose (values A)) (values A)) E.
Proof.
  intros d A M D H I. pose proof (isometry_small M I) as Sm. pose proof (I ex ex) as X1. pose proof (I ex ey) as X2. pose proof (I ex ez) as X3. pose proof (I ey ey) as Y2. pose proof (I ey ez) as Y3. pose proof (I ez ez) as Z3.
  destruct A as [a b c e f g h i j], M as [a' b' c' e' f' g' h' i' j']. unfold near3 in H. destruct H as ((N1 & N2 & N3) & (N4 & N5 & N6) & (N7 & N8 & N9)). unfold small3 in Sm. destruct Sm as ((B1 & B2 & B3) & (B4 & B5 & B6) & (B7 & B8 & B9)).
  cbn [apply ex ey ez vdot] in X1, X2, X3, Y2, Y3, Z3. cbn [values transpose matmul]. unfold E, entries_within.
  assert (K : forall p q r s t v p' q' r' s' t' v' w, near d p p' -> near d q q' -> near d r r' -> near d s s' -> near d t t' -> near d v v' ->
    Rabs p' <= 1 -> Rabs q' <= 1 -> Rabs r' <= 1 -> Rabs s' <= 1 -> Rabs t' <= 1 -> Rabs v' <= 1 -> p' * s' + q' * t' + r' * v' = w ->
    Rabs (f2R p * f2R s + f2R q * f2R t + f2R r * f2R v - w) <= 9 * d).
  { intros p q r s t v p' q' r' s' t' v' w [_ Hp] [_ Hq] [_ Hr] [_ Hs] [_ Ht] [_ Hv] Bp Bq Br Bs Bt Bv <-.
    pose proof (near_prod _ _ _ _ _ _ Hp Hs Bp Bs) as Q1. pose proof (near_prod _ _ _ _ _ _ Hq Ht Bq Bt) as Q2. pose proof (near_prod _ _ _ _ _ _ Hr Hv Br Bv) as Q3. apply Rabs_le_inv in Q1, Q2, Q3. assert (d * d <= d) by nra. apply Rabs_le. lra. }
  nine; eapply K; try eassumption; lra.
Qed.
Print Assumptions C42_rounding_orthogonal.

(** The named constants whose entries are computed: each entry within 5 units of
    10^-16 of what it stands for (and so, by C42_constants_xyz and
    C42_constants_111, of the rotation it is named after). *)
Theorem C42_rounding_constants :
  Forall2 (near3 (5 / 10 ^ 16)) fconstants [RX30; RX45; RX60; RY30; RY45; RY60; RZ30; RZ45; RZ60; R111_60; R111_180; R111_300].
Proof.
  set (d := 5 / 10 ^ 16). assert (D : 0 <= d) by (unfold d; lra). pose proof eta_small as ES.
  assert (FI : forall z, (Z.abs z <= 4)%Z -> within 2 (flt_of z) /\ f2R (flt_of z) = IZR z).
  { intros z Hz. unfold flt_of. destruct (float_int_exact z ltac:(lia)) as (g & -> & (V & F & _) & E). split; [|exact E]. split; [exact V|]. split; [exact F|]. rewrite E, <- abs_IZR. change (bpow radix2 2) with 4. apply IZR_le. exact Hz. }
  destruct (FI 2%Z ltac:(lia)) as [W2 V2]. destruct (FI 3%Z ltac:(lia)) as [W3 V3]. destruct (FI (-1)%Z ltac:(lia)) as [Wm Vm].
  destruct number_1 as [[v1 w1] E1]. assert (W1 : within 0 f1) by (split; [exact v1|]; split; [exact w1|]; rewrite E1, Rabs_R1; apply Rle_refl).
  assert (W1' : within 2 f1) by (apply (within_le 0); [lia|exact W1]).
  assert (NEG : forall k a, within k a -> within k (fneg a) /\ f2R (fneg a) = - f2R a).
  { intros k a (V & F & B). destruct (fneg_value a (conj V F)) as [[V' F'] E]. split; [|exact E]. split; [exact V'|]. split; [exact F'|]. now rewrite E, Rabs_Ropp. }
  destruct (within_sqrt 2 (flt_of 3) ltac:(lia) W3 ltac:(rewrite V3; lra)) as [S3 T3]. rewrite V3 in T3.
  destruct (within_sqrt 2 (flt_of 2) ltac:(lia) W2 ltac:(rewrite V2; lra)) as [S2 T2]. rewrite V2 in T2.
  assert (P3 : sqrt 3 * sqrt 3 = 3) by (apply sqrt_sqrt; lra). pose proof (sqrt_pos 3). assert (U3 : 17 / 10 <= sqrt 3 <= 18 / 10) by (split; nra).
  assert (P2 : sqrt 2 * sqrt 2 = 2) by (apply sqrt_sqrt; lra). pose proof (sqrt_pos 2). assert (U2 : 14 / 10 <= sqrt 2 <= 142 / 100) by (split; nra).
  pose proof (rnd_close (sqrt 3) (18 / 10) ltac:(apply Rabs_le; lra)) as C3. rewrite <- T3 in C3. apply Rabs_le_inv in C3. unfold u in C3.
  destruct (rel_u (sqrt 2)) as (r2 & Hr2 & E2); [apply Rle_trans with 1; [change 1 with (bpow radix2 0); apply bpow_le; lia|lra]|]. rewrite <- T2 in E2.
  assert (DIV : forall a b p q rb, within 2 a -> within 2 b -> 1 <= f2R b -> Rabs p <= q -> 1 <= q -> f2R b = q * rb -> Rabs (rb - 1) <= u -> Rabs (f2R a - p) <= q * (37 / 10 ^ 17) * (5 / 10) -> f2R a = p \/ rb = 1 -> near d (fdiv a b) (p / q)).
  { intros a b p q rb Wa Wb Lb Hp Q Eb Rb Ha Z. destruct (within_div 2 0 a b ltac:(lia) Wa (proj1 Wb) (proj1 (proj2 Wb)) Lb) as [W E]. split; [eapply within_number; exact W|]. rewrite E.
    assert (PQ : Rabs (p / q) <= 1). { unfold Rdiv. rewrite Rabs_mult, (Rabs_pos_eq (/ q)) by (left; apply Rinv_0_lt_compat; lra). apply Rmult_le_reg_r with q; [lra|]. rewrite Rmult_assoc, Rinv_l by lra. lra. }
    assert (rb0 : 0 < rb) by (apply Rabs_le_inv in Rb; unfold u in Rb; lra).
    assert (Q1 : Rabs (f2R a / f2R b - p / q) <= 205 / 10 ^ 18).
    { rewrite Eb. destruct Z as [Z| ->].
      - rewrite Z. replace (p / (q * rb) - p / q) with (p / q * (1 - rb) * / rb) by (field; lra). rewrite !Rabs_mult. rewrite (Rabs_minus_sym 1 rb).
        assert (Rabs (/ rb) <= 1001 / 1000). { rewrite Rabs_pos_eq by (left; apply Rinv_0_lt_compat; lra). replace (1001 / 1000) with (/ (1000 / 1001)) by lra. apply Rinv_le_contravar; [lra|]. apply Rabs_le_inv in Rb. unfold u in Rb. lra. }
        pose proof (Rabs_pos (p / q)). pose proof (Rabs_pos (rb - 1)). pose proof (Rabs_pos (/ rb)). assert (Rabs (p / q) * Rabs (rb - 1) <= 1 * u) by (apply Rmult_le_compat; lra).
        apply Rle_trans with (1 * u * (1001 / 1000)); [apply Rmult_le_compat; try lra; apply Rmult_le_pos; lra|unfold u; lra].
      - rewrite Rmult_1_r. replace (f2R a / q - p / q) with ((f2R a - p) * / q) by (field; lra). rewrite Rabs_mult, (Rabs_pos_eq (/ q)) by (left; apply Rinv_0_lt_compat; lra).
        apply Rmult_le_reg_r with q; [lra|]. rewrite Rmult_assoc, Rinv_l by lra. lra. }
    assert (B2 : Rabs (f2R a / f2R b) <= 11 / 10) by (apply Rabs_le_inv in Q1, PQ; apply Rabs_le; lra). pose proof (rnd_close _ _ B2) as C. apply Rabs_le_inv in Q1, C. apply Rabs_le. unfold d, u in *. lra. }
  assert (ONE : Rabs (1 - 1) <= u) by (rewrite Rminus_diag_eq, Rabs_R0 by reflexivity; left; apply u_pos).
  assert (Z0 : forall a p q, f2R a = p -> 1 <= q -> Rabs (f2R a - p) <= q * (37 / 10 ^ 17) * (5 / 10)) by (intros a p q -> Q; rewrite Rminus_diag_eq, Rabs_R0 by reflexivity; lra).
  destruct (NEG _ _ S3) as [S3m T3m]. destruct (NEG _ _ W1') as [W1m E1m].
  assert (Nr3 : near d f_r3 (sqrt 3 / 2)) by (apply (DIV _ _ _ _ 1); auto; try (rewrite V2; lra); try lra; [apply Rabs_le; lra|apply Rabs_le; lra]).
  assert (Nmr3 : near d f_mr3 (- (sqrt 3 / 2))).
  { replace (- (sqrt 3 / 2)) with (- sqrt 3 / 2) by field. apply (DIV _ _ _ _ 1); auto; try (rewrite V2; lra); try lra; [apply Rabs_le; lra|rewrite T3m; apply Rabs_le; lra]. }
  assert (L2 : 1 <= f2R (fsqrt (flt_of 2))) by (rewrite E2; apply Rabs_le_inv in Hr2; unfold u in Hr2; nra).
  assert (Nr2 : near d f_r2 (1 / sqrt 2)) by (apply (DIV _ _ _ _ r2); auto; try lra; [rewrite Rabs_R1; lra|apply Z0; [exact E1|lra]]).
  assert (Nmr2 : near d f_mr2 (- (1 / sqrt 2))).
  { replace (- (1 / sqrt 2)) with (-1 / sqrt 2) by (field; lra). apply (DIV _ _ _ _ r2); auto; try lra; [rewrite Rabs_left; lra|apply Z0; [rewrite E1m, E1; lra|lra]]. }
  assert (Nh : near d f_h (1 / 2)) by (apply (DIV _ _ _ _ 1); auto; try (rewrite V2; lra); try lra; [rewrite Rabs_R1; lra|apply Z0; [exact E1|lra]]).
  assert (Nmh : near d f_mh (- (1 / 2))) by now apply near_neg.
  assert (N23 : near d (fdiv (flt_of 2) (flt_of 3)) (2 / 3)) by (apply (DIV _ _ _ _ 1); auto; try (rewrite V3; lra); try lra; [rewrite Rabs_pos_eq; lra|apply Z0; [exact V2|lra]]).
  assert (N13 : near d (fdiv (flt_of (-1)) (flt_of 3)) (-1 / 3)) by (apply (DIV _ _ _ _ 1); auto; try (rewrite V3; lra); try lra; [rewrite Rabs_left; lra|apply Z0; [exact Vm|lra]]).
  pose proof (near_0 d D) as N0. pose proof (near_f1 d D) as N1.
  unfold fconstants. repeat (apply Forall2_cons || apply Forall2_nil); cbv beta iota zeta delta [near3 RX30 RX45 RX60 RY30 RY45 RY60 RZ30 RZ45 RZ60 R111_60 R111_180 R111_300 mdiv]; nine; assumption.
Qed.
Print Assumptions C42_rounding_constants.

(** Such functions exist: the sine rounded to a multiple of 2^-53, for instance. *)
Definition fixed (g : R -> R) (x : f64) : f64 := fdiv (flt_of (ZnearestE (g (f2R x) * IZR (2 ^ 53)))) (flt_of (2 ^ 53)).
Lemma fixed_accurate g : (forall x, -1 <= g x <= 1) -> accurate (fixed g) g.
Proof.
  intros G x _ _. unfold fixed. set (k := ZnearestE (g (f2R x) * IZR (2 ^ 53))). pose proof (G (f2R x)) as B. set (y := g (f2R x)) in *.
  assert (K : (Z.abs k <= 2 ^ 53)%Z).
  { assert (P0 : 0 < IZR (2 ^ 53)) by (apply IZR_lt; lia). apply Z.abs_le. split.
    - rewrite <- (Zrnd_IZR ZnearestE (- 2 ^ 53)) by (apply valid_rnd_N). apply Zrnd_le; [apply valid_rnd_N|]. rewrite opp_IZR. nra.
    - rewrite <- (Zrnd_IZR ZnearestE (2 ^ 53)) by (apply valid_rnd_N). apply Zrnd_le; [apply valid_rnd_N|]. nra. }
  unfold flt_of. destruct (float_int_exact k ltac:(lia)) as (f & -> & Wf & Ef). destruct (float_int_exact (2 ^ 53) ltac:(lia)) as (g' & -> & Wg & Eg).
  assert (W1 : within 53 f) by exact Wf. destruct (within_div 53 53 f g' ltac:(lia) W1 (proj1 Wg) (proj1 (proj2 Wg))) as [W E]; [rewrite Eg; rewrite <- (IZR_Zpower radix2) by lia; apply Rle_refl|].
  split; [eapply within_number; exact W|]. rewrite E, Ef, Eg.
  assert (X : rnd64 (IZR k / IZR (2 ^ 53)) = IZR k / IZR (2 ^ 53)).
  { apply round_generic; auto with typeclass_instances. destruct (Z.eq_dec (Z.abs k) (2 ^ 53)) as [T|T].
    - assert (k = 2 ^ 53 \/ k = - 2 ^ 53)%Z as [-> | ->] by lia.
      + apply generic_format_FLT. exists (Float radix2 1 0); cbn [Fnum Fexp]; [|reflexivity|lia]. unfold F2R. cbn [Fnum Fexp]. change (bpow radix2 0) with 1. field. apply not_0_IZR. lia.
      + apply generic_format_FLT. exists (Float radix2 (-1) 0); cbn [Fnum Fexp]; [|reflexivity|lia]. unfold F2R. cbn [Fnum Fexp]. change (bpow radix2 0) with 1. rewrite opp_IZR. field. apply not_0_IZR. lia.
    - apply generic_format_FLT. exists (Float radix2 k (-53)); cbn [Fnum Fexp]; [|change (Z.pow (radix_val radix2) 53) with (2 ^ 53)%Z; lia|lia]. unfold F2R. cbn [Fnum Fexp]. replace (bpow radix2 (-53)) with (/ IZR (2 ^ 53)) by reflexivity. reflexivity. }
  rewrite X. pose proof (Znearest_half (fun z => negb (Z.even z)) (y * IZR (2 ^ 53))) as Hk. fold k in Hk. change (2 ^ 53)%Z with 9007199254740992%Z in *. apply Rabs_le_inv in Hk. apply Rabs_le. lra.
Qed.
(** Non-vacuity: 90 degrees about z in doubles, with such functions: the exact
    matrix has entries 0, 1 and -1, and the array is within 2 units of 10^-15 of it. *)
Example rotation_float_case : exists fsin fcos, accurate fsin sin /\ accurate fcos cos /\
  modest true (flt_of 90) /\ near3 (2 / 10 ^ 15) (FRotationZ fsin fcos (flt_of 90) true false) RZ90 /\
  (exists view, sensible view /\ exists A, FRotationGeneral fsin fcos view (FSeq [f1; f1; f1]) (flt_of 120) true false = Ok A /\ near3 (3 / 10 ^ 12) A R111_120).
Proof.
  exists (fixed sin), (fixed cos). pose proof (fixed_accurate sin SIN_bound) as As. pose proof (fixed_accurate cos COS_bound) as Ac. split; [exact As|]. split; [exact Ac|].
  assert (FI : forall z, (0 <= z <= 720)%Z -> modest true (flt_of z) /\ f2R (flt_of z) = IZR z).
  { intros z Hz. unfold flt_of. destruct (float_int_exact z ltac:(lia)) as (g & -> & W & E). split; [|exact E]. split; [eapply within_number; exact W|]. rewrite E, Rabs_pos_eq by (apply IZR_le; lia). apply IZR_le. lia. }
  destruct (FI 90%Z ltac:(lia)) as [M90 E90]. destruct (FI 120%Z ltac:(lia)) as [M120 E120]. split; [exact M90|]. split.
  - destruct (C42_rounding_xyz (fixed sin) (fixed cos) (flt_of 90) true false As Ac (proj1 M90)) as (_ & _ & _ & H); [rewrite E90, Rabs_pos_eq by lra; lra|]. rewrite E90 in H.
    destruct C42_constants_xyz as (_ & _ & _ & _ & _ & _ & _ & _ & _ & _ & _ & _ & _ & _ & _ & _ & _ & _ & _ & RZ & _). rewrite RZ. eapply near3_weaken; [|exact H].
    unfold slop. destruct pi_bounds as [_ U]. pose proof PI_RGT_0. rewrite Rabs_pos_eq; lra.
  - set (view := S754_finite false 4503599627370496 (-86)). exists view.
    assert (Ev : f2R view = bpow radix2 (-34)). { unfold view. cbn [f2R SF2R cond_Zopp]. unfold F2R. cbn [Fnum Fexp]. change 4503599627370496%Z with (Z.pow (radix_val radix2) 52). rewrite IZR_Zpower by lia. now rewrite <- bpow_plus. }
    assert (Bv : f2R view = / 17179869184) by (rewrite Ev; reflexivity).
    assert (Sv : sensible view). { split; [split; reflexivity|]. split; [rewrite Ev; apply bpow_le; lia|rewrite Bv; lra]. } split; [exact Sv|].
    destruct number_1 as [N1 E1]. assert (U1 : usual f1) by (split; [exact N1|]; rewrite E1, Rabs_R1; apply IZR_le; discriminate).
    assert (P3 : sqrt 3 * sqrt 3 = 3) by (apply sqrt_sqrt; lra). assert (P2 : sqrt 2 * sqrt 2 = 2) by (apply sqrt_sqrt; lra). pose proof (sqrt_pos 3). pose proof (sqrt_pos 2).
    assert (L3 : vlen (1, 1, 1) = sqrt 3) by (unfold vlen; cbn [vdot]; f_equal; lra). assert (L2 : vlen (1, 1, 0) = sqrt 2) by (unfold vlen; cbn [vdot]; f_equal; lra).
    destruct (C42_rounding_cartesian (fixed sin) (fixed cos) view f1 f1 f1 (flt_of 120) true false As Ac Sv U1 U1 U1 M120) as (A & M & EA & EM & Hn).
    + rewrite E1, L3, Bv. nra.
    + right. rewrite E1, L2, Bv. nra.
    + exists A. split; [exact EA|]. destruct (C42_constants_111 (f2R view)) as (_ & Q & _); [rewrite Bv; lra|]. rewrite E1, E120 in EM. rewrite EM in Q. injection Q as <-. exact Hn.
Qed.
