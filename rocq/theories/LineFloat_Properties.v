(** C40 in doubles: what LocationRelation and Coordinate say although every operation
    is rounded. *)
From Coq Require Import List ZArith Bool Reals Lra Lia String Floats.SpecFloat.
From Flocq Require Import Core.Raux Core.Zaux IEEE754.BinarySingleNaN.
From Verif Require Import Py Float64_Model Float64_Proofs PandC_Proofs KPathFloat_Proofs KPathRound_Proofs Line2D_Model Line2D_Spec LineFloat_Model LineFloat_Spec LineFloat_Proofs.
Import ListNotations.
Open Scope R_scope.

Lemma tol_pos t0 : 1 / 10 ^ 50 <= f2R t0 -> bpow radix2 (-199) <= f2R t0 /\ 0 < f2R t0.
Proof.
  intros H. pose proof (bpow_gt_0 radix2 (-199)) as P. cut (bpow radix2 (-199) <= 1 / 10 ^ 50); [intros; lra|]. change (-199)%Z with (- (199))%Z. rewrite bpow_opp. unfold Rdiv. rewrite Rmult_1_l. apply Rinv_le; [apply pow_lt; lra|].
  rewrite <- (IZR_Zpower radix2) by lia. change 10 with (IZR 10). rewrite pow_IZR. apply IZR_le. vm_compute. discriminate.
Qed.

(** Lines through two points that are farther apart than the tolerance in x and in y:
    LocationRelation tells where the point is, as compared with the height of the line
    there known up to [slack]; Coordinate returns that height, and that abscissa, up to
    [slack]. *)
Theorem C40_rounding : forall p q t0, usual_point p -> usual_point q -> number t0 -> 1 / 10 ^ 50 <= f2R t0 ->
  f2R t0 * (1 + bit) < Rabs (fst (value q) - fst (value p)) -> f2R t0 * (1 + bit) < Rabs (snd (value q) - snd (value p)) ->
  exists l, fmake_line (fpt p) (fpt q) t0 = Ok l /\
  (forall r tol, usual_point r -> number tol -> exists y a, on_line (value p) (value q) (fst (value r), y) /\ FLocationRelation l (fpt r) tol = Ok a /\
     told (snd (value r) - y) (f2R tol) (slack y (snd (value p))) BELOW ABOVE a) /\
  (forall x, usual x -> exists y y', on_line (value p) (value q) (f2R x, y) /\ FCoordinate l x "x" = Ok (x, y') /\ number y' /\ Rabs (f2R y' - y) <= slack y (snd (value p))) /\
  (forall y, usual y -> exists x x', on_line (value p) (value q) (x, f2R y) /\ FCoordinate l y "y" = Ok (x', y) /\ number x' /\ Rabs (f2R x' - x) <= slack x (fst (value p))).
Proof.
  intros [x0 y0] [x1 y1] t0 [Wx0 Wy0] [Wx1 Wy1] Nt Lt GX GY. cbn [fst snd value] in *. rewrite usual_within in *. destruct (tol_pos t0 Lt) as [L0 P0].
  pose proof (sub_small 400 x1 x0 t0 ltac:(lia) Wx1 Wx0 Nt) as [_ AX]. pose proof (sub_small 400 y1 y0 t0 ltac:(lia) Wy1 Wy0 Nt) as [_ AY].
  assert (FX : abs_le (fsub x1 x0) t0 = false) by (destruct (abs_le (fsub x1 x0) t0); [specialize (AX eq_refl); lra|reflexivity]).
  assert (FY : abs_le (fsub y1 y0) t0 = false) by (destruct (abs_le (fsub y1 y0) t0); [specialize (AY eq_refl); lra|reflexivity]).
  assert (BP : 0 < bit) by (unfold bit; lra). assert (LX : bpow radix2 (-199) <= Rabs (f2R x1 - f2R x0)) by nra. assert (LY : bpow radix2 (-199) <= Rabs (f2R y1 - f2R y0)) by nra.
  assert (DX0 : f2R x1 - f2R x0 <> 0) by (intros X; rewrite X, Rabs_R0 in GX; nra). assert (DY0 : f2R y1 - f2R y0 <> 0) by (intros X; rewrite X, Rabs_R0 in GY; nra).
  assert (EB : bpow radix2 (-1074) = / IZR (2 ^ 1074)) by (change (-1074)%Z with (- (1074))%Z; rewrite bpow_opp; f_equal; symmetry; apply (IZR_Zpower radix2); lia).
  unfold fpt. cbn [fst snd fmake_line]. rewrite FX, FY. cbn [andb]. eexists. split; [reflexivity|].
  assert (H : forall x, within 400 x -> let y := (f2R y1 - f2R y0) / (f2R x1 - f2R x0) * (f2R x - f2R x0) + f2R y0 in
     within 1003 (height x0 y0 (fsub x1 x0) (fsub y1 y0) x) /\ on_line (f2R x0, f2R y0) (f2R x1, f2R y1) (f2R x, y) /\ Rabs (f2R (height x0 y0 (fsub x1 x0) (fsub y1 y0) x) - y) <= slack y (f2R y0)).
  { intros x Wx y. destruct (height_bounds x0 y0 x1 y1 x Wx0 Wy0 Wx1 Wy1 Wx LX LY) as [Wh B]. split; [exact Wh|]. split; [exists ((f2R x - f2R x0) / (f2R x1 - f2R x0)); cbn [fst snd]; unfold y; f_equal; field; exact DX0|].
    unfold slack. rewrite <- EB. unfold y. match goal with |- context [Rabs (?a + ?b - ?b)] => replace (a + b - b) with a by ring end. exact B. }
  assert (H' : forall y, within 400 y -> let x := (f2R x1 - f2R x0) / (f2R y1 - f2R y0) * (f2R y - f2R y0) + f2R x0 in
     within 1003 (height y0 x0 (fsub y1 y0) (fsub x1 x0) y) /\ on_line (f2R x0, f2R y0) (f2R x1, f2R y1) (x, f2R y) /\ Rabs (f2R (height y0 x0 (fsub y1 y0) (fsub x1 x0) y) - x) <= slack x (f2R x0)).
  { intros y Wy x. destruct (height_bounds y0 x0 y1 x1 y Wy0 Wx0 Wy1 Wx1 Wy LY LX) as [Wh B]. split; [exact Wh|]. split; [exists ((f2R y - f2R y0) / (f2R y1 - f2R y0)); cbn [fst snd]; unfold x; f_equal; field; exact DY0|].
    unfold slack. rewrite <- EB. unfold x. match goal with |- context [Rabs (?a + ?b - ?b)] => replace (a + b - b) with a by ring end. exact B. }
  split; [|split].
  - intros [x y] tol [Wx Wy] Ntol. cbn [fst snd] in *. rewrite usual_within in *. destruct (H x Wx) as (Wh & On & B). destruct (side_told 1003 y _ _ tol _ BELOW ABOVE ltac:(lia) (within_le 400 1003 y ltac:(lia) Wy) Wh Ntol B) as (a & Ea & Ta).
    eexists. exists a. split; [exact On|]. split; [|exact Ta]. cbn [FLocationRelation fl_horizontal fl_vertical fl_dy fl_dx fl_x0 fl_y0]. f_equal. exact Ea.
  - intros x Wx. rewrite usual_within in Wx. destruct (H x Wx) as (Wh & On & B). do 2 eexists. split; [exact On|]. split; [reflexivity|]. split; [apply (within_number 1003), Wh|exact B].
  - intros y Wy. rewrite usual_within in Wy. destruct (H' y Wy) as (Wh & On & B). do 2 eexists. split; [exact On|]. split; [reflexivity|]. split; [apply (within_number 1003), Wh|exact B].
Qed.
Print Assumptions C40_rounding.

(** Points closer than the tolerance in one direction make a horizontal or vertical line,
    in both directions none. *)
Theorem C40_rounding_flat : forall p q t0, usual_point p -> usual_point q -> number t0 ->
  let dx := Rabs (fst (value q) - fst (value p)) in let dy := Rabs (snd (value q) - snd (value p)) in
  (dx <= f2R t0 -> dy <= f2R t0 -> fmake_line (fpt p) (fpt q) t0 = Err ValueError) /\
  (dy <= f2R t0 -> f2R t0 * (1 + bit) < dx -> exists l, fmake_line (fpt p) (fpt q) t0 = Ok l /\
     forall r tol, usual_point r -> number tol -> exists a, FLocationRelation l (fpt r) tol = Ok a /\ told (snd (value r) - snd (value p)) (f2R tol) 0 BELOW ABOVE a) /\
  (dx <= f2R t0 -> f2R t0 * (1 + bit) < dy -> exists l, fmake_line (fpt p) (fpt q) t0 = Ok l /\
     forall r tol, usual_point r -> number tol -> exists a, FLocationRelation l (fpt r) tol = Ok a /\ told (fst (value r) - fst (value p)) (f2R tol) 0 LEFT RIGHT a).
Proof.
  intros [x0 y0] [x1 y1] t0 [Wx0 Wy0] [Wx1 Wy1] Nt dx dy. unfold dx, dy. clear dx dy. cbn [fst snd value] in *. rewrite usual_within in *.
  pose proof (sub_small 400 x1 x0 t0 ltac:(lia) Wx1 Wx0 Nt) as [AX' AX]. pose proof (sub_small 400 y1 y0 t0 ltac:(lia) Wy1 Wy0 Nt) as [AY' AY].
  assert (FX : f2R t0 * (1 + bit) < Rabs (f2R x1 - f2R x0) -> abs_le (fsub x1 x0) t0 = false) by (intros G; destruct (abs_le (fsub x1 x0) t0); [specialize (AX eq_refl); lra|reflexivity]).
  assert (FY : f2R t0 * (1 + bit) < Rabs (f2R y1 - f2R y0) -> abs_le (fsub y1 y0) t0 = false) by (intros G; destruct (abs_le (fsub y1 y0) t0); [specialize (AY eq_refl); lra|reflexivity]).
  assert (Z : forall x, Rabs (f2R x - f2R x) <= 0) by (intros x; rewrite Rminus_eq_0, Rabs_R0; lra).
  unfold fpt. cbn [fst snd fmake_line]. split; [|split].
  - intros HX HY. now rewrite (AX' HX), (AY' HY).
  - intros HY HX. rewrite (FX HX), (AY' HY). eexists. split; [reflexivity|]. intros [x y] tol [Wx Wy] Ntol. cbn [fst snd] in *. rewrite usual_within in *. destruct (side_told 400 y y0 (f2R y0) tol 0 BELOW ABOVE ltac:(lia) Wy Wy0 Ntol (Z y0)) as (a & Ea & Ta).
    exists a. split; [|exact Ta]. cbn [FLocationRelation fl_horizontal fl_y0]. f_equal. exact Ea.
  - intros HX HY. rewrite (FY HY), (AX' HX). eexists. split; [reflexivity|]. intros [x y] tol [Wx Wy] Ntol. cbn [fst snd] in *. rewrite usual_within in *. destruct (side_told 400 x x0 (f2R x0) tol 0 LEFT RIGHT ltac:(lia) Wx Wx0 Ntol (Z x0)) as (a & Ea & Ta).
    exists a. split; [|exact Ta]. cbn [FLocationRelation fl_horizontal fl_vertical fl_x0]. f_equal. exact Ea.
Qed.
Print Assumptions C40_rounding_flat.

(** The literal 1e-10. *)
Definition default_tol : f64 := S754_finite false 7737125245533627 (-86).
Lemma default_tol_value : number default_tol /\ 999999 / 10 ^ 16 <= f2R default_tol <= 1000001 / 10 ^ 16.
Proof.
  split; [split; reflexivity|]. unfold default_tol. cbn [f2R SF2R cond_Zopp]. unfold Defs.F2R. cbn [Defs.Fnum Defs.Fexp]. replace (bpow radix2 (-86)) with (/ IZR (2 ^ 86)) by reflexivity.
  change (2 ^ 86)%Z with 77371252455336267181195264%Z. lra.
Qed.
(** With the default tolerances, for points with ordinates up to 10000: the answers
    ABOVE, BELOW, LEFT and RIGHT are always right, ON means within 2e-10 (along y, along
    x for vertical lines), and points farther from the line than that are classified by
    their side. *)
Theorem C40_default : forall p q, usual_point p -> usual_point q -> clean (11 / 10 ^ 11) (value p) (value q) -> Rabs (snd (value p)) <= 10000 ->
  exists l, fmake_line (fpt p) (fpt q) default_tol = Ok l /\
  forall r, usual_point r -> Rabs (snd (value r)) <= 10000 -> let answer := FLocationRelation l (fpt r) default_tol in
    let P := value p in let Q := value q in let X := value r in
    (~ vertical P Q -> exists a, answer = Ok a /\ (a = ON /\ near (2 / 10 ^ 10) P Q X \/ a = BELOW /\ below 0 P Q X \/ a = ABOVE /\ above 0 P Q X) /\
       (below (2 / 10 ^ 10) P Q X -> a = BELOW) /\ (above (2 / 10 ^ 10) P Q X -> a = ABOVE)) /\
    (vertical P Q -> exists a, answer = Ok a /\ (a = ON /\ Rabs (fst X - fst P) <= 2 / 10 ^ 10 \/ a = LEFT /\ fst X < fst P \/ a = RIGHT /\ fst P < fst X) /\
       (fst X < fst P - 2 / 10 ^ 10 -> a = LEFT) /\ (fst P + 2 / 10 ^ 10 < fst X -> a = RIGHT)).
Proof.
  intros p q Up Uq (CX & CY & NE) Hp. destruct default_tol_value as (Nt & T1 & T2).
  assert (LVL : forall r y d E tol a lo hi, told d tol E lo hi a -> 999999 / 10 ^ 16 <= tol <= 1000001 / 10 ^ 16 -> d = snd (value r) - y -> Rabs (snd (value r)) <= 10000 -> E <= 2 * bit * (Rabs d + 30000) + 1 / 10 ^ 20 ->
    (a = ON /\ Rabs d <= 2 / 10 ^ 10 \/ a = lo /\ d < 0 \/ a = hi /\ 0 < d) /\ (d < - (2 / 10 ^ 10) -> a = lo) /\ (2 / 10 ^ 10 < d -> a = hi)).
  { intros r y d E tol a lo hi T HT Ed Hr HE. unfold told, bit in *. unfold Rabs in *. destruct (Rcase_abs d); destruct T as [[-> B]|[[-> B]|[-> B]]]; (split; [|split; intros; try reflexivity; exfalso; lra]); try (left; split; [reflexivity|lra]); try (right; left; split; [reflexivity|lra]); try (right; right; split; [reflexivity|lra]); exfalso; lra. }
  assert (TT : / IZR (2 ^ 1074) <= 1 / 10 ^ 20). { unfold Rdiv. rewrite Rmult_1_l. apply Rinv_le; [lra|]. change 10 with (IZR 10). rewrite pow_IZR. apply IZR_le. vm_compute. discriminate. }
  assert (SL : forall y z, Rabs z <= 10000 -> slack y (snd (value p)) <= 2 * bit * (Rabs (z - y) + 30000) + 1 / 10 ^ 20).
  { intros y z Hz. unfold slack. apply Rplus_le_compat; [|exact TT]. apply Rmult_le_compat_l; [unfold bit; lra|]. replace (y - snd (value p)) with ((y - z) + (z - snd (value p))) by ring. pose proof (Rabs_triang (y - z) (z - snd (value p))) as A. rewrite (Rabs_minus_sym y z) in A.
    assert (Rabs (z - snd (value p)) <= 20000) by (apply Rabs_le_inv in Hz, Hp; apply Rabs_le; lra). lra. }
  assert (Z0 : forall d, 0 <= 2 * bit * (Rabs d + 30000) + 1 / 10 ^ 20) by (intros d; pose proof (Rabs_pos d); unfold bit; lra).
  assert (UNIQ : ~ vertical (value p) (value q) -> forall x y y', on_line (value p) (value q) (x, y) -> on_line (value p) (value q) (x, y') -> y = y').
  { intros NV x y y' (t & Et) (t' & Et'). apply pair_equal_spec in Et as [E1 E2], Et' as [E1' E2']. assert (t = t'); [|subst t'; lra]. apply (Rmult_eq_reg_r (fst (value q) - fst (value p))); [lra|]. intros X. apply NV. unfold vertical. lra. }
  destruct (C40_rounding_flat p q default_tol Up Uq Nt) as (_ & FH & FV). cbv zeta in FH, FV. destruct CX as [CX|CX].
  - assert (VT : vertical (value p) (value q)) by (unfold vertical; lra). destruct CY as [CY|CY]; [exfalso; apply NE; destruct (value p), (value q); cbn [fst snd] in *; congruence|].
    destruct FV as (l & El & H); [rewrite CX, Rminus_eq_0, Rabs_R0; lra|unfold bit in *; lra|]. exists l. split; [exact El|]. intros r Ur Hr. cbv zeta. split; [intros; contradiction|]. intros _.
    destruct (H r default_tol Ur Nt) as (a & Ea & Ta). exists a. split; [exact Ea|]. unfold told in Ta. unfold bit, Rabs in *. destruct (Rcase_abs (fst (value r) - fst (value p))); destruct Ta as [[-> B]|[[-> B]|[-> B]]]; (split; [|split; intros; try reflexivity; exfalso; lra]); try (left; split; [reflexivity|lra]); try (right; left; split; [reflexivity|lra]); try (right; right; split; [reflexivity|lra]); exfalso; lra.
  - assert (NV : ~ vertical (value p) (value q)) by (unfold vertical; intros X; rewrite X, Rminus_eq_0, Rabs_R0 in CX; lra).
    assert (J : exists l, fmake_line (fpt p) (fpt q) default_tol = Ok l /\ forall r, usual_point r -> Rabs (snd (value r)) <= 10000 -> exists y a, on_line (value p) (value q) (fst (value r), y) /\ FLocationRelation l (fpt r) default_tol = Ok a /\
       exists E, told (snd (value r) - y) (f2R default_tol) E BELOW ABOVE a /\ E <= 2 * bit * (Rabs (snd (value r) - y) + 30000) + 1 / 10 ^ 20).
    { destruct CY as [CY|CY].
      - destruct FH as (l & El & H); [rewrite CY, Rminus_eq_0, Rabs_R0; lra|unfold bit in *; lra|]. exists l. split; [exact El|]. intros r Ur Hr. destruct (H r default_tol Ur Nt) as (a & Ea & Ta). exists (snd (value p)), a. split; [|split; [exact Ea|exists 0; auto]].
        exists ((fst (value r) - fst (value p)) / (fst (value q) - fst (value p))). rewrite CY. f_equal; [field; intros X; rewrite X, Rabs_R0 in CX; lra|ring].
      - destruct (C40_rounding p q default_tol Up Uq Nt) as (l & El & H & _); [lra|unfold bit; lra|unfold bit; lra|]. exists l. split; [exact El|]. intros r Ur Hr. destruct (H r default_tol Ur Nt) as (y & a & On & Ea & Ta). exists y, a. split; [exact On|]. split; [exact Ea|].
        eexists. split; [exact Ta|]. now apply SL. }
    destruct J as (l & El & H). exists l. split; [exact El|]. intros r Ur Hr. cbv zeta. split; [|intros; contradiction]. intros _. destruct (H r Ur Hr) as (y & a & On & Ea & E & Ta & HE). exists a. split; [exact Ea|].
    destruct (LVL r y _ E _ a BELOW ABOVE Ta ltac:(lra) eq_refl Hr HE) as (K1 & K2 & K3). split; [|split].
    + destruct K1 as [[-> B]|[[-> B]|[-> B]]]; [left; split; [reflexivity|exists y; auto]|right; left; split; [reflexivity|exists y; split; [exact On|lra]]|right; right; split; [reflexivity|exists y; split; [exact On|lra]]].
    + intros (y' & On' & B). rewrite (UNIQ NV _ _ _ On' On) in B. apply K2. lra.
    + intros (y' & On' & B). rewrite (UNIQ NV _ _ _ On' On) in B. apply K3. lra.
Qed.
Print Assumptions C40_default.

(** Far from the origin a point on the line may be said to be above it: the line
    through (0, 0) and (49, 1), the point (49 * 2^30, 2^30). *)
Theorem C40_rounding_refuted : exists p q r l, usual_point p /\ usual_point q /\ usual_point r /\
  value p = (0, 0) /\ value q = (49, 1) /\ value r = (49 * 2 ^ 30, 2 ^ 30) /\ on_line (value p) (value q) (value r) /\
  fmake_line (fpt p) (fpt q) default_tol = Ok l /\ FLocationRelation l (fpt r) default_tol = Ok ABOVE.
Proof.
  set (n49 := S754_finite false 6896136929411072 (-47)). set (n1 := S754_finite false 4503599627370496 (-52)). set (b49 := S754_finite false 6896136929411072 (-17)). set (b1 := S754_finite false 4503599627370496 (-22)).
  assert (V : forall m e k, (0 <= k)%Z -> (e = - k)%Z -> f2R (S754_finite false m e) = IZR (Zpos m) / IZR (2 ^ k)).
  { intros m e k Hk ->. cbn [f2R SF2R cond_Zopp]. unfold Defs.F2R. cbn [Defs.Fnum Defs.Fexp]. rewrite bpow_opp, <- (IZR_Zpower radix2) by exact Hk. reflexivity. }
  assert (V49 : f2R n49 = 49) by (unfold n49; rewrite (V _ _ 47%Z) by lia; change (2 ^ 47)%Z with 140737488355328%Z; lra).
  assert (V1 : f2R n1 = 1) by (unfold n1; rewrite (V _ _ 52%Z) by lia; change (2 ^ 52)%Z with 4503599627370496%Z; lra).
  assert (W49 : f2R b49 = 49 * 2 ^ 30) by (unfold b49; rewrite (V _ _ 17%Z) by lia; change (2 ^ 17)%Z with 131072%Z; lra).
  assert (W1 : f2R b1 = 2 ^ 30) by (unfold b1; rewrite (V _ _ 22%Z) by lia; change (2 ^ 22)%Z with 4194304%Z; lra).
  assert (W0 : f2R (S754_zero false) = 0) by reflexivity.
  assert (G : 2 ^ 40 <= IZR (2 ^ 400)) by (change 2 with (IZR 2) at 1; rewrite pow_IZR; apply IZR_le; vm_compute; discriminate).
  assert (US : forall x, number x -> 0 <= f2R x <= 2 ^ 40 -> usual x) by (intros x Hx [H1 H2']; split; [exact Hx|rewrite Rabs_pos_eq; lra]).
  exists (S754_zero false, S754_zero false), (n49, n1), (b49, b1). eexists.
  split; [split; apply US; cbn [fst snd]; try (split; reflexivity); lra|]. split; [split; apply US; cbn [fst snd]; try (split; reflexivity); lra|]. split; [split; apply US; cbn [fst snd]; try (split; reflexivity); lra|].
  unfold value. cbn [fst snd]. rewrite W0, V49, V1, W49, W1. split; [reflexivity|]. split; [reflexivity|]. split; [reflexivity|]. split; [exists (2 ^ 30); cbn [fst snd]; f_equal; ring|].
  split; [reflexivity|]. reflexivity.
Qed.
Print Assumptions C40_rounding_refuted.

(** A height that is nan is above every line that is not vertical; an abscissa that is
    nan is right of every vertical line. *)
Theorem C40_nan : forall l x y tol,
  (fl_horizontal l = true \/ fl_vertical l = false -> FLocationRelation l [x; S754_nan] tol = Ok ABOVE) /\
  (fl_horizontal l = false -> fl_vertical l = true -> FLocationRelation l [S754_nan; y] tol = Ok RIGHT) /\
  (fl_horizontal l = false -> fl_vertical l = false -> FLocationRelation l [S754_nan; y] tol = Ok ABOVE).
Proof.
  intros l x y tol. assert (N1 : forall z, fsub S754_nan z = S754_nan) by (intros []; reflexivity). assert (N2 : forall z, fmul z S754_nan = S754_nan) by (intros []; reflexivity). assert (N3 : forall z, fadd S754_nan z = S754_nan) by (intros []; reflexivity).
  assert (N4 : forall z, fsub z S754_nan = S754_nan) by (intros []; reflexivity). assert (N5 : forall z, flt z S754_nan = false) by (intros []; reflexivity).
  cbn [FLocationRelation]. split; [|split].
  - intros H. rewrite !N1. change (abs_le S754_nan tol) with false. cbn [flt SFltb SFcompare]. destruct H as [->| ->]; [reflexivity|]. now destruct (fl_horizontal l).
  - intros -> ->. rewrite N1. reflexivity.
  - intros -> ->. rewrite N1, N2, N3, N4, N5. reflexivity.
Qed.
Print Assumptions C40_nan.

(** A case: the line through (0, 0) and (49, 1) with the default tolerance. *)
Example line_case : let p := (S754_zero false, S754_zero false) in let q := (S754_finite false 6896136929411072 (-47), S754_finite false 4503599627370496 (-52)) in
  usual_point p /\ usual_point q /\ clean (11 / 10 ^ 11) (value p) (value q) /\ Rabs (snd (value p)) <= 10000 /\
  f2R default_tol * (1 + bit) < Rabs (fst (value q) - fst (value p)) /\ f2R default_tol * (1 + bit) < Rabs (snd (value q) - snd (value p)).
Proof.
  cbv zeta. destruct default_tol_value as (_ & _ & T2).
  assert (V49 : f2R (S754_finite false 6896136929411072 (-47)) = 49). { cbn [f2R SF2R cond_Zopp]. unfold Defs.F2R. cbn [Defs.Fnum Defs.Fexp]. replace (bpow radix2 (-47)) with (/ IZR (2 ^ 47)) by reflexivity. change (2 ^ 47)%Z with 140737488355328%Z. lra. }
  assert (V1 : f2R (S754_finite false 4503599627370496 (-52)) = 1). { cbn [f2R SF2R cond_Zopp]. unfold Defs.F2R. cbn [Defs.Fnum Defs.Fexp]. replace (bpow radix2 (-52)) with (/ IZR (2 ^ 52)) by reflexivity. change (2 ^ 52)%Z with 4503599627370496%Z. lra. }
  assert (V0 : f2R (S754_zero false) = 0) by reflexivity. assert (G : 49 <= IZR (2 ^ 400)) by (apply IZR_le; lia).
  unfold usual_point, usual, number, value, clean. cbn [fst snd]. rewrite V49, V1, V0, Rabs_R0, !Rabs_pos_eq by lra. unfold bit. split; [repeat split; try reflexivity; lra|]. split; [repeat split; try reflexivity; lra|]. split; [|lra].
  split; [right; lra|]. split; [right; lra|]. intros E. apply pair_equal_spec in E as [E _]. lra.
Qed.
