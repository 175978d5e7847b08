(** C40 in doubles: the points PointsFactory generates, and what LocationRelation
    says of them. *)
From Coq Require Import List ZArith Bool Reals Lra Lia Arith String Floats.SpecFloat.
From Flocq Require Import Core.Raux Core.Zaux.
From Verif Require Import Py Float64_Model Float64_Proofs PandC_Proofs Bond_Model KPath_Model KPath_Spec KPathFloat_Proofs KPathRound_Proofs Line2D_Model Line2D_Spec
  LineFloat_Model LineFloat_Spec LineFloat_Proofs LineFloat_Properties LinePoints_Model.
Import ListNotations.
Open Scope R_scope.

(** A coordinate of a point is off by one part in 10^15 of the coordinate it starts
    from and of the way it goes. *)
Definition strayed (a way : R) : R := bit * (Rabs a + Rabs way) + / IZR (2 ^ 1074).
Definition ratio_ok (r : f64) : Prop := number r /\ Rabs (f2R r) <= IZR (2 ^ 400).

Lemma two1074 : bpow radix2 (-1074) = / IZR (2 ^ 1074).
Proof. change (-1074)%Z with (- (1074))%Z. rewrite bpow_opp. f_equal; symmetry; apply (IZR_Zpower radix2); lia. Qed.
Lemma coordinate_near x0 x1 r : within 400 x0 -> within 400 x1 -> within 400 r ->
  let way := f2R r * (f2R x1 - f2R x0) in
  within 802 (fadd x0 (fmul r (fsub x1 x0))) /\ Rabs (f2R (fadd x0 (fmul r (fsub x1 x0))) - (f2R x0 + way)) <= strayed (f2R x0) way.
Proof.
  intros W0 W1 Wr way. destruct (within_sub 400 x1 x0 ltac:(lia) W1 W0) as [Wd Ed]. destruct (rnd_sum 400 400 x1 x0 W1 W0) as (_ & e1 & _ & H1 & _ & R1'). rewrite R1' in Ed. change (400 + 1)%Z with 401%Z in Wd.
  destruct (within_mul 400 401 r _ ltac:(lia) Wr Wd) as [Wm Em]. change (400 + 401)%Z with 801%Z in Wm. destruct (rnd_err (f2R r * f2R (fsub x1 x0))) as (e2 & h & H2' & Hh & E2'). rewrite E2', Ed in Em.
  destruct (within_add 801 x0 _ ltac:(lia) (within_le 400 801 _ ltac:(lia) W0) Wm) as [Wa Ea]. destruct (rnd_sum 400 801 x0 _ W0 Wm) as (e3 & _ & H3 & _ & R3' & _). rewrite R3' in Ea. split; [exact Wa|].
  rewrite Ea, Em. set (X := f2R x0). unfold strayed. rewrite <- two1074.
  replace ((X + (f2R r * ((f2R x1 - X) * (1 + e1)) * (1 + e2) + h)) * (1 + e3) - (X + way)) with (way * ((1 + e1) * ((1 + e2) * (1 + e3)) - 1) + (X * e3 + h * (1 + e3))) by (unfold way; fold X; ring).
  assert (Hr : Rabs ((1 + e1) * ((1 + e2) * (1 + e3)) - 1) <= bit).
  { pose proof (near_mul _ _ _ _ (near_1 _ _ H2') (near_1 _ _ H3)) as I2. pose proof (near_mul _ _ _ _ (near_1 _ _ H1) I2) as I3. eapply Rle_trans; [exact I3|]. unfold u, bit. lra. }
  assert (Hh2 : Rabs (h * (1 + e3)) <= bpow radix2 (-1074)).
  { change (-1074)%Z with (-1075 + 1)%Z. rewrite bpow_plus, Rabs_mult. change (bpow radix2 1) with 2. apply Rmult_le_compat; auto using Rabs_pos. apply Rabs_le_inv in H3. rewrite Rabs_pos_eq; unfold u in *; lra. }
  replace (bit * (Rabs X + Rabs way) + bpow radix2 (-1074)) with (bit * Rabs way + (bit * Rabs X + bpow radix2 (-1074))) by ring.
  eapply Rle_trans; [apply Rabs_triang|]. apply Rplus_le_compat.
  - rewrite Rabs_mult, Rmult_comm. apply Rmult_le_compat_r; [apply Rabs_pos|exact Hr].
  - eapply Rle_trans; [apply Rabs_triang|]. apply Rplus_le_compat; [|exact Hh2]. rewrite Rabs_mult, Rmult_comm. apply Rmult_le_compat_r; [apply Rabs_pos|]. eapply Rle_trans; [exact H3|]. unfold u, bit. lra.
Qed.

(** PointsFactory with given ratios: as many points as ratios, each one near p + r (q - p). *)
Theorem C40_rounding_points : forall p q t0 l rs, usual_point p -> usual_point q -> fmake_line (fpt p) (fpt q) t0 = Ok l -> Forall ratio_ok rs ->
  Forall2 (fun r X => number (fst X) /\ number (snd X) /\
     (let way := f2R r * (fst (value q) - fst (value p)) in Rabs (fst (value X) - (fst (value p) + way)) <= strayed (fst (value p)) way) /\
     (let way := f2R r * (snd (value q) - snd (value p)) in Rabs (snd (value X) - (snd (value p) + way)) <= strayed (snd (value p)) way))
    rs (FPointsFactory l (Some rs)).
Proof.
  intros [x0 y0] [x1 y1] t0 l rs [Ux0 Uy0] [Ux1 Uy1] El H. cbn [fst snd value] in *. apply usual_within in Ux0, Uy0, Ux1, Uy1. unfold fpt in El. cbn [fst snd fmake_line] in El.
  destruct (abs_le (fsub x1 x0) t0 && abs_le (fsub y1 y0) t0)%bool; [discriminate|]. injection El as <-. unfold FPointsFactory. cbn [fl_x0 fl_dx fl_y0 fl_dy].
  induction H as [|r rs Hr H IH]; cbn [map]; constructor; [|exact IH]. cbn [fst snd value]. assert (Wr : within 400 r) by (apply usual_within; exact Hr).
  destruct (coordinate_near x0 x1 r Ux0 Ux1 Wr) as [Wx Bx]. destruct (coordinate_near y0 y1 r Uy0 Uy1 Wr) as [Wy By].
  split; [exact (within_number _ _ Wx)|]. split; [exact (within_number _ _ Wy)|]. now split.
Qed.
Print Assumptions C40_rounding_points.

(** Non-vacuity: the points with ratios 0 and 1 of the line through (0, 0) and (1, 1). *)
Example points_case : let p := (S754_zero false, S754_zero false) in let q := (one64, one64) in
  usual_point p /\ usual_point q /\ Forall ratio_ok [S754_zero false; one64] /\ exists l, fmake_line (fpt p) (fpt q) default_tol = Ok l.
Proof.
  cbv zeta. assert (V1 : f2R one64 = 1) by exact (proj1 one_value). assert (G : 1 <= IZR (2 ^ 400)) by (apply IZR_le; lia).
  assert (U0 : usual (S754_zero false)) by (split; [split; reflexivity|]; change (f2R (S754_zero false)) with 0; rewrite Rabs_R0; lra). assert (U1 : usual one64) by (split; [split; reflexivity|]; rewrite V1, Rabs_R1; lra).
  split; [now split|]. split; [now split|]. split; [apply Forall_cons; [exact U0|apply Forall_cons; [exact U1|apply Forall_nil]]|]. eexists. reflexivity.
Qed.
