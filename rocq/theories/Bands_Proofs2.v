From Coq Require Import Reals String List ZArith Bool Arith Lia Lra.
From Coquelicot Require Import Complex.
From Verif Require Import Py CVec Line2D_Model Lattice_Model Lattice_Spec Lattice_Proofs LatticeCases_Properties LatticeGen_Model LatticeGen_Spec LatticeHex_Proofs
  GF_Spec Free_Spec Bloch_Spec Bands_Spec Bands_Proofs.
Import ListNotations.
Local Open Scope nat_scope.
Local Open Scope C_scope.

(** e^(i x) *)
Definition ei (x : R) : C := (cos x, sin x).
Lemma ei_add x y : ei (x + y) = ei x * ei y.
Proof. unfold ei. rewrite cos_plus, sin_plus. apply injective_projections; cbn; ring. Qed.
Lemma ei_inv x : ei x * ei (- x) = c1.
Proof. rewrite <- ei_add. replace (x + - x)%R with 0%R by ring. unfold ei. rewrite cos_0, sin_0. reflexivity. Qed.
Lemma ei_sum x : ei x + ei (- x) = RtoC (2 * cos x).
Proof. unfold ei, RtoC. rewrite cos_neg, sin_neg. apply injective_projections; cbn; ring. Qed.
Lemma ei_0 : ei 0 = c1. Proof. unfold ei. now rewrite cos_0, sin_0. Qed.
Lemma plane_ei k r : plane k r = ei (vdot k r). Proof. reflexivity. Qed.

Lemma off_axis omega eta e : eta <> 0%R -> frequency omega eta - RtoC e <> c0.
Proof. intros H E. apply (f_equal snd) in E. cbn in E. apply H. lra. Qed.

(** trace of the inverse, from the adjugate *)
Lemma trace1 h z G : resolvent 1 h z G -> G 0%nat 0%nat * (z - h 0%nat 0%nat) = c1.
Proof. intros H. destruct (H 0%nat 0%nat ltac:(lia) ltac:(lia)) as [_ E]. cbn in E. unfold delta in E. cbn in E. rewrite Cplus_0_l, Cmult_1_r in E. exact E. Qed.
Lemma trace2_alg (g00 g01 g10 g11 m00 m01 m10 m11 : C) :
  g00 * m00 + g01 * m10 = c1 -> g00 * m01 + g01 * m11 = c0 -> g10 * m00 + g11 * m10 = c0 -> g10 * m01 + g11 * m11 = c1 ->
  (g00 + g11) * (m00 * m11 - m01 * m10) = m00 + m11.
Proof.
  intros E1 E2 E3 E4. transitivity ((g00 * m00 + g01 * m10) * m11 - (g00 * m01 + g01 * m11) * m10 - (g10 * m00 + g11 * m10) * m01 + (g10 * m01 + g11 * m11) * m00); [ring|].
  rewrite E1, E2, E3, E4. change c1 with (RtoC 1). change c0 with (RtoC 0). ring.
Qed.
Lemma trace3_alg (g00 g01 g02 g10 g11 g12 g20 g21 g22 m00 m01 m02 m10 m11 m12 m20 m21 m22 : C) :
  g00 * m00 + g01 * m10 + g02 * m20 = c1 -> g00 * m01 + g01 * m11 + g02 * m21 = c0 -> g00 * m02 + g01 * m12 + g02 * m22 = c0 ->
  g10 * m00 + g11 * m10 + g12 * m20 = c0 -> g10 * m01 + g11 * m11 + g12 * m21 = c1 -> g10 * m02 + g11 * m12 + g12 * m22 = c0 ->
  g20 * m00 + g21 * m10 + g22 * m20 = c0 -> g20 * m01 + g21 * m11 + g22 * m21 = c0 -> g20 * m02 + g21 * m12 + g22 * m22 = c1 ->
  (g00 + g11 + g22) * (m00 * (m11 * m22 - m12 * m21) - m01 * (m10 * m22 - m12 * m20) + m02 * (m10 * m21 - m11 * m20)) =
  (m11 * m22 - m12 * m21) + (m00 * m22 - m02 * m20) + (m00 * m11 - m01 * m10).
Proof.
  intros E1 E2 E3 E4 E5 E6 E7 E8 E9.
  transitivity ((g00 * m00 + g01 * m10 + g02 * m20) * (m11 * m22 - m12 * m21) + (g00 * m01 + g01 * m11 + g02 * m21) * (m12 * m20 - m10 * m22) + (g00 * m02 + g01 * m12 + g02 * m22) * (m10 * m21 - m11 * m20) +
    (g10 * m00 + g11 * m10 + g12 * m20) * (m02 * m21 - m01 * m22) + (g10 * m01 + g11 * m11 + g12 * m21) * (m00 * m22 - m02 * m20) + (g10 * m02 + g11 * m12 + g12 * m22) * (m01 * m20 - m00 * m21) +
    (g20 * m00 + g21 * m10 + g22 * m20) * (m01 * m12 - m02 * m11) + (g20 * m01 + g21 * m11 + g22 * m21) * (m02 * m10 - m00 * m12) + (g20 * m02 + g21 * m12 + g22 * m22) * (m00 * m11 - m01 * m10)); [ring|].
  rewrite E1, E2, E3, E4, E5, E6, E7, E8, E9. change c1 with (RtoC 1). change c0 with (RtoC 0). ring.
Qed.
Lemma trace2 h z G : resolvent 2 h z G ->
  csum 2 (fun a => G a a) * ((z - h 0%nat 0%nat) * (z - h 1%nat 1%nat) - h 0%nat 1%nat * h 1%nat 0%nat) = (z - h 0%nat 0%nat) + (z - h 1%nat 1%nat).
Proof.
  intros H. assert (Q : forall i j, (i < 2)%nat -> (j < 2)%nat -> csum 2 (fun k => G i k * (z * delta k j - h k j)) = delta i j) by (intros i j Hi Hj; apply (H i j Hi Hj)).
  pose proof (trace2_alg (G 0%nat 0%nat) (G 0%nat 1%nat) (G 1%nat 0%nat) (G 1%nat 1%nat) (z - h 0%nat 0%nat) (- h 0%nat 1%nat) (- h 1%nat 0%nat) (z - h 1%nat 1%nat)) as T.
  replace (csum 2 (fun a => G a a)) with (G 0%nat 0%nat + G 1%nat 1%nat) by (cbn [csum]; change c0 with (RtoC 0); ring).
  replace (h 0%nat 1%nat * h 1%nat 0%nat) with (- h 0%nat 1%nat * - h 1%nat 0%nat) by ring. apply T;
  [etransitivity; [|exact (Q 0%nat 0%nat ltac:(lia) ltac:(lia))]|etransitivity; [|exact (Q 0%nat 1%nat ltac:(lia) ltac:(lia))]|etransitivity; [|exact (Q 1%nat 0%nat ltac:(lia) ltac:(lia))]|etransitivity; [|exact (Q 1%nat 1%nat ltac:(lia) ltac:(lia))]]; unfold delta; cbn [csum Nat.eqb]; change c1 with (RtoC 1); change c0 with (RtoC 0); ring.
Qed.
Lemma trace3 h z G : resolvent 3 h z G -> h 0%nat 0%nat = c0 -> h 1%nat 1%nat = c0 -> h 2%nat 2%nat = c0 ->
  csum 3 (fun a => G a a) * (z * z * z - z * (h 0%nat 1%nat * h 1%nat 0%nat + h 0%nat 2%nat * h 2%nat 0%nat + h 1%nat 2%nat * h 2%nat 1%nat)
     - (h 0%nat 1%nat * h 1%nat 2%nat * h 2%nat 0%nat + h 0%nat 2%nat * h 1%nat 0%nat * h 2%nat 1%nat)) =
  RtoC 3 * (z * z) - (h 0%nat 1%nat * h 1%nat 0%nat + h 0%nat 2%nat * h 2%nat 0%nat + h 1%nat 2%nat * h 2%nat 1%nat).
Proof.
  intros H H00 H11 H22. assert (Q : forall i j, (i < 3)%nat -> (j < 3)%nat -> csum 3 (fun k => G i k * (z * delta k j - h k j)) = delta i j) by (intros i j Hi Hj; apply (H i j Hi Hj)).
  pose proof (trace3_alg (G 0%nat 0%nat) (G 0%nat 1%nat) (G 0%nat 2%nat) (G 1%nat 0%nat) (G 1%nat 1%nat) (G 1%nat 2%nat) (G 2%nat 0%nat) (G 2%nat 1%nat) (G 2%nat 2%nat) z (- h 0%nat 1%nat) (- h 0%nat 2%nat) (- h 1%nat 0%nat) z (- h 1%nat 2%nat) (- h 2%nat 0%nat) (- h 2%nat 1%nat) z) as T.
  replace (csum 3 (fun a => G a a)) with (G 0%nat 0%nat + G 1%nat 1%nat + G 2%nat 2%nat) by (cbn [csum]; change c0 with (RtoC 0); ring).
  match goal with |- ?x * ?y = ?w => match type of T with _ -> _ -> _ -> _ -> _ -> _ -> _ -> _ -> _ -> _ * ?y' = ?w' => replace y with y' by ring; replace w with w' by (replace (RtoC 3) with (RtoC 1 + RtoC 1 + RtoC 1) by (rewrite <- !RtoC_plus; f_equal; ring); ring) end end.
  apply T; [etransitivity; [|exact (Q 0%nat 0%nat ltac:(lia) ltac:(lia))]|etransitivity; [|exact (Q 0%nat 1%nat ltac:(lia) ltac:(lia))]|etransitivity; [|exact (Q 0%nat 2%nat ltac:(lia) ltac:(lia))]|etransitivity; [|exact (Q 1%nat 0%nat ltac:(lia) ltac:(lia))]|etransitivity; [|exact (Q 1%nat 1%nat ltac:(lia) ltac:(lia))]|etransitivity; [|exact (Q 1%nat 2%nat ltac:(lia) ltac:(lia))]|etransitivity; [|exact (Q 2%nat 0%nat ltac:(lia) ltac:(lia))]|etransitivity; [|exact (Q 2%nat 1%nat ltac:(lia) ltac:(lia))]|etransitivity; [|exact (Q 2%nat 2%nat ltac:(lia) ltac:(lia))]];
  unfold delta; cbn [csum Nat.eqb]; rewrite ?H00, ?H11, ?H22; change c1 with (RtoC 1); change c0 with (RtoC 0); ring.
Qed.
