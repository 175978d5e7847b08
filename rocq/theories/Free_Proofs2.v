(** Proofs for C57: equations of motion. *)
From Coq Require Import Reals Qreals QArith Qcanon String List ZArith NArith Bool Arith Lia Lra.
From Coquelicot Require Import Complex.
From Verif Require Import Py GQ Mat CVec LinSolve Lanczos_Model Lanczos_Spec Lanczos_Proofs Lanczos_Proofs2 GF_Model GF_Spec GF_Proofs GF_Proofs2 GF_Proofs4
  MatrixRepr_Model Particle_Model Particle_Spec Conserve_Spec Free_Spec.
Import ListNotations.
Local Open Scope nat_scope.
Local Open Scope C_scope.

(** ** Gaussian rationals in the complex numbers *)
Lemma q2r_add (a b : Qc) : Q2R (this (Qcplus a b)) = (Q2R (this a) + Q2R (this b))%R.
Proof. rewrite <- Q2R_plus. apply Qeq_eqR. unfold Qcplus, Q2Qc. cbn [this]. apply Qred_correct. Qed.
Lemma q2r_mul (a b : Qc) : Q2R (this (Qcmult a b)) = (Q2R (this a) * Q2R (this b))%R.
Proof. rewrite <- Q2R_mult. apply Qeq_eqR. unfold Qcmult, Q2Qc. cbn [this]. apply Qred_correct. Qed.
Lemma q2r_opp (a : Qc) : Q2R (this (Qcopp a)) = (- Q2R (this a))%R.
Proof. rewrite <- Q2R_opp. apply Qeq_eqR. unfold Qcopp, Q2Qc. cbn [this]. apply Qred_correct. Qed.
Lemma q2r_0 : Q2R (this 0%Qc) = 0%R.
Proof. unfold Q2R. cbn. lra. Qed.
Lemma q2r_1 : Q2R (this 1%Qc) = 1%R.
Proof. unfold Q2R. cbn. lra. Qed.
Lemma gc_add a b : gc (gadd a b) = gc a + gc b.
Proof. unfold gc. cbn [re im gadd]. rewrite !q2r_add. reflexivity. Qed.
Lemma gc_mul a b : gc (gmul a b) = gc a * gc b.
Proof. unfold gc. cbn [re im gmul]. unfold Qcminus. rewrite !q2r_add, q2r_opp, !q2r_mul. reflexivity. Qed.
Lemma gc_0 : gc g0 = c0.
Proof. unfold gc. cbn [re im g0]. rewrite q2r_0. reflexivity. Qed.
Lemma gc_1 : gc g1 = c1.
Proof. unfold gc. cbn [re im g1]. rewrite q2r_0, q2r_1. reflexivity. Qed.
Lemma gc_conj a : gc (gconj a) = Cj (gc a).
Proof. unfold gc, Cj. cbn [re im gconj fst snd]. rewrite q2r_opp. reflexivity. Qed.
Lemma gc_bigsum n f : gc (bigsum n f) = csum n (fun i => gc (f i)).
Proof.
  unfold bigsum. induction n as [|n IH]; [exact gc_0|]. rewrite seq_S, lsum_app, gc_add, IH. cbn [csum lsum]. f_equal.
  cbn [plus]. rewrite gc_add, gc_0. unfold c0. ring.
Qed.
Lemma mv_mmul n k (A B : mat) v i : mv n (cm (mmul k A B)) v i = mv k (cm A) (mv n (cm B) v) i.
Proof.
  unfold mv, cm, mmul. rewrite (csum_ext n _ (fun j => csum k (fun l => gc (A i l) * gc (B l j) * v j))).
  2:{ intros j _. rewrite gc_bigsum, <- csum_mul_r. apply csum_ext. intros l _. now rewrite gc_mul. }
  rewrite csum_swap. apply csum_ext. intros l _. rewrite <- csum_mul_l. apply csum_ext. intros j _. ring.
Qed.
Lemma mv_ext_mat n (A B : cmat) v i : (forall j, (j < n)%nat -> A i j = B i j) -> mv n A v i = mv n B v i.
Proof. intros H. apply csum_ext. intros j Hj. now rewrite H. Qed.
Lemma mv_cm_add n (A B : mat) v i : mv n (cm (fun r c => gadd (A r c) (B r c))) v i = mv n (cm A) v i + mv n (cm B) v i.
Proof. unfold mv, cm. rewrite <- csum_add. apply csum_ext. intros j _. rewrite gc_add. ring. Qed.

(** ** The equations of motion *)
Section EOM.
  Variables (d np nh : nat) (t HP HH : cmat) (p h x y : nat -> vec) (GE : R) (z : C).
  Hypothesis tH : hermitian d t.
  Hypothesis HPh : hermitian np HP.
  Hypothesis HHh : hermitian nh HH.
  Hypothesis Ep : forall j, (j < d)%nat -> veqn np (mv np HP (p j)) (fun r => RtoC GE * p j r + csum d (fun k => t k j * p k r)).
  Hypothesis Eh : forall i, (i < d)%nat -> veqn nh (fun r => mv nh HH (h i) r + csum d (fun k => t i k * h k r)) (fun r => RtoC GE * h i r).
  Hypothesis Ov : forall i j, (i < d)%nat -> (j < d)%nat -> inner np (p i) (p j) + inner nh (h j) (h i) = delta i j.
  Hypothesis Ip : invertible "-" np HP GE z.
  Hypothesis Ih : invertible "+" nh HH GE z.
  Hypothesis Sx : forall j, (j < d)%nat -> veqn np (shifted "-" np HP GE z (x j)) (p j).
  Hypothesis Sy : forall i, (i < d)%nat -> veqn nh (shifted "+" nh HH GE z (y i)) (h i).
  Definition eg1 (i j : nat) : C := inner np (p i) (x j).
  Definition eg2 (i j : nat) : C := inner nh (h j) (y i).

  Lemma inner_combo n m (c : nat -> C) (f : nat -> vec) v : inner n (fun r => csum m (fun k => c k * f k r)) v = csum m (fun k => Cj (c k) * inner n (f k) v).
  Proof.
    unfold inner. rewrite (csum_ext n _ (fun i => csum m (fun k => Cj (c k) * (Cj (f k i) * v i)))).
    2:{ intros i _. rewrite csum_conj, <- csum_mul_r. apply csum_ext. intros k _. rewrite Cj_mul. ring. }
    rewrite csum_swap. apply csum_ext. intros k _. now rewrite csum_mul_l.
  Qed.
  Lemma inner_combo_r n m (c : nat -> C) (f : nat -> vec) v : inner n v (fun r => csum m (fun k => c k * f k r)) = csum m (fun k => c k * inner n v (f k)).
  Proof.
    unfold inner. rewrite (csum_ext n _ (fun i => csum m (fun k => c k * (Cj (v i) * f k i)))).
    2:{ intros i _. rewrite <- csum_mul_l. apply csum_ext. intros k _. ring. }
    rewrite csum_swap. apply csum_ext. intros k _. now rewrite csum_mul_l.
  Qed.
  Lemma self_adjoint n H u v : hermitian n H -> inner n u (mv n H v) = inner n (mv n H u) v.
  Proof.
    intros HH'. unfold inner, mv. rewrite (csum_ext n _ (fun i => csum n (fun j => Cj (u i) * (H i j * v j)))).
    2:{ intros i _. now rewrite csum_mul_l. }
    rewrite csum_swap. apply csum_ext. intros j Hj. rewrite csum_conj, <- csum_mul_r. apply csum_ext. intros i Hi.
    rewrite Cj_mul, (HH' i j) by assumption. ring.
  Qed.
  Lemma inner_ext n u u' v v' : veqn n u u' -> veqn n v v' -> inner n u v = inner n u' v'.
  Proof. intros A B. apply csum_ext. intros i Hi. now rewrite A, B. Qed.
  Lemma inner_lin n u a v b w : inner n u (fun r => a * v r + b * w r) = a * inner n u v + b * inner n u w.
  Proof. unfold inner. rewrite <- !csum_mul_l, <- csum_add. apply csum_ext. intros. ring. Qed.
  Lemma inner_lin_l n u a v b w : inner n (fun r => a * v r + b * w r) u = Cj a * inner n v u + Cj b * inner n w u.
  Proof. unfold inner. rewrite <- !csum_mul_l, <- csum_add. apply csum_ext. intros. rewrite Cj_add, !Cj_mul. ring. Qed.

  Lemma g1_left i j : (i < d)%nat -> (j < d)%nat ->
    z * eg1 i j - csum d (fun k => t i k * eg1 k j) = inner np (p i) (p j).
  Proof.
    intros Hi Hj. rewrite <- (inner_ext np (p i) (p i) (shifted "-" np HP GE z (x j)) (p j)); [|intros r _; reflexivity|now apply Sx].
    unfold shifted. cbn [String.eqb Ascii.eqb Bool.eqb].
    rewrite (inner_ext np (p i) (p i) _ (fun r => (z + RtoC GE) * x j r + (- c1) * mv np HP (x j) r)); [|intros r _; reflexivity|].
    2:{ intros r _. unfold c1. ring. }
    rewrite inner_lin, (self_adjoint np HP (p i) (x j) HPh).
    rewrite (inner_ext np (mv np HP (p i)) (fun r => RtoC GE * p i r + c1 * csum d (fun k => t k i * p k r)) (x j) (x j));
      [|intros r Hr; rewrite Ep by assumption; unfold c1; ring|intros r _; reflexivity].
    rewrite inner_lin_l, inner_combo, Cj_R, Cj_1. unfold eg1.
    rewrite (csum_ext d (fun k => Cj (t k i) * inner np (p k) (x j)) (fun k => t i k * inner np (p k) (x j))).
    2:{ intros k Hk. now rewrite <- (tH i k Hi Hk). }
    unfold c1. ring.
  Qed.
  Lemma g2_left i j : (i < d)%nat -> (j < d)%nat ->
    z * eg2 i j - csum d (fun k => t i k * eg2 k j) = inner nh (h j) (h i).
  Proof.
    intros Hi Hj. unfold eg2.
    assert (U : veqn nh (fun r => z * y i r + (- c1) * csum d (fun k => t i k * y k r)) (h i)).
    { assert (V : veqn nh (fun r => z * y i r - csum d (fun k => t i k * y k r) - h i r) vzero).
      - apply Ih. intros r Hr. unfold shifted. cbn [String.eqb Ascii.eqb Bool.eqb].
        assert (M : mv nh HH (fun r => z * y i r - csum d (fun k => t i k * y k r) - h i r) r =
                    z * mv nh HH (y i) r - csum d (fun k => t i k * mv nh HH (y k) r) - mv nh HH (h i) r).
        { unfold mv. rewrite <- csum_mul_l, (csum_ext d (fun k => t i k * csum nh (fun j0 => HH r j0 * y k j0)) (fun k => csum nh (fun j0 => t i k * (HH r j0 * y k j0)))).
          2:{ intros k _. now rewrite csum_mul_l. }
          rewrite csum_swap, <- !csum_sub. apply csum_ext. intros j0 _.
          rewrite (csum_ext d (fun k => t i k * (HH r j0 * y k j0)) (fun k => HH r j0 * (t i k * y k j0))) by (intros; ring). rewrite csum_mul_l. ring. }
        rewrite M. pose proof (Eh i Hi r Hr) as E1. cbn beta in E1.
        assert (S1 : forall k, (k < d)%nat -> (z - RtoC GE) * y k r + mv nh HH (y k) r = h k r) by (intros k Hk; exact (Sy k Hk r Hr)).
        assert (S2 : csum d (fun k => t i k * h k r) = (z - RtoC GE) * csum d (fun k => t i k * y k r) + csum d (fun k => t i k * mv nh HH (y k) r)).
        { rewrite <- csum_mul_l, <- csum_add. apply csum_ext. intros k Hk. rewrite <- (S1 k Hk). ring. }
        rewrite S2 in E1. specialize (S1 i Hi). unfold vzero, c0.
        assert (Em : mv nh HH (h i) r = RtoC GE * h i r - ((z - RtoC GE) * csum d (fun k => t i k * y k r) + csum d (fun k => t i k * mv nh HH (y k) r))) by (rewrite <- E1; ring).
        rewrite Em, <- S1. ring.
      - intros r Hr. specialize (V r Hr). cbn beta in V. unfold vzero in V.
        transitivity (z * y i r - csum d (fun k => t i k * y k r) - h i r + h i r); [unfold c1; ring|]. rewrite V. unfold c0. ring. }
    rewrite <- (inner_ext nh (h j) (h j) _ _ (fun r _ => eq_refl) U), inner_lin, inner_combo_r. unfold c1. ring.
  Qed.
  Lemma g1_right i j : (i < d)%nat -> (j < d)%nat ->
    z * eg1 i j - csum d (fun k => eg1 i k * t k j) = inner np (p i) (p j).
  Proof.
    intros Hi Hj. unfold eg1.
    assert (U : veqn np (fun r => z * x j r + (- c1) * csum d (fun k => t k j * x k r)) (p j)).
    { assert (V : veqn np (fun r => z * x j r - csum d (fun k => t k j * x k r) - p j r) vzero).
      - apply Ip. intros r Hr. unfold shifted. cbn [String.eqb Ascii.eqb Bool.eqb].
        assert (M : mv np HP (fun r => z * x j r - csum d (fun k => t k j * x k r) - p j r) r =
                    z * mv np HP (x j) r - csum d (fun k => t k j * mv np HP (x k) r) - mv np HP (p j) r).
        { unfold mv. rewrite <- csum_mul_l, (csum_ext d (fun k => t k j * csum np (fun j0 => HP r j0 * x k j0)) (fun k => csum np (fun j0 => t k j * (HP r j0 * x k j0)))).
          2:{ intros k _. now rewrite csum_mul_l. }
          rewrite csum_swap, <- !csum_sub. apply csum_ext. intros j0 _.
          rewrite (csum_ext d (fun k => t k j * (HP r j0 * x k j0)) (fun k => HP r j0 * (t k j * x k j0))) by (intros; ring). rewrite csum_mul_l. ring. }
        rewrite M. pose proof (Ep j Hj r Hr) as E1. cbn beta in E1.
        assert (S1 : forall k, (k < d)%nat -> (z + RtoC GE) * x k r - mv np HP (x k) r = p k r) by (intros k Hk; exact (Sx k Hk r Hr)).
        assert (S2 : csum d (fun k => t k j * p k r) = (z + RtoC GE) * csum d (fun k => t k j * x k r) - csum d (fun k => t k j * mv np HP (x k) r)).
        { rewrite <- csum_mul_l, <- csum_sub. apply csum_ext. intros k Hk. rewrite <- (S1 k Hk). ring. }
        rewrite S2 in E1. specialize (S1 j Hj). unfold vzero, c0. rewrite E1, <- S1. ring.
      - intros r Hr. specialize (V r Hr). cbn beta in V. unfold vzero in V.
        transitivity (z * x j r - csum d (fun k => t k j * x k r) - p j r + p j r); [unfold c1; ring|]. rewrite V. unfold c0. ring. }
    rewrite <- (inner_ext np (p i) (p i) _ _ (fun r _ => eq_refl) U), inner_lin, inner_combo_r.
    rewrite (csum_ext d (fun k => inner np (p i) (x k) * t k j) (fun k => t k j * inner np (p i) (x k))) by (intros; ring). unfold c1. ring.
  Qed.
  Lemma g2_right i j : (i < d)%nat -> (j < d)%nat ->
    z * eg2 i j - csum d (fun k => eg2 i k * t k j) = inner nh (h j) (h i).
  Proof.
    intros Hi Hj. rewrite <- (inner_ext nh (h j) (h j) (shifted "+" nh HH GE z (y i)) (h i)); [|intros r _; reflexivity|now apply Sy].
    unfold shifted. cbn [String.eqb Ascii.eqb Bool.eqb].
    rewrite (inner_ext nh (h j) (h j) _ (fun r => (z - RtoC GE) * y i r + c1 * mv nh HH (y i) r)); [|intros r _; reflexivity|].
    2:{ intros r _. unfold c1. ring. }
    rewrite inner_lin, (self_adjoint nh HH (h j) (y i) HHh).
    rewrite (inner_ext nh (mv nh HH (h j)) (fun r => RtoC GE * h j r + (- c1) * csum d (fun k => t j k * h k r)) (y i) (y i));
      [|intros r Hr; pose proof (Eh j Hj r Hr) as E; cbn beta in E; rewrite <- E; unfold c1; ring|intros r _; reflexivity].
    rewrite inner_lin_l, inner_combo, Cj_R, Cj_opp, Cj_1. unfold eg2.
    rewrite (csum_ext d (fun k => Cj (t j k) * inner nh (h k) (y i)) (fun k => inner nh (h k) (y i) * t k j)).
    2:{ intros k Hk. rewrite (tH k j Hk Hj). ring. }
    unfold c1. ring.
  Qed.
  Lemma delta_sum_l i (f : nat -> C) : (i < d)%nat -> csum d (fun k => (z * delta i k - t i k) * f k) = z * f i - csum d (fun k => t i k * f k).
  Proof.
    intros Hi. rewrite (csum_ext d _ (fun k => z * delta i k * f k - t i k * f k)) by (intros; ring). rewrite csum_sub. f_equal.
    rewrite (csum_single d _ i Hi); [unfold delta; rewrite Nat.eqb_refl; unfold c1; ring|].
    intros k _ Hk. unfold delta. destruct (Nat.eqb_spec i k); [congruence|]. unfold c0. ring.
  Qed.
  Lemma delta_sum_r j (f : nat -> C) : (j < d)%nat -> csum d (fun k => f k * (z * delta k j - t k j)) = z * f j - csum d (fun k => f k * t k j).
  Proof.
    intros Hj. rewrite (csum_ext d _ (fun k => z * delta k j * f k - f k * t k j)) by (intros; ring). rewrite csum_sub. f_equal.
    rewrite (csum_single d _ j Hj); [unfold delta; rewrite Nat.eqb_refl; unfold c1; ring|].
    intros k _ Hk. unfold delta. destruct (Nat.eqb_spec k j); [congruence|]. unfold c0. ring.
  Qed.
  Theorem eom : resolvent d t z (fun i j => eg1 i j + eg2 i j).
  Proof.
    intros i j Hi Hj. rewrite delta_sum_l, delta_sum_r by assumption. rewrite <- (Ov i j Hi Hj). split.
    - rewrite (csum_ext d _ (fun k => t i k * eg1 k j + t i k * eg2 k j)) by (intros; ring). rewrite csum_add, <- (g1_left i j Hi Hj), <- (g2_left i j Hi Hj). ring.
    - rewrite (csum_ext d _ (fun k => eg1 i k * t k j + eg2 i k * t k j)) by (intros; ring). rewrite csum_add, <- (g1_right i j Hi Hj), <- (g2_right i j Hi Hj). ring.
  Qed.
End EOM.
