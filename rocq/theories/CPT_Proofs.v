(** Proofs for C59: inverses, Dyson's equation, Lehmann functions. *)
From Coq Require Import Reals String List Arith Lia Lra.
From Coquelicot Require Import Complex.
From Verif Require Import Py CVec LinSolve Lanczos_Spec Lanczos_Proofs2 GF_Model GF_Spec GF_Proofs2 Free_Spec Free_Proofs7 Spectrum_Spec Spectrum_Proofs Spectrum_Proofs2
  CPT_Model CPT_Spec.
Import ListNotations.
Local Open Scope C_scope.

(** ** np.linalg.inv *)
Lemma mapM_ok {A B} (f : A -> res B) l ys : mapM f l = Ok ys -> length ys = length l /\ forall i a, nth_error l i = Some a -> exists y, nth_error ys i = Some y /\ f a = Ok y.
Proof.
  revert ys. induction l as [|x l IH]; cbn; intros ys H.
  - injection H as <-. split; [reflexivity|]. intros [|i] a E; discriminate.
  - destruct (f x) as [y|] eqn:E; [|discriminate]. cbn in H. destruct (mapM f l) as [zs|]; [|discriminate]. cbn in H. injection H as <-.
    destruct (IH zs eq_refl) as [L P]. split; [cbn; lia|]. intros [|i] a Ea; cbn in *; [injection Ea as <-; eauto|now apply P].
Qed.
Lemma mapM_err {A B} (f : A -> res B) l e : mapM f l = Err e -> exists a, In a l /\ f a = Err e.
Proof.
  induction l as [|x l IH]; cbn; intros H; [discriminate|].
  destruct (f x) as [y|e'] eqn:E; cbn in H.
  - destruct (mapM f l) as [zs|e'']; cbn in H; [discriminate|]. injection H as ->. destruct (IH eq_refl) as (a & I & Ea). eauto.
  - injection H as ->. exists x. split; [now left|exact E].
Qed.
Lemma mapM_all {A B} (f : A -> res B) l : (forall a, In a l -> exists y, f a = Ok y) -> exists ys, mapM f l = Ok ys.
Proof.
  intros H. destruct (mapM f l) as [ys|e] eqn:E; [eauto|]. apply mapM_err in E as (a & I & Ea). destruct (H a I) as (y & Ey). congruence.
Qed.
Lemma nth_error_seq' n i : (i < n)%nat -> nth_error (seq 0 n) i = Some i.
Proof. intros H. rewrite (nth_error_nth' _ 0%nat) by (rewrite seq_length; lia). rewrite seq_nth by lia. reflexivity. Qed.

Lemma np_inv_cols n M X : np_inv n M = Ok X -> forall j, (j < n)%nat -> solves n M (fun i => X i j) (unit_vec j) /\ nonsingular n M.
Proof.
  unfold np_inv. destruct (mapM _ (seq 0 n)) as [cols|] eqn:E; [|discriminate]. intros H. injection H as <-.
  apply mapM_ok in E as [L P]. intros j Hj. destruct (P j j (nth_error_seq' n j Hj)) as (y & Ey & Es).
  rewrite (nth_error_nth _ _ vzero Ey). now apply solve_ok in Es.
Qed.
Lemma csum_delta_r n (f : nat -> C) j : (j < n)%nat -> csum n (fun k => f k * delta k j) = f j.
Proof.
  intros Hj. rewrite (csum_single n _ j Hj).
  - unfold delta, c1. rewrite Nat.eqb_refl. ring.
  - intros i _ Hne. unfold delta. destruct (Nat.eqb_spec i j); [contradiction|]. unfold c0. ring.
Qed.
Lemma csum_delta_l n (f : nat -> C) i : (i < n)%nat -> csum n (fun k => delta i k * f k) = f i.
Proof.
  intros Hj. rewrite (csum_single n _ i Hj).
  - unfold delta, c1. rewrite Nat.eqb_refl. ring.
  - intros k _ Hne. unfold delta. destruct (Nat.eqb_spec i k); [congruence|]. unfold c0. ring.
Qed.
Lemma np_inv_ok n M X : np_inv n M = Ok X -> inverse_of n M X.
Proof.
  intros H i j Hi Hj. pose proof (np_inv_cols n M X H) as P. split; [apply (proj1 (P j Hj)); exact Hi|].
  (* X M = 1: M (X M e_j) = M e_j, and M is nonsingular *)
  assert (NS : nonsingular n M) by apply (proj2 (P j Hj)).
  assert (E : veqn n (fun r => csum n (fun k => X r k * M k j)) (fun r => delta r j)); [|exact (E i Hi)].
  apply (solve_unique n M _ _ (fun r => M r j) NS).
  - intros r Hr. rewrite (csum_ext n _ (fun l => csum n (fun k => M r l * (X l k * M k j)))) by (intros; now rewrite <- csum_mul_l).
    rewrite csum_swap. rewrite (csum_ext n _ (fun k => delta r k * M k j)).
    + now apply (csum_delta_l n (fun k => M k j)).
    + intros k Hk. rewrite (csum_ext n _ (fun l => M r l * X l k * M k j)) by (intros; ring). rewrite csum_mul_r. f_equal. apply (proj1 (P k Hk)). exact Hr.
  - intros r Hr. now apply csum_delta_r.
Qed.
Lemma mul_vec n M Y (u : vec) : (forall i j, (i < n)%nat -> (j < n)%nat -> csum n (fun k => M i k * Y k j) = delta i j) ->
  veqn n (mv n M (mv n Y u)) u.
Proof.
  intros H i Hi. unfold mv. rewrite (csum_ext n _ (fun k => csum n (fun j => M i k * (Y k j * u j)))) by (intros; now rewrite <- csum_mul_l).
  rewrite csum_swap. rewrite (csum_ext n _ (fun j => delta i j * u j)); [now apply csum_delta_l|].
  intros j Hj. rewrite (csum_ext n _ (fun k => M i k * Y k j * u j)) by (intros; ring). rewrite csum_mul_r. now rewrite H.
Qed.
Lemma right_inverse_nonsingular n M Y : (forall i j, (i < n)%nat -> (j < n)%nat -> csum n (fun k => M i k * Y k j) = delta i j) -> nonsingular n M.
Proof.
  intros H u Hu.
  assert (NY : nonsingular n Y).
  { intros w Hw i Hi. rewrite <- (mul_vec n M Y w H i Hi). change (mv n M (mv n Y w) i = c0). rewrite (mv_ext n M (mv n Y w) vzero Hw i).
    apply csum_zero. intros. unfold vzero, c0. ring. }
  destruct (solve_nonsingular n Y u NY) as (w & Ew). apply solve_ok in Ew as [Sw _].
  assert (Zw : veqn n w vzero).
  { intros i Hi. rewrite <- (mul_vec n M Y w H i Hi). rewrite (mv_ext n M (mv n Y w) u Sw i). apply (Hu i Hi). }
  intros i Hi. rewrite <- (Sw i Hi). apply csum_zero. intros k Hk. rewrite (Zw k Hk). unfold vzero, c0. ring.
Qed.
Lemma np_inv_total n M : nonsingular n M -> exists X, np_inv n M = Ok X.
Proof.
  intros NS. unfold np_inv. destruct (mapM_all (fun j => solve n M (unit_vec j)) (seq 0 n)) as (ys & ->); [|eauto].
  intros j _. now apply solve_nonsingular.
Qed.
Lemma np_inv_unique n M X Y : np_inv n M = Ok X ->
  (forall i j, (i < n)%nat -> (j < n)%nat -> csum n (fun k => M i k * Y k j) = delta i j) ->
  forall i j, (i < n)%nat -> (j < n)%nat -> X i j = Y i j.
Proof.
  intros H HY i j Hi Hj. destruct (np_inv_cols n M X H j Hj) as [Sx NS].
  refine (solve_unique n M (fun i => X i j) (fun i => Y i j) (unit_vec j) NS Sx _ i Hi). intros r Hr. now apply HY.
Qed.
Lemma np_inv_err n M e : np_inv n M = Err e -> e = LinAlgError /\ ~ nonsingular n M.
Proof.
  unfold np_inv. destruct (mapM _ (seq 0 n)) as [|e'] eqn:E; [discriminate|]. intros H. injection H as ->.
  apply mapM_err in E as (j & _ & Ej). now apply solve_err in Ej.
Qed.

(** ** The step *)
Lemma cpt_dyson d G V G' : nonsingular d G ->
  (forall i j, (i < d)%nat -> (j < d)%nat -> G' i j = G i j + csum d (fun k => csum d (fun l => G i k * V k l * G' l j))) ->
  exists X, cpt d G V = Ok X /\ (forall i j, (i < d)%nat -> (j < d)%nat -> X i j = G' i j) /\ dyson d G V X.
Proof.
  intros NS D. unfold cpt. destruct (np_inv_total d G NS) as (I & EI). rewrite EI. pose proof (np_inv_ok d G I EI) as Inv.
  assert (R : forall i j, (i < d)%nat -> (j < d)%nat -> csum d (fun k => (I i k - V i k) * G' k j) = delta i j).
  { intros i j Hi Hj. rewrite (csum_ext d _ (fun k => I i k * G' k j - V i k * G' k j)) by (intros; ring). rewrite csum_sub.
    rewrite (csum_ext d (fun k => I i k * G' k j) (fun k => I i k * G k j + I i k * csum d (fun m => csum d (fun l => G k m * V m l * G' l j)))).
    2:{ intros k Hk. rewrite (D k j Hk Hj). ring. }
    rewrite csum_add, (proj2 (Inv i j Hi Hj)).
    assert (E : csum d (fun k => I i k * csum d (fun m => csum d (fun l => G k m * V m l * G' l j))) = csum d (fun k => V i k * G' k j)).
    { rewrite (csum_ext d _ (fun k => csum d (fun m => I i k * G k m * csum d (fun l => V m l * G' l j)))).
      2:{ intros k Hk. rewrite <- csum_mul_l. apply csum_ext. intros m Hm. rewrite <- !csum_mul_l. apply csum_ext. intros l Hl. ring. }
      rewrite csum_swap. rewrite (csum_ext d _ (fun m => delta i m * csum d (fun l => V m l * G' l j))).
      2:{ intros m Hm. rewrite csum_mul_r. now rewrite (proj2 (Inv i m Hi Hm)). }
      now apply (csum_delta_l d (fun m => csum d (fun l => V m l * G' l j))). }
    rewrite E. ring. }
  destruct (np_inv_total d (fun r c => I r c - V r c)) as (X & EX); [eapply right_inverse_nonsingular; exact R|].
  exists X. split; [exact EX|]. pose proof (np_inv_unique d _ X G' EX R) as U. split; [exact U|].
  pose proof (np_inv_ok d _ X EX) as InvX. intros i j Hi Hj. split.
  - rewrite (U i j Hi Hj), (D i j Hi Hj). f_equal. apply csum_ext. intros k Hk. apply csum_ext. intros l Hl. now rewrite (U l j Hl Hj).
  - (* X (I - V) = 1, times G from the right: X - X V G = G *)
    assert (E : csum d (fun k => csum d (fun m => X i m * (I m k - V m k)) * G k j) = G i j).
    { rewrite (csum_ext d _ (fun k => delta i k * G k j)); [now apply (csum_delta_l d (fun k => G k j))|]. intros k Hk. now rewrite (proj2 (InvX i k Hi Hk)). }
    rewrite (csum_ext d _ (fun k => csum d (fun m => X i m * (I m k * G k j)) - csum d (fun m => X i m * V m k * G k j))) in E.
    2:{ intros k Hk. rewrite <- csum_mul_r, <- csum_sub. apply csum_ext. intros. ring. }
    rewrite csum_sub in E. rewrite (csum_swap d d (fun k m => X i m * (I m k * G k j))) in E.
    rewrite (csum_ext d (fun m => csum d (fun k => X i m * (I m k * G k j))) (fun m => X i m * delta m j)) in E.
    2:{ intros m Hm. rewrite csum_mul_l. now rewrite (proj2 (Inv m j Hm Hj)). }
    rewrite (csum_delta_r d (fun m => X i m) j Hj) in E. rewrite (csum_swap d d (fun k m => X i m * V m k * G k j)) in E.
    rewrite <- E. ring.
Qed.

(** ** Lehmann functions *)
Lemma lehmann_form d eta G v n M b omega : eta <> 0%R -> hermitian n M ->
  (forall i j, (i < d)%nat -> (j < d)%nat -> green "-" n M 0 (frequency omega eta) (b i) (b j) (G i j)) ->
  green "-" n M 0 (frequency omega eta) (superposition d v b) (superposition d v b) (form d G v).
Proof. intros. now apply form_green. Qed.
Lemma orthonormal_weight d n b v : (forall i j, (i < d)%nat -> (j < d)%nat -> inner n (b i) (b j) = delta i j) ->
  norm2 n (superposition d v b) = rsum d (fun i => weight2 (v i)).
Proof.
  intros O. apply RtoC_inj. rewrite norm2_superposition, <- csum_R. apply csum_ext. intros i Hi.
  rewrite (csum_ext d _ (fun j => Cj (v i) * v j * delta i j)) by (intros j Hj; now rewrite O).
  rewrite (csum_single d _ i Hi); unfold delta.
  - rewrite Nat.eqb_refl. unfold weight2, Cj, c1. apply injective_projections; cbn; unfold Re, Im; ring.
  - intros j _ Hne. destruct (Nat.eqb_spec i j); [congruence|]. unfold c0. ring.
Qed.
Lemma lehmann_nonsingular d eta G omega : (0 < eta)%R -> lehmann d eta G -> nonsingular d (G omega).
Proof.
  intros He (n & M & b & HM & O & Gr) v Hv.
  assert (F : green "-" n M 0 (frequency omega eta) (superposition d v b) (superposition d v b) (form d (G omega) v)) by (apply lehmann_form; auto; lra).
  assert (Z : form d (G omega) v = c0).
  { unfold form. apply csum_zero. intros i Hi. rewrite (csum_ext d _ (fun j => G omega i j * v j * Cj (v i))) by (intros; ring).
    rewrite csum_mul_r, (Hv i Hi). unfold vzero, c0. ring. }
  destruct (density_pos "-" n M 0 omega eta _ _ HM He F) as [_ Q].
  assert (S0 : spectrum (form d (G omega) v) = 0%R) by (rewrite Z; unfold spectrum, Im, c0, RtoC; cbn; unfold Rdiv; ring).
  apply Q in S0. assert (N0 : norm2 n (superposition d v b) = 0%R) by (now apply norm2_0_iff).
  rewrite (orthonormal_weight d n b v O) in N0. intros i Hi.
  assert (W : weight2 (v i) = 0%R).
  { refine (rsum_zero_all d (fun i => weight2 (v i)) _ N0 i Hi). intros k _. unfold weight2. pose proof (Rle_0_sqr (Re (v k))). pose proof (Rle_0_sqr (Im (v k))). unfold Rsqr in *. lra. }
  unfold weight2, vzero, c0 in *. pose proof (Rle_0_sqr (Re (v i))). pose proof (Rle_0_sqr (Im (v i))). unfold Rsqr in *.
  assert (Re (v i) = 0%R) by (apply Rsqr_0_uniq; unfold Rsqr; lra). assert (Im (v i) = 0%R) by (apply Rsqr_0_uniq; unfold Rsqr; lra).
  unfold Re, Im in *. apply injective_projections; cbn; assumption.
Qed.
