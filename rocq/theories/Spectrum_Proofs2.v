(** Proofs for C58, continued. *)
From Coq Require Import Reals Qreals String List ZArith NArith Bool Arith Lia Lra.
From Coquelicot Require Import Coquelicot.
From Verif Require Import Py GQ Mat CVec LinSolve Lanczos_Model Lanczos_Spec Lanczos_Proofs2 GF_Model GF_Spec GF_Proofs GF_Proofs2 GFAnalytic_Proofs
  State_Model State_Spec MatrixRepr_Model Fock_Spec Fock_Proofs MatrixRepr_Proofs MatrixRepr_Proofs2 Particle_Model Particle_Spec Particle_Proofs2 Conserve_Spec
  Free_Spec Free_Proofs Free_Proofs2 Free_Proofs3 Free_Proofs4 Free_Proofs5 Spectral_Proofs Spectrum_Spec Spectrum_Proofs.
Import ListNotations.
Local Open Scope nat_scope.
Local Open Scope C_scope.

(** Where the level E_k appears: E_k - GE, or GE - E_k for the sign "+". *)
Definition level (sign : string) (E GE : R) : R := if String.eqb sign "+" then (GE - E)%R else (E - GE)%R.
Lemma spectral_term sign E GE omega eta (c : R) : (0 < eta)%R ->
  spectrum (RtoC c / shifted_value sign E GE (frequency omega eta)) = (c * lorentz (level sign E GE) eta omega)%R.
Proof.
  intros He. pose proof (lorentz_pos (level sign E GE) eta omega He) as HL. pose proof PI_RGT_0.
  assert (E0 : shifted_value sign E GE (frequency omega eta) = ((omega - level sign E GE)%R, eta)).
  { unfold shifted_value, level, frequency. destruct (String.eqb sign "+"); apply injective_projections; cbn; ring. }
  rewrite E0. unfold spectrum, lorentz, Im, Cdiv, Cinv, Cmult, RtoC. cbn [fst snd]. set (l := level sign E GE) in *.
  field. split; [lra|]. intros Q. apply (Rlt_irrefl 0). rewrite <- Q at 2. lra.
Qed.
Lemma im_csum n f : Im (csum n f) = rsum n (fun k => Im (f k)).
Proof. induction n as [|n IH]; [reflexivity|]. cbn [csum rsum]. rewrite <- IH. reflexivity. Qed.
Lemma spectral_csum n f : spectrum (csum n f) = rsum n (fun k => spectrum (f k)).
Proof.
  unfold spectrum. rewrite im_csum. induction n as [|n IH]; cbn [rsum]; [unfold Rdiv; ring|]. rewrite <- IH. unfold Rdiv. ring.
Qed.
Lemma spectral_add a b : spectrum (a + b) = (spectrum a + spectrum b)%R.
Proof. unfold spectrum, Im, Cplus. cbn [snd]. unfold Rdiv. ring. Qed.
Definition weight2 (c : C) : R := (Re c * Re c + Im c * Im c)%R.

Lemma density_lorentz sign n H GE omega eta w g E e : hermitian n H -> (0 < eta)%R -> eigenbasis n H E e ->
  green sign n H GE (frequency omega eta) w w g ->
  spectrum g = rsum n (fun k => weight2 (inner n (e k) w) * lorentz (level sign (E k) GE) eta omega)%R.
Proof.
  intros HH He B G.
  rewrite (green_unique sign n H GE (frequency omega eta) w w g _ (hermitian_invertible sign n H GE omega eta HH ltac:(lra)) G
    (green_eigenbasis sign n H GE omega eta w w E e ltac:(lra) B)).
  rewrite spectral_csum. apply rsum_ext. intros k Hk. rewrite <- (spectral_term sign (E k) GE omega eta _ He). f_equal. f_equal.
  rewrite (inner_swap n (e k) w). unfold weight2, Cj. apply injective_projections; cbn; unfold Re, Im; ring.
Qed.
Lemma density_weight sign n H GE eta w (g : R -> C) : hermitian n H -> (0 < eta)%R ->
  (forall omega, green sign n H GE (frequency omega eta) w w (g omega)) ->
  integrates_to (fun omega => spectrum (g omega)) (norm2 n w).
Proof.
  intros HH He G. destruct (eigenbasis_exists n H HH) as (E & e & B). rewrite (parseval2 n H E e w B).
  apply (integrates_ext (fun omega => rsum n (fun k => weight2 (inner n (e k) w) * lorentz (level sign (E k) GE) eta omega)%R)).
  - intros omega. symmetry. now apply (density_lorentz sign n H GE omega eta w (g omega) E e).
  - apply (integrates_rsum n (fun k => weight2 (inner n (e k) w)) (fun k => lorentz (level sign (E k) GE) eta)).
    intros. now apply integrates_lorentz.
Qed.
Lemma density_pos sign n H GE omega eta w g : hermitian n H -> (0 < eta)%R -> green sign n H GE (frequency omega eta) w w g ->
  (0 <= spectrum g)%R /\ (spectrum g = 0%R <-> veqn n w vzero).
Proof.
  intros HH He G. pose proof PI_RGT_0 as HP. destruct (green_im sign n H GE omega eta w g HH G) as (x & Hx & Ei).
  pose proof (norm2_nonneg n x) as Nx. assert (Es : spectrum g = (eta * norm2 n x / PI)%R) by (unfold spectrum; rewrite Ei; field; lra).
  split.
  - rewrite Es. apply Rmult_le_pos; [apply Rmult_le_pos; lra|]. left. now apply Rinv_0_lt_compat.
  - split.
    + intros Z. rewrite Es in Z. assert (Z' : norm2 n x = 0%R).
      { apply (Rmult_eq_reg_l (eta / PI)%R); [|apply Rgt_not_eq; now apply Rdiv_lt_0_compat]. rewrite Rmult_0_r, <- Z. field. lra. }
      intros i Hi. rewrite <- (Hx i Hi). pose proof (norm2_zero n x Z') as X0. unfold shifted. rewrite (mv_ext n H x vzero X0 i), (X0 i Hi).
      assert (M0 : mv n H vzero i = c0) by (apply csum_zero; intros; unfold vzero, c0; ring). rewrite M0. unfold vzero, c0. destruct (String.eqb sign "+"); ring.
    + intros W. rewrite (green_unique sign n H GE (frequency omega eta) w w g c0 (hermitian_invertible sign n H GE omega eta HH ltac:(lra)) G).
      * unfold spectrum, c0, Im. cbn. field. lra.
      * exists vzero. split; [|now rewrite inner_zero_r]. intros i Hi. rewrite (W i Hi). unfold shifted.
        assert (M0 : mv n H vzero i = c0) by (apply csum_zero; intros; unfold vzero, c0; ring). rewrite M0. unfold vzero, c0. destruct (String.eqb sign "+"); ring.
Qed.

Lemma form_green sign n H GE omega eta d (b : nat -> vec) v (G : cmat) : hermitian n H -> eta <> 0%R ->
  (forall i j, (i < d)%nat -> (j < d)%nat -> green sign n H GE (frequency omega eta) (b i) (b j) (G i j)) ->
  green sign n H GE (frequency omega eta) (superposition d v b) (superposition d v b) (form d G v).
Proof.
  intros HH He HG. unfold form.
  rewrite (csum_ext d _ (fun i => csum d (fun j => Cj (v i) * v j * G i j))) by (intros i _; apply csum_ext; intros; ring).
  now apply green_form.
Qed.
(** The second part of the retarded function: the roles of i and j are exchanged. *)
Lemma form_green_swapped sign n H GE omega eta d (b : nat -> vec) v (G : cmat) : hermitian n H -> eta <> 0%R ->
  (forall i j, (i < d)%nat -> (j < d)%nat -> green sign n H GE (frequency omega eta) (b j) (b i) (G i j)) ->
  green sign n H GE (frequency omega eta) (superposition d (fun j => Cj (v j)) b) (superposition d (fun j => Cj (v j)) b) (form d G v).
Proof.
  intros HH He HG. unfold form. rewrite csum_swap.
  rewrite (csum_ext d _ (fun j => csum d (fun i => Cj (Cj (v j)) * Cj (v i) * G i j))) by (intros i _; apply csum_ext; intros; rewrite Cj_Cj; ring).
  apply (green_form sign n H GE omega eta d b b (fun j => Cj (v j)) (fun j => Cj (v j)) (fun j i => G i j) HH He). intros. now apply HG.
Qed.
Lemma norm2_superposition n d v b : RtoC (norm2 n (superposition d v b)) = csum d (fun i => csum d (fun j => Cj (v i) * v j * inner n (b i) (b j))).
Proof.
  rewrite <- inner_self. change (superposition d v b) with (combo d v b) at 2. rewrite Lanczos_Proofs2.inner_combo.
  rewrite (csum_swap d d (fun i j => Cj (v i) * v j * inner n (b i) (b j))). apply csum_ext. intros j Hj.
  rewrite (inner_swap n (b j)). change (superposition d v b) with (combo d v b). rewrite Lanczos_Proofs2.inner_combo, csum_conj, <- csum_mul_l.
  apply csum_ext. intros i Hi. rewrite (inner_swap n (b i) (b j)), Cj_mul, Cj_Cj. ring.
Qed.

(** ** Fermions: the two parts together have the weight sum |v_i|^2 *)
Section Weight.
  Context {K : Type} (keqb : K -> K -> bool) (dagger : K -> K) (op : K -> aoc).
  Variables (tbl : state_table) (d : nat) (st : nat -> stateid) (An Cr : nat -> K).
  Variables (basis : list N) (lp lh : option (list N)) (gs : vec) (esp esh : list (K * vec)) (p h : nat -> vec).
  Hypothesis Hb : sorted_bases basis.
  Hypothesis Hp : sorted_bases (the_left basis lp).
  Hypothesis Hh : sorted_bases (the_left basis lh).
  Hypothesis Dst : forall k l, (k < d)%nat -> (l < d)%nat -> same_st (st k) (st l) -> k = l.
  Hypothesis LK : ladder_keys dagger op d st An Cr.
  Hypothesis XP : holds_excited keqb op tbl basis lp gs esp d Cr.
  Hypothesis XH : holds_excited keqb op tbl basis lh gs esh d An.
  Hypothesis Lp : forall k, (k < d)%nat -> lookup keqb (Cr k) esp = Ok (p k).
  Hypothesis Lh : forall k, (k < d)%nat -> lookup keqb (An k) esh = Ok (h k).
  Hypothesis gs1 : inner (length basis) gs gs = c1.
  Hypothesis inj : forall s s' i, state_index tbl s = Ok i -> state_index tbl s' = Ok i -> same_st s s'.

  Lemma state_overlap i j : (i < d)%nat -> (j < d)%nat ->
    inner (length (the_left basis lp)) (p i) (p j) + inner (length (the_left basis lh)) (h j) (h i) = delta i j.
  Proof.
    set (ix := fun k => idx tbl (st k)).
    assert (SP : forall k, (k < d)%nat -> in_table tbl (st k) /\ closed_on [cr (ix k)] basis (the_left basis lp) /\
      veqn (length (the_left basis lp)) (p k) (mv (length basis) (cm (word_mat g1 [cr (ix k)] (the_left basis lp) basis)) gs)).
    { intros k Hk. destruct (XP k Hk) as (m & v & Em & Ev & V). destruct (LK k Hk) as (_ & EC & _). rewrite EC in Em.
      destruct (aoc_inv _ _ _ _ _ Hp Em) as (T & C1 & N1 & N2 & M). split; [exact T|]. split; [exact C1|].
      rewrite (Lp k Hk) in Ev. injection Ev as <-. intros r Hr. rewrite V by (rewrite N1; exact Hr).
      apply mv_ext_mat. intros s Hs. unfold cm. f_equal. now apply M. }
    assert (SH : forall k, (k < d)%nat -> closed_on [an (ix k)] basis (the_left basis lh) /\
      veqn (length (the_left basis lh)) (h k) (mv (length basis) (cm (word_mat g1 [an (ix k)] (the_left basis lh) basis)) gs)).
    { intros k Hk. destruct (XH k Hk) as (m & v & Em & Ev & V). destruct (LK k Hk) as (EA & _). rewrite EA in Em.
      destruct (aoc_inv _ _ _ _ _ Hh Em) as (T & C1 & N1 & N2 & M). split; [exact C1|].
      rewrite (Lh k Hk) in Ev. injection Ev as <-. intros r Hr. rewrite V by (rewrite N1; exact Hr).
      apply mv_ext_mat. intros s Hs. unfold cm. f_equal. now apply M. }
    assert (IX : forall k l, (k < d)%nat -> (l < d)%nat -> ix k = ix l -> k = l).
    { intros k l Hk Hl E. apply Dst; auto. destruct (SP k Hk) as ((a & A1 & A2) & _), (SP l Hl) as ((b & B1 & B2) & _).
      apply (inj _ _ a A1). unfold ix, idx in E. rewrite A1, B1 in E. replace a with b by lia. exact B1. }
    intros Hi Hj.
    rewrite (inner_ext _ _ _ _ _ (proj2 (proj2 (SP i Hi))) (proj2 (proj2 (SP j Hj)))), (inner_ext _ _ _ _ _ (proj2 (SH j Hj)) (proj2 (SH i Hi))).
    apply (vec_overlap basis (the_left basis lp) (the_left basis lh) d ix gs); auto; try (now apply sorted_NoDup).
    - intros k Hk. apply (SP k Hk).
    - intros k Hk. apply (SH k Hk).
  Qed.
  Lemma fermion_weight v : (norm2 (length (the_left basis lp)) (superposition d v p) + norm2 (length (the_left basis lh)) (superposition d (fun j => Cj (v j)) h) =
    rsum d (fun i => weight2 (v i)))%R.
  Proof.
    apply RtoC_inj. rewrite RtoC_plus, !norm2_superposition.
    rewrite (csum_swap d d (fun i j => Cj (Cj (v i)) * Cj (v j) * inner (length (the_left basis lh)) (h i) (h j))), <- csum_add, <- csum_R.
    apply csum_ext. intros i Hi. rewrite <- csum_add.
    rewrite (csum_ext d _ (fun j => Cj (v i) * v j * delta i j)).
    - rewrite (csum_single d _ i Hi); unfold delta.
      + rewrite Nat.eqb_refl. unfold weight2, Cj, c1. apply injective_projections; cbn; unfold Re, Im; ring.
      + intros j _ Hne. destruct (Nat.eqb_spec i j); [congruence|]. unfold c0. ring.
    - intros j Hj. rewrite <- (state_overlap i j Hi Hj). rewrite Cj_Cj. ring.
  Qed.
End Weight.
