(** C55: Green functions are bounded, causal, have the moments of the spectrum as
    their expansion in 1/z, and the Lanczos solver keeps all of this for every
    Krylov space and errs by a stated amount. *)
From Coq Require Import Reals String List ZArith Bool Arith Lia Lra.
From Coquelicot Require Import Complex.
From Verif Require Import Py CVec LinSolve Lanczos_Model Lanczos_Spec Lanczos_Properties
  GF_Model GF_Spec GF_Proofs2 GF_Proofs3 GF_Proofs4 GF_Proofs5 GF_Properties GFAnalytic_Spec GFAnalytic_Proofs GFAnalytic_Proofs2.
Import ListNotations.
Local Open Scope nat_scope.
Local Open Scope C_scope.

(** ** The exact solver *)
(** |G| <= |A+ GS| |B GS| / |eta|, whatever H, GE and omega. *)
Theorem C55_bound : forall (K : Type) (keqb : K -> K -> bool) (dagger : K -> K) n GE HM es eta omega A B sign a b g,
  hermitian n HM -> eta <> 0%R -> lookup keqb B es = Ok b -> lookup keqb (dagger A) es = Ok a ->
  GFSolverExactSingle keqb dagger n GE HM es eta omega A B sign = Ok g ->
  (Cmod g <= norm n a * norm n b / Rabs eta)%R.
Proof.
  intros K keqb dagger n GE HM es eta omega A B sign a b g HH He EB EA EG. apply exact_single_iff in EG.
  destruct EG as (a' & b' & E1 & E2 & I & G). rewrite EB in E1. rewrite EA in E2. injection E1 as <-. injection E2 as <-.
  assert (X := green_expansion sign n HM GE HH omega eta a b g 0 0 He G). cbn [plus excited cpow] in X. unfold expansion in X. cbn [csum] in X.
  replace (c1 * g - c0) with g in X by (unfold c0, c1; ring). exact X.
Qed.
Print Assumptions C55_bound.

(** The expansion in 1/z to every order: z^(p+q) G differs from
    sum_(k<p+q) z^(p+q-1-k) <A+ GS|D^k|B GS>, D = +/- (H - GE), by at most |D^p A+ GS| |D^q B GS| / |eta|. *)
Theorem C55_expansion : forall (K : Type) (keqb : K -> K -> bool) (dagger : K -> K) n GE HM es eta omega A B sign a b g p q,
  hermitian n HM -> eta <> 0%R -> lookup keqb B es = Ok b -> lookup keqb (dagger A) es = Ok a ->
  GFSolverExactSingle keqb dagger n GE HM es eta omega A B sign = Ok g ->
  (Cmod (cpow (frequency omega eta) (p + q) * g - expansion sign n HM GE (frequency omega eta) a b (p + q))%C <=
   norm n (excited sign n HM GE p a) * norm n (excited sign n HM GE q b) / Rabs eta)%R.
Proof.
  intros K keqb dagger n GE HM es eta omega A B sign a b g p q HH He EB EA EG. apply exact_single_iff in EG.
  destruct EG as (a' & b' & E1 & E2 & I & G). rewrite EB in E1. rewrite EA in E2. injection E1 as <-. injection E2 as <-.
  exact (green_expansion sign n HM GE HH omega eta a b g p q He G).
Qed.
Print Assumptions C55_expansion.

(** The sum rule: z G tends to <A+ GS|B GS>. *)
Theorem C55_sum_rule : forall (K : Type) (keqb : K -> K -> bool) (dagger : K -> K) n GE HM es eta omega A B sign a b g,
  hermitian n HM -> eta <> 0%R -> lookup keqb B es = Ok b -> lookup keqb (dagger A) es = Ok a ->
  GFSolverExactSingle keqb dagger n GE HM es eta omega A B sign = Ok g ->
  (Cmod (frequency omega eta * g - inner n a b)%C <= norm n a * norm n (fun i => mv n HM b i - RtoC GE * b i)%C / Rabs eta)%R.
Proof.
  intros K keqb dagger n GE HM es eta omega A B sign a b g HH He EB EA EG.
  assert (X := C55_expansion K keqb dagger n GE HM es eta omega A B sign a b g 0 1 HH He EB EA EG).
  cbn [plus excited cpow] in X. unfold expansion in X. cbn [csum Nat.sub cpow excited] in X.
  replace (frequency omega eta * c1 * g - (c0 + c1 * inner n a b)) with (frequency omega eta * g - inner n a b) in X by (unfold c0, c1; ring).
  eapply Rle_trans; [exact X|]. apply Rmult_le_compat_r; [left; apply Rinv_0_lt_compat; now apply Rabs_pos_lt|].
  apply Rmult_le_compat_l; [apply norm_nonneg|]. apply Req_le. unfold norm. f_equal. unfold norm2. apply rsum_ext. intros i _.
  unfold excitation. destruct (String.eqb sign "+"); unfold Re, Im; cbn; ring.
Qed.
Print Assumptions C55_sum_rule.

(** G_AB(z)* = G_(B+ A+)(z* ). *)
Theorem C55_reflection : forall (K : Type) (keqb : K -> K -> bool) (dagger : K -> K) n GE HM es eta omega A B sign g,
  hermitian n HM -> eta <> 0%R -> dagger (dagger B) = B ->
  GFSolverExactSingle keqb dagger n GE HM es eta omega A B sign = Ok g ->
  GFSolverExactSingle keqb dagger n GE HM es (- eta) omega (dagger B) (dagger A) sign = Ok (Cj g).
Proof.
  intros K keqb dagger n GE HM es eta omega A B sign g HH He ED EG. apply exact_single_iff in EG. apply exact_single_iff.
  destruct EG as (a & b & E1 & E2 & I & G). exists b, a. rewrite ED. split; [assumption|]. split; [assumption|].
  split; [apply hermitian_invertible; [assumption|lra]|]. now apply green_conj.
Qed.
Print Assumptions C55_reflection.

(** The sign "+" is the sign "-" at the opposite frequency with the opposite sign. *)
Theorem C55_signs : forall (K : Type) (keqb : K -> K -> bool) (dagger : K -> K) n GE HM es eta omega A B g,
  hermitian n HM -> eta <> 0%R ->
  (GFSolverExactSingle keqb dagger n GE HM es eta omega A B "+" = Ok g <->
   GFSolverExactSingle keqb dagger n GE HM es (- eta) (- omega) A B "-" = Ok (- g)).
Proof.
  intros K keqb dagger n GE HM es eta omega A B g HH He. rewrite !exact_single_iff.
  split; intros (a & b & E1 & E2 & I & G); exists a, b; (split; [assumption|]); (split; [assumption|]);
    (split; [apply hermitian_invertible; [assumption|lra]|]); now apply green_sign.
Qed.
Print Assumptions C55_signs.

(** The retarded function of A and A+: causal (Im <= 0, < 0 as soon as one of the states is not zero) ... *)
Theorem C55_retarded_causal : forall (K : Type) (keqb : K -> K -> bool) (dagger : K -> K) n GE HM es eta omega A a b g,
  hermitian n HM -> (0 < eta)%R -> dagger (dagger A) = A -> lookup keqb A es = Ok a -> lookup keqb (dagger A) es = Ok b ->
  RGFSolverExactSingle keqb dagger n GE HM es eta omega A (dagger A) "+" = Ok g ->
  (Im g <= 0)%R /\ (norm n a <> 0%R \/ norm n b <> 0%R -> (Im g < 0)%R).
Proof.
  intros K keqb dagger n GE HM es eta omega A a b g HH He ED EA EB EG.
  apply rgf_exact_single in EG. destruct EG as (g1 & g2 & G1 & G2 & E). cbn [String.eqb Ascii.eqb Bool.eqb] in E. subst g.
  destruct (C45_spectral_weight K keqb dagger n GE HM es eta omega A (dagger A) "-" b g1 HH He EB EB G1) as [P1 S1].
  assert (EB' : lookup keqb (dagger (dagger A)) es = Ok a) by now rewrite ED.
  destruct (C45_spectral_weight K keqb dagger n GE HM es eta omega (dagger A) A "+" a g2 HH He EA EB' G2) as [P2 S2].
  assert (Im (g1 + g2)%C = Im g1 + Im g2)%R as -> by reflexivity. split; [lra|]. intros [N|N]; [specialize (S2 N)|specialize (S1 N)]; lra.
Qed.
Print Assumptions C55_retarded_causal.
(** ... and its sum rule: z RGF tends to <A+ GS|B GS> +/- <B+ GS|A GS>, the ground-state value of AB +/- BA. *)
Theorem C55_retarded_sum_rule : forall (K : Type) (keqb : K -> K -> bool) (dagger : K -> K) n GE HM es eta omega A B sign a b ad bd g,
  hermitian n HM -> eta <> 0%R -> lookup keqb A es = Ok a -> lookup keqb B es = Ok b ->
  lookup keqb (dagger A) es = Ok ad -> lookup keqb (dagger B) es = Ok bd ->
  RGFSolverExactSingle keqb dagger n GE HM es eta omega A B sign = Ok g ->
  (Cmod (frequency omega eta * g - (if String.eqb sign "+" then inner n ad b + inner n bd a else inner n ad b - inner n bd a))%C <=
   (norm n ad * norm n (fun i => mv n HM b i - RtoC GE * b i)%C + norm n bd * norm n (fun i => mv n HM a i - RtoC GE * a i)%C) / Rabs eta)%R.
Proof.
  intros K keqb dagger n GE HM es eta omega A B sign a b ad bd g HH He EA EB EAd EBd EG.
  apply rgf_exact_single in EG. destruct EG as (g1 & g2 & G1 & G2 & ->).
  assert (X1 := C55_sum_rule K keqb dagger n GE HM es eta omega A B "-" ad b g1 HH He EB EAd G1).
  assert (X2 := C55_sum_rule K keqb dagger n GE HM es eta omega B A "+" bd a g2 HH He EA EBd G2).
  unfold Rdiv in *. rewrite Rmult_plus_distr_r. destruct (String.eqb sign "+").
  - match goal with |- (Cmod ?e <= _)%R => replace e with ((frequency omega eta * g1 - inner n ad b) + (frequency omega eta * g2 - inner n bd a)) by ring end.
    eapply Rle_trans; [apply Cmod_triangle|]. lra.
  - match goal with |- (Cmod ?e <= _)%R => replace e with ((frequency omega eta * g1 - inner n ad b) + - (frequency omega eta * g2 - inner n bd a)) by ring end.
    eapply Rle_trans; [apply Cmod_triangle|]. rewrite Cmod_opp. lra.
Qed.
Print Assumptions C55_retarded_sum_rule.

(** ** The Lanczos solver, for every threshold and every krylov_space_dim > 0 *)
(** It returns, obeys the bound of the exact function, and is causal for A+ = B. *)
Theorem C55_lanczos_bound : forall (K : Type) (keqb : K -> K -> bool), (forall a b, keqb a b = true <-> a = b) ->
  forall (dagger : K -> K) n H thr (vectors : list (K * vec)) dim ms vs GE eta omega A B sign v0 a,
  hermitian n H -> (0 <= thr)%R -> NoDup (map fst vectors) -> (0 < dim)%Z -> eta <> 0%R ->
  MultiKrylov n H thr vectors dim = Ok (ms, vs) -> lookup keqb B vectors = Ok v0 -> lookup keqb (dagger A) vectors = Ok a ->
  exists g, GFSolverLanczosSingle keqb dagger GE ms vs eta omega A B sign = Ok g /\
    (Cmod g <= norm n a * norm n v0 / Rabs eta)%R /\
    (dagger A = B -> (0 < eta)%R -> (Im g < 0)%R).
Proof.
  intros K keqb Hk dagger n H thr vectors dim ms vs GE eta omega A B sign v0 a HH Ht ND Hdim He EM EB EA.
  destruct (lanczos_green keqb Hk dagger n H thr vectors dim ms vs GE eta omega A B sign v0 a HH Ht ND Hdim He EM EB EA)
    as (g & d & b & m & EG & Em & Rd & Hd & N0 & B0 & Ob & Rm & Sp & G).
  assert (HT := T_hermitian n H d b m HH Rm).
  exists g. split; [exact EG|]. split.
  - assert (X := green_expansion sign d (nd_cmat m) GE HT omega eta _ _ g 0 0 He G). cbn [plus excited cpow] in X. unfold expansion in X. cbn [csum] in X.
    replace (c1 * g - c0) with g in X by (unfold c0, c1; ring). eapply Rle_trans; [exact X|].
    apply Rmult_le_compat_r; [left; apply Rinv_0_lt_compat; now apply Rabs_pos_lt|].
    apply Rmult_le_compat; try apply norm_nonneg; [now apply norm_co|].
    replace (norm d (start n v0)) with (norm d (co n b v0)); [now apply norm_co|]. unfold norm. f_equal. apply rsum_ext. intros i Hi. now rewrite (co_v0 n d b v0 Ob Hd N0 B0 i Hi).
  - intros ED Hpos. rewrite ED, EB in EA. injection EA as <-.
    assert (G' : green sign d (nd_cmat m) GE (frequency omega eta) (start n v0) (start n v0) g).
    { apply (green_ext sign d (nd_cmat m) GE _ (co n b v0) _ (start n v0) _ _ (co_v0 n d b v0 Ob Hd N0 B0) (fun i _ => eq_refl) G). }
    destruct (green_im sign d (nd_cmat m) GE omega eta _ g HT G') as (x & Hx & ->). assert (P := norm2_nonneg d x).
    assert (norm2 d x <> 0%R); [|nra]. intros Z. apply N0.
    assert (X := norm2_zero d x Z). specialize (Hx 0%nat Hd). unfold shifted in Hx. rewrite (mv_ext d (nd_cmat m) x vzero X 0%nat), (X 0%nat Hd) in Hx.
    assert (M0 : mv d (nd_cmat m) vzero 0%nat = c0) by (apply csum_zero; intros; unfold vzero, c0; ring). rewrite M0 in Hx.
    unfold vzero, c0 in Hx. cbn [start] in Hx. assert (E0 : RtoC (norm n v0) = RtoC 0) by (rewrite <- Hx; destruct (String.eqb sign "+"); ring). now apply RtoC_inj'.
Qed.
Print Assumptions C55_lanczos_bound.

(** The error of the Lanczos value with a d-dimensional Krylov space: O(1/z^d), and O(1/z^(2d)) for A+ = B. *)
Theorem C55_lanczos_error : forall (K : Type) (keqb : K -> K -> bool), (forall a b, keqb a b = true <-> a = b) ->
  forall (dagger : K -> K) n H thr (vectors : list (K * vec)) dim ms vs GE eta omega A B sign v0 a m,
  hermitian n H -> (0 <= thr)%R -> NoDup (map fst vectors) -> (0 < dim)%Z -> eta <> 0%R ->
  MultiKrylov n H thr vectors dim = Ok (ms, vs) -> lookup keqb B vectors = Ok v0 -> lookup keqb (dagger A) vectors = Ok a ->
  lookup keqb B ms = Ok m ->
  let d := nd_rows m in
  exists gl ge, GFSolverLanczosSingle keqb dagger GE ms vs eta omega A B sign = Ok gl /\
    GFSolverExactSingle keqb dagger n GE H vectors eta omega A B sign = Ok ge /\
    (Cmod (cpow (frequency omega eta) d * (gl - ge))%C <= 2 * (norm n a * norm n (excited sign n H GE d v0) / Rabs eta))%R /\
    (dagger A = B ->
     (Cmod (cpow (frequency omega eta) (2 * d) * (gl - ge))%C <= 2 * (norm n (excited sign n H GE d v0) * norm n (excited sign n H GE d v0) / Rabs eta))%R).
Proof.
  intros K keqb Hk dagger n H thr vectors dim ms vs GE eta omega A B sign v0 a m0 HH Ht ND Hdim He EM EB EA Em0 d0.
  destruct (lanczos_green keqb Hk dagger n H thr vectors dim ms vs GE eta omega A B sign v0 a HH Ht ND Hdim He EM EB EA)
    as (g & d & b & m & EG & Em & Rd & Hd & N0 & B0 & Ob & Rm & Sp & G).
  rewrite Em0 in Em. injection Em as ->. unfold d0. rewrite Rd.
  assert (I := hermitian_invertible sign n H GE omega eta HH He).
  destruct (solve_nonsingular n (gf_matrix sign (frequency omega eta) GE H) v0 (proj2 (nonsingular_invertible sign n _ GE H) I)) as (x & Ex).
  apply solve_ok in Ex. destruct Ex as [Ex _]. apply solves_shifted in Ex.
  assert (Ge : green sign n H GE (frequency omega eta) a v0 (inner n a x)) by (exists x; split; [exact Ex|reflexivity]).
  exists g, (inner n a x). split; [exact EG|]. split.
  { apply exact_single_iff. exists a, v0. repeat (split; [assumption|]). exact Ge. }
  split; [exact (compare_any sign GE n H d b m v0 HH Ob Rm Hd N0 B0 Sp omega eta a g _ He G Ge)|].
  intros ED. assert (a = v0) as -> by (rewrite ED, EB in EA; now injection EA).
  refine (compare_diag sign GE n H d b m v0 HH Ob Rm Hd N0 B0 Sp omega eta g _ He _ Ge).
  exact (green_ext sign d (nd_cmat m) GE _ (co n b v0) _ (start n v0) _ _ (co_v0 n d b v0 Ob Hd N0 B0) (fun i _ => eq_refl) G).
Qed.
Print Assumptions C55_lanczos_error.
(** The retarded Lanczos function of A and A+ is causal. *)
Theorem C55_lanczos_retarded_causal : forall (K : Type) (keqb : K -> K -> bool), (forall a b, keqb a b = true <-> a = b) ->
  forall (dagger : K -> K) n H thr (vectors : list (K * vec)) dim ms vs GE eta omega A va vb,
  hermitian n H -> (0 <= thr)%R -> NoDup (map fst vectors) -> (0 < dim)%Z -> (0 < eta)%R -> dagger (dagger A) = A ->
  MultiKrylov n H thr vectors dim = Ok (ms, vs) -> lookup keqb A vectors = Ok va -> lookup keqb (dagger A) vectors = Ok vb ->
  exists g, RGFSolverLanczosSingle keqb dagger GE ms vs eta omega A (dagger A) "+" = Ok g /\ (Im g < 0)%R.
Proof.
  intros K keqb Hk dagger n H thr vectors dim ms vs GE eta omega A va vb HH Ht ND Hdim He ED EM EA EB.
  destruct (C55_lanczos_bound K keqb Hk dagger n H thr vectors dim ms vs GE eta omega A (dagger A) "-" vb vb HH Ht ND Hdim ltac:(lra) EM EB EB) as (g1 & G1 & _ & I1).
  assert (EA' : lookup keqb (dagger (dagger A)) vectors = Ok va) by now rewrite ED.
  destruct (C55_lanczos_bound K keqb Hk dagger n H thr vectors dim ms vs GE eta omega (dagger A) A "+" va va HH Ht ND Hdim ltac:(lra) EM EA EA') as (g2 & G2 & _ & I2).
  exists (g1 + g2). split.
  - apply rgf_lanczos_single. exists g1, g2. split; [exact G1|]. split; [exact G2|reflexivity].
  - specialize (I1 eq_refl He). specialize (I2 ED He). assert (Im (g1 + g2)%C = Im g1 + Im g2)%R as -> by reflexivity. lra.
Qed.
Print Assumptions C55_lanczos_retarded_causal.

(** Non-vacuity: H = [[0,1],[1,0]] and the state (1,0): a one-dimensional Krylov
    space meets the hypotheses; the exact value at z = i is -i/2, of modulus 1/2 <= 1. *)
Example C55_ex : exists ms vs, hermitian 2 ex_H /\ NoDup (map fst [(0%nat, e0)]) /\
  MultiKrylov 2 ex_H 0 [(0%nat, e0)] 1 = Ok (ms, vs) /\
  (exists g, GFSolverLanczosSingle Nat.eqb (fun k => k) 0 ms vs 1 0 0%nat 0%nat "-" = Ok g /\ (Im g < 0)%R /\ (Cmod g <= 1)%R) /\
  GFSolverExactSingle Nat.eqb (fun k => k) 2 0 ex_H [(0%nat, e0)] 1 0 0%nat 0%nat "-" = Ok ((0, -1/2)%R : C).
Proof.
  assert (HH : hermitian 2 ex_H) by (intros [|[|i]] [|[|j]] Hi Hj; try lia; unfold ex_H; cbn; [now rewrite Cj_0|now rewrite Cj_1|now rewrite Cj_1|now rewrite Cj_0]).
  assert (Nn : norm 2 e0 = 1%R) by (unfold norm, norm2, e0; cbn; replace (_ + _ + _)%R with 1%R by ring; apply sqrt_1).
  assert (ND : NoDup (map fst [(0%nat, e0)])) by (constructor; [intros []|constructor]).
  destruct (C44_per_key nat 2 ex_H 0 [(0%nat, e0)] 1 HH (Rle_refl 0)) as (ms & vs & E & _).
  { intros p [<-|[]]. cbn [snd]. rewrite Nn. lra. }
  exists ms, vs. split; [exact HH|]. split; [exact ND|]. split; [exact E|]. split; [|exact C45_ex_value].
  destruct (C55_lanczos_bound nat Nat.eqb Nat.eqb_eq (fun k => k) 2 ex_H 0 [(0%nat, e0)] 1 ms vs 0 1 0 0%nat 0%nat "-" e0 e0 HH (Rle_refl 0) ND ltac:(lia) ltac:(lra) E eq_refl eq_refl) as (g & G1 & G2 & G3).
  exists g. split; [exact G1|]. split; [apply G3; [reflexivity|lra]|]. rewrite Nn, Rabs_R1 in G2. lra.
Qed.
