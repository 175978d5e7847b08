(** C45, C46: Green functions. *)
From Coq Require Import Reals String List ZArith Bool Arith Lia Lra.
From Coquelicot Require Import Complex.
From Verif Require Import Py CVec LinSolve Lanczos_Model Lanczos_Spec Lanczos_Proofs Lanczos_Proofs2 Lanczos_Properties
  GF_Model GF_Spec GF_Proofs GF_Proofs2 GF_Proofs3 GF_Proofs4 GF_Proofs5.
Import ListNotations.
Local Open Scope nat_scope.
Local Open Scope C_scope.

(** ** Values of the exact solver *)
(** GFSolverExactSingle returns g iff the states of B and A.dagger() are given, the
    matrix z -/+ (H - GE) is invertible and g = <A+ GS| (z -/+ (H - GE))^-1 |B GS>. *)
Theorem C45_exact_single_value : forall (K : Type) (keqb : K -> K -> bool) (dagger : K -> K) n GE HM es eta omega A B sign g,
  GFSolverExactSingle keqb dagger n GE HM es eta omega A B sign = Ok g <->
  exists a b, lookup keqb B es = Ok b /\ lookup keqb (dagger A) es = Ok a /\
    invertible sign n HM GE (frequency omega eta) /\ green sign n HM GE (frequency omega eta) a b g.
Proof. intros. apply exact_single_iff. Qed.
Print Assumptions C45_exact_single_value.
(** A missing state gives KeyError, a singular matrix LinAlgError. *)
Theorem C45_exact_single_errors : forall (K : Type) (keqb : K -> K -> bool) (dagger : K -> K) n GE HM es eta omega A B sign,
  ((lookup keqb B es = Err KeyError \/ lookup keqb (dagger A) es = Err KeyError) ->
   GFSolverExactSingle keqb dagger n GE HM es eta omega A B sign = Err KeyError) /\
  (forall a b, lookup keqb B es = Ok b -> lookup keqb (dagger A) es = Ok a ->
   ~ invertible sign n HM GE (frequency omega eta) -> GFSolverExactSingle keqb dagger n GE HM es eta omega A B sign = Err LinAlgError).
Proof. intros. split; [apply exact_single_keyerror|]. intros. eapply exact_single_singular; eassumption. Qed.
Print Assumptions C45_exact_single_errors.
(** The inverse exists for every Hermitian H and eta <> 0, whatever omega and GE, and determines the value. *)
Theorem C45_never_singular : forall sign n H GE omega eta, hermitian n H -> eta <> 0%R ->
  invertible sign n H GE (frequency omega eta) /\
  forall a b g g', green sign n H GE (frequency omega eta) a b g -> green sign n H GE (frequency omega eta) a b g' -> g = g'.
Proof.
  intros sign n H GE omega eta HH He. assert (I := hermitian_invertible sign n H GE omega eta HH He). split; [exact I|].
  intros a b g g'. now apply green_unique.
Qed.
Print Assumptions C45_never_singular.
(** Lehmann representation: if B|GS> = sum_k c_k e_k with H e_k = E_k e_k, the solver
    returns sum_k c_k <A+ GS|e_k> / (z -/+ (E_k - GE)). *)
Theorem C45_lehmann : forall (K : Type) (keqb : K -> K -> bool) (dagger : K -> K) n GE HM es eta omega A B sign a b m
    (c : nat -> C) (E : nat -> R) (e : nat -> vec),
  hermitian n HM -> eta <> 0%R -> lookup keqb B es = Ok b -> lookup keqb (dagger A) es = Ok a ->
  (forall k, (k < m)%nat -> veqn n (mv n HM (e k)) (fun i => RtoC (E k) * e k i)) ->
  veqn n b (fun i => csum m (fun k => c k * e k i)) ->
  GFSolverExactSingle keqb dagger n GE HM es eta omega A B sign =
  Ok (csum m (fun k => c k * inner n a (e k) / shifted_value sign (E k) GE (frequency omega eta))).
Proof.
  intros K keqb dagger n GE HM es eta omega A B sign a b m c E e HH He EB EA HE Hb. apply exact_single_iff. exists a, b.
  split; [assumption|]. split; [assumption|]. split; [now apply hermitian_invertible|]. now apply green_lehmann.
Qed.
Print Assumptions C45_lehmann.
(** The spectral weight -Im G / eta of a diagonal term (A+ = B) is never negative, and positive for a non-zero state. *)
Theorem C45_spectral_weight : forall (K : Type) (keqb : K -> K -> bool) (dagger : K -> K) n GE HM es eta omega A B sign b g,
  hermitian n HM -> (0 < eta)%R -> lookup keqb B es = Ok b -> lookup keqb (dagger A) es = Ok b ->
  GFSolverExactSingle keqb dagger n GE HM es eta omega A B sign = Ok g ->
  (Im g <= 0)%R /\ (norm n b <> 0%R -> (Im g < 0)%R).
Proof.
  intros K keqb dagger n GE HM es eta omega A B sign b g HH He EB EA EG. apply exact_single_iff in EG.
  destruct EG as (a' & b' & E1 & E2 & I & G). rewrite EB in E1. rewrite EA in E2. injection E1 as <-. injection E2 as <-.
  destruct (green_im sign n HM GE omega eta b g HH G) as (x & Hx & ->). assert (P := norm2_nonneg n x). split; [nra|].
  intros Nb. assert (norm2 n x <> 0%R); [|nra]. intros Z. apply Nb. apply norm_0_iff. intros i Hi. rewrite <- (Hx i Hi).
  assert (X := norm2_zero n x Z). unfold shifted. rewrite (mv_ext n HM x vzero X i), (X i Hi).
  assert (M0 : mv n HM vzero i = c0) by (apply csum_zero; intros; unfold vzero, c0; ring). rewrite M0. unfold vzero, c0. destruct (String.eqb sign "+"); ring.
Qed.
Print Assumptions C45_spectral_weight.

(** ** Multiple = Single *)
(** If GFSolverExactMultiple returns, every Single call returns and the result holds
    exactly the Single values, as an array or as a dict, whatever np.empty contained. *)
Theorem C45_exact_multiple : forall (K : Type) (keqb : K -> K -> bool), (forall a b, keqb a b = true <-> a = b) ->
  forall (dagger : K -> K) n GE HM es eta junk omegas As Bs sign structure r,
  GFSolverExactMultiple keqb dagger n GE HM es eta junk omegas As Bs sign structure = Ok r ->
  exists f, (forall omega A B, In omega omegas -> In A As -> In B Bs ->
               GFSolverExactSingle keqb dagger n GE HM es eta omega A B sign = Ok (f omega A B)) /\
            holds keqb structure omegas As Bs f r.
Proof.
  intros K keqb Hk dagger n GE HM es eta junk omegas As Bs sign structure r H. apply (exact_multiple_ok keqb Hk) in H. destruct H as [T H].
  eexists. split; [|exact H]. intros omega A B Ho HA HB. destruct (T omega A B Ho HA HB) as (g & ->). reflexivity.
Qed.
Print Assumptions C45_exact_multiple.
(** It returns whenever all Single calls do. *)
Theorem C45_exact_multiple_returns : forall (K : Type) (keqb : K -> K -> bool), (forall a b, keqb a b = true <-> a = b) ->
  forall (dagger : K -> K) n GE HM es eta junk omegas As Bs sign structure, As <> [] -> Bs <> [] ->
  (forall omega A B, In omega omegas -> In A As -> In B Bs -> exists g, GFSolverExactSingle keqb dagger n GE HM es eta omega A B sign = Ok g) ->
  exists r, GFSolverExactMultiple keqb dagger n GE HM es eta junk omegas As Bs sign structure = Ok r.
Proof. intros K keqb Hk dagger n GE HM es eta junk omegas As Bs sign structure. exact (exact_multiple_total keqb Hk dagger n GE HM es eta junk omegas As Bs sign structure). Qed.
Print Assumptions C45_exact_multiple_returns.
Theorem C45_lanczos_multiple : forall (K : Type) (keqb : K -> K -> bool), (forall a b, keqb a b = true <-> a = b) ->
  forall (dagger : K -> K) GE ms vs eta junk omegas As Bs sign structure r,
  GFSolverLanczosMultiple keqb dagger GE ms vs eta junk omegas As Bs sign structure = Ok r ->
  exists f, (forall omega A B, In omega omegas -> In A As -> In B Bs ->
               GFSolverLanczosSingle keqb dagger GE ms vs eta omega A B sign = Ok (f omega A B)) /\
            holds keqb structure omegas As Bs f r.
Proof.
  intros K keqb Hk dagger GE ms vs eta junk omegas As Bs sign structure r H. apply (lanczos_multiple_ok keqb Hk) in H. destruct H as [T H].
  eexists. split; [|exact H]. intros omega A B Ho HA HB. destruct (T omega A B Ho HA HB) as (g & ->). reflexivity.
Qed.
Print Assumptions C45_lanczos_multiple.
Theorem C45_lanczos_multiple_returns : forall (K : Type) (keqb : K -> K -> bool), (forall a b, keqb a b = true <-> a = b) ->
  forall (dagger : K -> K) GE ms vs eta junk omegas As Bs sign structure, As <> [] -> omegas <> [] ->
  (forall omega A B, In omega omegas -> In A As -> In B Bs -> exists g, GFSolverLanczosSingle keqb dagger GE ms vs eta omega A B sign = Ok g) ->
  exists r, GFSolverLanczosMultiple keqb dagger GE ms vs eta junk omegas As Bs sign structure = Ok r.
Proof. intros K keqb Hk dagger GE ms vs eta junk omegas As Bs sign structure. exact (lanczos_multiple_total keqb Hk dagger GE ms vs eta junk omegas As Bs sign structure). Qed.
Print Assumptions C45_lanczos_multiple_returns.

(** ** Retarded functions *)
(** RGF_AB = G_AB(sign "-") + G_BA(sign "+") for "+", the difference otherwise. *)
Theorem C45_rgf_single : forall (K : Type) (keqb : K -> K -> bool) (dagger : K -> K) omega A B GE eta sign g,
  (forall n HM es, RGFSolverExactSingle keqb dagger n GE HM es eta omega A B sign = Ok g <->
     exists g1 g2, GFSolverExactSingle keqb dagger n GE HM es eta omega A B "-" = Ok g1 /\
                   GFSolverExactSingle keqb dagger n GE HM es eta omega B A "+" = Ok g2 /\
                   g = if String.eqb sign "+" then g1 + g2 else g1 - g2) /\
  (forall ms vs, RGFSolverLanczosSingle keqb dagger GE ms vs eta omega A B sign = Ok g <->
     exists g1 g2, GFSolverLanczosSingle keqb dagger GE ms vs eta omega A B "-" = Ok g1 /\
                   GFSolverLanczosSingle keqb dagger GE ms vs eta omega B A "+" = Ok g2 /\
                   g = if String.eqb sign "+" then g1 + g2 else g1 - g2).
Proof. intros. split; intros; [apply rgf_exact_single|apply rgf_lanczos_single]. Qed.
Print Assumptions C45_rgf_single.
Theorem C45_rgf_exact_multiple : forall (K : Type) (keqb : K -> K -> bool), (forall a b, keqb a b = true <-> a = b) ->
  forall (dagger : K -> K) n GE HM es eta j1 j2 j3 omegas As Bs sign structure,
  (forall r, RGFSolverExactMultiple keqb dagger n GE HM es eta j1 j2 j3 omegas As Bs sign structure = Ok r ->
   exists f, (forall omega A B, In omega omegas -> In A As -> In B Bs ->
                RGFSolverExactSingle keqb dagger n GE HM es eta omega A B sign = Ok (f omega A B)) /\
             holds keqb structure omegas As Bs f r) /\
  (As <> [] -> Bs <> [] ->
   (forall omega A B, In omega omegas -> In A As -> In B Bs -> exists g, RGFSolverExactSingle keqb dagger n GE HM es eta omega A B sign = Ok g) ->
   exists r, RGFSolverExactMultiple keqb dagger n GE HM es eta j1 j2 j3 omegas As Bs sign structure = Ok r).
Proof.
  intros K keqb Hk dagger n GE HM es eta j1 j2 j3 omegas As Bs sign structure. split.
  - intros r H. apply (rgf_exact_multiple_ok keqb Hk) in H. destruct H as [T H]. eexists. split; [|exact H].
    intros omega A B Ho HA HB. destruct (T omega A B Ho HA HB) as (g & ->). reflexivity.
  - exact (rgf_exact_multiple_total keqb Hk dagger n GE HM es eta j1 j2 j3 omegas As Bs sign structure).
Qed.
Print Assumptions C45_rgf_exact_multiple.
Theorem C45_rgf_lanczos_multiple : forall (K : Type) (keqb : K -> K -> bool), (forall a b, keqb a b = true <-> a = b) ->
  forall (dagger : K -> K) GE ms vs eta j1 j2 j3 omegas As Bs sign structure,
  (forall r, RGFSolverLanczosMultiple keqb dagger GE ms vs eta j1 j2 j3 omegas As Bs sign structure = Ok r ->
   exists f, (forall omega A B, In omega omegas -> In A As -> In B Bs ->
                RGFSolverLanczosSingle keqb dagger GE ms vs eta omega A B sign = Ok (f omega A B)) /\
             holds keqb structure omegas As Bs f r) /\
  (As <> [] -> Bs <> [] -> omegas <> [] ->
   (forall omega A B, In omega omegas -> In A As -> In B Bs -> exists g, RGFSolverLanczosSingle keqb dagger GE ms vs eta omega A B sign = Ok g) ->
   exists r, RGFSolverLanczosMultiple keqb dagger GE ms vs eta j1 j2 j3 omegas As Bs sign structure = Ok r).
Proof.
  intros K keqb Hk dagger GE ms vs eta j1 j2 j3 omegas As Bs sign structure. split.
  - intros r H. apply (rgf_lanczos_multiple_ok keqb Hk) in H. destruct H as [T H]. eexists. split; [|exact H].
    intros omega A B Ho HA HB. destruct (T omega A B Ho HA HB) as (g & ->). reflexivity.
  - exact (rgf_lanczos_multiple_total keqb Hk dagger GE ms vs eta j1 j2 j3 omegas As Bs sign structure).
Qed.
Print Assumptions C45_rgf_lanczos_multiple.

(** ** Lanczos = exact *)
(** If the Krylov space of B|GS> found by MultiKrylov (d = side of the projected matrix;
    the span of v0, H v0 ... H^(d-1) v0) is invariant under H, the Lanczos solver
    returns the exact value, for every A whose A+|GS> is among the vectors. *)
Theorem C46_lanczos_equals_exact : forall (K : Type) (keqb : K -> K -> bool), (forall a b, keqb a b = true <-> a = b) ->
  forall (dagger : K -> K) n H thr (vectors : list (K * vec)) dim ms vs GE eta omega A B sign v0 a m,
  hermitian n H -> (0 <= thr)%R -> NoDup (map fst vectors) -> (0 < dim)%Z -> eta <> 0%R ->
  MultiKrylov n H thr vectors dim = Ok (ms, vs) ->
  lookup keqb B vectors = Ok v0 -> lookup keqb (dagger A) vectors = Ok a -> lookup keqb B ms = Ok m ->
  invariant_span n H (nd_rows m) (fun j => power n H j v0) ->
  exists g, GFSolverLanczosSingle keqb dagger GE ms vs eta omega A B sign = Ok g /\
            GFSolverExactSingle keqb dagger n GE H vectors eta omega A B sign = Ok g.
Proof. intros K keqb Hk dagger n H thr vectors dim ms vs GE eta omega A B sign v0 a m. exact (lanczos_exact keqb Hk dagger n H thr vectors dim ms vs GE eta omega A B sign v0 a m). Qed.
Print Assumptions C46_lanczos_equals_exact.
(** With threshold 0 and krylov_space_dim at least the dimension of H this is always so. *)
Theorem C46_full_krylov_space : forall (K : Type) (keqb : K -> K -> bool), (forall a b, keqb a b = true <-> a = b) ->
  forall (dagger : K -> K) n H (vectors : list (K * vec)) dim ms vs GE eta omega A B sign v0 a,
  hermitian n H -> NoDup (map fst vectors) -> (Z.of_nat n <= dim)%Z -> eta <> 0%R ->
  MultiKrylov n H 0 vectors dim = Ok (ms, vs) ->
  lookup keqb B vectors = Ok v0 -> lookup keqb (dagger A) vectors = Ok a ->
  exists g, GFSolverLanczosSingle keqb dagger GE ms vs eta omega A B sign = Ok g /\
            GFSolverExactSingle keqb dagger n GE H vectors eta omega A B sign = Ok g.
Proof.
  intros K keqb Hk dagger n H vectors dim ms vs GE eta omega A B sign v0 a HH ND Hd He EM EB EA.
  destruct (multi_lookup keqb Hk n H 0 vectors dim ms vs B v0 HH (Rle_refl 0) ND EM EB) as (_ & m & pv & L1 & _).
  destruct (full_krylov keqb Hk n H vectors dim ms vs B v0 m HH ND Hd EM EB L1) as [I N].
  refine (lanczos_exact keqb Hk dagger n H 0 vectors dim ms vs GE eta omega A B sign v0 a m HH (Rle_refl 0) ND _ He EM EB EA L1 I). lia.
Qed.
Print Assumptions C46_full_krylov_space.
(** Without invariance: the projected matrix reproduces the first 2d moments <v0|H^p|v0>, p <= 2d - 1. *)
Theorem C46_moments : forall (K : Type) n H thr (vectors : list (K * vec)) v0 dim m pv p,
  hermitian n H -> (0 <= thr)%R -> KrylovRepresentation n H thr vectors v0 dim = Ok (m, pv) ->
  (0 < dim)%Z -> (p <= 2 * nd_rows m - 1)%nat ->
  inner n v0 (power n H p v0) = RtoC (norm2 n v0) * power (nd_rows m) (nd_cmat m) p e0 O.
Proof. intros K n H thr vectors v0 dim m pv p. exact (krylov_moments n H thr vectors v0 dim m pv p). Qed.
Print Assumptions C46_moments.

(** ** Non-vacuity: H = [[0,1],[1,0]], one state (1,0) under the self-adjoint key 0;
    G(z) = <0|(z-H)^-1|0> = z/(z^2-1) at z = i is -i/2. *)
Definition ex_H : cmat := fun i j => if Nat.eqb i j then c0 else c1.
Example C45_ex_value : GFSolverExactSingle Nat.eqb (fun k => k) 2 0 ex_H [(0%nat, e0)] 1 0 0%nat 0%nat "-" = Ok ((0, -1/2)%R : C).
Proof.
  apply exact_single_iff. exists e0, e0. split; [reflexivity|]. split; [reflexivity|]. split.
  - apply hermitian_invertible; [|lra]. intros [|[|i]] [|[|j]] Hi Hj; try lia; unfold ex_H; cbn; [now rewrite Cj_0|now rewrite Cj_1|now rewrite Cj_1|now rewrite Cj_0].
  - exists (fun i => match i with O => (0, -1/2)%R | _ => (-1/2, 0)%R end). split.
    + intros [|[|i]] Hi; try lia; unfold shifted, mv, ex_H, e0, frequency; cbn; apply C_eq; cbn; field.
    + unfold inner, e0. cbn. apply C_eq; cbn; field.
Qed.
Example C46_ex_hypotheses : exists ms vs,
  hermitian 2 ex_H /\ NoDup (map fst [(0%nat, e0)]) /\ MultiKrylov 2 ex_H 0 [(0%nat, e0)] 2 = Ok (ms, vs) /\
  GFSolverLanczosSingle Nat.eqb (fun k => k) 0 ms vs 1 0 0%nat 0%nat "-" = Ok ((0, -1/2)%R : C).
Proof.
  assert (HH : hermitian 2 ex_H).
  { intros [|[|i]] [|[|j]] Hi Hj; try lia; unfold ex_H; cbn; [now rewrite Cj_0|now rewrite Cj_1|now rewrite Cj_1|now rewrite Cj_0]. }
  assert (Nn : norm 2 e0 = 1%R) by (unfold norm, norm2, e0; cbn; replace (_ + _ + _)%R with 1%R by ring; apply sqrt_1).
  assert (ND : NoDup (map fst [(0%nat, e0)])) by (constructor; [intros []|constructor]).
  destruct (C44_per_key nat 2 ex_H 0 [(0%nat, e0)] 2 HH (Rle_refl 0)) as (ms & vs & E & _).
  { intros p [<-|[]]. cbn [snd]. rewrite Nn. lra. }
  exists ms, vs. split; [exact HH|]. split; [exact ND|]. split; [exact E|].
  destruct (C46_full_krylov_space nat Nat.eqb Nat.eqb_eq (fun k => k) 2 ex_H [(0%nat, e0)] 2 ms vs 0 1 0 0%nat 0%nat "-" e0 e0 HH ND ltac:(lia) ltac:(lra) E eq_refl eq_refl) as (g & G1 & G2).
  rewrite C45_ex_value in G2. injection G2 as <-. exact G1.
Qed.
