(** C58: the spectra computed from the solvers are densities: non-negative, with
    the total weight of the state -- 1 for the k-space spectra of the demos,
    whatever the (Hermitian) Hamiltonian. *)
From Coq Require Import Reals Qreals String List ZArith NArith Bool Arith Lia Lra.
From Coquelicot Require Import Complex.
From Verif Require Import Py GQ Mat CVec State_Model State_Spec MatrixRepr_Model Fock_Spec Particle_Model Particle_Spec Particle_Proofs2 Conserve_Spec
  Lanczos_Model Lanczos_Spec Lanczos_Properties GF_Model GF_Spec GF_Proofs2 GF_Proofs3 GF_Properties
  Free_Spec Free_Proofs5 Free_Properties Spectrum_Spec Spectrum_Proofs Spectrum_Proofs2 Spectrum_Proofs3.
Import ListNotations.
Local Open Scope nat_scope.
Local Open Scope C_scope.

(** ** Every Hermitian matrix has what the demos assume of it *)
(** An orthonormal basis of eigenvectors, and a ground state. *)
Theorem C58_ground_state : forall n H, hermitian n H ->
  (exists E e, eigenbasis n H E e) /\
  ((0 < n)%nat -> exists GE gs, inner n gs gs = c1 /\ veqn n (mv n H gs) (fun i => RtoC GE * gs i) /\
     forall x, inner n x x = c1 -> (GE <= energy n H x)%R).
Proof. intros n H HH. split; [now apply eigenbasis_exists|now apply ground_exists]. Qed.
Print Assumptions C58_ground_state.
(** ... so the hypothesis "gs is an eigenstate of terms + h.c." of C57 can always
    be met, with an energy no other normalised state is below. *)
Theorem C58_eigenstate : forall zoom tbl ts basis S,
  sorted_bases basis -> basis <> [] -> sum_terms tbl basis ts = Ok S ->
  Forall (fun t => exists t' m, pterm_dagger zoom t = Ok t' /\ fst (pterm_matrix_repr tbl t' basis None None) = Ok m) ts ->
  exists gs GE, eigenstate zoom tbl ts basis gs GE /\
    forall x, inner (length basis) x x = c1 -> (GE <= energy (length basis) (with_hc S) x)%R.
Proof.
  intros zoom tbl ts basis S SB NE ES D.
  destruct (ground_exists (length basis) (with_hc S) (with_hc_hermitian _ S)) as (GE & gs & N1 & Ei & Mn).
  { destruct basis; [contradiction|cbn; lia]. }
  exists gs, GE. split; [|exact Mn]. split; [exact SB|]. split; [exists S; split; assumption|]. split; assumption.
Qed.
Print Assumptions C58_eigenstate.

(** The Lehmann representation, unconditionally: one basis, energies and weights for
    all omega, eta, operators and both signs; a sum of n simple poles at real
    positions E_k - GE for "-" and GE - E_k for "+". *)
Theorem C58_lehmann : forall (K : Type) (keqb : K -> K -> bool) (dagger : K -> K) n GE HM es, hermitian n HM ->
  exists E e, eigenbasis n HM E e /\
    forall eta omega A B sign a b, eta <> 0%R -> lookup keqb B es = Ok b -> lookup keqb (dagger A) es = Ok a ->
      GFSolverExactSingle keqb dagger n GE HM es eta omega A B sign =
        Ok (csum n (fun k => inner n a (e k) * inner n (e k) b / shifted_value sign (E k) GE (frequency omega eta))).
Proof.
  intros K keqb dagger n GE HM es HH. destruct (eigenbasis_exists n HM HH) as (E & e & B). exists E, e. split; [exact B|].
  intros eta omega A Bk sign a b He LB LA. apply exact_single_iff. exists a, b. split; [exact LB|]. split; [exact LA|].
  split; [now apply hermitian_invertible|now apply green_eigenbasis].
Qed.
Print Assumptions C58_lehmann.
(** The levels are bounded by the ground-state energy of HM. *)
Theorem C58_levels : forall n H E e GE, eigenbasis n H E e -> (forall x, inner n x x = c1 -> (GE <= energy n H x)%R) ->
  forall k, (k < n)%nat -> (GE <= E k)%R.
Proof.
  intros n H E e GE B Mn k Hk. rewrite <- (energy_level n H E e k B Hk). apply Mn. destruct B as (O & _). rewrite (O k k Hk Hk), Nat.eqb_refl. reflexivity.
Qed.
Print Assumptions C58_levels.

(** ** The matrix of values for operators A_i, B_j = A_j+ *)
Theorem C58_exact : forall (K : Type) (keqb : K -> K -> bool) (dagger : K -> K) n GE HM es eta sign d (A B : nat -> K) (b : nat -> vec) (G : R -> cmat) v,
  hermitian n HM -> (0 < eta)%R ->
  (forall i, (i < d)%nat -> dagger (A i) = B i /\ lookup keqb (B i) es = Ok (b i)) ->
  (forall omega i j, (i < d)%nat -> (j < d)%nat -> GFSolverExactSingle keqb dagger n GE HM es eta omega (A i) (B j) sign = Ok (G omega i j)) ->
  (forall omega, (0 <= spectrum (form d (G omega) v))%R /\
     (spectrum (form d (G omega) v) = 0%R <-> veqn n (superposition d v b) vzero)) /\
  integrates_to (fun omega => spectrum (form d (G omega) v)) (norm2 n (superposition d v b)).
Proof.
  intros K keqb dagger n GE HM es eta sign d A B b G v HH He HK HG.
  assert (F : forall omega, green sign n HM GE (frequency omega eta) (superposition d v b) (superposition d v b) (form d (G omega) v)).
  { intros omega. apply form_green; [assumption|lra|]. intros i j Hi Hj. specialize (HG omega i j Hi Hj). apply exact_single_iff in HG as (a' & b' & L1 & L2 & _ & Hg).
    destruct (HK i Hi) as (Di & Li). destruct (HK j Hj) as (_ & Lj). rewrite Di, Li in L2. rewrite Lj in L1. injection L1 as <-. injection L2 as <-. exact Hg. }
  split; [intros omega; now apply (density_pos sign n HM GE omega eta)|now apply (density_weight sign n HM GE eta)].
Qed.
Print Assumptions C58_exact.

(** The two parts of the retarded function, from one basis or two ... *)
Theorem C58_sectors : forall (K : Type) (keqb : K -> K -> bool) (dagger : K -> K) np nh GE HP HH esp esh eta d (An Cr : nat -> K) (p h : nat -> vec)
    (g1 g2 : R -> cmat) v,
  hermitian np HP -> hermitian nh HH -> (0 < eta)%R ->
  (forall i, (i < d)%nat -> dagger (An i) = Cr i /\ dagger (Cr i) = An i /\ lookup keqb (Cr i) esp = Ok (p i) /\ lookup keqb (An i) esh = Ok (h i)) ->
  (forall omega i j, (i < d)%nat -> (j < d)%nat ->
     GFSolverExactSingle keqb dagger np GE HP esp eta omega (An i) (Cr j) "-" = Ok (g1 omega i j) /\
     GFSolverExactSingle keqb dagger nh GE HH esh eta omega (Cr j) (An i) "+" = Ok (g2 omega i j)) ->
  let A omega := spectrum (form d (fun i j => g1 omega i j + g2 omega i j) v) in
  let w := superposition d v p in let w' := superposition d (fun j => Cj (v j)) h in
  (forall omega, (0 <= A omega)%R /\ (A omega = 0%R <-> veqn np w vzero /\ veqn nh w' vzero)) /\
  integrates_to A (norm2 np w + norm2 nh w').
Proof.
  intros K keqb dagger np nh GE HP HH esp esh eta d An Cr p h g1 g2 v H1 H2 He HK HG A w w'.
  assert (EA : forall omega, A omega = (spectrum (form d (g1 omega) v) + spectrum (form d (g2 omega) v))%R).
  { intros omega. unfold A. rewrite <- spectral_add. f_equal. unfold form. rewrite <- csum_add. apply csum_ext. intros i _. rewrite <- csum_add. apply csum_ext. intros. ring. }
  assert (F1 : forall omega, green "-" np HP GE (frequency omega eta) w w (form d (g1 omega) v)).
  { intros omega. apply form_green; [assumption|lra|]. intros i j Hi Hj. destruct (HG omega i j Hi Hj) as [E1 _]. apply exact_single_iff in E1 as (a' & b' & L1 & L2 & _ & Hg).
    destruct (HK i Hi) as (Di & _ & Li & _). destruct (HK j Hj) as (_ & _ & Lj & _). rewrite Di, Li in L2. rewrite Lj in L1. injection L1 as <-. injection L2 as <-. exact Hg. }
  assert (F2 : forall omega, green "+" nh HH GE (frequency omega eta) w' w' (form d (g2 omega) v)).
  { intros omega. apply form_green_swapped; [assumption|lra|]. intros i j Hi Hj. destruct (HG omega i j Hi Hj) as [_ E1]. apply exact_single_iff in E1 as (a' & b' & L1 & L2 & _ & Hg).
    destruct (HK i Hi) as (_ & _ & _ & Li). destruct (HK j Hj) as (_ & Dj & _ & Lj). rewrite Dj, Lj in L2. rewrite Li in L1. injection L1 as <-. injection L2 as <-. exact Hg. }
  split.
  - intros omega. rewrite EA.
    destruct (density_pos "-" np HP GE omega eta w _ H1 He (F1 omega)) as [P1 Z1]. destruct (density_pos "+" nh HH GE omega eta w' _ H2 He (F2 omega)) as [P2 Z2].
    split; [lra|]. rewrite <- Z1, <- Z2. lra.
  - apply (integrates_ext (fun omega => spectrum (form d (g1 omega) v) + spectrum (form d (g2 omega) v))%R); [intros; now rewrite EA|].
    apply integrates_plus; [now apply (density_weight "-" np HP GE eta)|now apply (density_weight "+" nh HH GE eta)].
Qed.
Print Assumptions C58_sectors.
Theorem C58_retarded : forall (K : Type) (keqb : K -> K -> bool) (dagger : K -> K) n GE HM es eta d (An Cr : nat -> K) (p h : nat -> vec)
    (G : R -> cmat) v,
  hermitian n HM -> (0 < eta)%R ->
  (forall i, (i < d)%nat -> dagger (An i) = Cr i /\ dagger (Cr i) = An i /\ lookup keqb (Cr i) es = Ok (p i) /\ lookup keqb (An i) es = Ok (h i)) ->
  (forall omega i j, (i < d)%nat -> (j < d)%nat -> RGFSolverExactSingle keqb dagger n GE HM es eta omega (An i) (Cr j) "+" = Ok (G omega i j)) ->
  let A omega := spectrum (form d (G omega) v) in
  let w := superposition d v p in let w' := superposition d (fun j => Cj (v j)) h in
  (forall omega, (0 <= A omega)%R /\ (A omega = 0%R <-> veqn n w vzero /\ veqn n w' vzero)) /\
  integrates_to A (norm2 n w + norm2 n w').
Proof.
  intros K keqb dagger n GE HM es eta d An Cr p h G v HH He HK HG A w w'.
  set (val := fun sign omega X Y => match GFSolverExactSingle keqb dagger n GE HM es eta omega X Y sign with Ok g => g | Err _ => c0 end).
  assert (X : forall omega i j, (i < d)%nat -> (j < d)%nat ->
    (GFSolverExactSingle keqb dagger n GE HM es eta omega (An i) (Cr j) "-" = Ok (val "-"%string omega (An i) (Cr j)) /\
     GFSolverExactSingle keqb dagger n GE HM es eta omega (Cr j) (An i) "+" = Ok (val "+"%string omega (Cr j) (An i))) /\
    G omega i j = val "-"%string omega (An i) (Cr j) + val "+"%string omega (Cr j) (An i)).
  { intros omega i j Hi Hj. specialize (HG omega i j Hi Hj). apply rgf_exact_single in HG as (g1 & g2 & E1 & E2 & E). cbn [String.eqb Ascii.eqb Bool.eqb] in E.
    unfold val. rewrite E1, E2. auto. }
  destruct (C58_sectors K keqb dagger n n GE HM HM es es eta d An Cr p h
    (fun omega i j => val "-"%string omega (An i) (Cr j)) (fun omega i j => val "+"%string omega (Cr j) (An i)) v HH HH He HK (fun omega i j Hi Hj => proj1 (X omega i j Hi Hj))) as [R1 R2].
  assert (EA : forall omega, A omega = spectrum (form d (fun i j => val "-"%string omega (An i) (Cr j) + val "+"%string omega (Cr j) (An i)) v)).
  { intros omega. unfold A. f_equal. apply csum_ext. intros i Hi. apply csum_ext. intros j Hj. now rewrite (proj2 (X omega i j Hi Hj)). }
  split.
  - intros omega. rewrite EA. apply R1.
  - eapply integrates_ext; [|exact R2]. intros omega. symmetry. apply EA.
Qed.
Print Assumptions C58_retarded.

(** ** Fermions: the excited states of the demos.  Whatever the Hamiltonians, the
    normalised state gs and the energy GE (not even an eigenstate is needed), the
    weight of the two parts together is sum |v_i|^2 ... *)
Theorem C58_fermions : forall (K : Type) (keqb : K -> K -> bool) (dagger : K -> K) (op : K -> aoc) objs start tbl d st (An Cr : nat -> K)
    basis lp lh gs GE HP HH esp esh eta (g1 g2 : R -> cmat) v,
  make_state_table objs start = Ok tbl -> sorted_bases basis -> sorted_bases lp -> sorted_bases lh ->
  (forall k l, (k < d)%nat -> (l < d)%nat -> same_st (st k) (st l) -> k = l) ->
  ladder_keys dagger op d st An Cr ->
  holds_excited keqb op tbl basis (Some lp) gs esp d Cr -> holds_excited keqb op tbl basis (Some lh) gs esh d An ->
  inner (length basis) gs gs = c1 ->
  hermitian (length lp) HP -> hermitian (length lh) HH -> (0 < eta)%R ->
  (forall omega i j, (i < d)%nat -> (j < d)%nat ->
     GFSolverExactSingle keqb dagger (length lp) GE HP esp eta omega (An i) (Cr j) "-" = Ok (g1 omega i j) /\
     GFSolverExactSingle keqb dagger (length lh) GE HH esh eta omega (Cr j) (An i) "+" = Ok (g2 omega i j)) ->
  integrates_to (fun omega => spectrum (form d (fun i j => g1 omega i j + g2 omega i j) v)) (rsum d (fun i => Re (v i) * Re (v i) + Im (v i) * Im (v i))%R).
Proof.
  intros K keqb dagger op objs start tbl d st An Cr basis lp lh gs GE HP HH esp esh eta g1 g2 v Ht Sb Sp Sh Dst LK XP XH N1 H1 H2 He HG.
  set (p := fun k => match lookup keqb (Cr k) esp with Ok x => x | Err _ => vzero end).
  set (h := fun k => match lookup keqb (An k) esh with Ok x => x | Err _ => vzero end).
  assert (Lp : forall k, (k < d)%nat -> lookup keqb (Cr k) esp = Ok (p k)) by (intros k Hk; unfold p; destruct (XP k Hk) as (m & x & _ & -> & _); reflexivity).
  assert (Lh : forall k, (k < d)%nat -> lookup keqb (An k) esh = Ok (h k)) by (intros k Hk; unfold h; destruct (XH k Hk) as (m & x & _ & -> & _); reflexivity).
  destruct (C58_sectors K keqb dagger (length lp) (length lh) GE HP HH esp esh eta d An Cr p h g1 g2 v H1 H2 He) as [_ W]; [|exact HG|].
  { intros i Hi. destruct (LK i Hi) as (_ & _ & D1 & D2). auto. }
  assert (inj : forall s s' i, state_index tbl s = Ok i -> state_index tbl s' = Ok i -> same_st s s').
  { intros s s' i E E'. destruct (table_facts objs start tbl Ht) as (T1 & _). now apply (T1 s s' i i E E'). }
  pose proof (fermion_weight keqb dagger op tbl d st An Cr basis (Some lp) (Some lh) gs esp esh p h Sb Sp Sh Dst LK XP XH Lp Lh N1 inj v) as E.
  cbn [the_left] in E. unfold weight2 in E. rewrite <- E. exact W.
Qed.
Print Assumptions C58_fermions.
(** ... so that the k-space spectrum of the demos (v a list of phase factors) is a
    probability density for every k. *)
Theorem C58_demo : forall (K : Type) (keqb : K -> K -> bool) (dagger : K -> K) (op : K -> aoc) objs start tbl d st (An Cr : nat -> K)
    basis gs GE HM es eta (G : R -> cmat) v,
  make_state_table objs start = Ok tbl -> sorted_bases basis ->
  (forall k l, (k < d)%nat -> (l < d)%nat -> same_st (st k) (st l) -> k = l) ->
  ladder_keys dagger op d st An Cr ->
  holds_excited keqb op tbl basis None gs es d Cr -> holds_excited keqb op tbl basis None gs es d An ->
  inner (length basis) gs gs = c1 -> hermitian (length basis) HM -> (0 < eta)%R ->
  (forall omega i j, (i < d)%nat -> (j < d)%nat -> RGFSolverExactSingle keqb dagger (length basis) GE HM es eta omega (An i) (Cr j) "+" = Ok (G omega i j)) ->
  (0 < d)%nat -> (forall i, (i < d)%nat -> Cj (v i) * v i = c1) ->
  (forall omega, (0 < spectrum (kspace d (G omega) v))%R) /\
  integrates_to (fun omega => spectrum (kspace d (G omega) v)) 1.
Proof.
  intros K keqb dagger op objs start tbl d st An Cr basis gs GE HM es eta G v Ht Sb Dst LK XP XH N1 H1 He HG Hd U.
  set (p := fun k => match lookup keqb (Cr k) es with Ok x => x | Err _ => vzero end).
  set (h := fun k => match lookup keqb (An k) es with Ok x => x | Err _ => vzero end).
  assert (Lp : forall k, (k < d)%nat -> lookup keqb (Cr k) es = Ok (p k)) by (intros k Hk; unfold p; destruct (XP k Hk) as (m & x & _ & -> & _); reflexivity).
  assert (Lh : forall k, (k < d)%nat -> lookup keqb (An k) es = Ok (h k)) by (intros k Hk; unfold h; destruct (XH k Hk) as (m & x & _ & -> & _); reflexivity).
  destruct (C58_retarded K keqb dagger (length basis) GE HM es eta d An Cr p h G v H1 He) as [P W]; [|exact HG|].
  { intros i Hi. destruct (LK i Hi) as (_ & _ & D1 & D2). auto. }
  assert (inj : forall s s' i, state_index tbl s = Ok i -> state_index tbl s' = Ok i -> same_st s s').
  { intros s s' i E E'. destruct (table_facts objs start tbl Ht) as (T1 & _). now apply (T1 s s' i i E E'). }
  pose proof (fermion_weight keqb dagger op tbl d st An Cr basis None None gs es es p h Sb Sb Sb Dst LK XP XH Lp Lh N1 inj v) as E. cbn [the_left] in E.
  assert (Hd' : (0 < INR d)%R) by (now apply lt_0_INR).
  assert (E1 : rsum d (fun i => weight2 (v i)) = INR d).
  { transitivity (rsum d (fun _ => 1%R)).
    - clear - U. induction d as [|m IH]; [reflexivity|]. cbn [rsum]. rewrite IH by (intros; apply U; lia). f_equal. specialize (U m ltac:(lia)).
      apply (f_equal fst) in U. unfold Cj, c1 in U. cbn in U. unfold weight2, Re, Im. lra.
    - clear. induction d as [|m IH]; [reflexivity|]. cbn [rsum]. rewrite IH, S_INR. reflexivity. }
  assert (EK : forall omega, spectrum (kspace d (G omega) v) = (/ INR d * spectrum (form d (G omega) v))%R).
  { intros omega. unfold kspace. fold (form d (G omega) v). unfold spectrum, Cdiv. rewrite <- RtoC_inv by lra. unfold Im, Cmult, RtoC. cbn [fst snd]. pose proof PI_RGT_0. field. lra. }
  rewrite E1 in E. split.
  - intros omega. rewrite EK. apply Rmult_lt_0_compat; [now apply Rinv_0_lt_compat|]. destruct (P omega) as [P1 P2]. destruct P1 as [P1|P1]; [exact P1|].
    exfalso. destruct (proj1 P2 (eq_sym P1)) as [Z1 Z2].
    assert (Nz : forall x, veqn (length basis) x vzero -> norm2 (length basis) x = 0%R).
    { intros x Hx. apply RtoC_inj. rewrite <- inner_self, (inner_ext _ x vzero x vzero Hx Hx). apply csum_zero. intros. unfold vzero, c0. ring. }
    rewrite (Nz _ Z1), (Nz _ Z2) in E. lra.
  - apply (integrates_ext (fun omega => / INR d * spectrum (form d (G omega) v))%R); [intros; now rewrite EK|].
    replace 1%R with (/ INR d * INR d)%R by (field; lra). apply integrates_scal. rewrite <- E. exact W.
Qed.
Print Assumptions C58_demo.

(** ** The Lanczos solvers: the same with a full Krylov space ... *)
Theorem C58_lanczos_full : forall (K : Type) (keqb : K -> K -> bool), (forall a b, keqb a b = true <-> a = b) ->
  forall (dagger : K -> K) n GE HM es eta sign d (A B : nat -> K) (b : nat -> vec) dim ms vs (G : R -> cmat) v,
  hermitian n HM -> (0 < eta)%R -> NoDup (map fst es) -> (Z.of_nat n <= dim)%Z -> MultiKrylov n HM 0 es dim = Ok (ms, vs) ->
  (forall i, (i < d)%nat -> dagger (A i) = B i /\ lookup keqb (B i) es = Ok (b i)) ->
  (forall omega i j, (i < d)%nat -> (j < d)%nat -> GFSolverLanczosSingle keqb dagger GE ms vs eta omega (A i) (B j) sign = Ok (G omega i j)) ->
  (forall omega, (0 <= spectrum (form d (G omega) v))%R) /\
  integrates_to (fun omega => spectrum (form d (G omega) v)) (norm2 n (superposition d v b)).
Proof.
  intros K keqb Hk dagger n GE HM es eta sign d A B b dim ms vs G v HH He ND Hdim MK HK HG.
  destruct (C58_exact K keqb dagger n GE HM es eta sign d A B b G v HH He HK) as [P W].
  - intros omega i j Hi Hj. destruct (HK i Hi) as [Di Li]. destruct (HK j Hj) as [Dj Lj].
    destruct (C46_full_krylov_space K keqb Hk dagger n HM es dim ms vs GE eta omega (A i) (B j) sign (b j) (b i) HH ND Hdim ltac:(lra) MK Lj) as (g & E1 & E2); [now rewrite Di|].
    rewrite (HG omega i j Hi Hj) in E1. injection E1 as ->. exact E2.
  - split; [intros omega; apply (P omega)|exact W].
Qed.
Print Assumptions C58_lanczos_full.
(** ... but not with a truncated one: each column of the matrix is computed in its own
    Krylov space, and the spectrum of a superposition can be negative, although every
    diagonal element is causal (C55).  H = diag(0, 10), states (1, 0) and (1, 1),
    krylov_space_dim = 1, v = (1, -2), z = i. *)
Definition tr_H : cmat := fun i j => if Nat.eqb i j then RtoC (10 * INR i) else c0.
Definition tr_es : list (nat * vec) := [(0%nat, fun i => if Nat.eqb i 0 then c1 else c0); (1%nat, fun _ => c1)].
Definition tr_v (j : nat) : C := if Nat.eqb j 0 then c1 else RtoC (-2).
Theorem C58_lanczos_truncated_refuted : exists ms vs (G : cmat),
  hermitian 2 tr_H /\ MultiKrylov 2 tr_H 0 tr_es 1 = Ok (ms, vs) /\
  (forall i j, (i < 2)%nat -> (j < 2)%nat -> GFSolverLanczosSingle Nat.eqb (fun k => k) 0 ms vs 1 0 i j "-" = Ok (G i j)) /\
  (spectrum (form 2 G tr_v) < 0)%R.
Proof.
  assert (HH : hermitian 2 tr_H).
  { intros i j _ _. unfold tr_H. destruct (Nat.eqb_spec i j); [subst; rewrite Nat.eqb_refl; now rewrite Cj_R|]. destruct (Nat.eqb_spec j i); [congruence|]. now rewrite Cj_0. }
  assert (ND : NoDup (map fst tr_es)) by (apply NoDup_cons; [intros [E|[]]; discriminate|apply NoDup_cons; [intros []|constructor]]).
  destruct (C44_per_key nat 2 tr_H 0 tr_es 1 HH (Rle_refl 0)) as (ms & vs & E & _).
  { intros p [<-|[<-|[]]]; unfold norm; apply sqrt_lt_R0; unfold norm2, c1, c0; cbn; lra. }
  set (a := fun k : nat => if Nat.eqb k 0 then (fun i => if Nat.eqb i 0 then c1 else c0) else (fun _ => c1) : vec).
  exists ms, vs, (fun i j => inner 2 (a i) (a j) / (frequency 0 1 + RtoC 0 - inner 2 (a j) (mv 2 tr_H (a j)) / RtoC (norm2 2 (a j)))).
  split; [exact HH|]. split; [exact E|].
  assert (L : forall k, (k < 2)%nat -> lookup Nat.eqb k tr_es = Ok (a k)) by (intros [|[|k]] Hk; [reflexivity|reflexivity|lia]).
  split.
  - intros i j Hi Hj. exact (krylov_one Nat.eqb (fun k => k) Nat.eqb_eq 2 tr_H 0 tr_es ms vs 0 1 0 i j (a j) (a i) HH (Rle_refl 0) ND R1_neq_R0 E (L j Hj) (L i Hi)).
  - assert (I00 : inner 2 (a 0%nat) (a 0%nat) = RtoC 1) by (unfold inner, a; cbn; unfold c0, c1, Cj; apply injective_projections; cbn; ring).
    assert (I01 : inner 2 (a 0%nat) (a 1%nat) = RtoC 1) by (unfold inner, a; cbn; unfold c0, c1, Cj; apply injective_projections; cbn; ring).
    assert (I10 : inner 2 (a 1%nat) (a 0%nat) = RtoC 1) by (unfold inner, a; cbn; unfold c0, c1, Cj; apply injective_projections; cbn; ring).
    assert (I11 : inner 2 (a 1%nat) (a 1%nat) = RtoC 2) by (unfold inner, a; cbn; unfold c0, c1, Cj; apply injective_projections; cbn; ring).
    assert (Q0 : inner 2 (a 0%nat) (mv 2 tr_H (a 0%nat)) / RtoC (norm2 2 (a 0%nat)) = RtoC 0).
    { rewrite <- inner_self, I00. unfold inner, mv, tr_H, a. cbn. unfold c0, c1, Cj. apply injective_projections; cbn; field. }
    assert (Q1 : inner 2 (a 1%nat) (mv 2 tr_H (a 1%nat)) / RtoC (norm2 2 (a 1%nat)) = RtoC 5).
    { rewrite <- inner_self, I11. unfold inner, mv, tr_H, a. cbn. unfold c0, c1, Cj. apply injective_projections; cbn; field. }
    unfold form, spectrum. cbn [csum]. rewrite I00, I01, I10, I11, Q0, Q1. unfold tr_v. cbn [Nat.eqb]. unfold frequency, Cj, c0, c1, Im, Cdiv, Cinv, Cmult, Cminus, Cplus, Copp, RtoC. cbn [fst snd].
    pose proof PI_RGT_0. apply (Rmult_lt_reg_r PI); [assumption|]. rewrite Rmult_0_l. unfold Rdiv at 1. rewrite Rmult_assoc, Rinv_l, Rmult_1_r by lra. field_simplify. lra.
Qed.
Print Assumptions C58_lanczos_truncated_refuted.

(** ** A concrete case: the two-site chain of C57 with its state gs; v = (1, -1), k = pi. *)
Definition ex_v (j : nat) : C := if Nat.eqb j 0 then c1 else - c1.
Example C58_example : exists G : R -> cmat,
  (forall omega i j, (i < 2)%nat -> (j < 2)%nat ->
     RGFSolverExactSingle Nat.eqb ex_dagger 4 (-1) (with_hc ex_S) ex_es 1 omega (2 * i)%nat (S (2 * j)%nat) "+" = Ok (G omega i j)) /\
  (forall omega, (0 < spectrum (kspace 2 (G omega) ex_v))%R) /\
  integrates_to (fun omega => spectrum (kspace 2 (G omega) ex_v)) 1.
Proof.
  destruct C57_example as (E1 & E2 & _ & E3 & E4 & E5 & E6 & E7 & E8).
  set (G := fun omega i j => match RGFSolverExactSingle Nat.eqb ex_dagger 4 (-1) (with_hc ex_S) ex_es 1 omega (2 * i)%nat (S (2 * j)%nat) "+" with Ok g => g | Err _ => c0 end).
  assert (HG : forall omega i j, (i < 2)%nat -> (j < 2)%nat ->
     RGFSolverExactSingle Nat.eqb ex_dagger 4 (-1) (with_hc ex_S) ex_es 1 omega (2 * i)%nat (S (2 * j)%nat) "+" = Ok (G omega i j)).
  { intros omega i j Hi Hj. unfold G.
    destruct (C57_single_basis nat Nat.eqb ex_dagger ex_op _ 0 ex_tbl default_zoom ex_ts 2 ex_st (fun k => 2 * k)%nat (fun k => S (2 * k)) ex_basis ex_gs (-1) (with_hc ex_S) ex_es omega 1
      E1 E2 E3 E4 E5 E6 E7 E8 R1_neq_R0) as (g & Hg & _). change (length ex_basis) with 4%nat in Hg. rewrite (Hg i j Hi Hj). reflexivity. }
  exists G. split; [exact HG|].
  apply (C58_demo nat Nat.eqb ex_dagger ex_op _ 0 ex_tbl 2 ex_st (fun k => 2 * k)%nat (fun k => S (2 * k)) ex_basis ex_gs (-1) (with_hc ex_S) ex_es 1 G
    ex_v E1 (proj1 E5) (proj1 (proj2 E3)) E4 E7 E8 (proj2 (proj2 (proj2 E5))) (with_hc_hermitian _ _) Rlt_0_1 HG); [lia|].
  intros i Hi. unfold ex_v. destruct (Nat.eqb i 0); unfold c1, Cj; apply injective_projections; cbn; ring.
Qed.
