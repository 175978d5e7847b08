(** C59: cluster perturbation theory as in GreenFunction/demo/HubbardChain.py: the
    k-space spectrum is a density of weight 2 for every k, whatever the interaction,
    the lattices and the inter-cluster hopping; without interaction it is exact. *)
From Coq Require Import Reals Qreals String List ZArith NArith Bool Arith Lia Lra.
From Coquelicot Require Import Complex.
From Verif Require Import Py GQ Mat CVec LinSolve State_Model State_Spec MatrixRepr_Model Fock_Spec Particle_Model Particle_Spec Particle_Proofs2 Conserve_Spec
  Lattice_Model Lattice_Spec Lattice_Properties LatticeGen_Model LatticeGen_Spec LatticeGen_Properties LatticeNice_Properties Lanczos_Model Lanczos_Spec Lanczos_Properties GF_Model GF_Spec GF_Proofs2 GF_Proofs3 GF_Proofs5 GF_Properties
  Free_Spec Free_Proofs5 Free_Proofs7 Spectrum_Spec Spectrum_Proofs Spectrum_Proofs2 Spectrum_Properties
  CPT_Model CPT_Spec CPT_Proofs CPT_Proofs2 CPT_Proofs3 CPT_Proofs4 CPT_Proofs5.
Import ListNotations.
Local Open Scope nat_scope.
Local Open Scope C_scope.

(** ** np.linalg.inv *)
Theorem C59_inverse : forall n M,
  (forall X, np_inv n M = Ok X -> inverse_of n M X) /\
  (forall Y, inverse_of n M Y -> exists X, np_inv n M = Ok X /\ forall i j, (i < n)%nat -> (j < n)%nat -> X i j = Y i j) /\
  (forall e, np_inv n M = Err e -> e = LinAlgError /\ ~ exists Y, inverse_of n M Y).
Proof.
  intros n M. split; [|split].
  - apply np_inv_ok.
  - intros Y HY. assert (NS : nonsingular n M) by (apply (right_inverse_nonsingular n M Y); intros; now apply HY).
    destruct (np_inv_total n M NS) as (X & EX). exists X. split; [exact EX|]. apply (np_inv_unique n M X Y EX). intros; now apply HY.
  - intros e He. apply np_inv_err in He as [-> NS]. split; [reflexivity|]. intros (Y & HY). apply NS. apply (right_inverse_nonsingular n M Y). intros; now apply HY.
Qed.
Print Assumptions C59_inverse.

(** ** One frequency and k point *)
(** The CPT function of a cluster with the retarded functions G and the inter-cluster
    hopping V: neither inverse fails, the Dyson equation holds, and the result again
    is the retarded function of orthonormal states under a Hermitian matrix. *)
Theorem C59_step : forall d eta (G : R -> cmat) V, (0 < eta)%R -> lehmann d eta G -> hermitian d V ->
  exists G', lehmann d eta G' /\ forall omega, exists X, cpt d (G omega) V = Ok X /\
    (forall i j, (i < d)%nat -> (j < d)%nat -> X i j = G' omega i j) /\ dyson d (G omega) V X.
Proof. exact cpt_lehmann. Qed.
Print Assumptions C59_step.
(** VMatrix += VMatrix.T.conj() makes V Hermitian, whatever the terms. *)
Theorem C59_hopping_hermitian : forall n k VTerms, hermitian n (v_matrix k VTerms).
Proof. exact v_matrix_hermitian. Qed.
Print Assumptions C59_hopping_hermitian.
(** If G is the resolvent of a cluster hopping matrix t (C57), the step gives the
    resolvent of t + V: CPT is exact without interaction. *)
Theorem C59_free : forall d t V omega eta G, hermitian d t -> hermitian d V -> eta <> 0%R ->
  resolvent d t (frequency omega eta) G ->
  exists X, cpt d G V = Ok X /\ resolvent d (add t V) (frequency omega eta) X.
Proof.
  intros d t V omega eta G Ht HV He HG. destruct (resolvent_exists d (add t V) omega eta (hermitian_add d t V Ht HV) He) as (G' & HG').
  set (z := frequency omega eta) in *.
  assert (NS : nonsingular d G).
  { apply (right_inverse_nonsingular d G (fun i j => z * delta i j - t i j)). intros i j Hi Hj. apply (proj2 (HG i j Hi Hj)). }
  destruct (np_inv_total d G NS) as (I & EI).
  assert (EIt : forall i j, (i < d)%nat -> (j < d)%nat -> I i j = z * delta i j - t i j).
  { apply (np_inv_unique d G I _ EI). intros i j Hi Hj. apply (proj2 (HG i j Hi Hj)). }
  assert (R' : forall i j, (i < d)%nat -> (j < d)%nat -> csum d (fun k => (I i k - V i k) * G' k j) = delta i j).
  { intros i j Hi Hj. rewrite <- (proj1 (HG' i j Hi Hj)). apply csum_ext. intros k Hk. rewrite EIt by assumption. unfold add. ring. }
  unfold cpt. rewrite EI. destruct (np_inv_total d (fun r c => I r c - V r c)) as (X & EX); [now apply (right_inverse_nonsingular d _ G')|].
  exists X. split; [exact EX|]. pose proof (np_inv_unique d _ X G' EX R') as EXG. intros i j Hi Hj. destruct (HG' i j Hi Hj) as [H1 H2]. split.
  - rewrite <- H1. apply csum_ext. intros k Hk. now rewrite EXG.
  - rewrite <- H2. apply csum_ext. intros k Hk. now rewrite EXG.
Qed.
Print Assumptions C59_free.

(** ** The cluster functions are of that kind *)
(** Fermions, any Hermitian Hamiltonians on the two sectors, any normalised state: the
    sum of the particle and the hole part ... *)
Theorem C59_cluster : forall (K : Type) (keqb : K -> K -> bool) (dagger : K -> K) (op : K -> aoc) objs start tbl d st (An Cr : nat -> K)
    basis lp lh gs GE HP HH esp esh eta,
  make_state_table objs start = Ok tbl -> sorted_bases basis -> sorted_bases lp -> sorted_bases lh ->
  (forall k l, (k < d)%nat -> (l < d)%nat -> same_st (st k) (st l) -> k = l) ->
  ladder_keys dagger op d st An Cr ->
  holds_excited keqb op tbl basis (Some lp) gs esp d Cr -> holds_excited keqb op tbl basis (Some lh) gs esh d An ->
  inner (length basis) gs gs = c1 ->
  hermitian (length lp) HP -> hermitian (length lh) HH -> (0 < eta)%R ->
  exists g1 g2 : R -> cmat,
    (forall omega i j, (i < d)%nat -> (j < d)%nat ->
       GFSolverExactSingle keqb dagger (length lp) GE HP esp eta omega (An i) (Cr j) "-" = Ok (g1 omega i j) /\
       GFSolverExactSingle keqb dagger (length lh) GE HH esh eta omega (Cr j) (An i) "+" = Ok (g2 omega i j)) /\
    lehmann d eta (fun omega i j => g1 omega i j + g2 omega i j).
Proof.
  intros K keqb dagger op objs start tbl d st An Cr basis lp lh gs GE HP HH esp esh eta Ht Sb Sp Sh Dst LK XP XH N1 H1 H2 He.
  set (p := fun k => match lookup keqb (Cr k) esp with Ok x => x | Err _ => vzero end).
  set (h := fun k => match lookup keqb (An k) esh with Ok x => x | Err _ => vzero end).
  assert (Lp : forall k, (k < d)%nat -> lookup keqb (Cr k) esp = Ok (p k)) by (intros k Hk; unfold p; destruct (XP k Hk) as (m & x & _ & -> & _); reflexivity).
  assert (Lh : forall k, (k < d)%nat -> lookup keqb (An k) esh = Ok (h k)) by (intros k Hk; unfold h; destruct (XH k Hk) as (m & x & _ & -> & _); reflexivity).
  assert (inj : forall s s' i, state_index tbl s = Ok i -> state_index tbl s' = Ok i -> same_st s s').
  { intros s s' i E E'. destruct (table_facts objs start tbl Ht) as (T1 & _). now apply (T1 s s' i i E E'). }
  pose proof (state_overlap keqb dagger op tbl d st An Cr basis (Some lp) (Some lh) gs esp esh p h Sb Sp Sh Dst LK XP XH Lp Lh N1 inj) as O. cbn [the_left] in O.
  destruct (eigenbasis_exists (length lp) HP H1) as (Ep & ep & Bp). destruct (eigenbasis_exists (length lh) HH H2) as (Eh & eh & Bh).
  pose (g1 := fun omega i j => csum (length lp) (fun k => inner (length lp) (p i) (ep k) * inner (length lp) (ep k) (p j) / shifted_value "-" (Ep k) GE (frequency omega eta))).
  pose (g2 := fun omega i j => csum (length lh) (fun k => inner (length lh) (h j) (eh k) * inner (length lh) (eh k) (h i) / shifted_value "+" (Eh k) GE (frequency omega eta))).
  assert (V : forall omega i j, green "-" (length lp) HP GE (frequency omega eta) (p i) (p j) (g1 omega i j) /\ green "+" (length lh) HH GE (frequency omega eta) (h j) (h i) (g2 omega i j)).
  { intros omega i j. split; (apply green_eigenbasis; [lra|assumption]). }
  exists g1, g2. split.
  - intros omega i j Hi Hj. destruct (V omega i j) as [V1 V2]. destruct (LK i Hi) as (_ & _ & Di & _). destruct (LK j Hj) as (_ & _ & _ & Dj). split; apply exact_single_iff.
    + exists (p i), (p j). split; [now apply Lp|]. split; [rewrite Di; now apply Lp|]. split; [apply hermitian_invertible; [assumption|lra]|exact V1].
    + exists (h j), (h i). split; [now apply Lh|]. split; [rewrite Dj; now apply Lh|]. split; [apply hermitian_invertible; [assumption|lra]|exact V2].
  - apply (lehmann_sectors d eta (length lp) (length lh) HP HH GE p h g1 g2); [lra|assumption|assumption|exact O|]. intros omega i j _ _. apply V.
Qed.
Print Assumptions C59_cluster.
(** ... and what RGFSolverLanczosSingle returns for the updated dictionaries of the
    program, with full Krylov spaces. *)
Theorem C59_cluster_lanczos : forall (K : Type) (keqb : K -> K -> bool), (forall a b, keqb a b = true <-> a = b) ->
  forall (dagger : K -> K) (op : K -> aoc) objs start tbl d st (An Cr : nat -> K)
    basis lp lh gs GE HP HH esp esh eta dim msp msh vsp vsh ms vs,
  make_state_table objs start = Ok tbl -> sorted_bases basis -> sorted_bases lp -> sorted_bases lh ->
  (forall k l, (k < d)%nat -> (l < d)%nat -> same_st (st k) (st l) -> k = l) ->
  ladder_keys dagger op d st An Cr ->
  holds_excited keqb op tbl basis (Some lp) gs esp d Cr -> holds_excited keqb op tbl basis (Some lh) gs esh d An ->
  inner (length basis) gs gs = c1 ->
  hermitian (length lp) HP -> hermitian (length lh) HH -> (0 < eta)%R ->
  NoDup (map fst esp) -> NoDup (map fst esh) -> (Z.of_nat (length lp) <= dim)%Z -> (Z.of_nat (length lh) <= dim)%Z ->
  MultiKrylov (length lp) HP 0 esp dim = Ok (msp, vsp) -> MultiKrylov (length lh) HH 0 esh dim = Ok (msh, vsh) ->
  (forall k, (k < d)%nat -> lookup keqb (Cr k) msh = Err KeyError /\ lookup keqb (Cr k) vsh = Err KeyError) ->
  updated keqb msp msh ms -> updated keqb vsp vsh vs ->
  exists G : R -> cmat, lehmann d eta G /\
    forall omega i j, (i < d)%nat -> (j < d)%nat -> RGFSolverLanczosSingle keqb dagger GE ms vs eta omega (An i) (Cr j) "+" = Ok (G omega i j).
Proof.
  intros K keqb Hk dagger op objs start tbl d st An Cr basis lp lh gs GE HP HH esp esh eta dim msp msh vsp vsh ms vs
    Ht Sb Sp Sh Dst LK XP XH N1 H1 H2 He ND1 ND2 Hd1 Hd2 M1 M2 Kx U1 U2.
  destruct (C59_cluster K keqb dagger op objs start tbl d st An Cr basis lp lh gs GE HP HH esp esh eta Ht Sb Sp Sh Dst LK XP XH N1 H1 H2 He) as (g1 & g2 & V & L).
  eexists. split; [exact L|]. intros omega i j Hi Hj. destruct (V omega i j Hi Hj) as [V1 V2]. cbv beta.
  apply C45_rgf_single. exists (g1 omega i j), (g2 omega i j). split; [|split; [|reflexivity]].
  - pose proof V1 as V1'. apply exact_single_iff in V1' as (a & b & L1 & L2 & _).
    destruct (C46_full_krylov_space K keqb Hk dagger (length lp) HP esp dim msp vsp GE eta omega (An i) (Cr j) "-" b a H1 ND1 Hd1 ltac:(lra) M1 L1 L2) as (g & E1 & E2).
    rewrite V1 in E2. injection E2 as <-. destruct (Kx j Hj) as [K1 K2]. unfold GFSolverLanczosSingle in *. rewrite (U1 (Cr j)), (U2 (Cr j)), K1, K2. exact E1.
  - pose proof V2 as V2'. apply exact_single_iff in V2' as (a & b & L1 & L2 & _).
    destruct (C46_full_krylov_space K keqb Hk dagger (length lh) HH esh dim msh vsh GE eta omega (Cr j) (An i) "+" b a H2 ND2 Hd2 ltac:(lra) M2 L1 L2) as (g & E1 & E2).
    rewrite V2 in E2. injection E2 as <-.
    destruct (multi_lookup keqb Hk (length lh) HH 0 esh dim msh vsh (An i) b H2 (Rle_refl 0) ND2 M2 L1) as (_ & m & pv & Lm & Lv & _).
    unfold GFSolverLanczosSingle in *. rewrite (U1 (An i)), (U2 (An i)), Lm, Lv in *. exact E1.
Qed.
Print Assumptions C59_cluster_lanczos.

(** ** From the dictionary to the array *)
(** The two dictionaries returned for the spins s0 and s1, merged by update, hold the
    functions of each spin and nothing between different spins. *)
Theorem C59_dictionary : forall (K : Type) (keqb : K -> K -> bool), (forall a b, keqb a b = true <-> a = b) ->
  forall (dagger : K -> K) (site_of : K -> point) (derive : K -> point -> K) (mk : otype -> Z -> point -> K) (same : point -> point -> bool),
  operators keqb dagger site_of derive mk same ->
  forall (pts : list point) omegas s0 s1 GE0 GE1 ms0 ms1 vs0 vs1 eta j1 j2 j3 j4 j5 j6 d0 d1 dd (g0 g1 : R -> cmat), s0 <> s1 ->
  RGFSolverLanczosMultiple keqb dagger GE0 ms0 vs0 eta j1 j2 j3 omegas (map (mk ANNIHILATION s0) pts) (map (mk CREATION s0) pts) "+" "dict" = Ok (GDict d0) ->
  RGFSolverLanczosMultiple keqb dagger GE1 ms1 vs1 eta j4 j5 j6 omegas (map (mk ANNIHILATION s1) pts) (map (mk CREATION s1) pts) "+" "dict" = Ok (GDict d1) ->
  pairs_updated keqb d0 d1 dd ->
  (forall omega i j p q, nth_error pts i = Some p -> nth_error pts j = Some q ->
     RGFSolverLanczosSingle keqb dagger GE0 ms0 vs0 eta omega (mk ANNIHILATION s0 p) (mk CREATION s0 q) "+" = Ok (g0 omega i j) /\
     RGFSolverLanczosSingle keqb dagger GE1 ms1 vs1 eta omega (mk ANNIHILATION s1 p) (mk CREATION s1 q) "+" = Ok (g1 omega i j)) ->
  two_spins keqb mk pts omegas s0 s1 g0 g1 dd.
Proof.
  intros K keqb Hk dagger site_of derive mk same OP pts omegas s0 s1 GE0 GE1 ms0 ms1 vs0 vs1 eta j1 j2 j3 j4 j5 j6 d0 d1 dd g0 g1 Hs R0 R1' U HG.
  destruct (proj1 (C45_rgf_lanczos_multiple K keqb Hk dagger GE0 ms0 vs0 eta j1 j2 j3 omegas _ _ "+" "dict") _ R0) as (f0 & F0 & H0).
  destruct (proj1 (C45_rgf_lanczos_multiple K keqb Hk dagger GE1 ms1 vs1 eta j4 j5 j6 omegas _ _ "+" "dict") _ R1') as (f1 & F1 & H1).
  cbn [holds String.eqb Ascii.eqb Bool.eqb] in H0, H1. destruct H0 as (d0' & E0 & S0 & X0). injection E0 as <-. destruct H1 as (d1' & E1 & S1 & X1). injection E1 as <-.
  assert (NI : forall o s s' p, s <> s' -> ~ In (mk o s p) (map (mk o s') pts)).
  { intros o s s' p Hne Hin. apply in_map_iff in Hin as (q & Eq & _). apply Hk in Eq. apply (op_eq _ _ _ _ _ _ OP) in Eq. destruct Eq as (_ & Eq & _). congruence. }
  assert (IN : forall o s i p, nth_error pts i = Some p -> In (mk o s p) (map (mk o s) pts)) by (intros o s i p E; apply in_map, (nth_error_In _ _ E)).
  assert (NO : forall d As Cs A B, (forall A B (l : list C), dict_get keqb A B d = Some l -> In A As /\ In B Cs) -> (~ In A As \/ ~ In B Cs) -> dict_get keqb A B d = None).
  { intros d As Cs A B X N. destruct (dict_get keqb A B d) as [l|] eqn:E; [|reflexivity]. apply X in E. tauto. }
  intros i j p q Ei Ej.
  assert (V0 : forall omega, In omega omegas -> f0 omega (mk ANNIHILATION s0 p) (mk CREATION s0 q) = g0 omega i j).
  { intros omega Ho. pose proof (F0 omega _ _ Ho (IN ANNIHILATION s0 i p Ei) (IN CREATION s0 j q Ej)) as E. rewrite (proj1 (HG omega i j p q Ei Ej)) in E. congruence. }
  assert (V1 : forall omega, In omega omegas -> f1 omega (mk ANNIHILATION s1 p) (mk CREATION s1 q) = g1 omega i j).
  { intros omega Ho. pose proof (F1 omega _ _ Ho (IN ANNIHILATION s1 i p Ei) (IN CREATION s1 j q Ej)) as E. rewrite (proj2 (HG omega i j p q Ei Ej)) in E. congruence. }
  rewrite !U. split; [|split; [|split]].
  - rewrite (NO d1 _ _ _ _ X1) by (left; now apply NI). rewrite S0 by (eapply IN; eassumption). f_equal. now apply map_ext_in.
  - rewrite S1 by (eapply IN; eassumption). f_equal. now apply map_ext_in.
  - rewrite (NO d1 _ _ _ _ X1) by (left; now apply NI). apply (NO d0 _ _ _ _ X0). right. apply NI. congruence.
  - rewrite (NO d1 _ _ _ _ X1) by (right; now apply NI). apply (NO d0 _ _ _ _ X0). left. apply NI. congruence.
Qed.
Print Assumptions C59_dictionary.
(** cluster_gfs_array: row = the annihilator, column = the creator, block diagonal in spin. *)
Theorem C59_array : forall (K : Type) (keqb : K -> K -> bool) (dagger : K -> K) (site_of : K -> point) (derive : K -> point -> K) (mk : otype -> Z -> point -> K) (same : point -> point -> bool),
  operators keqb dagger site_of derive mk same ->
  forall cluster omegas s0 s1 g0 g1 dd w omega i j, two_spins keqb mk (points cluster) omegas s0 s1 g0 g1 dd ->
  nth_error omegas w = Some omega ->
  let num := length (points cluster) in (i < num + num)%nat -> (j < num + num)%nat ->
  gfs_array keqb dagger dd (creators mk [s0; s1] cluster) (annihilators dagger mk [s0; s1] cluster) w i j = direct_sum num (g0 omega) (g1 omega) i j.
Proof.
  intros K keqb dagger site_of derive mk same OP cluster omegas s0 s1 g0 g1 dd w omega i j T Hw num Hi Hj.
  now apply (array_direct keqb dagger site_of derive mk same OP cluster omegas).
Qed.
Print Assumptions C59_array.

(** ** The program *)
(** Whatever the cluster functions (of any interaction), the cell, the cluster and the
    inter-cluster bonds: for every k the plotted spectrum is a positive density with
    total weight 2, one for each spin; no inverse fails. *)
Theorem C59_program : forall (K : Type) (keqb : K -> K -> bool) (dagger : K -> K) (site_of : K -> point) (derive : K -> point -> K) (mk : otype -> Z -> point -> K) (same : point -> point -> bool),
  operators keqb dagger site_of derive mk same ->
  forall fuel prec cell cluster s0 s1 t inter_bonds eta g0 g1 FTs VTerms,
  let num := length (points cluster) in
  let Cs := creators mk [s0; s1] cluster in let As := annihilators dagger mk [s0; s1] cluster in
  let cell_Cs := creators mk [s0; s1] cell in let cell_As := annihilators dagger mk [s0; s1] cell in
  (0 < num)%nat -> (0 < eta)%R -> lehmann num eta g0 -> lehmann num eta g1 ->
  fourier_terms keqb site_of derive fuel prec cell Cs As cell_Cs cell_As = Some (Ok FTs) ->
  v_terms keqb mk fuel prec cluster [s0; s1] Cs As t inter_bonds = Some (Ok VTerms) ->
  exists A : point -> R -> R,
    (forall k, (forall omega, (0 < A k omega)%R) /\ integrates_to (A k) 2) /\
    forall omegas kpoints dd, two_spins keqb mk (points cluster) omegas s0 s1 g0 g1 dd ->
      exists rows, final_gfs (length Cs) (length cell_Cs) num (length omegas) (gfs_array keqb dagger dd Cs As) VTerms FTs kpoints = Ok rows /\
        tabulates omegas kpoints rows (fun k omega x => spectrum x = A k omega).
Proof.
  intros K keqb dagger site_of derive mk same OP fuel prec cell cluster s0 s1 t inter_bonds eta g0 g1 FTs VTerms num Cs As cell_Cs cell_As Hn He L0 L1 HF _.
  destruct (fourier_terms_ok keqb dagger site_of derive mk same OP fuel prec [s0; s1] cell cluster FTs HF) as (ci & Rc & P & EF). cbv zeta in EF. fold Cs in EF, P.
  assert (Ln : length Cs = (num + num)%nat) by apply creators_two_length. rewrite Ln in *. set (n := (num + num)%nat) in *. set (m := length cell_Cs).
  assert (B : forall i, (i < n)%nat -> (ci i < m)%nat).
  { intros i Hi. destruct (nth_error Cs i) as [c|] eqn:E; [|apply nth_error_None in E; lia]. pose proof (nth_error_In _ _ E) as Hin.
    apply creators_in in Hin as (s & p & _ & _ & ->). destruct (P i s p E) as (q & _ & Hq). now apply list_index_lt in Hq. }
  set (G := fun omega => direct_sum num (g0 omega) (g1 omega)).
  assert (LG : lehmann n eta G) by (apply lehmann_direct; auto; lra).
  pose (X := fun k omega => match cpt n (G omega) (v_matrix k VTerms) with Ok X => X | Err _ => fun _ _ => c0 end).
  exists (fun k omega => spectrum (trace m (periodise k FTs (X k omega)) / RtoC (INR num))). split.
  - intros k. destruct (cpt_at n eta G (v_matrix k VTerms) He LG (v_matrix_hermitian n k VTerms)) as (G' & L' & Q).
    assert (Hr : (0 < INR num)%R) by (now apply lt_0_INR).
    assert (EA : forall omega, spectrum (trace m (periodise k FTs (X k omega)) / RtoC (INR num)) = (/ INR num * spectrum (csum m (fun a => form n (G' omega) (cell_wave k ci Rc a))))%R).
    { intros omega. rewrite spectrum_div by lra. f_equal. f_equal. rewrite EF, trace_periodise. apply csum_ext. intros a Ha. apply form_ext. intros i j Hi Hj.
      unfold X. destruct (Q omega (G omega) (fun _ _ _ _ => eq_refl)) as (Y & -> & EY & _). now apply EY. }
    destruct (lehmann_cells k n m eta G' ci Rc He L' ltac:(unfold n; lia) B) as [Pos Int]. split.
    + intros omega. rewrite EA. apply Rmult_lt_0_compat; [now apply Rinv_0_lt_compat|apply Pos].
    + apply (integrates_ext (fun omega => / INR num * spectrum (csum m (fun a => form n (G' omega) (cell_wave k ci Rc a))))%R); [intros; now rewrite EA|].
      replace 2%R with (/ INR num * INR n)%R by (unfold n; rewrite plus_INR; field; lra). now apply integrates_scal.
  - intros omegas kpoints dd T.
    destruct (final_gfs_ok n m num omegas (gfs_array keqb dagger dd Cs As) VTerms FTs kpoints (fun k omega Y => forall i j, (i < n)%nat -> (j < n)%nat -> Y i j = X k omega i j)) as (rows & E & Tb).
    { intros k w omega _ Hw. destruct (cpt_at n eta G (v_matrix k VTerms) He LG (v_matrix_hermitian n k VTerms)) as (G' & L' & Q).
      destruct (Q omega (gfs_array keqb dagger dd Cs As w)) as (Y & EY & HY & _).
      { intros i j Hi Hj. now apply (array_direct keqb dagger site_of derive mk same OP cluster omegas). }
      exists Y. split; [exact EY|]. intros i j Hi Hj. rewrite HY by assumption. unfold X. destruct (Q omega (G omega) (fun _ _ _ _ => eq_refl)) as (Y' & -> & HY' & _). symmetry. now apply HY'. }
    exists rows. split; [exact E|]. destruct Tb as [Tl Tb]. split; [exact Tl|]. intros a k Ha. destruct (Tb a k Ha) as (row & Er & Lr & Pr). exists row. split; [exact Er|]. split; [exact Lr|].
    intros w omega Hw. destruct (Pr w omega Hw) as (x & Ex & Y & HY & ->). eexists. split; [exact Ex|]. f_equal. f_equal. rewrite EF, !trace_periodise. apply csum_ext. intros b Hb. now apply form_ext.
Qed.
Print Assumptions C59_program.

(** The lists FTs and VTerms are computed, for the cell (num 1, 1, 1) and every cluster of
    each of the six lattices, of every shape, whatever the inter-cluster bonds between
    sites of the lattice. *)
Theorem C59_runs : forall (K : Type) (keqb : K -> K -> bool) (dagger : K -> K) (site_of : K -> point) (derive : K -> point -> K) (mk : otype -> Z -> point -> K) (same : point -> point -> bool),
  operators keqb dagger site_of derive mk same ->
  forall prec name c n0 n1 n2 cell cluster dc dL spins t inter_bonds, (1 <= prec)%nat -> In (name, c) common_cells -> (1 <= n0)%Z -> (1 <= n1)%Z -> (1 <= n2)%Z ->
  lattice_generator prec (Name name) (AnInt 1) (AnInt 1) (AnInt 1) = Ok (cell, dc) ->
  lattice_generator prec (Name name) (AnInt n0) (AnInt n1) (AnInt n2) = Ok (cluster, dL) ->
  (forall p q, In (p, q) inter_bonds -> exists i j ms ns, is_site c i ms /\ is_site c j ns /\ p = site c i ms /\ q = site c j ns) ->
  let Cs := creators mk spins cluster in let As := annihilators dagger mk spins cluster in
  let cell_Cs := creators mk spins cell in let cell_As := annihilators dagger mk spins cell in
  exists F, forall fuel, (F <= fuel)%nat ->
    (exists FTs, fourier_terms keqb site_of derive fuel prec cell Cs As cell_Cs cell_As = Some (Ok FTs)) /\
    (exists VTerms, v_terms keqb mk fuel prec cluster spins Cs As t inter_bonds = Some (Ok VTerms)).
Proof.
  intros K keqb dagger site_of derive mk same OP prec name c n0 n1 n2 cell cluster dc dL spins t inter_bonds Hp Hn H0 H1 H2 Ec EL Hb Cs As cell_Cs cell_As.
  assert (Z1 : (1 <= 1)%Z) by lia.
  assert (RD : forall n0 n1 n2 L d, (1 <= n0)%Z -> (1 <= n1)%Z -> (1 <= n2)%Z ->
     lattice_generator prec (Name name) (AnInt n0) (AnInt n1) (AnInt n2) = Ok (L, d) -> tiles c L /\ forall j ms, is_site c j ms -> folds prec L (site c j ms)).
  { clear - Hp Hn. intros n0 n1 n2 L d H0 H1 H2 E. destruct (C37_generator prec name c n0 n1 n2 Hp Hn H0 H1 H2) as (L' & d' & E' & HL & _ & _ & _ & _ & _ & _ & HT).
    rewrite E in E'. injection E' as <- <-. split; [exact HT|]. intros j ms Hj. destruct (proj2 HT j ms Hj) as (i & Ms & (Hi & Lm & EM) & _).
    destruct (C37_decompose prec name c n0 n1 n2 L d i Ms Hp Hn H0 H1 H2 E Hi Lm) as (F & HF). exists F. intros fuel Hf. rewrite <- EM. rewrite (HF fuel Hf). eexists. split; [reflexivity|]. cbn [fst]. now apply nth_In. }
  destruct (RD 1%Z 1%Z 1%Z cell dc Z1 Z1 Z1 Ec) as (C4 & C5). destruct (RD n0 n1 n2 cluster dL H0 H1 H2 EL) as (L4 & L5).
  destruct (fourier_terms_run keqb dagger site_of derive mk same OP prec spins cell cluster) as (F & HF).
  { intros p Hin. destruct (tiles_point c cluster p L4 Hin) as (j & ms & Hj & ->). now apply C5. }
  destruct (v_terms_run keqb dagger site_of derive mk same OP prec spins cluster t inter_bonds) as (F' & HF').
  { intros p q Hin. destruct (Hb p q Hin) as (i & j & ms & ns & Si & Sj & -> & ->). split; now apply L5. }
  exists (Nat.max F F'). intros fuel Hf. split.
  - destruct (HF fuel ltac:(lia)) as (y & E & _). eauto.
  - destruct (HF' fuel ltac:(lia)) as (y & E & _). eauto.
Qed.
Print Assumptions C59_runs.

(** Non-vacuity of C59_program: a 3 x 2 square cluster with the operator objects (type, spin,
    site), any Hermitian hopping within the cluster, and a bond to the next cluster. *)
Example C59_program_case : forall (h : cmat) (eta : R), hermitian 6 h -> (0 < eta)%R ->
  exists cell cluster dc dL fuel FTs VTerms (g : R -> cmat),
    lattice_generator 4 (Name "square") (AnInt 1) (AnInt 1) (AnInt 1) = Ok (cell, dc) /\
    lattice_generator 4 (Name "square") (AnInt 3) (AnInt 2) (AnInt 1) = Ok (cluster, dL) /\
    length (points cluster) = 6%nat /\
    fourier_terms op_keqb op_at op_moved fuel 4 cell (creators op_mk [0; 1]%Z cluster) (annihilators op_swap op_mk [0; 1]%Z cluster)
      (creators op_mk [0; 1]%Z cell) (annihilators op_swap op_mk [0; 1]%Z cell) = Some (Ok FTs) /\
    v_terms op_keqb op_mk fuel 4 cluster [0; 1]%Z (creators op_mk [0; 1]%Z cluster) (annihilators op_swap op_mk [0; 1]%Z cluster) c1
      [(site square_cell 0 [2; 0]%Z, site square_cell 0 [3; 0]%Z)] = Some (Ok VTerms) /\
    (forall omega, resolvent 6 h (frequency omega eta) (g omega)) /\ lehmann 6 eta g /\
    forall omegas, exists dd, two_spins op_keqb op_mk (points cluster) omegas 0 1 g g dd.
Proof.
  intros h eta Hh He.
  assert (In ("square"%string, square_cell) common_cells) as Hin by (cbn; auto).
  destruct (C37_generator 4 "square" square_cell 1 1 1 ltac:(lia) Hin ltac:(lia) ltac:(lia) ltac:(lia)) as (cell & dc & Ec & _).
  destruct (C37_generator 4 "square" square_cell 3 2 1 ltac:(lia) Hin ltac:(lia) ltac:(lia) ltac:(lia)) as (cluster & dL & EL & _ & _ & _ & _ & Ln & _ & Sp & _).
  destruct (C59_runs op_key op_keqb op_swap op_at op_moved op_mk point_eqb op_instance 4 "square" square_cell 3 2 1 cell cluster dc dL [0; 1]%Z c1
     [(site square_cell 0 [2; 0]%Z, site square_cell 0 [3; 0]%Z)] ltac:(lia) Hin ltac:(lia) ltac:(lia) ltac:(lia)) as (F & HF); auto.
  { intros p q [E|[]]. injection E as <- <-. exists 0%nat, 0%nat, [2; 0]%Z, [3; 0]%Z. repeat split; cbn; auto. }
  destruct (HF F (le_n _)) as ((FTs & EF) & (VT & EV)).
  exists cell, cluster, dc, dL, F, FTs, VT.
  pose (g := fun omega => match np_inv 6 (fun i j => frequency omega eta * delta i j - h i j) with Ok X => X | Err _ => fun _ _ => c0 end).
  assert (Hg : forall omega, resolvent 6 h (frequency omega eta) (g omega)).
  { intros omega. destruct (resolvent_exists 6 h omega eta Hh ltac:(lra)) as (G & HG). unfold g.
    destruct (proj1 (proj2 (C59_inverse 6 (fun i j => frequency omega eta * delta i j - h i j))) G HG) as (X & -> & EX).
    intros i j Hi Hj. destruct (HG i j Hi Hj) as [G1 G2]. split; [etransitivity; [|exact G1]|etransitivity; [|exact G2]]; apply csum_ext; intros; now rewrite EX. }
  exists g. split; [exact Ec|]. split; [exact EL|]. split; [rewrite Ln; reflexivity|]. split; [exact EF|]. split; [exact EV|]. split; [exact Hg|].
  split; [now apply (resolvent_lehmann 6 h)|]. intros omegas. apply two_spins_exists; [|lia].
  apply NoDup_nth_error. intros i j Hi E.
  destruct (nth_error (points cluster) i) as [p|] eqn:Ei; [|apply nth_error_None in Ei; lia]. symmetry in E.
  destruct (Nat.eq_dec i j) as [|N]; [assumption|exfalso].
  assert (Hj : (j < length (points cluster))%nat) by (apply nth_error_Some; congruence).
  assert (LV : forall vs, shift (repeat 0%Z (length vs)) vs = v0).
  { induction vs as [|v vs IH]; [reflexivity|]. unfold shift in *. cbn. rewrite IH. destruct v as [[x y] z]. cbn. unfold v0. repeat f_equal; ring. }
  pose proof (Sp i j (repeat 0%Z (length (vectors cluster))) Hi Hj N (repeat_length _ _)) as D. rewrite LV in D.
  rewrite (nth_error_nth _ _ v0 Ei), (nth_error_nth _ _ v0 E) in D. destruct p as [[x y] z]. unfold dist, norm in D. cbn in D.
  replace ((x - (x + 0)) * (x - (x + 0)) + (y - (y + 0)) * (y - (y + 0)) + (z - (z + 0)) * (z - (z + 0)))%R with 0%R in D by ring. rewrite sqrt_0 in D. lra.
Qed.
