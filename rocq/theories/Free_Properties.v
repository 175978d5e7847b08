(** C57: the tight-binding programs (NNTBChain1-4): the retarded Green function
    assembled from the library's pieces is the resolvent of the hopping matrix. *)
From Coq Require Import Reals Qreals QArith Qcanon String List ZArith NArith Bool Arith Lia Lra.
From Coquelicot Require Import Complex.
From Verif Require Import Py GQ Mat CVec State_Model State_Spec MatrixRepr_Model Fock_Spec Fock_Proofs MatrixRepr_Proofs MatrixRepr_Proofs2
  Hilbert_Model Hilbert_Spec Hilbert_Properties
  Particle_Model Particle_Spec Particle_Proofs Particle_Proofs2 Conserve_Spec
  Lanczos_Model GF_Model GF_Spec GF_Proofs GF_Proofs2 GF_Properties Free_Spec Free_Proofs Free_Proofs2 Free_Proofs3 Free_Proofs5 Free_Proofs7.
Import ListNotations.
Local Open Scope nat_scope.
Local Open Scope C_scope.

(** The factories return such terms. *)
Theorem C57_factories : forall zoom t,
  (exists site0 site1 spin0 spin1 orbit0 orbit1 c, HoppingFactory zoom site0 site1 spin0 spin1 orbit0 orbit1 c = Ok t) \/
  (exists site spin orbit c, CPFactory zoom site spin orbit c = Ok t) -> one_body zoom t.
Proof.
  intros zoom t [(site0 & site1 & spin0 & spin1 & orbit0 & orbit1 & c & H)|(site & spin & orbit & c & H)].
  - exact (one_body_hopping _ _ _ _ _ _ _ _ _ H).
  - exact (one_body_cp _ _ _ _ _ _ H).
Qed.
Print Assumptions C57_factories.

(** NNTBChain3-4 with the exact solver: ground state in one basis, the states with
    one particle more and one less in two others. *)
Theorem C57_sectors : forall (K : Type) (keqb : K -> K -> bool) (dagger : K -> K) (op : K -> aoc)
    objs start tbl zoom ts d st (An Cr : nat -> K) basis lp lh gs GE HP HH esp esh omega eta,
  make_state_table objs start = Ok tbl -> Forall (one_body zoom) ts -> closed_states tbl ts d st ->
  ladder_keys dagger op d st An Cr ->
  eigenstate zoom tbl ts basis gs GE -> hamiltonian tbl ts lp HP -> hamiltonian tbl ts lh HH ->
  holds_excited keqb op tbl basis (Some lp) gs esp d Cr -> holds_excited keqb op tbl basis (Some lh) gs esh d An ->
  eta <> 0%R ->
  exists g1 g2 : nat -> nat -> C,
    (forall i j, (i < d)%nat -> (j < d)%nat ->
       GFSolverExactSingle keqb dagger (length lp) GE HP esp eta omega (An i) (Cr j) "-" = Ok (g1 i j) /\
       GFSolverExactSingle keqb dagger (length lh) GE HH esh eta omega (Cr j) (An i) "+" = Ok (g2 i j)) /\
    resolvent d (hopping ts st) (frequency omega eta) (fun i j => g1 i j + g2 i j).
Proof.
  intros K keqb dagger op objs start tbl zoom ts d st An Cr basis lp lh gs GE HP HH esp esh omega eta Ht OB CS LK ES H1 H2 X1 X2 He.
  exact (free_resolvent keqb dagger op objs start tbl zoom ts d st An Cr basis (Some lp) (Some lh) gs GE HP HH esp esh omega eta Ht OB CS LK ES H1 H2 X1 X2 He).
Qed.
Print Assumptions C57_sectors.

(** NNTBChain1: one basis, one dictionary of states, RGFSolverExactSingle/Multiple with sign "+". *)
Theorem C57_single_basis : forall (K : Type) (keqb : K -> K -> bool) (dagger : K -> K) (op : K -> aoc)
    objs start tbl zoom ts d st (An Cr : nat -> K) basis gs GE HM es omega eta,
  make_state_table objs start = Ok tbl -> Forall (one_body zoom) ts -> closed_states tbl ts d st ->
  ladder_keys dagger op d st An Cr ->
  eigenstate zoom tbl ts basis gs GE -> hamiltonian tbl ts basis HM ->
  holds_excited keqb op tbl basis None gs es d Cr -> holds_excited keqb op tbl basis None gs es d An ->
  eta <> 0%R ->
  exists G : nat -> nat -> C,
    (forall i j, (i < d)%nat -> (j < d)%nat -> RGFSolverExactSingle keqb dagger (length basis) GE HM es eta omega (An i) (Cr j) "+" = Ok (G i j)) /\
    resolvent d (hopping ts st) (frequency omega eta) G.
Proof.
  intros K keqb dagger op objs start tbl zoom ts d st An Cr basis gs GE HM es omega eta Ht OB CS LK ES H1 X1 X2 He.
  destruct (free_resolvent keqb dagger op objs start tbl zoom ts d st An Cr basis None None gs GE HM HM es es omega eta Ht OB CS LK ES H1 H1 X1 X2 He) as (g1 & g2 & V & R).
  exists (fun i j => g1 i j + g2 i j). split; [|exact R]. intros i j Hi Hj. destruct (V i j Hi Hj) as [V1 V2].
  apply C45_rgf_single. exists (g1 i j), (g2 i j). split; [exact V1|]. split; [exact V2|reflexivity].
Qed.
Print Assumptions C57_single_basis.
Theorem C57_multiple : forall (K : Type) (keqb : K -> K -> bool), (forall a b, keqb a b = true <-> a = b) ->
  forall (dagger : K -> K) (op : K -> aoc)
    objs start tbl zoom ts d st (An Cr : nat -> K) basis gs GE HM es omegas eta j1 j2 j3 structure,
  make_state_table objs start = Ok tbl -> Forall (one_body zoom) ts -> closed_states tbl ts d st -> (0 < d)%nat ->
  ladder_keys dagger op d st An Cr ->
  eigenstate zoom tbl ts basis gs GE -> hamiltonian tbl ts basis HM ->
  holds_excited keqb op tbl basis None gs es d Cr -> holds_excited keqb op tbl basis None gs es d An ->
  eta <> 0%R ->
  exists r f,
    RGFSolverExactMultiple keqb dagger (length basis) GE HM es eta j1 j2 j3 omegas (map An (seq 0 d)) (map Cr (seq 0 d)) "+" structure = Ok r /\
    holds keqb structure omegas (map An (seq 0 d)) (map Cr (seq 0 d)) f r /\
    forall omega, In omega omegas -> resolvent d (hopping ts st) (frequency omega eta) (fun i j => f omega (An i) (Cr j)).
Proof.
  intros K keqb Hk dagger op objs start tbl zoom ts d st An Cr basis gs GE HM es omegas eta j1 j2 j3 structure Ht OB CS Hd LK ES H1 X1 X2 He.
  assert (T : forall omega, exists G : nat -> nat -> C,
    (forall i j, (i < d)%nat -> (j < d)%nat -> RGFSolverExactSingle keqb dagger (length basis) GE HM es eta omega (An i) (Cr j) "+" = Ok (G i j)) /\
    resolvent d (hopping ts st) (frequency omega eta) G).
  { intros omega. exact (C57_single_basis K keqb dagger op objs start tbl zoom ts d st An Cr basis gs GE HM es omega eta Ht OB CS LK ES H1 X1 X2 He). }
  destruct (C45_rgf_exact_multiple K keqb Hk dagger (length basis) GE HM es eta j1 j2 j3 omegas (map An (seq 0 d)) (map Cr (seq 0 d)) "+" structure) as [A B].
  destruct B as (r & Er).
  - destruct d; [lia|discriminate].
  - destruct d; [lia|discriminate].
  - intros omega A0 B0 _ HA HB. apply in_map_iff in HA as (i & <- & Hi). apply in_map_iff in HB as (j & <- & Hj). apply in_seq in Hi, Hj.
    destruct (T omega) as (G & V & _). exists (G i j). apply V; lia.
  - destruct (A r Er) as (f & V & Hh). exists r, f. split; [exact Er|]. split; [exact Hh|]. intros omega Ho.
    destruct (T omega) as (G & V' & R).
    assert (E : forall i j, (i < d)%nat -> (j < d)%nat -> f omega (An i) (Cr j) = G i j).
    { intros i j Hi Hj. specialize (V omega (An i) (Cr j) Ho (in_map An _ _ (proj2 (in_seq d 0 i) ltac:(lia))) (in_map Cr _ _ (proj2 (in_seq d 0 j) ltac:(lia)))).
      rewrite (V' i j Hi Hj) in V. injection V as ->. reflexivity. }
    intros i j Hi Hj. destruct (R i j Hi Hj) as [R1 R2]. split.
    + rewrite <- R1. apply csum_ext. intros k Hk'. now rewrite E.
    + rewrite <- R2. apply csum_ext. intros k Hk'. now rewrite E.
Qed.
Print Assumptions C57_multiple.

(** NNTBChain2-4: the Lanczos solvers give the same, exactly, as soon as
    krylov_space_dim is at least the number of states d -- not the dimension of
    the Fock space -- in exact arithmetic and with threshold 0. *)
Theorem C57_lanczos : forall (K : Type) (keqb : K -> K -> bool), (forall a b, keqb a b = true <-> a = b) ->
  forall (dagger : K -> K) (op : K -> aoc)
    objs start tbl zoom ts d st (An Cr : nat -> K) basis lp lh gs GE HP HH esp esh omega eta dim msp msh vsp vsh ms vs,
  make_state_table objs start = Ok tbl -> Forall (one_body zoom) ts -> closed_states tbl ts d st ->
  ladder_keys dagger op d st An Cr ->
  eigenstate zoom tbl ts basis gs GE -> hamiltonian tbl ts lp HP -> hamiltonian tbl ts lh HH ->
  holds_excited keqb op tbl basis (Some lp) gs esp d Cr -> holds_excited keqb op tbl basis (Some lh) gs esh d An ->
  eta <> 0%R ->
  NoDup (map fst esp) -> NoDup (map fst esh) -> (Z.of_nat d <= dim)%Z ->
  MultiKrylov (length lp) HP 0 esp dim = Ok (msp, vsp) -> MultiKrylov (length lh) HH 0 esh dim = Ok (msh, vsh) ->
  (forall k, (k < d)%nat -> lookup keqb (Cr k) msh = Err KeyError /\ lookup keqb (Cr k) vsh = Err KeyError) ->
  updated keqb msp msh ms -> updated keqb vsp vsh vs ->
  exists G : nat -> nat -> C,
    (forall i j, (i < d)%nat -> (j < d)%nat -> RGFSolverLanczosSingle keqb dagger GE ms vs eta omega (An i) (Cr j) "+" = Ok (G i j)) /\
    resolvent d (hopping ts st) (frequency omega eta) G.
Proof.
  intros K keqb Hk dagger op objs start tbl zoom ts d st An Cr basis lp lh gs GE HP HH esp esh omega eta dim msp msh vsp vsh ms vs
    Ht OB CS LK ES H1 H2 X1 X2 He N1 N2 Hdim M1 M2 Kx U1 U2.
  destruct (C57_sectors K keqb dagger op objs start tbl zoom ts d st An Cr basis lp lh gs GE HP HH esp esh omega eta Ht OB CS LK ES H1 H2 X1 X2 He) as (g1 & g2 & V & R).
  exists (fun i j => g1 i j + g2 i j). split; [|exact R]. intros i j Hi Hj. destruct (V i j Hi Hj) as [V1 V2].
  apply C45_rgf_single. exists (g1 i j), (g2 i j). split; [|split; [|reflexivity]].
  - pose proof (lanczos_p keqb dagger op objs start tbl zoom ts d st An Cr basis (Some lp) (Some lh) gs GE HP HH esp esh omega eta Ht OB CS LK ES H1 H2 X1 X2 He
      Hk dim msp vsp Hdim N1 i j (g1 i j) Hi Hj M1 V1) as E.
    destruct (Kx j Hj) as [K1 K2]. unfold GFSolverLanczosSingle in *. rewrite (U1 (Cr j)), (U2 (Cr j)), K1, K2. exact E.
  - pose proof (lanczos_h keqb dagger op objs start tbl zoom ts d st An Cr basis (Some lp) (Some lh) gs GE HP HH esp esh omega eta Ht OB CS LK ES H1 H2 X1 X2 He
      Hk dim msh vsh Hdim N2 i j (g2 i j) Hi Hj M2 V2) as E.
    unfold GFSolverLanczosSingle in *. rewrite (U1 (An i)), (U2 (An i)).
    destruct (lookup keqb (An i) msh) as [m|]; [|discriminate]. cbn [bind] in *.
    destruct (lookup keqb (An i) vsh) as [pv|]; [|discriminate]. exact E.
Qed.
Print Assumptions C57_lanczos.

(** The resolvent is unique, so G does not depend on which eigenstate was used,
    nor on the number of particles in it, nor on the order of the table. *)
Theorem C57_unique : forall d t z G G', resolvent d t z G -> resolvent d t z G' ->
  forall i j, (i < d)%nat -> (j < d)%nat -> G i j = G' i j.
Proof. exact resolvent_unique. Qed.
Print Assumptions C57_unique.
(** An eigenvector v of the hopping matrix with real energy e: sum_j G_ij v_j = v_i / (z - e);
    for phase factors the k-space function of the demos is 1/(z - e) and the spectrum a
    Lorentzian of width eta around e. *)
Theorem C57_mode : forall d t G v e omega eta, resolvent d t (frequency omega eta) G -> eta <> 0%R ->
  (forall i, (i < d)%nat -> csum d (fun j => t i j * v j) = RtoC e * v i) ->
  (forall i, (i < d)%nat -> csum d (fun j => G i j * v j) = v i / (frequency omega eta - RtoC e)) /\
  ((0 < d)%nat -> (forall i, (i < d)%nat -> Cj (v i) * v i = c1) ->
   kspace d G v = / (frequency omega eta - RtoC e) /\
   (- Im (kspace d G v) / PI = / PI * (eta / ((omega - e) * (omega - e) + eta * eta)))%R).
Proof.
  intros d t G v e omega eta R He Hv.
  assert (Nz : frequency omega eta <> RtoC e) by (intros E; apply (f_equal snd) in E; cbn in E; contradiction).
  assert (Nz' : frequency omega eta - RtoC e <> c0).
  { intros E. apply (f_equal snd) in E. cbn in E. apply He. lra. }
  assert (M := resolvent_mode d t (frequency omega eta) G v (RtoC e) R Nz Hv). split; [exact M|]. intros Hd U.
  assert (Kk : kspace d G v = / (frequency omega eta - RtoC e)).
  { unfold kspace. rewrite (csum_ext d _ (fun _ => / (frequency omega eta - RtoC e))).
    2:{ intros i Hi. rewrite (csum_ext d _ (fun j => Cj (v i) * (G i j * v j))) by (intros; ring).
        rewrite csum_mul_l, (M i Hi). unfold Cdiv. rewrite Cmult_assoc, (U i Hi). unfold c1. ring. }
    assert (S : forall n c, csum n (fun _ => c) = RtoC (INR n) * c).
    { induction n as [|n IH]; intros c; [cbn [csum INR]; unfold c0; ring|]. cbn [csum]. rewrite IH, S_INR, RtoC_plus. ring. }
    rewrite S. field. split; [exact Nz'|]. intros E. apply RtoC_inj in E. apply (not_0_INR d); [lia|exact E]. }
  split; [exact Kk|]. rewrite Kk. unfold Im, Cinv, Cminus, Cplus, Copp, frequency, RtoC. cbn [fst snd].
  assert (PI <> 0)%R by (pose proof PI_RGT_0; lra).
  assert (Q : ((omega - e) * (omega - e) + eta * eta <> 0)%R) by (pose proof (Rle_0_sqr (omega - e)); pose proof (Rlt_0_sqr eta He); unfold Rsqr in *; lra).
  field. split; [exact Q|assumption].
Qed.
Print Assumptions C57_mode.

(** The ring: the plane waves are eigenvectors with energies 2 Re (a e^(ik)), that is
    2 a cos k for real a -- the line the demos draw over the spectrum. *)
Theorem C57_ring : forall zoom N site spin orbit a ts st tbl,
  ring_terms zoom N site spin orbit a = Ok ts ->
  (forall k, (k < N)%nat -> make_state zoom (site k) spin orbit = Ok (st k)) ->
  (forall k l, (k < N)%nat -> (l < N)%nat -> same_st (st k) (st l) -> k = l) ->
  (forall k, (k < N)%nat -> exists i, state_index tbl (st k) = Ok i) ->
  Forall (one_body zoom) ts /\ closed_states tbl ts N st /\
  forall m, let k := bloch N m in
    (forall j, Cj (phase k j) * phase k j = c1) /\
    forall i, (i < N)%nat ->
      csum N (fun j => hopping ts st i j * phase k j) =
      RtoC (2 * (fst (gc a) * cos k - snd (gc a) * sin k))%R * phase k i.
Proof.
  intros zoom N site spin orbit a ts st tbl RT Est Dst T. split; [exact (ring_one_body zoom N site spin orbit a ts RT)|].
  split; [exact (ring_closed zoom N site spin orbit a ts st RT Est Dst tbl T)|]. intros m k. split; [apply phase_unit|].
  intros i Hi. unfold k. rewrite <- (ring_mode N m (gc a) i Hi). apply csum_ext. intros j Hj.
  now rewrite (ring_hopping zoom N site spin orbit a ts st RT Est Dst i j Hi Hj).
Qed.
Print Assumptions C57_ring.

(** The calls the theorems above speak of return: with a table of n <= 64 states
    starting at 0, terms on these states, and the bases base_vectors gives for the
    whole space or for a number of particles. *)
Theorem C57_program_runs : forall objs tbl zoom ts n,
  make_state_table objs 0 = Ok tbl -> length objs = n -> (1 <= n <= 64)%nat -> Forall (one_body zoom) ts ->
  (forall t x, In t ts -> In x (t_aocs t) -> exists i, state_index tbl (a_state x) = Ok i) ->
  (forall basis,
     base_vectors [PInt (Z.of_nat n)] CArray true = Ok (KArray basis) \/
     (exists p, (p <= n)%nat /\ base_vectors [PTup [PInt (Z.of_nat n); PInt (Z.of_nat p)]] CArray true = Ok (KArray basis)) ->
     sorted_bases basis /\ (exists S, sum_terms tbl basis ts = Ok S) /\
     Forall (fun t => exists t' m, pterm_dagger zoom t = Ok t' /\ fst (pterm_matrix_repr tbl t' basis None None) = Ok m) ts) /\
  (forall s i o, state_index tbl s = Ok i -> exists basis m,
     base_vectors [PInt (Z.of_nat n)] CArray true = Ok (KArray basis) /\ aoc_matrix_repr tbl (MkAoc o s) basis None = Ok m) /\
  (forall s i p, state_index tbl s = Ok i -> (p < n)%nat -> exists basis basis' m m',
     base_vectors [PTup [PInt (Z.of_nat n); PInt (Z.of_nat p)]] CArray true = Ok (KArray basis) /\
     base_vectors [PTup [PInt (Z.of_nat n); PInt (Z.of_nat (S p))]] CArray true = Ok (KArray basis') /\
     aoc_matrix_repr tbl (MkAoc CREATION s) basis (Some basis') = Ok m /\
     aoc_matrix_repr tbl (MkAoc ANNIHILATION s) basis' (Some basis) = Ok m').
Proof.
  intros objs tbl zoom ts n Ht Hlen Hn OB Kn. 
  assert (Bd : forall s i, state_index tbl s = Ok i -> (0 <= i < Z.of_nat n)%Z).
  { intros s i E. apply (state_bounds objs 0 tbl n s i Ht); [lia|lia|exact E]. }
  split; [|split].
  - intros basis HB.
    assert (G : sorted_bases basis /\ forall i j, (i < n)%nat -> (j < n)%nat -> closed_on [cr i; an j] basis basis).
    { destruct HB as [E|(p & Hp & E)].
      - rewrite (C19_full_space n Hn) in E. injection E as <-. split; [apply sorted_full|]. intros i j Hi Hj. apply closed_full.
        apply Forall_cons; [exact Hi|]. apply Forall_cons; [exact Hj|constructor].
      - rewrite (C19_sector n p Hn Hp) in E. injection E as <-. split; [apply sorted_sector|]. intros i j Hi Hj. apply closed_sector.
        + apply Forall_cons; [exact Hi|]. apply Forall_cons; [exact Hj|constructor].
        + cbn. lia. }
    destruct G as [Sb Cl]. split; [exact Sb|].
    assert (Rn : forall a b c, (exists i, state_index tbl a = Ok i) -> (exists i, state_index tbl b = Ok i) ->
      exists m, fst (pterm_matrix_repr tbl (MkTerm [MkAoc CREATION a; MkAoc ANNIHILATION b] c Tgeneral) basis None None) = Ok m).
    { intros a b c (i & Ei) (j & Ej). rewrite term_repr. cbn [t_aocs t_coeff t_class ops map a_otype a_state].
      unfold term_of. cbn [mapM snd fst]. rewrite Ei. cbn [bind]. rewrite Ej. cbn [bind].
      pose proof (Bd _ _ Ei) as Bi. pose proof (Bd _ _ Ej) as Bj.
      destruct (general_ok [(i, CREATION); (j, ANNIHILATION)] basis None c) as (m & Hm & _); [exact Sb|discriminate| | | |exists m; exact Hm].
      - apply Forall_cons; [|apply Forall_cons; [|constructor]]; unfold good_index; cbn [fst]; lia.
      - cbn [the_left]. exact (Cl (Z.to_nat i) (Z.to_nat j) ltac:(lia) ltac:(lia)).
      - destruct basis; [right; reflexivity|left; discriminate]. }
    assert (Tr : forall t, In t ts -> (exists m, fst (pterm_matrix_repr tbl t basis None None) = Ok m) /\
      exists t' m, pterm_dagger zoom t = Ok t' /\ fst (pterm_matrix_repr tbl t' basis None None) = Ok m).
    { intros t Hin. rewrite Forall_forall in OB. destruct (OB t Hin) as (Cc & B & a & b & E).
      pose proof (Kn t (MkAoc CREATION a) Hin) as Ka. pose proof (Kn t (MkAoc ANNIHILATION b) Hin) as Kb. rewrite E in Ka, Kb. cbn [a_state] in Ka, Kb.
      specialize (Ka (or_introl eq_refl)). specialize (Kb (or_intror (or_introl eq_refl))). split.
      - rewrite (compatible_general objs 0 tbl t basis None Ht Cc) by auto. rewrite E. now apply Rn.
      - eexists. destruct (Rn b a (gconj (t_coeff t)) Kb Ka) as (m & Hm). exists m. split; [now apply pterm_dagger_ok|].
        rewrite E. exact Hm. }
    split.
    + unfold sum_terms. assert (M : exists ms, mapM (fun t => fst (pterm_matrix_repr tbl t basis None None)) ts = Ok ms).
      { clear - Tr. induction ts as [|t ts IH]; [exists []; reflexivity|]. destruct (proj1 (Tr t (or_introl eq_refl))) as (m & Hm).
        destruct IH as (ms & Hms); [intros t' Hin; apply Tr; now right|]. exists (m :: ms). cbn [mapM]. rewrite Hm. cbn [bind]. rewrite Hms. reflexivity. }
      destruct M as (ms & ->). eexists. reflexivity.
    + apply Forall_forall. intros t Hin. exact (proj2 (Tr t Hin)).
  - intros s i o E. exists (full_bases n). destruct (aoc_full objs 0 tbl n (MkAoc o s) i Ht) as (m & Hm & _); try lia; [exact E|].
    exists m. split; [now apply C19_full_space|exact Hm].
  - intros s i p E Hp. pose proof (Bd s i E) as Bi.
    destruct (C15_base_vectors n p (S p) [(i, CREATION)] g1) as (r & l & m & E1 & E2 & E3 & _); try lia; [discriminate| |unfold word_charge; cbn [map fold_right fst snd]; lia|].
    { apply Forall_cons; [cbn [fst]; lia|constructor]. }
    destruct (C15_base_vectors n (S p) p [(i, ANNIHILATION)] g1) as (r' & l' & m' & E1' & E2' & E3' & _); try lia; [discriminate| |unfold word_charge; cbn [map fold_right fst snd]; lia|].
    { apply Forall_cons; [cbn [fst]; lia|constructor]. }
    rewrite E1 in E2'. injection E2' as <-. rewrite E2 in E1'. injection E1' as <-.
    exists r, l, m, m'. split; [exact E1|]. split; [exact E2|]. unfold aoc_matrix_repr. cbn [a_state a_otype]. rewrite E. split; [exact E3|exact E3'].
Qed.
Print Assumptions C57_program_runs.

(** ** A concrete case: two sites, one bond, the one-particle ground state
    (|1> - |2>)/sqrt 2 with energy -1 in the basis of all four kets. *)
Definition ex_site (k : nat) : list pynum := [NInt (Z.of_nat k)].
Definition ex_st (k : nat) : stateid := match make_state default_zoom (ex_site k) (NInt 0) (NInt 0) with Ok s => s | Err _ => MkState (MkSite [] []) 0 0 end.
Definition ex_ts : list pterm := match HoppingFactory default_zoom (ex_site 0) (ex_site 1) (NInt 0) None (NInt 0) None (CNum g1) with Ok t => [t] | Err _ => [] end.
Definition ex_tbl : state_table := match make_state_table [LState (ex_st 0); LState (ex_st 1)] 0 with Ok t => t | Err _ => IndexTable_Model.MkTable [] [] CState 0%Z end.
Definition ex_basis : list N := [0; 1; 2; 3]%N.
Definition ex_S : mat := match sum_terms ex_tbl ex_basis ex_ts with Ok m => m | Err _ => mzero end.
Definition ex_gs : vec := fun i => match i with 1%nat => RtoC (sqrt (/ 2)) | 2%nat => RtoC (- sqrt (/ 2)) | _ => c0 end.
(** Keys 2k for the annihilator, 2k + 1 for the creator of site k. *)
Definition ex_op (k : nat) : aoc := MkAoc (if Nat.odd k then CREATION else ANNIHILATION) (ex_st (Nat.div2 k)).
Definition ex_dagger (k : nat) : nat := if Nat.odd k then Nat.pred k else S k.
Definition ex_state (k : nat) : vec := match aoc_matrix_repr ex_tbl (ex_op k) ex_basis None with Ok m => mv 4 (cm (entry m)) ex_gs | Err _ => vzero end.
Definition ex_es : list (nat * vec) := map (fun k => (k, ex_state k)) [0; 1; 2; 3]%nat.
Lemma lt2 (P : nat -> Prop) : P 0%nat -> P 1%nat -> forall k, (k < 2)%nat -> P k.
Proof. intros A B [|[|k]] H; [exact A|exact B|lia]. Qed.
Lemma ex_entry r c : (r < 4)%nat -> (c < 4)%nat ->
  this (re (ex_S r c)) = (if (Nat.eqb r 1 && Nat.eqb c 2)%bool then 1 else 0)%Q /\ this (im (ex_S r c)) = 0%Q.
Proof.
  intros Hr Hc. destruct r as [|[|[|[|r]]]]; [| | | |lia]; (destruct c as [|[|[|[|c]]]]; [| | | |lia]); split; vm_compute; reflexivity.
Qed.
Example C57_example :
  make_state_table [LState (ex_st 0); LState (ex_st 1)] 0 = Ok ex_tbl /\ Forall (one_body default_zoom) ex_ts /\ length ex_ts = 1%nat /\
  closed_states ex_tbl ex_ts 2 ex_st /\ ladder_keys ex_dagger ex_op 2 ex_st (fun k => 2 * k)%nat (fun k => S (2 * k)) /\
  eigenstate default_zoom ex_tbl ex_ts ex_basis ex_gs (-1) /\ hamiltonian ex_tbl ex_ts ex_basis (with_hc ex_S) /\
  holds_excited Nat.eqb ex_op ex_tbl ex_basis None ex_gs ex_es 2 (fun k => S (2 * k)) /\
  holds_excited Nat.eqb ex_op ex_tbl ex_basis None ex_gs ex_es 2 (fun k => 2 * k)%nat.
Proof.
  assert (E1 : make_state_table [LState (ex_st 0); LState (ex_st 1)] 0 = Ok ex_tbl) by reflexivity.
  assert (E2 : sum_terms ex_tbl ex_basis ex_ts = Ok ex_S) by (unfold ex_S; destruct (sum_terms ex_tbl ex_basis ex_ts) eqn:E; [reflexivity|exfalso; revert E; vm_compute; discriminate]).
  assert (E3 : exists t, HoppingFactory default_zoom (ex_site 0) (ex_site 1) (NInt 0) None (NInt 0) None (CNum g1) = Ok t /\ ex_ts = [t] /\ t_aocs t = [MkAoc CREATION (ex_st 0); MkAoc ANNIHILATION (ex_st 1)]).
  { unfold ex_ts. eexists. split; [reflexivity|]. split; reflexivity. }
  destruct E3 as (t & F & Ets & Ea).
  assert (OB : Forall (one_body default_zoom) ex_ts) by (rewrite Ets; apply Forall_cons; [exact (one_body_hopping _ _ _ _ _ _ _ _ _ F)|constructor]).
  assert (St : forall k, (k < 2)%nat -> state_index ex_tbl (ex_st k) = Ok (Z.of_nat k)) by (apply lt2; reflexivity).
  assert (SB : sorted_bases ex_basis) by (cbn; repeat constructor).
  assert (HX : forall key, (key < 4)%nat -> exists m v, aoc_matrix_repr ex_tbl (ex_op key) ex_basis None = Ok m /\
    lookup Nat.eqb key ex_es = Ok v /\ veqn (nrows m) v (mv (length ex_basis) (cm (entry m)) ex_gs)).
  { intros key Hk. assert (R : exists m, aoc_matrix_repr ex_tbl (ex_op key) ex_basis None = Ok m).
    { destruct (aoc_matrix_repr ex_tbl (ex_op key) ex_basis None) as [m|] eqn:E; [exists m; reflexivity|].
      exfalso. destruct key as [|[|[|[|key]]]]; [| | | |lia]; revert E; vm_compute; discriminate. }
    destruct R as (m & Em). exists m, (ex_state key). split; [exact Em|]. split.
    - destruct key as [|[|[|[|key]]]]; [| | | |lia]; reflexivity.
    - intros r _. unfold ex_state. rewrite Em. reflexivity. }
  split; [exact E1|]. split; [exact OB|]. split; [now rewrite Ets|]. split; [|split; [|split; [|split; [|split]]]].
  - split; [intros k Hk; exists (Z.of_nat k); now apply St|]. split.
    + intros k l Hk Hl H. destruct (table_facts _ _ _ E1) as (T1 & _). apply (T1 _ _ _ _ (St k Hk) (St l Hl)) in H. lia.
    + intros t' x y Hin E. rewrite Ets in Hin. destruct Hin as [<-|[]]. rewrite Ea in E. injection E as <- <-. cbn [a_state].
      split; intros _; [exists 1%nat|exists 0%nat]; (split; [lia|apply same_st_refl]).
  - intros k Hk. destruct k as [|[|k]]; [| |lia]; (split; [reflexivity|]; split; [reflexivity|]; split; reflexivity).
  - split; [exact SB|]. split; [|split].
    + exists ex_S. split; [exact E2|]. 
      assert (W : forall r c, (r < 4)%nat -> (c < 4)%nat -> with_hc ex_S r c = if ((Nat.eqb r 1 && Nat.eqb c 2) || (Nat.eqb c 1 && Nat.eqb r 2))%bool then c1 else c0).
      { intros r c Hr Hc. unfold with_hc, gc. destruct (ex_entry r c Hr Hc) as [A1 A2]. destruct (ex_entry c r Hc Hr) as [B1 B2]. rewrite A1, A2, B1, B2.
        assert (Q0 : Q2R 0 = 0%R) by (unfold Q2R; cbn; lra). assert (Q1 : Q2R 1 = 1%R) by (unfold Q2R; cbn; lra).
        destruct r as [|[|[|[|r]]]]; [| | | |lia]; (destruct c as [|[|[|[|c]]]]; [| | | |lia]); cbn [Nat.eqb andb orb]; unfold Cj; cbn [fst snd];
          rewrite ?Q0, ?Q1; unfold c0, c1; apply C_eq; cbn; ring. }
      intros r Hr. change (length ex_basis) with 4%nat in *. unfold mv. cbn [csum].
      rewrite !W by lia. destruct r as [|[|[|[|r]]]]; [| | | |lia]; cbn [Nat.eqb andb orb ex_gs]; unfold c0, c1; apply C_eq; cbn; ring.
    + rewrite Ets. apply Forall_cons; [|constructor].
      destruct (C57_program_runs [LState (ex_st 0); LState (ex_st 1)] ex_tbl default_zoom ex_ts 2 E1 eq_refl ltac:(lia) OB) as (A & _).
      { intros t' x Hin Hx. rewrite Ets in Hin. destruct Hin as [<-|[]]. rewrite Ea in Hx. destruct Hx as [<-|[<-|[]]]; cbn [a_state]; eexists; apply St; lia. }
      destruct (A ex_basis (or_introl (C19_full_space 2 ltac:(lia)))) as (_ & _ & D). rewrite Ets in D. inversion D; assumption.
    + unfold inner, ex_gs. cbn [length ex_basis csum]. rewrite !Cj_R. unfold c0.
      assert (Q : (sqrt (/ 2) * sqrt (/ 2) = / 2)%R) by (apply sqrt_sqrt; lra). apply C_eq; cbn; lra.
  - split; [exact SB|]. exists ex_S. split; [exact E2|reflexivity].
  - intros k Hk. apply HX. lia.
  - intros k Hk. apply HX. lia.
Qed.
(** ... so G is the resolvent of the matrix [[0, 1], [1, 0]]. *)
Example C57_example_values : exists G : nat -> nat -> C,
  (forall i j, (i < 2)%nat -> (j < 2)%nat ->
     RGFSolverExactSingle Nat.eqb ex_dagger 4 (-1) (with_hc ex_S) ex_es 1 0 (2 * i)%nat (S (2 * j)%nat) "+" = Ok (G i j)) /\
  resolvent 2 (hopping ex_ts ex_st) (frequency 0 1) G.
Proof.
  destruct C57_example as (E1 & E2 & _ & E3 & E4 & E5 & E6 & E7 & E8).
  exact (C57_single_basis nat Nat.eqb ex_dagger ex_op _ 0 ex_tbl default_zoom ex_ts 2 ex_st (fun k => 2 * k)%nat (fun k => S (2 * k)) ex_basis ex_gs (-1) (with_hc ex_S) ex_es 0 1
    E1 E2 E3 E4 E5 E6 E7 E8 R1_neq_R0).
Qed.
