(** C61: the demos HeisenbergChain1 and HeisenbergChain2 - the exchange matrix built from
    the bonds of a cluster, and the spin excitation spectrum computed from it. *)
From Coq Require Import Reals String List ZArith Bool Arith Lia Lra Permutation.
From Coquelicot Require Import Complex.
From Verif Require Import Py GQ Mat CVec State_Model MatrixRepr_Model Particle_Model Spin_Model Spin_Spec Spin_Proofs
  Lattice_Model Lattice_Spec Lattice_Proofs Lattice_Properties LatticeCases_Properties LatticeGen_Model LatticeGen_Spec LatticeGen_Proofs LatticeGen_Properties
  Neighbors_Spec Neighbors_Proofs Neighbors_Properties LatticeBonds_Spec LatticeBonds_Proofs2 LatticeBonds_Properties
  Lanczos_Model Lanczos_Proofs2 GF_Model GF_Spec GF_Proofs2 CPT_Model CPT_Proofs5 Bloch_Properties Free_Spec Spectrum_Spec Spectrum_Proofs Spectrum_Proofs2 Spectrum_Properties
  Heisenberg_Model Heisenberg_Spec Heisenberg_Proofs Heisenberg_Proofs2 Heisenberg_Proofs3 Heisenberg_Proofs4 Heisenberg_Proofs5 Heisenberg_Proofs6 Heisenberg_Proofs7.
Import ListNotations.
Local Open Scope nat_scope.

Lemma hrsum_mul_l : forall n c f, rsum n (fun i => c * f i)%R = (c * rsum n f)%R.
Proof. induction n as [|n IH]; intros c f; cbn [rsum]; [ring|]. rewrite IH. ring. Qed.
Lemma hrsum_zero : forall n f, (forall i, (i < n)%nat -> f i = 0%R) -> rsum n f = 0%R.
Proof. induction n as [|n IH]; intros f H; cbn [rsum]; [reflexivity|]. rewrite IH by (intros; apply H; lia). rewrite H by lia. ring. Qed.

(** ** The matrix *)
(** Any lattice, any set P of bond lengths, any listing of the bonds that C36 describes:
    the matrix is J times the sum of S_i . S_j over the listed bonds, the translated
    endpoint counted as its equivalent in the cluster, plus J times Sz_i for every bond
    that connects a site with its own translation; it is Hermitian, and without such
    bonds it commutes with the total spin. *)
Theorem C61_matrix : forall nearest prec0 prec L J P intra inter T,
  finds_nearest nearest -> lattice_of prec0 L -> separated (view prec) L -> gconj J = J ->
  lists_intra L P intra -> lists_inter L P false inter T ->
  (forall k, In k T -> (reach (by_ k) <= 1)%Z \/ reduced (3 / 4) (vectors L) \/ steady (vectors L) [v0]) -> (intra ++ inter)%list <> [] ->
  let n := length (points L) in
  exists I, NoDup I /\ (forall i j, In (i, j) I <-> (i < j < n)%nat /\ P (dist (nth i (points L) v0) (nth j (points L) v0))) /\
  exists F, forall fuel, (F <= fuel)%nat -> exists m, heisenberg_matrix L nearest fuel prec (Z.of_nat n) J intra inter = Some (Ok m) /\
    represents n m (madd (exchange n J (I ++ map ends T)) (self_field n J (I ++ map ends T))) /\
    meq (2 ^ n) (2 ^ n) (mdag (s_ent m)) (s_ent m) /\
    ((forall k, In k T -> from k <> to k) -> represents n m (exchange n J (I ++ map ends T)) /\
       forall o, meq (2 ^ n) (2 ^ n) (comm (2 ^ n) (s_ent m) (total_spin n o)) mzero).
Proof.
  intros nearest prec0 prec L J P intra inter T Hn HL Hs HJ (I & NI & II & PI) (NT & VT & PT) HR NE n. exists I. split; [exact NI|]. split; [exact II|].
  assert (RI : forall i j, In (i, j) I -> (i < length (points L))%nat /\ (j < length (points L))%nat) by (intros i j H; apply II in H; lia).
  destruct (bonds_matrix nearest prec0 prec L J intra inter I T Hn HL Hs HJ PI RI PT) as (F & HF).
  - intros k Hk. destruct (VT k Hk) as (V & _). split; [exact V|auto].
  - destruct I as [|p I']; [|left; discriminate]. right. intros ->. cbn in PI, PT. apply Permutation_sym, Permutation_nil in PI, PT. subst. now apply NE.
  - exists F. intros fuel Hf. destruct (HF fuel Hf) as (m & E & R1 & R2 & R3). fold n in E, R1, R2, R3. exists m. split; [exact E|]. split; [split; [exact R1|split; [exact R2|exact R3]]|].
    assert (RG : Forall (fun p => (fst p < n)%nat /\ (snd p < n)%nat) (I ++ map ends T)).
    { apply Forall_app. split; apply Forall_forall; [intros [i j] H; exact (RI i j H)|]. intros p H. apply in_map_iff in H as (k & <- & H). destruct (VT k H) as ((A & B & _) & _). cbn. auto. }
    split.
    + intros r c Hr Hc. unfold mdag. rewrite (R3 c r Hc Hr), (R3 r c Hr Hc). unfold madd. rewrite gconj_add.
      change (gconj (exchange n J (I ++ map ends T) c r)) with (mdag (exchange n J (I ++ map ends T)) r c). rewrite (exchange_hermitian n J _ HJ RG r c Hr Hc). f_equal.
      unfold self_field. rewrite gconj_mul, HJ, lsum_conj. f_equal. apply lsum_ext. intros p _. destruct (Nat.eqb _ _); [|reflexivity]. exact (spin_at_dag n (fst p) SZ r c).
    + intros NS. assert (NSF : Forall (fun p => fst p <> snd p) (I ++ map ends T)).
      { apply Forall_app. split; apply Forall_forall; [intros [i j] H; apply II in H; cbn; lia|]. intros p H. apply in_map_iff in H as (k & <- & H). cbn. now apply NS. }
      assert (X : meq (2 ^ n) (2 ^ n) (s_ent m) (exchange n J (I ++ map ends T))).
      { intros r c Hr Hc. rewrite (R3 r c Hr Hc). unfold madd. rewrite (no_self n J _ r c NSF). ring. }
      split; [split; [exact R1|split; [exact R2|exact X]]|]. intros o.
      intros r c Hr Hc. rewrite (comm_ext (2 ^ n) _ _ _ _ X (fun _ _ _ _ => eq_refl) r c Hr Hc). now apply exchange_rot.
Qed.
Print Assumptions C61_matrix.
(** Without bonds HM is still the float 0.0 when getH() is called. *)
Theorem C61_no_bonds : forall cluster nearest fuel prec site_num J, heisenberg_matrix cluster nearest fuel prec site_num J [] [] = Some (Err AttributeError).
Proof. reflexivity. Qed.
Print Assumptions C61_no_bonds.

(** The demo: bonds(nth=1) of a chain cluster of n >= 2 sites gives the periodic chain;
    a one-site cluster gets the field J Sz instead of a constant. *)
Theorem C61_ring : forall nearest prec n L dL ord pord d only J, finds_nearest nearest -> (1 <= prec)%nat -> (1 <= n)%nat ->
  lattice_generator prec (Name "chain") (AnInt (Z.of_nat n)) (AnInt 1) (AnInt 1) = Ok (L, dL) ->
  listing ord -> listing pord -> reachable prec L ord (fresh prec L) d -> gconj J = J ->
  length (points L) = n /\ (forall i, (i < n)%nat -> nth i (points L) v0 = (INR i, 0, 0)%R) /\
  exists F, forall fuel, (F <= fuel)%nat -> exists intra inter,
    fst (bonds L ord pord fuel prec d (AnInt 1) only false) = Some (Ok (intra, Some inter)) /\
    exists F', forall fuel', (F' <= fuel')%nat -> exists HM,
      heisenberg_matrix L nearest fuel' prec (Z.of_nat n) J intra inter = Some (Ok HM) /\
      ((2 <= n)%nat -> represents n HM (ring_exchange n J)) /\
      (n = 1%nat -> represents n HM (madd (ring_exchange n J) (mscale J (spin_at n 0 SZ)))).
Proof.
  intros nearest prec n L dL ord pord d only J Hn Hp Hn1 EL Ho Hpo Hr HJ.
  assert (Hin : In ("chain"%string, chain_cell) common_cells) by (now left).
  destruct (generated prec "chain" chain_cell (Z.of_nat n) 1 1 L dL Hp Hin ltac:(lia) ltac:(lia) ltac:(lia) EL) as (Lp & Lv & _ & SL).
  pose proof (ring_size n L Hn1 Lp) as LN. split; [exact LN|]. split; [intros i Hi; rewrite Lp; now apply chain_points|].
  destruct (C37_generator prec "chain" chain_cell (Z.of_nat n) 1 1 Hp Hin ltac:(lia) ltac:(lia) ltac:(lia)) as (L' & d' & E' & HL & _). rewrite EL in E'. injection E' as <- <-.
  destruct (simple_bonds prec "chain" chain_cell (Z.of_nat n) 1 1 L dL ord pord d only Hp (or_introl eq_refl) Hin ltac:(lia) ltac:(lia) ltac:(lia) EL Ho Hpo Hr) as (F & HF).
  exists F. intros fuel Hf. destruct (HF fuel Hf) as (intra & inter & T & EB & (I & NI & II & PI) & (NT & VT & PT) & AT). exists intra, inter. split; [exact EB|].
  pose proof (ring_T n L Hn1 Lp Lv T NT VT AT) as HT. pose proof (ring_I n L Hn1 Lp I NI II) as HI.
  destruct (bonds_matrix nearest prec prec L J intra inter I T Hn HL SL HJ PI) as (F' & HF').
  - intros i j H. apply II in H. lia.
  - exact PT.
  - intros k Hk. destruct (VT k Hk) as (V & _). split; [exact V|]. left. destruct HT as [-> | ->]; destruct Hk as [<-|[]]; cbn; lia.
  - right. destruct HT as [-> | ->]; discriminate.
  - exists F'. intros fuel' Hf'. destruct (HF' fuel' Hf') as (m & E & R1 & R2 & R3). rewrite LN in *. exists m. split; [exact E|].
    assert (RS := ring_sum n Hn1 I T J HI HT).
    split.
    + intros H2. split; [exact R1|]. split; [exact R2|]. intros r c Hr' Hc. rewrite (R3 r c Hr' Hc). unfold madd. rewrite (RS r c Hr' Hc), no_self; [ring|].
      apply Forall_app. split; apply Forall_forall.
      * intros [i j] H. apply II in H. cbn. lia.
      * intros p H. apply in_map_iff in H as (k & <- & H). destruct HT as [-> | ->]; destruct H as [<-|[]]; cbn; lia.
    + intros ->. split; [exact R1|]. split; [exact R2|]. intros r c Hr' Hc. rewrite (R3 r c Hr' Hc). unfold madd. rewrite (RS r c Hr' Hc). f_equal.
      unfold self_field, mscale. f_equal. assert (I = []) as -> by (apply Permutation_nil; apply Permutation_sym in HI; exact HI). cbn [app].
      destruct HT as [-> | ->]; cbn [map lsum ends closing opposite from to fst snd Nat.eqb Nat.sub]; ring.
Qed.
Print Assumptions C61_ring.
Local Ltac gq_calc := apply gq_eq; apply Qcanon.Qc_is_canon; vm_compute; reflexivity.
(** The one-site matrix is not invariant under rotations. *)
Theorem C61_one_site_refuted : forall J HM, J <> g0 -> represents 1 HM (madd (ring_exchange 1 J) (mscale J (spin_at 1 0 SZ))) ->
  ~ meq 2 2 (comm 2 (s_ent HM) (total_spin 1 SX)) mzero.
Proof.
  intros J HM NJ (_ & _ & R) C. specialize (C 0%nat 1%nat ltac:(lia) ltac:(lia)). unfold comm, msub, mmul, bigsum in C. cbn [seq lsum] in C.
  rewrite !R in C by (cbn; lia).
  assert (E00 : madd (ring_exchange 1 J) (mscale J (spin_at 1 0 SZ)) 0%nat 0%nat = gmul J (mkGQ (Qcanon.Q2Qc (QArith_base.Qmake 5 4)) (Qcanon.Q2Qc (QArith_base.inject_Z 0)))).
  { unfold madd, mscale, ring_exchange. match goal with |- GQ.gadd (gmul J ?a) (gmul J ?b) = gmul J ?c => replace c with (GQ.gadd a b) by (gq_calc) end. ring. }
  assert (E11 : madd (ring_exchange 1 J) (mscale J (spin_at 1 0 SZ)) 1%nat 1%nat = gmul J (mkGQ (Qcanon.Q2Qc (QArith_base.Qmake 1 4)) (Qcanon.Q2Qc (QArith_base.inject_Z 0)))).
  { unfold madd, mscale, ring_exchange. match goal with |- GQ.gadd (gmul J ?a) (gmul J ?b) = gmul J ?c => replace c with (GQ.gadd a b) by (gq_calc) end. ring. }
  assert (E01 : forall r c, r <> c -> (r < 2)%nat -> (c < 2)%nat -> madd (ring_exchange 1 J) (mscale J (spin_at 1 0 SZ)) r c = g0).
  { intros r c N Hr Hc. unfold madd, mscale, ring_exchange. match goal with |- GQ.gadd (gmul J ?a) (gmul J ?b) = _ => assert (a = g0 /\ b = g0) as [-> ->]; [|ring] end.
    destruct r as [|[|r]], c as [|[|c]]; try lia; split; gq_calc. }
  rewrite E00, E11, !E01 in C by lia. assert (X01 : total_spin 1 SX 0 1 = ghalf) by (gq_calc). assert (X00 : total_spin 1 SX 0 0 = g0) by (gq_calc). assert (X11 : total_spin 1 SX 1 1 = g0) by (gq_calc).
  rewrite X01, X00, X11 in C. apply NJ. unfold mzero in C.
  assert (D : gmul (gmul J (gsub (mkGQ (Qcanon.Q2Qc (QArith_base.Qmake 5 4)) (Qcanon.Q2Qc (QArith_base.inject_Z 0))) (mkGQ (Qcanon.Q2Qc (QArith_base.Qmake 1 4)) (Qcanon.Q2Qc (QArith_base.inject_Z 0))))) ghalf = g0) by (rewrite <- C; ring).
  replace (gsub _ _) with g1 in D by (gq_calc).
  replace J with (GQ.gadd (gmul (gmul J g1) ghalf) (gmul (gmul J g1) ghalf)); [rewrite D; ring|]. replace (GQ.gadd (gmul (gmul J g1) ghalf) (gmul (gmul J g1) ghalf)) with (gmul J (GQ.gadd ghalf ghalf)) by ring. rewrite ghalf_double. ring.
Qed.
Print Assumptions C61_one_site_refuted.

(** ** The spectrum *)
(** HeisenbergChain1 on any cluster and for any Hermitian matrix H of its spins, any
    state gs and any energy GE: the program returns; row omega, column k of the result is
    -1/pi Im of (1/n) sum_ij G_ij e^(ik.(r_j - r_i)), where
    G_ij = <S-_i gs| (omega + i eta + GE - H)^-1 |S-_j gs>, whatever np.empty contained. *)
Theorem C61_program : forall (K : Type) (keqb : K -> K -> bool) (dagger : K -> K) (site_of : K -> point) (mk : string -> point -> K),
  spin_keys keqb dagger site_of mk ->
  forall nearest prec0 prec fuel L HM H GE gs eta junk omegas kpoints,
  finds_nearest nearest -> lattice_of prec0 L -> separated (view prec) L ->
  let n := length (points L) in
  represents n HM H -> meq (2 ^ n) (2 ^ n) (mdag H) H -> eta <> 0%R ->
  exists rows (G : R -> cmat),
    exact_spectrum keqb dagger site_of mk L nearest fuel prec (Z.of_nat n) HM GE gs eta junk omegas kpoints = Some (Ok rows) /\
    (forall omega i j, (i < n)%nat -> (j < n)%nat -> green "-" (2 ^ n) (cm H) GE (frequency omega eta) (lowered n gs i) (lowered n gs j) (G omega i j)) /\
    rows_of omegas kpoints rows (fun omega k x => x = spectrum (kspace n (G omega) (fun j => cexp k (nth j (points L) v0)))).
Proof.
  intros K keqb dagger site_of mk SK nearest prec0 prec fuel L HM H GE gs eta junk omegas kpoints Hn HL Hs n RH HH He.
  pose proof (lattice_of_facts _ _ HL) as (_ & _ & _ & Hp).
  exact (exact_program keqb dagger site_of mk SK nearest prec0 prec L Hn HL (separated_nodup prec L Hs) Hp HM H GE gs eta junk omegas kpoints RH HH He fuel).
Qed.
Print Assumptions C61_program.

(** HeisenbergChain2 with a Krylov space as large as the Hilbert space: the same table. *)
Theorem C61_lanczos : forall (K : Type) (keqb : K -> K -> bool) (dagger : K -> K) (site_of : K -> point) (mk : string -> point -> K),
  spin_keys keqb dagger site_of mk ->
  forall nearest prec0 prec fuel L HM H GE gs eta junk junk' omegas kpoints dim,
  finds_nearest nearest -> lattice_of prec0 L -> separated (view prec) L ->
  let n := length (points L) in
  represents n HM H -> meq (2 ^ n) (2 ^ n) (mdag H) H -> eta <> 0%R -> omegas <> [] -> (Z.of_nat (2 ^ n) <= dim)%Z ->
  (forall i, (i < n)%nat -> ~ veqn (2 ^ n) (lowered n gs i) vzero) ->
  exists rows,
    exact_spectrum keqb dagger site_of mk L nearest fuel prec (Z.of_nat n) HM GE gs eta junk omegas kpoints = Some (Ok rows) /\
    lanczos_spectrum keqb dagger site_of mk L nearest fuel prec (Z.of_nat n) HM GE gs eta junk' omegas kpoints 0 dim = Some (Ok rows).
Proof.
  intros K keqb dagger site_of mk SK nearest prec0 prec fuel L HM H GE gs eta junk junk' omegas kpoints dim Hn HL Hs n RH HH He OM Hd NZ.
  pose proof (lattice_of_facts _ _ HL) as (_ & _ & _ & Hp). pose proof (separated_nodup prec L Hs) as ND.
  destruct (exact_program keqb dagger site_of mk SK nearest prec0 prec L Hn HL ND Hp HM H GE gs eta junk omegas kpoints RH HH He fuel) as (r1 & G1 & E1 & HG1 & T1).
  destruct (lanczos_program keqb dagger site_of mk SK nearest prec0 prec L Hn HL ND Hp HM H GE gs eta junk' omegas kpoints RH HH He NZ OM dim Hd fuel) as (r2 & G2 & E2 & HG2 & T2).
  exists r1. split; [exact E1|]. rewrite (rows_unique omegas kpoints r1 r2 _ _ T1 T2); [exact E2|]. intros omega k _ _. f_equal. unfold kspace. f_equal.
  apply csum_ext. intros i Hi. apply csum_ext. intros j Hj. f_equal.
  apply (green_unique "-" (2 ^ n) (cm H) GE (frequency omega eta) (lowered n gs i) (lowered n gs j)); [|exact (HG1 omega i j Hi Hj)|exact (HG2 omega i j Hi Hj)].
  apply hermitian_invertible; [|exact He]. exact (cm_hermitian L H HH).
Qed.
Print Assumptions C61_lanczos.
(** ... but if one of the states S-_i gs is as short as the threshold (it vanishes when
    spin i points down), the Lanczos program stops with ValueError. *)
Theorem C61_lanczos_short_refuted : forall (K : Type) (keqb : K -> K -> bool) (dagger : K -> K) (site_of : K -> point) (mk : string -> point -> K),
  spin_keys keqb dagger site_of mk ->
  forall nearest prec0 prec fuel L HM H GE gs eta junk omegas kpoints thr dim i,
  finds_nearest nearest -> lattice_of prec0 L -> separated (view prec) L ->
  let n := length (points L) in
  represents n HM H -> meq (2 ^ n) (2 ^ n) (mdag H) H -> (0 <= thr)%R -> (i < n)%nat -> (CVec.norm (2 ^ n) (lowered n gs i) <= thr)%R ->
  lanczos_spectrum keqb dagger site_of mk L nearest fuel prec (Z.of_nat n) HM GE gs eta junk omegas kpoints thr dim = Some (Err ValueError).
Proof.
  intros K keqb dagger site_of mk SK nearest prec0 prec fuel L HM H GE gs eta junk omegas kpoints thr dim i Hn HL Hs n RH HH Ht Hi Hshort.
  destruct (program_es keqb dagger site_of mk SK nearest prec0 prec L Hn HL (separated_nodup prec L Hs) gs fuel) as (vals & es & Lv & Ees & _ & E & LK).
  pose proof (HM_hermitian L HM H RH HH) as HMh. destruct RH as (R1 & _). unfold lanczos_spectrum. fold n in HMh, E. rewrite E. cbn [obind]. rewrite R1.
  destruct (LK i (nth i (points L) v0)) as (v & Lk & Vv); [now apply nth_error_nth'|].
  assert (Hin : exists key, In (key, v) es).
  { clear - Lk. induction es as [|[k w] r IH]; cbn in Lk; [discriminate|]. destruct (keqb k _); [injection Lk as ->; exists k; now left|]. destruct (IH Lk) as (q & Hq). exists q. now right. }
  destruct Hin as (key & Hin). unfold MultiKrylov.
  rewrite (multi_fold_bad (2 ^ n) (cm (s_ent HM)) thr es es dim [] [] (key, v) Hin); [reflexivity| |exact HMh|exact Ht].
  cbn [snd]. unfold CVec.norm in *. replace (norm2 (2 ^ n) v) with (norm2 (2 ^ n) (lowered n gs i)); [exact Hshort|].
  unfold norm2. apply rsum_ext. intros r Hr. now rewrite (Vv r Hr).
Qed.
Print Assumptions C61_lanczos_short_refuted.

(** Weights, for every Hermitian H, normalised gs and eta > 0: the spectra are not
    negative; the one of momentum k has the weight |sum_j e^(ik.r_j) S-_j gs|^2 / n, the
    local one of site i the weight 1/2 + <Sz_i>, and the n momenta 2 pi m / n together
    that of the n sites. *)
Theorem C61_weights : forall n H GE eta gs (G : R -> cmat), (0 < n)%nat -> meq (2 ^ n) (2 ^ n) (mdag H) H -> (0 < eta)%R -> inner (2 ^ n) gs gs = c1 ->
  (forall omega i j, (i < n)%nat -> (j < n)%nat -> green "-" (2 ^ n) (cm H) GE (frequency omega eta) (lowered n gs i) (lowered n gs j) (G omega i j)) ->
  (forall v, (forall omega, (0 <= spectrum (kspace n (G omega) v))%R) /\
     integrates_to (fun omega => spectrum (kspace n (G omega) v)) (/ INR n * norm2 (2 ^ n) (superposition n v (lowered n gs)))) /\
  (forall i, (i < n)%nat -> (forall omega, (0 <= spectrum (G omega i i))%R) /\
     integrates_to (fun omega => spectrum (G omega i i)) (1 / 2 + Re (expectation n (spin_at n i SZ) gs))) /\
  integrates_to (fun omega => rsum n (fun m => spectrum (kspace n (G omega) (phase (bloch n m)))))
    (rsum n (fun i => 1 / 2 + Re (expectation n (spin_at n i SZ) gs))%R).
Proof.
  intros n H GE eta gs G Hn HH He N1 HG.
  assert (Hh : hermitian (2 ^ n) (cm H)) by (intros i j Hi Hj; unfold cm; rewrite <- Free_Proofs2.gc_conj; f_equal; symmetry; exact (HH i j Hi Hj)).
  split; [intros v; now apply (kspace_weight n H GE eta gs G)|]. split.
  - intros i Hi. rewrite <- (lowered_norm n gs i Hi N1). now apply (local_weight n H GE eta gs G).
  - assert (S1 : rsum n (fun i => 1 / 2 + Re (expectation n (spin_at n i SZ) gs))%R = rsum n (fun m => / INR n * norm2 (2 ^ n) (superposition n (phase (bloch n m)) (lowered n gs)))%R).
    { rewrite (rsum_ext n _ (fun i => norm2 (2 ^ n) (lowered n gs i))) by (intros i Hi; now rewrite lowered_norm).
      rewrite hrsum_mul_l, momentum_sum. field. apply not_0_INR. lia. }
    rewrite S1. clear S1. pose proof (fun v => proj2 (kspace_weight n H GE eta gs G Hn Hh He HG v)) as W. generalize n at 1 4. intros q.
    induction q as [|q IH]; cbn [rsum]; [exact integrates_0|]. apply integrates_plus; [exact IH|apply W].
Qed.
Print Assumptions C61_weights.

(** At k = 0 the excitation is S-_tot gs, which has the energy of gs whenever H is an
    exchange matrix: the function is its weight over omega + i eta, with no other pole,
    and vanishes when S-_tot gs = 0, e.g. for a singlet. *)
Theorem C61_uniform : forall n J pairs GE eta gs (G : R -> cmat) v, (0 < n)%nat -> gconj J = J -> Forall (fun p => (fst p < n)%nat /\ (snd p < n)%nat) pairs -> (0 < eta)%R ->
  eigenvector (2 ^ n) (cm (exchange n J pairs)) GE gs ->
  (forall omega i j, (i < n)%nat -> (j < n)%nat -> green "-" (2 ^ n) (cm (exchange n J pairs)) GE (frequency omega eta) (lowered n gs i) (lowered n gs j) (G omega i j)) ->
  (forall j, (j < n)%nat -> v j = c1) ->
  let S := mv (2 ^ n) (cm (total_spin n SM)) gs in
  (forall omega, kspace n (G omega) v = (RtoC (norm2 (2 ^ n) S / INR n) / frequency omega eta)%C) /\
  (veqn (2 ^ n) S vzero -> forall omega, kspace n (G omega) v = c0).
Proof.
  intros n J pairs GE eta gs G v Hn HJ HP He (_ & Eg) HG Hv S.
  assert (Hh : hermitian (2 ^ n) (cm (exchange n J pairs))).
  { intros i j Hi Hj. unfold cm. rewrite <- Free_Proofs2.gc_conj. f_equal. symmetry. exact (exchange_hermitian n J pairs HJ HP i j Hi Hj). }
  assert (Sv : veqn (2 ^ n) (superposition n v (lowered n gs)) S) by (intros r _; now apply lowered_total).
  assert (U : forall omega, kspace n (G omega) v = (RtoC (norm2 (2 ^ n) S / INR n) / frequency omega eta)%C).
  { intros omega. replace (norm2 (2 ^ n) S) with (norm2 (2 ^ n) (superposition n v (lowered n gs))) by (unfold norm2; apply rsum_ext; intros r Hr; now rewrite (Sv r Hr)).
    apply (uniform_kspace n (exchange n J pairs) GE eta gs G Hn Hh He HG). intros r Hr. rewrite (Sv r Hr). rewrite (mv_ext (2 ^ n) _ _ _ Sv r).
    apply (commuting_eigen (2 ^ n) (exchange n J pairs) (total_spin n SM) GE gs); [now apply exchange_rot|exact Eg|exact Hr]. }
  split; [exact U|]. intros Z omega. rewrite U. replace (norm2 (2 ^ n) S) with 0%R.
  - unfold Rdiv, Cdiv. rewrite Rmult_0_l. unfold c0. ring.
  - symmetry. unfold norm2. apply hrsum_zero. intros r Hr. rewrite (Z r Hr). unfold vzero, c0. cbn. ring.
Qed.
Print Assumptions C61_uniform.

(** ** The whole of HeisenbergChain1 *)
Theorem C61_demo : forall (K : Type) (keqb : K -> K -> bool) (dagger : K -> K) (site_of : K -> point) (mk : string -> point -> K),
  spin_keys keqb dagger site_of mk ->
  forall nearest prec n L dL ord pord d only J eta junk omegas kpoints, finds_nearest nearest -> (1 <= prec)%nat -> (2 <= n)%nat ->
  lattice_generator prec (Name "chain") (AnInt (Z.of_nat n)) (AnInt 1) (AnInt 1) = Ok (L, dL) ->
  listing ord -> listing pord -> reachable prec L ord (fresh prec L) d -> gconj J = J -> (0 < eta)%R ->
  exists F, forall fuel, (F <= fuel)%nat -> exists intra inter,
    fst (bonds L ord pord fuel prec d (AnInt 1) only false) = Some (Ok (intra, Some inter)) /\
    exists F', forall fuel', (F' <= fuel')%nat -> exists HM,
      heisenberg_matrix L nearest fuel' prec (Z.of_nat n) J intra inter = Some (Ok HM) /\
      represents n HM (ring_exchange n J) /\
      forall GE gs, exists rows (G : R -> cmat),
        exact_spectrum keqb dagger site_of mk L nearest fuel' prec (Z.of_nat n) HM GE gs eta junk omegas kpoints = Some (Ok rows) /\
        (forall omega i j, (i < n)%nat -> (j < n)%nat -> green "-" (2 ^ n) (cm (ring_exchange n J)) GE (frequency omega eta) (lowered n gs i) (lowered n gs j) (G omega i j)) /\
        rows_of omegas kpoints rows (fun omega k x => (0 <= x)%R /\ x = spectrum (kspace n (G omega) (phase (coord 0 k)))).
Proof.
  intros K keqb dagger site_of mk SK nearest prec n L dL ord pord d only J eta junk omegas kpoints Hn Hp H2 EL Ho Hpo Hr HJ He.
  destruct (C61_ring nearest prec n L dL ord pord d only J Hn Hp ltac:(lia) EL Ho Hpo Hr HJ) as (LN & PT & F & HF).
  assert (Hin : In ("chain"%string, chain_cell) common_cells) by (now left).
  destruct (generated prec "chain" chain_cell (Z.of_nat n) 1 1 L dL Hp Hin ltac:(lia) ltac:(lia) ltac:(lia) EL) as (_ & _ & _ & SL).
  destruct (C37_generator prec "chain" chain_cell (Z.of_nat n) 1 1 Hp Hin ltac:(lia) ltac:(lia) ltac:(lia)) as (L' & d' & E' & HL & _). rewrite EL in E'. injection E' as <- <-.
  exists F. intros fuel Hf. destruct (HF fuel Hf) as (intra & inter & EB & F' & HF'). exists intra, inter. split; [exact EB|]. exists F'. intros fuel' Hf'.
  destruct (HF' fuel' Hf') as (HM & EH & R & _). exists HM. split; [exact EH|]. split; [auto|]. intros GE gs.
  assert (RX : meq (2 ^ n) (2 ^ n) (ring_exchange n J) (exchange n J (map (fun i => (i, next n i)) (seq 0 n)))).
  { intros r c _ _. unfold ring_exchange, exchange, bigsum. f_equal. now rewrite lsum_map. }
  assert (HH : meq (2 ^ n) (2 ^ n) (mdag (ring_exchange n J)) (ring_exchange n J)).
  { intros r c Hr' Hc. unfold mdag. rewrite (RX c r Hc Hr'), (RX r c Hr' Hc). apply (exchange_hermitian n J _ HJ); auto.
    apply Forall_forall. intros p Hp'. apply in_map_iff in Hp' as (i & <- & Hi). apply in_seq in Hi. cbn. split; [lia|]. unfold next. apply Nat.mod_upper_bound. lia. }
  pose proof (C61_program K keqb dagger site_of mk SK nearest prec prec fuel' L HM (ring_exchange n J) GE gs eta junk omegas kpoints Hn HL SL) as P. cbv zeta in P. rewrite LN in P.
  destruct (P (R H2) HH ltac:(lra)) as (rows & G & E & HG & T). exists rows, G. split; [exact E|]. split; [exact HG|].
  assert (Hh : hermitian (2 ^ n) (cm (ring_exchange n J))) by (intros i j Hi Hj; unfold cm; rewrite <- Free_Proofs2.gc_conj; f_equal; symmetry; exact (HH i j Hi Hj)).
  destruct T as [T1 T2]. split; [exact T1|]. intros w omega Hw. destruct (T2 w omega Hw) as (row & A1 & A2 & A3). exists row. split; [exact A1|]. split; [exact A2|].
  intros a k Ha. destruct (A3 a k Ha) as (x & Hx & ->). eexists. split; [exact Hx|].
  destruct (kspace_weight n (ring_exchange n J) GE eta gs G ltac:(lia) Hh He HG (fun j => cexp k (nth j (points L) v0))) as [W _].
  split; [apply W|]. f_equal. unfold kspace. f_equal. apply csum_ext. intros i Hi. apply csum_ext. intros j Hj.
  assert (CP : forall q, (q < n)%nat -> cexp k (nth q (points L) v0) = phase (coord 0 k) q).
  { intros q Hq. rewrite (PT q Hq). unfold cexp, phase. destruct k as [[kx ky] kz]. cbn. replace (kx * INR q + ky * 0 + kz * 0)%R with (kx * INR q)%R by ring. reflexivity. }
  now rewrite !CP.
Qed.
Print Assumptions C61_demo.

(** Non-vacuity: the operators (type, site) are such keys, and for every n and real J the
    ring has an eigenvector of lowest energy. *)
Definition sk_keqb (a b : string * point) : bool := (String.eqb (fst a) (fst b) && point_eqb (snd a) (snd b))%bool.
Definition sk_swap (a : string * point) : string * point := (if String.eqb (fst a) "p" then "m" else if String.eqb (fst a) "m" then "p" else fst a, snd a)%string.
Example C61_keys : spin_keys sk_keqb sk_swap snd (fun o p => (o, p)).
Proof.
  split; [|reflexivity|reflexivity]. intros [o p] [o' p']. unfold sk_keqb. cbn. rewrite andb_true_iff, String.eqb_eq, point_eqb_eq. split; [intros [-> ->]; reflexivity|intros E; now injection E].
Qed.
Example C61_case : forall n J, gconj J = J -> exists GE gs, eigenvector (2 ^ n) (cm (ring_exchange n J)) GE gs /\
  forall x, inner (2 ^ n) x x = c1 -> (GE <= energy (2 ^ n) (cm (ring_exchange n J)) x)%R.
Proof.
  intros n J HJ. destruct (C58_ground_state (2 ^ n) (cm (ring_exchange n J))) as [_ X].
  - intros r c Hr Hc. unfold cm. rewrite <- Free_Proofs2.gc_conj. f_equal.
    assert (RX : forall a b, ring_exchange n J a b = exchange n J (map (fun i => (i, next n i)) (seq 0 n)) a b).
    { intros a b. unfold ring_exchange, exchange, bigsum. f_equal. now rewrite lsum_map. }
    rewrite !RX. symmetry. apply (exchange_hermitian n J _ HJ); auto.
    apply Forall_forall. intros p Hp'. apply in_map_iff in Hp' as (i & <- & Hi). apply in_seq in Hi. cbn. split; [lia|]. unfold next. apply Nat.mod_upper_bound. lia.
  - destruct X as (GE & gs & N1 & E & M). { assert (2 ^ n <> 0) by (apply Nat.pow_nonzero; lia). lia. } exists GE, gs. split; [split; assumption|exact M].
Qed.
