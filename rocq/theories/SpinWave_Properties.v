(** C61, continued: the ferromagnet and its spin waves. *)
From Coq Require Import Reals String List ZArith Bool Arith Lia Lra Permutation.
From Coquelicot Require Import Complex.
From Verif Require Import Py GQ Mat CVec LinSolve State_Model MatrixRepr_Model Particle_Model Spin_Model Spin_Spec Spin_Proofs
  Lattice_Model Lattice_Spec Lattice_Proofs Lattice_Properties LatticeGen_Model LatticeGen_Spec LatticeGen_Proofs LatticeGen_Properties
  Neighbors_Spec Neighbors_Properties LatticeBonds_Spec LatticeBonds_Properties LatticeNice_Properties LatticeNearest_Spec LatticeNearest2_Properties
  GF_Model GF_Spec Free_Spec Free_Proofs2 Free_Proofs7 Spectrum_Spec CPT_Model CPT_Spec CPT_Proofs CPT_Proofs4 Bloch_Spec Bloch_Proofs Bloch_Proofs2 Bloch_Proofs4 Bloch_Properties Bands_Proofs
  Heisenberg_Model Heisenberg_Spec Heisenberg_Proofs Heisenberg_Proofs2 Heisenberg_Proofs3 Heisenberg_Proofs6 Heisenberg_Properties HeisenbergBonds_Spec HeisenbergBonds_Proofs HeisenbergBonds_Proofs2 HeisenbergBonds_Properties
  SpinWave_Spec SpinWave_Proofs SpinWave_Proofs2 SpinWave_Proofs3 SpinWave_Proofs4.
Import ListNotations.
Local Open Scope nat_scope.

(** Any exchange matrix of n spins: with all spins up the energy is J/4 per pair, the lowest
    of all energies if J <= 0 and the highest if J >= 0; the states with one spin down are orthonormal, and the
    functions that the programs compute for this state are the resolvent of one particle
    hopping along the pairs. *)
Theorem C61_ferromagnet : forall n J pairs, gconj J = J -> Forall (fun p => (fst p < n)%nat /\ (snd p < n)%nat /\ fst p <> snd p) pairs ->
  let H := cm (exchange n J pairs) in
  let GE := (coupling J * INR (length pairs) / 4)%R in
  eigenvector (2 ^ n) H GE all_up /\
  (forall x, let E := inner (2 ^ n) x (mv (2 ^ n) H x) in
     ((coupling J <= 0)%R -> (GE * norm2 (2 ^ n) x <= Re E)%R) /\ ((0 <= coupling J)%R -> (Re E <= GE * norm2 (2 ^ n) x)%R)) /\
  (forall i j, (i < n)%nat -> (j < n)%nat -> inner (2 ^ n) (lowered n all_up i) (lowered n all_up j) = delta i j) /\
  forall omega eta (G : cmat), eta <> 0%R ->
    (forall i j, (i < n)%nat -> (j < n)%nat -> green "-" (2 ^ n) H GE (frequency omega eta) (lowered n all_up i) (lowered n all_up j) (G i j)) ->
    resolvent n (magnon_matrix (coupling J) pairs) (frequency omega eta) G.
Proof.
  intros n J pairs HJ F H GE. split; [exact (up_eigen n J pairs HJ F)|]. split; [|split].
  - intros x E. destruct (exchange_bound n J pairs x HJ F) as (s & Hs & EE). fold H E in EE. rewrite inner_self in EE.
    assert (RE : Re E = (coupling J * (INR (length pairs) / 4 * norm2 (2 ^ n) x - s))%R) by (rewrite EE; unfold Re; cbn; ring). rewrite RE. unfold GE. split; intros Q; nra.
  - intros i j Hi Hj. now apply down_orthonormal.
  - intros omega eta G He HG. exact (magnon_resolvent n J pairs omega eta G HJ F He HG).
Qed.
Print Assumptions C61_ferromagnet.

Lemma resolvent_one (M : cmat) z X : resolvent 1 M z X -> (X 0%nat 0%nat = / (z - M 0%nat 0%nat))%C.
Proof.
  intros H. destruct (H 0%nat 0%nat ltac:(lia) ltac:(lia)) as [E _]. unfold csum, delta in E. cbn [Nat.eqb] in E. change c0 with (RtoC 0) in E. change c1 with (RtoC 1) in E.
  assert (E' : ((z - M 0%nat 0%nat) * X 0%nat 0%nat)%C = RtoC 1) by (rewrite <- E; ring).
  assert (N : (z - M 0%nat 0%nat)%C <> RtoC 0) by (intros Q; rewrite Q in E'; apply (f_equal fst) in E'; cbn in E'; lra).
  transitivity (/ (z - M 0%nat 0%nat) * ((z - M 0%nat 0%nat) * X 0%nat 0%nat))%C; [field; exact N|rewrite E'; ring].
Qed.
Lemma kspace_one X k : kspace 1 X (fun a => plane k (nth a [v0] v0)) = X 0%nat 0%nat.
Proof.
  unfold kspace, csum. cbn [nth]. replace (plane k v0) with c1 by (unfold plane; replace (vdot k v0) with 0%R by (destruct k as [[? ?] ?]; cbn; ring); now rewrite cos_0, sin_0).
  rewrite Cj_1. change c0 with (RtoC 0). change c1 with (RtoC 1). cbn [INR]. field. intros Q. apply RtoC_inj in Q. lra.
Qed.
Lemma spin_wave_cell name c J k : In (name, c) common_cells -> In name ["chain"; "square"; "cubic"; "triangle"]%string ->
  spin_wave_matrix c (nearest_sites name) (J / 2) k 0 0 = RtoC (spin_wave name c J k) /\ cpoints c = [v0].
Proof.
  intros Hn Hs. cbn [common_cells In] in Hn. repeat destruct Hn as [Hn|Hn]; try contradiction; injection Hn as <- <-; cbn [In] in Hs; repeat destruct Hs as [Hs|Hs]; try discriminate Hs; try contradiction.
  all: split; [|reflexivity].
  all: unfold spin_wave_matrix, bloch_matrix, spin_wave, nearest_sites, delta; cbn [String.eqb Ascii.eqb Bool.eqb Nat.eqb filter fst snd length total fold_right INR]; unfold plane, shift; cbn [chain_cell square_cell cubic_cell triangle_cell cvectors map combination];
    destruct k as [[kx ky] kz]; cbn [Lattice_Model.vscale Lattice_Model.vadd vdot v0];
    apply C_eq; cbn; [ring|].
  all: repeat (rewrite ?Rmult_0_l, ?Rmult_0_r, ?Rplus_0_l, ?Rplus_0_r, ?Rmult_1_r, ?Rmult_1_l).
  all: replace 0.5%R with (1 / 2)%R by lra.
  1: replace (kx * -1)%R with (- kx)%R by ring; rewrite sin_neg; ring.
  1: replace (kx * -1)%R with (- kx)%R by ring; replace (ky * -1)%R with (- ky)%R by ring; rewrite !sin_neg; ring.
  2: replace (kx * -1)%R with (- kx)%R by ring; replace (ky * -1)%R with (- ky)%R by ring; replace (kz * -1)%R with (- kz)%R by ring; rewrite !sin_neg; ring.
  replace (kx * -1)%R with (- kx)%R by ring. replace (kx * (-1 * (1 / 2)) + ky * (-1 * (sqrt 3 / 2)))%R with (- (kx * (1 / 2) + ky * (sqrt 3 / 2)))%R by ring.
  replace (kx * (1 + -1 * (1 / 2)) + ky * (-1 * (sqrt 3 / 2)))%R with (- (kx * (-1 + 1 / 2) + ky * (sqrt 3 / 2)))%R by field. rewrite !sin_neg. ring.
Qed.

Lemma coupling_half J : coupling (gmul ghalf J) = (coupling J / 2)%R.
Proof. unfold coupling. rewrite gc_mul, gc_half. unfold Re. cbn. lra. Qed.
Lemma half2 : (ghalf + ghalf)%gq = g1.
Proof. exact ghalf_double. Qed.
Lemma real_half J : gconj J = J -> gconj (gmul ghalf J) = gmul ghalf J.
Proof. intros H. rewrite gconj_mul, H. reflexivity. Qed.
Lemma lorentzian omega eta e : eta <> 0%R -> spectrum (/ (frequency omega eta - RtoC e))%C = (eta / PI / ((omega - e) ^ 2 + eta ^ 2))%R.
Proof.
  intros He. unfold spectrum, frequency, Im. cbn. pose proof PI_RGT_0. assert (E2 : (0 < eta * eta)%R) by (apply Rlt_0_sqr in He; exact He). pose proof (Rle_0_sqr (omega - e)) as Q. unfold Rsqr in Q. assert (X : ((omega - e) ^ 2 + eta ^ 2 <> 0)%R) by (cbn; lra). field_simplify_eq; [ring|]. repeat split; try lra; try exact X; replace (omega + - e)%R with (omega - e)%R by ring; cbn; lra.
Qed.

(** All six lattices, clusters of every size in which no site is its own neighbour, every real
    coupling, every history of calls: for the matrix that the bonds of bonds(nth=1) give, the state
    with all spins up is an eigenstate with energy J/4 for each of the z n / 2 bonds - the lowest
    energy if J <= 0.  With this ground state the program tabulates at the momenta that the
    cluster allows the spin waves of the infinite lattice: for the lattices
    with one point per cell a Lorentzian of width eta at -J/2 times the sum of 1 - cos k.d over the
    nearest neighbours d, and in general the resolvent of the matrix of
    spin waves of the cell. *)
Theorem C61_spin_waves : forall (K : Type) (keqb : K -> K -> bool) (dagger : K -> K) (site_of : K -> point) (mk : string -> point -> K),
  spin_keys keqb dagger site_of mk ->
  forall nearest prec name c n0 n1 n2 L dL ord pord d only J eta junk omegas kpoints, finds_nearest nearest -> (1 <= prec)%nat ->
  In (name, c) common_cells -> (1 <= n0)%Z -> (1 <= n1)%Z -> (1 <= n2)%Z -> roomy name n0 n1 n2 ->
  (name = "honeycomb"%string -> (/ sqrt 3 <= rounded prec (/ sqrt 3))%R) ->
  lattice_generator prec (Name name) (AnInt n0) (AnInt n1) (AnInt n2) = Ok (L, dL) ->
  listing ord -> listing pord -> reachable prec L ord dL d -> gconj J = J -> eta <> 0%R ->
  let n := length (points L) in
  let GE := (coupling J / 4 * (INR (coordination name) * INR n / 2))%R in
  exists F, forall fuel, (F <= fuel)%nat -> exists intra inter,
    fst (bonds L ord pord fuel prec d (AnInt 1) only false) = Some (Ok (intra, Some inter)) /\
    exists F', forall fuel', (F' <= fuel')%nat -> exists HM,
      heisenberg_matrix L nearest fuel' prec (Z.of_nat n) J intra inter = Some (Ok HM) /\
      eigenvector (2 ^ n) (cm (s_ent HM)) GE all_up /\
      ((coupling J <= 0)%R -> forall x, (GE * norm2 (2 ^ n) x <= Re (inner (2 ^ n) x (mv (2 ^ n) (cm (s_ent HM)) x)))%R) /\
      exists rows, exact_spectrum keqb dagger site_of mk L nearest fuel' prec (Z.of_nat n) HM GE all_up eta junk omegas kpoints = Some (Ok rows) /\
        rows_of omegas kpoints rows (fun omega k x => allowed L k ->
          (exists X, resolvent (length (cpoints c)) (spin_wave_matrix c (nearest_sites name) (coupling J / 2) k) (frequency omega eta) X /\
             x = spectrum (kspace (length (cpoints c)) X (fun a => plane k (nth a (cpoints c) v0)))) /\
          (In name ["chain"; "square"; "cubic"; "triangle"]%string -> x = (eta / PI / ((omega - spin_wave name c (coupling J) k) ^ 2 + eta ^ 2))%R)).
Proof.
  intros K keqb dagger site_of mk SK nearest prec name c n0 n1 n2 L dL ord pord d only J eta junk omegas kpoints Hne Hp Hn H0 H1 H2 RM Hh EL Ho Hpo Hr HJ He n GE.
  destruct (C61_nearest nearest prec name c n0 n1 n2 L dL ord pord d only J Hne Hp Hn H0 H1 H2 Hh EL Ho Hpo Hr HJ) as (SZ & F & HF). fold n in SZ, HF.
  destruct (generated prec name c n0 n1 n2 L dL Hp Hn H0 H1 H2 EL) as (Lp & Lv & _ & SL). destruct (extents_ok name c n0 n1 n2 Hn H0 H1 H2) as [Fn Hl].
  destruct (C37_nice prec name c n0 n1 n2 L dL Hp Hn H0 H1 H2 EL) as (HL & _ & _).
  change (firstn (length (cvectors c)) [n0; n1; n2]) with (extents c n0 n1 n2) in SZ, HF. set (nums := extents c n0 n1 n2) in *. set (pairs := torus_pairs name c nums) in *.
  pose proof (torus_all name c nums L Hn Fn Hl Lp Lv) as AL. pose proof (torus_ends name c nums) as TE. fold pairs in TE.
  assert (NSp : forall p, In p pairs -> fst p <> snd p) by exact (torus_no_self name c n0 n1 n2 Hn H0 H1 H2 RM).
  assert (NS : forall l, In l (torus_links name c nums) -> from l <> to l) by (intros l Hl'; apply (NSp (ends l)); rewrite <- TE; now apply in_map).
  assert (PR : Forall (fun p => (fst p < n)%nat /\ (snd p < n)%nat /\ fst p <> snd p) pairs).
  { apply Forall_forall. intros p Hp'. split; [|split; [|now apply NSp]]; rewrite <- TE in Hp'; apply in_map_iff in Hp' as (l & <- & Hl'); apply (proj2 AL) in Hl' as ((V1 & V2 & _) & _); assumption. }
  exists F. intros fuel Hf. destruct (HF fuel Hf) as (intra & inter & EB & F' & HF'). exists intra, inter. split; [exact EB|]. exists F'. intros fuel' Hf'. destruct (HF' fuel' Hf') as (HM & EH & R1 & R2 & _ & HH & RR). destruct (RR RM) as [R3 _].
  exists HM. split; [exact EH|].
  assert (RH : represents n HM (exchange n (gmul ghalf J) pairs)).
  { split; [exact R1|]. split; [exact R2|]. intros r s Hr' Hs'. pose proof (R3 r s Hr' Hs') as Q. unfold madd, exchange in Q. unfold exchange.
    transitivity ((ghalf * (s_ent HM r s + s_ent HM r s))%gq); [|rewrite Q; ring]. transitivity ((ghalf + ghalf) * s_ent HM r s)%gq; [|ring]. replace (ghalf + ghalf)%gq with g1 by (symmetry; apply half2). ring. }
  assert (HH' : meq (2 ^ n) (2 ^ n) (mdag (exchange n (gmul ghalf J) pairs)) (exchange n (gmul ghalf J) pairs)).
  { intros r s Hr' Hs'. unfold mdag. rewrite <- (proj2 (proj2 RH) s r), <- (proj2 (proj2 RH) r s) by assumption. now apply HH. }
  assert (CE : forall x r, (r < 2 ^ n)%nat -> mv (2 ^ n) (cm (s_ent HM)) x r = mv (2 ^ n) (cm (exchange n (gmul ghalf J) pairs)) x r).
  { intros x r Hr'. unfold mv. apply csum_ext. intros s Hs'. unfold cm. now rewrite (proj2 (proj2 RH) r s Hr' Hs'). }
  destruct (C61_ferromagnet n (gmul ghalf J) pairs (real_half J HJ) PR) as (EV & BD & _ & MR). rewrite coupling_half, SZ, mult_INR in EV, BD, MR.
  replace (coupling J / 2 * (INR (coordination name) * INR n) / 4)%R with GE in EV, BD, MR by (unfold GE; field).
  split; [|split].
  - destruct EV as [E1 E2]. split; [exact E1|]. intros r Hr'. rewrite (CE all_up r Hr'). now apply E2.
  - intros Hneg x. destruct (BD x) as [B _]. specialize (B ltac:(lra)). replace (inner (2 ^ n) x (mv (2 ^ n) (cm (s_ent HM)) x)) with (inner (2 ^ n) x (mv (2 ^ n) (cm (exchange n (gmul ghalf J) pairs)) x)); [exact B|]. unfold inner. apply csum_ext. intros r Hr'. now rewrite (CE x r Hr').
  - destruct (C61_program K keqb dagger site_of mk SK nearest prec prec fuel' L HM _ GE all_up eta junk omegas kpoints Hne HL SL RH HH' He) as (rows & G & EX & HG & T1 & T2). exists rows. split; [exact EX|]. split; [exact T1|].
    intros w omega Hw. destruct (T2 w omega Hw) as (row & A1 & A2 & A3). exists row. split; [exact A1|]. split; [exact A2|]. intros a k Ha. destruct (A3 a k Ha) as (x & Hx & Ex). exists x. split; [exact Hx|]. intros Hk.
    pose proof (MR omega eta (G omega) He (fun i j Hi Hj => HG omega i j Hi Hj)) as RG. rewrite <- TE in RG.
    assert (ND : forall a, (a < length (cpoints c))%nat -> neighbours c (fun y => y = spacing name) a (nearest_sites name a)) by (intros a0 Ha0; rewrite nearest_first; now apply first_neighbours_ok).
    destruct (resolvent_exists _ _ omega eta (cell_hermitian c nums L Fn Hl Lp Lv _ _ _ AL NS ND k Hk (coupling J / 2)) He) as (X & HX).
    pose proof (kspace_cell c nums L Fn Hl Lp Lv _ _ _ AL NS ND k Hk (coupling J / 2) _ _ X RG HX) as KE. fold n in KE.
    assert (Ex' : x = spectrum (kspace (length (cpoints c)) X (fun a0 => plane k (nth a0 (cpoints c) v0)))) by (rewrite Ex; fold n; now rewrite KE).
    split; [exists X; split; [exact HX|exact Ex']|].
    intros Hs. destruct (spin_wave_cell name c (coupling J) k Hn Hs) as [SW CP]. rewrite CP in Ex', HX. cbn [length] in Ex', HX. rewrite kspace_one in Ex'. rewrite (resolvent_one _ _ _ HX), SW in Ex'. rewrite Ex'. now apply lorentzian.
Qed.
Print Assumptions C61_spin_waves.

(** Non-vacuity: four spins on a chain with J = -1: at k = pi/2 the spin wave has the energy 1, and the
    program's entry for omega = 1 and eta = 1/10 is 10/pi. *)
Lemma coupling_m1 : coupling (gopp g1) = (-1)%R.
Proof. unfold coupling. rewrite gc_opp, gc_1. unfold Re, RtoC, Copp. cbn. lra. Qed.
Example C61_spin_wave_case : roomy "chain" 4 1 1 /\
  exists L dL, lattice_generator 4 (Name "chain") (AnInt 4) (AnInt 1) (AnInt 1) = Ok (L, dL) /\ length (points L) = 4 /\
  forall nearest ord pord junk, finds_nearest nearest -> listing ord -> listing pord ->
  exists F, forall fuel, (F <= fuel)%nat -> exists intra inter,
    fst (bonds L ord pord fuel 4 dL (AnInt 1) true false) = Some (Ok (intra, Some inter)) /\
    exists F', forall fuel', (F' <= fuel')%nat -> exists HM,
      heisenberg_matrix L nearest fuel' 4 4 (gopp g1) intra inter = Some (Ok HM) /\
      exact_spectrum sk_keqb sk_swap snd (fun o p => (o, p)) L nearest fuel' 4 4 HM (-1) all_up (1 / 10) junk [1%R] [(PI / 2, 0, 0)%R] = Some (Ok [[10 / PI]])%R.
Proof.
  assert (RM : roomy "chain" 4 1 1) by (right; cbn; split; [lia|split; [|discriminate]]; intros X; repeat destruct X as [X|X]; try discriminate; contradiction). split; [exact RM|].
  assert (Hn : In ("chain"%string, chain_cell) common_cells) by (cbn; tauto).
  destruct (C37_generator 4 "chain" chain_cell 4 1 1 ltac:(lia) Hn ltac:(lia) ltac:(lia) ltac:(lia)) as (L & dL & E & _ & _ & _ & _ & LP & _). exists L, dL. split; [exact E|]. split; [exact LP|].
  intros nearest ord pord junk Hne Ho Hpo. assert (LP4 : length (points L) = 4) by exact LP.
  assert (HJ : gconj (gopp g1) = gopp g1) by reflexivity. assert (He : (1 / 10 <> 0)%R) by lra.
  destruct (generated 4 "chain" chain_cell 4 1 1 L dL ltac:(lia) Hn ltac:(lia) ltac:(lia) ltac:(lia) E) as (_ & Lv & _ & _).
  assert (AK : allowed L (PI / 2, 0, 0)%R).
  { intros r Hr. rewrite Lv in Hr. cbn in Hr. destruct Hr as [<-|[]]. exists 1%Z. cbn. field. }
  destruct (C61_spin_waves _ sk_keqb sk_swap snd (fun o p => (o, p)) C61_keys nearest 4 "chain" chain_cell 4 1 1 L dL ord pord dL true (gopp g1) (1 / 10) junk [1%R] [(PI / 2, 0, 0)%R] Hne ltac:(lia) Hn ltac:(lia) ltac:(lia) ltac:(lia) RM ltac:(discriminate) E Ho Hpo (reach_init _ _ _ _) HJ He) as (F & HF).
  exists F. intros fuel Hf. destruct (HF fuel Hf) as (intra & inter & EB & F' & HF'). exists intra, inter. split; [exact EB|]. exists F'. intros fuel' Hf'. destruct (HF' fuel' Hf') as (HM & EH & _ & _ & rows & ER & T1 & T2). rewrite LP4, coupling_m1 in *.
  exists HM. split; [exact EH|]. replace (-1 / 4 * (INR (coordination "chain") * INR 4 / 2))%R with (-1)%R in ER by (cbn; lra). change (Z.of_nat 4) with 4%Z in ER.
  rewrite ER. destruct (T2 0%nat 1%R eq_refl) as (row & A1 & A2 & A3). destruct (A3 0%nat _ eq_refl) as (x & Hx & HX). destruct (HX AK) as [_ V]. specialize (V ltac:(cbn; tauto)).
  destruct rows as [|r0 [|]]; cbn in T1; try discriminate. injection A1 as <-. destruct r0 as [|x0 [|]]; cbn in A2; try discriminate. injection Hx as <-. do 4 f_equal. rewrite V.
  unfold spin_wave. cbn [nearest_sites String.eqb Ascii.eqb Bool.eqb fold_right snd fst cvectors chain_cell shift combination]. unfold shift; cbn [cvectors chain_cell map combination Lattice_Model.vscale Lattice_Model.vadd vdot v0].
  replace (PI / 2 * (IZR 1 * 1 + 0) + 0 * (IZR 1 * 0 + 0) + 0 * (IZR 1 * 0 + 0))%R with (PI / 2)%R by (cbn; field).
  replace (PI / 2 * (IZR (-1) * 1 + 0) + 0 * (IZR (-1) * 0 + 0) + 0 * (IZR (-1) * 0 + 0))%R with (- (PI / 2))%R by (cbn; field).
  rewrite cos_neg, cos_PI2. pose proof PI_RGT_0. field. lra.
Qed.
