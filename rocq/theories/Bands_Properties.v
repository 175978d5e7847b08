(** C59, continued: nearest-neighbour hopping on all six lattices: the program of
    HubbardChain.py, run without interaction on any cluster, plots the textbook bands. *)
From Coq Require Import Reals String List ZArith Bool Arith Lia Lra Permutation.
From Coquelicot Require Import Complex.
From Verif Require Import Py CVec LinSolve MatrixRepr_Model Line2D_Model Line2D_Proofs Lattice_Model Lattice_Spec Lattice_Proofs Lattice_Properties LatticeCases_Properties LatticeGen_Model LatticeGen_Spec LatticeGen_Proofs LatticeGen_Properties LatticeHex_Proofs
  Neighbors_Spec Neighbors_Proofs Neighbors_Properties LatticeBonds_Spec LatticeBonds_Properties LatticeNice_Properties LatticeNearest_Spec LatticeNearest_Properties LatticeNearest2_Properties
  GF_Spec Free_Spec Spectrum_Spec CPT_Model CPT_Spec CPT_Proofs CPT_Proofs2 CPT_Proofs3 CPT_Proofs4 CPT_Proofs5 CPT_Proofs6 CPT_Properties Bloch_Spec Bloch_Proofs Bloch_Proofs2 Bloch_Proofs3 Bloch_Proofs4 Bloch_Proofs5 Bloch_Proofs6 Bloch_Properties
  Bands_Spec Bands_Proofs Bands_Proofs2 Bands_Proofs3.
Import ListNotations.
Local Open Scope nat_scope.
Local Open Scope C_scope.

Lemma band_one z e : RtoC 2 * band_average z [e] = RtoC (2 / 1) * / (z - RtoC e).
Proof. unfold band_average. cbn [length fold_right INR]. replace (/ 1)%R with 1%R by field. replace (2 / 1)%R with 2%R by field. change c0 with (RtoC 0). ring. Qed.
Lemma one_trace h z e G : resolvent 1 h z G -> h 0%nat 0%nat = RtoC e -> z - RtoC e <> c0 -> csum 1 (fun a => G a a) = / (z - RtoC e).
Proof.
  intros H E N. apply trace1 in H. rewrite E in H. cbn [csum]. rewrite Cplus_0_l. rewrite <- (Cmult_1_r (G 0%nat 0%nat)), <- (Cinv_r _ N), Cmult_assoc, H. apply Cmult_1_l.
Qed.
Lemma bands_trace name c t k omega eta G : In (name, c) common_cells -> eta <> 0%R ->
  resolvent (length (cpoints c)) (bloch_matrix c t (first_neighbours name) k) (frequency omega eta) G ->
  RtoC (2 / INR (length (cpoints c))) * csum (length (cpoints c)) (fun a => G a a) = RtoC 2 * band_average (frequency omega eta) (bands name t k).
Proof.
  intros H He. destruct k as [[kx ky] kz] eqn:Ek.
  cbn [common_cells In] in H. repeat destruct H as [H|H]; try contradiction; injection H as <- <-; unfold bands; cbn [String.eqb Ascii.eqb Bool.eqb]; cbn [cpoints chain_cell square_cell triangle_cell honeycomb_cell kagome_cell cubic_cell length]; intros H; rewrite <- ?Ek in *.
  - rewrite band_one. cbn [INR]. f_equal. apply (one_trace _ _ _ _ H); [|now apply off_axis].
    unfold bloch_matrix, first_neighbours. cbn [String.eqb Ascii.eqb Bool.eqb filter fst snd Nat.eqb cvectors chain_cell total fold_right]. rewrite !plane_ei, !vdot_shift1. subst k. cbn [vdot].
    replace (1 * (kx * 1 + ky * 0 + kz * 0))%R with kx by ring. replace (-1 * (kx * 1 + ky * 0 + kz * 0))%R with (- kx)%R by ring.
    change c0 with (RtoC 0). rewrite Cplus_0_r, ei_sum, <- RtoC_mult. f_equal. ring.
  - rewrite band_one. cbn [INR]. f_equal. apply (one_trace _ _ _ _ H); [|now apply off_axis].
    unfold bloch_matrix, first_neighbours. cbn [String.eqb Ascii.eqb Bool.eqb filter fst snd Nat.eqb cvectors square_cell total fold_right]. rewrite !plane_ei, !vdot_shift2. subst k. cbn [vdot].
    replace (1 * (kx * 1 + ky * 0 + kz * 0) + 0 * (kx * 0 + ky * 1 + kz * 0))%R with kx by ring. replace (-1 * (kx * 1 + ky * 0 + kz * 0) + 0 * (kx * 0 + ky * 1 + kz * 0))%R with (- kx)%R by ring.
    replace (0 * (kx * 1 + ky * 0 + kz * 0) + 1 * (kx * 0 + ky * 1 + kz * 0))%R with ky by ring. replace (0 * (kx * 1 + ky * 0 + kz * 0) + -1 * (kx * 0 + ky * 1 + kz * 0))%R with (- ky)%R by ring.
    change c0 with (RtoC 0). transitivity (RtoC t * ((ei kx + ei (- kx)) + (ei ky + ei (- ky)))); [ring|]. rewrite !ei_sum, <- RtoC_plus, <- RtoC_mult. f_equal. ring.
  - rewrite band_one. cbn [INR]. f_equal. now apply (triangle_trace k t omega eta G He).
  - rewrite (honeycomb_trace k t omega eta G He H). unfold band_average. cbn [length fold_right INR]. change c0 with (RtoC 0). replace (2 / (1 + 1))%R with (2 * / (1 + 1))%R by reflexivity. rewrite RtoC_mult. ring.
  - rewrite (kagome_trace k t omega eta G He H). unfold band_average. cbn [length fold_right INR]. change c0 with (RtoC 0). replace (2 / (1 + 1 + 1))%R with (2 * / (1 + 1 + 1))%R by reflexivity. rewrite RtoC_mult. ring.
  - rewrite band_one. cbn [INR]. f_equal. apply (one_trace _ _ _ _ H); [|now apply off_axis].
    unfold bloch_matrix, first_neighbours. cbn [String.eqb Ascii.eqb Bool.eqb filter fst snd Nat.eqb cvectors cubic_cell total fold_right]. rewrite !plane_ei, !vdot_shift3. subst k. cbn [vdot].
    set (X := (kx * 1 + ky * 0 + kz * 0)%R). set (Y := (kx * 0 + ky * 1 + kz * 0)%R). set (Z := (kx * 0 + ky * 0 + kz * 1)%R).
    replace (1 * X + 0 * Y + 0 * Z)%R with kx by (unfold X; ring). replace (-1 * X + 0 * Y + 0 * Z)%R with (- kx)%R by (unfold X; ring).
    replace (0 * X + 1 * Y + 0 * Z)%R with ky by (unfold Y; ring). replace (0 * X + -1 * Y + 0 * Z)%R with (- ky)%R by (unfold Y; ring).
    replace (0 * X + 0 * Y + 1 * Z)%R with kz by (unfold Z; ring). replace (0 * X + 0 * Y + -1 * Z)%R with (- kz)%R by (unfold Z; ring).
    change c0 with (RtoC 0). transitivity (RtoC t * ((ei kx + ei (- kx)) + (ei ky + ei (- ky)) + (ei kz + ei (- kz)))); [ring|]. rewrite !ei_sum, <- !RtoC_plus, <- RtoC_mult. f_equal. ring.
Qed.

(** All six lattices, clusters of every shape, every real amplitude t, every history of
    calls: the bonds returned by bonds(nth=1) let the program run, and with the cluster
    functions of particles hopping with amplitude t between the nearest neighbours inside the
    cluster it returns twice (once for each spin) the average of 1/(omega + i eta - E) over
    the bands E of the infinite lattice, for every k and omega, whatever the cluster.  (For
    the honeycomb with a precision that rounds 1/sqrt 3 up, as the default does.) *)
Theorem C59_nearest : forall (K : Type) (keqb : K -> K -> bool) (dagger : K -> K) (site_of : K -> point) (derive : K -> point -> K) (mk : otype -> Z -> point -> K) (same : point -> point -> bool),
  operators keqb dagger site_of derive mk same -> (forall p q, same p q = true -> (dist p q < / 10)%R) ->
  forall prec name c n0 n1 n2 cell cluster dc dL ord pord d only s0 s1 t eta,
  (1 <= prec)%nat -> In (name, c) common_cells -> (1 <= n0)%Z -> (1 <= n1)%Z -> (1 <= n2)%Z ->
  (name = "honeycomb"%string -> (/ sqrt 3 <= rounded prec (/ sqrt 3))%R) ->
  lattice_generator prec (Name name) (AnInt 1) (AnInt 1) (AnInt 1) = Ok (cell, dc) ->
  lattice_generator prec (Name name) (AnInt n0) (AnInt n1) (AnInt n2) = Ok (cluster, dL) ->
  listing ord -> listing pord -> reachable prec cluster ord dL d -> s0 <> s1 -> eta <> 0%R ->
  let num := length (points cluster) in
  let Cs := creators mk [s0; s1] cluster in let As := annihilators dagger mk [s0; s1] cluster in
  let cell_Cs := creators mk [s0; s1] cell in let cell_As := annihilators dagger mk [s0; s1] cell in
  exists F, forall fuel, (F <= fuel)%nat -> exists intra inter,
    fst (bonds cluster ord pord fuel prec d (AnInt 1) only false) = Some (Ok (intra, Some inter)) /\
    exists F', forall fuel', (F' <= fuel')%nat -> exists FTs VTerms,
      fourier_terms keqb site_of derive fuel' prec cell Cs As cell_Cs cell_As = Some (Ok FTs) /\
      v_terms keqb mk fuel' prec cluster [s0; s1] Cs As (RtoC t) inter = Some (Ok VTerms) /\
      forall h (g : R -> cmat), cluster_hopping cluster (fun x => x = spacing name) t h ->
        (forall omega, resolvent num h (frequency omega eta) (g omega)) ->
      forall omegas kpoints dd, two_spins keqb mk (points cluster) omegas s0 s1 g g dd ->
      exists rows, final_gfs (length Cs) (length cell_Cs) num (length omegas) (gfs_array keqb dagger dd Cs As) VTerms FTs kpoints = Ok rows /\
        tabulates omegas kpoints rows (fun k omega x => x = RtoC 2 * band_average (frequency omega eta) (bands name t k)).
Proof.
  intros K keqb dagger site_of derive mk same OP SAME prec name c n0 n1 n2 cell cluster dc dL ord pord d only s0 s1 t eta Hp Hn H0 H1 H2 Hh Ec EL Ho Hpo Hr Hss He num Cs As cell_Cs cell_As.
  destruct (C37_generator prec name c n0 n1 n2 Hp Hn H0 H1 H2) as (L' & d' & E' & HL & _ & _ & _ & _ & _ & _ & HT). rewrite EL in E'. injection E' as <- <-.
  destruct (C37_nearest prec name c n0 n1 n2 cluster dL ord pord d only false Hp Hn H0 H1 H2 EL Ho Hpo Hr Hh) as (F & HF).
  exists F. intros fuel Hf. destruct (HF fuel Hf) as (intra & inter & T & EB & _ & LI & AT). exists intra, inter. split; [exact EB|]. pose proof LI as (NT & VT & PT).
  destruct (C59_runs K keqb dagger site_of derive mk same OP prec name c n0 n1 n2 cell cluster dc dL [s0; s1] (RtoC t) inter Hp Hn H0 H1 H2 Ec EL) as (F' & HF').
  { intros a b Hab. apply (Permutation_in _ PT) in Hab. apply in_map_iff in Hab as (k & Ek & Hk). injection Ek as <- <-. destruct (VT k Hk) as ((V1 & V2 & V3) & _).
    destruct (proj1 HT (from k) (repeat 0%Z (length (vectors cluster))) V1 (repeat_length _ _)) as (j1 & m1 & S1 & E1). destruct (proj1 HT (to k) (by_ k) V2 V3) as (j2 & m2 & S2 & E2).
    rewrite shift_zero, vadd_0_r in E1. exists j1, j2, m1, m2. split; [exact S1|]. split; [exact S2|]. split; [exact E1|exact E2]. }
  exists F'. intros fuel' Hf'. destruct (HF' fuel' Hf') as ((FTs & EF) & (VTerms & EV)). exists FTs, VTerms. split; [exact EF|]. split; [exact EV|].
  intros h g Hhop Hg omegas kpoints dd Tw.
  destruct (C59_bloch K keqb dagger site_of derive mk same OP SAME prec name c n0 n1 n2 cell cluster dc dL fuel' (fun x => x = spacing name) t
    (first_neighbours name) inter s0 s1 h g eta FTs VTerms Hp Hn H0 H1 H2 Ec EL Hss He) with (omegas := omegas) (kpoints := kpoints) (dd := dd) as (rows & ER & TR); auto.
  { intros a Ha. now apply first_neighbours_ok. }
  { exists T. split; [exact LI|exact AT]. }
  exists rows. split; [exact ER|]. destruct TR as [TL TR]. split; [exact TL|]. intros a k Ha. destruct (TR a k Ha) as (row & E1 & E2 & E3). exists row. split; [exact E1|]. split; [exact E2|].
  intros w omega Hw. destruct (E3 w omega Hw) as (x & Ex & G & HG & Gx). exists x. split; [exact Ex|]. rewrite Gx. now apply (bands_trace name c).
Qed.
Print Assumptions C59_nearest.

(** Non-vacuity: on a 2 x 1 honeycomb cluster at the default precision the hypotheses hold
    for every amplitude, with the operator objects (type, spin, site). *)
Example C59_nearest_case : forall (t eta : R) cell cluster dc dL, eta <> 0%R ->
  lattice_generator 4 (Name "honeycomb") (AnInt 1) (AnInt 1) (AnInt 1) = Ok (cell, dc) ->
  lattice_generator 4 (Name "honeycomb") (AnInt 2) (AnInt 1) (AnInt 1) = Ok (cluster, dL) ->
  operators op_keqb op_swap op_at op_moved op_mk point_eqb /\
  (forall p q, point_eqb p q = true -> (dist p q < / 10)%R) /\
  (/ sqrt 3 <= rounded 4 (/ sqrt 3))%R /\
  listing (fun l : list (list Z) => l) /\ listing (fun l : list (nat * nat) => l) /\ reachable 4 cluster (fun l => l) dL dL /\
  length (points cluster) = 4%nat /\
  exists h (g : R -> cmat), cluster_hopping cluster (fun x => x = spacing "honeycomb") t h /\ (forall omega, resolvent 4 h (frequency omega eta) (g omega)) /\
    forall omegas, exists dd, two_spins op_keqb op_mk (points cluster) omegas 0 1 g g dd.
Proof.
  intros t eta cell cluster dc dL He Ec EL.
  assert (In ("honeycomb"%string, honeycomb_cell) common_cells) as Hin by (cbn; tauto).
  destruct (C37_generator 4 "honeycomb" honeycomb_cell 2 1 1 ltac:(lia) Hin ltac:(lia) ltac:(lia) ltac:(lia)) as (L' & d' & E' & _ & _ & _ & _ & Ln & _ & Sp & _).
  rewrite EL in E'. injection E' as <- <-.
  split; [exact op_instance|]. split.
  { intros p q E. apply point_eqb_eq in E. subst q. rewrite dist_refl. lra. }
  split; [apply C37_nearest_default|].
  split; [intros l; apply Permutation_refl|]. split; [intros l; apply Permutation_refl|]. split; [constructor|]. split; [rewrite Ln; reflexivity|].
  assert (L4 : length (points cluster) = 4%nat) by (rewrite Ln; reflexivity).
  pose (h := fun i j : nat => if Nat.eq_dec i j then c0 else if Req_EM_T (dist (nth i (points cluster) v0) (nth j (points cluster) v0)) (spacing "honeycomb") then RtoC t else c0).
  assert (Hh : cluster_hopping cluster (fun x => x = spacing "honeycomb") t h).
  { intros i j _ _. unfold h. cbv zeta. destruct (Nat.eq_dec i j) as [|N]; [split; [intros [A _]; contradiction|auto]|].
    destruct (Req_EM_T _ _) as [E|E]; [split; [auto|intros X; exfalso; apply X; auto]|split; [intros [_ X]; contradiction|auto]]. }
  pose proof (cluster_hopping_hermitian cluster _ t h Hh) as HH. rewrite L4 in HH.
  pose (g := fun omega => match np_inv 4 (fun i j => frequency omega eta * delta i j - h i j) with Ok X => X | Err _ => fun _ _ => c0 end).
  exists h, g. split; [exact Hh|]. split.
  { intros omega. destruct (resolvent_exists 4 h omega eta HH He) as (G & HG). unfold g.
    destruct (proj1 (proj2 (C59_inverse 4 (fun i j => frequency omega eta * delta i j - h i j))) G HG) as (X & -> & EX).
    intros i j Hi Hj. destruct (HG i j Hi Hj) as [G1 G2]. split; [etransitivity; [|exact G1]|etransitivity; [|exact G2]]; apply csum_ext; intros; now rewrite EX. }
  intros omegas. apply two_spins_exists; [|lia].
  apply NoDup_nth_error. intros i j Hi E.
  destruct (nth_error (points cluster) i) as [p|] eqn:Ei; [|apply nth_error_None in Ei; lia]. symmetry in E.
  destruct (Nat.eq_dec i j) as [|N]; [assumption|exfalso].
  assert (Hj : (j < length (points cluster))%nat) by (apply nth_error_Some; congruence).
  pose proof (Sp i j (repeat 0%Z (length (vectors cluster))) Hi Hj N (repeat_length _ _)) as D. rewrite shift_zero, vadd_0_r in D.
  rewrite (nth_error_nth _ _ v0 Ei), (nth_error_nth _ _ v0 E), dist_refl in D. lra.
Qed.
