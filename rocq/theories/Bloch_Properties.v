(** C59, continued: without interaction the CPT program is exact. *)
From Coq Require Import Reals String List ZArith Bool Arith Lia Lra Permutation.
From Coquelicot Require Import Complex.
From Verif Require Import Py CVec LinSolve MatrixRepr_Model Lattice_Model Lattice_Spec Lattice_Proofs Lattice_Properties LatticeGen_Model LatticeGen_Spec LatticeGen_Proofs LatticeGen_Properties LatticeBonds_Spec LatticeBonds_Proofs2
  GF_Spec Free_Spec Spectrum_Spec CPT_Model CPT_Spec CPT_Proofs CPT_Proofs2 CPT_Proofs3 CPT_Proofs4 CPT_Proofs6 CPT_Properties Bloch_Spec Bloch_Proofs Bloch_Proofs2 Bloch_Proofs3 Bloch_Proofs4.
Import ListNotations.
Local Open Scope nat_scope.
Local Open Scope C_scope.

Lemma generated prec name c n0 n1 n2 L d : (1 <= prec)%nat -> In (name, c) common_cells -> (1 <= n0)%Z -> (1 <= n1)%Z -> (1 <= n2)%Z ->
  lattice_generator prec (Name name) (AnInt n0) (AnInt n1) (AnInt n2) = Ok (L, d) ->
  points L = cluster c (extents c n0 n1 n2) /\ vectors L = scale_rows (extents c n0 n1 n2) (cvectors c) /\ separated (/ 10) L /\ separated (view prec) L.
Proof.
  intros Hp Hn H0 H1 H2 E. destruct (extents_ok name c n0 n1 n2 Hn H0 H1 H2) as [F Hl]. pose proof (common_gridded name c Hn) as g.
  destruct (cluster_accepted prec c g _ Hp F Hl) as (L' & d' & E' & E1 & E2 & E3 & HL). rewrite (generator_build prec name c) in E by auto. rewrite E in E'. injection E' as <- <-.
  split; [exact E2|]. split; [exact E3|]. split; [now apply (generated_separated c g (extents c n0 n1 n2))|].
  destruct (C37_suitable prec name c n0 n1 n2 L d Hp Hn H0 H1 H2) as (HS & _); [now rewrite (generator_build prec name c) by auto|]. exact HS.
Qed.

(** For every lattice of the database, every cluster of it, every set P of bond lengths
    and every amplitude t: if the cluster functions are those of independent particles
    with amplitude t on the bonds inside the cluster, and VTerms is built with t from
    all bonds leaving it, then the program returns, for every k and omega, the trace of
    the resolvent of the Bloch matrix of the infinite lattice, per site and for both
    spins.  The cluster does not show: the result is the same for all clusters. *)
Theorem C59_bloch : forall (K : Type) (keqb : K -> K -> bool) (dagger : K -> K) (site_of : K -> point) (derive : K -> point -> K) (mk : otype -> Z -> point -> K) (same : point -> point -> bool),
  operators keqb dagger site_of derive mk same -> (forall p q, same p q = true -> (dist p q < / 10)%R) ->
  forall prec name c n0 n1 n2 cell cluster dc dL fuel P t (D : nat -> list (nat * list Z)) inter s0 s1 h (g : R -> cmat) eta FTs VTerms,
  (1 <= prec)%nat -> In (name, c) common_cells -> (1 <= n0)%Z -> (1 <= n1)%Z -> (1 <= n2)%Z ->
  lattice_generator prec (Name name) (AnInt 1) (AnInt 1) (AnInt 1) = Ok (cell, dc) ->
  lattice_generator prec (Name name) (AnInt n0) (AnInt n1) (AnInt n2) = Ok (cluster, dL) ->
  let num := length (points cluster) in
  let nc := length (cpoints c) in
  let Cs := creators mk [s0; s1] cluster in let As := annihilators dagger mk [s0; s1] cluster in
  let cell_Cs := creators mk [s0; s1] cell in let cell_As := annihilators dagger mk [s0; s1] cell in
  s0 <> s1 -> eta <> 0%R ->
  (forall a, (a < nc)%nat -> neighbours c P a (D a)) ->
  lists_all_inter cluster P inter -> cluster_hopping cluster P t h ->
  (forall omega, resolvent num h (frequency omega eta) (g omega)) ->
  fourier_terms keqb site_of derive fuel prec cell Cs As cell_Cs cell_As = Some (Ok FTs) ->
  v_terms keqb mk fuel prec cluster [s0; s1] Cs As (RtoC t) inter = Some (Ok VTerms) ->
  forall omegas kpoints dd, two_spins keqb mk (points cluster) omegas s0 s1 g g dd ->
  exists rows, final_gfs (length Cs) (length cell_Cs) num (length omegas) (gfs_array keqb dagger dd Cs As) VTerms FTs kpoints = Ok rows /\
    tabulates omegas kpoints rows (fun k omega x => exists G,
      resolvent nc (bloch_matrix c t D k) (frequency omega eta) G /\ x = RtoC (2 / INR nc) * csum nc (fun a => G a a)).
Proof.
  intros K keqb dagger site_of derive mk same OP SAME prec name c n0 n1 n2 cell cluster dc dL fuel P t D inter s0 s1 h g eta FTs VTerms Hp Hn H0 H1 H2 Ec EL
    num nc Cs As cell_Cs cell_As Hs He HD (T0 & (NT0 & VT0 & PT0) & AT0) Hh Hg HF HV omegas kpoints dd Tw.
  destruct (generated prec name c n0 n1 n2 cluster dL Hp Hn H0 H1 H2 EL) as (Lp & Lv & SL & SL').
  destruct (generated prec name c 1 1 1 cell dc Hp Hn ltac:(lia) ltac:(lia) ltac:(lia) Ec) as (Cp & Cv & SC & SC').
  destruct (extents_ok name c n0 n1 n2 Hn H0 H1 H2) as [F Hl].
  destruct (extents_ok name c 1 1 1 Hn ltac:(lia) ltac:(lia) ltac:(lia)) as [_ Hl1].
  assert (F1 : Forall (fun n => n = 1%Z) (extents c 1 1 1)).
  { unfold extents. change [1; 1; 1]%Z with (repeat 1%Z 3). apply Forall_forall. intros x Hx. apply (repeat_spec 3 1%Z x). rewrite <- (firstn_skipn (length (cvectors c))). apply in_app_iff. now left. }
  rewrite ones_cluster in Cp by exact F1. rewrite ones_scale in Cv by assumption. set (nums := extents c n0 n1 n2) in *.
  (* the links, in the order of inter *)
  apply Permutation_map_inv in PT0 as (T & ET & PT).
  assert (NT : NoDup T) by (now apply (Permutation_NoDup PT)).
  assert (VT : forall l, In l T -> valid cluster l /\ crossing l /\ P (len cluster l) /\ ~ In (opposite l) T).
  { intros l Hl'. apply (Permutation_in _ (Permutation_sym PT)) in Hl'. destruct (VT0 l Hl') as (A & B & C & N). repeat split; auto; try apply A. intros X. apply N. now apply (Permutation_in _ (Permutation_sym PT)). }
  assert (AT : forall l, valid cluster l -> crossing l -> P (len cluster l) -> In l T \/ In (opposite l) T).
  { intros l A B C. destruct (AT0 l A B C) as [X|X]; [left|right]; now apply (Permutation_in _ PT). }
  rewrite ET in HV. apply (v_terms_links keqb dagger site_of derive mk same OP SAME s0 s1 Hs) in HV; [|assumption|assumption|intros l Hl'; now apply VT]. subst VTerms.
  destruct (fourier_terms_ok keqb dagger site_of derive mk same OP fuel prec [s0; s1] cell cluster FTs HF) as (ci & Rc & PF & EF). cbv zeta in EF.
  pose proof (cells_of_operators keqb dagger site_of derive mk same OP SAME s0 s1 Hs c nums cluster cell F Hl Lp Cp Cv fuel prec ci Rc SC' SC PF) as Hci.
  unfold Cs, cell_Cs. rewrite !creators_two_length in *. rewrite Cp. fold nc. fold num in EF, Hci |- *.
  pose proof (cluster_hopping_hermitian cluster P t h Hh) as Hh'. fold num in Hh'.
  destruct (final_gfs_ok (num + num)%nat (nc + nc)%nat num omegas (gfs_array keqb dagger dd Cs As) (double_terms cluster t T) FTs kpoints
    (fun k omega X => resolvent (num + num) (add (direct_sum num h h) (v_matrix k (double_terms cluster t T))) (frequency omega eta) X)) as (rows & E & Tl & Tb).
  { intros k w omega _ Hw. apply C59_free; [now apply hermitian_direct|apply v_matrix_hermitian|exact He|].
    apply (resolvent_ext _ (direct_sum num h h) _ _ (direct_sum num (g omega) (g omega))); [reflexivity| |now apply resolvent_direct].
    intros i j Hi Hj. symmetry. now apply (array_direct keqb dagger site_of derive mk same OP cluster omegas). }
  exists rows. split; [exact E|]. split; [exact Tl|]. intros a k Ha. destruct (Tb a k Ha) as (row & Er & Lr & Pr). exists row. split; [exact Er|]. split; [exact Lr|].
  intros w omega Hw. destruct (Pr w omega Hw) as (x & Ex & X & HX & ->). eexists. split; [exact Ex|].
  destruct (resolvent_exists nc (bloch_matrix c t D k) omega eta (bloch_hermitian c nums cluster F Hl Lp Lv k t P T h D NT VT AT Hh HD ci Rc Hci) He) as (G & HG).
  exists G. split; [exact HG|]. now apply (entry c nums cluster F Hl Lp Lv k t P T h D NT VT AT Hh HD ci Rc Hci (frequency omega eta) X G FTs).
Qed.
Print Assumptions C59_bloch.
