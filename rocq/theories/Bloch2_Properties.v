(** C59, continued: tight binding on the chain, the square and the cubic lattice. *)
From Coq Require Import Reals String List ZArith Bool Arith Lia Lra Permutation.
From Coquelicot Require Import Complex.
From Verif Require Import Py CVec LinSolve MatrixRepr_Model Line2D_Model Lattice_Model Lattice_Spec Lattice_Proofs Lattice_Properties LatticeCases_Properties LatticeGen_Model LatticeGen_Spec LatticeGen_Proofs LatticeGen_Properties
  Neighbors_Spec Neighbors_Proofs Neighbors_Properties LatticeBonds_Spec LatticeBonds_Proofs2 LatticeBonds_Properties
  GF_Spec Free_Spec Spectrum_Spec CPT_Model CPT_Spec CPT_Proofs CPT_Proofs2 CPT_Proofs3 CPT_Proofs4 CPT_Proofs5 CPT_Proofs6 CPT_Properties Bloch_Spec Bloch_Proofs Bloch_Proofs2 Bloch_Proofs3 Bloch_Proofs4 Bloch_Proofs5 Bloch_Proofs6 Bloch_Properties.
Import ListNotations.
Local Open Scope nat_scope.
Local Open Scope C_scope.

Lemma simple_cells name c : In name ["chain"; "square"; "cubic"]%string -> In (name, c) common_cells ->
  (exists p, cpoints c = [p]) /\ orthonorm (cvectors c) /\ cvectors c <> [].
Proof.
  intros Hs H. cbn [common_cells In] in H. cbn in Hs. repeat destruct H as [H|H]; try contradiction; injection H as <- <-; try (exfalso; repeat destruct Hs as [Hs|Hs]; try discriminate Hs; exact Hs);
  (split; [eexists; reflexivity|split; [cbn; repeat split; try (repeat apply Forall_cons; try apply Forall_nil); cbn; lra|discriminate]]).
Qed.
Lemma one_site_resolvent h z G : resolvent 1 h z G -> G 0%nat 0%nat * (z - h 0%nat 0%nat) = c1.
Proof.
  intros H. destruct (H 0%nat 0%nat ltac:(lia) ltac:(lia)) as [_ E]. cbn in E. unfold delta in E. cbn in E. rewrite Cplus_0_l, Cmult_1_r in E. exact E.
Qed.
Lemma above_one n prec : (1 <= prec)%nat -> (1 <= n)%Z -> ~ (1 < sqrt (IZR n) <= 1 + view prec)%R.
Proof.
  intros Hp Hn [A B]. pose proof (view_tenth prec Hp) as V. destruct (Z.eq_dec n 1) as [->|N]; [rewrite sqrt_1 in A; lra|].
  pose proof (sqrt_two n ltac:(lia)). lra.
Qed.

(** For chain, square and cubic clusters of every extent and every real amplitude t: the
    first-neighbour bonds returned by bonds(nth=1) let the program run, and with the cluster functions
    of particles hopping with amplitude t between the points of the cluster at distance 1 it returns
      2 / (omega + i eta - 2 t (cos k.a1 + cos k.a2 + ...))
    for every k and omega, whatever the cluster. *)
Theorem C59_tight_binding : forall (K : Type) (keqb : K -> K -> bool) (dagger : K -> K) (site_of : K -> point) (derive : K -> point -> K) (mk : otype -> Z -> point -> K) (same : point -> point -> bool),
  operators keqb dagger site_of derive mk same -> (forall p q, same p q = true -> (dist p q < / 10)%R) ->
  forall prec name c n0 n1 n2 cell cluster dc dL ord pord d only s0 s1 t eta,
  (1 <= prec)%nat -> In name ["chain"; "square"; "cubic"]%string -> In (name, c) common_cells -> (1 <= n0)%Z -> (1 <= n1)%Z -> (1 <= n2)%Z ->
  lattice_generator prec (Name name) (AnInt 1) (AnInt 1) (AnInt 1) = Ok (cell, dc) ->
  lattice_generator prec (Name name) (AnInt n0) (AnInt n1) (AnInt n2) = Ok (cluster, dL) ->
  listing ord -> listing pord -> reachable prec cluster ord (fresh prec cluster) d -> s0 <> s1 -> eta <> 0%R ->
  let num := length (points cluster) in
  let Cs := creators mk [s0; s1] cluster in let As := annihilators dagger mk [s0; s1] cluster in
  let cell_Cs := creators mk [s0; s1] cell in let cell_As := annihilators dagger mk [s0; s1] cell in
  exists F, forall fuel, (F <= fuel)%nat -> exists intra inter,
    fst (bonds cluster ord pord fuel prec d (AnInt 1) only false) = Some (Ok (intra, Some inter)) /\
    exists F', forall fuel', (F' <= fuel')%nat -> exists FTs VTerms,
      fourier_terms keqb site_of derive fuel' prec cell Cs As cell_Cs cell_As = Some (Ok FTs) /\
      v_terms keqb mk fuel' prec cluster [s0; s1] Cs As (RtoC t) inter = Some (Ok VTerms) /\
      forall h (g : R -> cmat), cluster_hopping cluster (fun x => x = 1%R) t h ->
        (forall omega, resolvent num h (frequency omega eta) (g omega)) ->
      forall omegas kpoints dd, two_spins keqb mk (points cluster) omegas s0 s1 g g dd ->
      exists rows, final_gfs (length Cs) (length cell_Cs) num (length omegas) (gfs_array keqb dagger dd Cs As) VTerms FTs kpoints = Ok rows /\
        tabulates omegas kpoints rows (fun k omega x => x = RtoC 2 / (frequency omega eta - RtoC (2 * t * cosines c k))).
Proof.
  intros K keqb dagger site_of derive mk same OP SAME prec name c n0 n1 n2 cell cluster dc dL ord pord d only s0 s1 t eta Hp Hs Hn H0 H1 H2 Ec EL Ho Hpo Hr Hss He num Cs As cell_Cs cell_As.
  destruct (simple_cells name c Hs Hn) as ((p & Cp) & On & Cne).
  destruct (generated prec name c n0 n1 n2 cluster dL Hp Hn H0 H1 H2 EL) as (Lp & Lv & _ & SL).
  destruct (extents_ok name c n0 n1 n2 Hn H0 H1 H2) as [Fn Hl]. set (nums := extents c n0 n1 n2) in *.
  destruct (C37_generator prec name c n0 n1 n2 Hp Hn H0 H1 H2) as (L' & d' & E' & HL & _ & _ & _ & _ & _ & _ & HT). rewrite EL in E'. injection E' as <- <-.
  destruct (C37_suitable prec name c n0 n1 n2 cluster dL Hp Hn H0 H1 H2 EL) as (_ & Res & _ & A & _). destruct (A Hs) as (Ni & _ & _). clear A.
  assert (NV : exists a, In a (vectors cluster) /\ (view prec <= norm a)%R).
  { destruct (cvectors c) as [|v vs] eqn:Ev; [contradiction|]. destruct nums as [|m ms] eqn:En; [cbn in Hl; discriminate|]. rewrite Lv. eexists. split; [now left|].
    inversion Fn as [|? ? Hm _]; subst. pose proof (view_tenth prec Hp) as V. destruct On as [O1 _]. unfold norm.
    match goal with |- (_ <= sqrt ?x)%R => assert (X : (1 <= x)%R) end.
    { replace 1%R with (1 * 1)%R by ring. destruct v as [[x y] z]. cbn in O1 |- *. apply IZR_le in Hm.
      match goal with |- (_ <= ?e)%R => replace e with (IZR m * IZR m * (x * x + y * y + z * z))%R by ring end. rewrite O1, Rmult_1_r. nra. }
    apply sqrt_le_1_alt in X. rewrite sqrt_1 in X. lra. }
  destruct (C36_total prec cluster ord pord d 1 only false Ho Hpo HL Ni SL NV Hr ltac:(lia)) as (F & HF).
  exists F. intros fuel Hf. destruct (HF fuel Hf) as (intra & inter & EB). exists intra, inter. split; [exact EB|].
  destruct (distance_one c p Cp On Cne nums cluster prec Hp Fn Hl Lp Lv ord Ho d Hr) as (d2 & D1).
  assert (D0 : fst (neighbor_distance cluster ord prec d2 (AnInt 0)) = Ok 0%R).
  { pose proof (Lpne c p Cp nums cluster prec Hp Fn Hl Lp) as PN. destruct (C35_sound prec cluster ord d 1 1%R d2 Ho PN Hr D1) as (_ & _ & _ & _ & Hm).
    destruct (Hm 0%Z ltac:(lia)) as (u & Eu & _). assert (R2 : reachable prec cluster ord (fresh prec cluster) d2).
    { replace d2 with (snd (neighbor_distance cluster ord prec d (AnInt 1))) by now rewrite D1. constructor. exact Hr. }
    destruct (C35_sound prec cluster ord d2 0 u d2 Ho PN R2 Eu) as (_ & _ & Z & _). rewrite Eu. now rewrite Z. }
  pose proof (C36_exact prec cluster ord pord fuel d 0 only false intra (Some inter) d2 1%R 0%R Ho Hpo HL Hr Ni Res (or_introl eq_refl) D1 D0
    (nth_one c p Cp On Cne nums cluster prec Hp Fn Hl Lp Lv) (nth_zero c p Cp nums cluster prec Hp Fn Hl Lp)
    (gap_one c p Cp On nums cluster prec Hp Fn Hl Lp Lv) ltac:(lia)) as EX.
  destruct EX as (_ & J & T & EJ & (NT & VT & PT) & AT).
  { intros k Vk Ck Hk. exfalso. destruct (simple_len c p Cp On nums cluster Fn Hl Lp Lv k Vk) as (n & Hn' & En).
    - intros X. injection X as _ X. destruct Ck as (x & Hx & Nx). rewrite X in Hx. apply repeat_spec in Hx. contradiction.
    - rewrite En in Hk. now apply (above_one n prec Hp Hn'). }
  { exact EB. }
  injection EJ as <-.
  assert (CV : forall k, valid cluster k -> crossing k -> ((if only then rounded prec (len cluster k) = 1%R else (rounded prec (len cluster k) <= 1)%R) <-> len cluster k = 1%R)).
  { intros k Vk Ck. destruct (simple_len c p Cp On nums cluster Fn Hl Lp Lv k Vk) as (n & Hn' & ->).
    - intros X. injection X as _ X. destruct Ck as (x & Hx & Nx). rewrite X in Hx. apply repeat_spec in Hx. contradiction.
    - apply (length_one c nums cluster prec Hp Hl only n Hn'). }
  destruct (C59_runs K keqb dagger site_of derive mk same OP prec name c n0 n1 n2 cell cluster dc dL [s0; s1] (RtoC t) inter Hp Hn H0 H1 H2) as (F' & HF'); [exact Ec|exact EL| |].
  { intros a b Hab. apply (Permutation_in _ PT) in Hab. apply in_map_iff in Hab as (k & Ek & Hk). injection Ek as <- <-. destruct (VT k Hk) as ((V1 & V2 & V3) & _).
    destruct (proj1 HT (from k) (repeat 0%Z (length (vectors cluster))) V1 (repeat_length _ _)) as (j1 & m1 & S1 & E1). destruct (proj1 HT (to k) (by_ k) V2 V3) as (j2 & m2 & S2 & E2).
    rewrite shift_zero, vadd_0_r in E1. exists j1, j2, m1, m2. split; [exact S1|]. split; [exact S2|]. split; [exact E1|exact E2]. }
  exists F'. intros fuel' Hf'. destruct (HF' fuel' Hf') as ((FTs & EF) & (VTerms & EV)). exists FTs, VTerms. split; [exact EF|]. split; [exact EV|].
  intros h g Hh Hg omegas kpoints dd Tw.
  assert (HP : forall n, (1 <= n)%Z -> (sqrt (IZR n) = 1%R <-> n = 1%Z)).
  { intros n Hn'. split; [|intros ->; apply sqrt_1]. intros E. destruct (Z.eq_dec n 1) as [|N]; [assumption|]. pose proof (sqrt_two n ltac:(lia)). lra. }
  destruct (C59_bloch K keqb dagger site_of derive mk same OP SAME prec name c n0 n1 n2 cell cluster dc dL fuel' (fun x => x = 1%R) t
    (fun _ => map (fun M => (0%nat, M)) (units (length (cvectors c)))) inter s0 s1 h g eta FTs VTerms Hp Hn H0 H1 H2 Ec EL Hss He) with (omegas := omegas) (kpoints := kpoints) (dd := dd) as (rows & ER & TR); auto.
  { intros a Ha. rewrite Cp in Ha. cbn in Ha. assert (a = 0%nat) by lia. subst a. apply (simple_neighbours c p Cp On (fun x => x = 1%R) HP). }
  { exists T. split.
    - split; [exact NT|]. split; [|exact PT]. intros k Hk. destruct (VT k Hk) as (V1 & V2 & V3 & V4). split; [exact V1|]. split; [exact V2|]. split; [|exact V4]. now apply CV.
    - intros k V1 V2 V3. apply (AT k V1 V2). now apply CV. }
  exists rows. split; [exact ER|]. destruct TR as [TL TR]. split; [exact TL|]. intros a k Ha. destruct (TR a k Ha) as (row & E1 & E2 & E3). exists row. split; [exact E1|]. split; [exact E2|].
  intros w omega Hw. destruct (E3 w omega Hw) as (x & Ex & G & HG & Gx). exists x. split; [exact Ex|].
  rewrite Cp in HG, Gx. cbn [length] in HG, Gx. apply one_site_resolvent in HG. rewrite (simple_bloch c t k) in HG.
  assert (NZ : frequency omega eta - RtoC (2 * t * cosines c k) <> c0).
  { intros Z. rewrite Z in HG. rewrite Cmult_0_r in HG. injection HG as HG. lra. }
  subst x. cbn [csum]. rewrite Cplus_0_l. replace (2 / INR 1)%R with 2%R by (cbn; field).
  set (y := frequency omega eta - RtoC (2 * t * cosines c k)) in *. replace (G 0%nat 0%nat) with (/ y); [reflexivity|].
  rewrite <- (Cmult_1_r (/ y)). change (RtoC 1) with c1. rewrite <- HG, Cmult_comm, <- Cmult_assoc, Cinv_r by exact NZ. apply Cmult_1_r.
Qed.
Print Assumptions C59_tight_binding.

(** Non-vacuity of C59_bloch and C59_tight_binding: on a 3 x 2 square cluster the hypotheses hold for
    every amplitude, with the operator objects (type, spin, site). *)
Example C59_tight_binding_case : forall (t eta : R) cell cluster dc dL, eta <> 0%R ->
  lattice_generator 4 (Name "square") (AnInt 1) (AnInt 1) (AnInt 1) = Ok (cell, dc) ->
  lattice_generator 4 (Name "square") (AnInt 3) (AnInt 2) (AnInt 1) = Ok (cluster, dL) ->
  operators op_keqb op_swap op_at op_moved op_mk point_eqb /\
  (forall p q, point_eqb p q = true -> (dist p q < / 10)%R) /\
  listing (fun l : list (list Z) => l) /\ listing (fun l : list (nat * nat) => l) /\ reachable 4 cluster (fun l => l) (fresh 4 cluster) (fresh 4 cluster) /\
  length (points cluster) = 6%nat /\
  exists h (g : R -> cmat), cluster_hopping cluster (fun x => x = 1%R) t h /\ (forall omega, resolvent 6 h (frequency omega eta) (g omega)) /\
    forall omegas, exists dd, two_spins op_keqb op_mk (points cluster) omegas 0 1 g g dd.
Proof.
  intros t eta cell cluster dc dL He Ec EL.
  assert (In ("square"%string, square_cell) common_cells) as Hin by (cbn; auto).
  destruct (C37_generator 4 "square" square_cell 3 2 1 ltac:(lia) Hin ltac:(lia) ltac:(lia) ltac:(lia)) as (L' & d' & E' & _ & _ & _ & _ & Ln & _ & Sp & _).
  rewrite EL in E'. injection E' as <- <-.
  split; [exact op_instance|]. split.
  { intros p q E. apply point_eqb_eq in E. subst q. rewrite dist_refl. lra. }
  split; [intros l; apply Permutation_refl|]. split; [intros l; apply Permutation_refl|]. split; [constructor|]. split; [rewrite Ln; reflexivity|].
  assert (L6 : length (points cluster) = 6%nat) by (rewrite Ln; reflexivity).
  pose (h := fun i j : nat => if Nat.eq_dec i j then c0 else if Req_EM_T (dist (nth i (points cluster) v0) (nth j (points cluster) v0)) 1 then RtoC t else c0).
  assert (Hh : cluster_hopping cluster (fun x => x = 1%R) t h).
  { intros i j _ _. unfold h. cbv zeta. destruct (Nat.eq_dec i j) as [|N]; [split; [intros [A _]; contradiction|auto]|].
    destruct (Req_EM_T _ 1) as [E|E]; [split; [auto|intros X; exfalso; apply X; auto]|split; [intros [_ X]; contradiction|auto]]. }
  pose proof (cluster_hopping_hermitian cluster _ t h Hh) as HH. rewrite L6 in HH.
  pose (g := fun omega => match np_inv 6 (fun i j => frequency omega eta * delta i j - h i j) with Ok X => X | Err _ => fun _ _ => c0 end).
  exists h, g. split; [exact Hh|]. split.
  { intros omega. destruct (resolvent_exists 6 h omega eta HH He) as (G & HG). unfold g.
    destruct (proj1 (proj2 (C59_inverse 6 (fun i j => frequency omega eta * delta i j - h i j))) G HG) as (X & -> & EX).
    intros i j Hi Hj. destruct (HG i j Hi Hj) as [G1 G2]. split; [etransitivity; [|exact G1]|etransitivity; [|exact G2]]; apply csum_ext; intros; now rewrite EX. }
  intros omegas. apply two_spins_exists; [|lia].
  apply NoDup_nth_error. intros i j Hi E.
  destruct (nth_error (points cluster) i) as [p|] eqn:Ei; [|apply nth_error_None in Ei; lia]. symmetry in E.
  destruct (Nat.eq_dec i j) as [|N]; [assumption|exfalso].
  assert (Hj : (j < length (points cluster))%nat) by (apply nth_error_Some; congruence).
  pose proof (Sp i j (repeat 0%Z (length (vectors cluster))) Hi Hj N (repeat_length _ _)) as D. rewrite shift_zero, vadd_0_r in D.
  rewrite (nth_error_nth _ _ v0 Ei), (nth_error_nth _ _ v0 E), dist_refl in D. lra.
Qed.
