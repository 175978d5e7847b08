(** C56: Hamiltonians assembled from the factories' terms conserve what the
    physics says they conserve. *)
From Coq Require Import String List ZArith NArith Bool Arith Lia Ring Setoid.
From Verif Require Import Py GQ Mat IndexTable_Model State_Model State_Spec MatrixRepr_Model Fock_Spec Fock_Proofs MatrixRepr_Proofs MatrixRepr_Proofs2
  Particle_Model Particle_Spec Particle_Proofs Particle_Proofs2 Particle_Proofs3
  Spin_Model Spin_Spec Spin_Proofs Spin_Proofs2 Spin_Proofs3 Spin_Properties Conserve_Spec Conserve_Proofs Conserve_Proofs2.
Import ListNotations.
Local Open Scope nat_scope.
Local Open Scope gq_scope.

(** ** Spin models *)
Lemma on_table_sites objs tbl zoom site0 site1 : make_state_table objs 0 = Ok tbl -> on_table zoom tbl site0 site1 ->
  exists k0 k1, sites_at zoom tbl site0 site1 k0 k1 /\ (k0 < length objs)%nat /\ (k1 < length objs)%nat.
Proof.
  intros Ht (s0 & s1 & i0 & i1 & E0 & E1 & I0 & I1). destruct (site_facts _ _ _ Ht) as (_ & _ & B & _).
  pose proof (B _ _ I0) as B0. pose proof (B _ _ I1) as B1. exists (Z.to_nat i0), (Z.to_nat i1). split; [|lia].
  exists s0, s1. rewrite !Z2Nat.id by lia. auto.
Qed.
Lemma heisenberg_bond objs tbl zoom b o : make_state_table objs 0 = Ok tbl -> bond_on_table zoom tbl b -> o = SX \/ o = SY \/ o = SZ ->
  exists ts H, heisenberg_terms zoom b = Ok ts /\ sum_reprs tbl ts = Ok H /\
    commutes (2 ^ length objs) (total_spin (length objs) o) H.
Proof.
  intros Ht Hb Ho. destruct b as [[site0 site1] c]. destruct (on_table_sites _ _ _ _ _ Ht Hb) as (k0 & k1 & Hs & H0 & H1).
  cbn [fst snd] in Hs. destruct (C28_heisenberg _ _ _ _ _ _ _ c Ht Hs) as (t0 & t1 & t2 & m0 & m1 & m2 & E & R0 & R1 & R2 & M).
  exists [t0; t1; t2]. eexists. split; [exact E|]. split; [unfold sum_reprs; cbn [mapM]; rewrite R0; cbn [bind]; rewrite R1; cbn [bind]; rewrite R2; reflexivity|].
  eapply commutes_ext.
  - etransitivity; [|exact M]. intros r k _ _. cbn [lsum]. unfold madd. ring.
  - intros r k Hr Hk. rewrite comm_scale_l. change (madd _ _) with (dot (length objs) k0 k1).
    rewrite (dot_comm _ k0 k1 o H0 H1 Ho r k Hr Hk). unfold mzero. ring.
Qed.
(** For any list of Heisenberg bonds between sites of the table, the sum of the
    matrices of all the terms HeisenbergFactory returns commutes with the three
    matrices TotalSpinMatrices returns and with the square of the total spin. *)
Theorem C56_heisenberg_su2 : forall objs tbl zoom bonds, make_state_table objs 0 = Ok tbl ->
  Forall (bond_on_table zoom tbl) bonds ->
  let d := (2 ^ length objs)%nat in
  exists ts H sx sy sz, all_terms (heisenberg_terms zoom) bonds = Ok ts /\ sum_reprs tbl ts = Ok H /\
    TotalSpinMatrices (NInt (Z.of_nat (length objs))) = Ok (Some sx, Some sy, Some sz) /\
    meq d d (comm d H (s_ent sx)) mzero /\ meq d d (comm d H (s_ent sy)) mzero /\ meq d d (comm d H (s_ent sz)) mzero /\
    meq d d (comm d H (msub (madd (mmul d (s_ent sx) (s_ent sx)) (mmul d (s_ent sz) (s_ent sz))) (mmul d (s_ent sy) (s_ent sy)))) mzero.
Proof.
  intros objs tbl zoom bonds Ht HB d. set (n := length objs) in *.
  destruct (sum_commutes (heisenberg_terms zoom) tbl bonds
    (fun h => commutes d (total_spin n SX) h /\ commutes d (total_spin n SY) h /\ commutes d (total_spin n SZ) h) d) as (ts & H & E & S & CX & CY & CZ).
  - intros a b (A1 & A2 & A3) (B1 & B2 & B3). split; [|split]; now apply commutes_add.
  - split; [|split]; apply commutes_zero.
  - intros a b Eab (B1 & B2 & B3). split; [|split]; eapply commutes_ext; eauto.
  - intros b Hb. rewrite Forall_forall in HB. specialize (HB b Hb).
    destruct (heisenberg_bond objs tbl zoom b SX Ht HB) as (ts & H & E & S & C1); [auto|].
    destruct (heisenberg_bond objs tbl zoom b SY Ht HB) as (ts' & H' & E' & S' & C2); [auto|].
    destruct (heisenberg_bond objs tbl zoom b SZ Ht HB) as (ts'' & H'' & E'' & S'' & C3); [auto|].
    assert (ts' = ts) by congruence. assert (ts'' = ts) by congruence. subst ts' ts''.
    assert (H' = H) by congruence. assert (H'' = H) by congruence. subst H' H''. exists ts, H. auto.
  - destruct (TotalSpin_ok n (n_pos objs tbl Ht)) as (sx & sy & sz & ET & (_ & _ & RX) & (_ & _ & RY) & (_ & _ & RZ)).
    exists ts, H, sx, sy, sz. split; [exact E|]. split; [exact S|]. split; [exact ET|].
    assert (X : eqm d (comm d H (s_ent sx)) mzero) by (etransitivity; [apply comm_proper; [reflexivity|exact RX]|exact CX]).
    assert (Z : eqm d (comm d H (s_ent sz)) mzero) by (etransitivity; [apply comm_proper; [reflexivity|exact RZ]|exact CZ]).
    assert (Y : eqm d (comm d H (s_ent sy)) mzero).
    { assert (Y' : eqm d (comm d H (mscale gi (s_ent sy))) mzero) by (etransitivity; [apply comm_proper; [reflexivity|exact RY]|exact CY]).
      intros r c Hr Hc. specialize (Y' r c Hr Hc). rewrite comm_flip, comm_scale_l, comm_flip in Y'. unfold mzero in *.
      replace (comm d H (s_ent sy) r c) with (- gi * (gopp g1 * (gi * (gopp g1 * comm d H (s_ent sy) r c)))).
      - rewrite Y'. ring.
      - replace (- gi * (gopp g1 * (gi * (gopp g1 * comm d H (s_ent sy) r c)))) with (- (gi * gi) * comm d H (s_ent sy) r c) by ring.
        rewrite gi_sq. ring. }
    split; [exact X|]. split; [exact Y|]. split; [exact Z|].
    intros r c Hr Hc. pose proof (comm_square_r d H _ X r c Hr Hc) as X2. pose proof (comm_square_r d H _ Y r c Hr Hc) as Y2.
    pose proof (comm_square_r d H _ Z r c Hr Hc) as Z2.
    assert (B : forall a b, comm d H (msub a b) r c = comm d H a r c - comm d H b r c).
    { intros a b. change (mmul d H (msub a b) r c - mmul d (msub a b) H r c =
        (mmul d H a r c - mmul d a H r c) - (mmul d H b r c - mmul d b H r c)). rewrite mmul_sub_l, mmul_sub_r. unfold msub. ring. }
    rewrite B, comm_add_r, X2, Y2, Z2. unfold mzero. ring.
Qed.
Print Assumptions C56_heisenberg_su2.

(** Ising bonds of one axis commute with the total spin along that axis. *)
Theorem C56_ising : forall objs tbl zoom bonds o, make_state_table objs 0 = Ok tbl ->
  In o [SX; SY; SZ] -> Forall (bond_on_table zoom tbl) bonds ->
  let n := length objs in let d := (2 ^ n)%nat in
  exists ts H, all_terms (ising_terms zoom o) bonds = Ok ts /\ sum_reprs tbl ts = Ok H /\
    meq d d (comm d H (total_spin n o)) mzero.
Proof.
  intros objs tbl zoom bonds o Ht Ho HB n d.
  apply (sum_commutes (ising_terms zoom o) tbl bonds (commutes d (total_spin n o)) d);
    [exact (commutes_add d _)|apply commutes_zero|exact (commutes_ext d _)|].
  intros [[site0 site1] c] Hb. rewrite Forall_forall in HB. specialize (HB _ Hb).
  destruct (on_table_sites _ _ _ _ _ Ht HB) as (k0 & k1 & Hs & H0 & H1). cbn [fst snd] in Hs.
  destruct (C28_ising _ _ _ _ _ _ _ o c Ht Hs Ho) as (t & m & E & R & (_ & _ & M)).
  exists [t]. eexists. split; [unfold ising_terms; now rewrite E|]. split; [unfold sum_reprs; cbn [mapM]; rewrite R; reflexivity|].
  eapply commutes_ext.
  - etransitivity; [|exact M]. intros r k _ _. cbn [lsum]. ring.
  - intros r k Hr Hk. rewrite comm_scale_l. etransitivity; [apply f_equal; exact (pair_axis n k0 k1 o H0 H1 r k Hr Hk)|]. unfold mzero. ring.
Qed.
Print Assumptions C56_ising.

Lemma xxz_bond objs tbl zoom b : make_state_table objs 0 = Ok tbl -> bond_on_table zoom tbl (fst b) ->
  exists ts H, xxz_terms zoom b = Ok ts /\ sum_reprs tbl ts = Ok H /\
    commutes (2 ^ length objs) (total_spin (length objs) SZ) H.
Proof.
  intros Ht HB. destruct b as [[[site0 site1] c] c'].
  destruct (on_table_sites _ _ _ _ _ Ht HB) as (k0 & k1 & Hs & H0 & H1). cbn [fst snd] in Hs.
  destruct (C28_ising _ _ _ _ _ _ _ SX c Ht Hs ltac:(cbn; auto)) as (t & m & E & R & (_ & _ & M)).
  destruct (C28_ising _ _ _ _ _ _ _ SY c Ht Hs ltac:(cbn; auto)) as (t' & m' & E' & R' & (_ & _ & M')).
  destruct (C28_ising _ _ _ _ _ _ _ SZ c' Ht Hs ltac:(cbn; auto)) as (t'' & m'' & E'' & R'' & (_ & _ & M'')).
  set (n := length objs) in *. set (d := (2 ^ n)%nat) in *.
  exists [t; t'; t'']. eexists. split.
  { unfold xxz_terms. cbn [mapM fst snd]. rewrite E. cbn [bind]. rewrite E'. cbn [bind]. rewrite E''. reflexivity. }
  split; [unfold sum_reprs; cbn [mapM]; rewrite R; cbn [bind]; rewrite R'; cbn [bind]; rewrite R''; reflexivity|].
  eapply (commutes_ext d _ _ (madd (mscale c (madd (mmul d (spin_at n k0 SX) (spin_at n k1 SX)) (mmul d (spin_at n k0 SY) (spin_at n k1 SY))))
     (mscale c' (mmul d (spin_at n k0 SZ) (spin_at n k1 SZ))))).
  - intros r k Hr Hk. cbn [lsum]. rewrite (M r k Hr Hk), (M' r k Hr Hk), (M'' r k Hr Hk). unfold mscale, madd. ring.
  - intros r k Hr Hk. rewrite comm_add_l, !comm_scale_l.
    etransitivity; [apply f_equal2; apply f_equal; [exact (pair_plane n k0 k1 SX SY SZ H0 H1 (or_introl eq_refl) r k Hr Hk)|
      exact (pair_axis n k0 k1 SZ H0 H1 r k Hr Hk)]|]. unfold mzero. ring.
Qed.
(** XXZ bonds (equal x and y couplings, any z coupling, varying from bond to
    bond) conserve the number of down spins: the Hamiltonian has no element
    between basis states with different numbers.  So do Heisenberg bonds. *)
Theorem C56_sz_sectors : forall objs tbl zoom bonds hbonds, make_state_table objs 0 = Ok tbl ->
  Forall (fun b => bond_on_table zoom tbl (fst b)) bonds -> Forall (bond_on_table zoom tbl) hbonds ->
  let n := length objs in
  exists ts hs H, all_terms (xxz_terms zoom) bonds = Ok ts /\ all_terms (heisenberg_terms zoom) hbonds = Ok hs /\
    sum_reprs tbl (ts ++ hs) = Ok H /\
    forall r c, (r < 2 ^ n)%nat -> (c < 2 ^ n)%nat -> H r c <> 0 -> downs n r = downs n c.
Proof.
  intros objs tbl zoom bonds hbonds Ht HB HH n. set (d := (2 ^ n)%nat).
  destruct (sum_commutes (xxz_terms zoom) tbl bonds (commutes d (total_spin n SZ)) d
    (commutes_add d _) (commutes_zero d _) (commutes_ext d _)) as (ts & H & E & S & C).
  { intros b Hb. rewrite Forall_forall in HB. now apply xxz_bond, HB. }
  destruct (sum_commutes (heisenberg_terms zoom) tbl hbonds (commutes d (total_spin n SZ)) d
    (commutes_add d _) (commutes_zero d _) (commutes_ext d _)) as (hs & H' & E' & S' & C').
  { intros b Hb. rewrite Forall_forall in HH. apply heisenberg_bond; auto. }
  unfold sum_reprs in S, S'. 
  destruct (mapM (fun t => fst (inter_matrix_repr tbl t None)) ts) as [ms|] eqn:M; [|discriminate]. injection S as <-.
  destruct (mapM (fun t => fst (inter_matrix_repr tbl t None)) hs) as [ms'|] eqn:M'; [|discriminate]. injection S' as <-.
  exists ts, hs. eexists. split; [exact E|]. split; [exact E'|].
  split; [unfold sum_reprs; rewrite (mapM_app_ok _ _ _ _ _ M M'); reflexivity|].
  intros r c Hr Hc Hne. refine (commutes_sz_sector n _ r c (commutes_ext d _ _ _ _ (commutes_add d _ _ _ C C')) Hr Hc Hne).
  intros x y _ _. apply lsum_app.
Qed.
Print Assumptions C56_sz_sectors.
Example C56_example_spin : Forall (bond_on_table default_zoom stbl) [([NInt 2], [NInt 0], gz 3); ([NInt 0], [NInt 1], ghalf); ([NInt 1], [NInt 2], gi)].
Proof.
  repeat constructor; cbn [fst snd].
  - exists (sid 2), (sid 0), 2%Z, 0%Z. vm_compute. repeat split.
  - exists (sid 0), (sid 1), 0%Z, 1%Z. vm_compute. repeat split.
  - exists (sid 1), (sid 2), 1%Z, 2%Z. vm_compute. repeat split.
Qed.
(** The condition on the couplings matters: an Ising x bond alone does not
    conserve the number of down spins. *)
Example C56_sz_not_conserved :
  match all_terms (ising_terms default_zoom SX) [([NInt 2], [NInt 0], gz 4)] with
  | Ok ts => match sum_reprs stbl ts with Ok H => negb (geqb (H 0%nat 5%nat) 0) | Err _ => false end
  | Err _ => false end = true /\ downs 3 0 <> downs 3 5.
Proof. split; [vm_compute; reflexivity|discriminate]. Qed.

(** ** Particle models *)
Local Open Scope Z_scope.
(** Whatever set of states is singled out, a term changes the number of
    particles in the set by its creators minus annihilators in the set. *)
Theorem C56_selected_charge : forall objs start tbl t right left m p sel n i j,
  make_state_table objs start = Ok tbl -> start + Z.of_nat (length objs) <= Z.of_nat n -> selects tbl p sel ->
  check_compatibility t = true -> sorted_bases (match left with None => right | Some l => l end) ->
  (t_class t = Tgeneral \/ t_class t = Thopping \/ left = None) ->
  fst (pterm_matrix_repr tbl t right left None) = Ok m -> (i < nrows m)%nat -> (j < ncols m)%nat -> entry m i j <> g0 ->
  Z.of_nat (occupied sel n (nth i (match left with None => right | Some l => l end) 0%N)) =
  Z.of_nat (occupied sel n (nth j right 0%N)) + net_created p (t_aocs t).
Proof. exact selected_ok. Qed.
Print Assumptions C56_selected_charge.
(** A Hamiltonian whose terms all create and annihilate equally many particles
    of the set is block diagonal in the number of particles in the set. *)
Theorem C56_selected_sectors : forall objs start tbl bases ts H p sel n i j,
  make_state_table objs start = Ok tbl -> start + Z.of_nat (length objs) <= Z.of_nat n -> selects tbl p sel ->
  sorted_bases bases -> Forall (fun t => check_compatibility t = true /\ net_created p (t_aocs t) = 0) ts ->
  sum_terms tbl bases ts = Ok H -> (i < length bases)%nat -> (j < length bases)%nat -> H i j <> g0 ->
  occupied sel n (nth i bases 0%N) = occupied sel n (nth j bases 0%N).
Proof. exact sum_ok. Qed.
Print Assumptions C56_selected_sectors.
(** Chemical potentials, Hubbard and Coulomb interactions and spin-conserving
    hoppings, as the factories return them: each spin species is conserved. *)
Theorem C56_spin_sectors : forall objs start tbl bases zoom ts H v sel n i j,
  make_state_table objs start = Ok tbl -> start + Z.of_nat (length objs) <= Z.of_nat n ->
  selects tbl (fun s => Z.eqb (st_spin s) v) sel ->
  sorted_bases bases -> Forall (spin_conserving zoom) ts ->
  sum_terms tbl bases ts = Ok H -> (i < length bases)%nat -> (j < length bases)%nat -> H i j <> g0 ->
  occupied sel n (nth i bases 0%N) = occupied sel n (nth j bases 0%N).
Proof.
  intros objs start tbl bases zoom ts H v sel n i j Ht Hn Hs Hb HF. apply (C56_selected_sectors objs start tbl bases ts H _ sel n i j Ht Hn Hs Hb).
  eapply Forall_impl; [|exact HF]. intros t HT. exact (spin_conserving_ok zoom t v HT).
Qed.
Print Assumptions C56_spin_sectors.
(** For every table there is such a selection, so the theorems above apply. *)
Theorem C56_selection_exists : forall objs start tbl p, make_state_table objs start = Ok tbl -> 0 <= start ->
  (forall s t, same_st s t -> p s = p t) -> exists sel, selects tbl p sel.
Proof.
  intros objs start tbl p Ht H0 Hp. destruct (table_facts _ _ _ Ht) as (T1 & T2 & T3 & T4).
  exists (fun k => match nth_error objs (k - Z.to_nat start) with Some (LState s) => p s | _ => false end).
  intros s i Hi. pose proof (T3 _ _ Hi) as B.
  assert (Q : exists x, nth_error objs (Z.to_nat i - Z.to_nat start) = Some x /\ py_eq x (LState s) = true).
  { unfold make_state_table in Ht.
    destruct (IndexTable_Proofs.make_bijection py_eq loc_type loc_isinst py_eq_refl py_eq_sym py_eq_trans loc_isinst_refl objs start tbl Ht)
      as (B1 & B2 & B3 & B4 & _).
    apply B3 in Hi as (x & Hx & E). apply B4 in Hx as (k & -> & Hk). exists x. split; [|exact E].
    replace (Z.to_nat (start + Z.of_nat k) - Z.to_nat start)%nat with k by lia. exact Hk. }
  destruct Q as (x & -> & E). apply py_eq_iff in E. destruct x as [y|y]; [contradiction|]. exact (Hp _ _ E).
Qed.
Print Assumptions C56_selection_exists.
(** A pairing term changes the total number by two, a hopping between different
    spins moves one particle from one species to the other. *)
Theorem C56_pairing : forall zoom site0 site1 spin0 spin1 orbit0 orbit1 c which t,
  PairingFactory zoom site0 site1 spin0 spin1 orbit0 orbit1 c which = Ok t ->
  net_created (fun _ => true) (t_aocs t) = match which with WhichH | WhichHole => -2 | _ => 2 end.
Proof.
  intros zoom site0 site1 spin0 spin1 orbit0 orbit1 c which t H. apply Pairing_ok in H as (o & z & s & u & Ho & _ & _ & _ & ->).
  cbn [t_aocs net_created fold_right a_state a_otype].
  destruct Ho as [[[->| ->] ->]|[[->| ->] ->]]; reflexivity.
Qed.
Print Assumptions C56_pairing.
Theorem C56_spin_flip : forall zoom site0 site1 spin0 spin1 orbit0 orbit1 c t v,
  HoppingFactory zoom site0 site1 (NInt spin0) (Some (NInt spin1)) orbit0 orbit1 c = Ok t ->
  net_created (fun s => Z.eqb (st_spin s) v) (t_aocs t) = (if Z.eqb spin0 v then 1 else 0) - (if Z.eqb spin1 v then 1 else 0).
Proof.
  intros zoom site0 site1 spin0 spin1 orbit0 orbit1 c t v H. apply Hopping_ok in H as (z & s & u & _ & M0 & M1 & ->).
  apply make_state_spin in M0, M1. cbn [get] in M1.
  assert (N : forall x y, nonneg_int (NInt x) = Some y -> y = x).
  { intros x y. unfold nonneg_int. destruct (Z.leb 0 x); [congruence|discriminate]. }
  apply N in M0, M1. cbn. rewrite M0, M1. destruct (spin0 =? v), (spin1 =? v); reflexivity.
Qed.
Print Assumptions C56_spin_flip.

(** A two-site Hubbard model meets the hypotheses: table of the up and down
    states of two sites, hoppings of both spins and both directions, U on both sites. *)
Definition htbl_objs : list loc :=
  map LState [MkState (MkSite [NInt 0] [0]) 0 0; MkState (MkSite [NInt 0] [0]) 1 0;
              MkState (MkSite [NInt 1] [default_zoom]) 0 0; MkState (MkSite [NInt 1] [default_zoom]) 1 0].
Definition hterms : list (pycoeff -> res pterm) :=
  [HubbardFactory default_zoom [NInt 0] (NInt 0);
   HoppingFactory default_zoom [NInt 0] [NInt 1] (NInt 1) None (NInt 0) None;
   HoppingFactory default_zoom [NInt 1] [NInt 0] (NInt 1) None (NInt 0) None;
   CPFactory default_zoom [NInt 1] (NInt 0) (NInt 0)].
Example C56_example_terms : exists ts, mapM (fun f => f (CNum (gz 2))) hterms = Ok ts /\ Forall (spin_conserving default_zoom) ts.
Proof.
  eexists. split; [reflexivity|]. repeat (apply Forall_cons; [|]); try apply Forall_nil.
  - right; left. exists [NInt 0], (NInt 0), (CNum (gz 2)). reflexivity.
  - right; right; right. exists [NInt 0], [NInt 1], (NInt 1), None, (NInt 0), None, (CNum (gz 2)). split; [reflexivity|now left].
  - right; right; right. exists [NInt 1], [NInt 0], (NInt 1), None, (NInt 0), None, (CNum (gz 2)). split; [reflexivity|now left].
  - left. exists [NInt 1], (NInt 0), (NInt 0), (CNum (gz 2)). reflexivity.
Qed.
Example C56_example_particle :
  match make_state_table htbl_objs 0, mapM (fun f => f (CNum (gz 2))) hterms with
  | Ok tbl, Ok ts => match sum_terms tbl (full_bases 4) ts with Ok H => negb (geqb (H 2%nat 8%nat) g0) | Err _ => false end
  | _, _ => false end = true.
Proof. vm_compute. reflexivity. Qed.
