(** C27: the Schwinger-fermion representation (spinsystem.py:379-397, 654-666). *)
From Coq Require Import String List ZArith NArith QArith Bool Arith Lia.
From Verif Require Import Py GQ Mat IndexTable_Model State_Model State_Spec State_Proofs MatrixRepr_Model Fock_Spec Fock_Proofs
  Particle_Model Particle_Spec Particle_Proofs2 Spin_Model Spin_Spec Spin_Proofs Spin_Proofs2 Spin_Proofs3 Spin_Proofs4 Spin_Proofs5
  Spin_Properties.
Import ListNotations.
Local Open Scope nat_scope.

(** The terms of one operator: sum over a, b of <a|S|b> c^+_a c_b, the zero
    elements left out, on the operator's site with orbit 0. *)
Theorem C27_operator_terms : forall zoom x, built_spin zoom x ->
  spin_schwinger zoom x = Ok
    (map (fun ab : bool * bool => MkTerm [MkAoc CREATION (MkState (so_site x) (if fst ab then 0 else 1)%Z 0);
                            MkAoc ANNIHILATION (MkState (so_site x) (if snd ab then 0 else 1)%Z 0)]
                           (half_elem (so_otype x) (fst ab) (snd ab)) Tgeneral)
         (filter (fun ab : bool * bool => negb (geqb (half_elem (so_otype x) (fst ab) (snd ab)) g0))
                 [(false, false); (false, true); (true, false); (true, true)])).
Proof. exact spin_schwinger_ok. Qed.
Print Assumptions C27_operator_terms.

(** The interaction, on any basis on which its terms have matrices: between the
    kets with one fermion per site the sum of the terms' matrices is the spin
    matrix times the signs of the two kets' site orderings; from such a ket to
    any other ket the sum is zero. *)
Theorem C27_interaction : forall sites stbl fobjs start ftbl idx zoom t terms S bs ms,
  make_state_table sites 0 = Ok stbl -> make_state_table fobjs start = Ok ftbl ->
  fermion_index sites ftbl idx ->
  Forall (built_spin zoom) (i_ops t) -> spin_known stbl (SInter t) ->
  inter_schwinger zoom t = Ok terms -> fst (inter_matrix_repr stbl t None) = Ok S ->
  sorted_bases bs -> Forall2 (matrix_of ftbl bs) terms ms ->
  let n := length sites in
  forall i j c, nth_error bs j = Some (spin_ket idx n c) -> c < 2 ^ n ->
  (forall r, r < 2 ^ n -> nth_error bs i = Some (spin_ket idx n r) ->
     lsum (fun m : mat => m i j) ms = gmul (gmul (ket_sign idx n r) (ket_sign idx n c)) (s_ent S r c)) /\
  (forall bra, nth_error bs i = Some bra -> (forall r, r < 2 ^ n -> bra <> spin_ket idx n r) ->
     lsum (fun m : mat => m i j) ms = g0).
Proof. intros. eapply schwinger_inter; eassumption. Qed.
Print Assumptions C27_interaction.
(** The same for a single operator. *)
Theorem C27_operator : forall sites stbl fobjs start ftbl idx zoom x terms S bs ms,
  make_state_table sites 0 = Ok stbl -> make_state_table fobjs start = Ok ftbl ->
  fermion_index sites ftbl idx -> built_spin zoom x ->
  spin_schwinger zoom x = Ok terms -> spin_matrix_repr stbl x = Ok S ->
  sorted_bases bs -> Forall2 (matrix_of ftbl bs) (map OTerm terms) ms ->
  let n := length sites in
  forall i j c, nth_error bs j = Some (spin_ket idx n c) -> c < 2 ^ n ->
  (forall r, r < 2 ^ n -> nth_error bs i = Some (spin_ket idx n r) ->
     lsum (fun m : mat => m i j) ms = gmul (gmul (ket_sign idx n r) (ket_sign idx n c)) (s_ent S r c)) /\
  (forall bra, nth_error bs i = Some bra -> (forall r, r < 2 ^ n -> bra <> spin_ket idx n r) ->
     lsum (fun m : mat => m i j) ms = g0).
Proof.
  intros sites stbl fobjs start ftbl idx zoom x terms S bs ms Hs Hf Hi Hb E ES Hbs F n i j c Hj Hc.
  assert (Kn : known stbl x).
  { unfold spin_matrix_repr in ES. destruct (site_index stbl (so_site x)) as [k|] eqn:K; [|discriminate]. eexists; exact K. }
  assert (KI : Forall (known stbl) (i_ops (MkInter [x] g1))) by (repeat constructor; exact Kn).
  destruct (inter_repr_ok sites stbl Hs (MkInter [x] g1) KI) as (S1 & ES1 & _ & _ & M1).
  destruct (spin_repr_ok sites stbl Hs x Kn) as (S0 & ES0 & _ & _ & M0). assert (S0 = S) by congruence. subst S0.
  destruct (schwinger_inter sites fobjs stbl ftbl start idx Hs Hf Hi zoom (MkInter [x] g1) (map OTerm terms) bs ms S1
    ltac:(repeat constructor; exact Hb) KI (spin_as_inter zoom x terms Hb E) ES1 Hbs F i j c Hj Hc) as [A B].
  split; [|exact B]. intros r Hr Hir. rewrite (A r Hr Hir). f_equal. rewrite (M1 r c Hr Hc), (M0 r c Hr Hc).
  unfold mscale. cbn [i_coeff i_ops pairs_of map]. rewrite spin_word_cons. cbn [fst snd].
  rewrite (mmul_1r (2 ^ length sites) _ r c Hr Hc). ring.
Qed.
Print Assumptions C27_operator.
(** If the fermion table lists the two states of each site before those of the
    next site there is no sign: the matrices are equal. *)
Theorem C27_site_ordered_table : forall idx n r,
  (forall k k' a a', k < k' -> k' < n -> idx k a < idx k' a') -> ket_sign idx n r = g1.
Proof. intros idx n r H. exact (ordered_sign n idx r H). Qed.
Print Assumptions C27_site_ordered_table.
(** On the full Fock space of m <= 64 states every term has a matrix. *)
Theorem C27_full_space : forall sites stbl fobjs start ftbl idx zoom t terms m,
  make_state_table sites 0 = Ok stbl -> make_state_table fobjs start = Ok ftbl ->
  fermion_index sites ftbl idx ->
  (0 <= start)%Z -> (start + Z.of_nat (length fobjs) <= Z.of_nat m)%Z -> m <= 64 ->
  Forall (built_spin zoom) (i_ops t) -> spin_known stbl (SInter t) -> inter_schwinger zoom t = Ok terms ->
  exists ms, Forall2 (matrix_of ftbl (full_bases m)) terms ms.
Proof. intros. eapply schwinger_exists; eassumption. Qed.
Print Assumptions C27_full_space.

(** Two sites; the fermion table sorted by state, and the table listing all
    up states first. *)
Definition sites2 : list loc := [LSite (sid 0); LSite (sid 1)].
Definition stbl2 : state_table := match make_state_table sites2 0 with Ok t => t | Err _ => MkTable [] [] CSite 0 end.
Definition fst_ (x spin : Z) : loc := LState (MkState (sid x) spin 0).
Definition ftbl_sites : state_table :=
  match make_state_table [fst_ 0 0; fst_ 0 1; fst_ 1 0; fst_ 1 1] 0 with Ok t => t | Err _ => MkTable [] [] CState 0 end.
Definition ftbl_spins : state_table :=
  match make_state_table [fst_ 0 1; fst_ 1 1; fst_ 0 0; fst_ 1 0] 0 with Ok t => t | Err _ => MkTable [] [] CState 0 end.
Definition idx_sites (k : nat) (down : bool) : nat := if down then 2 * k else 2 * k + 1.
Definition idx_spins (k : nat) (down : bool) : nat := if down then 2 + k else k.
Example C27_tables :
  make_state_table sites2 0 = Ok stbl2 /\
  make_state_table [fst_ 0 0; fst_ 0 1; fst_ 1 0; fst_ 1 1] 0 = Ok ftbl_sites /\ fermion_index sites2 ftbl_sites idx_sites /\
  make_state_table [fst_ 0 1; fst_ 1 1; fst_ 0 0; fst_ 1 0] 0 = Ok ftbl_spins /\ fermion_index sites2 ftbl_spins idx_spins.
Proof.
  split; [vm_compute; reflexivity|]. split; [vm_compute; reflexivity|]. split; [|split; [vm_compute; reflexivity|]];
    intros [|[|k]] Hk; cbn in Hk; try lia; eexists; (split; [reflexivity|]); intros []; vm_compute; reflexivity.
Qed.
(** Without the sign the claim is false: with all up states first, the
    Schwinger terms of S+_0 S-_1 have the element -1 between the kets of
    |up down> and |down up>, where the spin matrix has +1. *)
Theorem C27_sign_needed :
  let t := MkInter [sop SP 0; sop SM 1] g1 in
  exists term m S, inter_schwinger default_zoom t = Ok [OTerm term] /\
    fst (pterm_matrix_repr ftbl_spins term (full_bases 4) None None) = Ok m /\
    fst (inter_matrix_repr stbl2 t None) = Ok S /\
    nth_error (full_bases 4) 9 = Some (spin_ket idx_spins 2 2) /\ nth_error (full_bases 4) 6 = Some (spin_ket idx_spins 2 1) /\
    entry m 9 6 = gopp g1 /\ s_ent S 2 1 = g1.
Proof.
  cbv zeta. set (t := MkInter [sop SP 0; sop SM 1] g1).
  assert (C : match inter_schwinger default_zoom t with
    | Ok [OTerm term] =>
        match fst (pterm_matrix_repr ftbl_spins term (full_bases 4) None None), fst (inter_matrix_repr stbl2 t None) with
        | Ok m, Ok sm => geqb (entry m 9 6) (gopp g1) && geqb (s_ent sm 2 1) g1 | _, _ => false end
    | _ => false end = true) by (vm_compute; reflexivity).
  destruct (inter_schwinger default_zoom t) as [[|[|n|term| |] [|]]|]; try discriminate.
  destruct (fst (pterm_matrix_repr ftbl_spins term (full_bases 4) None None)) as [m|] eqn:Em; [|discriminate].
  destruct (fst (inter_matrix_repr stbl2 t None)) as [sm|] eqn:ES; [|discriminate].
  apply andb_true_iff in C as [C1 C2]. exists term, m, sm.
  destruct (geqb_spec (entry m 9 6) (gopp g1)); [|discriminate]. destruct (geqb_spec (s_ent sm 2 1) g1); [|discriminate].
  repeat split; auto.
Qed.
Print Assumptions C27_sign_needed.
Example C27_no_sign : forall r, ket_sign idx_sites 2 r = g1.
Proof. intros r. apply C27_site_ordered_table. intros k k' [] []; unfold idx_sites; lia. Qed.
