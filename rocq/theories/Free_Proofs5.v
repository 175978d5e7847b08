(** Proofs for C57: the values the solvers return. *)
From Coq Require Import Reals Qreals QArith Qcanon String List ZArith NArith Bool Arith Lia Ring.
From Coquelicot Require Import Complex.
From Verif Require Import Py GQ Mat CVec State_Model State_Spec MatrixRepr_Model Fock_Spec Fock_Proofs MatrixRepr_Proofs MatrixRepr_Proofs2
  Particle_Model Particle_Spec Particle_Proofs Particle_Proofs2 Conserve_Spec Conserve_Proofs Conserve_Proofs2
  LinSolve Lanczos_Model Lanczos_Spec GF_Model GF_Spec GF_Proofs GF_Proofs2 GF_Proofs4 GF_Proofs5
  Free_Spec Free_Proofs Free_Proofs2 Free_Proofs3 Free_Proofs4 Free_Proofs6.
Import ListNotations.
Local Open Scope nat_scope.
Local Open Scope C_scope.

Lemma aoc_inv tbl x right left m : sorted_bases (the_left right left) -> aoc_matrix_repr tbl x right left = Ok m ->
  in_table tbl (a_state x) /\ closed_on [(idx tbl (a_state x), a_otype x)] right (the_left right left) /\
  nrows m = length (the_left right left) /\ ncols m = length right /\
  forall r s, (r < length (the_left right left))%nat -> (s < length right)%nat ->
    entry m r s = word_mat g1 [(idx tbl (a_state x), a_otype x)] (the_left right left) right r s.
Proof.
  intros HL H. unfold aoc_matrix_repr in H. unfold in_table, idx. destruct (state_index tbl (a_state x)) as [i|] eqn:E; [|discriminate].
  apply general_inv in H as (_ & G & C1 & _ & N1 & N2 & M); [|exact HL]. inversion G as [|? ? G1 _]; subst. unfold good_index in G1. cbn [fst] in G1.
  split; [exists i; auto|]. split; [exact C1|]. split; [exact N1|]. split; [exact N2|]. rewrite N1, N2 in M. exact M.
Qed.
Lemma with_hc_hermitian n S : hermitian n (with_hc S).
Proof. intros i j _ _. unfold with_hc. rewrite Cj_add, Cj_Cj. ring. Qed.
Lemma hopping_hermitian n ts st : hermitian n (hopping ts st).
Proof. intros i j _ _. unfold hopping. rewrite Cj_add, Cj_Cj. ring. Qed.

Section Solve.
  Context {K : Type} (keqb : K -> K -> bool) (dagger : K -> K) (op : K -> aoc).
  Variables (objs : list loc) (start : Z) (tbl : state_table) (zoom : Z) (ts : list pterm) (d : nat) (st : nat -> stateid) (An Cr : nat -> K).
  Variables (basis : list N) (lp lh : option (list N)) (gs : vec) (GE : R) (HP HH : cmat) (esp esh : list (K * vec)) (omega eta : R).
  Hypothesis Ht : make_state_table objs start = Ok tbl.
  Hypothesis OB : Forall (one_body zoom) ts.
  Hypothesis CS : closed_states tbl ts d st.
  Hypothesis LK : ladder_keys dagger op d st An Cr.
  Hypothesis ES : eigenstate zoom tbl ts basis gs GE.
  Hypothesis HHP : hamiltonian tbl ts (the_left basis lp) HP.
  Hypothesis HHH : hamiltonian tbl ts (the_left basis lh) HH.
  Hypothesis XP : holds_excited keqb op tbl basis lp gs esp d Cr.
  Hypothesis XH : holds_excited keqb op tbl basis lh gs esh d An.
  Hypothesis eta0 : eta <> 0%R.
  Let P := pairs_of tbl ts ++ flip_pairs (pairs_of tbl ts).
  Let ix k := idx tbl (st k).
  Let Lp := the_left basis lp.
  Let Lh := the_left basis lh.
  Let z := frequency omega eta.
  Let p (j : nat) : vec := mv (length basis) (cm (word_mat g1 [cr (ix j)] Lp basis)) gs.
  Let h (j : nat) : vec := mv (length basis) (cm (word_mat g1 [an (ix j)] Lh basis)) gs.

  Lemma sorted3 : sorted_bases basis /\ sorted_bases Lp /\ sorted_bases Lh.
  Proof. split; [exact (proj1 ES)|]. split; [exact (proj1 HHP)|exact (proj1 HHH)]. Qed.
  Lemma known k : (k < d)%nat -> in_table tbl (st k).
  Proof.
    intros Hk. destruct (XP k Hk) as (m & v & Em & _). destruct (LK k Hk) as (_ & EC & _). rewrite EC in Em.
    exact (proj1 (aoc_inv _ _ _ _ _ (proj1 HHP) Em)).
  Qed.
  Lemma states_p j : (j < d)%nat -> closed_on [cr (ix j)] basis Lp /\ exists v, lookup keqb (Cr j) esp = Ok v /\ veqn (length Lp) v (p j).
  Proof.
    intros Hj. destruct (XP j Hj) as (m & v & Em & Ev & V). destruct (LK j Hj) as (_ & EC & _). rewrite EC in Em.
    destruct (aoc_inv _ _ _ _ _ (proj1 HHP) Em) as (_ & C1 & N1 & N2 & M). split; [exact C1|]. exists v. split; [exact Ev|].
    intros r Hr. rewrite V by (rewrite N1; exact Hr). unfold p. apply mv_ext_mat. intros s Hs. unfold cm. f_equal. now apply M.
  Qed.
  Lemma states_h j : (j < d)%nat -> closed_on [an (ix j)] basis Lh /\ exists v, lookup keqb (An j) esh = Ok v /\ veqn (length Lh) v (h j).
  Proof.
    intros Hj. destruct (XH j Hj) as (m & v & Em & Ev & V). destruct (LK j Hj) as (EA & _). rewrite EA in Em.
    destruct (aoc_inv _ _ _ _ _ (proj1 HHH) Em) as (_ & C1 & N1 & N2 & M). split; [exact C1|]. exists v. split; [exact Ev|].
    intros r Hr. rewrite V by (rewrite N1; exact Hr). unfold h. apply mv_ext_mat. intros s Hs. unfold cm. f_equal. now apply M.
  Qed.
  Lemma terms_known t x : In t ts -> In x (t_aocs t) -> in_table tbl (a_state x).
  Proof.
    destruct ES as (HL & (S0 & E0 & _) & _). destruct (sum_quad objs start tbl zoom Ht ts basis S0 OB HL E0) as (I & _). apply I.
  Qed.
  Lemma P_closed : closed_pairs P basis.
  Proof.
    destruct ES as (HL & (S0 & E0 & _) & D & _). apply Forall_app. split.
    - exact (proj1 (proj2 (sum_quad objs start tbl zoom Ht ts basis S0 OB HL E0))).
    - exact (dagger_closed tbl zoom ts basis OB HL D).
  Qed.
  Lemma ix_inj k l : (k < d)%nat -> (l < d)%nat -> ix k = ix l -> k = l.
  Proof.
    intros Hk Hl E. apply (proj1 (proj2 CS) k l Hk Hl). apply state_eq_iff.
    rewrite <- (idx_eqb objs start tbl Ht (st k) (st l) (known k Hk) (known l Hl)). apply Nat.eqb_eq. exact E.
  Qed.
  Lemma in_ix s : in_table tbl s -> In (idx tbl s) (map ix (seq 0 d)) <-> exists k, (k < d)%nat /\ same_st s (st k).
  Proof.
    intros Hs. rewrite in_map_iff. split.
    - intros (k & E & Hk). apply in_seq in Hk. exists k. split; [lia|]. apply state_eq_iff.
      rewrite <- (idx_eqb objs start tbl Ht s (st k) Hs (known k ltac:(lia))). apply Nat.eqb_eq. symmetry. exact E.
    - intros (k & Hk & E). exists k. split; [|apply in_seq; lia]. apply state_eq_iff in E.
      rewrite <- (idx_eqb objs start tbl Ht s (st k) Hs (known k Hk)) in E. apply Nat.eqb_eq in E. symmetry. exact E.
  Qed.
  Lemma P_stay q : In q P -> In (fst (snd q)) (map ix (seq 0 d)) <-> In (snd (snd q)) (map ix (seq 0 d)).
  Proof.
    assert (A : forall t, In t ts -> In (fst (snd (pair_of tbl t))) (map ix (seq 0 d)) <-> In (snd (snd (pair_of tbl t))) (map ix (seq 0 d))).
    { intros t Hin. pose proof OB as OB'. rewrite Forall_forall in OB'. destruct (OB' t Hin) as (_ & _ & a & b & E).
      pose proof (terms_known t (MkAoc CREATION a) Hin) as Ka. pose proof (terms_known t (MkAoc ANNIHILATION b) Hin) as Kb.
      unfold pair_of. rewrite E in *. cbn [fst snd a_state] in *. rewrite (in_ix a), (in_ix b) by (apply Ka || apply Kb; cbn; auto).
      exact (proj2 (proj2 CS) t _ _ Hin E). }
    unfold P. rewrite in_app_iff. intros [H|H].
    - apply in_map_iff in H as (t & <- & Hin). now apply A.
    - apply in_map_iff in H as (q' & <- & H). apply in_map_iff in H as (t & <- & Hin). cbn [fst snd]. symmetry. now apply A.
  Qed.
  Lemma hop_total i j : (i < d)%nat -> (j < d)%nat -> gc (total P (ix i) (ix j)) = hopping ts st i j.
  Proof.
    intros Hi Hj. exact (total_hopping objs start tbl zoom Ht ts (st i) (st j) OB terms_known (known i Hi) (known j Hj)).
  Qed.
  Lemma basis_facts : (NoDup basis /\ NoDup Lp /\ NoDup Lh) /\
    veqn (length basis) (mv (length basis) (cm (quad P basis)) gs) (fun i => RtoC GE * gs i) /\
    (forall k, (k < d)%nat -> closed_on [cr (ix k)] basis Lp) /\ (forall k, (k < d)%nat -> closed_on [an (ix k)] basis Lh).
  Proof.
    destruct sorted3 as (S1 & S2 & S3). split; [repeat split; now apply sorted_NoDup|].
    pose proof ES as (_ & (S0 & E0 & V0) & _ & Nm). split.
    - intros r Hr. rewrite <- (V0 r Hr). apply mv_ext_mat. intros s Hs. symmetry. exact (with_hc_quad objs start tbl zoom Ht ts basis S0 OB S1 E0 r s Hr Hs).
    - split; intros k Hk; [exact (proj1 (states_p k Hk))|exact (proj1 (states_h k Hk))].
  Qed.
  Lemma motion_p j : (j < d)%nat ->
    veqn (length Lp) (mv (length Lp) HP (p j)) (fun r => RtoC GE * p j r + csum d (fun k => hopping ts st k j * p k r)).
  Proof.
    intros Hj r Hr. destruct sorted3 as (S1 & S2 & S3). destruct HHP as (_ & SP & EP & HPE). destruct basis_facts as ((N1 & N2 & N3) & eig & Cp & Ca).
    rewrite (mv_ext_mat _ HP (cm (quad P Lp))).
    - pose proof (vec_create P basis Lp d ix gs GE N1 N2 P_closed ix_inj P_stay eig Cp j Hj r Hr) as E. cbn beta in E. unfold p at 1. rewrite E. f_equal.
      apply csum_ext. intros k Hk. now rewrite hop_total.
    - intros s Hs. rewrite HPE. exact (with_hc_quad objs start tbl zoom Ht ts Lp SP OB S2 EP r s Hr Hs).
  Qed.
  Lemma motion_h i : (i < d)%nat ->
    veqn (length Lh) (fun r => mv (length Lh) HH (h i) r + csum d (fun k => hopping ts st i k * h k r)) (fun r => RtoC GE * h i r).
  Proof.
    intros Hi r Hr. destruct sorted3 as (S1 & S2 & S3). destruct HHH as (_ & SH & EH & HHE). destruct basis_facts as ((N1 & N2 & N3) & eig & Cp & Ca).
    rewrite (mv_ext_mat _ HH (cm (quad P Lh))).
    - pose proof (vec_annihilate P basis Lh d ix gs GE N1 N3 P_closed ix_inj P_stay eig Ca i Hi r Hr) as E. cbn beta in E. unfold h at 3. rewrite <- E. f_equal.
      apply csum_ext. intros k Hk. now rewrite hop_total.
    - intros s Hs. rewrite HHE. exact (with_hc_quad objs start tbl zoom Ht ts Lh SH OB S3 EH r s Hr Hs).
  Qed.
  Lemma free_resolvent :
    exists g1 g2 : nat -> nat -> C,
      (forall i j, (i < d)%nat -> (j < d)%nat ->
         GFSolverExactSingle keqb dagger (length Lp) GE HP esp eta omega (An i) (Cr j) "-" = Ok (g1 i j) /\
         GFSolverExactSingle keqb dagger (length Lh) GE HH esh eta omega (Cr j) (An i) "+" = Ok (g2 i j)) /\
      resolvent d (hopping ts st) z (fun i j => g1 i j + g2 i j).
  Proof.
    destruct sorted3 as (S1 & S2 & S3). 
    destruct HHP as (_ & SP & EP & HPE). destruct HHH as (_ & SH & EH & HHE).
    assert (HPh : hermitian (length Lp) HP) by (rewrite HPE; apply with_hc_hermitian).
    assert (HHh : hermitian (length Lh) HH) by (rewrite HHE; apply with_hc_hermitian).
    assert (IP : invertible "-" (length Lp) HP GE z) by (now apply hermitian_invertible).
    assert (IH : invertible "+" (length Lh) HH GE z) by (now apply hermitian_invertible).
    set (x := fun j => match solve (length Lp) (gf_matrix "-" z GE HP) (p j) with Ok v => v | Err _ => vzero end).
    set (y := fun j => match solve (length Lh) (gf_matrix "+" z GE HH) (h j) with Ok v => v | Err _ => vzero end).
    assert (X : forall j, veqn (length Lp) (shifted "-" (length Lp) HP GE z (x j)) (p j)).
    { intros j. apply nonsingular_invertible in IP. destruct (solve_nonsingular (length Lp) _ (p j) IP) as (v & Ex).
      unfold x. rewrite Ex. apply solves_shifted. exact (proj1 (solve_ok _ _ _ _ Ex)). }
    assert (Y : forall j, veqn (length Lh) (shifted "+" (length Lh) HH GE z (y j)) (h j)).
    { intros j. apply nonsingular_invertible in IH. destruct (solve_nonsingular (length Lh) _ (h j) IH) as (v & Ex).
      unfold y. rewrite Ex. apply solves_shifted. exact (proj1 (solve_ok _ _ _ _ Ex)). }
    exists (eg1 (length Lp) p x), (eg2 (length Lh) h y). split.
    - intros i j Hi Hj. destruct (LK i Hi) as (_ & _ & Di & _). destruct (LK j Hj) as (_ & _ & _ & Dj). split; apply exact_single_iff.
      + destruct (states_p j Hj) as (_ & b & Lb & Eb). destruct (states_p i Hi) as (_ & a & La & Ea). exists a, b.
        rewrite Di. split; [exact Lb|]. split; [exact La|]. split; [exact IP|].
        exists (x j). split.
        * intros r Hr. rewrite Eb by exact Hr. exact (X j r Hr).
        * apply inner_ext; intros r Hr; [now rewrite Ea|reflexivity].
      + destruct (states_h i Hi) as (_ & b & Lb & Eb). destruct (states_h j Hj) as (_ & a & La & Ea). exists a, b.
        rewrite Dj. split; [exact Lb|]. split; [exact La|]. split; [exact IH|].
        exists (y i). split.
        * intros r Hr. rewrite Eb by exact Hr. exact (Y i r Hr).
        * apply inner_ext; intros r Hr; [now rewrite Ea|reflexivity].
    - destruct basis_facts as ((N1 & N2 & N3) & eig & Cp & Ca).
      apply (eom d (length Lp) (length Lh) (hopping ts st) HP HH p h x y GE z); auto.
      + apply hopping_hermitian.
      + exact motion_p.
      + exact motion_h.
      + intros i j Hi Hj. exact (vec_overlap basis Lp Lh d ix gs N1 N2 N3 ix_inj (proj2 (proj2 (proj2 ES))) Cp Ca i j Hi Hj).
  Qed.

  (** ** Lanczos *)
  Lemma span_p k : (k < d)%nat -> in_span (length Lp) d p (mv (length Lp) HP (p k)).
  Proof.
    intros Hk. exists (fun j => (if Nat.eqb j k then RtoC GE else c0) + hopping ts st j k). intros r Hr. rewrite (motion_p k Hk r Hr).
    rewrite (csum_ext d (fun j => ((if Nat.eqb j k then RtoC GE else c0) + hopping ts st j k) * p j r) (fun j => (if Nat.eqb j k then RtoC GE else c0) * p j r + hopping ts st j k * p j r)) by (intros; ring).
    rewrite csum_add. f_equal. rewrite (csum_single d _ k Hk); [now rewrite Nat.eqb_refl|].
    intros j _ Hj. destruct (Nat.eqb_spec j k); [contradiction|]. unfold c0. ring.
  Qed.
  Lemma span_h k : (k < d)%nat -> in_span (length Lh) d h (mv (length Lh) HH (h k)).
  Proof.
    intros Hk. exists (fun j => (if Nat.eqb j k then RtoC GE else c0) - hopping ts st k j). intros r Hr.
    pose proof (motion_h k Hk r Hr) as E. cbn beta in E.
    assert (E' : mv (length Lh) HH (h k) r = RtoC GE * h k r - csum d (fun j => hopping ts st k j * h j r)) by (rewrite <- E; ring). rewrite E'.
    rewrite (csum_ext d (fun j => ((if Nat.eqb j k then RtoC GE else c0) - hopping ts st k j) * h j r) (fun j => (if Nat.eqb j k then RtoC GE else c0) * h j r - hopping ts st k j * h j r)) by (intros; ring).
    rewrite csum_sub. f_equal. rewrite (csum_single d _ k Hk); [now rewrite Nat.eqb_refl|].
    intros j _ Hj. destruct (Nat.eqb_spec j k); [contradiction|]. unfold c0. ring.
  Qed.
  Hypothesis keqb_eq : forall a b, keqb a b = true <-> a = b.
  Variables (dim : Z) (msp msh : list (K * ndarray2)) (vsp vsh : list (K * list (K * list C))).
  Hypothesis Hdim : (Z.of_nat d <= dim)%Z.
  Hypothesis NDp : NoDup (map fst esp).
  Hypothesis NDh : NoDup (map fst esh).
  Lemma lanczos_p i j g : (i < d)%nat -> (j < d)%nat -> MultiKrylov (length Lp) HP 0 esp dim = Ok (msp, vsp) ->
    GFSolverExactSingle keqb dagger (length Lp) GE HP esp eta omega (An i) (Cr j) "-" = Ok g ->
    GFSolverLanczosSingle keqb dagger GE msp vsp eta omega (An i) (Cr j) "-" = Ok g.
  Proof.
    intros Hi Hj EM EG. assert (HPh : hermitian (length Lp) HP) by (destruct HHP as (_ & SP & _ & ->); apply with_hc_hermitian).
    destruct (states_p j Hj) as (_ & b & Lb & Eb). destruct (states_p i Hi) as (_ & a & La & Ea).
    destruct (LK i Hi) as (_ & _ & Di & _).
    destruct (multi_lookup keqb keqb_eq (length Lp) HP 0 esp dim msp vsp (Cr j) b HPh (Rle_refl 0) NDp EM Lb) as (_ & m & pv & L1 & _).
    destruct (small_krylov keqb keqb_eq (length Lp) HP esp dim msp vsp (Cr j) b m d p HPh NDp Hdim EM Lb L1) as (Inv & Hpos).
    - apply (in_span_ext _ d p (p j)); [intros r Hr; symmetry; now apply Eb|]. now apply in_span_mem.
    - exact span_p.
    - destruct (lanczos_exact keqb keqb_eq dagger (length Lp) HP 0 esp dim msp vsp GE eta omega (An i) (Cr j) "-" b a m) as (g' & G1 & G2); auto.
      + apply Rle_refl.
      + lia.
      + now rewrite Di.
      + rewrite EG in G2. injection G2 as ->. exact G1.
  Qed.
  Lemma lanczos_h i j g : (i < d)%nat -> (j < d)%nat -> MultiKrylov (length Lh) HH 0 esh dim = Ok (msh, vsh) ->
    GFSolverExactSingle keqb dagger (length Lh) GE HH esh eta omega (Cr j) (An i) "+" = Ok g ->
    GFSolverLanczosSingle keqb dagger GE msh vsh eta omega (Cr j) (An i) "+" = Ok g.
  Proof.
    intros Hi Hj EM EG. assert (HHh : hermitian (length Lh) HH) by (destruct HHH as (_ & SH & _ & ->); apply with_hc_hermitian).
    destruct (states_h i Hi) as (_ & b & Lb & Eb). destruct (states_h j Hj) as (_ & a & La & Ea).
    destruct (LK j Hj) as (_ & _ & _ & Dj).
    destruct (multi_lookup keqb keqb_eq (length Lh) HH 0 esh dim msh vsh (An i) b HHh (Rle_refl 0) NDh EM Lb) as (_ & m & pv & L1 & _).
    destruct (small_krylov keqb keqb_eq (length Lh) HH esh dim msh vsh (An i) b m d h HHh NDh Hdim EM Lb L1) as (Inv & Hpos).
    - apply (in_span_ext _ d h (h i)); [intros r Hr; symmetry; now apply Eb|]. now apply in_span_mem.
    - exact span_h.
    - destruct (lanczos_exact keqb keqb_eq dagger (length Lh) HH 0 esh dim msh vsh GE eta omega (Cr j) (An i) "+" b a m) as (g' & G1 & G2); auto.
      + apply Rle_refl.
      + lia.
      + now rewrite Dj.
      + rewrite EG in G2. injection G2 as ->. exact G1.
  Qed.
End Solve.
