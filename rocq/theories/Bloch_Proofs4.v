(** The entry of the periodised Green function of independent particles. *)
From Coq Require Import Reals List Bool Arith ZArith Lia Lra Permutation.
From Coquelicot Require Import Complex.
From Verif Require Import Py CVec LinSolve MatrixRepr_Model Lattice_Model Lattice_Spec Lattice_Proofs LatticeGen_Model LatticeGen_Spec LatticeGen_Proofs LatticeBonds_Spec LatticeBonds_Proofs2
  Free_Spec Spectrum_Spec CPT_Model CPT_Spec CPT_Proofs CPT_Proofs2 CPT_Proofs3 CPT_Proofs4 CPT_Proofs6 Bloch_Spec Bloch_Proofs Bloch_Proofs2 Bloch_Proofs3.
Import ListNotations.
Local Open Scope nat_scope.
Local Open Scope C_scope.

Lemma resolvent_ext d A B z G G' : (forall i j, (i < d)%nat -> (j < d)%nat -> A i j = B i j) -> (forall i j, (i < d)%nat -> (j < d)%nat -> G i j = G' i j) -> resolvent d A z G -> resolvent d B z G'.
Proof.
  intros EA EG H i j Hi Hj. destruct (H i j Hi Hj) as [H1 H2]. split; [rewrite <- H1|rewrite <- H2]; apply csum_ext; intros; now rewrite EA, EG.
Qed.
Lemma cluster_hopping_hermitian L P t h : cluster_hopping L P t h -> hermitian (length (points L)) h.
Proof.
  intros H i j Hi Hj. destruct (H i j Hi Hj) as [A B]. destruct (H j i Hj Hi) as [A' B'].
  destruct (Classical_Prop.classic (i <> j /\ P (dist (nth i (points L) v0) (nth j (points L) v0)))) as [Q|Q].
  - rewrite (A Q), A' by (split; [now apply not_eq_sym|rewrite dist_sym; apply Q]). unfold Cj, RtoC. cbn. now rewrite Ropp_0.
  - rewrite (B Q), B'; [now rewrite Cj_0|]. intros [N Q']. apply Q. split; [now apply not_eq_sym|now rewrite dist_sym].
Qed.

Section Entry.
  Variables (c : cell) (nums : list Z) (L : lattice).
  Hypothesis Hnums : Forall (fun n => (1 <= n)%Z) nums.
  Hypothesis Hlen : length nums = length (cvectors c).
  Hypothesis Lp : points L = cluster c nums.
  Hypothesis Lv : vectors L = scale_rows nums (cvectors c).
  Let num := length (points L).
  Let nc := length (cpoints c).
  Variables (k : point) (t : R) (P : R -> Prop) (T : list link) (h : cmat) (D : nat -> list (nat * list Z)).
  Hypothesis HT : NoDup T.
  Hypothesis HTv : forall l, In l T -> valid L l /\ crossing l /\ P (len L l) /\ ~ In (opposite l) T.
  Hypothesis HTa : forall l, valid L l -> crossing l -> P (len L l) -> In l T \/ In (opposite l) T.
  Hypothesis Hh : cluster_hopping L P t h.
  Hypothesis HD : forall a, (a < nc)%nat -> neighbours c P a (D a).
  Variables (ci : nat -> nat) (Rc : nat -> point).
  Hypothesis Hci : forall i, (i < num)%nat -> ci i = ty c i /\ ci (num + i)%nat = (nc + ty c i)%nat /\ Rc i = shift (cellnum c nums i) (cvectors c) /\ Rc (num + i)%nat = shift (cellnum c nums i) (cvectors c).
  Let hb := bloch_matrix c t D k.
  Let Hk : cmat := fun i j => h i j + v_matrix k (single_terms L t T) i j.
  Let HH : cmat := add (direct_sum num h h) (v_matrix k (double_terms L t T)).
  Let cells := INR (Z.to_nat (count nums)).

  Lemma HH_direct i j : (i < num + num)%nat -> (j < num + num)%nat -> HH i j = direct_sum num Hk Hk i j.
  Proof.
    intros Hi Hj. unfold HH, add. rewrite v_matrix_double by (assumption || (intros l Hl; now apply HTv)). fold num.
    apply split_index in Hi as [Hi|(i' & Hi & ->)]; apply split_index in Hj as [Hj|(j' & Hj & ->)].
    - now rewrite !direct_ll.
    - rewrite !direct_lr by assumption. unfold c0; ring.
    - rewrite !direct_rl by assumption. unfold c0; ring.
    - now rewrite !direct_rr.
  Qed.
  Lemma ci_bound i : (i < num + num)%nat -> (ci i < nc + nc)%nat.
  Proof.
    intros Hi. apply split_index in Hi as [Hi|(i' & Hi & ->)]; destruct (Hci _ Hi) as (E1 & E2 & _); [rewrite E1|rewrite E2];
      destruct (placed c nums L Hnums Hlen Lp _ Hi) as (Ht & _); fold nc in Ht; lia.
  Qed.
  Lemma entry_mapped b i : (b < nc + nc)%nat -> (i < num + num)%nat ->
    csum (num + num) (fun j => HH i j * wave ci (fun i => cexp k (Rc i)) b j) = direct_sum nc hb hb (ci i) b * cexp k (Rc i).
  Proof.
    intros Hb Hi. rewrite (csum_ext _ _ (fun j => direct_sum num Hk Hk i j * wave ci (fun i => cexp k (Rc i)) b j)) by (intros; now rewrite HH_direct).
    rewrite csum_block. unfold wave.
    apply split_index in Hi as [Hi|(i' & Hi & ->)]; destruct (Hci _ Hi) as (E1 & E2 & E3 & E4);
      destruct (placed c nums L Hnums Hlen Lp _ Hi) as (Ht & _); fold nc in Ht; rewrite ?E1, ?E2, ?E3, ?E4.
    - rewrite (csum_zero num (fun j => direct_sum num Hk Hk i (num + j)%nat * _)) by (intros; rewrite direct_lr by exact Hi; unfold c0; ring).
      apply split_index in Hb as [Hb|(b' & Hb & ->)].
      + rewrite direct_ll by assumption. unfold hb. rewrite <- (cell_mapped c nums L Hnums Hlen Lp Lv k t P T h D HT HTv HTa Hh HD b i Hb Hi). fold num.
        rewrite (csum_ext num _ (fun j => Hk i j * (if Nat.eqb (ty c j) b then cexp k (shift (cellnum c nums j) (cvectors c)) else c0))); [unfold Hk, c0; ring|].
        intros j Hj. rewrite direct_ll by assumption. destruct (Hci j Hj) as (F1 & _ & F3 & _). now rewrite F1, F3.
      + rewrite direct_lr by assumption. rewrite csum_zero; [unfold c0; ring|]. intros j Hj. destruct (Hci j Hj) as (F1 & _ & F3 & _). rewrite F1.
        destruct (placed c nums L Hnums Hlen Lp _ Hj) as (Htj & _). fold nc in Htj. destruct (Nat.eqb_spec (ty c j) (nc + b')); [lia|unfold c0; ring].
    - rewrite (csum_zero num (fun j => direct_sum num Hk Hk (num + i')%nat j * _)) by (intros; rewrite direct_rl by assumption; unfold c0; ring).
      apply split_index in Hb as [Hb|(b' & Hb & ->)].
      + rewrite direct_rl by assumption. rewrite csum_zero; [unfold c0; ring|]. intros j Hj. destruct (Hci j Hj) as (_ & F2 & _ & F4). rewrite F2.
        destruct (Nat.eqb_spec (nc + ty c j) b); [lia|unfold c0; ring].
      + rewrite direct_rr. unfold hb. rewrite <- (cell_mapped c nums L Hnums Hlen Lp Lv k t P T h D HT HTv HTa Hh HD b' i' Hb Hi). fold num.
        rewrite (csum_ext num _ (fun j => Hk i' j * (if Nat.eqb (ty c j) b' then cexp k (shift (cellnum c nums j) (cvectors c)) else c0))); [unfold Hk, c0; ring|].
        intros j Hj. rewrite direct_rr. destruct (Hci j Hj) as (_ & F2 & _ & F4). rewrite F2, F4.
        replace (Nat.eqb (nc + ty c j) (nc + b')) with (Nat.eqb (ty c j) b'); [reflexivity|]. destruct (Nat.eqb_spec (ty c j) b'), (Nat.eqb_spec (nc + ty c j) (nc + b')); lia || reflexivity.
  Qed.
  Lemma entry_count b : (b < nc + nc)%nat -> csum (num + num) (fun i => if Nat.eqb (ci i) b then c1 else c0) = RtoC cells.
  Proof.
    intros Hb. rewrite csum_block. apply split_index in Hb as [Hb|(b' & Hb & ->)].
    - rewrite (csum_zero num (fun i => if Nat.eqb (ci (num + i)%nat) b then c1 else c0)).
      2:{ intros i Hi. destruct (Hci i Hi) as (_ & E & _). rewrite E. destruct (Nat.eqb_spec (nc + ty c i) b); [lia|reflexivity]. }
      unfold cells. rewrite <- (cell_count c nums L Hnums Hlen Lp b Hb). fold num. rewrite (csum_ext num _ (fun i => if Nat.eqb (ty c i) b then c1 else c0)); [unfold c0; ring|].
      intros i Hi. destruct (Hci i Hi) as (E & _). now rewrite E.
    - rewrite (csum_zero num (fun i => if Nat.eqb (ci i) (nc + b') then c1 else c0)).
      2:{ intros i Hi. destruct (Hci i Hi) as (E & _). rewrite E. destruct (placed c nums L Hnums Hlen Lp _ Hi) as (Ht & _). fold nc in Ht. destruct (Nat.eqb_spec (ty c i) (nc + b')); [lia|reflexivity]. }
      unfold cells. rewrite <- (cell_count c nums L Hnums Hlen Lp b' Hb). fold num. rewrite (csum_ext num _ (fun i => if Nat.eqb (ty c i) b' then c1 else c0)); [unfold c0; ring|].
      intros i Hi. destruct (Hci i Hi) as (_ & E & _). rewrite E. destruct (Nat.eqb_spec (nc + ty c i) (nc + b')), (Nat.eqb_spec (ty c i) b'); lia || reflexivity.
  Qed.
  Lemma cells_pos : (0 < cells)%R.
  Proof. unfold cells. apply lt_0_INR. pose proof (count_nonneg nums Hnums). lia. Qed.
  Lemma bloch_hermitian : hermitian nc hb.
  Proof.
    pose proof cells_pos as Cp.
    assert (E : hermitian (nc + nc) (direct_sum nc hb hb)).
    { apply (waves_hermitian (num + num) (nc + nc) HH _ ci (fun i => cexp k (Rc i)) cells).
      - intros i _. apply cexp_unit'.
      - exact entry_count.
      - exact entry_mapped.
      - lra.
      - apply hermitian_add; [|apply v_matrix_hermitian]. apply hermitian_direct; now apply (cluster_hopping_hermitian L P t). }
    intros a b Ha Hb. pose proof (E a b ltac:(lia) ltac:(lia)) as X. now rewrite !direct_ll in X.
  Qed.
  Lemma entry z X gg FTs : FTs = concat (map (fun i => map (fun j => (i, j, ci i, ci j, Lattice_Model.vsub (Rc j) (Rc i))) (seq 0 (num + num))) (seq 0 (num + num))) ->
    resolvent (num + num) HH z X -> resolvent nc hb z gg ->
    trace (nc + nc) (periodise k FTs X) / RtoC (INR num) = RtoC (2 / INR nc) * csum nc (fun a => gg a a).
  Proof.
    intros -> HX Hg. rewrite trace_periodise.
    rewrite (csum_ext (nc + nc) _ (fun b => RtoC cells * direct_sum nc gg gg b b)).
    2:{ intros b Hb. change (cell_wave k ci Rc b) with (wave ci (fun i => cexp k (Rc i)) b).
        apply (waves_resolvent (num + num) (nc + nc) HH (direct_sum nc hb hb) ci (fun i => cexp k (Rc i)) cells ci_bound) with (z := z).
        - intros i _. apply cexp_unit'.
        - exact entry_count.
        - exact entry_mapped.
        - exact Hb.
        - exact HX.
        - now apply resolvent_direct. }
    rewrite csum_mul_l, csum_block.
    rewrite (csum_ext nc _ (fun a => gg a a)) by (intros; now rewrite direct_ll). rewrite (csum_ext nc (fun i => direct_sum nc gg gg (nc + i)%nat (nc + i)%nat) (fun a => gg a a)) by (intros; now rewrite direct_rr).
    destruct (Nat.eq_dec nc 0) as [E0|N0]; [rewrite E0|].
    - cbn [csum]. unfold c0, Cdiv. ring.
    - assert (En : INR num = (cells * INR nc)%R) by (unfold num, cells; rewrite Lp, cluster_length by exact Hnums; now rewrite mult_INR).
      pose proof cells_pos as Cp. assert (Np : (0 < INR nc)%R) by (apply lt_0_INR; lia). rewrite En.
      assert (X1 : RtoC cells <> c0) by (intros E; apply RtoC_inj in E; lra). assert (X2 : RtoC (INR nc) <> c0) by (intros E; apply RtoC_inj in E; lra).
      rewrite RtoC_mult, RtoC_div by lra. generalize (csum nc (fun a => gg a a)). intros y. replace (RtoC 2) with (RtoC 1 + RtoC 1) by (rewrite <- RtoC_plus; f_equal; lra). field. split; assumption.
  Qed.
End Entry.
