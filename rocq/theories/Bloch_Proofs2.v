(** The cluster as a piece of the lattice: its hopping matrix maps the plane waves of
    the cell among each other. *)
From Coq Require Import Reals List Bool Arith ZArith Lia Lra Permutation.
From Coquelicot Require Import Complex.
From Verif Require Import Py CVec LinSolve Lattice_Model Lattice_Spec Lattice_Proofs LatticeGen_Model LatticeGen_Spec LatticeGen_Proofs LatticeBonds_Spec
  Free_Spec CPT_Model CPT_Spec CPT_Proofs CPT_Proofs2 CPT_Proofs3 CPT_Proofs6 Bloch_Spec Bloch_Proofs.
Import ListNotations.
Local Open Scope nat_scope.
Local Open Scope C_scope.

Definition zsub (a b : list Z) : list Z := map (fun p => (fst p - snd p)%Z) (combine a b).
Definition zplus (a b : list Z) : list Z := map (fun p => (fst p + snd p)%Z) (combine a b).
Lemma zsub_length a b : length a = length b -> length (zsub a b) = length a.
Proof. intros E. unfold zsub. rewrite map_length, combine_length, E. lia. Qed.
Lemma zplus_length a b : length a = length b -> length (zplus a b) = length a.
Proof. intros E. unfold zplus. rewrite map_length, combine_length, E. lia. Qed.
Lemma zsub_plus a b : length a = length b -> zsub (zplus a b) a = b.
Proof. revert b. induction a as [|x a IH]; intros [|y b] E; try discriminate; [reflexivity|]. unfold zsub, zplus in *. cbn. rewrite IH by (now injection E). f_equal. lia. Qed.
Lemma zplus_sub a b : length a = length b -> zplus b (zsub a b) = a.
Proof. revert b. induction a as [|x a IH]; intros [|y b] E; try discriminate; [reflexivity|]. unfold zsub, zplus in *. cbn. rewrite IH by (now injection E). f_equal. lia. Qed.
Lemma zsub_inj a b c : length a = length c -> length b = length c -> zsub a c = zsub b c -> a = b.
Proof. intros Ea Eb E. rewrite <- (zplus_sub a c Ea), <- (zplus_sub b c Eb). now rewrite E. Qed.
Lemma zsub_self a : zsub a a = repeat 0%Z (length a).
Proof. induction a as [|x a IH]; [reflexivity|]. unfold zsub in *. cbn. rewrite IH. f_equal. lia. Qed.
Lemma muladd_still nums : forall ns, length ns = length nums -> muladd nums ns (repeat 0%Z (length nums)) = ns.
Proof. induction nums as [|n nums IH]; intros [|x ns] E; try discriminate; [reflexivity|]. cbn. rewrite IH by (now injection E). f_equal. lia. Qed.

Section Cells.
  Variables (c : cell) (g : gridded c) (nums : list Z) (L : lattice).
  Hypothesis Hnums : Forall (fun n => (1 <= n)%Z) nums.
  Hypothesis Hlen : length nums = length (cvectors c).
  Hypothesis Lp : points L = cluster c nums.
  Hypothesis Lv : vectors L = scale_rows nums (cvectors c).
  Let num := length (points L).
  Let nc := length (cpoints c).
  Definition ty (i : nat) : nat := (i mod nc)%nat.
  Definition cellnum (i : nat) : list Z := nth (i / nc)%nat (mesh nums) [].

  Lemma vectors_length : length (vectors L) = length nums.
  Proof. rewrite Lv, scale_rows_length; congruence. Qed.
  Lemma placed i : (i < num)%nat -> (ty i < nc)%nat /\ box nums (cellnum i) /\ nth i (points L) v0 = site c (ty i) (cellnum i) /\
    i = (Z.to_nat (position nums (cellnum i)) * nc + ty i)%nat.
  Proof.
    intros Hi. unfold num in Hi. rewrite Lp in Hi. destruct (cluster_site c nums i Hnums Hi) as (ns & j & Hb & Hj & Ei & E). fold nc in Hj, Ei.
    assert (N0 : nc <> 0%nat) by lia.
    assert (E1 : ty i = j) by (unfold ty; rewrite Ei, Nat.add_comm, Nat.mod_add by exact N0; now apply Nat.mod_small).
    assert (E2 : (i / nc)%nat = Z.to_nat (position nums ns)) by (rewrite Ei, Nat.div_add_l by exact N0; rewrite Nat.div_small by exact Hj; lia).
    assert (E3 : cellnum i = ns) by (unfold cellnum; rewrite E2; now apply nth_mesh).
    rewrite E1, E3. repeat split; auto. rewrite Lp. exact E.
  Qed.
  Lemma at_place ns b : box nums ns -> (b < nc)%nat -> let i := (Z.to_nat (position nums ns) * nc + b)%nat in (i < num)%nat /\ ty i = b /\ cellnum i = ns.
  Proof.
    intros Hb Hj i. assert (N0 : nc <> 0%nat) by lia. split; [|split].
    - unfold num. rewrite Lp, cluster_length by exact Hnums. fold nc. unfold i. pose proof (position_range _ _ Hb). assert (Z.to_nat (position nums ns) < Z.to_nat (count nums))%nat by lia. nia.
    - unfold ty, i. rewrite Nat.add_comm, Nat.mod_add by exact N0. now apply Nat.mod_small.
    - unfold cellnum, i. rewrite Nat.div_add_l by exact N0. rewrite Nat.div_small, Nat.add_0_r by exact Hj. now apply nth_mesh.
  Qed.
  Lemma placed_length i : (i < num)%nat -> length (cellnum i) = length nums.
  Proof. intros Hi. destruct (placed i Hi) as (_ & Hb & _). now apply box_length. Qed.

  (** relative coordinates of the end of a link *)
  Definition rel (r : nat) (l : link) : nat * list Z := (ty (to l), zsub (muladd nums (cellnum (to l)) (by_ l)) (cellnum r)).
  Lemma link_end l : valid L l -> tail L l = site c (ty (to l)) (muladd nums (cellnum (to l)) (by_ l)) /\ length (muladd nums (cellnum (to l)) (by_ l)) = length nums.
  Proof.
    intros (_ & V2 & V3). rewrite vectors_length in V3. pose proof (placed_length _ V2) as Ln. destruct (placed _ V2) as (_ & _ & E & _).
    split; [|now apply muladd_length]. unfold tail. rewrite E, Lv. unfold site. rewrite shift_muladd by congruence.
    generalize (shift (cellnum (to l)) (cvectors c)), (shift (by_ l) (scale_rows nums (cvectors c))), (nth (ty (to l)) (cpoints c) v0). clear. vring.
  Qed.
  Lemma site_rel a ns b ms : length ns = length (cvectors c) -> length ms = length (cvectors c) -> dist (site c a ns) (site c b ms) = dist (site c a (home c)) (site c b (zsub ms ns)).
  Proof.
    intros L1 L2. unfold site, home. rewrite shift_zero. unfold zsub. rewrite <- shift_sub by congruence. unfold dist. f_equal.
    generalize (shift ns (cvectors c)), (shift ms (cvectors c)), (nth a (cpoints c) v0), (nth b (cpoints c) v0). clear. vring.
  Qed.
  Lemma len_rel r l : valid L l -> from l = r -> len L l = dist (site c (ty r) (home c)) (site c (fst (rel r l)) (snd (rel r l))).
  Proof.
    intros V <-. destruct (link_end l V) as [E El]. pose proof (proj1 V) as Hr. unfold len. rewrite E. unfold head. destruct (placed _ Hr) as (_ & _ & -> & _).
    rewrite site_rel; [reflexivity|rewrite placed_length by exact Hr; exact Hlen|congruence].
  Qed.
  Lemma rel_inj r l l' : (r < num)%nat -> valid L l -> valid L l' -> from l = r -> from l' = r -> rel r l = rel r l' -> l = l'.
  Proof.
    intros Hr V V' F F' E. pose proof (f_equal fst E) as E1. pose proof (f_equal snd E) as E2. unfold rel in E1, E2. cbn [fst snd] in E1, E2.
    destruct (link_end l V) as [_ M1]. destruct (link_end l' V') as [_ M2]. pose proof (placed_length r Hr) as M3. apply zsub_inj in E2; [|congruence|congruence].
    destruct V as (V1 & V2 & V3), V' as (V1' & V2' & V3'). rewrite vectors_length in V3, V3'.
    destruct (placed _ V2) as (_ & B & _ & P2). destruct (placed _ V2') as (_ & B' & _ & P2'). apply muladd_inj in E2 as [E2 E3]; auto.
    assert (to l = to l') by congruence. destruct l as [a b cs], l' as [a' b' cs']. cbn in *. congruence.
  Qed.
  Lemma rel_surj r b M : (r < num)%nat -> is_site c b M -> (b, M) <> (ty r, home c) -> exists l, valid L l /\ from l = r /\ (to l, by_ l) <> (r, still L) /\ rel r l = (b, M).
  Proof.
    intros Hr [Hb HM] N. pose proof (placed_length r Hr) as M3.
    destruct (muladd_split nums (zplus (cellnum r) M) Hnums) as (ns & Ms & Bx & LM & E); [rewrite zplus_length; congruence|].
    destruct (at_place ns b Bx Hb) as (Hi & E1 & E2). set (i := (Z.to_nat (position nums ns) * nc + b)%nat) in *.
    assert (ER : rel r (Link r i Ms) = (b, M)) by (unfold rel; cbn [to by_]; rewrite E1, E2, <- E, zsub_plus by congruence; reflexivity).
    exists (Link r i Ms). split; [split; [exact Hr|split; [exact Hi|cbn; rewrite vectors_length; congruence]]|]. split; [reflexivity|]. split; [|exact ER].
    cbn [to by_]. intros X. injection X as X1 X2. apply N. rewrite <- ER. unfold rel. cbn [to by_]. rewrite X1, X2. unfold still. rewrite vectors_length, muladd_still by exact M3.
    rewrite zsub_self. unfold home. congruence.
  Qed.
  Lemma rel_moved r l : (r < num)%nat -> valid L l -> from l = r -> (to l, by_ l) <> (r, still L) -> is_site c (fst (rel r l)) (snd (rel r l)) /\ rel r l <> (ty r, home c).
  Proof.
    intros Hr V F N. destruct (link_end l V) as [_ M1]. pose proof (placed_length r Hr) as M3. pose proof (proj1 (proj2 V)) as V2. split.
    - split; [now apply placed|]. cbn [rel snd]. rewrite zsub_length; congruence.
    - intros E. apply N.
      assert (V0 : valid L (Link r r (still L))) by (repeat split; auto; apply repeat_length).
      assert (E0 : rel r (Link r r (still L)) = (ty r, home c)) by (unfold rel; cbn [to by_]; unfold still; rewrite vectors_length, muladd_still, zsub_self by exact M3; unfold home; congruence).
      pose proof (rel_inj r l (Link r r (still L)) Hr V V0 F eq_refl ltac:(congruence)) as ->. reflexivity.
  Qed.

  Variables (k : point) (t : R) (P : R -> Prop) (T : list link) (h : cmat) (D : nat -> list (nat * list Z)).
  Hypothesis HT : NoDup T.
  Hypothesis HTv : forall l, In l T -> valid L l /\ crossing l /\ P (len L l) /\ ~ In (opposite l) T.
  Hypothesis HTa : forall l, valid L l -> crossing l -> P (len L l) -> In l T \/ In (opposite l) T.
  Hypothesis Hh : cluster_hopping L P t h.
  Hypothesis HD : forall a, (a < nc)%nat -> neighbours c P a (D a).
  Lemma cell_mapped b i : (b < nc)%nat -> (i < num)%nat ->
    csum num (fun j => (h i j + v_matrix k (single_terms L t T) i j) * (if Nat.eqb (ty j) b then cexp k (shift (cellnum j) (cvectors c)) else c0)) =
    bloch_matrix c t D k (ty i) b * cexp k (shift (cellnum i) (cvectors c)).
  Proof.
    intros Hb Hi. destruct (row L k t P T h HT HTv HTa Hh i Hi) as (OL & NO & IO & ->).
    destruct (placed i Hi) as (Hti & _). destruct (HD (ty i) Hti) as [ND ID].
    assert (PM : Permutation (map (rel i) OL) (D (ty i))).
    { apply NoDup_Permutation; [|exact ND|].
      - assert (X : forall l, (forall x, In x l -> In x OL) -> NoDup l -> NoDup (map (rel i) l)).
        { induction l as [|x l IH]; intros HI N; [constructor|]. inversion N; subst. cbn. constructor; [|apply IH; [intros; apply HI; now right|assumption]].
          intros Y. apply in_map_iff in Y as (y & E & Hy). pose proof (proj1 (IO x) (HI x (or_introl eq_refl))) as (Vx & Fx & _). pose proof (proj1 (IO y) (HI y (or_intror Hy))) as (Vy & Fy & _).
          apply rel_inj in E; auto. congruence. }
        apply X; auto.
      - intros [b' M]. rewrite in_map_iff, ID. split.
        + intros (l & E & Hl). apply IO in Hl as (V & F & N & HP). destruct (rel_moved i l Hi V F N) as [S1 S2]. rewrite (len_rel i l V F) in HP. rewrite E in *. cbn [fst snd] in *. auto.
        + intros (S & N & HP). destruct (rel_surj i b' M Hi S N) as (l & V & F & N' & E). exists l. split; [exact E|]. apply IO. repeat (split; [assumption|]). rewrite (len_rel i l V F), E. exact HP. }
    unfold bloch_matrix. rewrite <- lcsum_total, lcsum_filter. rewrite <- (lcsum_perm _ _ _ PM), lcsum_map.
    transitivity (RtoC t * (cexp k (shift (cellnum i) (cvectors c)) * lcsum (fun l => if Nat.eqb (fst (rel i l)) b then plane k (shift (snd (rel i l)) (cvectors c)) else c0) OL)); [|ring].
    f_equal. rewrite <- lcsum_mul_l. apply lcsum_ext. intros l Hl. apply IO in Hl as (V & F & _). cbn [rel fst snd]. destruct (Nat.eqb (ty (to l)) b); [|unfold c0; ring].
    destruct (link_end l V) as [_ M1]. pose proof (placed_length i Hi) as M3. pose proof (placed_length _ (proj1 (proj2 V))) as M4. pose proof (proj2 (proj2 V)) as M5. rewrite vectors_length in M5.
    change plane with cexp. unfold zsub. rewrite <- shift_sub by congruence. rewrite <- !cexp_add. f_equal. rewrite shift_muladd, <- Lv by congruence.
    generalize (shift (cellnum i) (cvectors c)), (shift (by_ l) (vectors L)), (shift (cellnum (to l)) (cvectors c)). clear. vring.
  Qed.
  (** every kind of point occurs once in every cell *)
  Lemma cell_count b : (b < nc)%nat -> csum num (fun i => if Nat.eqb (ty i) b then c1 else c0) = RtoC (INR (Z.to_nat (count nums))).
  Proof.
    intros Hb. unfold num. rewrite Lp, cluster_length by exact Hnums. fold nc. generalize (Z.to_nat (count nums)) as q. assert (N0 : nc <> 0%nat) by lia.
    induction q as [|q IH]; [reflexivity|]. rewrite S_INR, RtoC_plus, <- IH. replace (S q * nc)%nat with (q * nc + nc)%nat by lia. rewrite csum_block. f_equal.
    rewrite (csum_single nc _ b Hb).
    - unfold ty. rewrite Nat.add_comm, Nat.mod_add, Nat.mod_small, Nat.eqb_refl by assumption. reflexivity.
    - intros i Hi N. unfold ty. rewrite Nat.add_comm, Nat.mod_add, Nat.mod_small by assumption. destruct (Nat.eqb_spec i b); [contradiction|reflexivity].
  Qed.
End Cells.
