(** Proofs for C61, part 4: the bonds of a chain cluster are those of a ring. *)
From Coq Require Import Reals String List ZArith Bool Arith Lia Lra Permutation.
From Verif Require Import Py GQ Mat Spin_Model Spin_Spec Spin_Proofs
  Lattice_Model Lattice_Spec Lattice_Proofs LatticeGen_Model LatticeGen_Spec LatticeGen_Proofs LatticeGen_Properties
  LatticeBonds_Spec Free_Spec Heisenberg_Spec Heisenberg_Proofs2 Heisenberg_Proofs3.
Import ListNotations.
Local Open Scope nat_scope.

Lemma chain_points n i : (i < n)%nat -> nth i (cluster chain_cell (extents chain_cell (Z.of_nat n) 1 1)) v0 = (INR i, 0%R, 0%R).
Proof.
  intros Hi. assert (B : box (extents chain_cell (Z.of_nat n) 1 1) [Z.of_nat i]) by (constructor; [lia|constructor]).
  pose proof (cluster_nth chain_cell _ _ 0 B ltac:(cbn; lia)) as E. cbn [position cpoints chain_cell length extents cvectors firstn count fold_right] in E.
  replace (Z.to_nat (Z.of_nat i * 1 + 0) * 1 + 0) with i in E by lia. change (extents chain_cell (Z.of_nat n) 1 1) with [Z.of_nat n]. rewrite E. unfold site. cbn. rewrite <- INR_IZR_INZ. repeat (f_equal; try ring).
Qed.
Lemma chain_length n : (1 <= n)%nat -> length (cluster chain_cell (extents chain_cell (Z.of_nat n) 1 1)) = n.
Proof.
  intros Hn. rewrite cluster_length by (constructor; [lia|constructor]). cbn. lia.
Qed.

Section Ring.
  Variables (n : nat) (L : lattice).
  Hypothesis (Hn : (1 <= n)%nat) (Lp : points L = cluster chain_cell (extents chain_cell (Z.of_nat n) 1 1))
    (Lv : vectors L = scale_rows (extents chain_cell (Z.of_nat n) 1 1) (cvectors chain_cell)).
  Lemma ring_size : length (points L) = n.
  Proof. rewrite Lp. apply chain_length. lia. Qed.
  Lemma abs_one (z : Z) : Rabs (IZR z) = 1%R -> (z = 1 \/ z = -1)%Z.
  Proof. intros H. rewrite <- abs_IZR in H. apply eq_IZR in H. lia. Qed.
  Lemma line_dist x y : dist (x, 0, 0)%R (y, 0, 0)%R = Rabs (y - x).
  Proof. unfold dist, norm. rewrite <- sqrt_Rsqr_abs. f_equal. cbn. unfold Rsqr. ring. Qed.
  Lemma ring_intra i j : (i < n)%nat -> (j < n)%nat -> (i < j)%nat -> (dist (nth i (points L) v0) (nth j (points L) v0) = 1%R <-> j = S i).
  Proof.
    intros Hi Hj Hij. rewrite Lp, !chain_points by assumption. rewrite line_dist, !INR_IZR_INZ, <- minus_IZR. split.
    - intros H. apply abs_one in H. lia.
    - intros ->. replace (Z.of_nat (S i) - Z.of_nat i)%Z with 1%Z by lia. apply Rabs_R1.
  Qed.
  Lemma ring_link k : valid L k -> exists m, by_ k = [m] /\ len L k = Rabs (IZR (Z.of_nat (to k) + m * Z.of_nat n - Z.of_nat (from k))).
  Proof.
    intros (V1 & V2 & V3). rewrite ring_size in V1, V2. rewrite Lv in V3. destruct (by_ k) as [|m [|]] eqn:E; cbn in V3; try discriminate. exists m. split; [reflexivity|].
    unfold len, head, tail. rewrite Lp, Lv, E, !chain_points by assumption.
    match goal with |- dist _ ?t = _ => replace t with ((INR (to k) + IZR m * IZR (Z.of_nat n))%R, 0%R, 0%R) by (cbn; repeat (f_equal; try ring)) end.
    rewrite line_dist, !INR_IZR_INZ, <- mult_IZR, <- plus_IZR, <- minus_IZR. reflexivity.
  Qed.
  Definition closing : link := Link (n - 1) 0 [1%Z].
  Lemma ring_inter k : valid L k -> crossing k -> len L k = 1%R -> k = closing \/ k = opposite closing.
  Proof.
    intros V (x & Hx & Nx) E. destruct (ring_link k V) as (m & B & El). rewrite El in E. apply abs_one in E. rewrite B in Hx. destruct Hx as [<-|[]].
    destruct V as (V1 & V2 & _). rewrite ring_size in V1, V2. destruct k as [i j l]. cbn [from to by_] in *. subst l. unfold closing, opposite. cbn [from to by_ map].
    assert (M : (m = 1 \/ m = -1)%Z) by nia. destruct M as [-> | ->]; [left|right]; f_equal; lia.
  Qed.
  Lemma closing_ok : valid L closing /\ crossing closing /\ len L closing = 1%R.
  Proof.
    assert (V : valid L closing) by (repeat split; cbn; rewrite ?ring_size, ?Lv; cbn; lia). split; [exact V|]. split; [exists 1%Z; split; [now left|lia]|].
    destruct (ring_link closing V) as (m & B & ->). injection B as <-. cbn [from to closing].
    replace (Z.of_nat 0 + 1 * Z.of_nat n - Z.of_nat (n - 1))%Z with 1%Z by lia. apply Rabs_R1.
  Qed.
  Lemma ring_T T : NoDup T -> (forall k, In k T -> valid L k /\ crossing k /\ len L k = 1%R /\ ~ In (opposite k) T) ->
    (forall k, valid L k -> crossing k -> len L k = 1%R -> In k T \/ In (opposite k) T) -> T = [closing] \/ T = [opposite closing].
  Proof.
    intros ND V A. assert (OO : opposite (opposite closing) = closing) by reflexivity.
    assert (C : forall k, In k T -> k = closing \/ k = opposite closing) by (intros k Hk; destruct (V k Hk) as (A1 & A2 & A3 & _); now apply ring_inter).
    destruct closing_ok as (C1 & C2 & C3). specialize (A closing C1 C2 C3). destruct T as [|x [|y T]].
    - destruct A as [[]|[]].
    - destruct (C x (or_introl eq_refl)) as [-> | ->]; auto.
    - exfalso. destruct (V x (or_introl eq_refl)) as (_ & _ & _ & N). inversion ND as [|? ? N' _]; subst.
      destruct (C x (or_introl eq_refl)) as [-> | ->], (C y (or_intror (or_introl eq_refl))) as [-> | ->]; first [apply N'; now left|apply N; right; left; reflexivity].
  Qed.
  Lemma ring_I I : NoDup I -> (forall i j, In (i, j) I <-> (i < j < length (points L))%nat /\ dist (nth i (points L) v0) (nth j (points L) v0) = 1%R) ->
    Permutation I (map (fun i => (i, S i)) (seq 0 (n - 1))).
  Proof.
    intros ND H. apply NoDup_Permutation; [exact ND| |].
    - apply FinFun.Injective_map_NoDup; [intros a b E; now injection E|apply seq_NoDup].
    - intros [i j]. rewrite H, ring_size. split.
      + intros [[A B] D]. apply ring_intra in D; [|lia..]. subst j. apply in_map_iff. exists i. split; [reflexivity|]. apply in_seq. lia.
      + intros X. apply in_map_iff in X as (a & E & X). injection E as <- <-. apply in_seq in X. split; [lia|]. apply ring_intra; lia.
  Qed.
  Lemma ring_sum I T J : Permutation I (map (fun i => (i, S i)) (seq 0 (n - 1))) -> T = [closing] \/ T = [opposite closing] ->
    meq (2 ^ n) (2 ^ n) (exchange n J (I ++ map ends T)) (ring_exchange n J).
  Proof.
    intros PI HT r c Hr Hc. rewrite (exchange_perm n J _ _ r c (Permutation_app_tail _ PI)). unfold exchange, ring_exchange. f_equal. rewrite lsum_app, lsum_map.
    unfold bigsum. replace (seq 0 n) with (seq 0 (n - 1) ++ seq (0 + (n - 1)) 1)%list by (rewrite <- seq_app; f_equal; lia). rewrite lsum_app. f_equal.
    - apply lsum_ext. intros i Hi. apply in_seq in Hi. cbn [fst snd]. unfold next. rewrite Nat.mod_small by lia. reflexivity.
    - cbn [seq lsum]. replace (0 + (n - 1)) with (n - 1) by lia. replace (next n (n - 1)) with 0 by (unfold next; replace (S (n - 1)) with n by lia; now rewrite Nat.mod_same by lia).
      destruct HT as [-> | ->]; cbn [map lsum ends closing opposite from to fst snd]; [reflexivity|]. f_equal. apply site_dot_sym; auto; lia.
  Qed.
End Ring.
