(** C43, C44: the Lanczos projection. *)
From Coq Require Import Reals List ZArith Bool Arith Lia Lra.
From Coquelicot Require Import Complex.
From Verif Require Import Py CVec Lanczos_Model Lanczos_Spec Lanczos_Proofs Lanczos_Proofs2.
Import ListNotations.
Local Open Scope nat_scope.
Local Open Scope C_scope.

(** KrylovRepresentation raises ValueError for a starting vector at or below the threshold. *)
Theorem C43_zero_vector : forall (K : Type) n M thr (vectors : list (K * vec)) v0 dim,
  (norm n v0 <= thr)%R -> KrylovRepresentation n M thr vectors v0 dim = Err ValueError.
Proof. intros K. exact krylov_err. Qed.
Print Assumptions C43_zero_vector.

(** Otherwise, for a Hermitian matrix, there are d <= krylov_space_dim vectors
    b_0 ... b_(d-1): orthonormal, b_0 = v0/|v0|, b_k in span(v0, M v0 ... M^k v0)
    and conversely; the returned matrix has entries <b_i|M|b_j> and is real,
    symmetric, tridiagonal with off-diagonal elements above the threshold; the
    returned vectors are the coordinates <b_i|v>, under the same keys in the same
    order; the recursion goes on while |M b_k - (components along b_0..b_k)| is
    above the threshold and stops when krylov_space_dim vectors are there or
    this norm is at most the threshold. *)
Theorem C43_krylov_representation : forall (K : Type) n M thr (vectors : list (K * vec)) v0 dim,
  hermitian n M -> (0 <= thr)%R -> (thr < norm n v0)%R ->
  exists m pv d b,
    KrylovRepresentation n M thr vectors v0 dim = Ok (m, pv) /\
    (d <= Z.to_nat dim)%nat /\ (d <= n)%nat /\ ((0 < dim)%Z -> (0 < d)%nat) /\
    veqn n (b O) (fun i => v0 i / RtoC (norm n v0)) /\
    orthonormal n d b /\
    represents_matrix n M d b m /\
    (length pv = length vectors /\
     forall pos key v, nth_error vectors pos = Some (key, v) ->
       exists l, nth_error pv pos = Some (key, l) /\ coordinates n d b v l) /\
    (forall i j, (i < d)%nat -> (j < d)%nat ->
       nd_el m i j = nd_el m j i /\ ((S i < j)%nat -> nd_el m i j = 0%R) /\ (S i = j -> (thr < nd_el m i j)%R)) /\
    (forall k, (k < d)%nat ->
       in_span n (S k) (fun j => power n M j v0) (b k) /\ in_span n (S k) b (power n M k v0)) /\
    (forall k, (S k < d)%nat -> (thr < norm n (residual n M (S k) b (b k)))%R) /\
    (d = Z.to_nat dim \/ exists d', d = S d' /\ (norm n (residual n M d b (b d')) <= thr)%R).
Proof.
  intros K n M thr vectors v0 dim HM Ht Hv.
  destruct (krylov_ok n M thr vectors v0 dim HM Ht Hv) as (m & pv & d & b & H1 & H2 & H3 & H4 & H5 & H6 & H7 & H8 & H9 & H10 & H11 & _).
  exists m, pv, d, b. pose proof (orthonormal_bound n d b H5).
  split; [exact H1|]. split; [exact H2|]. split; [assumption|]. split; [exact H3|]. split; [exact H4|]. split; [exact H5|].
  split; [exact H6|]. split; [exact H7|]. split; [exact H8|]. split; [exact H9|]. split; [exact H10|]. exact H11.
Qed.
Print Assumptions C43_krylov_representation.

(** With the threshold the module starts with, exactly the vectors of norm at most 0.0001 are rejected. *)
Theorem C43_default_threshold : forall (K : Type) n M (vectors : list (K * vec)) v0 dim, hermitian n M ->
  (KrylovRepresentation n M default_threshold vectors v0 dim = Err ValueError <-> (norm n v0 * 10000 <= 1)%R).
Proof.
  intros K n M vectors v0 dim HM. unfold default_threshold. split.
  - intros E. destruct (Rle_dec (norm n v0 * 10000) 1) as [|N]; [assumption|]. exfalso.
    destruct (krylov_ok n M (1 / 10000) vectors v0 dim HM) as (m & pv & d & b & H1 & _); [lra|lra|]. rewrite H1 in E. discriminate.
  - intros L. apply krylov_err. lra.
Qed.
Print Assumptions C43_default_threshold.

(** set_threshold accepts exactly the non-negative floats. *)
Theorem C43_set_threshold : forall t,
  ((0 <= t)%R -> set_threshold t = Ok t) /\ ((t < 0)%R -> set_threshold t = Err AssertionError).
Proof. intros t. unfold set_threshold. destruct (Rle_dec 0 t); split; intros; try reflexivity; lra. Qed.
Print Assumptions C43_set_threshold.

(** MultiKrylov: under every key, in order, what KrylovRepresentation returns for
    that key's vector with the whole dictionary. *)
Theorem C44_per_key : forall (K : Type) n M thr (vectors : list (K * vec)) dim,
  hermitian n M -> (0 <= thr)%R -> (forall p, In p vectors -> (thr < norm n (snd p))%R) ->
  exists ms vs, MultiKrylov n M thr vectors dim = Ok (ms, vs) /\
    length ms = length vectors /\ length vs = length vectors /\
    forall pos key v0, nth_error vectors pos = Some (key, v0) -> exists m v,
      nth_error ms pos = Some (key, m) /\ nth_error vs pos = Some (key, v) /\
      KrylovRepresentation n M thr vectors v0 dim = Ok (m, v).
Proof.
  intros K n M thr vectors dim HM Ht Hp. destruct (multi_fold n M thr vectors vectors dim [] [] Hp HM Ht) as (ms & vs & E & H).
  exists ms, vs. split; [exact E|exact H].
Qed.
Print Assumptions C44_per_key.
(** Any vector at or below the threshold makes it raise ValueError. *)
Theorem C44_zero_vector : forall (K : Type) n M thr (vectors : list (K * vec)) dim p,
  hermitian n M -> (0 <= thr)%R -> In p vectors -> (norm n (snd p) <= thr)%R ->
  MultiKrylov n M thr vectors dim = Err ValueError.
Proof. intros K n M thr vectors dim p HM Ht Hin Hp. exact (multi_fold_bad n M thr vectors vectors dim [] [] p Hin Hp HM Ht). Qed.
Print Assumptions C44_zero_vector.

(** Non-vacuity: M = [[1,i],[-i,2]] is Hermitian, v0 = (1,0) passes the default threshold. *)
Definition ex_M : cmat := fun i j => match i, j with
  | O, O => c1 | O, S O => Ci | S O, O => - Ci | _, _ => RtoC 2 end.
Definition ex_v : vec := fun i => match i with O => c1 | _ => c0 end.
Example C43_ex : hermitian 2 ex_M /\ (0 <= default_threshold)%R /\ (default_threshold < norm 2 ex_v)%R.
Proof.
  split; [|split].
  - intros i j Hi Hj. destruct i as [|[|]], j as [|[|]]; try lia; cbn; unfold Cj, Cconj, Ci, Copp, c1, RtoC; cbn; f_equal; ring.
  - unfold default_threshold. lra.
  - unfold default_threshold, norm, norm2. cbn. replace (_ + _ + _)%R with 1%R by ring. rewrite sqrt_1. lra.
Qed.
(** On this example with krylov_space_dim = 1: the 1x1 matrix [[1]] and the coordinate [1]. *)
Example C43_ex_run : exists m pv,
  KrylovRepresentation 2 ex_M default_threshold [(O, ex_v)] ex_v 1 = Ok (m, pv) /\ nd_rows m = 1%nat /\ nd_el m 0 0 = 1%R /\
  exists z, pv = [(O, [z])] /\ z = c1.
Proof.
  destruct C43_ex as (H & H1 & H2).
  destruct (C43_krylov_representation nat 2 ex_M default_threshold [(O, ex_v)] ex_v 1 H H1 H2)
    as (m & pv & d & b & E & D & _ & D' & B0 & _ & (Hr1 & _ & Hr) & (L & P) & _).
  assert (Hd : d = 1%nat) by (assert (0 < d)%nat by (apply D'; lia); change (Z.to_nat 1) with 1%nat in D; lia). clear D D'. rewrite Hd in *. clear Hd d.
  assert (N : norm 2 ex_v = 1%R).
  { unfold norm, norm2. cbn. replace (_ + _ + _)%R with 1%R by ring. apply sqrt_1. }
  rewrite N in B0.
  exists m, pv. split; [exact E|]. split; [exact Hr1|].
  assert (B0' : veqn 2 (b O) ex_v).
  { intros i Hi. rewrite B0 by assumption. cbv beta. field. apply RtoC_neq0. lra. }
  split.
  - specialize (Hr 0%nat 0%nat ltac:(lia) ltac:(lia)). unfold sandwich in Hr. apply RtoC_inj'. rewrite <- Hr.
    rewrite (inner_ext 2 (b O) ex_v (mv 2 ex_M (b O)) (mv 2 ex_M ex_v) B0').
    + unfold inner, mv. cbn. unfold Cj, Cconj, c0, c1, Ci, Cmult, Cplus, RtoC. cbn. f_equal; ring.
    + intros i Hi. apply mv_ext. exact B0'.
  - destruct (P 0%nat 0%nat ex_v eq_refl) as (l & El & Ll & C0).
    destruct pv as [|[k l'] [|]]; try discriminate L. cbn in El. injection El as -> ->.
    destruct l as [|z [|]]; try discriminate Ll. exists z. split; [reflexivity|].
    specialize (C0 0%nat ltac:(lia)). cbn [nth] in C0. rewrite C0.
    rewrite (inner_ext 2 (b O) ex_v ex_v ex_v B0' (fun i _ => eq_refl)).
    unfold inner. cbn. unfold Cj, Cconj, c0, c1, Cmult, Cplus, RtoC. cbn. f_equal; ring.
Qed.
