From Coq Require Import String List Reals ZArith Bool Arith Lra Lia Psatz.
From Coquelicot Require Import Complex.
From Verif Require Import Py CVec LinSolve Line2D_Proofs Lattice_Model Lattice_Spec Lattice_Proofs Lattice_Proofs2 LatticeGen_Model Reciprocal_Model Reciprocal_Spec.
Import ListNotations.
Open Scope R_scope.

Lemma mapM_all {A B} (f : A -> res B) l r : mapM f l = Ok r -> List.length r = List.length l /\ forall i a b, (i < List.length l)%nat -> f (nth i l a) = Ok (nth i r b).
Proof.
  revert r. induction l as [|x l IH]; intros r H; cbn in H.
  - injection H as <-. split; [reflexivity|]. intros i a b Hi. cbn in Hi. lia.
  - destruct (f x) as [y|] eqn:E; [|discriminate]. cbn in H. destruct (mapM f l) as [ys|] eqn:E2; [|discriminate]. cbn in H. injection H as <-.
    destruct (IH ys eq_refl) as [L K]. split; [cbn; now rewrite L|]. intros [|i] a b Hi; [exact E|]. cbn in Hi |- *. apply K. lia.
Qed.
Lemma mapM_err {A B} (f : A -> res B) l e : mapM f l = Err e -> exists x, In x l /\ f x = Err e.
Proof.
  induction l as [|x l IH]; cbn; intros H; [discriminate|]. destruct (f x) as [y|e'] eqn:E; cbn in H.
  - destruct (mapM f l) as [ys|e'] eqn:E2; cbn in H; [discriminate|]. injection H as <-. destruct (IH eq_refl) as (z & Hz & Ez). eauto.
  - injection H as <-. eauto.
Qed.

Lemma vdot_coords d u v : (d <= 3)%nat -> in_space d v -> vdot u v = rsum d (fun k => coord k u * coord k v).
Proof.
  destruct u as [[u1 u2] u3], v as [[w1 w2] w3]. intros Hd H. destruct d as [|[|[|[|d]]]]; [| | | |lia]; cbn in *; [destruct H as (-> & -> & ->)|destruct H as (-> & ->)|subst|]; ring.
Qed.
Lemma coords_ext d u v : (d <= 3)%nat -> in_space d u -> in_space d v -> (forall k, (k < d)%nat -> coord k u = coord k v) -> u = v.
Proof.
  destruct u as [[u1 u2] u3], v as [[w1 w2] w3]. intros Hd Hu Hv H. destruct d as [|[|[|[|d]]]]; [| | | |lia]; cbn in Hu, Hv.
  - apply p3_eq; lra.
  - pose proof (H 0%nat ltac:(lia)). cbn in *. apply p3_eq; lra.
  - pose proof (H 0%nat ltac:(lia)). pose proof (H 1%nat ltac:(lia)). cbn in *. apply p3_eq; lra.
  - pose proof (H 0%nat ltac:(lia)). pose proof (H 1%nat ltac:(lia)). pose proof (H 2%nat ltac:(lia)). cbn in *. apply p3_eq; lra.
Qed.
Lemma coord_scale k c u : coord k (vscale c u) = c * coord k u.
Proof. destruct u as [[x y] z], k as [|[|k]]; reflexivity. Qed.
Lemma coord_add k u v : coord k (vadd u v) = coord k u + coord k v.
Proof. destruct u as [[x y] z], v as [[x' y'] z'], k as [|[|k]]; reflexivity. Qed.
Lemma coord_fcomb k c vs : coord k (fcomb c vs) = rsum (List.length vs) (fun j => c j * coord k (nth j vs v0)).
Proof.
  assert (E : exists w, forall u, coord k u = vdot u w) by (destruct k as [|[|k]]; [exists (1, 0, 0)|exists (0, 1, 0)|exists (0, 0, 1)]; intros [[x y] z]; cbn; ring).
  destruct E as (w & Hw). rewrite Hw, fcomb_dot. apply rsum_ext. intros j _. unfold a_. now rewrite Hw.
Qed.
Lemma in_space_fcomb d c vs : (d <= 3)%nat -> (forall a, In a vs -> in_space d a) -> in_space d (fcomb c vs).
Proof.
  intros Hd H. assert (Z : forall k, (d <= k < 3)%nat -> coord k (fcomb c vs) = 0).
  { intros k Hk. rewrite coord_fcomb. apply rsum_zero. intros j Hj. specialize (H (nth j vs v0) (nth_In _ _ Hj)). destruct (nth j vs v0) as [[x y] z].
    destruct d as [|[|[|[|d]]]], k as [|[|[|k]]]; cbn in *; try lia; destruct H as (-> & -> & ->) || destruct H as (-> & ->) || subst; ring. }
  destruct (fcomb c vs) as [[x y] z]. destruct d as [|[|[|[|d]]]]; cbn; try lia; auto.
  - pose proof (Z 0%nat ltac:(lia)). pose proof (Z 1%nat ltac:(lia)). pose proof (Z 2%nat ltac:(lia)). auto.
  - pose proof (Z 1%nat ltac:(lia)). pose proof (Z 2%nat ltac:(lia)). auto.
  - exact (Z 2%nat ltac:(lia)).
Qed.
Definition tmat (AS : list point) (i j : nat) : R := coord i (nth j AS v0).
Lemma transposed_nonsingular d AS : (d <= 3)%nat -> List.length AS = d -> (forall a, In a AS -> in_space d a) -> nonsingular d (transposed AS) <-> ~ dependent AS.
Proof.
  intros Hd L H. transitivity (rnonsingular d (tmat AS)); [apply (nonsingular_real d (tmat AS))|]. split.
  - intros N (xs & Lx & (x & Hx & Nx) & E). apply (In_nth _ _ 0) in Hx as (i & Hi & <-). apply Nx. apply (N (fun j => nth j xs 0)); [|lia]. intros l _.
    rewrite combination_fcomb in E by exact Lx. transitivity (coord l (fcomb (fun j => nth j xs 0) AS)); [|rewrite E; now destruct l as [|[|l]]].
    rewrite coord_fcomb, L. apply rsum_ext. intros j _. unfold tmat. ring.
  - intros N u Hu i Hi. destruct (Req_dec (u i) 0) as [E|Nz]; [exact E|]. exfalso. apply N. exists (map u (seq 0 d)). split; [now rewrite map_length, seq_length|]. split.
    + exists (u i). split; [apply in_map, in_seq; lia|exact Nz].
    + replace (map u (seq 0 d)) with (map u (seq 0 (List.length AS))) by (now rewrite L). change (fcomb u AS = v0). apply (coords_ext d); [exact Hd|now apply in_space_fcomb| |].
      * destruct d as [|[|[|d]]]; cbn; auto.
      * intros k Hk. rewrite coord_fcomb, L. transitivity 0; [|now destruct k as [|[|k]]]. rewrite <- (Hu k Hk). apply rsum_ext. intros. unfold tmat. ring.
Qed.

Lemma BSCalculator_ok d AS BS : (d <= 3)%nat -> (forall a, In a AS -> in_space d a) -> BSCalculator d AS = Ok BS ->
  List.length AS = d /\ ~ dependent AS /\ dual_to AS BS /\ forall b, In b BS -> in_space d b.
Proof.
  intros Hd Hs H. unfold BSCalculator in H. destruct (Nat.eqb_spec (List.length AS) d) as [L|]; [|discriminate]. cbn [negb] in H.
  destruct (mapM _ (seq 0 d)) as [cols|] eqn:E; [|discriminate]. cbn [bind] in H. injection H as <-.
  apply mapM_all in E as [Lc Kc]. rewrite seq_length in Lc, Kc.
  assert (Sol : forall j, (j < d)%nat -> solves d (transposed AS) (nth j cols vzero) (unit_column j) /\ nonsingular d (transposed AS)).
  { intros j Hj. specialize (Kc j 0%nat vzero Hj). rewrite seq_nth in Kc by exact Hj. cbn in Kc. now apply solve_ok in Kc. }
  assert (NS : nonsingular d (transposed AS)).
  { destruct d as [|d]; [intros u _ i Hi; lia|]. apply (Sol 0%nat). lia. }
  split; [exact L|]. split; [now apply (transposed_nonsingular d)|].
  set (X := fun i j => Re (nth j cols vzero i)).
  assert (RI : forall l j, (l < d)%nat -> (j < d)%nat -> rsum d (fun i => tmat AS l i * X i j) = if Nat.eqb l j then 1 else 0).
  { intros l j Hl Hj. destruct (Sol j Hj) as [S1 _]. specialize (S1 l Hl). unfold X. rewrite <- Re_csum. unfold transposed in S1. unfold tmat. rewrite S1. unfold unit_column. now destruct (Nat.eqb l j). }
  assert (LI : forall i j, (i < d)%nat -> (j < d)%nat -> rsum d (fun k => X i k * coord k (nth j AS v0)) = if Nat.eqb i j then 1 else 0).
  { intros i j Hi Hj. assert (RN : rnonsingular d (tmat AS)) by (now apply (nonsingular_real d (tmat AS))). apply Rminus_diag_uniq.
    apply (RN (fun i => rsum d (fun k => X i k * coord k (nth j AS v0)) - (if Nat.eqb i j then 1 else 0))); [|exact Hi]. intros l Hl.
    transitivity (rsum d (fun m => rsum d (fun k => tmat AS l m * X m k * coord k (nth j AS v0))) - rsum d (fun m => tmat AS l m * (if Nat.eqb m j then 1 else 0))).
    { rewrite <- rsum_minus. apply rsum_ext. intros m _. rewrite Rmult_minus_distr_l. f_equal. rewrite <- rsum_scal. apply rsum_ext. intros. ring. }
    rewrite rsum_swap. rewrite (rsum_single d (fun m => tmat AS l m * _) j Hj); [|intros m _ N; destruct (Nat.eqb_spec m j); [contradiction|ring]]. rewrite Nat.eqb_refl.
    transitivity (rsum d (fun k => (if Nat.eqb l k then 1 else 0) * coord k (nth j AS v0)) - tmat AS l j * 1).
    { f_equal. apply rsum_ext. intros k Hk. rewrite <- RI by auto. rewrite (Rmult_comm (rsum _ _)), <- rsum_scal. apply rsum_ext. intros. ring. }
    rewrite (rsum_single d _ l Hl); [|intros m _ N; destruct (Nat.eqb_spec l m); [congruence|ring]]. rewrite Nat.eqb_refl. unfold tmat. ring. }
  set (row := fun i => (X i 0%nat, X i 1%nat, X i 2%nat) : point).
  assert (Crow : forall i k, (k < d)%nat -> coord k (row i) = X i k) by (intros i k Hk; destruct k as [|[|[|k]]]; try reflexivity; lia).
  assert (Nb : forall i, (i < d)%nat -> nth i (map (fun i0 => vscale (2 * PI) (row i0)) (seq 0 d)) v0 = vscale (2 * PI) (row i)) by (intros i Hi; now rewrite nth_map_seq).
  split; [split; [rewrite map_length, seq_length; auto|]|].
  - rewrite L. intros i j Hi Hj. change (map _ (seq 0 d)) with (map (fun i0 => vscale (2 * PI) (row i0)) (seq 0 d)). rewrite Nb by exact Hi. rewrite vdot_scale_l, (vdot_coords d) by (auto; apply Hs, nth_In; lia).
    rewrite (rsum_ext d _ (fun k => X i k * coord k (nth j AS v0))) by (intros k Hk; now rewrite Crow). rewrite LI by auto. destruct (Nat.eqb i j); ring.
  - intros b Hb. apply in_map_iff in Hb as (i & <- & Hi). assert (Z : forall k, (d <= k)%nat -> X i k = 0) by (intros k Hk; unfold X; rewrite nth_overflow by lia; reflexivity).
    change (in_space d (vscale (2 * PI) (row i))). unfold row. destruct d as [|[|[|d]]]; cbn [in_space vscale]; rewrite ?Z by lia; repeat split; ring.
Qed.
Lemma BSCalculator_total d AS : (d <= 3)%nat -> (forall a, In a AS -> in_space d a) -> List.length AS = d -> ~ dependent AS -> exists BS, BSCalculator d AS = Ok BS.
Proof.
  intros Hd Hs L N. unfold BSCalculator. rewrite L, Nat.eqb_refl. cbn [negb]. destruct (mapM _ (seq 0 d)) as [cols|e] eqn:E; [cbn [bind]; eauto|].
  apply mapM_err in E as (j & _ & E). apply solve_err in E as [_ E]. elim E. now apply (transposed_nonsingular d).
Qed.
Lemma BSCalculator_err d AS e : BSCalculator d AS = Err e -> e = LinAlgError.
Proof.
  unfold BSCalculator. destruct (negb _); [now intros [= <-]|]. destruct (mapM _ (seq 0 d)) as [cols|e'] eqn:E; [discriminate|]. cbn [bind]. intros [= <-].
  apply mapM_err in E as (j & _ & E). now apply solve_err in E.
Qed.
(** the dual set is unique *)
Lemma dual_unique d AS BS BS' : (d <= 3)%nat -> List.length AS = d -> ~ dependent AS -> (forall a, In a AS -> in_space d a) ->
  dual_to AS BS -> dual_to AS BS' -> (forall b, In b BS -> in_space d b) -> (forall b, In b BS' -> in_space d b) -> BS = BS'.
Proof.
  intros Hd L N Hs [L1 D1] [L2 D2] S1 S2. apply (nth_ext _ _ v0 v0); [congruence|]. intros i Hi. rewrite L1 in Hi.
  set (w := vsub (nth i BS v0) (nth i BS' v0)).
  assert (W : forall j, (j < d)%nat -> vdot (nth j AS v0) w = 0) by (intros j Hj; rewrite vdot_comm; unfold w; rewrite vdot_sub_l, D1, D2 by lia; ring).
  assert (Sw : in_space d w).
  { unfold w. specialize (S1 (nth i BS v0) ltac:(apply nth_In; lia)). specialize (S2 (nth i BS' v0) ltac:(apply nth_In; lia)). destruct (nth i BS v0) as [[x y] z], (nth i BS' v0) as [[x' y'] z'].
    destruct d as [|[|[|d]]]; cbn in *; lra. }
  (* w is a combination of the rows *)
  assert (NS : nonsingular d (transposed AS)) by (now apply (transposed_nonsingular d)).
  destruct (solve_nonsingular d (transposed AS) (fun l => RtoC (coord l w)) NS) as [u Hu]. apply solve_ok in Hu as [Hu _].
  assert (Ew : w = fcomb (fun j => Re (u j)) AS).
  { apply (coords_ext d); auto; [now apply in_space_fcomb|]. intros k Hk. rewrite coord_fcomb, L. specialize (Hu k Hk). transitivity (Re (RtoC (coord k w))); [reflexivity|]. rewrite <- Hu. unfold transposed. rewrite Re_csum. apply rsum_ext. intros. ring. }
  assert (Z : vdot w w = 0).
  { rewrite Ew at 1. rewrite fcomb_dot. apply rsum_zero. intros j Hj. unfold a_. rewrite W by lia. ring. }
  apply vdot_zero in Z. transitivity (vadd (nth i BS' v0) w); [unfold w; now rewrite vsub_add|]. rewrite Z. apply vadd_0_r.
Qed.
