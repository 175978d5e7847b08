(** The first Brillouin zones of chains, square, hexagonal and cubic lattices. *)
From Coq Require Import List Reals ZArith Bool Arith Lra Lia Psatz.
From Verif Require Import Py Lattice_Model Lattice_Spec Lattice_Proofs Lattice_Proofs2 LatticeGen_Model Reciprocal_Model Reciprocal_Spec Reciprocal_Proofs Zone_Proofs.
Import ListNotations.
Open Scope R_scope.

Lemma vdot_sub_r u v w : vdot u (vsub v w) = vdot u v - vdot u w. Proof. vring. Qed.
Lemma near_iff k g : norm k <= dist k g <-> 2 * vdot k g <= vdot g g.
Proof.
  unfold dist. assert (E : vdot (vsub k g) (vsub k g) = vdot k k - 2 * vdot k g + vdot g g) by vring. split; intros H.
  - apply norm_le_inv in H. lra.
  - apply norm_le. lra.
Qed.
Lemma nearer_iff k g : norm k < dist k g <-> 2 * vdot k g < vdot g g.
Proof.
  unfold dist. assert (E : vdot (vsub k g) (vsub k g) = vdot k k - 2 * vdot k g + vdot g g) by vring. split; intros H.
  - pose proof (norm_nonneg k). assert (norm k * norm k < norm (vsub k g) * norm (vsub k g)) by nra. rewrite !norm_sq in *. lra.
  - unfold norm. apply sqrt_lt_1_alt. split; [apply vdot_nonneg|]. lra.
Qed.
Lemma pair_shift ns b0 b1 : List.length ns = 2%nat -> exists m n, ns = [m; n] /\ shift ns [b0; b1] = vadd (vscale (IZR m) b0) (vscale (IZR n) b1).
Proof. destruct ns as [|m [|n [|]]]; try discriminate. intros _. exists m, n. split; [reflexivity|]. unfold shift. cbn [map combination]. now rewrite vadd_0_r. Qed.
(** points of the plane are determined by their products with two independent vectors *)
Lemma plane_eq b0 b1 p q : in_space 2 b0 -> in_space 2 b1 -> vdot b0 b0 * vdot b1 b1 - vdot b0 b1 * vdot b0 b1 <> 0 -> in_space 2 p -> in_space 2 q -> vdot p b0 = vdot q b0 -> vdot p b1 = vdot q b1 -> p = q.
Proof.
  destruct b0 as [[x0 y0] z0], b1 as [[x1 y1] z1], p as [[p1 p2] p3], q as [[q1 q2] q3]. cbn. intros -> -> N -> -> E0 E1.
  assert (D : x0 * y1 - x1 * y0 <> 0) by (intros D; apply N; replace (_ - _) with ((x0 * y1 - x1 * y0) * (x0 * y1 - x1 * y0)) by ring; rewrite D; ring).
  assert (A : (x0 * y1 - x1 * y0) * (p1 - q1) = 0) by (replace ((x0 * y1 - x1 * y0) * (p1 - q1)) with (((p1 * x0 + p2 * y0 + 0 * 0) - (q1 * x0 + q2 * y0 + 0 * 0)) * y1 - ((p1 * x1 + p2 * y1 + 0 * 0) - (q1 * x1 + q2 * y1 + 0 * 0)) * y0) by ring; rewrite E0, E1; ring).
  assert (B : (x0 * y1 - x1 * y0) * (p2 - q2) = 0) by (replace ((x0 * y1 - x1 * y0) * (p2 - q2)) with (((p1 * x1 + p2 * y1 + 0 * 0) - (q1 * x1 + q2 * y1 + 0 * 0)) * x0 - ((p1 * x0 + p2 * y0 + 0 * 0) - (q1 * x0 + q2 * y0 + 0 * 0)) * x1) by ring; rewrite E0, E1; ring).
  apply Rmult_integral in A as [A|A]; [contradiction|]. apply Rmult_integral in B as [B|B]; [contradiction|]. apply p3_eq; lra.
Qed.
Definition chart2 (d0 d1 : point) (u : point) : point := let '(x, y, _) := u in vadd (vscale x d0) (vscale y d1).
Lemma chart2_add d0 d1 u v : chart2 d0 d1 (vadd u v) = vadd (chart2 d0 d1 u) (chart2 d0 d1 v).
Proof. destruct u as [[? ?] ?], v as [[? ?] ?]. cbn [chart2 vadd]. destruct d0 as [[? ?] ?], d1 as [[? ?] ?]. cbn. apply p3_eq; ring. Qed.
Lemma chart2_scale d0 d1 c u : chart2 d0 d1 (vscale c u) = vscale c (chart2 d0 d1 u).
Proof. destruct u as [[? ?] ?]. cbn [chart2 vscale]. destruct d0 as [[? ?] ?], d1 as [[? ?] ?]. cbn. apply p3_eq; ring. Qed.

(** A plane lattice with |b0|^2 = |b1|^2 = B. *)
Section Plane.
  Variables (b0 b1 d0 d1 : point) (B g : R) (H : point -> Prop).
  Hypothesis HB : 0 < B.
  Hypothesis S0 : in_space 2 b0.
  Hypothesis S1 : in_space 2 b1.
  Hypothesis T0 : in_space 2 d0.
  Hypothesis T1 : in_space 2 d1.
  Hypothesis G0 : vdot b0 b0 = B.
  Hypothesis G1 : vdot b1 b1 = B.
  Hypothesis Gm : vdot b0 b1 = g * B.
  Hypothesis Hg : g * g <> 1.
  Hypothesis D00 : 2 * vdot d0 b0 = B.
  Hypothesis D01 : vdot d0 b1 = 0.
  Hypothesis D10 : vdot d1 b0 = 0.
  Hypothesis D11 : 2 * vdot d1 b1 = B.
  Hypothesis Hin : forall u, H u -> in_space 2 u.
  Hypothesis Hlin : forall x y, H (x, y, 0) <-> forall m n : Z, IZR m * x + IZR n * y <= IZR m * IZR m + IZR n * IZR n + 2 * g * (IZR m * IZR n).
  Local Lemma dets : vdot b0 b0 * vdot b1 b1 - vdot b0 b1 * vdot b0 b1 <> 0.
  Proof. rewrite G0, G1, Gm. replace (B * B - g * B * (g * B)) with (B * B * (1 - g * g)) by ring. apply Rmult_integral_contrapositive. split; [nra|lra]. Qed.
  Local Lemma chart_dot0 x y z : 2 * vdot (chart2 d0 d1 (x, y, z)) b0 = x * B.
  Proof. cbn [chart2]. rewrite vdot_add_l, !vdot_scale_l, D10. replace (2 * (x * vdot d0 b0 + y * 0)) with (x * (2 * vdot d0 b0)) by ring. now rewrite D00. Qed.
  Local Lemma chart_dot1 x y z : 2 * vdot (chart2 d0 d1 (x, y, z)) b1 = y * B.
  Proof. cbn [chart2]. rewrite vdot_add_l, !vdot_scale_l, D01. replace (2 * (x * 0 + y * vdot d1 b1)) with (y * (2 * vdot d1 b1)) by ring. now rewrite D11. Qed.
  Local Lemma chart_space u : in_space 2 (chart2 d0 d1 u).
  Proof. destruct u as [[x y] z]. cbn [chart2]. apply in_space_add; now apply in_space_scale. Qed.
  Lemma chart2_inj u v : in_space 2 u -> in_space 2 v -> chart2 d0 d1 u = chart2 d0 d1 v -> u = v.
  Proof.
    destruct u as [[x y] z], v as [[x' y'] z']. intros Hu Hv E. cbn in Hu, Hv. subst z z'. pose proof (chart_dot0 x y 0) as A. pose proof (chart_dot1 x y 0) as A'. rewrite E in A, A'. rewrite chart_dot0 in A. rewrite chart_dot1 in A'.
    apply p3_eq; [|symmetry in A'|reflexivity]; nra.
  Qed.
  Lemma plane_zone k : first_BZ 2 [b0; b1] k <-> exists u, H u /\ k = chart2 d0 d1 u.
  Proof.
    assert (K : forall x y m n, 2 * vdot (chart2 d0 d1 (x, y, 0)) (vadd (vscale (IZR m) b0) (vscale (IZR n) b1)) = B * (IZR m * x + IZR n * y)).
    { intros x y m n. rewrite vdot_add_r, !vdot_scale_r. replace (2 * (IZR m * vdot (chart2 d0 d1 (x, y, 0)) b0 + IZR n * vdot (chart2 d0 d1 (x, y, 0)) b1)) with (IZR m * (2 * vdot (chart2 d0 d1 (x, y, 0)) b0) + IZR n * (2 * vdot (chart2 d0 d1 (x, y, 0)) b1)) by ring.
      rewrite chart_dot0, chart_dot1. ring. }
    assert (Q : forall m n, vdot (vadd (vscale (IZR m) b0) (vscale (IZR n) b1)) (vadd (vscale (IZR m) b0) (vscale (IZR n) b1)) = B * (IZR m * IZR m + IZR n * IZR n + 2 * g * (IZR m * IZR n))).
    { intros m n. rewrite vdot_add_l, !vdot_add_r, !vdot_scale_l, !vdot_scale_r, (vdot_comm b1 b0), G0, G1, Gm. ring. }
    split.
    - intros [Sk N]. exists (2 * vdot k b0 / B, 2 * vdot k b1 / B, 0). 
      assert (E : k = chart2 d0 d1 (2 * vdot k b0 / B, 2 * vdot k b1 / B, 0)).
      { apply (plane_eq b0 b1); auto using dets, chart_space.
        - pose proof (chart_dot0 (2 * vdot k b0 / B) (2 * vdot k b1 / B) 0) as A. replace (2 * vdot k b0 / B * B) with (2 * vdot k b0) in A by (field; lra). lra.
        - pose proof (chart_dot1 (2 * vdot k b0 / B) (2 * vdot k b1 / B) 0) as A. replace (2 * vdot k b1 / B * B) with (2 * vdot k b1) in A by (field; lra). lra. }
      split; [|exact E]. apply Hlin. intros m n. specialize (N [m; n] eq_refl). apply near_iff in N. destruct (pair_shift [m; n] b0 b1 eq_refl) as (m' & n' & Em & Es). injection Em as <- <-. rewrite Es, Q in N. rewrite E, K in N.
      apply (Rmult_le_reg_l B); assumption.
    - intros (u & Hu & ->). split; [apply chart_space|]. intros ns Hns. destruct (pair_shift ns b0 b1 Hns) as (m & n & _ & ->). apply near_iff. rewrite Q. pose proof (Hin u Hu) as Iu. destruct u as [[x y] z]. cbn in Iu. subst z. rewrite K.
      apply Rmult_le_compat_l; [lra|]. now apply Hlin.
  Qed.
End Plane.

Lemma box2_lin x y : box2 (x, y, 0) <-> forall m n : Z, IZR m * x + IZR n * y <= IZR m * IZR m + IZR n * IZR n + 2 * 0 * (IZR m * IZR n).
Proof.
  split.
  - intros (Bx & By & _) m n. unfold bounded in *.
    assert (K : forall (m : Z) x, -1 <= x <= 1 -> IZR m * x <= IZR m * IZR m).
    { clear. intros m x Hx. destruct (Z.le_gt_cases m 0) as [M|M].
      - destruct (Z.eq_dec m 0) as [-> |]; [lra|]. assert (Hm : IZR m <= -1) by (apply (IZR_le m (-1)); lia). nra.
      - assert (Hm : 1 <= IZR m) by (apply (IZR_le 1); lia). nra. }
    pose proof (K m x Bx). pose proof (K n y By). lra.
  - intros K. cbn. unfold bounded. pose proof (K 1%Z 0%Z). pose proof (K (-1)%Z 0%Z). pose proof (K 0%Z 1%Z). pose proof (K 0%Z (-1)%Z). slra.
Qed.
Lemma sq_ge z : (Z.abs z <= z * z)%Z. Proof. nia. Qed.
Lemma hexagon_lin x y : hexagon (x, y, 0) <-> forall m n : Z, IZR m * x + IZR n * y <= IZR m * IZR m + IZR n * IZR n + 2 * (-1 / 2) * (IZR m * IZR n).
Proof.
  split.
  - intros (Bx & By & Bs & _) m n. unfold bounded in *.
    replace (IZR m * IZR m + IZR n * IZR n + 2 * (-1 / 2) * (IZR m * IZR n)) with (IZR (m * m + n * n - m * n)) by (rewrite minus_IZR, plus_IZR, !mult_IZR; field).
    assert (K : exists s : Z, (s <= m * m + n * n - m * n)%Z /\ IZR m * x + IZR n * y <= IZR s).
    { destruct (Z.le_gt_cases 0 m) as [M|M], (Z.le_gt_cases 0 n) as [N|N].
      - destruct (Z.le_gt_cases n m) as [C|C].
        + exists m. split; [pose proof (sq_ge m); pose proof (sq_ge n); pose proof (sq_ge (m - n)); nia|]. apply IZR_le in N, C. replace (IZR m * x + IZR n * y) with ((IZR m - IZR n) * x + IZR n * (x + y)) by ring. nra.
        + exists n. split; [pose proof (sq_ge m); pose proof (sq_ge n); pose proof (sq_ge (m - n)); nia|]. apply Z.lt_le_incl in C. apply IZR_le in M, C. replace (IZR m * x + IZR n * y) with ((IZR n - IZR m) * y + IZR m * (x + y)) by ring. nra.
      - exists (m - n)%Z. split; [pose proof (sq_ge m); pose proof (sq_ge n); pose proof (sq_ge (m - n)); nia|]. apply Z.lt_le_incl in N. apply IZR_le in M, N. rewrite minus_IZR. nra.
      - exists (n - m)%Z. split; [pose proof (sq_ge m); pose proof (sq_ge n); pose proof (sq_ge (m - n)); nia|]. apply Z.lt_le_incl in M. apply IZR_le in M, N. rewrite minus_IZR. nra.
      - destruct (Z.le_gt_cases n m) as [C|C].
        + exists (- n)%Z. split; [pose proof (sq_ge m); pose proof (sq_ge n); pose proof (sq_ge (m - n)); nia|]. apply Z.lt_le_incl in M. apply IZR_le in M, C. rewrite opp_IZR. replace (IZR m * x + IZR n * y) with ((IZR n - IZR m) * y + IZR m * (x + y)) by ring. nra.
        + exists (- m)%Z. split; [pose proof (sq_ge m); pose proof (sq_ge n); pose proof (sq_ge (m - n)); nia|]. apply Z.lt_le_incl in C, N. apply IZR_le in N, C. rewrite opp_IZR. replace (IZR m * x + IZR n * y) with ((IZR m - IZR n) * x + IZR n * (x + y)) by ring. nra. }
    destruct K as (s & Hs & L). apply IZR_le in Hs. lra.
  - intros K. cbn. unfold bounded. pose proof (K 1%Z 0%Z). pose proof (K (-1)%Z 0%Z). pose proof (K 0%Z 1%Z). pose proof (K 0%Z (-1)%Z). pose proof (K 1%Z 1%Z). pose proof (K (-1)%Z (-1)%Z). slra.
Qed.

(** ** the reciprocal vectors of two plane vectors of the same length *)
Lemma pair_independent a0 a1 : in_space 2 a0 -> in_space 2 a1 -> vdot a0 a0 * vdot a1 a1 - vdot a0 a1 * vdot a0 a1 <> 0 -> ~ dependent [a0; a1].
Proof.
  intros S0 S1 N (xs & L & (x & Hx & Nx) & E). destruct xs as [|s [|t [|]]]; try discriminate. cbn [combination] in E. rewrite vadd_0_r in E.
  assert (E0 : s * vdot a0 a0 + t * vdot a0 a1 = 0) by (transitivity (vdot (vadd (vscale s a0) (vscale t a1)) a0); [rewrite vdot_add_l, !vdot_scale_l, (vdot_comm a1 a0); ring|rewrite E; apply vdot_0_l]).
  assert (E1 : s * vdot a0 a1 + t * vdot a1 a1 = 0) by (transitivity (vdot (vadd (vscale s a0) (vscale t a1)) a1); [rewrite vdot_add_l, !vdot_scale_l; ring|rewrite E; apply vdot_0_l]).
  assert (Ks : s * (vdot a0 a0 * vdot a1 a1 - vdot a0 a1 * vdot a0 a1) = 0) by (transitivity ((s * vdot a0 a0 + t * vdot a0 a1) * vdot a1 a1 - (s * vdot a0 a1 + t * vdot a1 a1) * vdot a0 a1); [ring|rewrite E0, E1; ring]).
  assert (Kt : t * (vdot a0 a0 * vdot a1 a1 - vdot a0 a1 * vdot a0 a1) = 0) by (transitivity ((s * vdot a0 a1 + t * vdot a1 a1) * vdot a0 a0 - (s * vdot a0 a0 + t * vdot a0 a1) * vdot a0 a1); [ring|rewrite E0, E1; ring]).
  apply Rmult_integral in Ks as [Ks|Ks]; [|contradiction]. apply Rmult_integral in Kt as [Kt|Kt]; [|contradiction]. destruct Hx as [<-|[<-|[]]]; contradiction.
Qed.
Lemma pair_dual a0 a1 A c : in_space 2 a0 -> in_space 2 a1 -> 0 < A -> c * c < 1 -> vdot a0 a0 = A -> vdot a1 a1 = A -> vdot a0 a1 = c * A ->
  exists b0 b1 B, BSCalculator 2 [a0; a1] = Ok [b0; b1] /\ dual_to [a0; a1] [b0; b1] /\ in_space 2 b0 /\ in_space 2 b1 /\ 0 < B /\ vdot b0 b0 = B /\ vdot b1 b1 = B /\ vdot b0 b1 = - c * B.
Proof.
  intros S0 S1 HA Hc G0 G1 Gm. assert (Ss : forall a, In a [a0; a1] -> in_space 2 a) by (intros a [<-|[<-|[]]]; assumption).
  assert (N : vdot a0 a0 * vdot a1 a1 - vdot a0 a1 * vdot a0 a1 <> 0) by (rewrite G0, G1, Gm; assert (0 < A * A) by nra; nra).
  destruct (BSCalculator_total 2 [a0; a1]) as [BS HB]; auto; [now apply pair_independent|]. destruct (BSCalculator_ok 2 _ _ ltac:(auto) Ss HB) as (_ & _ & D & Sb).
  pose proof D as [L K]. destruct BS as [|b0 [|b1 [|]]]; try discriminate. exists b0, b1, (4 * (PI * PI) / (A * (1 - c * c))). split; [exact HB|]. split; [exact D|].
  assert (Sb0 : in_space 2 b0) by (apply Sb; cbn; auto). assert (Sb1 : in_space 2 b1) by (apply Sb; cbn; auto). split; [exact Sb0|]. split; [exact Sb1|].
  pose proof (K 0%nat 0%nat ltac:(cbn; lia) ltac:(cbn; lia)) as K00. pose proof (K 0%nat 1%nat ltac:(cbn; lia) ltac:(cbn; lia)) as K01. pose proof (K 1%nat 0%nat ltac:(cbn; lia) ltac:(cbn; lia)) as K10. pose proof (K 1%nat 1%nat ltac:(cbn; lia) ltac:(cbn; lia)) as K11.
  cbn [nth Nat.eqb] in K00, K01, K10, K11. clear K D L Sb HB Ss. pose proof PI_RGT_0 as Pi.
  assert (Q : 0 < A * (1 - c * c)) by (apply Rmult_lt_0_compat; lra). split; [apply Rdiv_lt_0_compat; nra|].
  (* b0 = 2 pi (a0 - c a1) / (A (1 - c^2)), b1 likewise *)
  assert (E0 : b0 = vscale (2 * PI / (A * (1 - c * c))) (vsub a0 (vscale c a1))).
  { apply (plane_eq a0 a1); auto.
    - destruct a0 as [[? ?] ?], a1 as [[? ?] ?]. cbn in *. lra || (subst; ring).
    - rewrite K00. rewrite vdot_scale_l, vdot_sub_l, vdot_scale_l, (vdot_comm a1 a0), G0, Gm. field. lra.
    - rewrite K01. rewrite vdot_scale_l, vdot_sub_l, vdot_scale_l, Gm, G1. ring. }
  assert (E1 : b1 = vscale (2 * PI / (A * (1 - c * c))) (vsub a1 (vscale c a0))).
  { apply (plane_eq a0 a1); auto.
    - destruct a0 as [[? ?] ?], a1 as [[? ?] ?]. cbn in *. lra || (subst; ring).
    - rewrite K10. rewrite vdot_scale_l, vdot_sub_l, vdot_scale_l, (vdot_comm a1 a0), G0, Gm. ring.
    - rewrite K11. rewrite vdot_scale_l, vdot_sub_l, vdot_scale_l, Gm, G1. field. lra. }
  assert (I0 : vdot b0 b0 = 2 * PI / (A * (1 - c * c)) * (2 * PI)). { rewrite E0 at 2. rewrite vdot_scale_r, vdot_sub_r, vdot_scale_r, K00, K01. ring. }
  assert (I1 : vdot b1 b1 = 2 * PI / (A * (1 - c * c)) * (2 * PI)). { rewrite E1 at 2. rewrite vdot_scale_r, vdot_sub_r, vdot_scale_r, K10, K11. ring. }
  assert (I2 : vdot b0 b1 = 2 * PI / (A * (1 - c * c)) * (- c * (2 * PI))). { rewrite E1. rewrite vdot_scale_r, vdot_sub_r, vdot_scale_r, K00, K01. ring. }
  rewrite I0, I1, I2. repeat split; field; lra.
Qed.

Lemma square_listed b0 b1 B : 0 < B -> in_space 2 b0 -> in_space 2 b1 -> vdot b0 b0 = B -> vdot b1 b1 = B -> vdot b0 b1 = 0 ->
  lists (edge_middle (first_BZ 2 [b0; b1])) (dot_over SQUARE_XS_COEFF [b0; b1] 2) /\ lists (corner (first_BZ 2 [b0; b1])) (dot_over SQUARE_MS_COEFF [b0; b1] 2).
Proof.
  intros HB S0 S1 G0 G1 Gm. set (d0 := vscale (/ 2) b0). set (d1 := vscale (/ 2) b1).
  assert (D00 : 2 * vdot d0 b0 = B) by (unfold d0; rewrite vdot_scale_l, G0; field). assert (D01 : vdot d0 b1 = 0) by (unfold d0; rewrite vdot_scale_l, Gm; ring).
  assert (D10 : vdot d1 b0 = 0) by (unfold d1; rewrite vdot_scale_l, vdot_comm, Gm; ring). assert (D11 : 2 * vdot d1 b1 = B) by (unfold d1; rewrite vdot_scale_l, G1; field).
  assert (Hin : forall u, box2 u -> in_space 2 u) by (intros [[x y] z]; cbn; tauto).
  assert (T0 : in_space 2 d0) by (now apply in_space_scale). assert (T1 : in_space 2 d1) by (now apply in_space_scale).
  assert (Hinj : forall u v, in_space 2 u -> in_space 2 v -> chart2 d0 d1 u = chart2 d0 d1 v -> u = v) by (eapply (chart2_inj b0 b1 d0 d1 B); eauto).
  assert (Hcov : forall k, first_BZ 2 [b0; b1] k <-> exists u, box2 u /\ k = chart2 d0 d1 u).
  { apply (plane_zone b0 b1 d0 d1 B 0); auto; [rewrite Gm; ring|lra|apply box2_lin]. }
  split.
  - eapply (edges_listed 2 (chart2 d0 d1)); eauto using chart2_add, chart2_scale; [|exact box2_edges]. unfold d0, d1. clear. destruct b0 as [[? ?] ?], b1 as [[? ?] ?]. cbn. repeat (apply f_equal2; [apply p3_eq; field|]). reflexivity.
  - eapply (corners_listed 2 (chart2 d0 d1)); eauto using chart2_add, chart2_scale; [|exact box2_corners]. unfold d0, d1. clear. destruct b0 as [[? ?] ?], b1 as [[? ?] ?]. cbn. repeat (apply f_equal2; [apply p3_eq; field|]). reflexivity.
Qed.
Lemma hexagon_listed b0 b1 B l l' (Z : point -> Prop) : 0 < B -> in_space 2 b0 -> in_space 2 b1 -> vdot b0 b0 = B -> vdot b1 b1 = B -> vdot b0 b1 = - B / 2 ->
  (forall k, Z k <-> first_BZ 2 [b0; b1] k) ->
  l = map (chart2 (vadd (vscale (2 / 3) b0) (vscale (1 / 3) b1)) (vadd (vscale (1 / 3) b0) (vscale (2 / 3) b1))) [(1 / 2, -1, 0); (-1 / 2, -1 / 2, 0); (-1, 1 / 2, 0); (-1 / 2, 1, 0); (1 / 2, 1 / 2, 0); (1, -1 / 2, 0)] ->
  l' = map (chart2 (vadd (vscale (2 / 3) b0) (vscale (1 / 3) b1)) (vadd (vscale (1 / 3) b0) (vscale (2 / 3) b1))) [(1, -1, 0); (0, -1, 0); (-1, 0, 0); (-1, 1, 0); (0, 1, 0); (1, 0, 0)] ->
  lists (edge_middle Z) l /\ lists (corner Z) l'.
Proof.
  intros HB S0 S1 G0 G1 Gm HZ. set (d0 := vadd (vscale (2 / 3) b0) (vscale (1 / 3) b1)). set (d1 := vadd (vscale (1 / 3) b0) (vscale (2 / 3) b1)). intros -> ->.
  assert (D00 : 2 * vdot d0 b0 = B) by (unfold d0; rewrite vdot_add_l, !vdot_scale_l, (vdot_comm b1 b0), Gm, G0; field). assert (D01 : vdot d0 b1 = 0) by (unfold d0; rewrite vdot_add_l, !vdot_scale_l, Gm, G1; field).
  assert (D10 : vdot d1 b0 = 0) by (unfold d1; rewrite vdot_add_l, !vdot_scale_l, (vdot_comm b1 b0), Gm, G0; field). assert (D11 : 2 * vdot d1 b1 = B) by (unfold d1; rewrite vdot_add_l, !vdot_scale_l, Gm, G1; field).
  assert (Hin : forall u, hexagon u -> in_space 2 u) by (intros [[x y] z]; cbn; tauto).
  assert (T0 : in_space 2 d0) by (apply in_space_add; now apply in_space_scale). assert (T1 : in_space 2 d1) by (apply in_space_add; now apply in_space_scale).
  assert (Hinj : forall u v, in_space 2 u -> in_space 2 v -> chart2 d0 d1 u = chart2 d0 d1 v -> u = v) by (eapply (chart2_inj b0 b1 d0 d1 B); eauto).
  assert (Hcov : forall k, Z k <-> exists u, hexagon u /\ k = chart2 d0 d1 u).
  { intros k. rewrite HZ. apply (plane_zone b0 b1 d0 d1 B (-1 / 2)); auto; [rewrite Gm; field|lra|apply hexagon_lin]. }
  split.
  - eapply (edges_listed 2 (chart2 d0 d1)); eauto using chart2_add, chart2_scale. exact hexagon_edges.
  - eapply (corners_listed 2 (chart2 d0 d1)); eauto using chart2_add, chart2_scale. exact hexagon_corners.
Qed.
