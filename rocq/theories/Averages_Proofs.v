(** Lemmas for C30. *)
From Coq Require Import Reals List ZArith Bool Arith Lia Lra Qreals QArith Qcanon.
From Coquelicot Require Import Complex.
From Verif Require Import Py GQ Mat CVec State_Model Spin_Model Spin_Spec Spin_Proofs Spin_Proofs3 Averages_Model Averages_Spec.
Local Open Scope nat_scope.
Local Open Scope C_scope.

Lemma Q2R_red q : Q2R (Qred q) = Q2R q.
Proof. apply Qeq_eqR, Qred_correct. Qed.
Lemma emb_add a b : emb (gadd a b) = emb a + emb b.
Proof. apply C_eq; cbn -[Qred Qplus Q2R]; rewrite Q2R_red, Q2R_plus; reflexivity. Qed.
Lemma emb_mul a b : emb (gmul a b) = emb a * emb b.
Proof.
  apply C_eq; cbn -[Qred Qplus Qmult Qopp Q2R]; repeat rewrite ?Q2R_red, ?Q2R_plus, ?Q2R_mult, ?Q2R_opp; ring.
Qed.
Lemma emb_conj a : emb (gconj a) = Cj (emb a).
Proof. apply C_eq; cbn -[Qred Qopp Q2R]; [reflexivity|]. rewrite Q2R_red, Q2R_opp. reflexivity. Qed.
Lemma emb_0 : emb g0 = c0.
Proof. apply C_eq; cbn; unfold Q2R; cbn; field. Qed.
Lemma emb_1 : emb g1 = c1.
Proof. apply C_eq; cbn; unfold Q2R; cbn; field. Qed.
Lemma emb_i : emb gi = Ci.
Proof. apply C_eq; cbn; unfold Q2R; cbn; field. Qed.
Lemma emb_opp a : emb (gopp a) = - emb a.
Proof. apply C_eq; cbn -[Qred Qopp Q2R]; rewrite Q2R_red, Q2R_opp; reflexivity. Qed.

Lemma csum_S_l n f : csum (S n) f = f O + csum n (fun i => f (S i)).
Proof. induction n as [|n IH]; [cbn; unfold c0; ring|]. cbn [csum] in *. rewrite IH. ring. Qed.
Lemma emb_lsum f n k : emb (lsum f (seq k n)) = csum n (fun i => emb (f (k + i)%nat)).
Proof.
  revert k. induction n as [|n IH]; intros k; [exact emb_0|].
  rewrite csum_S_l. cbn [seq lsum]. rewrite emb_add, IH, Nat.add_0_r. f_equal.
  apply csum_ext. intros i _. f_equal. f_equal. lia.
Qed.
Lemma emb_bigsum n f : emb (bigsum n f) = csum n (fun i => emb (f i)).
Proof. apply emb_lsum. Qed.
Lemma cm_mmul n a b v i : csum n (fun j => cm (mmul n a b) i j * v j) = mv n (cm a) (mv n (cm b) v) i.
Proof.
  unfold mv, cm, mmul.
  transitivity (csum n (fun j => csum n (fun k => emb (a i k) * emb (b k j) * v j))).
  - apply csum_ext. intros j _. rewrite emb_bigsum, <- csum_mul_r. apply csum_ext. intros. rewrite emb_mul. ring.
  - rewrite csum_swap. apply csum_ext. intros k _. rewrite <- csum_mul_l. apply csum_ext. intros. ring.
Qed.
Lemma cm_herm n a : meq n n a (mdag a) -> hermitian n (cm a).
Proof. intros H i j Hi Hj. unfold cm. rewrite (H i j Hi Hj). unfold mdag. apply emb_conj. Qed.

Lemma nonzero_norm2 n v : nonzero n v <-> norm2 n v <> 0%R.
Proof.
  rewrite norm2_0_iff. split.
  - intros (i & Hi & H) E. apply H, E, Hi.
  - intros H. assert (D : forall z : C, {z = c0} + {z <> c0}).
    { intros [a b]. destruct (Req_EM_T a 0); [destruct (Req_EM_T b 0)|]; [left; now apply C_eq|right|right]; intros E; injection E; auto. }
    induction n as [|n IH].
    + exfalso. apply H. intros i Hi. lia.
    + destruct (D (v n)) as [E|E]; [|exists n; split; [lia|assumption]].
      destruct IH as (i & Hi & G).
      * intros E2. apply H. intros i Hi. destruct (Nat.eq_dec i n) as [->|]; [assumption|apply E2; lia].
      * exists i. split; [lia|assumption].
Qed.
Lemma norm2_pos n v : nonzero n v -> (0 < norm2 n v)%R.
Proof. intros H. apply nonzero_norm2 in H. assert (G := norm2_nonneg n v). lra. Qed.
Lemma nonzero_norm n v : nonzero n v <-> norm n v <> 0%R.
Proof. rewrite nonzero_norm2, <- norm_sq. split; intros H E; apply H; [rewrite E; ring|destruct (Rmult_integral _ _ E); assumption]. Qed.

Lemma np_div_R a r : r <> 0%R -> np_div a (RtoC r) = Num (a / RtoC r).
Proof. intros H. unfold np_div. cbn. destruct (Req_EM_T r 0); [contradiction|reflexivity]. Qed.

Lemma average_ok n A v : nonzero n v -> QuantumAverages (MkArr n v) (MkM n n A) = Ok (Num (expectation n A v)).
Proof.
  intros H. unfold QuantumAverages, dot_ket, vdot. cbn [m_cols m_rows m_el a_len a_el bind]. rewrite !Nat.eqb_refl. cbn [m_cols m_rows m_el a_len a_el bind]. rewrite !Nat.eqb_refl. cbn [bind].
  rewrite inner_self, np_div_R by now apply nonzero_norm2. unfold expectation, sandwich. now rewrite inner_self.
Qed.
Lemma average_zero n A v : ~ nonzero n v -> QuantumAverages (MkArr n v) (MkM n n A) = Ok Nan.
Proof.
  intros H. assert (E : norm2 n v = 0%R).
  { destruct (Req_dec (norm2 n v) 0) as [E|E]; [assumption|]. exfalso. apply H, nonzero_norm2, E. }
  unfold QuantumAverages, dot_ket, vdot. cbn [m_cols m_rows m_el a_len a_el bind]. rewrite !Nat.eqb_refl. cbn [m_cols m_rows m_el a_len a_el bind]. rewrite !Nat.eqb_refl. cbn [bind].
  rewrite inner_self, E. unfold np_div. cbn. destruct (Req_EM_T 0 0) as [_|G]; [reflexivity|now elim G].
Qed.
Lemma average_shape ket op : m_cols op <> a_len ket \/ m_rows op <> a_len ket -> QuantumAverages ket op = Err ValueError.
Proof.
  intros H. unfold QuantumAverages, dot_ket, vdot. destruct (Nat.eqb_spec (m_cols op) (a_len ket)) as [E|E]; [|reflexivity].
  cbn. destruct (Nat.eqb_spec (a_len ket) (m_rows op)) as [E2|E2]; [|reflexivity]. destruct H; congruence.
Qed.

Lemma sandwich_lin n c d A B u v :
  sandwich n u (fun i j => c * A i j + d * B i j) v = c * sandwich n u A v + d * sandwich n u B v.
Proof.
  unfold sandwich. rewrite <- !inner_scale_r, <- inner_add_r. apply inner_ext; intros i Hi; [reflexivity|].
  unfold vadd, vscale, mv. rewrite <- !csum_mul_l, <- csum_add. apply csum_ext. intros. ring.
Qed.
Lemma expectation_lin n c d A B v :
  expectation n (fun i j => c * A i j + d * B i j) v = c * expectation n A v + d * expectation n B v.
Proof. unfold expectation, Cdiv. rewrite sandwich_lin. ring. Qed.
Lemma expectation_real n A v : hermitian n A -> expectation n A v = RtoC (Re (expectation n A v)).
Proof.
  intros H. apply Cj_real. unfold expectation. rewrite Cj_div, inner_conj. f_equal.
  unfold sandwich. rewrite inner_conj. symmetry. now apply hermitian_move.
Qed.
Lemma sandwich_scale n A c v : sandwich n (vscale c v) A (vscale c v) = Cj c * c * sandwich n v A v.
Proof.
  unfold sandwich. rewrite inner_scale_l.
  rewrite (inner_ext n v v (mv n A (vscale c v)) (vscale c (mv n A v))); [|intros i _; reflexivity|intros i _; apply mv_scale].
  rewrite inner_scale_r. ring.
Qed.
Lemma Cj_neq0 c : c <> c0 -> Cj c <> c0.
Proof. intros H E. apply H. apply Cj_inj. now rewrite Cj_0. Qed.
Lemma Cmul_neq0 a b : a <> c0 -> b <> c0 -> a * b <> c0.
Proof. intros H1 H2 E. destruct (Cmul_eq0 _ _ E); auto. Qed.
Lemma inner_neq0 n v : nonzero n v -> inner n v v <> c0.
Proof. intros H. rewrite inner_self. now apply RtoC_neq0, nonzero_norm2. Qed.
Lemma expectation_scale n A c v : c <> c0 -> nonzero n v -> expectation n A (vscale c v) = expectation n A v.
Proof.
  intros Hc Hv. unfold expectation. rewrite sandwich_scale, inner_scale_l, inner_scale_r.
  field. split; [now apply inner_neq0|]. split; [assumption|now apply Cj_neq0].
Qed.
Lemma expectation_eigen n A l v : nonzero n v -> veqn n (mv n A v) (vscale l v) -> expectation n A v = l.
Proof.
  intros Hv H. unfold expectation, sandwich. rewrite (inner_ext n v v (mv n A v) (vscale l v)) by (try assumption; intros i _; reflexivity).
  rewrite inner_scale_r. field. now apply inner_neq0.
Qed.

(** ** Total spin *)
Definition calc (d : nat) (X Y Z : cmat) (v : vec) :=
  (RtoC (/ norm2 d v) * (inner d (mv d Y v) (mv d Y v) + inner d (mv d X v) (mv d X v) + inner d (mv d Z v) (mv d Z v)),
   RtoC (/ norm2 d v) * sandwich d v X v, RtoC (/ norm2 d v) * (Ci * sandwich d v Y v), RtoC (/ norm2 d v) * sandwich d v Z v).

Lemma calculator_ok d X Y Z v : nonzero d v ->
  averages_calculator (MkM d d X) (MkM d d Y) (MkM d d Z) (MkArr d v) =
  Ok (let '(s2, sx, sy, sz) := calc d X Y Z v in (Num s2, Num sx, Num sy, Num sz)).
Proof.
  intros Hv. unfold averages_calculator, dot_ket, vdot. cbn [a_len a_el].
  assert (Hn : norm d v <> 0%R) by now apply nonzero_norm.
  destruct (Req_EM_T (norm d v) 0) as [E|_]; [contradiction|].
  cbn [m_cols m_rows m_el a_len a_el bind]. rewrite !Nat.eqb_refl. cbn [m_cols m_rows m_el a_len a_el bind]. rewrite !Nat.eqb_refl. cbn [bind].
  set (k := RtoC (/ norm d v)).
  assert (Hk : Cj k * k = RtoC (/ norm2 d v)).
  { unfold k. rewrite Cj_R, <- RtoC_mult, <- norm_sq. f_equal. field. assumption. }
  assert (Hk' : Cj k = k) by apply Cj_R.
  assert (K : veqn d (fun i => v i / RtoC (norm d v)) (vscale k v)).
  { intros i _. unfold vscale, k, Cdiv. rewrite RtoC_inv by assumption. ring. }
  assert (S1 : forall A, inner d (fun i => v i / RtoC (norm d v)) (mv d A (fun i => v i / RtoC (norm d v))) = RtoC (/ norm2 d v) * sandwich d v A v).
  { intros A. rewrite <- Hk, <- sandwich_scale. apply inner_ext; [assumption|]. intros i _. now apply mv_ext. }
  assert (S2 : forall A, inner d (mv d A (fun i => v i / RtoC (norm d v))) (mv d A (fun i => v i / RtoC (norm d v))) =
               RtoC (/ norm2 d v) * inner d (mv d A v) (mv d A v)).
  { intros A. rewrite <- Hk. assert (G : veqn d (mv d A (fun i => v i / RtoC (norm d v))) (vscale k (mv d A v))).
    { intros i _. rewrite (mv_ext d A _ _ K). apply mv_scale. }
    rewrite (inner_ext _ _ _ _ _ G G), inner_scale_l, inner_scale_r. ring. }
  rewrite !S1, !S2. unfold calc. f_equal.
  replace (Ci * (RtoC (/ norm2 d v) * sandwich d v Y v)) with (RtoC (/ norm2 d v) * (Ci * sandwich d v Y v)) by ring.
  replace (RtoC (/ norm2 d v) * inner d (mv d Y v) (mv d Y v) + RtoC (/ norm2 d v) * inner d (mv d X v) (mv d X v) +
    RtoC (/ norm2 d v) * inner d (mv d Z v) (mv d Z v)) with
    (RtoC (/ norm2 d v) * (inner d (mv d Y v) (mv d Y v) + inner d (mv d X v) (mv d X v) + inner d (mv d Z v) (mv d Z v))) by ring.
  reflexivity.
Qed.

Lemma total_spin_herm n o : o = SX \/ o = SY \/ o = SZ -> hermitian (2 ^ n) (cm (total_spin n o)).
Proof.
  intros H. apply cm_herm. intros r c Hr Hc. unfold mdag, total_spin, bigsum. rewrite lsum_conj. apply lsum_ext. intros i _.
  change (spin_at n i o r c = mdag (spin_at n i o) r c). rewrite spin_at_dag.
  now destruct H as [->|[->| ->]].
Qed.
Lemma herm_sq d A v : hermitian d A -> inner d (mv d A v) (mv d A v) = inner d v (mv d A (mv d A v)).
Proof. intros H. symmetry. now apply hermitian_move. Qed.
Lemma meq_cm d a b : meq d d a b -> forall i j, (i < d)%nat -> (j < d)%nat -> cm a i j = cm b i j.
Proof. intros H i j Hi Hj. unfold cm. now rewrite H. Qed.
Lemma mv_meq d (A B : cmat) v : (forall i j, (i < d)%nat -> (j < d)%nat -> A i j = B i j) -> veqn d (mv d A v) (mv d B v).
Proof. intros H i Hi. apply csum_ext. intros j Hj. now rewrite H. Qed.
Lemma sandwich_meq d (A B : cmat) u v : (forall i j, (i < d)%nat -> (j < d)%nat -> A i j = B i j) -> sandwich d u A v = sandwich d u B v.
Proof. intros H. apply inner_ext; [intros i _; reflexivity|now apply mv_meq]. Qed.

Lemma s2_sandwich n v : let d := (2 ^ n)%nat in
  sandwich d v (cm (total_s2 n)) v =
  inner d (mv d (cm (total_spin n SX)) v) (mv d (cm (total_spin n SX)) v) +
  (inner d (mv d (cm (total_spin n SY)) v) (mv d (cm (total_spin n SY)) v) +
   inner d (mv d (cm (total_spin n SZ)) v) (mv d (cm (total_spin n SZ)) v)).
Proof.
  intros d. rewrite !herm_sq by (apply total_spin_herm; tauto).
  rewrite <- !inner_add_r. apply inner_ext; [intros i _; reflexivity|]. intros i _. unfold vadd.
  rewrite <- !cm_mmul. unfold mv. rewrite <- !csum_add. apply csum_ext. intros j _. unfold cm, total_s2, madd. fold d.
  rewrite !emb_add. ring.
Qed.

Lemma total_averages_ok n : (0 < n)%nat -> exists sx sy sz f,
  TotalSpinMatrices (NInt (Z.of_nat n)) = Ok (Some sx, Some sy, Some sz) /\
  TotalSpinAverages (NInt (Z.of_nat n)) = Ok f /\
  (forall v, nonzero (2 ^ n) v ->
     f (MkArr (2 ^ n) v) = Ok (Num (expectation (2 ^ n) (cm (total_s2 n)) v),
                               Num (expectation (2 ^ n) (cm (total_spin n SX)) v),
                               Num (expectation (2 ^ n) (cm (total_spin n SY)) v),
                               Num (expectation (2 ^ n) (cm (total_spin n SZ)) v))) /\
  (forall v, ~ nonzero (2 ^ n) v -> f (MkArr (2 ^ n) v) = Ok (Nan, Nan, Nan, Nan)) /\
  (forall ket, a_len ket <> (2 ^ n)%nat -> f ket = Err ValueError).
Proof.
  intros Hn. destruct (TotalSpin_ok n Hn) as (sx & sy & sz & E & (X1 & X2 & X3) & (Y1 & Y2 & Y3) & (Z1 & Z2 & Z3)).
  exists sx, sy, sz. eexists. split; [exact E|]. split; [unfold TotalSpinAverages; rewrite E; reflexivity|].
  set (d := (2 ^ n)%nat) in *. unfold of_smat. rewrite X1, X2, Y1, Y2, Z1, Z2. fold (cm (s_ent sx)) (cm (s_ent sy)) (cm (s_ent sz)).
  assert (DX := meq_cm _ _ _ X3). assert (DZ := meq_cm _ _ _ Z3).
  assert (DY : forall i j, (i < d)%nat -> (j < d)%nat -> cm (total_spin n SY) i j = Ci * cm (s_ent sy) i j).
  { intros i j Hi Hj. unfold cm. rewrite <- (Y3 i j Hi Hj). unfold mscale. now rewrite emb_mul, emb_i. }
  split; [|split].
  - intros v Hv. rewrite calculator_ok by assumption. unfold calc, expectation. rewrite !(inner_self d v).
    assert (Hk : forall a, a / RtoC (norm2 d v) = RtoC (/ norm2 d v) * a).
    { intros a. unfold Cdiv. rewrite RtoC_inv by now apply nonzero_norm2. ring. }
    rewrite !Hk, (s2_sandwich n v : sandwich d v _ v = _). fold d.
    rewrite <- (sandwich_meq d _ _ v v DX), <- (sandwich_meq d _ _ v v DZ).
    assert (GX := mv_meq d _ _ v DX). assert (GZ := mv_meq d _ _ v DZ).
    assert (GY : veqn d (mv d (cm (total_spin n SY)) v) (vscale Ci (mv d (cm (s_ent sy)) v))).
    { intros i Hi. unfold vscale, mv. rewrite <- csum_mul_l. apply csum_ext. intros j Hj. rewrite DY by assumption. ring. }
    rewrite (sandwich_meq d _ _ v v DY).
    assert (SY' : sandwich d v (fun i j => Ci * cm (s_ent sy) i j) v = Ci * sandwich d v (cm (s_ent sy)) v).
    { unfold sandwich. rewrite <- inner_scale_r. apply inner_ext; intros i _; [reflexivity|]. unfold mv, vscale.
      rewrite <- csum_mul_l. apply csum_ext. intros. ring. }
    rewrite SY', (inner_ext _ _ _ _ _ GY GY), <- (inner_ext _ _ _ _ _ GX GX), <- (inner_ext _ _ _ _ _ GZ GZ).
    rewrite inner_scale_l, inner_scale_r, Cj_i.
    assert (I2 : - Ci * Ci = c1) by (apply C_eq; cbn; ring).
    replace (- Ci * (Ci * inner d (mv d (cm (s_ent sy)) v) (mv d (cm (s_ent sy)) v))) with
            ((- Ci * Ci) * inner d (mv d (cm (s_ent sy)) v) (mv d (cm (s_ent sy)) v)) by ring.
    rewrite I2. set (a := inner d (mv d (cm (s_ent sy)) v) _). set (b := inner d (mv d (cm (s_ent sx)) v) _). set (e := inner d (mv d (cm (s_ent sz)) v) _).
    replace (b + (c1 * a + e)) with (a + b + e) by (unfold c1; ring). reflexivity.
  - intros v Hv. unfold averages_calculator. cbn [a_len a_el]. destruct (Req_EM_T (norm d v) 0) as [_|G].
    + unfold dot_ket. cbn. rewrite Nat.eqb_refl. reflexivity.
    + exfalso. apply Hv, nonzero_norm, G.
  - intros [m w] Hm. cbn in Hm. unfold averages_calculator, dot_ket. cbn [a_len a_el m_cols].
    destruct (Nat.eqb_spec d m); [congruence|]. destruct (Req_EM_T (norm m w) 0); reflexivity.
Qed.
Lemma s2_nonneg n v : (0 <= Re (expectation (2 ^ n) (cm (total_s2 n)) v))%R.
Proof.
  unfold expectation. rewrite s2_sandwich, !inner_self, <- !RtoC_plus. set (a := (_ + (_ + _))%R).
  assert (Ha : (0 <= a)%R) by (unfold a; repeat apply Rplus_le_le_0_compat; apply norm2_nonneg).
  destruct (Req_dec (norm2 (2 ^ n) v) 0) as [E|E].
  - rewrite E. cbn. unfold Rdiv. rewrite !Rmult_0_l, Rmult_0_r. lra.
  - rewrite <- RtoC_div by assumption. cbn. apply Rmult_le_pos; [assumption|]. apply Rlt_le, Rinv_0_lt_compat.
    assert (G := norm2_nonneg (2 ^ n) v). lra.
Qed.
Lemma s2_herm n : hermitian (2 ^ n) (cm (total_s2 n)).
Proof.
  apply cm_herm. intros r c Hr Hc. unfold mdag, total_s2, madd. rewrite !gconj_add.
  assert (G : forall o, o = SX \/ o = SY \/ o = SZ ->
    mmul (2 ^ n) (total_spin n o) (total_spin n o) r c = gconj (mmul (2 ^ n) (total_spin n o) (total_spin n o) c r)).
  { intros o Ho. change (gconj (mmul (2 ^ n) (total_spin n o) (total_spin n o) c r)) with (mdag (mmul (2 ^ n) (total_spin n o) (total_spin n o)) r c).
    rewrite mdag_mul. apply (mmul_ext (2 ^ n) (2 ^ n) (2 ^ n)); [| |assumption|assumption]; intros r' k Hr' Hk; unfold mdag, total_spin, bigsum; rewrite lsum_conj; apply lsum_ext; intros i _;
    change (spin_at n i o r' k = mdag (spin_at n i o) r' k); rewrite spin_at_dag; now destruct Ho as [->|[->| ->]]. }
  rewrite (G SX), (G SY), (G SZ) by tauto. reflexivity.
Qed.
