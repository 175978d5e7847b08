(** C30: quantum averages. *)
From Coq Require Import Reals List ZArith Bool Arith Lia Lra Qreals.
From Coquelicot Require Import Complex.
From Verif Require Import Py GQ Mat CVec State_Model Spin_Model Spin_Spec Averages_Model Averages_Spec Averages_Proofs.
Local Open Scope nat_scope.
Local Open Scope C_scope.

(** QuantumAverages(ket, op) is <ket|op|ket>/<ket|ket> for every non-zero ket. *)
Theorem C30_expectation_value : forall n A v, nonzero n v ->
  QuantumAverages (MkArr n v) (MkM n n A) = Ok (Num (expectation n A v)).
Proof. exact average_ok. Qed.
Print Assumptions C30_expectation_value.
Theorem C30_zero_ket_is_nan : forall n A v, ~ nonzero n v -> QuantumAverages (MkArr n v) (MkM n n A) = Ok Nan.
Proof. exact average_zero. Qed.
Print Assumptions C30_zero_ket_is_nan.
Theorem C30_shape_mismatch : forall ket op, m_cols op <> a_len ket \/ m_rows op <> a_len ket ->
  QuantumAverages ket op = Err ValueError.
Proof. exact average_shape. Qed.
Print Assumptions C30_shape_mismatch.

(** Linear in the operator; independent of the ket's phase and length; an
    eigenvector gives its eigenvalue; real for a Hermitian operator. *)
Theorem C30_linear : forall n (c d : C) (A B : cmat) v, nonzero n v -> exists a b,
  QuantumAverages (MkArr n v) (MkM n n A) = Ok (Num a) /\ QuantumAverages (MkArr n v) (MkM n n B) = Ok (Num b) /\
  QuantumAverages (MkArr n v) (MkM n n (fun i j => c * A i j + d * B i j)) = Ok (Num (c * a + d * b)).
Proof.
  intros n c d A B v Hv. exists (expectation n A v), (expectation n B v). rewrite !average_ok by assumption.
  split; [reflexivity|]. split; [reflexivity|]. now rewrite expectation_lin.
Qed.
Print Assumptions C30_linear.
Theorem C30_scale_invariant : forall n A c v, c <> c0 -> nonzero n v ->
  QuantumAverages (MkArr n (fun i => c * v i)) (MkM n n A) = QuantumAverages (MkArr n v) (MkM n n A).
Proof.
  intros n A c v Hc Hv. rewrite !average_ok; [|assumption|].
  - f_equal. f_equal. exact (expectation_scale n A c v Hc Hv).
  - destruct Hv as (i & Hi & H). exists i. split; [assumption|]. now apply Cmul_neq0.
Qed.
Print Assumptions C30_scale_invariant.
Theorem C30_eigenvector : forall n A l v, nonzero n v ->
  (forall i, (i < n)%nat -> csum n (fun j => A i j * v j) = l * v i) ->
  QuantumAverages (MkArr n v) (MkM n n A) = Ok (Num l).
Proof. intros n A l v Hv H. rewrite average_ok by assumption. f_equal. f_equal. now apply expectation_eigen. Qed.
Print Assumptions C30_eigenvector.
Theorem C30_hermitian_real : forall n A v, nonzero n v -> hermitian n A -> exists x : R,
  QuantumAverages (MkArr n v) (MkM n n A) = Ok (Num (RtoC x)).
Proof.
  intros n A v Hv H. exists (Re (expectation n A v)). rewrite average_ok by assumption. f_equal. f_equal. now apply expectation_real.
Qed.
Print Assumptions C30_hermitian_real.

(** TotalSpinAverages(n)(ket) = (<S^2>, <Sx>, <Sy>, <Sz>) of the total spin of n
    spins 1/2, for every non-zero ket of length 2^n. *)
Theorem C30_total_spin_averages : forall n, (0 < n)%nat -> exists f,
  TotalSpinAverages (NInt (Z.of_nat n)) = Ok f /\
  (forall v, nonzero (2 ^ n) v ->
     f (MkArr (2 ^ n) v) = Ok (Num (expectation (2 ^ n) (cm (total_s2 n)) v),
                               Num (expectation (2 ^ n) (cm (total_spin n SX)) v),
                               Num (expectation (2 ^ n) (cm (total_spin n SY)) v),
                               Num (expectation (2 ^ n) (cm (total_spin n SZ)) v))) /\
  (forall v, ~ nonzero (2 ^ n) v -> f (MkArr (2 ^ n) v) = Ok (Nan, Nan, Nan, Nan)) /\
  (forall ket, a_len ket <> (2 ^ n)%nat -> f ket = Err ValueError).
Proof.
  intros n Hn. destruct (total_averages_ok n Hn) as (sx & sy & sz & f & _ & E & H). exists f. exact (conj E H).
Qed.
Print Assumptions C30_total_spin_averages.
(** They are real and <S^2> is not negative. *)
Theorem C30_total_spin_real : forall n f v, (0 < n)%nat -> nonzero (2 ^ n) v ->
  TotalSpinAverages (NInt (Z.of_nat n)) = Ok f -> exists s2 sx sy sz : R,
  f (MkArr (2 ^ n) v) = Ok (Num (RtoC s2), Num (RtoC sx), Num (RtoC sy), Num (RtoC sz)) /\ (0 <= s2)%R.
Proof.
  intros n f v Hn Hv E. destruct (total_averages_ok n Hn) as (? & ? & ? & f' & _ & E' & H & _).
  rewrite E' in E. injection E as <-. rewrite H by assumption.
  exists (Re (expectation (2 ^ n) (cm (total_s2 n)) v)), (Re (expectation (2 ^ n) (cm (total_spin n SX)) v)),
         (Re (expectation (2 ^ n) (cm (total_spin n SY)) v)), (Re (expectation (2 ^ n) (cm (total_spin n SZ)) v)).
  split; [|apply s2_nonneg].
  rewrite <- (expectation_real _ _ v (s2_herm n)).
  rewrite <- (expectation_real _ _ v (total_spin_herm n SX ltac:(tauto))).
  rewrite <- (expectation_real _ _ v (total_spin_herm n SY ltac:(tauto))).
  rewrite <- (expectation_real _ _ v (total_spin_herm n SZ ltac:(tauto))). reflexivity.
Qed.
Print Assumptions C30_total_spin_real.
(** They agree with QuantumAverages of the matrices TotalSpinMatrices returns. *)
Theorem C30_consistent : forall n v sx sy sz f, (0 < n)%nat -> nonzero (2 ^ n) v ->
  TotalSpinMatrices (NInt (Z.of_nat n)) = Ok (Some sx, Some sy, Some sz) ->
  TotalSpinAverages (NInt (Z.of_nat n)) = Ok f -> exists s2 ax ay az,
  f (MkArr (2 ^ n) v) = Ok (s2, Num ax, Num ay, Num az) /\
  QuantumAverages (MkArr (2 ^ n) v) (of_smat sx) = Ok (Num ax) /\
  (exists t, QuantumAverages (MkArr (2 ^ n) v) (of_smat sy) = Ok (Num t) /\ ay = Ci * t) /\
  QuantumAverages (MkArr (2 ^ n) v) (of_smat sz) = Ok (Num az).
Proof.
  intros n v sx sy sz f Hn Hv EM EF.
  destruct (Spin_Proofs3.TotalSpin_ok n Hn) as (sx' & sy' & sz' & E & (X1 & X2 & _) & (Y1 & Y2 & _) & (Z1 & Z2 & _)).
  rewrite E in EM. injection EM as -> -> ->. unfold TotalSpinAverages in EF. rewrite E in EF. cbn [bind] in EF. injection EF as <-.
  unfold of_smat. rewrite X1, X2, Y1, Y2, Z1, Z2. rewrite calculator_ok by assumption. unfold calc.
  eexists _, _, _, _. split; [reflexivity|]. rewrite !average_ok by assumption. unfold expectation. rewrite !inner_self.
  assert (G : forall a, a / RtoC (norm2 (2 ^ n) v) = RtoC (/ norm2 (2 ^ n) v) * a).
  { intros a. unfold Cdiv. rewrite RtoC_inv by now apply nonzero_norm2. ring. }
  rewrite !G. split; [reflexivity|]. split; [|reflexivity]. eexists. split; [reflexivity|]. ring.
Qed.
Print Assumptions C30_consistent.

(** Non-vacuity: one spin in the state (1, i): <Sy> = 1/2, <S^2> = 3/4. *)
Definition psi_y : vec := fun i => match i with O => c1 | S O => Ci | _ => c0 end.
Lemma psi_y_nonzero : nonzero 2 psi_y.
Proof. exists 0%nat. split; [lia|]. cbn. apply RtoC_neq0. lra. Qed.
Example C30_example : exists f s2 sx sz,
  TotalSpinAverages (NInt 1) = Ok f /\ f (MkArr 2 psi_y) = Ok (s2, sx, Num (RtoC (1 / 2)), sz).
Proof.
  destruct (C30_total_spin_averages 1 ltac:(lia)) as (f & E & H & _). exists f. eexists _, _, _.
  split; [exact E|]. specialize (H psi_y psi_y_nonzero). change (2 ^ 1)%nat with 2%nat in H. rewrite H.
  replace (expectation 2 (cm (total_spin 1 SY)) psi_y) with (RtoC (1 / 2)); [reflexivity|].
  symmetry. apply expectation_eigen; [exact psi_y_nonzero|].
  intros i Hi. destruct i as [|[|i]]; [| |lia]; unfold mv, vscale, cm, psi_y, total_spin, spin_at; cbn -[emb];
    rewrite !emb_add, ?emb_opp, ?emb_mul, ?emb_i, !emb_0; replace (emb ghalf) with (RtoC (1/2)) by (apply C_eq; cbn; unfold Q2R; cbn; field);
    apply C_eq; cbn; field.
Qed.
