(** C30, continued: kets given as the columns of a two-dimensional array. *)
From Coq Require Import Reals List ZArith Bool Arith Lia Lra Qreals.
From Coquelicot Require Import Complex.
From Verif Require Import Py GQ Mat CVec State_Model Spin_Model Spin_Spec Averages_Model Averages_Spec Averages_Proofs Averages_Properties CPT_Proofs2 Averages2_Model Averages2_Spec.
Local Open Scope nat_scope.
Local Open Scope C_scope.

(** ** Lemmas *)
Lemma csum_flat n m (f : nat -> nat -> C) : csum (n * m) (fun p => f (p / m)%nat (p mod m)%nat) = csum n (fun i => csum m (fun c => f i c)).
Proof.
  induction n as [|n IH]; [reflexivity|]. replace (S n * m)%nat with (n * m + m)%nat by lia. rewrite csum_block, IH. cbn [csum].
  f_equal. apply csum_ext. intros c Hc. f_equal; [rewrite Nat.add_comm, Nat.div_add, Nat.div_small by lia; lia|rewrite Nat.add_comm, Nat.mod_add, Nat.mod_small by lia; reflexivity].
Qed.
Definition flat (m : nat) (K : nat -> nat -> C) : vec := fun p => K (p / m)%nat (p mod m)%nat.
Definition big (m : nat) (A : cmat) : cmat := fun p q => if Nat.eqb (p mod m) (q mod m) then A (p / m)%nat (q / m)%nat else c0.
Lemma inner_flat n m K L : inner (n * m) (flat m K) (flat m L) = csum m (fun c => inner n (fun i => K i c) (fun i => L i c)).
Proof. unfold inner, flat. rewrite (csum_flat n m (fun i c => Cj (K i c) * L i c)). apply csum_swap. Qed.
Lemma mv_flat n m A K p : (0 < m)%nat -> mv (n * m) (big m A) (flat m K) p = csum n (fun j => A (p / m)%nat j * K j (p mod m)%nat).
Proof.
  intros Hm. unfold mv, big, flat. rewrite (csum_flat n m (fun j c => (if Nat.eqb (p mod m) c then A (p / m)%nat j else c0) * K j c)). apply csum_ext. intros j Hj.
  rewrite (csum_single m _ (p mod m)%nat); [now rewrite Nat.eqb_refl|apply Nat.mod_upper_bound; lia|]. intros c Hc N. destruct (Nat.eqb_spec (p mod m) c); [congruence|]. change c0 with (RtoC 0). ring.
Qed.
Lemma div_lt n m p : (p < n * m)%nat -> (p / m < n)%nat.
Proof. intros H. apply Nat.div_lt_upper_bound; lia. Qed.
Lemma sandwich_flat n m A K : (0 < m)%nat -> sandwich (n * m) (flat m K) (big m A) (flat m K) = csum m (fun c => sandwich n (fun i => K i c) A (fun i => K i c)).
Proof.
  intros Hm. unfold sandwich. rewrite (inner_ext (n * m) _ (flat m K) _ (flat m (fun i c => csum n (fun j => A i j * K j c)))).
  - rewrite inner_flat. reflexivity.
  - intros i _. reflexivity.
  - intros p _. rewrite mv_flat by exact Hm. reflexivity.
Qed.
Lemma square_flat n m A K : (0 < m)%nat -> inner (n * m) (mv (n * m) (big m A) (flat m K)) (mv (n * m) (big m A) (flat m K)) =
  csum m (fun c => inner n (mv n A (fun i => K i c)) (mv n A (fun i => K i c))).
Proof.
  intros Hm. assert (E : veqn (n * m) (mv (n * m) (big m A) (flat m K)) (flat m (fun i c => csum n (fun j => A i j * K j c)))) by (intros p _; rewrite mv_flat by exact Hm; reflexivity).
  rewrite (inner_ext _ _ _ _ _ E E), inner_flat. reflexivity.
Qed.
Lemma vdot_flat n m K L : vdot (ravel (MkK n m K)) (ravel (MkK n m L)) = Ok (inner (n * m) (flat m K) (flat m L)).
Proof. unfold vdot, ravel. cbn [a_len k_rows k_cols]. now rewrite Nat.eqb_refl. Qed.
Lemma average2 n m A K : (0 < m)%nat -> QuantumAverages2 (MkK n m K) (MkM n n A) = QuantumAverages (MkArr (n * m) (flat m K)) (MkM (n * m) (n * m) (big m A)).
Proof.
  intros Hm. unfold QuantumAverages2, QuantumAverages, dot_block, dot_ket, vdot_block. cbn [m_cols m_rows m_el a_len a_el k_rows k_cols k_el]. rewrite !Nat.eqb_refl. cbn [bind].
  rewrite !vdot_flat. unfold vdot. cbn [a_len a_el]. rewrite !Nat.eqb_refl. cbn [bind]. do 2 f_equal. apply inner_ext; [intros i _; reflexivity|]. intros p _. rewrite mv_flat by exact Hm. reflexivity.
Qed.
Lemma calculator2 n m X Y Z K : (0 < m)%nat -> averages_calculator2 (MkM n n X) (MkM n n Y) (MkM n n Z) (MkK n m K) =
  averages_calculator (MkM (n * m) (n * m) (big m X)) (MkM (n * m) (n * m) (big m Y)) (MkM (n * m) (n * m) (big m Z)) (MkArr (n * m) (flat m K)).
Proof.
  intros Hm. unfold averages_calculator2, averages_calculator, ravel, dot_block, dot_ket. cbn [m_cols m_rows m_el a_len a_el k_rows k_cols k_el].
  destruct (Nat.eqb_spec m 0) as [|_]; [lia|]. change (fun p => K (p / m)%nat (p mod m)%nat) with (flat m K). destruct (Req_EM_T _ 0); rewrite !Nat.eqb_refl; cbn [bind]; [reflexivity|].
  set (r := RtoC (norm (n * m) (flat m K))). unfold vdot_block. rewrite !vdot_flat. unfold vdot. cbn [m_cols m_rows m_el a_len a_el]. rewrite !Nat.eqb_refl. cbn [bind].
  assert (E : forall A, veqn (n * m) (flat m (fun i c => csum n (fun j => A i j * (K j c / r)))) (mv (n * m) (big m A) (fun i => flat m K i / r))).
  { intros A p _. change (fun i => flat m K i / r) with (flat m (fun i c => K i c / r)). rewrite mv_flat by exact Hm. reflexivity. }
  assert (E0 : veqn (n * m) (flat m (fun i c => K i c / r)) (fun i => flat m K i / r)) by (intros p _; reflexivity).
  rewrite (inner_ext _ _ _ _ _ E0 (E X)), (inner_ext _ _ _ _ _ E0 (E Y)), (inner_ext _ _ _ _ _ E0 (E Z)), (inner_ext _ _ _ _ _ (E X) (E X)), (inner_ext _ _ _ _ _ (E Y) (E Y)), (inner_ext _ _ _ _ _ (E Z) (E Z)). reflexivity.
Qed.

(** ** The theorems *)
Lemma flat_nonzero n m K : some_entry n m K <-> nonzero (n * m) (flat m K).
Proof.
  split.
  - intros (i & c & Hi & Hc & H). exists (i * m + c)%nat. split; [nia|]. unfold flat. rewrite Nat.add_comm, Nat.div_add, Nat.div_small, Nat.mod_add, Nat.mod_small by lia. exact H.
  - intros (p & Hp & H). exists (p / m)%nat, (p mod m)%nat. split; [now apply div_lt|]. split; [apply Nat.mod_upper_bound; lia|exact H].
Qed.
Lemma flat_norm2 n m K : norm2 (n * m) (flat m K) = rsum m (fun c => norm2 n (fun i => K i c)).
Proof.
  apply RtoC_inj. rewrite <- inner_self, inner_flat, <- csum_R. apply csum_ext. intros c _. apply inner_self.
Qed.
Lemma mixture_sum n m K A (g : nat -> C) : some_entry n m K -> (forall c, (c < m)%nat -> g c = RtoC (norm2 n (fun i => K i c)) * expectation n A (fun i => K i c)) ->
  RtoC (/ norm2 (n * m) (flat m K)) * csum m g = mixture n m K A.
Proof.
  intros H E. unfold mixture. rewrite <- csum_mul_l. apply csum_ext. intros c Hc. rewrite (E c Hc). unfold weight. rewrite <- flat_norm2. unfold Rdiv. rewrite RtoC_mult. ring.
Qed.
Lemma sandwich_expectation n A v : sandwich n v A v = RtoC (norm2 n v) * expectation n A v.
Proof.
  unfold expectation. rewrite inner_self. destruct (Req_dec (norm2 n v) 0) as [Z|Z].
  - assert (V : forall i, (i < n)%nat -> v i = c0).
    { intros i Hi. destruct (Ceq_dec (v i) c0) as [E|E]; [exact E|]. exfalso. apply (proj1 (nonzero_norm2 n v)); [now exists i|exact Z]. }
    rewrite Z. unfold sandwich, inner. rewrite csum_zero; [change c0 with (RtoC 0); ring|]. intros i Hi. rewrite (V i Hi), Cj_0. change c0 with (RtoC 0). ring.
  - field. now apply RtoC_neq0.
Qed.

(** The weights are those of a mixed state. *)
Theorem C30_weights : forall n m K, some_entry n m K ->
  (forall c, (c < m)%nat -> (0 <= weight n m K c)%R) /\ rsum m (weight n m K) = 1%R.
Proof.
  intros n m K H. pose proof (norm2_pos _ _ (proj1 (flat_nonzero n m K) H)) as P. rewrite flat_norm2 in P. split.
  - intros c Hc. unfold weight. apply Rmult_le_pos; [apply norm2_nonneg|]. apply Rlt_le, Rinv_0_lt_compat. exact P.
  - apply RtoC_inj. rewrite <- csum_R. unfold weight, Rdiv. rewrite (csum_ext m _ (fun c => RtoC (norm2 n (fun i => K i c)) * RtoC (/ rsum m (fun c0 => norm2 n (fun i => K i c0))))) by (intros; now rewrite RtoC_mult).
    rewrite csum_mul_r, csum_R, <- RtoC_mult. f_equal. field. lra.
Qed.
Print Assumptions C30_weights.

(** QuantumAverages of an (n, m) array: the average over the mixture of its columns (over the
    column itself if m = 1); nan if all entries are 0; ValueError if the shapes do not match. *)
Theorem C30_columns : forall n m (K : nat -> nat -> C) A, (0 < m)%nat ->
  (some_entry n m K -> QuantumAverages2 (MkK n m K) (MkM n n A) = Ok (Num (mixture n m K A))) /\
  (~ some_entry n m K -> QuantumAverages2 (MkK n m K) (MkM n n A) = Ok Nan) /\
  (forall rows cols B, rows <> n \/ cols <> n -> QuantumAverages2 (MkK n m K) (MkM rows cols B) = Err ValueError) /\
  (m = 1%nat -> QuantumAverages2 (MkK n m K) (MkM n n A) = QuantumAverages (MkArr n (fun i => K i 0%nat)) (MkM n n A)).
Proof.
  intros n m K A Hm.
  assert (P1 : some_entry n m K -> QuantumAverages2 (MkK n m K) (MkM n n A) = Ok (Num (mixture n m K A))).
  { intros H. rewrite average2 by exact Hm. pose proof (proj1 (flat_nonzero n m K) H) as NZ. rewrite C30_expectation_value by exact NZ. do 2 f_equal.
    unfold expectation. rewrite inner_self, sandwich_flat by exact Hm. unfold Cdiv. rewrite Cmult_comm, <- RtoC_inv by (now apply nonzero_norm2). apply mixture_sum; [exact H|]. intros c _. apply sandwich_expectation. }
  assert (P2 : ~ some_entry n m K -> QuantumAverages2 (MkK n m K) (MkM n n A) = Ok Nan).
  { intros H. rewrite average2 by exact Hm. apply C30_zero_ket_is_nan. intros Q. now apply H, flat_nonzero. }
  split; [exact P1|]. split; [exact P2|]. split.
  - intros rows cols B H. unfold QuantumAverages2, dot_block. cbn [m_cols k_rows]. destruct (Nat.eqb_spec cols n) as [->|]; [|reflexivity]. cbn [bind]. unfold vdot_block, vdot, ravel. cbn [m_rows a_len k_rows k_cols].
    destruct (Nat.eqb_spec (n * m) (rows * m)) as [E|]; [|reflexivity]. exfalso. apply Nat.mul_cancel_r in E; [|lia]. destruct H; congruence.
  - intros ->. assert (SE : some_entry n 1 K <-> nonzero n (fun i => K i 0%nat)).
    { split; [intros (i & c & Hi & Hc & H); exists i; split; [exact Hi|]; replace 0%nat with c by lia; exact H|intros (i & Hi & H); exists i, 0%nat; repeat split; auto; lia]. }
    rewrite average2 by lia. destruct (Req_dec (norm2 n (fun i => K i 0%nat)) 0) as [Z|Z].
    + assert (NZ : ~ nonzero n (fun i => K i 0%nat)) by (intros Q; now apply nonzero_norm2 in Q). rewrite !C30_zero_ket_is_nan; auto. intros Q. apply NZ, SE, flat_nonzero, Q.
    + assert (NZ : nonzero n (fun i => K i 0%nat)) by now apply nonzero_norm2. rewrite !C30_expectation_value; auto; [|now apply flat_nonzero, SE]. do 2 f_equal. unfold expectation. rewrite sandwich_flat by lia. rewrite inner_flat. cbn [csum]. f_equal; change c0 with (RtoC 0); ring.
Qed.
Print Assumptions C30_columns.

(** The function returned by TotalSpinAverages: the averages of S^2, Sx, Sy, Sz over the mixture. *)
Theorem C30_total_spin_columns : forall n, (0 < n)%nat -> exists f,
  TotalSpinAverages2 (NInt (Z.of_nat n)) = Ok f /\
  (forall m K, (0 < m)%nat -> some_entry (2 ^ n) m K ->
     f (MkK (2 ^ n) m K) = Ok (Num (mixture (2 ^ n) m K (cm (total_s2 n))), Num (mixture (2 ^ n) m K (cm (total_spin n SX))),
                               Num (mixture (2 ^ n) m K (cm (total_spin n SY))), Num (mixture (2 ^ n) m K (cm (total_spin n SZ))))) /\
  (forall m K, (0 < m)%nat -> ~ some_entry (2 ^ n) m K -> f (MkK (2 ^ n) m K) = Ok (Nan, Nan, Nan, Nan)) /\
  (forall K, k_rows K <> (2 ^ n)%nat -> f K = Err ValueError).
Proof.
  intros n Hn. destruct (total_averages_ok n Hn) as (sx & sy & sz & f1 & E & E1 & V1 & Z1 & M1).
  destruct (Spin_Proofs3.TotalSpin_ok n Hn) as (sx' & sy' & sz' & E' & (X1 & X2 & _) & (Y1 & Y2 & _) & (W1 & W2 & _)). rewrite E in E'. injection E' as <- <- <-.
  exists (averages_calculator2 (of_smat sx) (of_smat sy) (of_smat sz)). split; [unfold TotalSpinAverages2; now rewrite E|].
  unfold TotalSpinAverages in E1. rewrite E in E1. cbn [bind] in E1. injection E1 as <-. set (d := (2 ^ n)%nat) in *.
  assert (OX : of_smat sx = MkM d d (fun i j => emb (s_ent sx i j))) by (unfold of_smat; now rewrite X1, X2).
  assert (OY : of_smat sy = MkM d d (fun i j => emb (s_ent sy i j))) by (unfold of_smat; now rewrite Y1, Y2).
  assert (OZ : of_smat sz = MkM d d (fun i j => emb (s_ent sz i j))) by (unfold of_smat; now rewrite W1, W2). rewrite OX, OY, OZ in *.
  set (X := fun i j => emb (s_ent sx i j)) in *. set (Y := fun i j => emb (s_ent sy i j)) in *. set (Z := fun i j => emb (s_ent sz i j)) in *.
  split; [|split].
  - intros m K Hm H. rewrite calculator2 by exact Hm. rewrite calculator_ok by now apply flat_nonzero. unfold calc.
    assert (NC : forall c, (c < m)%nat -> ~ nonzero d (fun i => K i c) -> forall A : cmat, mv d A (fun i => K i c) = fun _ => c0).
    { intros c _ NZ A. apply FunctionalExtensionality.functional_extensionality. intros i. unfold mv. apply csum_zero. intros j Hj. destruct (Ceq_dec (K j c) c0) as [->|Q]; [change c0 with (RtoC 0); ring|]. elim NZ. now exists j. }
    assert (IV : forall c, (c < m)%nat -> let v := fun i => K i c in
       inner d (mv d Y v) (mv d Y v) + inner d (mv d X v) (mv d X v) + inner d (mv d Z v) (mv d Z v) = RtoC (norm2 d v) * expectation d (cm (total_s2 n)) v /\
       sandwich d v X v = RtoC (norm2 d v) * expectation d (cm (total_spin n SX)) v /\
       Ci * sandwich d v Y v = RtoC (norm2 d v) * expectation d (cm (total_spin n SY)) v /\
       sandwich d v Z v = RtoC (norm2 d v) * expectation d (cm (total_spin n SZ)) v).
    { intros c Hc v. destruct (Req_dec (norm2 d v) 0) as [N0|N0].
      - assert (NZ : ~ nonzero d v) by (intros Q; now apply nonzero_norm2 in Q). rewrite N0. unfold sandwich. unfold v. rewrite !(NC c Hc NZ). 
        assert (I0 : forall u, inner d u (fun _ => c0) = RtoC 0) by (intros u; unfold inner; apply csum_zero; intros; change c0 with (RtoC 0); ring). rewrite !I0. repeat split; ring.
      - assert (NZ : nonzero d v) by now apply nonzero_norm2. pose proof (V1 v NZ) as Q. rewrite calculator_ok in Q by exact NZ. unfold calc in Q. assert (PQ : forall a b c e a' b' c' e', @Ok (npc * npc * npc * npc) (Num a, Num b, Num c, Num e) = Ok (Num a', Num b', Num c', Num e') -> a' = a /\ b' = b /\ c' = c /\ e' = e) by (clear; intros; repeat split; congruence). apply PQ in Q as (-> & -> & -> & ->).
        assert (U : forall a, a = RtoC (norm2 d v) * (RtoC (/ norm2 d v) * a)) by (intros a; rewrite RtoC_inv by exact N0; field; now apply RtoC_neq0). repeat split; apply U. }
    f_equal. rewrite !square_flat, !sandwich_flat by exact Hm. rewrite <- !csum_add, <- !csum_mul_l.
    assert (G : forall A g, (forall c, (c < m)%nat -> g c = RtoC (norm2 d (fun i => K i c)) * expectation d A (fun i => K i c)) -> csum m (fun c => RtoC (/ norm2 (d * m) (flat m K)) * g c) = mixture d m K A).
    { intros A g Q. rewrite csum_mul_l. now apply mixture_sum. }
    rewrite (G (cm (total_s2 n))) by (intros c Hc; apply (IV c Hc)). rewrite (G (cm (total_spin n SX))) by (intros c Hc; apply (IV c Hc)).
    rewrite (G (cm (total_spin n SY))) by (intros c Hc; apply (IV c Hc)). rewrite (G (cm (total_spin n SZ))) by (intros c Hc; apply (IV c Hc)). reflexivity.
  - intros m K Hm H. rewrite calculator2 by exact Hm. unfold averages_calculator. cbn [a_len a_el]. destruct (Req_EM_T (norm (d * m) (flat m K)) 0) as [_|G].
    + unfold dot_ket. cbn [m_cols a_len]. rewrite Nat.eqb_refl. reflexivity.
    + exfalso. apply H, flat_nonzero, nonzero_norm, G.
  - intros [r m K] Hr. cbn [k_rows] in Hr. unfold averages_calculator2, dot_block. cbn [k_cols k_rows m_cols].
    destruct (Nat.eqb_spec d r) as [E2|_]; [congruence|]. destruct (Nat.eqb m 0); [reflexivity|]. destruct (Req_EM_T _ 0); reflexivity.
Qed.
Print Assumptions C30_total_spin_columns.

(** Non-vacuity: up and down in equal shares: <Sz> is 0 and <S^2> = 3/4. *)
Definition half_half (i c : nat) : C := if Nat.eqb i c then c1 else c0.
Example C30_columns_case : some_entry 2 2 half_half /\ weight 2 2 half_half 0 = (1 / 2)%R /\
  exists f s2 ax ay, TotalSpinAverages2 (NInt 1) = Ok f /\ f (MkK 2 2 half_half) = Ok (s2, ax, ay, Num (RtoC 0)).
Proof.
  assert (H : some_entry 2 2 half_half) by (exists 0%nat, 0%nat; repeat split; try lia; cbn; intros Q; apply RtoC_inj in Q; lra). split; [exact H|].
  assert (W : forall c, (c < 2)%nat -> weight 2 2 half_half c = (1 / 2)%R) by (intros c Hc; unfold weight, norm2, half_half; destruct c as [|[|]]; [| |lia]; cbn; lra).
  split; [apply W; lia|]. destruct (C30_total_spin_columns 1 ltac:(lia)) as (f & E & V & _). exists f. do 3 eexists. split; [exact E|].
  specialize (V 2%nat half_half ltac:(lia) H). change (2 ^ 1)%nat with 2%nat in V. rewrite V. do 3 f_equal. unfold mixture. rewrite (csum_ext 2 _ (fun c => RtoC (1 / 2) * expectation 2 (cm (total_spin 1 SZ)) (fun i => half_half i c))) by (intros c Hc; now rewrite W).
  rewrite csum_mul_l. cbn [csum]. 
  rewrite (expectation_eigen 2 _ (RtoC (1 / 2)) (fun i => half_half i 0)), (expectation_eigen 2 _ (RtoC (- (1 / 2))) (fun i => half_half i 1)).
  - apply C_eq; cbn; lra.
  - exists 1%nat. split; [lia|]. cbn. intros Q; apply RtoC_inj in Q; lra.
  - intros i Hi. destruct i as [|[|i]]; [| |lia]; unfold mv, vscale, cm, half_half, total_spin, spin_at; cbn -[emb];
      rewrite !emb_add, ?emb_opp, ?emb_mul, ?emb_i, !emb_0; replace (emb ghalf) with (RtoC (1/2)) by (apply C_eq; cbn; unfold Q2R; cbn; field);
      apply C_eq; cbn; field.
  - exists 0%nat. split; [lia|]. cbn. intros Q; apply RtoC_inj in Q; lra.
  - intros i Hi. destruct i as [|[|i]]; [| |lia]; unfold mv, vscale, cm, half_half, total_spin, spin_at; cbn -[emb];
      rewrite !emb_add, ?emb_opp, ?emb_mul, ?emb_i, !emb_0; replace (emb ghalf) with (RtoC (1/2)) by (apply C_eq; cbn; unfold Q2R; cbn; field);
      apply C_eq; cbn; field.
Qed.
