(** Error bounds for the steps of KPath in doubles. *)
From Coq Require Import List ZArith Bool Reals Lra Lia Arith Floats.SpecFloat.
From Flocq Require Import Core Relative Plus_error IEEE754.BinarySingleNaN.
From Verif Require Import Py Float64_Model Float64_Proofs KPath_Model KPath_Spec PandC_Proofs KPath_Proofs KPathFloat_Proofs KPathFloat2_Proofs.
Import ListNotations.
Open Scope R_scope.
#[local] Instance Hp64'' : Prec_gt_0 prec64. Proof. reflexivity. Qed.

Definition u : R := 1 / 5000000000000000.
Lemma u_bound : bpow radix2 (-53) <= u.
Proof. unfold u. replace (bpow radix2 (-53)) with (/ IZR (2 ^ 53)) by reflexivity. change (2 ^ 53)%Z with 9007199254740992%Z. lra. Qed.
Lemma half_ulp : / 2 * bpow radix2 (Z.opp 53 + 1) = bpow radix2 (-53).
Proof. change (Z.opp 53 + 1)%Z with (-52)%Z. change (/ 2) with (bpow radix2 (-1)). now rewrite <- bpow_plus. Qed.
Definition eta : R := bpow radix2 (-1075).
Lemma eta_pos : 0 < eta. Proof. apply bpow_gt_0. Qed.
Lemma eta_small : eta <= 1 / 1000000000000000000000000000000000000000000000000.
Proof.
  unfold eta. apply Rle_trans with (bpow radix2 (-160)); [apply bpow_le; lia|]. replace (bpow radix2 (-160)) with (/ IZR (2 ^ 160)) by reflexivity. unfold Rdiv. rewrite Rmult_1_l. apply Rinv_le; [lra|]. apply IZR_le. vm_compute. discriminate.
Qed.
(** any rounding *)
Lemma rnd_err x : exists e h, Rabs e <= u /\ Rabs h <= eta /\ rnd64 x = x * (1 + e) + h.
Proof.
  destruct (error_N_FLT radix2 (-1074) 53 eq_refl (fun z => negb (Z.even z)) x) as (e & h & He & Hh & _ & E). exists e, h. split; [|split; [|exact E]].
  - rewrite half_ulp in He. eapply Rle_trans; [exact He|apply u_bound].
  - eapply Rle_trans; [exact Hh|]. unfold eta. change (/ 2) with (bpow radix2 (-1)). rewrite <- bpow_plus. apply Rle_refl.
Qed.
Lemma u_pos : 0 < u. Proof. unfold u. lra. Qed.
Lemma rnd_nonneg_bounds x : 0 <= x -> x * (1 - u) - eta <= rnd64 x <= x * (1 + u) + eta.
Proof. intros P. destruct (rnd_err x) as (e & h & He & Hh & ->). apply Rabs_le_inv in He, Hh. assert (x * - u <= x * e <= x * u) by (split; apply Rmult_le_compat_l; lra). lra. Qed.
(** sums and differences of doubles *)
Lemma rnd_sum k l x y : within k x -> within l y ->
  exists e e', Rabs e <= u /\ Rabs e' <= u /\ rnd64 (f2R x + f2R y) = (f2R x + f2R y) * (1 + e) /\ rnd64 (f2R x - f2R y) = (f2R x - f2R y) * (1 + e').
Proof.
  intros (Vx & Fx & _) (Vy & Fy & _).
  assert (K : forall a b, generic_format radix2 (FLT_exp (-1074) 53) a -> generic_format radix2 (FLT_exp (-1074) 53) b -> exists e, Rabs e <= u /\ rnd64 (a + b) = (a + b) * (1 + e)).
  { intros a b Fa Fb. destruct (FLT_plus_error_N_ex radix2 (-1074) 53 (fun z => negb (Z.even z)) a b Fa Fb) as (e & He & E). exists e. split; [|exact E]. eapply Rle_trans; [exact He|]. eapply Rle_trans; [|apply u_bound]. unfold u_ro. rewrite half_ulp. pose proof (bpow_gt_0 radix2 (-53)) as P.
    apply Rle_trans with (bpow radix2 (-53) / 1); [|lra]. apply Rmult_le_compat_l; [lra|]. apply Rinv_le; lra. }
  assert (G : forall z, fvalid z = true -> ffinite z = true -> generic_format radix2 (FLT_exp (-1074) 53) (f2R z)).
  { intros z Vz Fz. rewrite <- (valid_format z Vz Fz). apply generic_format_round; auto with typeclass_instances. }
  destruct (K _ _ (G x Vx Fx) (G y Vy Fy)) as (e & He & E). destruct (K _ _ (G x Vx Fx) (generic_format_opp _ _ _ (G y Vy Fy))) as (e' & He' & E'). exists e, e'. auto.
Qed.

(** ** the length of a leg *)
Lemma square_bounds a b : within 400 a -> within 400 b -> let x := (f2R b - f2R a) * (f2R b - f2R a) in
  within 802 (fmul (fsub b a) (fsub b a)) /\ x * (1 - 4 * u) - eta <= f2R (fmul (fsub b a) (fsub b a)) <= x * (1 + 4 * u) + eta.
Proof.
  intros Wa Wb x. destruct (within_sub 400 b a) as [W E]; [lia|exact Wb|exact Wa|]. change (400 + 1)%Z with 401%Z in W. destruct (within_mul 401 401 _ _ ltac:(lia) W W) as [W2 E2]. split; [exact W2|]. rewrite E2, E.
  destruct (rnd_sum 400 400 b a Wb Wa) as (_ & e & _ & He & _ & ->). set (t := f2R b - f2R a) in *. replace (t * (1 + e) * (t * (1 + e))) with (x * ((1 + e) * (1 + e))) by (unfold x; ring).
  assert (X : 0 <= x) by (unfold x; nra). apply Rabs_le_inv in He. pose proof u_pos as U0. assert (EE : 0 <= e * e <= u * u) by (split; nra). assert (Q : 1 - 2 * u - u * u <= (1 + e) * (1 + e) <= 1 + 2 * u + u * u) by lra.
  pose proof (rnd_nonneg_bounds (x * ((1 + e) * (1 + e))) ltac:(apply Rmult_le_pos; [exact X|unfold u in *; lra])) as B.
  assert (L : x * (1 - 2 * u - u * u) <= x * ((1 + e) * (1 + e)) <= x * (1 + 2 * u + u * u)) by (split; apply Rmult_le_compat_l; lra).
  unfold u in *. lra.
Qed.
Lemma add_bounds k x y p q : (0 <= k <= 900)%Z -> within k x -> within k y -> 0 <= f2R x -> 0 <= f2R y -> 0 <= p -> 0 <= q -> 
  p * (1 - 6 * u) - 2 * eta <= f2R x <= p * (1 + 6 * u) + 2 * eta -> q * (1 - 4 * u) - eta <= f2R y <= q * (1 + 4 * u) + eta ->
  (p + q) * (1 - 8 * u) - 6 * eta <= f2R (fadd x y) <= (p + q) * (1 + 8 * u) + 6 * eta.
Proof.
  intros Hk Wx Wy Px Py Pp Pq Bx By. destruct (within_add k x y ltac:(lia) Wx Wy) as [_ ->]. pose proof (rnd_nonneg_bounds (f2R x + f2R y) ltac:(lra)) as B. pose proof eta_pos. unfold u in *. lra.
Qed.
Definition t0 : R := 7378697629483821 / 73786976294838206464.
Definition t1 : R := 7378697629483820 / 73786976294838206464.
Lemma tiny_value : f2R (tiny float_arith) = t0.
Proof. cbn [tiny float_arith f2R SF2R cond_Zopp]. unfold F2R, t0. cbn [Fnum Fexp]. replace (bpow radix2 (-66)) with (/ IZR (2 ^ 66)) by reflexivity. reflexivity. Qed.
Lemma below_value : rnd64 t1 = t1.
Proof.
  apply round_generic; auto with typeclass_instances. apply generic_format_FLT. exists (Float radix2 7378697629483820 (-66)); cbn [Fnum Fexp]; [|reflexivity|lia].
  unfold F2R, t1. cbn [Fnum Fexp]. replace (bpow radix2 (-66)) with (/ IZR (2 ^ 66)) by reflexivity. reflexivity.
Qed.
Lemma square_nonneg x : 0 <= x * x. Proof. nra. Qed.
Lemma norm_bounds p q : (length p = 2 \/ length p = 3)%nat -> length q = length p -> (forall x, In x p -> within 400 x) -> (forall x, In x q -> within 400 x) ->
  exists S, f2R (row_norm float_arith (row_sub float_arith q p)) = rnd64 (sqrt S) /\
    let X := sum_squares (map f2R p) (map f2R q) in X * (1 - 12 * u) - 20 * eta <= S <= X * (1 + 12 * u) + 20 * eta.
Proof.
  intros L Lq Hp Hq. pose proof eta_pos as E0. pose proof u_pos as U0.
  assert (PF : forall a b, within 400 a -> within 400 b -> 0 <= f2R (fmul (fsub b a) (fsub b a))).
  { intros a b Wa Wb. destruct (within_sub 400 b a) as [W _]; [lia|exact Wb|exact Wa|]. now apply square_within. }
  destruct p as [|a0 [|a1 r]]; cbn [length] in L; try lia. destruct q as [|b0 [|b1 r']]; try discriminate Lq.
  assert (A0 : within 400 a0) by (apply Hp; now left). assert (A1 : within 400 a1) by (apply Hp; right; now left). assert (B0 : within 400 b0) by (apply Hq; now left). assert (B1 : within 400 b1) by (apply Hq; right; now left).
  destruct (square_bounds a0 b0 A0 B0) as [W0 Q0]. destruct (square_bounds a1 b1 A1 B1) as [W1 Q1]. pose proof (PF a0 b0 A0 B0) as P0. pose proof (PF a1 b1 A1 B1) as P1.
  set (x0 := (f2R b0 - f2R a0) * (f2R b0 - f2R a0)) in *. set (x1 := (f2R b1 - f2R a1) * (f2R b1 - f2R a1)) in *. assert (X0 : 0 <= x0) by apply square_nonneg. assert (X1 : 0 <= x1) by apply square_nonneg.
  set (s0 := fmul (fsub b0 a0) (fsub b0 a0)) in *. set (s1 := fmul (fsub b1 a1) (fsub b1 a1)) in *.
  pose proof (add_bounds 802 s0 s1 x0 x1 ltac:(lia) W0 W1 P0 P1 X0 X1 ltac:(unfold u in *; lra) Q1) as Q01. destruct (within_add 802 s0 s1 ltac:(lia) W0 W1) as [W01 E01]. assert (P01 : 0 <= f2R (fadd s0 s1)) by (rewrite E01; apply rnd64_nonneg; lra).
  change (802 + 1)%Z with 803%Z in W01.
  destruct r as [|a2 [|? ?]]; cbn [length] in L; try lia; (destruct r' as [|b2 [|? ?]]; try discriminate Lq).
  - destruct (within_sqrt 803 (fadd s0 s1) ltac:(lia) W01 P01) as [_ E]. exists (f2R (fadd s0 s1)). split; [exact E|]. cbn [map sum_squares]. fold x0 x1. unfold u in *. lra.
  - assert (A2 : within 400 a2) by (apply Hp; right; right; now left). assert (B2 : within 400 b2) by (apply Hq; right; right; now left).
    destruct (square_bounds a2 b2 A2 B2) as [W2 Q2]. pose proof (PF a2 b2 A2 B2) as P2. set (x2 := (f2R b2 - f2R a2) * (f2R b2 - f2R a2)) in *. assert (X2 : 0 <= x2) by apply square_nonneg. set (s2 := fmul (fsub b2 a2) (fsub b2 a2)) in *.
    destruct (within_add 803 (fadd s0 s1) s2 ltac:(lia) W01 (within_le 802 803 s2 ltac:(lia) W2)) as [W012 E012]. pose proof (rnd_nonneg_bounds (f2R (fadd s0 s1) + f2R s2) ltac:(lra)) as B. rewrite <- E012 in B.
    assert (P012 : 0 <= f2R (fadd (fadd s0 s1) s2)) by (rewrite E012; apply rnd64_nonneg; lra). change (803 + 1)%Z with 804%Z in W012.
    destruct (within_sqrt 804 _ ltac:(lia) W012 P012) as [_ E]. exists (f2R (fadd (fadd s0 s1) s2)). split; [exact E|]. cbn [map sum_squares]. fold x0 x1 x2. unfold u in *. lra.
Qed.
Lemma long_leg p q : (length p = 2 \/ length p = 3)%nat -> length q = length p -> (forall x, In x p -> within 400 x) -> (forall x, In x q -> within 400 x) ->
  1 / 10000 * (1 + 1 / 1000000000000) <= gap (map f2R p) (map f2R q) -> t0 <= f2R (row_norm float_arith (row_sub float_arith q p)).
Proof.
  intros L Lq Hp Hq G. destruct (norm_bounds p q L Lq Hp Hq) as (S & -> & B & _). unfold gap in G. set (X := sum_squares (map f2R p) (map f2R q)) in *. pose proof eta_small as E0.
  assert (T : rnd64 t0 = t0) by (rewrite <- tiny_value; apply valid_format; reflexivity). rewrite <- T. apply rnd64_le.
  assert (X0 : 0 <= X). { apply Rnot_lt_le. intros N. rewrite sqrt_neg in G by lra. lra. }
  assert (X1 : (1 / 10000 * (1 + 1 / 1000000000000)) * (1 / 10000 * (1 + 1 / 1000000000000)) <= X). { rewrite <- (sqrt_sqrt X X0). apply Rmult_le_compat; lra. }
  apply Rsqr_incr_0_var; [|apply sqrt_pos]. rewrite Rsqr_sqrt; [unfold Rsqr, t0|]; unfold u in *; lra.
Qed.
Lemma short_leg p q : (length p = 2 \/ length p = 3)%nat -> length q = length p -> (forall x, In x p -> within 400 x) -> (forall x, In x q -> within 400 x) ->
  gap (map f2R p) (map f2R q) <= 1 / 10000 * (1 - 1 / 1000000000000) -> f2R (row_norm float_arith (row_sub float_arith q p)) < t0.
Proof.
  intros L Lq Hp Hq G. destruct (norm_bounds p q L Lq Hp Hq) as (S & -> & _ & B). unfold gap in G. set (X := sum_squares (map f2R p) (map f2R q)) in *. pose proof eta_small as E0.
  assert (X0 : 0 <= X). { clear. unfold X. generalize (map f2R p), (map f2R q). induction l as [|x l IH]; intros [|y l0]; cbn [sum_squares]; try lra. specialize (IH l0). pose proof (square_nonneg (y - x)). lra. }
  assert (X1 : X <= (1 / 10000 * (1 - 1 / 1000000000000)) * (1 / 10000 * (1 - 1 / 1000000000000))). { rewrite <- (sqrt_sqrt X X0). pose proof (sqrt_pos X). apply Rmult_le_compat; lra. }
  assert (M : sqrt S <= t1). { apply Rle_trans with (sqrt (t1 * t1)); [apply sqrt_le_1_alt; unfold t1, u in *; lra|]. rewrite sqrt_square; [lra|unfold t1; lra]. }
  apply rnd64_le in M. rewrite below_value in M. unfold t0, t1 in *. lra.
Qed.
(** ** the points of a leg *)
Lemma near_mul x y a b : Rabs (x - 1) <= a -> Rabs (y - 1) <= b -> Rabs (x * y - 1) <= a + b + a * b.
Proof.
  intros Hx Hy. replace (x * y - 1) with ((x - 1) + (y - 1) + (x - 1) * (y - 1)) by ring. eapply Rle_trans; [apply Rabs_triang|]. rewrite Rabs_mult. apply Rplus_le_compat; [eapply Rle_trans; [apply Rabs_triang|lra]|]. apply Rmult_le_compat; auto using Rabs_pos.
Qed.
Lemma near_inv y b : Rabs (y - 1) <= b -> b <= 1 / 2 -> Rabs (/ y - 1) <= 2 * b.
Proof.
  intros Hy Hb. pose proof (Rabs_le_inv _ _ Hy) as H. assert (Y : 1 / 2 <= y) by lra. replace (/ y - 1) with ((1 - y) * / y) by (field; lra). rewrite Rabs_mult, Rabs_minus_sym. rewrite (Rmult_comm 2). apply Rmult_le_compat; auto using Rabs_pos.
  rewrite Rabs_pos_eq by (left; apply Rinv_0_lt_compat; lra). replace 2 with (/ (1 / 2)) by lra. apply Rinv_le; lra.
Qed.
Lemma near_1 e b : Rabs e <= b -> Rabs (1 + e - 1) <= b.
Proof. intros H. replace (1 + e - 1) with e by ring. exact H. Qed.
Lemma rel_u x : bpow radix2 (-1022) <= x -> exists r, Rabs (r - 1) <= u /\ rnd64 x = x * r.
Proof. intros H. destruct (rel64 x H) as (e & He & E). exists (1 + e). split; [|exact E]. apply near_1. eapply Rle_trans; [exact He|apply u_bound]. Qed.
Lemma flo_bounds z : (1 <= z <= 2 ^ 900)%Z -> exists r, Rabs (r - 1) <= u /\ f2R (flo z) = IZR z * r /\ within 900 (flo z) /\ 1 <= f2R (flo z).
Proof.
  intros H. unfold flo. destruct (float_int z ltac:(lia)) as (f & -> & (V & F & _) & E). assert (Z1 : 1 <= IZR z) by (change 1 with (IZR 1); apply IZR_le; lia).
  destruct (rel_u (IZR z)) as (r & Hr & Er); [eapply Rle_trans; [|exact Z1]; change 1 with (bpow radix2 0); apply bpow_le; lia|]. exists r. split; [exact Hr|]. rewrite E. split; [exact Er|]. split; [|now apply rnd64_ge1].
  split; [exact V|]. split; [exact F|]. rewrite E. apply rnd64_bound; [lia|]. rewrite Rabs_pos_eq by lra. rewrite <- (IZR_Zpower radix2) by lia. apply IZR_le. apply H.
Qed.
Lemma one_value : f2R (one float_arith) = 1 /\ within 0 (one float_arith).
Proof.
  assert (E : f2R (one float_arith) = 1). { cbn [one float_arith f2R SF2R cond_Zopp]. unfold F2R. cbn [Fnum Fexp]. change 4503599627370496%Z with (Z.pow (radix_val radix2) 52). rewrite IZR_Zpower by lia. rewrite <- bpow_plus. reflexivity. }
  split; [exact E|]. split; [reflexivity|]. split; [reflexivity|]. rewrite E, Rabs_pos_eq by lra. change 1 with (bpow radix2 0). lra.
Qed.
Lemma zero_within k : within k (S754_zero false).
Proof. split; [reflexivity|]. split; [reflexivity|]. cbn [f2R SF2R]. rewrite Rabs_R0. apply bpow_ge_0. Qed.
Lemma frac_bounds j n : (j < n)%nat -> (Z.of_nat n <= 2 ^ 900)%Z -> exists r, Rabs (r - 1) <= 6 * u /\ f2R (frac j n) = INR j / INR n * r /\ within 2 (frac j n).
Proof.
  intros Hj Hn. pose proof u_pos as U0. unfold frac. destruct (flo_bounds (Z.of_nat n) ltac:(lia)) as (rn & Hrn & En & Wn & Gn). rewrite <- INR_IZR_INZ in En.
  assert (N0 : 0 < INR n) by (apply lt_0_INR; lia). destruct one_value as [O1 O2].
  destruct (within_div 0 0 (one float_arith) (flo (Z.of_nat n)) ltac:(lia) O2 (proj1 Wn) (proj1 (proj2 Wn)) Gn) as [Wd Ed]. change (0 - 0)%Z with 0%Z in Wd. rewrite O1 in Ed.
  assert (B900 : f2R (flo (Z.of_nat n)) <= bpow radix2 900) by (destruct Wn as (_ & _ & B); eapply Rle_trans; [apply Rle_abs|exact B]).
  assert (L900 : bpow radix2 (-900) <= 1 / f2R (flo (Z.of_nat n))). { change (-900)%Z with (- (900))%Z. rewrite bpow_opp. unfold Rdiv. rewrite Rmult_1_l. apply Rinv_le; lra. }
  destruct (rel_u (1 / f2R (flo (Z.of_nat n)))) as (rd & Hrd & Erd); [eapply Rle_trans; [|exact L900]; apply bpow_le; lia|]. rewrite Erd in Ed. set (dv := fdiv (one float_arith) (flo (Z.of_nat n))) in *.
  assert (Dv : bpow radix2 (-901) <= f2R dv). { rewrite Ed, <- Erd. rewrite <- (rnd64_bpow (-901)) by lia. apply rnd64_le. eapply Rle_trans; [|exact L900]. apply bpow_le. lia. }
  destruct j as [|j].
  - change (flo (Z.of_nat 0)) with (S754_zero false). destruct (within_mul 0 0 (S754_zero false) dv ltac:(lia) (zero_within 0) Wd) as [W1 E1]. change (f2R (S754_zero false)) with 0 in E1. rewrite Rmult_0_l, rnd64_0 in E1.
    destruct (within_add 0 (fmul (S754_zero false) dv) (zero float_arith) ltac:(lia) W1 (zero_within 0)) as [W2 E2]. change (f2R (zero float_arith)) with 0 in E2. rewrite E1, Rplus_0_l, rnd64_0 in E2. exists 1. split; [replace (1 - 1) with 0 by ring; rewrite Rabs_R0; lra|]. split; [rewrite E2; cbn; unfold Rdiv; ring|].
    apply (within_le 1); [lia|exact W2].
  - destruct (flo_bounds (Z.of_nat (S j)) ltac:(lia)) as (rj & Hrj & Ej & Wj & Gj). rewrite <- INR_IZR_INZ in Ej. destruct (within_mul 900 0 _ dv ltac:(lia) Wj Wd) as [W1 E1].
    assert (P : bpow radix2 (-901) <= f2R (flo (Z.of_nat (S j))) * f2R dv). { pose proof (bpow_gt_0 radix2 (-901)). apply Rle_trans with (1 * f2R dv); [lra|]. apply Rmult_le_compat_r; lra. }
    destruct (rel_u _ (Rle_trans _ _ _ (bpow_le radix2 (-1022) (-901) ltac:(lia)) P)) as (rp & Hrp & Erp). rewrite Erp in E1. set (pr := fmul (flo (Z.of_nat (S j))) dv) in *. change (900 + 0)%Z with 900%Z in W1.
    destruct (within_add 900 pr (zero float_arith) ltac:(lia) W1 (zero_within 900)) as [W2 E2]. change (f2R (zero float_arith)) with 0 in E2. rewrite Rplus_0_r, (valid_format pr (proj1 W1) (proj1 (proj2 W1))) in E2.
    assert (Rn : 0 < rn) by (apply Rabs_le_inv in Hrn; unfold u in Hrn; lra).
    assert (E : f2R (fadd pr (zero float_arith)) = INR (S j) / INR n * (rj * (rd * (rp * / rn)))). { rewrite E2, E1, Ej, Ed, En. field. split; lra. }
    exists (rj * (rd * (rp * / rn))). split; [|split; [exact E|]].
    + pose proof (near_inv rn u Hrn ltac:(unfold u; lra)) as I1. pose proof (near_mul _ _ _ _ Hrp I1) as I2. pose proof (near_mul _ _ _ _ Hrd I2) as I3. pose proof (near_mul _ _ _ _ Hrj I3) as I4. eapply Rle_trans; [exact I4|]. unfold u. lra.
    + destruct W2 as (V2 & F2 & _). split; [exact V2|]. split; [exact F2|]. rewrite E. pose proof (near_inv rn u Hrn ltac:(unfold u; lra)) as I1. pose proof (near_mul _ _ _ _ Hrp I1) as I2. pose proof (near_mul _ _ _ _ Hrd I2) as I3. pose proof (near_mul _ _ _ _ Hrj I3) as I4.
      assert (K : 0 <= INR (S j) / INR n <= 1). { pose proof (pos_INR (S j)). assert (INR (S j) <= INR n) by (apply le_INR; lia). split; [apply Rmult_le_pos; [lra|left; now apply Rinv_0_lt_compat]|]. apply (Rmult_le_reg_r (INR n)); [exact N0|]. unfold Rdiv. rewrite Rmult_assoc, Rinv_l by lra. lra. }
      apply Rabs_le_inv in I4. assert (Q : 0 <= rj * (rd * (rp * / rn)) <= 2) by (unfold u in I4; lra). rewrite Rabs_pos_eq by (apply Rmult_le_pos; lra). change (bpow radix2 2) with 4. nra.
Qed.
Lemma point_bounds j n a b : (j < n)%nat -> (Z.of_nat n <= 2 ^ 900)%Z -> within 400 a -> within 400 b ->
  let x := fadd (fmul (frac j n) (fsub b a)) a in
  ffinite x = true /\ Rabs (f2R x - (f2R a + INR j / INR n * (f2R b - f2R a))) <= (Rabs (f2R a) + Rabs (f2R b)) * (3 / 1000000000000000) + bpow radix2 (-1074).
Proof.
  intros Hj Hn Wa Wb x. pose proof u_pos as U0. destruct (frac_bounds j n Hj Hn) as (r & Hr & Er & Wt). set (t := frac j n) in *. set (K := INR j / INR n) in *.
  destruct (within_sub 400 b a ltac:(lia) Wb Wa) as [Wd Ed]. destruct (rnd_sum 400 400 b a Wb Wa) as (_ & e5 & _ & H5 & _ & E5). rewrite E5 in Ed. change (400 + 1)%Z with 401%Z in Wd.
  destruct (within_mul 2 401 t _ ltac:(lia) Wt Wd) as [Wp Ep]. change (2 + 401)%Z with 403%Z in Wp. destruct (rnd_err (f2R t * f2R (fsub b a))) as (e6 & h & H6 & Hh & E6). rewrite E6 in Ep.
  destruct (within_add 403 (fmul t (fsub b a)) a ltac:(lia) Wp (within_le 400 403 a ltac:(lia) Wa)) as [Wx Ex]. destruct (rnd_sum 403 400 _ a Wp Wa) as (e7 & _ & H7 & _ & E7 & _). rewrite E7 in Ex. fold x in Wx, Ex.
  split; [apply Wx|]. rewrite Ex, Ep, Er, Ed. set (A := f2R a) in *. set (B := f2R b) in *.
  replace ((K * r * ((B - A) * (1 + e5)) * (1 + e6) + h + A) * (1 + e7) - (A + K * (B - A))) with (K * (B - A) * (r * ((1 + e5) * ((1 + e6) * (1 + e7))) - 1) + (h * (1 + e7) + A * e7)) by ring.
  pose proof (near_mul _ _ _ _ (near_1 _ _ H6) (near_1 _ _ H7)) as I1. pose proof (near_mul _ _ _ _ (near_1 _ _ H5) I1) as I2. pose proof (near_mul _ _ _ _ Hr I2) as I3. set (q := r * ((1 + e5) * ((1 + e6) * (1 + e7))) - 1) in *.
  assert (K1 : 0 <= K <= 1). { unfold K. assert (N0 : 0 < INR n) by (apply lt_0_INR; lia). pose proof (pos_INR j). assert (INR j <= INR n) by (apply le_INR; lia). split; [apply Rmult_le_pos; [lra|left; now apply Rinv_0_lt_compat]|]. apply (Rmult_le_reg_r (INR n)); [exact N0|]. unfold Rdiv. rewrite Rmult_assoc, Rinv_l by lra. lra. }
  assert (Q1 : Rabs (K * (B - A) * q) <= (Rabs A + Rabs B) * (10 * u)).
  { rewrite !Rabs_mult, (Rabs_pos_eq K) by lra. assert (D : Rabs (B - A) <= Rabs A + Rabs B) by (eapply Rle_trans; [apply Rabs_triang|]; rewrite Rabs_Ropp; lra).
    assert (Q : Rabs q <= 10 * u) by (eapply Rle_trans; [exact I3|]; unfold u; lra). apply Rmult_le_compat; auto using Rabs_pos; [apply Rmult_le_pos; [lra|apply Rabs_pos]|]. pose proof (Rabs_pos (B - A)). nra. }
  assert (Q2 : Rabs (h * (1 + e7)) <= bpow radix2 (-1074)).
  { rewrite Rabs_mult. replace (bpow radix2 (-1074)) with (eta * 2) by (unfold eta; change 2 with (bpow radix2 1); rewrite <- bpow_plus; reflexivity). apply Rmult_le_compat; auto using Rabs_pos. apply Rabs_le_inv in H7. unfold u in H7. apply Rabs_le. lra. }
  assert (Q3 : Rabs (A * e7) <= Rabs A * u) by (rewrite Rabs_mult; apply Rmult_le_compat_l; auto using Rabs_pos).
  eapply Rle_trans; [apply Rabs_triang|]. eapply Rle_trans; [apply Rplus_le_compat_l, Rabs_triang|]. pose proof (Rabs_pos A). pose proof (Rabs_pos B). unfold u in *. lra.
Qed.
