(** C39 in doubles: the length of a bond, and its rounding to n decimals. *)
From Coq Require Import List ZArith Bool Reals Lra Lia Arith Floats.SpecFloat.
From Flocq Require Import Core.Raux Core.Zaux Core.Defs Core.Float_prop IEEE754.BinarySingleNaN.
From Verif Require Import Py Float64_Model Float64_Proofs PandC_Proofs State_Model State_Spec State_Proofs Bond_Model Bond_Spec Bond_Proofs
  KPath_Model KPath_Spec KPathFloat_Proofs KPathRound_Proofs BondFloat_Model.
Import ListNotations.
Local Open Scope R_scope.

(** A coordinate that is an int below 2^52 or a double of at most 2^400. *)
Definition ordinary (c : pynum) : Prop := tame c /\ Rabs (coord_value c) <= IZR (2 ^ 400).
(** The exact difference of two points. *)
Definition exact_displacement (l m : list pynum) : list R := map (fun ab => coord_value (snd ab) - coord_value (fst ab)) (combine l m).

(** ** the differences *)
Definition leg (d : f64) (t : R) : Prop := within 401 d /\ exists e, Rabs e <= u /\ f2R d = t * (1 + e).
Lemma two400 : IZR (2 ^ 400) = bpow radix2 400. Proof. rewrite <- (IZR_Zpower radix2) by lia. reflexivity. Qed.
Lemma float_legs l : forall m, Forall (within 400) l -> Forall (within 400) m ->
  Forall2 leg (zip_with fsub l m) (map (fun ab => fst ab - snd ab) (combine (map f2R l) (map f2R m))).
Proof.
  induction l as [|a l IH]; intros [|b m] Hl Hm; try constructor.
  - inversion_clear Hl as [|? ? Wa _]. inversion_clear Hm as [|? ? Wb _]. cbn [fst snd]. destruct (within_sub 400 a b ltac:(lia) Wa Wb) as [W E]. split; [exact W|].
    destruct (rnd_sum 400 400 a b Wa Wb) as (_ & e & _ & He & _ & E'). exists e. split; [exact He|]. now rewrite E.
  - inversion_clear Hl. inversion_clear Hm. apply IH; assumption.
Qed.
Lemma int_legs l : forall m, Forall (fun z => (Z.abs z <= 2 ^ 52)%Z) l -> Forall (fun z => (Z.abs z <= 2 ^ 52)%Z) m ->
  Forall2 leg (map flt_of (zip_with (fun x y => wrap64 (x - y)) l m)) (map (fun ab => fst ab - snd ab) (combine (map IZR l) (map IZR m))).
Proof.
  induction l as [|a l IH]; intros [|b m] Hl Hm; try constructor.
  - inversion_clear Hl as [|? ? Wa _]. inversion_clear Hm as [|? ? Wb _]. cbn [fst snd]. assert (E53 : (2 ^ 53 = 2 * 2 ^ 52)%Z) by reflexivity. assert ((2 ^ 53 < 2 ^ 63)%Z) by (apply Z.pow_lt_mono_r; lia).
    rewrite wrap64_small by lia. unfold flt_of. destruct (float_int_exact (a - b) ltac:(lia)) as (f & -> & W & E). split; [apply (within_le 53); [lia|exact W]|].
    exists 0. split; [rewrite Rabs_R0; left; apply u_pos|]. rewrite E, minus_IZR. ring.
  - inversion_clear Hl. inversion_clear Hm. apply IH; assumption.
Qed.
Lemma as_floats_within a l : np_array l = Ok a -> Forall ordinary l -> Forall (within 400) (as_floats a) /\ map f2R (as_floats a) = map coord_value l.
Proof.
  intros E H. assert (X : Forall exact_num l) by (eapply Forall_impl; [|exact H]; intros c [T _]; now apply tame_exact).
  destruct (as_floats_exact a l E X) as [V W]. assert (W' : map f2R (as_floats a) = map coord_value l). { rewrite <- W. apply map_ext. intros f. symmetry. apply coord_value_f2R. }
  split; [|exact W']. clear E X W. revert l H W'. induction V as [|f fs [Vf Ff] V IH]; intros [|c l] H W'; try discriminate; constructor.
  - cbn [map] in W'. apply (f_equal (hd 0)) in W'. cbn [hd] in W'. inversion_clear H as [|? ? [_ B] _]. split; [exact Vf|]. split; [exact Ff|]. rewrite W', <- two400. exact B.
  - cbn [map] in W'. apply (f_equal (@tl R)) in W'. cbn [tl] in W'. inversion_clear H. eapply IH; eassumption.
Qed.
Lemma arr_legs l m a b : np_array l = Ok a -> np_array m = Ok b -> Forall ordinary l -> Forall ordinary m ->
  Forall2 leg (as_floats (arr_sub a b)) (exact_displacement m l).
Proof.
  intros Ea Eb Hl Hm. destruct (as_floats_within a l Ea Hl) as [Wa Va]. destruct (as_floats_within b m Eb Hm) as [Wb Vb].
  assert (X : forall l, Forall ordinary l -> Forall exact_num l) by (intros k Hk; eapply Forall_impl; [|exact Hk]; intros c [T _]; now apply tame_exact).
  assert (R0 : exact_displacement m l = map (fun ab => fst ab - snd ab) (combine (map coord_value l) (map coord_value m))).
  { unfold exact_displacement. clear. revert m. induction l as [|x l IH]; intros [|y m]; try reflexivity. cbn [combine map fst snd]. now rewrite IH. }
  rewrite R0, <- Va, <- Vb. pose proof (float_legs _ _ Wa Wb) as G.
  destruct a as [zs|fs], b as [ws|gs]; try exact G. clear G. cbn [arr_sub as_floats].
  destruct (np_array_exact l (X l Hl)) as (a' & E' & _ & _ & Sh). rewrite Ea in E'. injection E' as <-. destruct Sh as [(zs' & [= <-] & El)|(fs & [=] & _)].
  destruct (np_array_exact m (X m Hm)) as (b' & E' & _ & _ & Sh). rewrite Eb in E'. injection E' as <-. destruct Sh as [(ws' & [= <-] & Em)|(fs & [=] & _)].
  assert (Small : forall zs l, l = map NInt zs -> Forall ordinary l -> Forall (fun z => (Z.abs z <= 2 ^ 52)%Z) zs /\ map f2R (map flt_of zs) = map IZR zs).
  { clear. intros zs l -> H. induction zs as [|z zs IH]; [split; constructor|]. cbn [map] in H. inversion_clear H as [|? ? [T _] H']. destruct (IH H') as [A B]. cbn [tame] in T. split; [constructor; assumption|].
    cbn [map]. rewrite B. f_equal. unfold flt_of. destruct (float_int_exact z ltac:(lia)) as (f & -> & _ & E). exact E. }
  destruct (Small zs l El Hl) as [Sl Tl]. destruct (Small ws m Em Hm) as [Sm Tm]. cbn [as_floats] in *. rewrite Tl, Tm. now apply int_legs.
Qed.

(** ** the norm *)
Lemma leg_square d t : leg d t -> within 802 (fmul d d) /\ 0 <= f2R (fmul d d) /\ t ^ 2 * (1 - 4 * u) - eta <= f2R (fmul d d) <= t ^ 2 * (1 + 4 * u) + eta.
Proof.
  intros [W (e & He & E)]. destruct (square_within d W) as [W2 P]. split; [exact W2|]. split; [exact P|]. destruct (within_mul 401 401 d d ltac:(lia) W W) as [_ ->]. rewrite E.
  set (x := t ^ 2). replace (t * (1 + e) * (t * (1 + e))) with (x * ((1 + e) * (1 + e))) by (unfold x; ring).
  assert (X : 0 <= x) by (unfold x; apply pow2_ge_0). apply Rabs_le_inv in He. pose proof u_pos as U0. assert (EE : 0 <= e * e <= u * u) by (split; nra). assert (Q : 1 - 2 * u - u * u <= (1 + e) * (1 + e) <= 1 + 2 * u + u * u) by lra.
  pose proof (rnd_nonneg_bounds (x * ((1 + e) * (1 + e))) ltac:(apply Rmult_le_pos; [exact X|unfold u in *; lra])) as B.
  assert (L : x * (1 - 2 * u - u * u) <= x * ((1 + e) * (1 + e)) <= x * (1 + 2 * u + u * u)) by (split; apply Rmult_le_compat_l; lra).
  unfold u in *. lra.
Qed.
Lemma legs_norm ds ts : Forall2 leg ds ts -> (1 <= List.length ds <= 3)%nat -> within 804 (row_norm float_arith ds) /\
  exists S, 0 <= S /\ f2R (row_norm float_arith ds) = rnd64 (sqrt S) /\ sum (map (fun x => x ^ 2) ts) * (1 - 12 * u) - 20 * eta <= S <= sum (map (fun x => x ^ 2) ts) * (1 + 12 * u) + 20 * eta.
Proof.
  intros H L. pose proof eta_pos as E0. pose proof u_pos as U0. unfold row_norm. cbn [root float_arith mul add zero].
  destruct H as [|d0 t0 ds ts H0 H]; [cbn in L; lia|]. destruct (leg_square _ _ H0) as (W0 & P0 & Q0). assert (X0 : 0 <= t0 ^ 2) by apply pow2_ge_0. cbn [map fold_left].
  destruct H as [|d1 t1 ds ts H1 H].
  { cbn [fold_left]. destruct (within_sqrt 802 _ ltac:(lia) W0 P0) as [W E]. split; [apply (within_le 802); [lia|exact W]|]. exists (f2R (fmul d0 d0)). split; [exact P0|]. split; [exact E|]. unfold sum. cbn [map fold_right]. unfold u in *. lra. }
  destruct (leg_square _ _ H1) as (W1 & P1 & Q1). assert (X1 : 0 <= t1 ^ 2) by apply pow2_ge_0. cbn [map fold_left].
  pose proof (add_bounds 802 _ _ _ _ ltac:(lia) W0 W1 P0 P1 X0 X1 ltac:(unfold u in *; lra) Q1) as Q01. destruct (within_add 802 _ _ ltac:(lia) W0 W1) as [W01 E01].
  assert (P01 : 0 <= f2R (fadd (fmul d0 d0) (fmul d1 d1))) by (rewrite E01; apply rnd64_nonneg; lra). change (802 + 1)%Z with 803%Z in W01.
  destruct H as [|d2 t2 ds ts H2' H].
  { cbn [fold_left]. destruct (within_sqrt 803 _ ltac:(lia) W01 P01) as [W E]. split; [apply (within_le 803); [lia|exact W]|]. exists (f2R (fadd (fmul d0 d0) (fmul d1 d1))). split; [exact P01|]. split; [exact E|]. unfold sum. cbn [map fold_right]. unfold u in *. lra. }
  destruct (leg_square _ _ H2') as (W2 & P2 & Q2). assert (X2 : 0 <= t2 ^ 2) by apply pow2_ge_0. cbn [map fold_left].
  destruct (within_add 803 _ _ ltac:(lia) W01 (within_le 802 803 _ ltac:(lia) W2)) as [W012 E012]. pose proof (rnd_nonneg_bounds (f2R (fadd (fmul d0 d0) (fmul d1 d1)) + f2R (fmul d2 d2)) ltac:(lra)) as B. rewrite <- E012 in B.
  assert (P012 : 0 <= f2R (fadd (fadd (fmul d0 d0) (fmul d1 d1)) (fmul d2 d2))) by (rewrite E012; apply rnd64_nonneg; lra). change (803 + 1)%Z with 804%Z in W012.
  destruct H; [|cbn [List.length] in L; lia]. cbn [fold_left map]. destruct (within_sqrt 804 _ ltac:(lia) W012 P012) as [W E]. split; [exact W|].
  exists (f2R (fadd (fadd (fmul d0 d0) (fmul d1 d1)) (fmul d2 d2))). split; [exact P012|]. split; [exact E|]. unfold sum. cbn [map fold_right]. unfold u in *. lra.
Qed.
Lemma root_eta : sqrt (20 * eta) <= 1 / 10 ^ 155.
Proof.
  replace (1 / 10 ^ 155) with (sqrt ((1 / 10 ^ 155) * (1 / 10 ^ 155))) by (apply sqrt_square; unfold Rdiv; rewrite Rmult_1_l; left; apply Rinv_0_lt_compat, pow_lt; lra).
  apply sqrt_le_1_alt. apply Rle_trans with (bpow radix2 (-1070)).
  - change (-1070)%Z with (5 + -1075)%Z. rewrite bpow_plus. fold eta. pose proof eta_pos. change (bpow radix2 5) with 32. lra.
  - apply Rle_trans with (/ 10 ^ 310); [|right; replace 310%nat with (155 + 155)%nat by reflexivity; rewrite pow_add, Rinv_mult; lra].
    change (bpow radix2 (-1070)) with (/ IZR (Z.pow_pos 2 1070)). apply Rinv_le; [apply pow_lt; lra|]. rewrite pow_IZR. apply IZR_le. vm_compute. discriminate.
Qed.
Lemma sqrt_near X S : 0 <= X -> 0 <= S -> X * (1 - 12 * u) - 20 * eta <= S <= X * (1 + 12 * u) + 20 * eta -> Rabs (sqrt S - sqrt X) <= sqrt X * (7 * u) + 1 / 10 ^ 155.
Proof.
  intros PX PS B. pose proof root_eta as RE. pose proof eta_pos. pose proof u_pos. set (h := sqrt (20 * eta)) in *. assert (Hh : 0 <= h) by apply sqrt_pos. assert (Hh2 : h * h = 20 * eta) by (apply sqrt_sqrt; lra).
  pose proof (sqrt_pos X) as P1. pose proof (sqrt_sqrt X PX) as S1. pose proof (sqrt_pos S) as P2. pose proof (sqrt_sqrt S PS) as S2. set (x := sqrt X) in *. set (s := sqrt S) in *.
  assert (Up : s <= x * (1 + 7 * u) + h).
  { apply Rsqr_incr_0_var; [|assert (0 <= x * (1 + 7 * u)) by (apply Rmult_le_pos; [lra|unfold u; lra]); lra]. unfold Rsqr. rewrite S2. apply Rle_trans with (1 := proj2 B). rewrite <- S1.
    assert (0 <= x * (1 + 7 * u) * h) by (apply Rmult_le_pos; [apply Rmult_le_pos; [lra|unfold u; lra]|lra]).
    assert (x * x * (1 + 12 * u) <= (x * x) * ((1 + 7 * u) * (1 + 7 * u))) by (apply Rmult_le_compat_l; [nra|unfold u in *; lra]). lra. }
  assert (Lo : x * (1 - 7 * u) <= s + h).
  { apply Rsqr_incr_0_var; [|lra]. unfold Rsqr. assert (0 <= s * h) by (apply Rmult_le_pos; lra). apply Rle_trans with (S + 20 * eta); [|rewrite <- S2, <- Hh2; lra].
    assert ((x * x) * ((1 - 7 * u) * (1 - 7 * u)) <= x * x * (1 - 12 * u)) by (apply Rmult_le_compat_l; [nra|unfold u in *; lra]). rewrite <- S1 in B. lra. }
  apply Rabs_le. lra.
Qed.
Lemma zip_with_length {A B C} (f : A -> B -> C) l : forall m, List.length m = List.length l -> List.length (zip_with f l m) = List.length l.
Proof. induction l as [|x l IH]; intros [|y m] H; try discriminate; [reflexivity|]. cbn. f_equal. apply IH. now injection H. Qed.
Lemma as_floats_length a : List.length (as_floats a) = alen a.
Proof. destruct a; [apply map_length|reflexivity]. Qed.
Lemma arr_sub_length a b : alen b = alen a -> List.length (as_floats (arr_sub a b)) = alen a.
Proof.
  intros E. rewrite as_floats_length. destruct a as [l|l], b as [m|m]; cbn [arr_sub alen] in *; rewrite zip_with_length; cbn [as_floats]; rewrite ?map_length; auto.
Qed.
Lemma sum_squares_flip l : forall m, sum (map (fun x => x ^ 2) (exact_displacement m l)) = sum (map (fun x => x ^ 2) (exact_displacement l m)).
Proof.
  unfold sum, exact_displacement. induction l as [|x l IH]; intros [|y m]; try reflexivity. cbn [combine map fst snd fold_right]. rewrite IH. ring.
Qed.
Lemma sum_squares_nonneg v : 0 <= sum (map (fun x => x ^ 2) v).
Proof. unfold sum. induction v as [|x v IH]; cbn [map fold_right]; [lra|]. pose proof (pow2_ge_0 x). lra. Qed.
Lemma flength_near zoom l0 l1 d b : Forall ordinary l0 -> Forall ordinary l1 -> make_bond zoom (PVec l0) (PVec l1) d = Ok b ->
  within 804 (flength b) /\ Rabs (f2R (flength b) - euclid (exact_displacement l0 l1)) <= 2 / 10 ^ 15 * euclid (exact_displacement l0 l1) + 1 / 10 ^ 150.
Proof.
  intros H0 H1 E. destruct (make_inv _ _ _ _ _ E) as (a0 & a1 & E0 & E1 & I). destruct (init_inv _ _ _ _ _ I) as (c0 & c1 & _ & _ & L & Ll & ->). unfold flength. cbn [b_p0 b_p1].
  pose proof (arr_legs l0 l1 a0 a1 E0 E1 H0 H1) as G. destruct (legs_norm _ _ G) as (W & S & PS & -> & B); [rewrite arr_sub_length by exact Ll; exact L|]. split; [exact W|].
  rewrite sum_squares_flip in B. unfold euclid. set (X := sum _) in *. assert (PX : 0 <= X) by apply sum_squares_nonneg. pose proof (sqrt_near X S PX PS B) as K. apply Rabs_le_inv in K.
  pose proof (rnd_nonneg_bounds (sqrt S) (sqrt_pos S)) as R. pose proof (sqrt_pos X) as P1. pose proof eta_small. set (x := sqrt X) in *. set (s := sqrt S) in *.
  assert (T1 : 0 < / 10 ^ 150) by (apply Rinv_0_lt_compat, pow_lt; lra). assert (T2 : 1 / 10 ^ 155 = / 10 ^ 150 / 100000). { replace 155%nat with (150 + 5)%nat by reflexivity. rewrite pow_add. field. }
  assert (T3 : eta <= / 10 ^ 150 / 100000).
  { unfold eta. apply Rle_trans with (bpow radix2 (-600)); [apply bpow_le; lia|]. rewrite <- T2. replace (1 / 10 ^ 155) with (/ 10 ^ 155) by (unfold Rdiv; ring). change (bpow radix2 (-600)) with (/ IZR (Z.pow_pos 2 600)). apply Rinv_le; [apply pow_lt; lra|]. rewrite pow_IZR. apply IZR_le. vm_compute. discriminate. }
  unfold u in *. rewrite T2 in K. replace (1 / 10 ^ 150) with (/ 10 ^ 150) by (unfold Rdiv; ring). set (e0 := / 10 ^ 150) in *. apply Rabs_le. lra.
Qed.

(** ** rounding to an integer *)
Lemma nearest_int m d (hd : (0 < d)%Z) : let q := (m / d)%Z in let r := (m mod d)%Z in
  let k := (if 2 * r <? d then q else if d <? 2 * r then q + 1 else if Z.even q then q else q + 1)%Z in Rabs (IZR m / IZR d - IZR k) <= / 2.
Proof.
  intros q r k. pose proof (Z.div_mod m d ltac:(lia)) as E. pose proof (Z.mod_pos_bound m d hd) as B. fold q r in E, B. assert (D : 0 < IZR d) by (apply IZR_lt; lia).
  assert (K : (- d <= 2 * (m - d * k) <= d)%Z).
  { unfold k. destruct (Z.ltb_spec (2 * r) d); [lia|]. destruct (Z.ltb_spec d (2 * r)); [lia|]. destruct (Z.even q); lia. }
  assert (E2 : IZR m / IZR d - IZR k = IZR (m - d * k) / IZR d). { rewrite minus_IZR, mult_IZR. field. lra. }
  rewrite E2. destruct K as [K1 K2]. apply IZR_le in K1, K2. rewrite opp_IZR in K1. rewrite mult_IZR in K1, K2. apply Rabs_le. split; apply (Rmult_le_reg_r (IZR d)); try exact D; unfold Rdiv; rewrite ?Rmult_assoc, ?Rinv_l by lra; lra.
Qed.
Lemma frint_near f : fvalid f = true -> ffinite f = true -> Rabs (f2R f) <= IZR (2 ^ 52) ->
  exists k, Rabs (f2R f - IZR k) <= / 2 /\ f2R (frint f) = IZR k /\ within 53 (frint f).
Proof.
  intros V F B. destruct f as [s|s| |s m e]; try discriminate.
  { exists 0%Z. cbn [frint f2R SF2R]. rewrite Rminus_diag_eq by reflexivity. rewrite Rabs_R0. split; [lra|]. split; [reflexivity|]. repeat split. cbn [f2R SF2R]. rewrite Rabs_R0. apply bpow_ge_0. }
  cbn [frint]. destruct (Z.leb_spec 0 e) as [He|He].
  - exists (cond_Zopp s (Zpos m) * 2 ^ e)%Z. assert (E : f2R (S754_finite s m e) = IZR (cond_Zopp s (Z.pos m) * 2 ^ e)). { cbn [f2R SF2R]. unfold F2R. cbn [Fnum Fexp]. rewrite mult_IZR. f_equal. symmetry. change 2%Z with (radix_val radix2). now apply IZR_Zpower. }
    rewrite <- E. rewrite Rminus_diag_eq by reflexivity. rewrite Rabs_R0. split; [lra|]. split; [reflexivity|]. split; [exact V|]. split; [exact F|]. apply Rle_trans with (1 := B). change (IZR (2 ^ 52)) with (bpow radix2 52). apply bpow_le. lia.
  - set (d := (2 ^ - e)%Z). assert (hd : (0 < d)%Z) by (apply Z.pow_pos_nonneg; lia). pose proof (nearest_int (Zpos m) d hd) as N. cbv zeta in N |- *. match type of N with Rabs (_ - IZR ?kk) <= _ => set (k := kk) in * end.
    assert (E : f2R (S754_finite s m e) = IZR (cond_Zopp s (Zpos m)) / IZR d). { cbn [f2R SF2R]. unfold F2R, Rdiv. cbn [Fnum Fexp]. f_equal. unfold d. change 2%Z with (radix_val radix2). rewrite IZR_Zpower by lia. rewrite bpow_opp, Rinv_inv. reflexivity. }
    exists (cond_Zopp s k). assert (N' : Rabs (f2R (S754_finite s m e) - IZR (cond_Zopp s k)) <= / 2).
    { rewrite E. destruct s; cbn [cond_Zopp]; [|exact N]. rewrite !opp_IZR. replace (- IZR (Z.pos m) / IZR d - - IZR k) with (- (IZR (Z.pos m) / IZR d - IZR k)) by (unfold Rdiv; ring). now rewrite Rabs_Ropp. }
    split; [exact N'|]. set (j := cond_Zopp s k) in *.
    assert (Bj : (Z.abs j <= 2 ^ 53)%Z). { apply le_IZR. rewrite abs_IZR. apply Rabs_le_inv in N', B. change (2 ^ 53)%Z with (2 * 2 ^ 52)%Z. rewrite mult_IZR. assert (1 <= IZR (2 ^ 52)) by (apply IZR_le; vm_compute; discriminate). apply Rabs_le. lra. }
    assert (G : f2R (SpecFloat.binary_normalize prec64 emax64 j 0 s) = IZR j /\ ffinite (SpecFloat.binary_normalize prec64 emax64 j 0 s) = true /\ fvalid (SpecFloat.binary_normalize prec64 emax64 j 0 s) = true).
    { destruct (Z.eq_dec j 0) as [->|Nj]; [repeat split; reflexivity|]. replace (SpecFloat.binary_normalize prec64 emax64 j 0 s) with (SpecFloat.binary_normalize prec64 emax64 j 0 false) by (destruct j; [contradiction|reflexivity|reflexivity]).
      assert (E0 : F2R (Float radix2 j 0) = IZR j) by (unfold F2R; cbn [Fnum Fexp]; change (bpow radix2 0) with 1; ring). destruct (normalize_correct j 0) as (G1 & G2 & G3); [rewrite E0; now apply rnd64_fix|]. rewrite E0, rnd64_int in G1 by exact Bj. auto. }
    destruct G as (G1 & G2 & G3). split; [exact G1|]. split; [exact G3|]. split; [exact G2|]. rewrite G1, <- abs_IZR. rewrite <- (IZR_Zpower radix2) by lia. apply IZR_le. exact Bj.
Qed.
Lemma power_exact n : (0 <= n <= 22)%Z -> power_of_ten n = flt_of (10 ^ n) /\ within 74 (power_of_ten n) /\ f2R (power_of_ten n) = IZR (10 ^ n).
Proof.
  intros H. assert (E : power_of_ten n = flt_of (10 ^ n)).
  { assert (A : forallb (fun k => let n := Z.of_nat k in match power_of_ten n, flt_of (10 ^ n) with S754_finite s m e, S754_finite s' m' e' => Bool.eqb s s' && Pos.eqb m m' && Z.eqb e e' | _, _ => false end)%bool (seq 0 23) = true) by (vm_compute; reflexivity).
    rewrite forallb_forall in A. specialize (A (Z.to_nat n) ltac:(apply in_seq; lia)). cbv zeta in A. rewrite Z2Nat.id in A by lia. destruct (power_of_ten n) as [| | |s m e]; try discriminate. destruct (flt_of (10 ^ n)) as [| | |s' m' e']; try discriminate.
    apply andb_true_iff in A as [A A3]. apply andb_true_iff in A as [A1 A2]. apply eqb_prop in A1. apply Pos.eqb_eq in A2. apply Z.eqb_eq in A3. now subst. }
  split; [exact E|]. rewrite E. assert (B : (10 ^ n <= 2 ^ 74)%Z). { apply Z.le_trans with (10 ^ 22)%Z; [apply Z.pow_le_mono_r; lia|vm_compute; discriminate]. } assert (P : (0 < 10 ^ n)%Z) by (apply Z.pow_pos_nonneg; lia).
  unfold flt_of. destruct (float_int (10 ^ n)) as (f & -> & (V & F & W) & Ef). { rewrite Z.abs_eq by lia. apply Z.le_trans with (1 := B). apply Z.pow_le_mono_r; lia. }
  assert (Ex : rnd64 (IZR (10 ^ n)) = IZR (10 ^ n)).
  { apply Generic_fmt.round_generic; [auto with typeclass_instances|]. apply FLT.generic_format_FLT. exists (Float radix2 (5 ^ n) n); cbn [Fnum Fexp]; [|rewrite Z.abs_eq by (apply Z.pow_nonneg; lia); apply Z.le_lt_trans with (5 ^ 22)%Z; [apply Z.pow_le_mono_r; lia|vm_compute; reflexivity]|lia].
    unfold F2R. cbn [Fnum Fexp]. rewrite <- (IZR_Zpower radix2) by lia. rewrite <- mult_IZR. f_equal. change (radix_val radix2) with 2%Z. rewrite <- Z.pow_mul_l. reflexivity. }
  rewrite Ex in Ef. split; [|exact Ef]. split; [exact V|]. split; [exact F|]. rewrite Ef, <- abs_IZR, Z.abs_eq by lia. rewrite <- (IZR_Zpower radix2) by lia. apply IZR_le. exact B.
Qed.

(** getLength is the distance of the two points up to two parts in 10^15. *)
Theorem C39_length_rounding : forall zoom l0 l1 d b, Forall ordinary l0 -> Forall ordinary l1 -> make_bond zoom (PVec l0) (PVec l1) d = Ok b ->
  let X := euclid (exact_displacement l0 l1) in
  fvalid (fgetLength b None) = true /\ ffinite (fgetLength b None) = true /\ Rabs (f2R (fgetLength b None) - X) <= 2 / 10 ^ 15 * X + 1 / 10 ^ 150.
Proof.
  intros zoom l0 l1 d b H0 H1 E X. destruct (flength_near zoom l0 l1 d b H0 H1 E) as ((V & F & _) & B). cbn [fgetLength faround]. auto.
Qed.
Print Assumptions C39_length_rounding.

(** getLength(ndigits=n) of a bond whose length is k / 10^n, or nearer to it than 0.49
    units of the last decimal, is the double nearest to k / 10^n, which is what Python
    reads the literal as: so lengths rounded this way may be compared with ==. *)
Theorem C39_length_decimals : forall zoom l0 l1 d b n k, Forall ordinary l0 -> Forall ordinary l1 -> make_bond zoom (PVec l0) (PVec l1) d = Ok b ->
  let X := euclid (exact_displacement l0 l1) in
  (0 <= n <= 15)%Z -> X * IZR (10 ^ n) <= 10 ^ 12 -> Rabs (X * IZR (10 ^ n) - IZR k) <= 49 / 100 ->
  f2R (fgetLength b (Some n)) = to_double (IZR k / IZR (10 ^ n)).
Proof.
  intros zoom l0 l1 d b n k H0 H1 E X Hn HX Hk. destruct (flength_near zoom l0 l1 d b H0 H1 E) as (W & B). fold X in B. cbn [fgetLength faround]. set (L := flength b) in *.
  assert (PX : 0 <= X) by apply sqrt_pos. assert (T1 : 0 < / 10 ^ 150) by (apply Rinv_0_lt_compat, pow_lt; lra). assert (T2 : / 10 ^ 150 <= / 10 ^ 30). { apply Rinv_le; [apply pow_lt; lra|]. apply Rle_pow; [lra|lia]. }
  assert (G1 : 1 <= IZR (10 ^ n)) by (apply IZR_le; assert (0 < 10 ^ n)%Z by (apply Z.pow_pos_nonneg; lia); lia). assert (G2 : IZR (10 ^ n) <= 10 ^ 15) by (rewrite pow_IZR; apply IZR_le; apply Z.pow_le_mono_r; lia).
  set (g := IZR (10 ^ n)) in *.
  assert (Bg : Rabs (f2R L * g - X * g) <= 1 / 400).
  { replace (f2R L * g - X * g) with ((f2R L - X) * g) by ring. rewrite Rabs_mult, (Rabs_pos_eq g) by lra. apply Rle_trans with ((2 / 10 ^ 15 * X + 1 / 10 ^ 150) * g); [apply Rmult_le_compat_r; [lra|exact B]|].
    assert (K2 : / 10 ^ 150 * g <= / 10 ^ 30 * 10 ^ 15) by (apply Rmult_le_compat; lra).
    replace ((2 / 10 ^ 15 * X + 1 / 10 ^ 150) * g) with (2 / 10 ^ 15 * (X * g) + / 10 ^ 150 * g) by (unfold Rdiv; ring). assert (2 / 10 ^ 15 * (X * g) <= 2 / 10 ^ 15 * 10 ^ 12) by (apply Rmult_le_compat_l; lra). lra. }
  apply Rabs_le_inv in Bg, Hk. assert (P52 : IZR (2 ^ 52) = 4503599627370496) by reflexivity. pose proof (Rmult_le_pos X g PX ltac:(lra)) as PXg.
  assert (Fin : forall f P, fvalid f = true -> ffinite f = true -> f2R f = P -> Rabs (P - f2R L * g) <= 1 / 2000 -> exists W53 : within 53 (frint f), f2R (frint f) = IZR k).
  { intros f P V F Ef D. apply Rabs_le_inv in D. destruct (frint_near f V F) as (j & Dj & Ej & Wj); [rewrite Ef; apply Rabs_le; lra|]. exists Wj. rewrite Ej. f_equal. rewrite Ef in Dj. apply Rabs_le_inv in Dj.
    assert (Lt : Rabs (IZR j - IZR k) < 1) by (apply Rabs_def1; lra). rewrite <- minus_IZR, <- abs_IZR in Lt. apply lt_IZR in Lt. lia. }
  assert (V : fvalid L = true) by apply W. assert (F : ffinite L = true) by apply W.
  destruct (Z.eqb_spec n 0) as [->|Nn].
  - assert (Eg : g = 1) by reflexivity. destruct (Fin L (f2R L) V F eq_refl) as [Wk Ek]; [rewrite Eg; replace (f2R L - f2R L * 1) with 0 by ring; rewrite Rabs_R0; lra|]. rewrite Eg. unfold Rdiv. rewrite Rinv_1, Rmult_1_r. rewrite Ek. rewrite to_double_rnd. symmetry.
    rewrite <- Ek. apply (valid_format (frint L)); apply Wk.
  - destruct (Z.ltb_spec 0 n); [|lia]. destruct (power_exact n ltac:(lia)) as (_ & Wp & Ep). fold g in Ep. destruct (within_mul 804 74 L (power_of_ten n) ltac:(lia) W Wp) as [Wm Em]. rewrite Ep in Em.
    destruct (Fin (fmul L (power_of_ten n)) _ (proj1 Wm) (proj1 (proj2 Wm)) Em) as [Wk Ek].
    { destruct (rnd_err (f2R L * g)) as (e & h & He & Hh & ->). replace (f2R L * g * (1 + e) + h - f2R L * g) with (f2R L * g * e + h) by ring. pose proof eta_small. eapply Rle_trans; [apply Rabs_triang|]. rewrite Rabs_mult.
      assert (Rabs (f2R L * g) <= 10 ^ 12 + 1) by (apply Rabs_le; pose proof (Rmult_le_pos X g PX ltac:(lra)); lra). assert (Rabs (f2R L * g) * Rabs e <= (10 ^ 12 + 1) * u) by (apply Rmult_le_compat; auto using Rabs_pos). unfold u in *. lra. }
    destruct (within_div 53 0 (frint (fmul L (power_of_ten n))) (power_of_ten n) ltac:(lia) Wk (proj1 Wp) (proj1 (proj2 Wp))) as [_ Ed]; [rewrite Ep; change (bpow radix2 0) with 1; exact G1|]. rewrite Ed, Ek, Ep. reflexivity.
Qed.
Print Assumptions C39_length_decimals.
