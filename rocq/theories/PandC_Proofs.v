(** Counting lemmas and float division for PandC. *)
From Coq Require Import List ZArith Lia Sorted Reals Lra Psatz Bool Permutation Floats.SpecFloat.
From Flocq Require Import Core.Core IEEE754.BinarySingleNaN Relative.
From Verif Require Import Py Float64_Model Float64_Proofs PandC_Model PandC_Spec.
Import ListNotations.
Local Open Scope nat_scope.

(** ** counting *)
Lemma count_ext P Q c : (forall l, P l <-> Q l) -> count P c -> count Q c.
Proof. intros E (L & H1 & H2 & H3). exists L. split; auto. split; auto. intros l. rewrite H2. apply E. Qed.
Lemma count_unique P a b : count P a -> count P b -> a = b.
Proof.
  intros (L & H1 & H2 & ->) (M & H3 & H4 & ->). f_equal. apply Permutation_length.
  apply NoDup_Permutation; auto. intros x. now rewrite H2, H4.
Qed.
Lemma count_none : count (fun _ => False) 0%Z.
Proof. exists []. repeat split; auto using NoDup_nil. Qed.
Lemma count_nil : count (fun l => l = []) 1%Z.
Proof. exists [[]]. split; [constructor; auto using NoDup_nil|]. split; auto. intros l. cbn. split; [intros [<-|[]]; auto|auto]. Qed.
Lemma NoDup_app' {A} (l m : list A) : NoDup l -> NoDup m -> (forall x, In x l -> In x m -> False) -> NoDup (l ++ m).
Proof.
  intros Hl Hm. induction Hl as [|x l Hx Hl IH]; cbn; intros D; auto. constructor.
  - rewrite in_app_iff. intros [H|H]; auto. apply (D x); cbn; auto.
  - apply IH. intros y Hy. apply D. now right.
Qed.
Lemma count_sum P Q a b : count P a -> count Q b -> (forall l, P l -> Q l -> False) -> count (fun l => P l \/ Q l) (a + b)%Z.
Proof.
  intros (L & H1 & H2 & ->) (M & H3 & H4 & ->) D. exists (L ++ M). split; [|split].
  - apply NoDup_app'; auto. intros x. rewrite H2, H4. apply D.
  - intros l. rewrite in_app_iff, H2, H4. tauto.
  - rewrite app_length. lia.
Qed.
Lemma count_cons P a (x : nat) : count P a -> count (fun l => exists r, l = x :: r /\ P r) a.
Proof.
  intros (L & H1 & H2 & ->). exists (map (cons x) L). split; [|split].
  - apply FinFun.Injective_map_NoDup; auto. intros u v E. congruence.
  - intros l. rewrite in_map_iff. split; intros (r & H & H'); exists r.
    + apply H2 in H'. auto.
    + apply H2 in H'. auto.
  - now rewrite map_length.
Qed.
Lemma count_family (P : nat -> list nat -> Prop) c xs : NoDup xs -> (forall x, In x xs -> count (P x) c) ->
  count (fun l => exists x r, In x xs /\ l = x :: r /\ P x r) (Z.of_nat (length xs) * c)%Z.
Proof.
  induction 1 as [|x xs Hx Hn IH]; intros H.
  - eapply count_ext; [|apply count_none]. intros l. split; [tauto|]. intros (? & ? & [] & _).
  - replace (Z.of_nat (length (x :: xs)) * c)%Z with (c + Z.of_nat (length xs) * c)%Z by (cbn [length]; lia).
    eapply count_ext; [|apply count_sum; [apply (count_cons (P x) c x); apply H; now left|apply IH; intros y Hy; apply H; now right|]].
    + intros l. split.
      * intros [(r & E & Hr)|(y & r & Hy & E & Hr)]; [exists x, r|exists y, r]; cbn; auto.
      * intros (y & r & [->|Hy] & E & Hr); [left|right]; eauto. 
    + intros l (r & -> & _) (y & r' & Hy & E & _). congruence.
Qed.

(** ** the four numbers *)
Fixpoint fall (n k : nat) : Z :=
  match k with O => 1 | S k' => (Z.of_nat n * fall (n - 1) k')%Z end.
Fixpoint bin (n k : nat) : Z :=
  match k, n with
  | O, _ => 1%Z | S _, O => 0%Z | S k', S n' => (bin n' k' + bin n' k)%Z
  end.
Lemma zfact_pos n : (0 < zfact n)%Z.
Proof. induction n; cbn [zfact]; lia. Qed.
Lemma zfact_S n : zfact (S n) = (Z.of_nat (S n) * zfact n)%Z. Proof. reflexivity. Qed.
Lemma fall_fact k : forall n, k <= n -> (fall n k * zfact (n - k) = zfact n)%Z.
Proof.
  induction k as [|k IH]; intros n Hk.
  - cbn [fall]. rewrite Nat.sub_0_r. lia.
  - destruct n as [|n]; [lia|]. cbn [fall]. replace (S n - 1) with n by lia. cbn [Nat.sub].
    rewrite <- Z.mul_assoc, IH by lia. reflexivity.
Qed.
Lemma bin_big n : forall k, n < k -> bin n k = 0%Z.
Proof. induction n as [|n IH]; intros [|k] H; try lia; cbn [bin]; auto. rewrite !IH by lia. reflexivity. Qed.
Lemma bin_diag n : bin n n = 1%Z.
Proof. induction n as [|n IH]; cbn [bin]; auto. rewrite IH, bin_big by lia. reflexivity. Qed.
Lemma bin_fact n : forall k, k <= n -> (bin n k * zfact k * zfact (n - k) = zfact n)%Z.
Proof.
  induction n as [|n IH]; intros [|k] Hk; try lia.
  - reflexivity.
  - cbn [bin]. rewrite Nat.sub_0_r. change (zfact 0) with 1%Z. ring.
  - cbn [bin Nat.sub]. destruct (Nat.eq_dec k n) as [->|E].
    + rewrite (bin_big n (S n)) by lia. rewrite Z.add_0_r. rewrite bin_diag, Nat.sub_diag. change (zfact 0) with 1%Z. ring.
    + pose proof (IH k ltac:(lia)) as H1. pose proof (IH (S k) ltac:(lia)) as H2.
      assert (E2 : zfact (n - k) = (Z.of_nat (n - k) * zfact (n - S k))%Z).
      { replace (n - k) with (S (n - S k)) by lia. reflexivity. }
      rewrite (zfact_S n). rewrite (zfact_S k) in *.
      replace (Z.of_nat (S n)) with (Z.of_nat (S k) + Z.of_nat (n - k))%Z by lia.
      rewrite E2 in *. rewrite Z.mul_add_distr_r.
      transitivity (Z.of_nat (S k) * (bin n k * zfact k * (Z.of_nat (n - k) * zfact (n - S k)))
                    + Z.of_nat (n - k) * (bin n (S k) * (Z.of_nat (S k) * zfact k) * zfact (n - S k)))%Z; [ring|].
      rewrite H1, H2. ring.
Qed.

Lemma count_sequence n k : count (sequence n k) (Z.of_nat n ^ Z.of_nat k).
Proof.
  induction k as [|k IH].
  - eapply count_ext; [|apply count_nil]. intros l. unfold sequence, from. split.
    + intros ->. auto.
    + intros [H _]. now apply length_zero_iff_nil.
  - rewrite Nat2Z.inj_succ, Z.pow_succ_r by lia.
    replace (Z.of_nat n * Z.of_nat n ^ Z.of_nat k)%Z with (Z.of_nat (length (seq 0 n)) * Z.of_nat n ^ Z.of_nat k)%Z by now rewrite seq_length.
    eapply count_ext; [|apply (count_family (fun _ => sequence n k)); [apply seq_NoDup|intros; exact IH]].
    intros l. unfold sequence, from. split.
    + intros (x & r & Hx & -> & Hl & Hr). apply in_seq in Hx. cbn. split; [lia|]. constructor; auto; lia.
    + intros (Hl & Hf). destruct l as [|x r]; [discriminate|]. inversion Hf; subst. exists x, r.
      rewrite in_seq. cbn in Hl. repeat split; auto; lia.
Qed.

Lemma remove_length (x : nat) l : NoDup l -> In x l -> length (remove Nat.eq_dec x l) = length l - 1.
Proof.
  induction 1 as [|y l Hy Hn IH]; intros Hx; [destruct Hx|]. cbn [remove]. destruct (Nat.eq_dec x y) as [->|E].
  - rewrite notin_remove by auto. cbn. lia.
  - destruct Hx as [->|Hx]; [congruence|]. cbn [length]. rewrite IH by auto. destruct l; [destruct Hx|cbn; lia].
Qed.
Lemma remove_NoDup (x : nat) l : NoDup l -> NoDup (remove Nat.eq_dec x l).
Proof.
  induction 1 as [|y l Hy Hn IH]; cbn; [constructor|]. destruct (Nat.eq_dec x y); auto. constructor; auto.
  intros H. apply in_remove in H. tauto.
Qed.
Lemma count_arr k : forall items, NoDup items ->
  count (fun l => length l = k /\ NoDup l /\ incl l items) (fall (length items) k).
Proof.
  induction k as [|k IH]; intros items Hn.
  - eapply count_ext; [|apply count_nil]. intros l. split.
    + intros ->. split; auto. split; [constructor|]. intros x [].
    + intros [H _]. now apply length_zero_iff_nil.
  - cbn [fall].
    eapply count_ext; [|apply (count_family (fun x l => length l = k /\ NoDup l /\ incl l (remove Nat.eq_dec x items)) _ items Hn)].
    + intros l. cbn beta. split.
      * intros (x & r & Hx & -> & Hl & Hr & Hi). cbn. split; [lia|]. split.
        -- constructor; auto. intros H. apply Hi in H. apply in_remove in H. tauto.
        -- intros y [<-|Hy]; auto. apply Hi in Hy. apply in_remove in Hy. tauto.
      * intros (Hl & Hd & Hi). destruct l as [|x r]; [discriminate|]. inversion Hd; subst. exists x, r.
        cbn in Hl. repeat split; auto; try lia.
        -- apply Hi. now left.
        -- intros y Hy. apply in_in_remove; [intros ->; tauto|]. apply Hi. now right.
    + intros x Hx. rewrite <- (remove_length x items) by auto. apply IH. now apply remove_NoDup.
Qed.
Lemma count_arrangement n k : count (arrangement n k) (fall n k).
Proof.
  replace (fall n k) with (fall (length (seq 0 n)) k) by now rewrite seq_length.
  eapply count_ext; [|apply count_arr, seq_NoDup].
  intros l. unfold arrangement, from. rewrite Forall_forall. unfold incl.
  assert (E : (forall a, In a l -> In a (seq 0 n)) <-> (forall x, In x l -> x < n)).
  { split; intros H x Hx; specialize (H x Hx); [apply in_seq in H; lia|apply in_seq; lia]. }
  tauto.
Qed.

Lemma count_sorted (m : nat) : forall k a,
  count (fun l => length l = k /\ Forall (fun x => a <= x < a + m) l /\ StronglySorted lt l) (bin m k).
Proof.
  induction m as [|m IH]; intros k a; destruct k as [|k].
  - eapply count_ext; [|apply count_nil]. intros l. split.
    + intros ->. repeat constructor.
    + intros [H _]. now apply length_zero_iff_nil.
  - eapply count_ext; [|apply count_none]. intros l. split; [tauto|]. intros (H & Hf & _).
    destruct l; [discriminate|]. inversion Hf; subst. lia.
  - eapply count_ext; [|apply count_nil]. intros l. split.
    + intros ->. repeat constructor.
    + intros [H _]. now apply length_zero_iff_nil.
  - cbn [bin]. eapply count_ext; [|apply count_sum; [exact (count_cons _ _ a (IH k (S a)))|apply (IH (S k) (S a))|]].
    + intros l. cbn beta. split.
      * intros [(r & -> & Hl & Hf & Hs)|(Hl & Hf & Hs)].
        -- cbn. split; [lia|]. split.
           ++ constructor; [lia|]. eapply Forall_impl; [|exact Hf]. cbn. intros; lia.
           ++ constructor; auto. eapply Forall_impl; [|exact Hf]. cbn. intros; lia.
        -- split; auto. split; auto. eapply Forall_impl; [|exact Hf]. cbn. intros; lia.
      * intros (Hl & Hf & Hs). destruct l as [|x r]; [discriminate|]. inversion Hf; subst. inversion Hs; subst.
        destruct (Nat.eq_dec x a) as [->|E].
        -- left. exists r. cbn in Hl. split; auto. split; [lia|]. split; auto.
           rewrite Forall_forall in *. intros y Hy. specialize (H2 y Hy). specialize (H4 y Hy). lia.
        -- right. split; auto. split; auto. constructor; [lia|].
           rewrite Forall_forall in *. intros y Hy. specialize (H2 y Hy). specialize (H4 y Hy). lia.
    + intros l (r & -> & _) (_ & Hf & _). inversion Hf; subst. lia.
Qed.
Lemma count_subset n k : count (subset n k) (bin n k).
Proof.
  eapply count_ext; [|apply (count_sorted n k 0)]. intros l. unfold subset, from. cbn beta.
  assert (E : Forall (fun x => 0 <= x < 0 + n) l <-> Forall (fun x => x < n) l).
  { split; intros H; (eapply Forall_impl; [|exact H]); cbn; intros; lia. }
  tauto.
Qed.

(** multisets: C(m+k-1, k) *)
Definition mbin (m k : nat) : Z := match m, k with O, O => 1%Z | O, _ => 0%Z | S m', _ => bin (m' + k) k end.
Lemma count_multi (m : nat) : forall k a,
  count (fun l => length l = k /\ Forall (fun x => a <= x < a + m) l /\ StronglySorted le l) (mbin m k).
Proof.
  assert (Z0 : forall m a, count (fun l => length l = 0 /\ Forall (fun x => a <= x < a + m) l /\ StronglySorted le l) 1%Z).
  { intros m' a. eapply count_ext; [|apply count_nil]. intros l. split.
    - intros ->. repeat constructor.
    - intros [H _]. now apply length_zero_iff_nil. }
  assert (B0 : forall m, bin m 0 = 1%Z) by (intros []; reflexivity).
  induction m as [|m IH]; intros k; [intros a; destruct k as [|k]|].
  - apply Z0.
  - eapply count_ext; [|apply count_none]. intros l. split; [tauto|]. intros (H & Hf & _).
    destruct l; [discriminate|]. inversion Hf; subst. lia.
  - induction k as [|k IHk]; intros a.
    + cbn [mbin]. rewrite Nat.add_0_r, B0. apply Z0.
    + replace (mbin (S m) (S k)) with (mbin (S m) k + mbin m (S k))%Z.
      2:{ cbn [mbin]. destruct m as [|m].
          - cbn [mbin Nat.add]. rewrite !bin_diag. reflexivity.
          - cbn [mbin]. replace (S m + S k) with (S (S m + k)) by lia. cbn [bin].
            replace (m + S k) with (S m + k) by lia. reflexivity. }
      eapply count_ext; [|apply count_sum; [exact (count_cons _ _ a (IHk a))|apply (IH (S k) (S a))|]].
      * intros l. cbn beta. split.
        -- intros [(r & -> & Hl & Hf & Hs)|(Hl & Hf & Hs)].
           ++ cbn. split; [lia|]. split.
              ** constructor; [lia|]. auto.
              ** constructor; auto. eapply Forall_impl; [|exact Hf]. cbn. intros; lia.
           ++ split; auto. split; auto. eapply Forall_impl; [|exact Hf]. cbn. intros; lia.
        -- intros (Hl & Hf & Hs). destruct l as [|x r]; [discriminate|]. inversion Hf; subst. inversion Hs; subst.
           destruct (Nat.eq_dec x a) as [->|E].
           ++ left. exists r. cbn in Hl. split; auto.
           ++ right. split; auto. split; auto. constructor; [lia|].
              rewrite Forall_forall in *. intros y Hy. specialize (H2 y Hy). specialize (H4 y Hy). lia.
      * intros l (r & -> & _) (_ & Hf & _). inversion Hf; subst. lia.
Qed.
Lemma count_multiset n k : count (multiset n k) (mbin n k).
Proof.
  eapply count_ext; [|apply (count_multi n k 0)]. intros l. unfold multiset, from. cbn beta.
  assert (E : Forall (fun x => 0 <= x < 0 + n) l <-> Forall (fun x => x < n) l).
  { split; intros H; (eapply Forall_impl; [|exact H]); cbn; intros; lia. }
  tauto.
Qed.

(** ** floats *)
Local Open Scope Z_scope.
#[local] Instance Hp64 : Prec_gt_0 prec64. Proof. reflexivity. Qed.
#[local] Instance Hm64 : Prec_lt_emax prec64 emax64. Proof. reflexivity. Qed.

Lemma fdiv_correct x y :
  fvalid x = true -> fvalid y = true -> ffinite x = true -> ffinite y = true -> f2R y <> 0%R ->
  (Rabs (rnd64 (f2R x / f2R y)) < bpow radix2 1024)%R ->
  f2R (fdiv x y) = rnd64 (f2R x / f2R y) /\ ffinite (fdiv x y) = true /\ fvalid (fdiv x y) = true.
Proof.
  intros Vx Vy Fx Fy Ny Hb.
  destruct y as [sy|sy| |sy my ey]; try discriminate; cbn [f2R SF2R] in Ny; try (now elim Ny).
  destruct x as [sx|sx| |sx mx ex]; try discriminate.
  - cbn [fdiv SFdiv f2R SF2R]. unfold Rdiv. rewrite Rmult_0_l, rnd64_0. repeat split; reflexivity.
  - unfold fdiv, SFdiv.
    pose proof (Bdiv_correct_aux prec64 emax64 _ _ mode_NE sx mx ex sy my ey) as [Hv H].
    cbv zeta in Hv, H. rewrite Rlt_bool_true in H by exact Hb.
    destruct (SFdiv_core_binary prec64 emax64 (Z.pos mx) ex (Z.pos my) ey) as [[mz ez] lz].
    rewrite bra_equiv. destruct H as (H1 & H2 & _). split; [exact H1|]. split; [exact H2|exact Hv].
Qed.

Lemma rnd64_fix z : Z.abs z <= 2 ^ 53 -> rnd64 (IZR z) = IZR z /\ (Rabs (rnd64 (IZR z)) < bpow radix2 1024)%R.
Proof.
  intros H. pose proof (rnd64_int z H) as E. split; auto. rewrite E, <- abs_IZR.
  change (bpow radix2 1024) with (IZR (2 ^ 1024)). apply IZR_lt. 
  assert (2 ^ 53 < 2 ^ 1024) by (apply Z.pow_lt_mono_r; lia). lia.
Qed.

Lemma IZR_quot a b c : b <> 0 -> a = c * b -> (IZR a / IZR b = IZR c)%R.
Proof. intros Hb ->. rewrite mult_IZR. field. intros H. apply eq_IZR in H. auto. Qed.

(** an exactly representable quotient *)
Lemma int_true_div_exact a b c : b <> 0 -> a = c * b -> Z.abs c <= 2 ^ 53 ->
  exists f, int_true_div a b = Ok f /\ f2R f = IZR c /\ ffinite f = true /\ fvalid f = true.
Proof.
  intros Hb E Hc. pose proof (int_true_div_correct a b Hb) as H. rewrite (IZR_quot a b c Hb E) in H.
  destruct (rnd64_fix c Hc) as [Hr Hl]. rewrite Rlt_bool_true in H by auto. rewrite Hr in H. exact H.
Qed.
Lemma int_of_float_IZR f c : ffinite f = true -> f2R f = IZR c -> int_of_float f = Ok c.
Proof. intros Hf E. rewrite int_of_float_correct by auto. rewrite E, Ztrunc_IZR. reflexivity. Qed.

Lemma float_div_int_exact x a c y : f2R x = IZR a -> ffinite x = true -> fvalid x = true ->
  y <> 0 -> Z.abs y <= 2 ^ 53 -> a = c * y -> Z.abs c <= 2 ^ 53 ->
  exists f, float_div_int x y = Ok f /\ f2R f = IZR c /\ ffinite f = true.
Proof.
  intros Ex Fx Vx Hy By E Bc. destruct (rnd64_fix y By) as [Hr Hl].
  destruct (float_of_int_correct y Hl) as (fy & E1 & E2 & E3 & E4). rewrite Hr in E2.
  unfold float_div_int. rewrite E1. cbn [bind].
  assert (N : f2R fy <> 0%R). { rewrite E2. intros H. apply eq_IZR in H. auto. }
  assert (D : (f2R x / f2R fy = IZR c)%R). { rewrite Ex, E2. now apply IZR_quot. }
  destruct (rnd64_fix c Bc) as [Hr' Hl'].
  destruct (fdiv_correct x fy Vx E4 Fx E3 N) as (G1 & G2 & _).
  { rewrite D. auto. }
  rewrite D, Hr' in G1.
  destruct fy; try (eexists; split; [reflexivity|]; auto).
  cbn in N. lra.
Qed.

(** ** Permutation *)
Lemma check_ok n k : 0 <= k <= n -> check_args (AInt n) (AInt k) = Ok (n, k).
Proof.
  intros H. unfold check_args. rewrite (proj2 (Z.leb_le 0 n)) by lia. cbn [assert_ bind].
  rewrite (proj2 (Z.leb_le 0 k)), (proj2 (Z.leb_le k n)) by lia. reflexivity.
Qed.
Lemma factorial_nat n : factorial (Z.of_nat n) = Ok (zfact n).
Proof. unfold factorial. destruct (Z.ltb_spec (Z.of_nat n) 0); [lia|]. now rewrite Nat2Z.id. Qed.
Lemma factorial_sub n k : (k <= n)%nat -> factorial (Z.of_nat n - Z.of_nat k) = Ok (zfact (n - k)).
Proof. intros H. rewrite <- Nat2Z.inj_sub by auto. apply factorial_nat. Qed.

Lemma permutation_unfold n k : (k <= n)%nat ->
  Permutation_ (AInt (Z.of_nat n)) (AInt (Z.of_nat k)) false =
  bind (int_true_div (zfact n) (zfact (n - k))) int_of_float.
Proof.
  intros H. unfold Permutation_. rewrite check_ok by lia. cbn [bind].
  rewrite factorial_nat, factorial_sub by auto. reflexivity.
Qed.

Lemma rnd64_integer z : exists v, rnd64 (IZR z) = IZR v.
Proof.
  unfold rnd64. set (e := cexp radix2 (FLT_exp (-1074) 53) (IZR z)).
  unfold round, F2R, scaled_mantissa. cbn [Fnum Fexp]. fold e.
  destruct (Z_le_gt_dec 0 e) as [He|He].
  - exists (ZnearestE (IZR z * bpow radix2 (- e)) * 2 ^ e). rewrite mult_IZR. f_equal.
    change 2 with (radix_val radix2). now rewrite IZR_Zpower.
  - exists z.
    replace (IZR z * bpow radix2 (- e))%R with (IZR (z * 2 ^ (- e))).
    2:{ rewrite mult_IZR. f_equal. change 2 with (radix_val radix2). rewrite IZR_Zpower by lia. reflexivity. }
    rewrite Zrnd_IZR by auto with typeclass_instances. rewrite mult_IZR.
    change 2 with (radix_val radix2). rewrite IZR_Zpower by lia. rewrite Rmult_assoc, <- bpow_plus.
    replace (- e + e) with 0 by lia. cbn. ring.
Qed.

(** Permutation returns the correctly rounded number of arrangements. *)
Lemma permutation_value n k c : (k <= n)%nat -> count (arrangement n k) c ->
  let r := Permutation_ (AInt (Z.of_nat n)) (AInt (Z.of_nat k)) false in
  if Rlt_bool (rnd64 (IZR c)) (bpow radix2 1024)
  then exists v, r = Ok v /\ IZR v = rnd64 (IZR c)
  else r = Err OverflowError.
Proof.
  intros Hk Hc. cbv zeta. rewrite permutation_unfold by auto.
  rewrite (count_unique _ _ _ Hc (count_arrangement n k)).
  pose proof (zfact_pos (n - k)) as P1. pose proof (zfact_pos n) as P2.
  assert (P3 : 0 < fall n k). { pose proof (fall_fact k n Hk). nia. }
  pose proof (int_true_div_correct (zfact n) (zfact (n - k)) ltac:(lia)) as H.
  rewrite (IZR_quot _ _ (fall n k)) in H by (try lia; symmetry; now apply fall_fact).
  rewrite Rabs_pos_eq in H by (rewrite <- rnd64_0; apply rnd64_le; apply IZR_le; lia).
  destruct (Rlt_bool _ _).
  - destruct H as (f & E & F & G & _). rewrite E. cbn [bind]. rewrite int_of_float_correct by auto.
    destruct (rnd64_integer (fall n k)) as [v Hv]. exists v. rewrite F, Hv, Ztrunc_IZR. auto.
  - rewrite H. reflexivity.
Qed.

(** c has at most 53 significant bits *)
Definition bits53 (c : Z) : Prop := exists m e, c = m * 2 ^ e /\ 0 <= e /\ Z.abs m < 2 ^ 53.
Lemma rnd64_bits c : bits53 c <-> rnd64 (IZR c) = IZR c.
Proof.
  split.
  - intros (m & e & -> & He & Hm). apply round_generic; auto with typeclass_instances.
    apply generic_format_FLT. exists (Float radix2 m e).
    + unfold F2R. cbn [Fnum Fexp]. rewrite mult_IZR. f_equal. change 2 with (radix_val radix2). now rewrite IZR_Zpower.
    + cbn. exact Hm.
    + cbn. lia.
  - intros H. assert (G : generic_format radix2 (FLT_exp (-1074) 53) (IZR c)).
    { rewrite <- H. apply generic_format_round; auto with typeclass_instances. }
    apply FLT_format_generic in G; [|reflexivity]. destruct G as [[m e] E Hm He]. cbn [Fnum Fexp] in *.
    unfold F2R in E. cbn [Fnum Fexp] in E.
    destruct (Z_le_gt_dec 0 e) as [P|P].
    + exists m, e. split; [|split; auto]. apply eq_IZR. rewrite mult_IZR. rewrite E. f_equal.
      change 2 with (radix_val radix2). now rewrite IZR_Zpower.
    + exists c, 0. split; [lia|]. split; [lia|]. apply lt_IZR. rewrite abs_IZR, E, Rabs_mult.
      rewrite (Rabs_pos_eq (bpow radix2 e)) by apply bpow_ge_0. rewrite <- abs_IZR.
      apply Rle_lt_trans with (IZR (Z.abs m) * 1)%R.
      * apply Rmult_le_compat_l; [apply IZR_le; lia|]. change 1%R with (bpow radix2 0). apply bpow_le. lia.
      * rewrite Rmult_1_r. apply IZR_lt. exact Hm.
Qed.

Lemma permutation_exact_iff n k c : (k <= n)%nat -> count (arrangement n k) c ->
  (Permutation_ (AInt (Z.of_nat n)) (AInt (Z.of_nat k)) false = Ok c <-> bits53 c /\ c < 2 ^ 1024).
Proof.
  intros Hk Hc. pose proof (permutation_value n k c Hk Hc) as H. cbv zeta in H. rewrite rnd64_bits.
  assert (E1024 : bpow radix2 1024 = IZR (2 ^ 1024)) by reflexivity. rewrite E1024 in H.
  destruct (Rlt_bool_spec (rnd64 (IZR c)) (IZR (2 ^ 1024))) as [L|L].
  - destruct H as (v & -> & Hv). split.
    + intros [= ->]. split; auto. apply lt_IZR. now rewrite Hv.
    + intros [E _]. f_equal. apply eq_IZR. congruence.
  - rewrite H. split; [discriminate|]. intros [E Hl]. rewrite E in L. apply le_IZR in L. lia.
Qed.

Lemma small_bits c : Z.abs c <= 2 ^ 53 -> bits53 c /\ c < 2 ^ 1024.
Proof.
  intros H. split; [apply rnd64_bits; now apply rnd64_int|].
  assert (2 ^ 53 < 2 ^ 1024) by (apply Z.pow_lt_mono_r; lia). lia.
Qed.

(** ** Combination *)
Lemma combination_core a b c q r : 0 < b -> 0 < c -> a = q * b -> q = r * c -> 0 <= q <= 2 ^ 53 -> c <= 2 ^ 53 -> 0 <= r ->
  bind (int_true_div a b) (fun x => bind (float_div_int x c) int_of_float) = Ok r.
Proof.
  intros Hb Hc E1 E2 Bq Bc Pr.
  destruct (int_true_div_exact a b q ltac:(lia) E1 ltac:(lia)) as (f & -> & F1 & F2 & F3). cbn [bind].
  destruct (float_div_int_exact f q r c F1 F2 F3 ltac:(lia) ltac:(lia) E2 ltac:(nia)) as (g & -> & G1 & G2).
  cbn [bind]. now apply int_of_float_IZR.
Qed.
Lemma combination_unfold n k : (k <= n)%nat ->
  Combination_ (AInt (Z.of_nat n)) (AInt (Z.of_nat k)) false =
  bind (int_true_div (zfact n) (zfact k)) (fun x => bind (float_div_int x (zfact (n - k))) int_of_float).
Proof.
  intros H. unfold Combination_. rewrite check_ok by lia. cbn [bind].
  rewrite !factorial_nat, factorial_sub by auto. cbn [bind].
  destruct (int_true_div _ _); reflexivity.
Qed.
Lemma combination_rep_unfold n k : (k <= n)%nat -> (1 <= n)%nat ->
  Combination_ (AInt (Z.of_nat n)) (AInt (Z.of_nat k)) true =
  bind (int_true_div (zfact (n + k - 1)) (zfact k)) (fun x => bind (float_div_int x (zfact (n - 1))) int_of_float).
Proof.
  intros H H1. unfold Combination_. rewrite check_ok by lia. cbn [bind].
  replace (Z.of_nat n + Z.of_nat k - 1) with (Z.of_nat (n + k - 1)) by lia.
  replace (Z.of_nat n - 1) with (Z.of_nat (n - 1)) by lia.
  rewrite !factorial_nat. cbn [bind].
  destruct (int_true_div _ _); reflexivity.
Qed.
Lemma bin_nonneg n : forall k, 0 <= bin n k.
Proof. induction n as [|n IH]; intros [|k]; cbn [bin]; try lia. pose proof (IH k). pose proof (IH (S k)). lia. Qed.

Lemma combination_exact n k c : (k <= n)%nat -> count (subset n k) c ->
  zfact n <= 2 ^ 53 * zfact k -> zfact (n - k) <= 2 ^ 53 ->
  Combination_ (AInt (Z.of_nat n)) (AInt (Z.of_nat k)) false = Ok c.
Proof.
  intros Hk Hc H1 H2. rewrite combination_unfold by auto.
  rewrite (count_unique _ _ _ Hc (count_subset n k)).
  pose proof (bin_fact n k Hk) as B. pose proof (bin_nonneg n k) as P.
  pose proof (zfact_pos k) as P1. pose proof (zfact_pos (n - k)) as P2.
  apply combination_core with (q := bin n k * zfact (n - k)); auto; try lia; try nia.
Qed.
Lemma mbin_fact n k : (1 <= n)%nat -> mbin n k * zfact k * zfact (n - 1) = zfact (n + k - 1) /\ 0 <= mbin n k.
Proof.
  intros H. destruct n as [|n]; [lia|]. cbn [mbin]. replace (S n - 1)%nat with n by lia.
  replace (S n + k - 1)%nat with (n + k)%nat by lia. split; [|apply bin_nonneg].
  rewrite <- (bin_fact (n + k) k) by lia. do 2 f_equal. lia.
Qed.
Lemma combination_rep_exact n k c : (k <= n)%nat -> (1 <= n)%nat -> count (multiset n k) c ->
  zfact (n + k - 1) <= 2 ^ 53 * zfact k -> zfact (n - 1) <= 2 ^ 53 ->
  Combination_ (AInt (Z.of_nat n)) (AInt (Z.of_nat k)) true = Ok c.
Proof.
  intros Hk Hn Hc H1 H2. rewrite combination_rep_unfold by auto.
  rewrite (count_unique _ _ _ Hc (count_multiset n k)).
  destruct (mbin_fact n k Hn) as [B P].
  pose proof (zfact_pos k) as P1. pose proof (zfact_pos (n - 1)) as P2.
  apply combination_core with (q := mbin n k * zfact (n - 1)); auto; try lia; try nia.
Qed.

(** ** how far off Combination can be *)
Lemma rnd64_rel x : (1 <= x)%R -> exists e, (Rabs e <= bpow radix2 (-53))%R /\ rnd64 x = (x * (1 + e))%R.
Proof.
  intros Hx. destruct (relative_error_N_FLT_ex radix2 (-1074) 53 eq_refl (fun z => negb (Z.even z)) x) as (e & He & E).
  - rewrite Rabs_pos_eq by lra. apply Rle_trans with (2 := Hx). change 1%R with (bpow radix2 0). apply bpow_le. lia.
  - exists e. split; [|exact E]. apply Rle_trans with (1 := He).
    replace (bpow radix2 (-53)) with (/ 2 * bpow radix2 (-52))%R; [apply Rle_refl|].
    change (/ 2)%R with (bpow radix2 (-1)). rewrite <- bpow_plus. reflexivity.
Qed.
Lemma rnd64_ge1 x : (1 <= x)%R -> (1 <= rnd64 x)%R.
Proof. intros H. rewrite <- (rnd64_int 1) by (cbn; lia). now apply rnd64_le. Qed.
Lemma rnd64_bpow1023 : rnd64 (bpow radix2 1023) = bpow radix2 1023.
Proof. apply round_generic; auto with typeclass_instances. apply generic_format_bpow. unfold FLT_exp. lia. Qed.
Lemma rnd64_lt1024 x : (x <= bpow radix2 1023)%R -> (rnd64 x < bpow radix2 1024)%R.
Proof.
  intros H. apply Rle_lt_trans with (bpow radix2 1023).
  - rewrite <- rnd64_bpow1023. now apply rnd64_le.
  - apply bpow_lt. lia.
Qed.
Lemma rel_core (c u e1 e2 e3 : R) : (0 <= c)%R -> (0 < u <= /1000)%R ->
  (Rabs e1 <= u)%R -> (Rabs e2 <= u)%R -> (Rabs e3 <= u)%R ->
  (Rabs (c * (1 + e1) / (1 + e2) * (1 + e3) - c) <= c * (4 * u))%R.
Proof.
  intros Hc Hu H1 H2 H3. apply Rabs_le_inv in H1, H2, H3.
  assert (D : (0 < 1 + e2)%R) by lra.
  replace (c * (1 + e1) / (1 + e2) * (1 + e3) - c)%R with (c * (((1 + e1) * (1 + e3) - (1 + e2)) / (1 + e2)))%R by (field; lra).
  rewrite Rabs_mult, (Rabs_pos_eq c) by auto. apply Rmult_le_compat_l; auto.
  unfold Rdiv. rewrite Rabs_mult, (Rabs_pos_eq (/ (1 + e2))) by (left; now apply Rinv_0_lt_compat).
  apply Rmult_le_reg_r with (1 + e2)%R; auto. rewrite Rmult_assoc, Rinv_l, Rmult_1_r by lra.
  apply Rabs_le. split; nra.
Qed.

Lemma combination_bound_core a b d q c : 0 < b -> 0 < d -> 0 < c -> a = q * b -> q = c * d ->
  q < 2 ^ 1023 -> d < 2 ^ 1023 ->
  exists v, bind (int_true_div a b) (fun x => bind (float_div_int x d) int_of_float) = Ok v /\
            Z.abs (v - c) * 2 ^ 51 < 2 ^ 51 + c.
Proof.
  intros Hb Hd Pc E1 E2 Bq Bd.
  assert (L1023 : bpow radix2 1023 = IZR (2 ^ 1023)) by reflexivity.
  assert (Q1 : (1 <= IZR q)%R) by (apply IZR_le; nia).
  assert (D1 : (1 <= IZR d)%R) by (apply IZR_le; nia).
  assert (Rq : (rnd64 (IZR q) < bpow radix2 1024)%R) by (apply rnd64_lt1024; rewrite L1023; apply IZR_le; lia).
  assert (Rd : (rnd64 (IZR d) < bpow radix2 1024)%R) by (apply rnd64_lt1024; rewrite L1023; apply IZR_le; lia).
  pose proof (rnd64_ge1 _ Q1) as Gq. pose proof (rnd64_ge1 _ D1) as Gd.
  pose proof (int_true_div_correct a b ltac:(lia)) as H. rewrite (IZR_quot a b q) in H by (auto; lia).
  rewrite Rabs_pos_eq in H by lra. rewrite Rlt_bool_true in H by auto.
  destruct H as (f & -> & F1 & F2 & F3). cbn [bind].
  destruct (float_of_int_correct d) as (fy & G1 & G2 & G3 & G4); [rewrite Rabs_pos_eq by lra; auto|].
  unfold float_div_int. rewrite G1. cbn [bind].
  assert (N : f2R fy <> 0%R) by (rewrite G2; lra).
  assert (X0 : (0 <= f2R f / f2R fy)%R) by (rewrite F1, G2; apply Rle_mult_inv_pos; lra).
  assert (B : (rnd64 (f2R f / f2R fy) < bpow radix2 1024)%R).
  { apply Rle_lt_trans with (rnd64 (IZR q)); auto.
    assert (Idem : rnd64 (rnd64 (IZR q)) = rnd64 (IZR q)).
    { apply round_generic; auto with typeclass_instances. apply generic_format_round; auto with typeclass_instances. }
    rewrite <- Idem. apply rnd64_le. rewrite F1, G2. apply Rmult_le_reg_r with (rnd64 (IZR d)); [lra|].
    unfold Rdiv. rewrite Rmult_assoc, Rinv_l by lra. nra. }
  destruct (fdiv_correct f fy F3 G4 F2 G3 N) as (K1 & K2 & _).
  { rewrite Rabs_pos_eq; auto. rewrite <- rnd64_0. now apply rnd64_le. }
  assert (E : match fy with S754_zero _ => Err ZeroDivisionError | _ => Ok (fdiv f fy) end = Ok (fdiv f fy)).
  { destruct fy; auto. cbn in N. lra. }
  rewrite E. cbn [bind]. rewrite int_of_float_correct by auto.
  eexists; split; [reflexivity|].
  rewrite K1, F1, G2. set (X := rnd64 (rnd64 (IZR q) / rnd64 (IZR d))).
  assert (Hx : (Rabs (X - IZR c) <= IZR c * (4 * bpow radix2 (-53)))%R).
  { destruct (rnd64_rel _ Q1) as (e1 & He1 & R1). destruct (rnd64_rel _ D1) as (e2 & He2 & R2).
    unfold X. rewrite R1, R2.
    assert (U : (0 < bpow radix2 (-53) <= / 1000)%R).
    { split; [apply bpow_gt_0|]. apply Rle_trans with (bpow radix2 (-10)); [apply bpow_le; lia|]. cbn. lra. }
    assert (D2 : (0 < 1 + e2)%R) by (apply Rabs_le_inv in He2; lra).
    assert (Eq : (IZR q * (1 + e1) / (IZR d * (1 + e2)) = IZR c * (1 + e1) / (1 + e2))%R).
    { rewrite E2, mult_IZR. field. split; [lra|]. lra. }
    rewrite Eq.
    destruct (Rle_or_lt 1 (IZR c * (1 + e1) / (1 + e2))) as [L|L].
    - destruct (rnd64_rel _ L) as (e3 & He3 & ->). apply rel_core; auto. apply IZR_le; lia.
    - (* the quotient dropped below one: then c = 1 *)
      assert (c = 1).
      { destruct (Z.eq_dec c 1); auto. exfalso.
        assert (2 <= IZR c)%R by (apply IZR_le; lia).
        apply Rmult_lt_compat_r with (r := (1 + e2)%R) in L; auto.
        unfold Rdiv in L. rewrite Rmult_assoc, Rinv_l, Rmult_1_r in L by lra.
        apply Rabs_le_inv in He1, He2. nra. }
      subst c.
      apply Rabs_le_inv in He1, He2.
      assert (Bnd : (/ 2 <= 1 * (1 + e1) / (1 + e2))%R).
      { apply Rmult_le_reg_r with (1 + e2)%R; auto. unfold Rdiv. rewrite Rmult_assoc, Rinv_l by lra. nra. }
      destruct (relative_error_N_FLT_ex radix2 (-1074) 53 eq_refl (fun z => negb (Z.even z)) (1 * (1 + e1) / (1 + e2))) as (e3 & He3 & R3).
      { rewrite Rabs_pos_eq by lra. apply Rle_trans with (2 := Bnd). change (/ 2)%R with (bpow radix2 (-1)). apply bpow_le. lia. }
      unfold rnd64 at 1. rewrite R3. apply rel_core; auto; [lra| | |].
      + now apply Rabs_le.
      + now apply Rabs_le.
      + apply Rle_trans with (1 := He3).
        replace (bpow radix2 (-53)) with (/ 2 * bpow radix2 (-52))%R; [apply Rle_refl|].
        change (/ 2)%R with (bpow radix2 (-1)). rewrite <- bpow_plus. reflexivity. }
  assert (X1 : (0 <= X)%R).
  { unfold X. rewrite <- rnd64_0. apply rnd64_le. rewrite <- F1, <- G2. auto. }
  rewrite Ztrunc_floor by auto.
  pose proof (Zfloor_lb X) as Lb. pose proof (Zfloor_ub X) as Ub. set (v := Zfloor X) in *.
  apply lt_IZR. rewrite mult_IZR, plus_IZR, abs_IZR, minus_IZR.
  assert (E51 : (4 * bpow radix2 (-53) * IZR (2 ^ 51) = 1)%R).
  { change (IZR (2 ^ 51)) with (bpow radix2 51). rewrite Rmult_assoc, <- bpow_plus. cbn. lra. }
  assert (P51 : (0 < IZR (2 ^ 51))%R) by (apply IZR_lt; reflexivity).
  assert (T : (Rabs (IZR v - IZR c) < 1 + IZR c * (4 * bpow radix2 (-53)))%R).
  { apply Rabs_le_inv in Hx. apply Rabs_lt. lra. }
  apply Rmult_lt_compat_r with (r := IZR (2 ^ 51)) in T; auto.
  rewrite Rmult_plus_distr_r, Rmult_assoc, E51 in T. lra.
Qed.

Lemma combination_bound n k c : (k <= n)%nat -> count (subset n k) c ->
  zfact n < 2 ^ 1023 * zfact k -> zfact (n - k) < 2 ^ 1023 ->
  exists v, Combination_ (AInt (Z.of_nat n)) (AInt (Z.of_nat k)) false = Ok v /\
            Z.abs (v - c) * 2 ^ 51 < 2 ^ 51 + c.
Proof.
  intros Hk Hc H1 H2. rewrite combination_unfold by auto.
  rewrite (count_unique _ _ _ Hc (count_subset n k)).
  pose proof (bin_fact n k Hk) as B. pose proof (bin_nonneg n k) as P.
  pose proof (zfact_pos k) as P1. pose proof (zfact_pos (n - k)) as P2. pose proof (zfact_pos n) as P3.
  remember (2 ^ 1023) as big. assert (0 < big) by (subst; reflexivity).
  apply combination_bound_core with (q := bin n k * zfact (n - k)); auto; try nia; subst; try nia; auto.
Qed.
Lemma combination_rep_bound n k c : (k <= n)%nat -> (1 <= n)%nat -> count (multiset n k) c ->
  zfact (n + k - 1) < 2 ^ 1023 * zfact k -> zfact (n - 1) < 2 ^ 1023 ->
  exists v, Combination_ (AInt (Z.of_nat n)) (AInt (Z.of_nat k)) true = Ok v /\
            Z.abs (v - c) * 2 ^ 51 < 2 ^ 51 + c.
Proof.
  intros Hk Hn Hc H1 H2. rewrite combination_rep_unfold by auto.
  rewrite (count_unique _ _ _ Hc (count_multiset n k)).
  destruct (mbin_fact n k Hn) as [B P].
  pose proof (zfact_pos k) as P1. pose proof (zfact_pos (n - 1)) as P2. pose proof (zfact_pos (n + k - 1)) as P3.
  remember (2 ^ 1023) as big. assert (0 < big) by (subst; reflexivity).
  apply combination_bound_core with (q := mbin n k * zfact (n - 1)); auto; try nia; subst; try nia; auto.
Qed.
(** beyond the double range the division itself fails *)
Lemma combination_overflow n k : (k <= n)%nat -> 2 ^ 1024 * zfact k <= zfact n ->
  Combination_ (AInt (Z.of_nat n)) (AInt (Z.of_nat k)) false = Err OverflowError.
Proof.
  intros Hk H. rewrite combination_unfold by auto.
  pose proof (zfact_pos k) as P1. pose proof (int_true_div_correct (zfact n) (zfact k) ltac:(lia)) as T.
  rewrite Rlt_bool_false in T; [now rewrite T|].
  apply Rle_trans with (2 := Rle_abs _).
  assert (E : rnd64 (bpow radix2 1024) = bpow radix2 1024).
  { apply round_generic; auto with typeclass_instances. apply generic_format_bpow. unfold FLT_exp. lia. }
  rewrite <- E. apply rnd64_le. apply Rmult_le_reg_r with (IZR (zfact k)); [apply IZR_lt; lia|].
  unfold Rdiv. rewrite Rmult_assoc, Rinv_l, Rmult_1_r by (apply not_0_IZR; lia).
  change (bpow radix2 1024) with (IZR (2 ^ 1024)). rewrite <- mult_IZR. now apply IZR_le.
Qed.
