(** C47: Permutation and Combination (tools/PandC.py). *)
From Coq Require Import List ZArith Lia Sorted Reals.
From Flocq Require Import Core.Core.
From Verif Require Import Py Float64_Model Float64_Proofs PandC_Model PandC_Spec PandC_Proofs.
Import ListNotations.
Open Scope Z_scope.

(** Anything but two ints with 0 <= k <= n is rejected by an assertion. *)
Theorem C47_invalid_arguments : forall n k repeat,
  (forall a b, n = AInt a -> k = AInt b -> ~ 0 <= b <= a) ->
  Permutation_ n k repeat = Err AssertionError /\ Combination_ n k repeat = Err AssertionError.
Proof.
  assert (H : forall n k, (forall a b, n = AInt a -> k = AInt b -> ~ 0 <= b <= a) -> check_args n k = Err AssertionError).
  { intros [a|] k H; [|reflexivity]. unfold check_args. destruct (Z.leb_spec 0 a); [|reflexivity]. cbn [assert_ bind].
    destruct k as [b|]; [|reflexivity]. specialize (H a b eq_refl eq_refl).
    destruct (Z.leb_spec 0 b); [|reflexivity]. destruct (Z.leb_spec b a); [lia|reflexivity]. }
  intros n k repeat Hn. unfold Permutation_, Combination_. rewrite (H n k Hn). split; reflexivity.
Qed.
Print Assumptions C47_invalid_arguments.

(** Permutation(n, k, repeat=True) is the number of k-sequences over n items, for every n and k <= n. *)
Theorem C47_permutation_repeat : forall n k c : nat,
  (k <= n)%nat -> count (sequence n k) (Z.of_nat c) ->
  Permutation_ (AInt (Z.of_nat n)) (AInt (Z.of_nat k)) true = Ok (Z.of_nat c).
Proof.
  intros n k c Hk Hc. unfold Permutation_. rewrite check_ok by lia. cbn [bind].
  f_equal. apply (count_unique _ _ _ (count_sequence n k) Hc).
Qed.
Print Assumptions C47_permutation_repeat.

(** Permutation(n, k): exact when the number of arrangements is at most 2^53. *)
Theorem C47_permutation_exact : forall n k (c : Z),
  (k <= n)%nat -> count (arrangement n k) c -> c <= 2 ^ 53 ->
  Permutation_ (AInt (Z.of_nat n)) (AInt (Z.of_nat k)) false = Ok c.
Proof.
  intros n k c Hk Hc H. apply permutation_exact_iff; auto. apply small_bits.
  destruct Hc as (L & _ & _ & ->). lia.
Qed.
Print Assumptions C47_permutation_exact.

(** In general it is the number of arrangements rounded to a double, or
    OverflowError; so it is right exactly for numbers with at most 53
    significant bits below 2^1024. *)
Theorem C47_permutation_value : forall n k (c : Z),
  (k <= n)%nat -> count (arrangement n k) c ->
  let r := Permutation_ (AInt (Z.of_nat n)) (AInt (Z.of_nat k)) false in
  (if Rlt_bool (rnd64 (IZR c)) (bpow radix2 1024)
   then exists v, r = Ok v /\ IZR v = rnd64 (IZR c)
   else r = Err OverflowError) /\
  (r = Ok c <-> (exists m e, c = m * 2 ^ e /\ 0 <= e /\ Z.abs m < 2 ^ 53) /\ c < 2 ^ 1024).
Proof.
  intros n k c Hk Hc r. split; [exact (permutation_value n k c Hk Hc)|exact (permutation_exact_iff n k c Hk Hc)].
Qed.
Print Assumptions C47_permutation_value.

(** Combination(n, k) and Combination(n, k, repeat=True) are exact while the
    first quotient and the last factorial stay at most 2^53. *)
Theorem C47_combination_exact : forall n k (c : Z),
  (k <= n)%nat -> count (subset n k) c ->
  zfact n <= 2 ^ 53 * zfact k -> zfact (n - k) <= 2 ^ 53 ->
  Combination_ (AInt (Z.of_nat n)) (AInt (Z.of_nat k)) false = Ok c.
Proof. exact combination_exact. Qed.
Print Assumptions C47_combination_exact.

Theorem C47_combination_repeat_exact : forall n k (c : Z),
  (k <= n)%nat -> (1 <= n)%nat -> count (multiset n k) c ->
  zfact (n + k - 1) <= 2 ^ 53 * zfact k -> zfact (n - 1) <= 2 ^ 53 ->
  Combination_ (AInt (Z.of_nat n)) (AInt (Z.of_nat k)) true = Ok c.
Proof. exact combination_rep_exact. Qed.
Print Assumptions C47_combination_repeat_exact.

(** In particular when the factorials stay below 2^53. *)
Corollary C47_combination_small : forall n k (c : Z),
  (k <= n)%nat -> count (subset n k) c -> zfact n <= 2 ^ 53 ->
  Combination_ (AInt (Z.of_nat n)) (AInt (Z.of_nat k)) false = Ok c.
Proof.
  intros n k c Hk Hc H. pose proof (zfact_pos k) as P. pose proof (bin_fact n k Hk) as B.
  pose proof (zfact_pos (n - k)) as P2. pose proof (bin_nonneg n k) as P3. pose proof (zfact_pos n) as P4.
  apply combination_exact; auto; [lia|]. assert (0 < bin n k) by nia. nia.
Qed.
Print Assumptions C47_combination_small.

(** Beyond that, while nothing overflows, the result differs from the true
    number c by less than 1 + c / 2^51. *)
Theorem C47_combination_error_bound : forall n k (c : Z),
  (k <= n)%nat -> count (subset n k) c ->
  zfact n < 2 ^ 1023 * zfact k -> zfact (n - k) < 2 ^ 1023 ->
  exists v, Combination_ (AInt (Z.of_nat n)) (AInt (Z.of_nat k)) false = Ok v /\
            Z.abs (v - c) * 2 ^ 51 < 2 ^ 51 + c.
Proof. exact combination_bound. Qed.
Print Assumptions C47_combination_error_bound.

Theorem C47_combination_repeat_error_bound : forall n k (c : Z),
  (k <= n)%nat -> (1 <= n)%nat -> count (multiset n k) c ->
  zfact (n + k - 1) < 2 ^ 1023 * zfact k -> zfact (n - 1) < 2 ^ 1023 ->
  exists v, Combination_ (AInt (Z.of_nat n)) (AInt (Z.of_nat k)) true = Ok v /\
            Z.abs (v - c) * 2 ^ 51 < 2 ^ 51 + c.
Proof. exact combination_rep_bound. Qed.
Print Assumptions C47_combination_repeat_error_bound.

(** ... and an n!/k! of 2^1024 or more raises, however small the number of subsets. *)
Theorem C47_combination_overflow : forall n k,
  (k <= n)%nat -> 2 ^ 1024 * zfact k <= zfact n ->
  Combination_ (AInt (Z.of_nat n)) (AInt (Z.of_nat k)) false = Err OverflowError.
Proof. exact combination_overflow. Qed.
Print Assumptions C47_combination_overflow.

(** Refuted beyond: 24 subsets of size 1, Combination says 23; 265182525
    multisets, it says 265182524; a wrong Permutation; C(171, 0) raises; the
    single empty multiset of no items raises ValueError. *)
Theorem C47_refuted :
  (count (subset 24 1) 24 /\ Combination_ (AInt 24) (AInt 1) false = Ok 23) /\
  (count (multiset 18 14) 265182525 /\ Combination_ (AInt 18) (AInt 14) true = Ok 265182524) /\
  (count (arrangement 23 19) 1077167364120207360000 /\
   Permutation_ (AInt 23) (AInt 19) false = Ok 1077167364120207425536) /\
  (count (subset 171 0) 1 /\ Combination_ (AInt 171) (AInt 0) false = Err OverflowError) /\
  (count (multiset 0 0) 1 /\ Combination_ (AInt 0) (AInt 0) true = Err ValueError).
Proof.
  split; [split; [exact (count_subset 24 1)|vm_compute; reflexivity]|].
  split; [split; [|vm_compute; reflexivity]|].
  { replace 265182525 with (mbin 18 14); [apply count_multiset|].
    destruct (mbin_fact 18 14 ltac:(lia)) as [F _]. remember (mbin 18 14) as m. clear Heqm.
    assert (A : m * (zfact 14 * zfact 17) = 265182525 * (zfact 14 * zfact 17)).
    { rewrite Z.mul_assoc. transitivity (zfact 31); [exact F|]. vm_compute. reflexivity. }
    pose proof (zfact_pos 14). pose proof (zfact_pos 17). apply Z.mul_reg_r in A; [exact A|nia]. }
  split; [split; [|vm_compute; reflexivity]|].
  { replace 1077167364120207360000 with (fall 23 19) by (vm_compute; reflexivity). apply count_arrangement. }
  split; [split; [|vm_compute; reflexivity]|].
  { exact (count_subset 171 0). }
  split; [exact (count_multiset 0 0)|vm_compute; reflexivity].
Qed.
Print Assumptions C47_refuted.

(** The hypotheses are met by ordinary cases (and the counts are the usual ones). *)
Example C47_example_permutation : count (arrangement 18 7) 160392960 /\ Permutation_ (AInt 18) (AInt 7) false = Ok 160392960.
Proof.
  assert (C : count (arrangement 18 7) 160392960).
  { replace 160392960 with (fall 18 7) by (vm_compute; reflexivity). apply count_arrangement. }
  split; [exact C|]. apply (C47_permutation_exact 18 7); [lia|exact C|lia].
Qed.
Example C47_example_combination : count (subset 18 7) 31824 /\ Combination_ (AInt 18) (AInt 7) false = Ok 31824.
Proof.
  assert (C : count (subset 18 7) 31824).
  { replace 31824 with (bin 18 7) by (vm_compute; reflexivity). apply count_subset. }
  split; [exact C|]. apply (C47_combination_small 18 7); [lia|exact C|vm_compute; discriminate].
Qed.
Example C47_example_repeat : count (multiset 10 7) 11440 /\ Combination_ (AInt 10) (AInt 7) true = Ok 11440.
Proof.
  assert (C : count (multiset 10 7) 11440).
  { replace 11440 with (mbin 10 7) by (vm_compute; reflexivity). apply count_multiset. }
  split; [exact C|]. apply (C47_combination_repeat_exact 10 7); [lia|lia|exact C|vm_compute; discriminate|vm_compute; discriminate].
Qed.
(** The error bound is about cases where the result really is off. *)
Example C47_example_bound : zfact 24 < 2 ^ 1023 * zfact 1 /\ zfact 23 < 2 ^ 1023 /\ Combination_ (AInt 24) (AInt 1) false <> Ok 24.
Proof. repeat split; vm_compute; try reflexivity; discriminate. Qed.
Example C47_example_overflow : 2 ^ 1024 * zfact 0 <= zfact 171. Proof. vm_compute. discriminate. Qed.
