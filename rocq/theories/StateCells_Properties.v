(** C04: which coordinates share a grid cell, with the exact rounding margin. *)
From Coq Require Import List ZArith Reals Bool Lia Lra.
From Flocq Require Import Core.Core.
From Verif Require Import Py Float64_Model State_Model State_Spec StateCells_Proofs.
Import ListNotations.
Open Scope Z_scope.

(** The unit roundoff of binary64. *)
Definition eps : R := (/ IZR (2 ^ 53))%R.

Lemma eps_u : eps = u.
Proof. reflexivity. Qed.

(** The stored integer is the coordinate in units of 10^-p, perturbed by at most
    one relative rounding error, cut towards zero.  No bound on the coordinate;
    every precision for which 10^p is a double (p <= 22). *)
Theorem C04_cell :
  forall p c q, 0 <= p <= 22 -> finite_coord c -> quantise (10 ^ p) c = Ok q ->
  let s := (IZR (10 ^ p) * coord_value c)%R in
  exists y, (Rabs (y - s) <= eps * Rabs s)%R /\
    ((0 <= y /\ IZR q <= y < IZR q + 1)%R \/ (y <= 0 /\ IZR q - 1 < y <= IZR q)%R).
Proof. exact quantise_cell. Qed.
Print Assumptions C04_cell.

(** A finite coordinate is quantised unless the scaled value leaves binary64's range. *)
Theorem C04_total :
  forall p f, 0 <= p <= 22 -> finite_coord (NFlt f) ->
  (exists q, quantise (10 ^ p) (NFlt f) = Ok q) \/
  (quantise (10 ^ p) (NFlt f) = Err OverflowError /\
   (bpow radix2 1023 < Rabs (IZR (10 ^ p) * coord_value (NFlt f)))%R).
Proof.
  intros p f Hp Hc. destruct (quantise_float p f Hp Hc) as [[_ E]|[H E]]; [left; eauto|right].
  split; [exact E|].
  pose proof (product_rel p f (proj1 Hp) (proj1 (finite_valid _ Hc)) (proj2 (finite_valid _ Hc))) as R.
  rewrite <- State_Proofs.coord_value_f2R in R.
  set (s := (IZR (10 ^ p) * coord_value (NFlt f))%R) in *. fold u in R.
  pose proof u_bounds as U.
  pose proof (Rabs_triang (Float64_Proofs.rnd64 s - s) s) as T.
  replace (Float64_Proofs.rnd64 s - s + s)%R with (Float64_Proofs.rnd64 s) in T by ring.
  assert (P : (0 < bpow radix2 1023)%R) by apply bpow_gt_0.
  assert (D : (bpow radix2 1024 = 2 * bpow radix2 1023)%R).
  { change 2%R with (bpow radix2 1). rewrite <- bpow_plus. reflexivity. }
  pose proof (Rabs_pos s) as Hs.
  destruct (Rlt_or_le (bpow radix2 1023) (Rabs s)) as [L|L]; [exact L|exfalso].
  rewrite D in H. clear D. generalize dependent (bpow radix2 1023). intros B H P L.
  assert (u * Rabs s <= / 1000 * Rabs s)%R by (apply Rmult_le_compat_r; lra). lra.
Qed.
Print Assumptions C04_total.

(** The same for every scale factor (every precision): where 10^p is not itself a double
    it is rounded as well, and the margin is that of two roundings. *)
Theorem C04_cell_any_precision :
  forall p c q, 0 <= p -> finite_coord c -> quantise (10 ^ p) c = Ok q ->
  let s := (IZR (10 ^ p) * coord_value c)%R in
  exists y, (Rabs (y - s) <= (2 * eps + eps * eps) * Rabs s)%R /\
    ((0 <= y /\ IZR q <= y < IZR q + 1)%R \/ (y <= 0 /\ IZR q - 1 < y <= IZR q)%R).
Proof. intros p c q Hp. apply quantise_cell_any. apply Z.pow_pos_nonneg; lia. Qed.
Print Assumptions C04_cell_any_precision.

(** Away from the cell edges by the rounding margin, the cell is the mathematical one:
    [k, k+1) for k >= 0, (k-1, k] for k <= 0, and (-1, 1) for 0. *)
Theorem C04_mathematical_cell :
  forall p c q k, 0 <= p <= 22 -> finite_coord c -> quantise (10 ^ p) c = Ok q ->
  let s := (IZR (10 ^ p) * coord_value c)%R in
  (0 <= k /\ (IZR k <= s * (1 - eps) /\ s * (1 + eps) < IZR k + 1)%R) \/
  (k <= 0 /\ (IZR k - 1 < s * (1 + eps) /\ s * (1 - eps) <= IZR k)%R) \/
  (k = 0 /\ (Rabs s * (1 + eps) < 1)%R) -> q = k.
Proof. exact quantise_cell_unique. Qed.
Print Assumptions C04_mathematical_cell.

(** Coordinates on one side of 0 that are one grid step plus the rounding margin
    apart are different (two steps across 0). *)
Theorem C04_one_step_apart :
  forall p a b qa qb, 0 <= p <= 22 -> finite_coord a -> finite_coord b ->
  quantise (10 ^ p) a = Ok qa -> quantise (10 ^ p) b = Ok qb ->
  let sa := (IZR (10 ^ p) * coord_value a)%R in let sb := (IZR (10 ^ p) * coord_value b)%R in
  ((0 <= sa /\ sa + 1 + eps * (sa + sb) <= sb) \/
   (sb <= 0 /\ sa + 1 - eps * (sa + sb) <= sb) \/
   (sa <= 0 <= sb /\ sa + 2 + eps * (sb - sa) <= sb))%R -> qa < qb.
Proof. exact quantise_separates_tight. Qed.
Print Assumptions C04_one_step_apart.

(** Non-vacuity: the double next to 0.75005 lies inside cell 7500 at the default
    precision, and is well separated from the coordinate 2. *)
Definition x_a : f64 := SpecFloat.S754_finite false 6755849801018850 (-53).
Example C04_cells_met :
  finite_coord (NFlt x_a) /\ quantise (10 ^ 4) (NFlt x_a) = Ok 7500 /\
  (IZR 7500 <= IZR (10 ^ 4) * coord_value (NFlt x_a) * (1 - eps))%R /\
  (IZR (10 ^ 4) * coord_value (NFlt x_a) * (1 + eps) < IZR 7500 + 1)%R /\
  quantise (10 ^ 4) (NInt 2) = Ok 20000 /\
  (0 <= IZR (10 ^ 4) * coord_value (NFlt x_a) /\
   IZR (10 ^ 4) * coord_value (NFlt x_a) + 1 +
   eps * (IZR (10 ^ 4) * coord_value (NFlt x_a) + IZR (10 ^ 4) * coord_value (NInt 2))
   <= IZR (10 ^ 4) * coord_value (NInt 2))%R.
Proof.
  split; [vm_compute; reflexivity|]. split; [vm_compute; reflexivity|].
  assert (V : coord_value (NFlt x_a) = (IZR 6755849801018850 / IZR 9007199254740992)%R).
  { unfold x_a. cbn [coord_value]. change (bpow radix2 (-53)) with (/ IZR 9007199254740992)%R.
    unfold Rdiv. ring. }
  rewrite V. change (coord_value (NInt 2)) with 2%R.
  change (10 ^ 4) with 10000. unfold eps. change (2 ^ 53) with 9007199254740992.
  repeat split; lra.
Qed.
