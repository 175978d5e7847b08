(** pi to seventeen decimals, from Coq's series for it. *)
From Coq Require Import Reals Lra Lia ZArith Ratan.
Open Scope R_scope.

Lemma pi_term n k p q : Z.of_nat (2 * n + 1) = k -> (3 ^ k = p)%Z -> (7 ^ k = q)%Z -> tg_alt PI_2_3_7_tg n = (-1) ^ n * ((2 * / IZR p + / IZR q) * / IZR k).
Proof.
  intros <- <- <-. unfold tg_alt, PI_2_3_7_tg, Ratan_seq. rewrite INR_IZR_INZ. rewrite !pow_inv. rewrite !pow_IZR. unfold Rdiv. ring.
Qed.
Lemma pi_bounds : 314159265358979323 / 10 ^ 17 <= PI <= 314159265358979325 / 10 ^ 17.
Proof.
  destruct (PI_2_3_7_ineq 8) as [L U]. cbn [Nat.mul Nat.add] in L, U. cbn [sum_f_R0] in L, U.
  repeat match type of L with context [tg_alt PI_2_3_7_tg ?n] => let k := eval vm_compute in (Z.of_nat (2 * n + 1)) in let p := eval vm_compute in (3 ^ k)%Z in let q := eval vm_compute in (7 ^ k)%Z in
    let H := fresh in assert (H := pi_term n k p q eq_refl eq_refl eq_refl); rewrite H in L; try rewrite H in U; clear H end.
  cbn [pow] in L, U. split; lra.
Qed.
