(** C62: the perpendicular bisectors drawn by ShowFirstBZ. *)
From Coq Require Import String List Reals ZArith Bool Arith Lra Lia Psatz.
From Verif Require Import Py Line2D_Model Lattice_Model Lattice_Spec Lattice_Proofs Lattice_Proofs2 LatticeGen_Model Reciprocal_Model Reciprocal_Spec Reciprocal_Proofs Reciprocal_Properties Zone_Proofs BrillouinZone_Proofs
  ColorPrint_Model Text_Model Figures_Model Figures_Spec.
Import ListNotations.
Open Scope R_scope.

(** ** Half planes of a reduced basis *)
Section Lin.
  Variables (A B c x y : R).
  Definition rhs (m n : Z) : R := IZR m * IZR m * A + IZR n * IZR n * B + 2 * IZR m * IZR n * c.
  Definition four : Prop := Rabs x <= A /\ Rabs y <= B /\ Rabs (x + y) <= A + B + 2 * c /\ Rabs (x - y) <= A + B - 2 * c.
End Lin.
Lemma wedge A B c x y m n : 2 * Rabs c <= A -> 2 * Rabs c <= B -> (0 <= n <= m)%Z -> (1 <= m)%Z -> x <= A -> x + y <= A + B + 2 * c ->
  IZR m * x + IZR n * y <= rhs A B c m n /\ (IZR m * x + IZR n * y = rhs A B c m n -> x = A \/ x + y = A + B + 2 * c).
Proof.
  intros HA HB [Hn Hm] Hm1 X Y. unfold rhs. pose proof (Rle_abs c) as C1. pose proof (Rle_abs (- c)) as C2. rewrite Rabs_Ropp in C2. pose proof (Rabs_pos c) as C0.
  assert (F : IZR m * IZR m * A + IZR n * IZR n * B + 2 * IZR m * IZR n * c - (IZR m * x + IZR n * y) =
    IZR n * (A + B + 2 * c - (x + y)) + IZR (m - n) * (A - x) + (IZR ((m - 1) * (m - n)) * A + IZR (n * (n - 1)) * B + IZR (n * (m - 1)) * (A + 2 * c))).
  { rewrite !mult_IZR, !minus_IZR. ring. }
  assert (P1 : 0 <= IZR n) by (apply IZR_le; lia). assert (P2 : 0 <= IZR (m - n)) by (apply IZR_le; lia).
  assert (P3 : 0 <= IZR ((m - 1) * (m - n))) by (apply IZR_le; nia). assert (P4 : 0 <= IZR (n * (n - 1))) by (apply IZR_le; nia). assert (P5 : 0 <= IZR (n * (m - 1))) by (apply IZR_le; nia).
  assert (Q1 : 0 <= IZR n * (A + B + 2 * c - (x + y))) by (apply Rmult_le_pos; lra). assert (Q2 : 0 <= IZR (m - n) * (A - x)) by (apply Rmult_le_pos; lra).
  assert (Q3 : 0 <= IZR ((m - 1) * (m - n)) * A) by (apply Rmult_le_pos; lra). assert (Q4 : 0 <= IZR (n * (n - 1)) * B) by (apply Rmult_le_pos; lra). assert (Q5 : 0 <= IZR (n * (m - 1)) * (A + 2 * c)) by (apply Rmult_le_pos; lra).
  split; [lra|]. intros E. destruct (Z.eq_dec n 0) as [->|Nn].
  - left. assert (Z1 : IZR (m - 0) * (A - x) = 0) by lra. apply Rmult_integral in Z1 as [Z1|Z1]; [|lra]. apply eq_IZR in Z1. lia.
  - right. assert (Z1 : IZR n * (A + B + 2 * c - (x + y)) = 0) by lra. apply Rmult_integral in Z1 as [Z1|Z1]; [|lra]. apply eq_IZR in Z1. lia.
Qed.
Lemma half_planes A B c x y m n : 2 * Rabs c <= A -> 2 * Rabs c <= B -> four A B c x y -> (m, n) <> (0, 0)%Z ->
  IZR m * x + IZR n * y <= rhs A B c m n /\
  (IZR m * x + IZR n * y = rhs A B c m n -> Rabs x = A \/ Rabs y = B \/ Rabs (x + y) = A + B + 2 * c \/ Rabs (x - y) = A + B - 2 * c).
Proof.
  intros HA HB (X & Y & P & M) N.
  assert (Wp : forall s x' A', 0 <= A' -> Rabs s <= A' -> (x' = s \/ x' = - s) -> x' <= A' /\ (x' = A' -> Rabs s = A')).
  { intros s x' A' _ Ha [->| ->]; unfold Rabs in *; destruct (Rcase_abs s); lra. }
  assert (C0 := Rabs_pos c). assert (PA : 0 <= A) by lra. assert (PB : 0 <= B) by lra.
  assert (PS : 0 <= A + B + 2 * c) by (pose proof (Rle_abs (- c)) as C2; rewrite Rabs_Ropp in C2; lra). assert (PD : 0 <= A + B - 2 * c) by (pose proof (Rle_abs c); lra).
  pose proof (fun x' => Wp x x' A PA X) as WX. pose proof (fun x' => Wp y x' B PB Y) as WY. pose proof (fun x' => Wp (x + y) x' _ PS P) as WP. pose proof (fun x' => Wp (x - y) x' _ PD M) as WM. clear Wp.
  assert (SX : forall q, q = x \/ q = - x -> q <= A /\ (q = A -> Rabs x = A)) by exact WX.
  assert (cO : Rabs (- c) = Rabs c) by apply Rabs_Ropp.
  assert (sm : (0 <= m \/ m < 0)%Z) by lia. assert (sn : (0 <= n \/ n < 0)%Z) by lia. assert (so : (Z.abs n <= Z.abs m \/ Z.abs m < Z.abs n)%Z) by lia.
  assert (N' : (m <> 0 \/ n <> 0)%Z) by (destruct (Z.eq_dec m 0) as [->|]; [|auto]; right; intros ->; now apply N). clear N.
  destruct sm as [sm|sm], sn as [sn|sn], so as [so|so].
  - destruct (wedge A B c x y m n) as [G1 G2]; try lia; try assumption; [now apply WX; left|now apply WP; left|]. split; [exact G1|]. intros E. destruct (G2 E) as [E1|E1]; [left; apply (WX x); auto|right; right; left; apply (WP (x + y)); auto].
  - destruct (wedge B A c y x n m) as [G1 G2]; try lia; try assumption; [now apply WY; left|apply (Rle_trans _ (A + B + 2 * c)); [apply WP; left; ring|lra]|].
    replace (rhs A B c m n) with (rhs B A c n m) by (unfold rhs; ring). split; [lra|]. intros E. destruct G2 as [E1|E1]; [lra|right; left; apply (WY y); auto|right; right; left; apply (WP (x + y)); lra].
  - destruct (wedge A B (- c) x (- y) m (- n)) as [G1 G2]; try lia; try (rewrite cO; assumption); [now apply WX; left|apply (Rle_trans _ (A + B - 2 * c)); [apply WM; left; ring|lra]|].
    replace (rhs A B (- c) m (- n)) with (rhs A B c m n) in * by (unfold rhs; rewrite opp_IZR; ring). rewrite opp_IZR in *. split; [lra|]. intros E. destruct G2 as [E1|E1]; [lra|left; apply (WX x); auto|right; right; right; apply (WM (x - y)); lra].
  - destruct (wedge B A (- c) (- y) x (- n) m) as [G1 G2]; try lia; try (rewrite cO; assumption); [now apply WY; right|apply (Rle_trans _ (A + B - 2 * c)); [apply WM; left; ring|lra]|].
    replace (rhs B A (- c) (- n) m) with (rhs A B c m n) in * by (unfold rhs; rewrite opp_IZR; ring). rewrite opp_IZR in *. split; [lra|]. intros E. destruct G2 as [E1|E1]; [lra|right; left; apply (WY (- y)); auto|right; right; right; apply (WM (x - y)); lra].
  - destruct (wedge A B (- c) (- x) y (- m) n) as [G1 G2]; try lia; try (rewrite cO; assumption); [now apply WX; right|apply (Rle_trans _ (A + B - 2 * c)); [apply WM; right; ring|lra]|].
    replace (rhs A B (- c) (- m) n) with (rhs A B c m n) in * by (unfold rhs; rewrite opp_IZR; ring). rewrite opp_IZR in *. split; [lra|]. intros E. destruct G2 as [E1|E1]; [lra|left; apply (WX (- x)); auto|right; right; right; apply (WM (- (x - y))); lra].
  - destruct (wedge B A (- c) y (- x) n (- m)) as [G1 G2]; try lia; try (rewrite cO; assumption); [now apply WY; left|apply (Rle_trans _ (A + B - 2 * c)); [apply WM; right; ring|lra]|].
    replace (rhs B A (- c) n (- m)) with (rhs A B c m n) in * by (unfold rhs; rewrite opp_IZR; ring). rewrite opp_IZR in *. split; [lra|]. intros E. destruct G2 as [E1|E1]; [lra|right; left; apply (WY y); auto|right; right; right; apply (WM (- (x - y))); lra].
  - destruct (wedge A B c (- x) (- y) (- m) (- n)) as [G1 G2]; try lia; try assumption; [now apply WX; right|apply WP; right; ring|].
    replace (rhs A B c (- m) (- n)) with (rhs A B c m n) in * by (unfold rhs; rewrite !opp_IZR; ring). rewrite !opp_IZR in *. split; [lra|]. intros E. destruct G2 as [E1|E1]; [lra|left; apply (WX (- x)); auto|right; right; left; apply (WP (- (x + y))); lra].
  - destruct (wedge B A c (- y) (- x) (- n) (- m)) as [G1 G2]; try lia; try assumption; [now apply WY; right|apply (Rle_trans _ (A + B + 2 * c)); [apply WP; right; ring|lra]|].
    replace (rhs B A c (- n) (- m)) with (rhs A B c m n) in * by (unfold rhs; rewrite !opp_IZR; ring). rewrite !opp_IZR in *. split; [lra|]. intros E. destruct G2 as [E1|E1]; [lra|right; left; apply (WY (- y)); auto|right; right; left; apply (WP (- (x + y))); lra].
Qed.
Lemma four_of A B c x y : (forall m n, (-1 <= m <= 1)%Z -> (-1 <= n <= 1)%Z -> IZR m * x + IZR n * y <= rhs A B c m n) -> four A B c x y.
Proof.
  intros H. unfold rhs in H. pose proof (H 1%Z 0%Z ltac:(lia) ltac:(lia)). pose proof (H (-1)%Z 0%Z ltac:(lia) ltac:(lia)). pose proof (H 0%Z 1%Z ltac:(lia) ltac:(lia)). pose proof (H 0%Z (-1)%Z ltac:(lia) ltac:(lia)).
  pose proof (H 1%Z 1%Z ltac:(lia) ltac:(lia)). pose proof (H (-1)%Z (-1)%Z ltac:(lia) ltac:(lia)). pose proof (H 1%Z (-1)%Z ltac:(lia) ltac:(lia)). pose proof (H (-1)%Z 1%Z ltac:(lia) ltac:(lia)).
  repeat split; apply Rabs_le; lra.
Qed.
