(** The matrix elements of S_i . S_j; the ferromagnetic state and single spins down. *)
From Coq Require Import Reals Qreals String List ZArith Bool Arith Lia Lra QArith.Qcanon.
From Coquelicot Require Import Complex.
From Verif Require Import Py GQ Mat CVec Spin_Model Spin_Spec Spin_Proofs Free_Spec Free_Proofs2 Heisenberg_Spec Heisenberg_Proofs2 GF_Spec SpinWave_Spec.
Import ListNotations.
Local Open Scope nat_scope.
Local Open Scope gq_scope.

Definition flip (j c : nat) : nat := Nat.lxor c (2 ^ j).
Lemma flip_bit j c p : Nat.testbit (flip j c) p = xorb (Nat.testbit c p) (Nat.eqb j p).
Proof. unfold flip. now rewrite Nat.lxor_spec, Nat.pow2_bits_eqb. Qed.
Lemma lt_bits n x : (x < 2 ^ n)%nat <-> forall p, (n <= p)%nat -> Nat.testbit x p = false.
Proof.
  split.
  - intros H p Hp. destruct (Nat.eq_dec x 0) as [->|Z]; [apply Nat.bits_0|]. apply Nat.bits_above_log2. apply Nat.log2_lt_pow2 in H; lia.
  - intros H. assert (E : (x mod 2 ^ n = x)%nat).
    { apply Nat.bits_inj. intros p. rewrite mod_bits. destruct (Nat.ltb_spec p n) as [L|L]; cbn; [reflexivity|]. symmetry. now apply H. }
    rewrite <- E. apply Nat.mod_upper_bound. apply pow_nz.
Qed.
Lemma flip_lt n j c : (j < n)%nat -> (c < 2 ^ n)%nat -> (flip j c < 2 ^ n)%nat.
Proof. intros Hj Hc. apply lt_bits. intros p Hp. rewrite flip_bit. rewrite (proj1 (lt_bits n c) Hc p Hp). destruct (Nat.eqb_spec j p); [lia|reflexivity]. Qed.
Lemma flip_ne j c : flip j c <> c.
Proof. intros E. apply (f_equal (fun x => Nat.testbit x j)) in E. rewrite flip_bit, Nat.eqb_refl in E. destruct (Nat.testbit c j); discriminate. Qed.

Lemma on_site_column n j f r c : (j < n)%nat -> (r < 2 ^ n)%nat -> (c < 2 ^ n)%nat ->
  on_site n j f r c = (if Nat.eqb r c then f (Nat.testbit c j) (Nat.testbit c j) else 0) + (if Nat.eqb r (flip j c) then f (negb (Nat.testbit c j)) (Nat.testbit c j) else 0).
Proof.
  intros Hj Hr Hc. unfold on_site.
  destruct (forallb _ (seq 0 n)) eqn:F.
  - rewrite forallb_forall in F.
    assert (B : forall p, p <> j -> Nat.testbit r p = Nat.testbit c p).
    { intros p Hp. destruct (Nat.lt_ge_cases p n) as [L|L].
      - assert (Ip : In p (seq O n)) by (apply in_seq; lia). specialize (F p Ip). destruct (Nat.eqb_spec p j); [congruence|]. cbn in F. now apply eqb_prop in F.
      - now rewrite (proj1 (lt_bits n r) Hr p L), (proj1 (lt_bits n c) Hc p L). }
    destruct (Bool.bool_dec (Nat.testbit r j) (Nat.testbit c j)) as [E|E].
    + assert (X : r = c). { apply Nat.bits_inj. intros p. destruct (Nat.eq_dec p j) as [->|Hp]; auto. }
      subst r. rewrite Nat.eqb_refl. destruct (Nat.eqb_spec c (flip j c)) as [Y|Y]; [symmetry in Y; now apply flip_ne in Y|]. ring.
    + assert (X : r = flip j c).
      { apply Nat.bits_inj. intros p. rewrite flip_bit. destruct (Nat.eqb_spec j p) as [<-|Hp].
        - destruct (Nat.testbit r j), (Nat.testbit c j); cbn; congruence.
        - rewrite xorb_false_r. apply B. congruence. }
      destruct (Nat.eqb_spec r c) as [Y|Y]; [congruence|]. rewrite X, Nat.eqb_refl, flip_bit, Nat.eqb_refl.
      replace (xorb (Nat.testbit c j) true) with (negb (Nat.testbit c j)) by (destruct (Nat.testbit c j); reflexivity). ring.
  - destruct (Nat.eqb_spec r c) as [->|X].
    { exfalso. assert (T : forallb (fun p => Nat.eqb p j || Bool.eqb (Nat.testbit c p) (Nat.testbit c p)) (seq 0 n) = true) by (apply forallb_forall; intros; rewrite eqb_reflx; apply orb_true_r). congruence. }
    destruct (Nat.eqb_spec r (flip j c)) as [->|Y]; [|ring].
    exfalso. assert (T : forallb (fun p => Nat.eqb p j || Bool.eqb (Nat.testbit (flip j c) p) (Nat.testbit c p)) (seq 0 n) = true); [|congruence].
    apply forallb_forall; intros p _. rewrite flip_bit. destruct (Nat.eqb_spec j p) as [->|Z]; [now rewrite Nat.eqb_refl|]. rewrite xorb_false_r, eqb_reflx. apply orb_true_r.
Qed.

Lemma bigsum_pick n (f : nat -> GQ) k a : (k < n)%nat -> bigsum n (fun l => f l * (if Nat.eqb l k then a else 0)) = f k * a.
Proof. intros H. rewrite (bigsum_single n _ k H); [now rewrite Nat.eqb_refl|]. intros i _ Hi. destruct (Nat.eqb_spec i k); [congruence|ring]. Qed.
Lemma times_column n j f (A : mat) r c : (j < n)%nat -> (c < 2 ^ n)%nat ->
  mmul (2 ^ n) A (on_site n j f) r c = A r c * f (Nat.testbit c j) (Nat.testbit c j) + A r (flip j c) * f (negb (Nat.testbit c j)) (Nat.testbit c j).
Proof.
  intros Hj Hc. unfold mmul. rewrite (bigsum_ext _ _ (fun l => A r l * (if Nat.eqb l c then f (Nat.testbit c j) (Nat.testbit c j) else 0) + A r l * (if Nat.eqb l (flip j c) then f (negb (Nat.testbit c j)) (Nat.testbit c j) else 0))).
  - unfold bigsum. rewrite lsum_add. change (lsum ?g (seq 0 ?d)) with (bigsum d g). rewrite !bigsum_pick; auto. now apply flip_lt.
  - intros l Hl. rewrite on_site_column by assumption. ring.
Qed.

Definition gquarter := ghalf * ghalf.
(** the entry (r, c) of S_i . S_j *)
Definition dot_entry (i j r c : nat) : GQ :=
  if Bool.eqb (Nat.testbit c i) (Nat.testbit c j) then (if Nat.eqb r c then gquarter else 0)
  else (if Nat.eqb r c then - gquarter else 0) + (if Nat.eqb r (flip i (flip j c)) then gquarter + gquarter else 0).
Lemma qq : gi * ghalf * (gi * ghalf) = - gquarter.
Proof. unfold gquarter. transitivity (gi * gi * (ghalf * ghalf)); [ring|]. rewrite gi_sq. ring. Qed.
Lemma qq2 : gquarter + gquarter = ghalf.
Proof. unfold gquarter. exact half_canon. Qed.
Lemma site_dot_entry n i j r c : (i < n)%nat -> (j < n)%nat -> i <> j -> (r < 2 ^ n)%nat -> (c < 2 ^ n)%nat -> site_dot n i j r c = dot_entry i j r c.
Proof.
  intros Hi Hj Hij Hr Hc. unfold site_dot, madd, spin_at. cbv zeta. rewrite !times_column by assumption.
  pose proof (flip_lt n j c Hj Hc) as Hf. rewrite !on_site_column by assumption. rewrite flip_bit. destruct (Nat.eqb_spec j i) as [E|_]; [congruence|]. rewrite xorb_false_r.
  unfold dot_entry. pose proof qq as Q. pose proof qq2 as Q2.
  destruct (Nat.testbit c i), (Nat.testbit c j); cbn [half_elem negb Bool.eqb];
  destruct (Nat.eqb r c), (Nat.eqb r (flip i c)), (Nat.eqb r (flip j c)), (Nat.eqb r (flip i (flip j c)));
  unfold gquarter in *; clear Q2; set (y := gi * ghalf) in *; clearbody y; ring [Q].
Qed.
