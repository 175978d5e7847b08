(** The exchange matrix on the ferromagnetic state and on single spins down. *)
From Coq Require Import Reals Qreals String List ZArith Bool Arith Lia Lra QArith.Qcanon.
From Coquelicot Require Import Complex.
From Verif Require Import Py GQ Mat CVec Spin_Model Spin_Spec Spin_Proofs Free_Spec Free_Proofs2 Heisenberg_Spec Heisenberg_Proofs2 GF_Spec GF_Proofs CPT_Proofs SpinWave_Spec SpinWave_Proofs.
Import ListNotations.
Local Open Scope nat_scope.
Local Open Scope C_scope.

Lemma gc_opp a : gc (gopp a) = - gc a.
Proof. transitivity (gc (gopp a) + gc a - gc a); [ring|]. rewrite <- gc_add. replace (gadd (gopp a) a) with g0 by ring. rewrite gc_0. change c0 with (RtoC 0). ring. Qed.
Lemma gc_half : gc ghalf = RtoC (1 / 2).
Proof.
  assert (E : gc ghalf + gc ghalf = c1) by (rewrite <- gc_add, ghalf_double; apply gc_1).
  transitivity (RtoC (1/2) * (gc ghalf + gc ghalf)); [|rewrite E; change c1 with (RtoC 1); rewrite <- RtoC_mult; f_equal; lra].
  apply C_eq; cbn; lra.
Qed.
Lemma gc_quarter : gc gquarter = RtoC (1 / 4).
Proof. unfold gquarter. rewrite gc_mul, gc_half, <- RtoC_mult. f_equal. lra. Qed.
Lemma gc_real J : gconj J = J -> gc J = RtoC (coupling J).
Proof. intros H. unfold coupling. apply Cj_real. now rewrite <- gc_conj, H. Qed.
Lemma delta_if (i j : nat) (a : GQ) : gc (if Nat.eqb i j then a else g0) = gc a * delta i j.
Proof. unfold delta. destruct (Nat.eqb i j); [change c1 with (RtoC 1); ring|rewrite gc_0; change c0 with (RtoC 0); ring]. Qed.

Definition bnum (b : bool) : C := if b then c1 else c0.
Lemma pow_inj i j : (2 ^ i)%nat = (2 ^ j)%nat -> i = j.
Proof. apply Nat.pow_inj_r. lia. Qed.
Lemma pow_lt n i : (i < n)%nat -> (2 ^ i < 2 ^ n)%nat.
Proof. intros. apply Nat.pow_lt_mono_r; lia. Qed.
Lemma zero_lt n : (0 < 2 ^ n)%nat.
Proof. pose proof (pow_nz n). lia. Qed.
Lemma flip_pow i : flip i (2 ^ i) = O.
Proof. apply Nat.lxor_nilpotent. Qed.
Lemma flip_0 i : flip i 0 = (2 ^ i)%nat.
Proof. apply Nat.lxor_0_l. Qed.
Lemma flip_comm i j c : flip i (flip j c) = flip j (flip i c).
Proof. unfold flip. rewrite !Nat.lxor_assoc. f_equal. apply Nat.lxor_comm. Qed.

Lemma dot_up n i j r : (i < n)%nat -> (j < n)%nat -> i <> j -> (r < 2 ^ n)%nat -> gc (site_dot n i j r 0) = RtoC (1 / 4) * delta r 0.
Proof.
  intros. rewrite site_dot_entry; auto using zero_lt. unfold dot_entry. rewrite !Nat.bits_0. cbn [Bool.eqb].
  rewrite delta_if, gc_quarter. reflexivity.
Qed.
Lemma dot_down n i j l r : (i < n)%nat -> (j < n)%nat -> i <> j -> (l < n)%nat -> (r < 2 ^ n)%nat ->
  gc (site_dot n i j r (2 ^ l)) = (RtoC (1 / 4) - RtoC (1 / 2) * bnum (touches l (i, j))) * delta r (2 ^ l) +
    RtoC (1 / 2) * csum n (fun k => if Nat.eqb k l then c0 else bnum (connects l k (i, j)) * delta r (2 ^ k)).
Proof.
  intros Hi Hj Hij Hl Hr. rewrite site_dot_entry; auto using pow_lt. unfold dot_entry. rewrite !Nat.pow2_bits_eqb.
  unfold connects, touches. cbn [fst snd].
  destruct (Nat.eqb_spec l i) as [<-|Ei].
  - destruct (Nat.eqb_spec l j) as [Ej|_]; [congruence|]. cbn [Bool.eqb]. rewrite Nat.eqb_refl. cbn [orb].
    rewrite (csum_single n _ j Hj).
    + rewrite (Nat.eqb_refl j), orb_true_r. destruct (Nat.eqb_spec j l); [congruence|]. cbn [andb bnum].
      rewrite gc_add, !delta_if, gc_opp, gc_add, gc_quarter. rewrite flip_comm, flip_pow, flip_0. change c1 with (RtoC 1).
      replace (- RtoC (1 / 4)) with (RtoC (1 / 4) - RtoC (1 / 2) * RtoC 1) by (apply C_eq; cbn; lra).
      replace (RtoC (1 / 4) + RtoC (1 / 4)) with (RtoC (1 / 2)) by (apply C_eq; cbn; lra). ring.
    + intros k Hk Hkj. destruct (Nat.eqb_spec k l); [reflexivity|]. destruct (Nat.eqb_spec l k); [congruence|]. destruct (Nat.eqb_spec j k); [congruence|]. cbn. change c0 with (RtoC 0). ring.
  - destruct (Nat.eqb_spec i l) as [E|_]; [congruence|]. destruct (Nat.eqb_spec l j) as [<-|Ej].
    + cbn [Bool.eqb orb]. rewrite Nat.eqb_refl. rewrite (csum_single n _ i Hi).
      * rewrite (Nat.eqb_refl i). destruct (Nat.eqb_spec i l); [congruence|]. cbn [andb orb bnum].
        rewrite gc_add, !delta_if, gc_opp, gc_add, gc_quarter. rewrite flip_pow, flip_0. change c1 with (RtoC 1).
        replace (- RtoC (1 / 4)) with (RtoC (1 / 4) - RtoC (1 / 2) * RtoC 1) by (apply C_eq; cbn; lra).
        replace (RtoC (1 / 4) + RtoC (1 / 4)) with (RtoC (1 / 2)) by (apply C_eq; cbn; lra). ring.
      * intros k Hk Hkj. destruct (Nat.eqb_spec k l); [reflexivity|]. destruct (Nat.eqb_spec l k); [congruence|]. destruct (Nat.eqb_spec i k); [congruence|]. cbn. change c0 with (RtoC 0). ring.
    + destruct (Nat.eqb_spec j l) as [E|_]; [congruence|]. cbn [Bool.eqb orb andb bnum]. rewrite csum_zero.
      * rewrite delta_if, gc_quarter. change c0 with (RtoC 0). ring.
      * intros k _. destruct (Nat.eqb k l); [reflexivity|]. change c0 with (RtoC 0). ring.
Qed.

Definition proper (n : nat) (p : nat * nat) : Prop := (fst p < n)%nat /\ (snd p < n)%nat /\ fst p <> snd p.
Lemma length_bnum {A} (f : A -> bool) x l : RtoC (INR (length (filter f (x :: l)))) = bnum (f x) + RtoC (INR (length (filter f l))).
Proof.
  cbn [filter]. destruct (f x); cbn [length bnum]; [rewrite S_INR, RtoC_plus; change c1 with (RtoC 1); ring|change c0 with (RtoC 0); ring].
Qed.
Lemma exchange_up n J pairs r : Forall (proper n) pairs -> (r < 2 ^ n)%nat ->
  gc (exchange n J pairs r 0) = gc J * (RtoC (INR (length pairs) / 4) * delta r 0).
Proof.
  intros F Hr. unfold exchange. rewrite gc_mul. f_equal. induction F as [|p l (H1 & H2 & H3) F IH]; cbn [lsum length].
  - rewrite gc_0. cbn [INR]. replace (0 / 4)%R with 0%R by lra. change c0 with (RtoC 0). ring.
  - rewrite gc_add, IH, dot_up by assumption. rewrite S_INR. replace ((INR (length l) + 1) / 4)%R with (1 / 4 + INR (length l) / 4)%R by lra. rewrite RtoC_plus. ring.
Qed.
Lemma exchange_down n J pairs l r : Forall (proper n) pairs -> (l < n)%nat -> (r < 2 ^ n)%nat ->
  gc (exchange n J pairs r (2 ^ l)) = gc J * (RtoC (INR (length pairs) / 4 - INR (degree pairs l) / 2) * delta r (2 ^ l) +
    RtoC (1 / 2) * csum n (fun k => if Nat.eqb k l then c0 else RtoC (INR (multiplicity pairs l k)) * delta r (2 ^ k))).
Proof.
  intros F Hl Hr. unfold exchange. rewrite gc_mul. f_equal. unfold degree, multiplicity. induction F as [|p q (H1 & H2 & H3) F IH]; cbn [lsum].
  - rewrite gc_0. cbn [filter length INR]. rewrite csum_zero. { replace (0 / 4 - 0 / 2)%R with 0%R by lra. change c0 with (RtoC 0). ring. }
    intros k _. destruct (Nat.eqb k l); [reflexivity|]. change c0 with (RtoC 0). ring.
  - rewrite gc_add, IH, (dot_down n _ _ l) by assumption. rewrite <- surjective_pairing.
    replace (RtoC (INR (length (p :: q)) / 4 - INR (length (filter (touches l) (p :: q))) / 2)) with
      (RtoC (1 / 4) - RtoC (1 / 2) * bnum (touches l p) + RtoC (INR (length q) / 4 - INR (length (filter (touches l) q)) / 2)).
    2:{ cbn [filter length]. destruct (touches l p); cbn [bnum length]; rewrite ?S_INR; apply C_eq; cbn; lra. }
    rewrite (csum_ext n (fun k => if Nat.eqb k l then c0 else RtoC (INR (length (filter (connects l k) (p :: q)))) * delta r (2 ^ k)) (fun k => (if Nat.eqb k l then c0 else bnum (connects l k p) * delta r (2 ^ k)) + (if Nat.eqb k l then c0 else RtoC (INR (length (filter (connects l k) q))) * delta r (2 ^ k)))).
    + rewrite csum_add. ring.
    + intros k _. destruct (Nat.eqb k l); [change c0 with (RtoC 0); ring|]. rewrite length_bnum. ring.
Qed.

(** a column of a matrix *)
Lemma mv_basis d (A : cmat) k r : (k < d)%nat -> mv d A (fun c => delta c k) r = A r k.
Proof. intros H. unfold mv. now apply csum_delta_r. Qed.
Lemma all_up_delta r : all_up r = delta r 0.
Proof. reflexivity. Qed.
Lemma lowered_up n l r : (l < n)%nat -> (r < 2 ^ n)%nat -> lowered n all_up l r = delta r (2 ^ l).
Proof.
  intros Hl Hr. unfold lowered. change all_up with (fun c => delta c 0). rewrite mv_basis by apply zero_lt. unfold cm, spin_at. rewrite on_site_column by auto using zero_lt.
  rewrite Nat.bits_0, flip_0. cbn [half_elem negb]. rewrite gc_add, !delta_if, gc_0, gc_1. change c0 with (RtoC 0). change c1 with (RtoC 1). ring.
Qed.
Lemma inner_delta d k (x : vec) : (k < d)%nat -> inner d (fun r => delta r k) x = x k.
Proof.
  intros H. unfold inner. rewrite (csum_single d _ k H).
  - unfold delta. rewrite Nat.eqb_refl, Cj_1. change c1 with (RtoC 1). ring.
  - intros i _ Hi. unfold delta. destruct (Nat.eqb_spec i k); [congruence|]. rewrite Cj_0. change c0 with (RtoC 0). ring.
Qed.
