(** Proofs for C61, part 2: rotation invariance, and the operators as complex matrices. *)
From Coq Require Import Reals String List ZArith Bool Arith Lia Lra.
From Coquelicot Require Import Complex.
From Verif Require Import Py GQ Mat CVec Spin_Model Spin_Spec Spin_Proofs Spin_Proofs2 Spin_Proofs3 Free_Spec Free_Proofs2 Heisenberg_Spec Heisenberg_Proofs.
Import ListNotations.
Local Open Scope nat_scope.
Local Open Scope gq_scope.

Lemma site_dot_rot n i j o : (i < n)%nat -> (j < n)%nat -> eqm (2 ^ n) (comm (2 ^ n) (site_dot n i j) (total_spin n o)) mzero.
Proof.
  intros Hi Hj.
  assert (T : forall q, (q < n)%nat ->
    eqm (2 ^ n) (comm (2 ^ n) (spin_at n q SX) (total_spin n SZ)) (mscale (- gi) (spin_at n q SY)) /\
    eqm (2 ^ n) (comm (2 ^ n) (spin_at n q SY) (total_spin n SZ)) (mscale gi (spin_at n q SX)) /\
    eqm (2 ^ n) (comm (2 ^ n) (spin_at n q SY) (total_spin n SX)) (mscale (- gi) (spin_at n q SZ)) /\
    eqm (2 ^ n) (comm (2 ^ n) (spin_at n q SZ) (total_spin n SX)) (mscale gi (spin_at n q SY)) /\
    eqm (2 ^ n) (comm (2 ^ n) (spin_at n q SZ) (total_spin n SY)) (mscale (- gi) (spin_at n q SX)) /\
    eqm (2 ^ n) (comm (2 ^ n) (spin_at n q SX) (total_spin n SY)) (mscale gi (spin_at n q SZ)) /\
    forall a, eqm (2 ^ n) (comm (2 ^ n) (spin_at n q a) (total_spin n a)) mzero).
  { intros q Hq. destruct (spin_algebra n q Hq) as (A1 & A2 & A3).
    assert (FL : forall a b o, eqm (2 ^ n) (comm (2 ^ n) a b) (mscale gi o) -> eqm (2 ^ n) (comm (2 ^ n) b a) (mscale (- gi) o)).
    { intros a b o' H r c Hr Hc. rewrite comm_flip, (H r c Hr Hc). unfold mscale. ring. }
    split; [apply comm_total; [exact Hq|now apply FL]|]. split; [now apply comm_total|]. split; [apply comm_total; [exact Hq|now apply FL]|]. split; [now apply comm_total|].
    split; [apply comm_total; [exact Hq|now apply FL]|]. split; [now apply comm_total|].
    intros a r c Hr Hc. rewrite (comm_total n q a a 0 a Hq); [unfold mscale, mzero; ring| |exact Hr|exact Hc].
    intros r' c' _ _. rewrite comm_self. unfold mscale. ring. }
  destruct (T i Hi) as (X1 & X2 & Y1 & Y2 & Z1 & Z2 & W). destruct (T j Hj) as (X1' & X2' & Y1' & Y2' & Z1' & Z2' & W').
  assert (B : forall a, a = SX \/ a = SY \/ a = SZ -> eqm (2 ^ n) (comm (2 ^ n) (site_dot n i j) (total_spin n a)) mzero).
  { intros a [->|[->| ->]].
    - intros r c Hr Hc. rewrite <- (rotation_generic (2 ^ n) (spin_at n i SY) (spin_at n i SZ) (spin_at n i SX) (spin_at n j SY) (spin_at n j SZ) (spin_at n j SX) (total_spin n SX)
        Y1 Y2 (W SX) Y1' Y2' (W' SX) r c Hr Hc). apply comm_ext; auto; intros r' c' _ _; [unfold site_dot, madd; ring|reflexivity].
    - intros r c Hr Hc. rewrite <- (rotation_generic (2 ^ n) (spin_at n i SZ) (spin_at n i SX) (spin_at n i SY) (spin_at n j SZ) (spin_at n j SX) (spin_at n j SY) (total_spin n SY)
        Z1 Z2 (W SY) Z1' Z2' (W' SY) r c Hr Hc). apply comm_ext; auto; intros r' c' _ _; [unfold site_dot, madd; ring|reflexivity].
    - apply (rotation_generic (2 ^ n)); auto. }
  assert (L : forall k r c, (r < 2 ^ n)%nat -> (c < 2 ^ n)%nat -> comm (2 ^ n) (site_dot n i j) (madd (total_spin n SX) (mscale k (total_spin n SY))) r c = 0).
  { intros k r c Hr Hc. rewrite comm_flip, comm_add, !(comm_flip _ _ (site_dot n i j)).
    rewrite (B SX (or_introl eq_refl) r c Hr Hc). assert (E : comm (2 ^ n) (site_dot n i j) (mscale k (total_spin n SY)) r c = k * comm (2 ^ n) (site_dot n i j) (total_spin n SY) r c).
    { unfold comm, msub. rewrite mmul_scale_l, mmul_scale_r. unfold mscale. ring. }
    rewrite E, (B SY (or_intror (or_introl eq_refl)) r c Hr Hc). unfold mzero. ring. }
  destruct o; auto.
  - intros r c Hr Hc. unfold mzero. rewrite <- (L gi r c Hr Hc). apply comm_ext; auto; intros r' c' _ _; [reflexivity|]. unfold total_spin, madd, mscale, bigsum. rewrite <- lsum_mul_l, <- lsum_add.
    apply lsum_ext. intros q _. destruct (spin_ladder n q r' c') as [-> _]. reflexivity.
  - intros r c Hr Hc. unfold mzero. rewrite <- (L (- gi) r c Hr Hc). apply comm_ext; auto; intros r' c' _ _; [reflexivity|]. unfold total_spin, madd, mscale, bigsum. rewrite <- lsum_mul_l, <- lsum_add.
    apply lsum_ext. intros q _. destruct (spin_ladder n q r' c') as [_ ->]. unfold msub, mscale. ring.
Qed.

Lemma comm_lsum {A} d J (f : A -> mat) l t r c : comm d (fun i j => J * lsum (fun p => f p i j) l) t r c = J * lsum (fun p => comm d (f p) t r c) l.
Proof.
  induction l as [|x l IH]; cbn [lsum].
  - unfold comm, msub, mmul. rewrite !(bigsum_zero d) by (intros; ring). ring.
  - transitivity (comm d (madd (mscale J (f x)) (fun i j => J * lsum (fun p => f p i j) l)) t r c).
    + unfold comm, msub. match goal with |- ?a - ?b = ?a' - ?b' => replace a' with a; [replace b' with b; [reflexivity|]|]; unfold mmul; apply bigsum_ext; intros; unfold madd, mscale; ring end.
    + rewrite comm_add, IH. assert (E : comm d (mscale J (f x)) t r c = J * comm d (f x) t r c); [|rewrite E; ring].
      unfold comm, msub. rewrite mmul_scale_l, mmul_scale_r. unfold mscale. ring.
Qed.
Lemma exchange_rot n J pairs o : Forall (fun p => (fst p < n)%nat /\ (snd p < n)%nat) pairs ->
  eqm (2 ^ n) (comm (2 ^ n) (exchange n J pairs) (total_spin n o)) mzero.
Proof.
  intros H r c Hr Hc. unfold exchange. rewrite comm_lsum. rewrite lsum_zero; [unfold mzero; ring|].
  intros p Hp. rewrite Forall_forall in H. destruct (H p Hp) as [H1 H2]. now apply site_dot_rot.
Qed.
Lemma site_dot_sym n i j : (i < n)%nat -> (j < n)%nat -> eqm (2 ^ n) (site_dot n i j) (site_dot n j i).
Proof.
  intros Hi Hj. destruct (Nat.eq_dec i j) as [->|N]; [intros r c _ _; reflexivity|]. intros r c Hr Hc. unfold site_dot, madd. rewrite !(fun o => spin_at_comm_diff n i j o o Hi Hj N r c Hr Hc). reflexivity.
Qed.
Lemma exchange_hermitian n J pairs : gconj J = J -> Forall (fun p => (fst p < n)%nat /\ (snd p < n)%nat) pairs ->
  eqm (2 ^ n) (mdag (exchange n J pairs)) (exchange n J pairs).
Proof.
  intros HJ H r c Hr Hc. unfold mdag, exchange. rewrite gconj_mul, HJ, lsum_conj. f_equal. apply lsum_ext. intros p Hp. rewrite Forall_forall in H. destruct (H p Hp) as [H1 H2].
  rewrite (site_dot_sym n _ _ H1 H2 r c Hr Hc). unfold site_dot, madd. rewrite !gconj_add.
  assert (D : forall o, gconj (mmul (2 ^ n) (spin_at n (fst p) o) (spin_at n (snd p) o) c r) = mmul (2 ^ n) (spin_at n (snd p) (adj_otype o)) (spin_at n (fst p) (adj_otype o)) r c).
  { intros o. change (gconj (mmul (2 ^ n) (spin_at n (fst p) o) (spin_at n (snd p) o) c r)) with (mdag (mmul (2 ^ n) (spin_at n (fst p) o) (spin_at n (snd p) o)) r c).
    rewrite (mmul_dag (2 ^ n) _ _ r c Hr Hc). apply (mmul_proper (2 ^ n)); auto; intros a b _ _; apply spin_at_dag. }
  rewrite !D. reflexivity.
Qed.

Local Open Scope C_scope.
Lemma adjoint n (A : mat) u v : inner n (mv n (cm A) u) v = inner n u (mv n (cm (mdag A)) v).
Proof.
  unfold inner, mv. transitivity (csum n (fun i => csum n (fun j => Cj (u j) * (Cj (gc (A i j)) * v i)))).
  - apply csum_ext. intros i _. rewrite csum_conj, <- csum_mul_r. apply csum_ext. intros j _. unfold cm. rewrite Cj_mul. ring.
  - rewrite csum_swap. apply csum_ext. intros j _. rewrite <- csum_mul_l. apply csum_ext. intros i _. unfold cm, mdag. rewrite gc_conj. ring.
Qed.
Lemma mv_cm_ext n (A B : mat) v : eqm n A B -> veqn n (mv n (cm A) v) (mv n (cm B) v).
Proof. intros E i Hi. apply mv_ext_mat. intros j Hj. unfold cm. now rewrite (E i j Hi Hj). Qed.
(** S+ S- = 1/2 + Sz *)
Lemma raise_lower n i : (i < n)%nat -> eqm (2 ^ n) (mmul (2 ^ n) (spin_at n i SP) (spin_at n i SM)) (madd (mscale ghalf mid) (spin_at n i SZ)).
Proof.
  intros Hi. unfold spin_at. rewrite !on_site_mul by auto. intros r c Hr Hc. unfold madd, mscale. rewrite <- (on_site_id n i r c Hr Hc). unfold on_site. destruct (forallb _ _); [|ring].
  generalize (Nat.testbit r i), (Nat.testbit c i). bool_elems.
Qed.
