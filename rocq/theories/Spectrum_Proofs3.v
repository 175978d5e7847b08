(** Proofs for C58: ground states; a one-dimensional Krylov space. *)
From Coq Require Import Reals Qreals String List ZArith Bool Arith Lia Lra.
From Coquelicot Require Import Coquelicot.
From Verif Require Import Py CVec LinSolve Lanczos_Model Lanczos_Spec Lanczos_Proofs2 GF_Model GF_Spec GF_Proofs GF_Proofs2 GF_Proofs3 GF_Proofs4 GF_Proofs5 GFAnalytic_Proofs GFAnalytic_Proofs2
  Free_Spec Spectrum_Spec Spectrum_Proofs.
Import ListNotations.
Local Open Scope nat_scope.
Local Open Scope C_scope.

Lemma argmin n (E : nat -> R) : (0 < n)%nat -> exists k, (k < n)%nat /\ forall l, (l < n)%nat -> (E k <= E l)%R.
Proof.
  induction n as [|[|n] IH]; intros H; [lia| |].
  - exists 0%nat. split; [lia|]. intros l Hl. replace l with 0%nat by lia. lra.
  - destruct IH as (k & Hk & M); [lia|]. destruct (Rle_dec (E k) (E (S n))).
    + exists k. split; [lia|]. intros l Hl. destruct (Nat.eq_dec l (S n)) as [->|]; [assumption|]. apply M. lia.
    + exists (S n). split; [lia|]. intros l Hl. destruct (Nat.eq_dec l (S n)) as [->|]; [lra|]. specialize (M l ltac:(lia)). lra.
Qed.
Lemma rsum_le n f g : (forall k, (k < n)%nat -> (f k <= g k)%R) -> (rsum n f <= rsum n g)%R.
Proof. induction n as [|n IH]; intros H; cbn [rsum]; [lra|]. apply Rplus_le_compat; [apply IH; intros; apply H; lia|apply H; lia]. Qed.
Lemma energy_expansion n H E e x : eigenbasis n H E e ->
  energy n H x = rsum n (fun k => E k * (Re (inner n (e k) x) * Re (inner n (e k) x) + Im (inner n (e k) x) * Im (inner n (e k) x)))%R.
Proof.
  intros B. pose proof B as (O & Ei & X). unfold energy.
  assert (M : veqn n (mv n H x) (fun i => csum n (fun k => (RtoC (E k) * inner n (e k) x) * e k i))).
  { intros i Hi. rewrite (mv_ext n H x _ (X x) i).
    rewrite (mv_csum n H n (fun k i => inner n (e k) x * e k i) i). apply csum_ext. intros k Hk.
    transitivity (inner n (e k) x * mv n H (e k) i); [exact (mv_scale n H (inner n (e k) x) (e k) i)|]. rewrite (Ei k Hk i Hi). ring. }
  rewrite (inner_ext n x x (mv n H x) (combo n (fun k => RtoC (E k) * inner n (e k) x) e) (fun i _ => eq_refl) M), inner_combo.
  rewrite (csum_ext n _ (fun k => RtoC (E k * (Re (inner n (e k) x) * Re (inner n (e k) x) + Im (inner n (e k) x) * Im (inner n (e k) x)))%R)).
  - now rewrite csum_R.
  - intros k Hk. rewrite (inner_swap n (e k) x). unfold Cj. apply injective_projections; cbn; unfold Re, Im; ring.
Qed.
Lemma ground_exists n H : hermitian n H -> (0 < n)%nat -> exists GE gs, inner n gs gs = c1 /\
  veqn n (mv n H gs) (fun i => RtoC GE * gs i) /\ forall x, inner n x x = c1 -> (GE <= energy n H x)%R.
Proof.
  intros HH Hn. destruct (eigenbasis_exists n H HH) as (E & e & B). destruct (argmin n E Hn) as (k & Hk & Mn).
  pose proof B as (O & Ei & X). exists (E k), (e k). split; [rewrite (O k k Hk Hk), Nat.eqb_refl; reflexivity|]. split; [now apply Ei|].
  intros x Hx. rewrite (energy_expansion n H E e x B).
  assert (N1 : norm2 n x = 1%R) by (apply RtoC_inj; rewrite <- inner_self; exact Hx).
  rewrite (parseval2 n H E e x B) in N1. rewrite <- (Rmult_1_r (E k)), <- N1. clear N1.
  assert (Ms : forall m c f, (c * rsum m f = rsum m (fun l => c * f l))%R) by (induction m as [|m IH]; intros; cbn [rsum]; [ring|]; rewrite <- IH; ring).
  rewrite Ms. apply rsum_le. intros l Hl. apply Rmult_le_compat_r; [|now apply Mn].
  pose proof (Rle_0_sqr (Re (inner n (e l) x))). pose proof (Rle_0_sqr (Im (inner n (e l) x))). unfold Rsqr in *. lra.
Qed.
(** <e_k|H|e_k> = E_k *)
Lemma energy_level n H E e k : eigenbasis n H E e -> (k < n)%nat -> energy n H (e k) = E k.
Proof.
  intros (O & Ei & X) Hk. unfold energy. rewrite (inner_ext n (e k) (e k) _ _ (fun i _ => eq_refl) (Ei k Hk)).
  change (fun i => RtoC (E k) * e k i) with (vscale (RtoC (E k)) (e k)). rewrite inner_scale_r, (O k k Hk Hk), Nat.eqb_refl. unfold c1, Re. cbn. ring.
Qed.

Section One.
  Context {K : Type} (keqb : K -> K -> bool) (dagger : K -> K).
  Hypothesis Hk : forall a b, keqb a b = true <-> a = b.
  Lemma krylov_one n H thr (vectors : list (K * vec)) ms vs GE eta omega A B v0 a :
    hermitian n H -> (0 <= thr)%R -> NoDup (map fst vectors) -> eta <> 0%R ->
    MultiKrylov n H thr vectors 1 = Ok (ms, vs) -> lookup keqb B vectors = Ok v0 -> lookup keqb (dagger A) vectors = Ok a ->
    GFSolverLanczosSingle keqb dagger GE ms vs eta omega A B "-" =
      Ok (inner n a v0 / (frequency omega eta + RtoC GE - inner n v0 (mv n H v0) / RtoC (norm2 n v0))).
  Proof.
    intros HH Ht ND He EM EB EA.
    destruct (lanczos_green keqb Hk dagger n H thr vectors 1 ms vs GE eta omega A B "-" v0 a HH Ht ND ltac:(lia) He EM EB EA)
      as (g & d & b & m & EG & Em & Rd & Hd & N0 & B0 & Ob & Rm & Sp & x & Hx & ->).
    assert (d = 1%nat).
    { destruct (multi_lookup keqb Hk n H thr vectors 1 ms vs B v0 HH Ht ND EM EB) as (Hv0 & m1 & pv & L1 & L2 & EK).
      destruct (krylov_ok n H thr vectors v0 1 HH Ht Hv0) as (m2 & pv2 & d2 & b2 & EK2 & D1 & _ & _ & _ & (R2 & _) & _).
      rewrite EK in EK2. injection EK2 as <- <-. rewrite Em in L1. injection L1 as <-. rewrite Rd in R2. cbn in D1. lia. }
    rewrite H0 in *. rewrite EG. f_equal.
    destruct Rm as (_ & _ & Rm). specialize (Rm 0%nat 0%nat ltac:(lia) ltac:(lia)). specialize (Hx 0%nat ltac:(lia)).
    set (nv := norm n v0) in *. set (b0 := vscale (/ RtoC nv) v0).
    assert (Eb : veqn n (b 0%nat) b0) by (intros i Hi; rewrite (B0 i Hi); unfold b0, vscale, Cdiv; ring).
    assert (Nv : RtoC nv <> c0) by (intros Q; apply RtoC_inj in Q; contradiction).
    assert (N2 : RtoC (norm2 n v0) = RtoC nv * RtoC nv) by (rewrite <- RtoC_mult; f_equal; unfold nv, norm; rewrite sqrt_sqrt; [reflexivity|apply norm2_nonneg]).
    assert (Em0 : RtoC (nd_el m 0 0) = inner n v0 (mv n H v0) / RtoC (norm2 n v0)).
    { rewrite <- Rm. unfold sandwich. rewrite (inner_ext n _ b0 _ (mv n H b0) Eb (fun i _ => mv_ext n H _ _ Eb i)).
      unfold b0. rewrite inner_scale_l.
      rewrite (inner_ext n v0 v0 (mv n H (vscale (/ RtoC nv) v0)) (vscale (/ RtoC nv) (mv n H v0)) (fun i _ => eq_refl) (fun i _ => mv_scale n H (/ RtoC nv) v0 i)).
      rewrite inner_scale_r, N2. rewrite <- RtoC_inv by exact N0. rewrite Cj_R, RtoC_inv by exact N0. field. exact Nv. }
    unfold shifted in Hx. cbn [String.eqb Ascii.eqb Bool.eqb] in Hx. unfold mv in Hx. cbn [csum start] in Hx. unfold nd_cmat in Hx. rewrite Em0 in Hx.
    unfold inner at 1. cbn [csum]. unfold co. rewrite inner_conj.
    rewrite (inner_ext n a a (b 0%nat) b0 (fun i _ => eq_refl) Eb). unfold b0 at 1. rewrite inner_scale_r.
    set (q := inner n v0 (mv n H v0) / RtoC (norm2 n v0)) in *. fold nv in Hx.
    assert (Hx' : (frequency omega eta + RtoC GE - q) * x 0%nat = RtoC nv) by (rewrite <- Hx; unfold c0; ring).
    assert (Dz : frequency omega eta + RtoC GE - q <> c0) by (intros Q; rewrite Q in Hx'; apply Nv; rewrite <- Hx'; unfold c0; ring).
    replace (x 0%nat) with (RtoC nv / (frequency omega eta + RtoC GE - q)) by (rewrite <- Hx'; field; exact Dz).
    unfold c0. field. split; assumption.
  Qed.
End One.
