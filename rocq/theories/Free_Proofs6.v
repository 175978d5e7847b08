(** Proofs for C57: the Krylov space of a state in a small invariant space. *)
From Coq Require Import Reals String List ZArith Bool Arith Lia Lra.
From Coquelicot Require Import Complex.
From Verif Require Import Py CVec LinSolve Lanczos_Model Lanczos_Spec Lanczos_Proofs Lanczos_Proofs2 GF_Model GF_Spec GF_Proofs GF_Proofs2 GF_Proofs4 GF_Proofs5.
Import ListNotations.
Local Open Scope nat_scope.
Local Open Scope C_scope.

Lemma span_bound n d b m f : orthonormal n d b -> (forall k, (k < d)%nat -> in_span n m f (b k)) -> (d <= m)%nat.
Proof.
  intros O Sp. destruct (Nat.le_gt_cases d m) as [|Hlt]; [assumption|exfalso].
  assert (Ch : exists c : nat -> nat -> C, forall k, (k < d)%nat -> forall i, (i < n)%nat -> b k i = csum m (fun l => c k l * f l i)).
  { clear O Hlt. induction d as [|d IH]; [exists (fun _ _ => c0); intros; lia|]. destruct IH as (c & Hc); [intros; apply Sp; lia|].
    destruct (Sp d ltac:(lia)) as (e & He). exists (fun k => if Nat.eqb k d then e else c k). intros k Hk i Hi.
    destruct (Nat.eqb_spec k d) as [->|]; [now apply He|]. apply Hc; [lia|assumption]. }
  destruct Ch as (c & Hc). set (A := fun l k => if Nat.ltb l m then c k l else c0).
  assert (NS : nonsingular d A).
  { intros x Hx i Hi.
    assert (Z : veqn n (combo d x b) vzero).
    { intros r Hr. unfold combo, vzero. rewrite (csum_ext d _ (fun k => csum m (fun l => x k * (c k l * f l r)))).
      2:{ intros k Hk. rewrite (Hc k Hk r Hr). now rewrite csum_mul_l. }
      rewrite csum_swap. apply csum_zero. intros l Hl. specialize (Hx l ltac:(lia)). unfold A in Hx.
      destruct (Nat.ltb_spec l m); [|lia]. transitivity (csum d (fun k => c k l * x k) * f l r).
      - rewrite <- csum_mul_r. apply csum_ext. intros. ring.
      - rewrite Hx. unfold vzero, c0. ring. }
    rewrite <- (inner_ortho n d b x i O Hi), (inner_ext n (b i) (b i) _ _ (fun _ _ => eq_refl) Z). apply inner_zero_r. }
  destruct (solve_nonsingular d A (fun l => if Nat.eqb l m then c1 else c0) NS) as (y & Ey).
  apply solve_ok in Ey. destruct Ey as [Ey _]. specialize (Ey m Hlt). cbn beta in Ey. rewrite Nat.eqb_refl in Ey.
  assert (Z : csum d (fun k => A m k * y k) = c0).
  { apply csum_zero. intros k _. unfold A. destruct (Nat.ltb_spec m m); [lia|]. unfold c0. ring. }
  change (mv d A y m) with (csum d (fun k => A m k * y k)) in Ey. rewrite Z in Ey. apply (f_equal fst) in Ey. cbn in Ey. lra.
Qed.
(** d orthonormal vectors in the span of d vectors span it. *)
Lemma span_complete n d b f v : orthonormal n d b -> (forall k, (k < d)%nat -> in_span n d f (b k)) -> in_span n d f v -> in_span n d b v.
Proof.
  intros O Sp Hv. set (c := fun k => inner n (b k) v). set (r := vsub v (combo d c b)).
  assert (Hr : forall k, (k < d)%nat -> inner n (b k) r = c0).
  { intros k Hk. unfold r. rewrite inner_sub_r, (inner_ortho n d b c k O Hk). unfold c, c0. ring. }
  destruct (Req_EM_T (norm n r) 0) as [Z|Z].
  - apply norm_0_iff in Z. exists c. intros i Hi. specialize (Z i Hi). unfold r, vsub, combo, vzero in Z.
    transitivity (v i - csum d (fun k => c k * b k i) + csum d (fun k => c k * b k i)); [ring|]. rewrite Z. unfold c0. ring.
  - exfalso. set (u := fun i => r i / RtoC (norm n r)).
    assert (U : inner n u u = c1) by now apply unit_ket.
    assert (Eu : veqn n u (vscale (/ RtoC (norm n r)) r)) by (intros i _; unfold u, vscale, Cdiv; ring).
    assert (Ob : forall k, (k < d)%nat -> inner n (b k) u = c0).
    { intros k Hk. rewrite (inner_ext n _ _ _ _ (fun i _ => eq_refl) Eu), inner_scale_r, Hr by assumption. unfold c0. ring. }
    assert (Su : in_span n d f u).
    { apply (in_span_ext n d f (fun i => / RtoC (norm n r) * (v i + (- c1) * combo d c b i))).
      - intros i _. unfold u, r, vsub, Cdiv, c1. ring.
      - apply in_span_scale. apply (in_span_add n d f v (fun i => (- c1) * combo d c b i)); [exact Hv|]. apply in_span_scale. now apply in_span_csum. }
    pose (b' := fun k => if Nat.eqb k d then u else b k).
    assert (O' : orthonormal n (S d) b').
    { intros i j Hi Hj. unfold b'. destruct (Nat.eqb_spec i d) as [->|Ni], (Nat.eqb_spec j d) as [->|Nj].
      - now rewrite Nat.eqb_refl.
      - destruct (Nat.eqb_spec d j); [congruence|]. rewrite <- inner_conj, Ob by lia. apply Cj_0.
      - destruct (Nat.eqb_spec i d); [congruence|]. apply Ob. lia.
      - apply O; lia. }
    assert (B := span_bound n (S d) b' d f O'). enough (S d <= d)%nat by lia. apply B. intros k Hk. unfold b'. destruct (Nat.eqb_spec k d); [exact Su|apply Sp; lia].
Qed.

Section GF.
  Context {K : Type} (keqb : K -> K -> bool).
  Hypothesis keqb_eq : forall a b, keqb a b = true <-> a = b.
  (** The starting vector lies in the span of m vectors that H maps into itself. *)
  Lemma small_krylov n H (vectors : list (K * vec)) dim ms vs B v0 mm m f :
    hermitian n H -> NoDup (map fst vectors) -> (Z.of_nat m <= dim)%Z ->
    MultiKrylov n H 0 vectors dim = Ok (ms, vs) -> lookup keqb B vectors = Ok v0 -> lookup keqb B ms = Ok mm ->
    in_span n m f v0 -> (forall k, (k < m)%nat -> in_span n m f (mv n H (f k))) ->
    invariant_span n H (nd_rows mm) (fun j => power n H j v0) /\ (0 < m)%nat.
  Proof.
    intros HH ND Hdim EM EB Em S0 Inv.
    destruct (multi_lookup keqb keqb_eq n H 0 vectors dim ms vs B v0 HH (Rle_refl 0) ND EM EB) as (Hv0 & m' & pv & L1 & L2 & EK).
    rewrite L1 in Em. injection Em as ->.
    destruct (krylov_ok n H 0 vectors v0 dim HH (Rle_refl 0) Hv0) as (m2 & pv2 & d & b & EK2 & D1 & D2 & B0 & Ob & Rm & _ & _ & Sp & _ & D4 & _).
    rewrite EK in EK2. injection EK2 as <- <-.
    assert (Hd : nd_rows mm = d) by apply Rm. rewrite Hd.
    assert (IP : forall k, in_span n m f (power n H k v0)).
    { induction k as [|k IH]; [exact S0|]. cbn [power]. exact (mv_in_span n H m f f m _ Inv IH). }
    assert (Ib : forall k, (k < d)%nat -> in_span n m f (b k)).
    { intros k Hk. eapply in_span_trans; [|apply (Sp k Hk)]. intros j _. cbn beta. apply IP. }
    assert (Dn := span_bound n d b m f Ob Ib). split.
    - destruct D4 as [D4|(d' & D4 & Z)].
      + assert (E : d = m) by lia. subst m. apply (invariant_b n H v0 d b Sp). intros k Hk.
        apply (span_complete n d b f _ Ob Ib). exact (mv_in_span n H d f f d _ Inv (Ib k Hk)).
      + apply (residual_invariant n H v0 d b Sp d' D4). assert (P := norm_nonneg n (residual n H d b (b d'))). lra.
    - destruct m; [|lia]. exfalso. destruct S0 as (c & Hc). cbn [csum] in Hc.
      assert (norm n v0 = 0%R) by (apply norm_0_iff; exact Hc). lra.
  Qed.
End GF.
