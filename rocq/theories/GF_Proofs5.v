(** MultiKrylov + GFSolverLanczosSingle against GFSolverExactSingle. *)
From Coq Require Import Reals String List ZArith Bool Arith Lia Lra.
From Coquelicot Require Import Complex.
From Verif Require Import Py CVec LinSolve Lanczos_Model Lanczos_Spec Lanczos_Proofs Lanczos_Proofs2 GF_Model GF_Spec GF_Proofs GF_Proofs2 GF_Proofs4.
Import ListNotations.
Local Open Scope nat_scope.
Local Open Scope C_scope.

Lemma invertible_ext sign n H GE z : forall H', (forall i j, (i < n)%nat -> (j < n)%nat -> H i j = H' i j) -> invertible sign n H GE z -> invertible sign n H' GE z.
Proof.
  intros H' E I x Hx. apply I. intros i Hi. rewrite <- (Hx i Hi). unfold shifted.
  assert (EM : mv n H x i = mv n H' x i) by (apply csum_ext; intros j Hj; now rewrite E). now rewrite EM.
Qed.
Lemma green_ext sign n H GE z a a' b b' g : veqn n a a' -> veqn n b b' -> green sign n H GE z a b g -> green sign n H GE z a' b' g.
Proof.
  intros Ea Eb (x & Hx & ->). exists x. split; [intros i Hi; rewrite Hx by assumption; now apply Eb|]. apply inner_ext; [assumption|intros i _; reflexivity].
Qed.

Section GF.
  Context {K : Type}.
  Variable keqb : K -> K -> bool.
  Hypothesis keqb_eq : forall a b, keqb a b = true <-> a = b.
  Variable dagger : K -> K.

  Lemma lookup_nth {V} key (d : list (K * V)) v : lookup keqb key d = Ok v -> exists pos, nth_error d pos = Some (key, v).
  Proof. intros H. apply In_nth_error. now apply (lookup_in keqb keqb_eq). Qed.
  Lemma nth_lookup {V} key (d : list (K * V)) v pos : NoDup (map fst d) -> nth_error d pos = Some (key, v) -> lookup keqb key d = Ok v.
  Proof. intros N H. apply (lookup_ok keqb keqb_eq); [assumption|]. eapply nth_error_In; eassumption. Qed.
  (** Equal keys position by position. *)
  Lemma keys_eq {V W} (d : list (K * V)) (e : list (K * W)) : length e = length d ->
    (forall pos key v, nth_error d pos = Some (key, v) -> exists w, nth_error e pos = Some (key, w)) -> map fst e = map fst d.
  Proof.
    revert e. induction d as [|[k v] d IH]; intros [|[k' w] e] L H; try discriminate; [reflexivity|]. cbn. f_equal.
    - destruct (H 0%nat k v eq_refl) as (w' & E). cbn in E. now injection E.
    - apply IH; [now injection L|]. intros pos key u E. exact (H (S pos) key u E).
  Qed.

  (** What the dictionaries of MultiKrylov contain for a key. *)
  Lemma multi_lookup n H thr (vectors : list (K * vec)) dim ms vs B v0 :
    hermitian n H -> (0 <= thr)%R -> NoDup (map fst vectors) ->
    MultiKrylov n H thr vectors dim = Ok (ms, vs) -> lookup keqb B vectors = Ok v0 ->
    (thr < norm n v0)%R /\
    exists m pv, lookup keqb B ms = Ok m /\ lookup keqb B vs = Ok pv /\ KrylovRepresentation n H thr vectors v0 dim = Ok (m, pv).
  Proof.
    intros HH Ht ND E EB.
    assert (Hp : forall p, In p vectors -> (thr < norm n (snd p))%R).
    { intros p Hp. destruct (Rlt_dec thr (norm n (snd p))) as [|N]; [assumption|]. exfalso.
      unfold MultiKrylov in E. rewrite (multi_fold_bad n H thr vectors vectors dim [] [] p Hp) in E; [discriminate|lra|assumption|assumption]. }
    destruct (multi_fold n H thr vectors vectors dim [] [] Hp HH Ht) as (ms' & vs' & E' & L1 & L2 & G).
    unfold MultiKrylov in E. rewrite E' in E. cbn in E. injection E as <- <-.
    destruct (lookup_nth B vectors v0 EB) as (pos & Hpos). split; [apply (Hp (B, v0)); eapply nth_error_In; eassumption|].
    destruct (G pos B v0 Hpos) as (m & pv & G1 & G2 & G3). exists m, pv.
    assert (K1 : map fst ms' = map fst vectors) by (apply keys_eq; [assumption|]; intros q k v Hq; destruct (G q k v Hq) as (a & b & ? & _); eauto).
    assert (K2 : map fst vs' = map fst vectors) by (apply keys_eq; [assumption|]; intros q k v Hq; destruct (G q k v Hq) as (a & b & _ & ? & _); eauto).
    split; [apply (nth_lookup _ _ _ pos); [now rewrite K1|assumption]|]. split; [apply (nth_lookup _ _ _ pos); [now rewrite K2|assumption]|assumption].
  Qed.

  Lemma lanczos_exact n H thr (vectors : list (K * vec)) dim ms vs GE eta omega A B sign v0 a m :
    hermitian n H -> (0 <= thr)%R -> NoDup (map fst vectors) -> (0 < dim)%Z -> eta <> 0%R ->
    MultiKrylov n H thr vectors dim = Ok (ms, vs) ->
    lookup keqb B vectors = Ok v0 -> lookup keqb (dagger A) vectors = Ok a -> lookup keqb B ms = Ok m ->
    invariant_span n H (nd_rows m) (fun j => power n H j v0) ->
    exists g, GFSolverLanczosSingle keqb dagger GE ms vs eta omega A B sign = Ok g /\
              GFSolverExactSingle keqb dagger n GE H vectors eta omega A B sign = Ok g.
  Proof.
    intros HH Ht ND Hdim He EM EB EA Em Inv.
    destruct (multi_lookup n H thr vectors dim ms vs B v0 HH Ht ND EM EB) as (Hv0 & m' & pv & L1 & L2 & EK).
    rewrite L1 in Em. injection Em as ->.
    destruct (krylov_ok n H thr vectors v0 dim HH Ht Hv0) as (m2 & pv2 & d & b & EK2 & D1 & D2 & B0 & Ob & Rm & (Lp & P) & _ & Sp & _).
    rewrite EK in EK2. injection EK2 as <- <-. specialize (D2 Hdim).
    assert (Hd : nd_rows m = d) by apply Rm. rewrite Hd in Inv.
    assert (Inv' := proj1 (invariant_b n H v0 d b Sp) Inv).
    assert (K2 : map fst pv = map fst vectors) by (apply keys_eq; [assumption|]; intros q k v Hq; destruct (P q k v Hq) as (l & ? & _); eauto).
    destruct (lookup_nth B vectors v0 EB) as (pB & HpB), (lookup_nth (dagger A) vectors a EA) as (pA & HpA).
    destruct (P pB B v0 HpB) as (lB & HlB & CB1 & CB2), (P pA (dagger A) a HpA) as (lA & HlA & CA1 & CA2).
    assert (ELB : lookup keqb B pv = Ok lB) by (apply (nth_lookup _ _ _ pB); [now rewrite K2|assumption]).
    assert (ELA : lookup keqb (dagger A) pv = Ok lA) by (apply (nth_lookup _ _ _ pA); [now rewrite K2|assumption]).
    set (z := frequency omega eta).
    assert (HT := T_hermitian n H d b m HH Rm).
    assert (N0 : norm n v0 <> 0%R) by lra.
    set (c := RtoC (norm n v0)).
    (* coordinate of v0 along b_0 *)
    assert (Hc : inner n (b O) v0 = c).
    { assert (Ev : veqn n v0 (vscale c (b O))).
      { intros i Hi. unfold vscale, c. rewrite B0 by assumption. field. now apply RtoC_neq0. }
      rewrite (inner_ext n _ _ _ _ (fun i _ => eq_refl) Ev), inner_scale_r, (Ob O O) by assumption. rewrite Nat.eqb_refl. unfold c1. ring. }
    destruct lB as [|t lB]; [cbn in CB1; lia|].
    assert (Ht0 : t = c) by (rewrite <- Hc; exact (CB2 0%nat D2)).
    assert (Evb : veqn d (as_vec (t :: map (fun _ => c0) lB)) (fun k => match k with O => c | _ => c0 end)).
    { intros [|k] Hk; unfold as_vec; cbn [nth]; [exact Ht0|].
      destruct (nth_in_or_default k (map (fun _ : C => c0) lB) c0) as [I|I]; [|exact I].
      apply in_map_iff in I. destruct I as (u & I & _). now symmetry. }
    assert (Eva : veqn d (as_vec lA) (fun k => inner n (b k) a)) by (intros k Hk; exact (CA2 k Hk)).
    (* the projected system *)
    assert (NS : nonsingular d (gf_matrix sign z GE (nd_cmat m))) by (apply nonsingular_invertible; now apply hermitian_invertible).
    destruct (solve_nonsingular d (gf_matrix sign z GE (nd_cmat m)) (as_vec (t :: map (fun _ => c0) lB)) NS) as (y & Ey).
    exists (inner d (as_vec lA) y). split.
    - unfold GFSolverLanczosSingle. rewrite L1, L2. cbn [bind]. rewrite ELB. cbn [bind first_only]. rewrite ELA. cbn [bind].
      rewrite gf_z_eq. unfold solve_len. rewrite Hd. cbn [length]. rewrite map_length.
      cbn [length] in CB1. rewrite CB1, Nat.eqb_refl. fold z. rewrite Ey. cbn [bind]. unfold vdot_len. rewrite CA1, Nat.eqb_refl. reflexivity.
    - apply exact_single_iff. exists a, v0. split; [assumption|]. split; [assumption|]. fold z.
      split; [now apply hermitian_invertible|].
      apply (green_ext sign n H GE z a a (fun i => c * b O i) v0); [intros i _; reflexivity| |].
      { intros i Hi. unfold c. rewrite B0 by assumption. field. now apply RtoC_neq0. }
      apply (green_projected n H d b m Ob Rm sign GE z a c); [exact Inv'|exact D2|].
      apply (green_ext sign d (nd_cmat m) GE z (as_vec lA) _ (as_vec (t :: map (fun _ => c0) lB)) _ _ Eva Evb).
      exists y. split; [|reflexivity]. apply solves_shifted. now apply solve_ok in Ey.
  Qed.

  (** With threshold 0 and krylov_space_dim >= n the Krylov space is always invariant. *)
  Lemma full_krylov n H (vectors : list (K * vec)) dim ms vs B v0 m :
    hermitian n H -> NoDup (map fst vectors) -> (Z.of_nat n <= dim)%Z ->
    MultiKrylov n H 0 vectors dim = Ok (ms, vs) -> lookup keqb B vectors = Ok v0 -> lookup keqb B ms = Ok m ->
    invariant_span n H (nd_rows m) (fun j => power n H j v0) /\ (0 < n)%nat.
  Proof.
    intros HH ND Hdim EM EB Em.
    destruct (multi_lookup n H 0 vectors dim ms vs B v0 HH (Rle_refl 0) ND EM EB) as (Hv0 & m' & pv & L1 & L2 & EK).
    rewrite L1 in Em. injection Em as ->.
    destruct (krylov_ok n H 0 vectors v0 dim HH (Rle_refl 0) Hv0) as (m2 & pv2 & d & b & EK2 & D1 & D2 & B0 & Ob & Rm & _ & _ & Sp & _ & D4 & _).
    rewrite EK in EK2. injection EK2 as <- <-.
    assert (Hd : nd_rows m = d) by apply Rm. rewrite Hd.
    assert (Dn := orthonormal_bound n d b Ob). split.
    - destruct D4 as [D4|(d' & D4 & Z)].
      + apply (full_invariant n H v0 d b Ob Sp). lia.
      + apply (residual_invariant n H v0 d b Sp d' D4). assert (P := norm_nonneg n (residual n H d b (b d'))). lra.
    - destruct n; [|lia]. unfold norm, norm2 in Hv0. cbn in Hv0. rewrite sqrt_0 in Hv0. lra.
  Qed.

  Lemma krylov_moments n H thr (vectors : list (K * vec)) v0 dim m pv p :
    hermitian n H -> (0 <= thr)%R -> KrylovRepresentation n H thr vectors v0 dim = Ok (m, pv) ->
    (0 < dim)%Z -> (p <= 2 * nd_rows m - 1)%nat ->
    inner n v0 (power n H p v0) = RtoC (norm2 n v0) * power (nd_rows m) (nd_cmat m) p e0 O.
  Proof.
    intros HH Ht EK Hdim Hp.
    assert (Hv0 : (thr < norm n v0)%R).
    { destruct (Rlt_dec thr (norm n v0)) as [|N]; [assumption|]. rewrite krylov_err in EK by lra. discriminate. }
    destruct (krylov_ok n H thr vectors v0 dim HH Ht Hv0) as (m2 & pv2 & d & b & EK2 & D1 & D2 & B0 & Ob & Rm & _ & Tri & Sp & _).
    rewrite EK in EK2. injection EK2 as <- <-. specialize (D2 Hdim).
    assert (Hd : nd_rows m = d) by apply Rm. rewrite Hd in Hp |- *.
    apply (moment n H d b m HH Ob Rm v0 ltac:(lra) B0 Sp); [|assumption|assumption].
    intros i j Hi Hj L. unfold nd_cmat. destruct (Tri j i Hj Hi) as (E1 & E2 & _). rewrite <- E1, E2 by assumption. reflexivity.
  Qed.
End GF.
