(** Lemmas for C55: the Lanczos solver. *)
From Coq Require Import Reals String List ZArith Bool Arith Lia Lra.
From Coquelicot Require Import Complex.
From Verif Require Import Py CVec LinSolve Lanczos_Model Lanczos_Spec Lanczos_Proofs Lanczos_Proofs2
  GF_Model GF_Spec GF_Proofs2 GF_Proofs4 GF_Proofs5 GFAnalytic_Spec GFAnalytic_Proofs.
Import ListNotations.
Local Open Scope nat_scope.
Local Open Scope C_scope.

Section Compare.
  Variables (sign : string) (GE : R) (n : nat) (H : cmat) (d : nat) (b : nat -> vec) (m : ndarray2) (v0 : vec).
  Hypothesis HH : hermitian n H.
  Hypothesis Ob : orthonormal n d b.
  Hypothesis Rm : represents_matrix n H d b m.
  Hypothesis Hd : (0 < d)%nat.
  Hypothesis N0 : norm n v0 <> 0%R.
  Hypothesis B0 : veqn n (b O) (fun i => v0 i / RtoC (norm n v0)).
  Hypothesis Sp : forall k, (k < d)%nat -> in_span n (S k) (fun j => power n H j v0) (b k) /\ in_span n (S k) b (power n H k v0).
  Let T := nd_cmat m.
  Notation Dn := (excited sign n H GE).
  Notation Dt := (excited sign d T GE).
  (** coordinates *)
  Definition co (v : vec) : vec := fun k => inner n (b k) v.
  Definition start : vec := fun k => match k with O => RtoC (norm n v0) | _ => c0 end.
  Lemma co_ext u v : veqn n u v -> co u = co v \/ forall k, co u k = co v k.
  Proof. intros E. right. intros k. apply inner_ext; [intros i _; reflexivity|exact E]. Qed.
  Lemma norm_co v : (norm d (co v) <= norm n v)%R.
  Proof. unfold norm. apply sqrt_le_1; [apply norm2_nonneg|apply norm2_nonneg|]. exact (bessel n d b v Ob). Qed.
  Lemma inner_co u v : in_span n d b v -> inner d (co u) (co v) = inner n u v.
  Proof.
    intros Hs. rewrite (inner_ext n u u v _ (fun i _ => eq_refl) (span_coords n d b v Ob Hs)), inner_combo.
    unfold inner at 1, co. apply csum_ext. intros k _. rewrite inner_conj. ring.
  Qed.
  Lemma inner_co_l u v : in_span n d b u -> inner d (co u) (co v) = inner n u v.
  Proof. intros Hs. rewrite <- inner_conj, inner_co by assumption. apply inner_conj. Qed.
  (** D^k v0 is in the Krylov space *)
  Lemma Dn_krylov k : in_span n (S k) (fun j => power n H j v0) (Dn k v0).
  Proof.
    induction k as [|k IH].
    - exists (fun _ => c1). intros i Hi. cbn. unfold c0, c1. ring.
    - cbn [excited]. assert (A : in_span n (S (S k)) (fun j => power n H j v0) (mv n H (Dn k v0))).
      { apply (mv_in_span n H (S k) (fun j => power n H j v0)); [|exact IH]. intros j Hj.
        change (mv n H (power n H j v0)) with ((fun j => power n H j v0) (S j)). apply in_span_mem. lia. }
      assert (B : in_span n (S (S k)) (fun j => power n H j v0) (Dn k v0)) by (apply (in_span_weaken n (S k)); [lia|exact IH]).
      apply (in_span_ext n _ _ (fun i => (if String.eqb sign "+" then - c1 else c1) * mv n H (Dn k v0) i + (if String.eqb sign "+" then RtoC GE else - RtoC GE) * Dn k v0 i)).
      { intros i Hi. unfold excitation. destruct (String.eqb sign "+"); unfold c1; ring. }
      apply in_span_add; now apply in_span_scale.
  Qed.
  Lemma Dn_span k : (k < d)%nat -> in_span n d b (Dn k v0).
  Proof. intros Hk. apply (krylov_same n H v0 d b Sp). apply (in_span_weaken n (S k)); [lia|apply Dn_krylov]. Qed.
  (** D_T applied to coordinates of a vector of the span *)
  Lemma co_D v : in_span n d b v -> forall j, (j < d)%nat -> co (excitation sign n H GE v) j = excitation sign d T GE (co v) j.
  Proof.
    intros Hs j Hj. unfold co. rewrite (D_move sign n H GE HH). rewrite <- (D_move sign n H GE HH).
    assert (A : inner n (b j) (mv n H v) = mv d T (co v) j).
    { rewrite (inner_ext n (b j) (b j) _ (mv n H (combo d (co v) b)) (fun i _ => eq_refl) (fun i _ => mv_ext n H _ _ (span_coords n d b v Ob Hs) i)).
      assert (E : veqn n (mv n H (combo d (co v) b)) (fun i => csum d (fun k => co v k * mv n H (b k) i))).
      { intros i _. unfold combo. rewrite (mv_csum n H d (fun k i => co v k * b k i) i). apply csum_ext. intros k _. apply (mv_scale n H (co v k) (b k) i). }
      rewrite (inner_ext n _ _ _ _ (fun i _ => eq_refl) E), (inner_csum_r n (b j) d (fun k i => co v k * mv n H (b k) i)).
      unfold mv at 2. apply csum_ext. intros k Hk. assert (F := inner_scale_r n (b j) (co v k) (mv n H (b k))). unfold vscale in F. rewrite F.
      unfold T. rewrite (T_entry n H d b m Rm j k Hj Hk). ring. }
    unfold excitation. fold T.
    destruct (String.eqb sign "+").
    - change (fun i => RtoC GE * v i - mv n H v i) with (vsub (vscale (RtoC GE) v) (mv n H v)). rewrite inner_sub_r, inner_scale_r, A. reflexivity.
    - change (fun i => mv n H v i - RtoC GE * v i) with (vsub (mv n H v) (vscale (RtoC GE) v)). rewrite inner_sub_r, inner_scale_r, A. reflexivity.
  Qed.
  Lemma co_v0 : veqn d (co v0) start.
  Proof.
    assert (Ev : veqn n v0 (vscale (RtoC (norm n v0)) (b O))).
    { intros i Hi. unfold vscale. rewrite B0 by assumption. field. now apply RtoC_neq0. }
    intros k Hk. unfold co. rewrite (inner_ext n _ _ _ _ (fun i _ => eq_refl) Ev), inner_scale_r, (Ob k O Hk Hd). destruct k; cbn; unfold c0, c1; ring.
  Qed.
  Lemma co_Dk k : (k <= d)%nat -> veqn d (Dt k start) (co (Dn k v0)).
  Proof.
    induction k as [|k IH]; intros Hk.
    - intros i Hi. symmetry. now apply co_v0.
    - intros i Hi. cbn [excited]. rewrite (D_ext sign d T GE _ _ (IH ltac:(lia)) i Hi). symmetry. apply co_D; [apply Dn_span; lia|assumption].
  Qed.
  (** moments *)
  Lemma moments_any a k : (k < d)%nat -> inner d (co a) (Dt k start) = inner n a (Dn k v0).
  Proof. intros Hk. rewrite (inner_ext d _ _ _ _ (fun i _ => eq_refl) (co_Dk k ltac:(lia))). apply inner_co. now apply Dn_span. Qed.
  Lemma moments_diag k : (k < 2 * d)%nat -> inner d start (Dt k start) = inner n v0 (Dn k v0).
  Proof.
    intros Hk. assert (exists p q, k = (p + q)%nat /\ (p < d)%nat /\ (q <= d)%nat) as (p & q & -> & Hp & Hq).
    { exists (Nat.min k (d - 1)), (k - Nat.min k (d - 1))%nat. lia. }
    rewrite (Dk_move sign d T GE (T_hermitian n H d b m HH Rm)), (Dk_move sign n H GE HH).
    rewrite (inner_ext d _ _ _ _ (co_Dk p ltac:(lia)) (co_Dk q Hq)). apply inner_co_l. now apply Dn_span.
  Qed.
  Lemma expansion_same z a a' mm : (forall k, (k < mm)%nat -> inner d a' (Dt k start) = inner n a (Dn k v0)) ->
    expansion sign d T GE z a' start mm = expansion sign n H GE z a v0 mm.
  Proof. intros E. unfold expansion. apply csum_ext. intros k Hk. now rewrite E. Qed.
  Lemma compare_any omega eta a gl ge : eta <> 0%R ->
    green sign d T GE (frequency omega eta) (co a) start gl -> green sign n H GE (frequency omega eta) a v0 ge ->
    (Cmod (cpow (frequency omega eta) d * (gl - ge))%C <= 2 * (norm n a * norm n (Dn d v0) / Rabs eta))%R.
  Proof.
    intros He Gl Ge. set (z := frequency omega eta) in *.
    assert (A1 := green_expansion sign d T GE (T_hermitian n H d b m HH Rm) omega eta (co a) start gl 0 d He Gl).
    assert (A2 := green_expansion sign n H GE HH omega eta a v0 ge 0 d He Ge). cbn [plus excited] in A1, A2. fold z in A1, A2.
    rewrite (expansion_same z a (co a) d (moments_any a)) in A1. set (ex := expansion sign n H GE z a v0 d) in *.
    replace (cpow z d * (gl - ge)) with ((cpow z d * gl - ex) + - (cpow z d * ge - ex)) by ring.
    eapply Rle_trans; [apply Cmod_triangle|]. rewrite Cmod_opp.
    assert (A3 : (norm d (co a) * norm d (Dt d start) / Rabs eta <= norm n a * norm n (Dn d v0) / Rabs eta)%R).
    { apply Rmult_le_compat_r; [left; apply Rinv_0_lt_compat; now apply Rabs_pos_lt|].
      apply Rmult_le_compat; try apply norm_nonneg; [apply norm_co|]. unfold norm at 1. 
      replace (norm2 d (Dt d start)) with (norm2 d (co (Dn d v0))); [apply norm_co|]. apply RtoC_inj'. rewrite <- !inner_self. apply inner_ext; intros i Hi; symmetry; now apply co_Dk. }
    lra.
  Qed.
  Lemma compare_diag omega eta gl ge : eta <> 0%R ->
    green sign d T GE (frequency omega eta) start start gl -> green sign n H GE (frequency omega eta) v0 v0 ge ->
    (Cmod (cpow (frequency omega eta) (2 * d) * (gl - ge))%C <= 2 * (norm n (Dn d v0) * norm n (Dn d v0) / Rabs eta))%R.
  Proof.
    intros He Gl Ge. set (z := frequency omega eta) in *.
    assert (A1 := green_expansion sign d T GE (T_hermitian n H d b m HH Rm) omega eta start start gl d d He Gl).
    assert (A2 := green_expansion sign n H GE HH omega eta v0 v0 ge d d He Ge). replace (d + d)%nat with (2 * d)%nat in A1, A2 by lia. fold z in A1, A2.
    rewrite (expansion_same z v0 start (2 * d) moments_diag) in A1. set (ex := expansion sign n H GE z v0 v0 (2 * d)) in *.
    replace (cpow z (2 * d) * (gl - ge)) with ((cpow z (2 * d) * gl - ex) + - (cpow z (2 * d) * ge - ex)) by ring.
    eapply Rle_trans; [apply Cmod_triangle|]. rewrite Cmod_opp.
    assert (A4 : (norm d (Dt d start) <= norm n (Dn d v0))%R).
    { unfold norm at 1. replace (norm2 d (Dt d start)) with (norm2 d (co (Dn d v0))); [apply norm_co|]. apply RtoC_inj'. rewrite <- !inner_self. apply inner_ext; intros i Hi; symmetry; now apply co_Dk. }
    assert (A3 : (norm d (Dt d start) * norm d (Dt d start) / Rabs eta <= norm n (Dn d v0) * norm n (Dn d v0) / Rabs eta)%R).
    { apply Rmult_le_compat_r; [left; apply Rinv_0_lt_compat; now apply Rabs_pos_lt|]. apply Rmult_le_compat; try apply norm_nonneg; assumption. }
    lra.
  Qed.
End Compare.

Section GF.
  Context {K : Type}.
  Variable keqb : K -> K -> bool.
  Hypothesis keqb_eq : forall a b, keqb a b = true <-> a = b.
  Variable dagger : K -> K.
  (** What the Lanczos solver returns, for every Krylov space. *)
  Lemma lanczos_green n H thr (vectors : list (K * vec)) dim ms vs GE eta omega A B sign v0 a :
    hermitian n H -> (0 <= thr)%R -> NoDup (map fst vectors) -> (0 < dim)%Z -> eta <> 0%R ->
    MultiKrylov n H thr vectors dim = Ok (ms, vs) ->
    lookup keqb B vectors = Ok v0 -> lookup keqb (dagger A) vectors = Ok a ->
    exists g d b m, GFSolverLanczosSingle keqb dagger GE ms vs eta omega A B sign = Ok g /\
      lookup keqb B ms = Ok m /\ nd_rows m = d /\ (0 < d)%nat /\ norm n v0 <> 0%R /\
      veqn n (b O) (fun i => v0 i / RtoC (norm n v0)) /\ orthonormal n d b /\ represents_matrix n H d b m /\
      (forall k, (k < d)%nat -> in_span n (S k) (fun j => power n H j v0) (b k) /\ in_span n (S k) b (power n H k v0)) /\
      green sign d (nd_cmat m) GE (frequency omega eta) (co n b a) (start n v0) g.
  Proof.
    intros HH Ht ND Hdim He EM EB EA.
    destruct (multi_lookup keqb keqb_eq n H thr vectors dim ms vs B v0 HH Ht ND EM EB) as (Hv0 & m & pv & L1 & L2 & EK).
    destruct (krylov_ok n H thr vectors v0 dim HH Ht Hv0) as (m2 & pv2 & d & b & EK2 & D1 & D2 & B0 & Ob & Rm & (Lp & P) & _ & Sp & _).
    rewrite EK in EK2. injection EK2 as <- <-. specialize (D2 Hdim).
    assert (Hd : nd_rows m = d) by apply Rm.
    assert (K2 : map fst pv = map fst vectors) by (apply keys_eq; [assumption|]; intros q k v Hq; destruct (P q k v Hq) as (l & ? & _); eauto).
    destruct (lookup_nth keqb keqb_eq B vectors v0 EB) as (pB & HpB), (lookup_nth keqb keqb_eq (dagger A) vectors a EA) as (pA & HpA).
    destruct (P pB B v0 HpB) as (lB & HlB & CB1 & CB2), (P pA (dagger A) a HpA) as (lA & HlA & CA1 & CA2).
    assert (ELB : lookup keqb B pv = Ok lB) by (apply (nth_lookup keqb keqb_eq _ _ _ pB); [now rewrite K2|assumption]).
    assert (ELA : lookup keqb (dagger A) pv = Ok lA) by (apply (nth_lookup keqb keqb_eq _ _ _ pA); [now rewrite K2|assumption]).
    assert (N0 : norm n v0 <> 0%R) by lra.
    assert (Hc := co_v0 n d b v0 Ob D2 N0 B0).
    destruct lB as [|t lB]; [cbn in CB1; lia|].
    assert (Evb : veqn d (as_vec (t :: map (fun _ => c0) lB)) (start n v0)).
    { intros [|k] Hk; unfold as_vec; cbn [nth].
      - rewrite <- (Hc 0%nat D2). exact (CB2 0%nat D2).
      - change (start n v0 (S k)) with c0. destruct (nth_in_or_default k (map (fun _ : C => c0) lB) c0) as [I|I]; [|exact I].
        apply in_map_iff in I. destruct I as (u & I & _). now symmetry. }
    assert (Eva : veqn d (as_vec lA) (co n b a)) by (intros k Hk; exact (CA2 k Hk)).
    set (z := frequency omega eta).
    assert (HT := T_hermitian n H d b m HH Rm).
    assert (NS : nonsingular d (gf_matrix sign z GE (nd_cmat m))) by (apply nonsingular_invertible; now apply hermitian_invertible).
    destruct (solve_nonsingular d (gf_matrix sign z GE (nd_cmat m)) (as_vec (t :: map (fun _ => c0) lB)) NS) as (y & Ey).
    exists (inner d (as_vec lA) y), d, b, m. split; [|repeat (split; [assumption|])].
    - unfold GFSolverLanczosSingle. rewrite L1, L2. cbn [bind]. rewrite ELB. cbn [bind first_only]. rewrite ELA. cbn [bind].
      rewrite gf_z_eq. unfold solve_len. rewrite Hd. cbn [length]. rewrite map_length.
      cbn [length] in CB1. rewrite CB1, Nat.eqb_refl. fold z. rewrite Ey. cbn [bind]. unfold vdot_len. rewrite CA1, Nat.eqb_refl. reflexivity.
    - apply (green_ext sign d (nd_cmat m) GE z (as_vec lA) _ (as_vec (t :: map (fun _ => c0) lB)) _ _ Eva Evb).
      exists y. split; [|reflexivity]. apply solves_shifted. now apply solve_ok in Ey.
  Qed.
End GF.
