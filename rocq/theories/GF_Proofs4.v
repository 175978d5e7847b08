(** Lanczos Green functions against exact ones. *)
From Coq Require Import Reals String List ZArith Bool Arith Lia Lra.
From Coquelicot Require Import Complex.
From Verif Require Import Py CVec LinSolve Lanczos_Model Lanczos_Spec Lanczos_Proofs Lanczos_Proofs2 GF_Model GF_Spec GF_Proofs GF_Proofs2.
Import ListNotations.
Local Open Scope nat_scope.
Local Open Scope C_scope.

(** ** Spans *)
Lemma in_span_ext n d f u v : veqn n u v -> in_span n d f u -> in_span n d f v.
Proof. intros E (c & H). exists c. intros i Hi. rewrite <- E by assumption. now apply H. Qed.
Lemma in_span_scale n d f a v : in_span n d f v -> in_span n d f (fun i => a * v i).
Proof.
  intros (c & H). exists (fun k => a * c k). intros i Hi. rewrite H by assumption. rewrite <- csum_mul_l. apply csum_ext. intros. ring.
Qed.
Lemma in_span_add n d f u v : in_span n d f u -> in_span n d f v -> in_span n d f (fun i => u i + v i).
Proof.
  intros (c & H) (c' & H'). exists (fun k => c k + c' k). intros i Hi. rewrite H, H' by assumption. rewrite <- csum_add. apply csum_ext. intros. ring.
Qed.
Lemma in_span_csum n d f m (c : nat -> C) (g : nat -> vec) : (forall k, (k < m)%nat -> in_span n d f (g k)) ->
  in_span n d f (fun i => csum m (fun k => c k * g k i)).
Proof.
  induction m as [|m IH]; intros H; cbn [csum].
  - exists (fun _ => c0). intros i _. symmetry. apply csum_zero. intros. unfold c0. ring.
  - apply (in_span_add n d f (fun i => csum m (fun k => c k * g k i)) (fun i => c m * g m i)); [apply IH; intros; apply H; lia|].
    apply in_span_scale. apply H. lia.
Qed.
Lemma in_span_trans n d f m g v : (forall k, (k < m)%nat -> in_span n d f (g k)) -> in_span n m g v -> in_span n d f v.
Proof.
  intros H (c & Hv). apply (in_span_ext n d f (fun i => csum m (fun k => c k * g k i))); [intros i Hi; now rewrite Hv|]. now apply in_span_csum.
Qed.
Lemma csum_pad m d f : (m <= d)%nat -> csum d (fun k => if Nat.ltb k m then f k else c0) = csum m f.
Proof.
  intros H. induction d as [|d IH]; cbn [csum].
  - replace m with 0%nat by lia. reflexivity.
  - destruct (Nat.eq_dec m (S d)) as [->|].
    + cbn [csum]. f_equal; [|now rewrite (proj2 (Nat.ltb_lt d (S d)) ltac:(lia))].
      apply csum_ext. intros i Hi. now rewrite (proj2 (Nat.ltb_lt i (S d)) ltac:(lia)).
    + rewrite IH by lia. destruct (Nat.ltb_spec d m); [lia|]. unfold c0. ring.
Qed.
Lemma in_span_weaken n m d f v : (m <= d)%nat -> in_span n m f v -> in_span n d f v.
Proof.
  intros L (c & H). exists (fun k => if Nat.ltb k m then c k else c0). intros i Hi. rewrite H by assumption.
  rewrite <- (csum_pad m d (fun k => c k * f k i) L). apply csum_ext. intros k _. destruct (Nat.ltb k m); [reflexivity|unfold c0; ring].
Qed.
Lemma in_span_mem n d f k : (k < d)%nat -> in_span n d f (f k).
Proof.
  intros Hk. exists (fun j => if Nat.eqb j k then c1 else c0). intros i _. rewrite (csum_single d _ k Hk).
  - rewrite Nat.eqb_refl. unfold c1. ring.
  - intros j _ Hj. destruct (Nat.eqb_spec j k); [contradiction|]. unfold c0. ring.
Qed.
(** Coordinates in an orthonormal basis. *)
Lemma span_coords n d b v : orthonormal n d b -> in_span n d b v -> veqn n v (combo d (fun k => inner n (b k) v) b).
Proof.
  intros O (c & H).
  assert (E : forall k, (k < d)%nat -> inner n (b k) v = c k).
  { intros k Hk. rewrite (inner_ext n (b k) (b k) v (combo d c b) (fun i _ => eq_refl) H). now apply inner_ortho. }
  intros i Hi. rewrite H by assumption. unfold combo. apply csum_ext. intros k Hk. now rewrite E.
Qed.
(** n orthonormal vectors of C^n span everything. *)
Lemma complete n b v : orthonormal n n b -> in_span n n b v.
Proof.
  intros O. set (c := fun k => inner n (b k) v). set (r := vsub v (combo n c b)).
  assert (Hr : forall k, (k < n)%nat -> inner n (b k) r = c0).
  { intros k Hk. unfold r. rewrite inner_sub_r, (inner_ortho n n b c k O Hk). unfold c, c0. ring. }
  destruct (Req_EM_T (norm n r) 0) as [Z|Z].
  - apply norm_0_iff in Z. exists c. intros i Hi. specialize (Z i Hi). unfold r, vsub, combo, vzero in Z.
    transitivity (v i - csum n (fun k => c k * b k i) + csum n (fun k => c k * b k i)); [ring|]. rewrite Z. unfold c0. ring.
  - exfalso. set (u := fun i => r i / RtoC (norm n r)).
    assert (U : inner n u u = c1) by now apply unit_ket.
    assert (Eu : veqn n u (vscale (/ RtoC (norm n r)) r)) by (intros i _; unfold u, vscale, Cdiv; ring).
    assert (Ob : forall k, (k < n)%nat -> inner n (b k) u = c0).
    { intros k Hk. rewrite (inner_ext n _ _ _ _ (fun i _ => eq_refl) Eu), inner_scale_r, Hr by assumption. unfold c0. ring. }
    pose (b' := fun k => if Nat.eqb k n then u else b k).
    assert (O' : orthonormal n (S n) b').
    { intros i j Hi Hj. unfold b'. destruct (Nat.eqb_spec i n) as [->|Ni], (Nat.eqb_spec j n) as [->|Nj].
      - now rewrite Nat.eqb_refl.
      - destruct (Nat.eqb_spec n j); [congruence|]. rewrite <- inner_conj, Ob by lia. apply Cj_0.
      - destruct (Nat.eqb_spec i n); [congruence|]. apply Ob. lia.
      - apply O; lia. }
    apply orthonormal_bound in O'. lia.
Qed.

(** ** Krylov spaces *)
Section Krylov.
  Variables (n : nat) (M : cmat) (v0 : vec) (d : nat) (b : nat -> vec).
  Hypothesis Ob : orthonormal n d b.
  Hypothesis Sp : forall k, (k < d)%nat -> in_span n (S k) (fun j => power n M j v0) (b k) /\ in_span n (S k) b (power n M k v0).
  Lemma krylov_same v : in_span n d (fun j => power n M j v0) v <-> in_span n d b v.
  Proof.
    split; apply in_span_trans; intros k Hk; destruct (Sp k Hk) as [S1 S2].
    - apply (in_span_weaken n (S k)); [lia|exact S2].
    - apply (in_span_weaken n (S k)); [lia|exact S1].
  Qed.
  Lemma mv_in_span m f g dd v : (forall k, (k < m)%nat -> in_span n dd g (mv n M (f k))) -> in_span n m f v -> in_span n dd g (mv n M v).
  Proof.
    intros H (c & Hv). apply (in_span_ext n dd g (fun i => csum m (fun k => c k * mv n M (f k) i))).
    - intros i Hi. rewrite (mv_ext n M v (fun i => csum m (fun k => c k * f k i)) Hv i).
      rewrite (mv_csum n M m (fun k i => c k * f k i) i). apply csum_ext. intros k _. symmetry. apply (mv_scale n M (c k) (f k) i).
    - now apply in_span_csum.
  Qed.
  (** M b_k stays in the span for k + 1 < d. *)
  Lemma krylov_step k : (S k < d)%nat -> in_span n d b (mv n M (b k)).
  Proof.
    intros Hk. apply (mv_in_span (S k) (fun j => power n M j v0)); [|apply Sp; lia].
    intros j Hj. change (mv n M (power n M j v0)) with (power n M (S j) v0).
    apply (in_span_weaken n (S (S j))); [lia|]. apply Sp. lia.
  Qed.
  Lemma invariant_b : invariant_span n M d (fun j => power n M j v0) <-> forall k, (k < d)%nat -> in_span n d b (mv n M (b k)).
  Proof.
    split.
    - intros H k Hk. apply krylov_same, H, krylov_same. now apply in_span_mem.
    - intros H v Hv. apply krylov_same. apply krylov_same in Hv. now apply (mv_in_span d b).
  Qed.
  (** The residual of the last vector decides. *)
  Lemma residual_invariant d' : d = S d' -> norm n (residual n M d b (b d')) = 0%R -> invariant_span n M d (fun j => power n M j v0).
  Proof.
    intros E Z. apply invariant_b. intros k Hk. destruct (Nat.eq_dec k d') as [->|]; [|apply krylov_step; lia].
    apply norm_0_iff in Z. exists (fun j => inner n (b j) (mv n M (b d'))). intros i Hi. specialize (Z i Hi). unfold residual, vzero in Z.
    transitivity (mv n M (b d') i - csum d (fun k => inner n (b k) (mv n M (b d')) * b k i) + csum d (fun k => inner n (b k) (mv n M (b d')) * b k i)); [ring|].
    rewrite Z. unfold c0. ring.
  Qed.
  Lemma full_invariant : d = n -> invariant_span n M d (fun j => power n M j v0).
  Proof. intros E. apply invariant_b. intros k Hk. rewrite E in Ob |- *. now apply complete. Qed.
End Krylov.

(** ** The projected system *)
Section Projected.
  Variables (n : nat) (H : cmat) (d : nat) (b : nat -> vec) (m : ndarray2).
  Hypothesis HH : hermitian n H.
  Hypothesis Ob : orthonormal n d b.
  Hypothesis Rm : represents_matrix n H d b m.
  Let T := nd_cmat m.
  Lemma T_entry i j : (i < d)%nat -> (j < d)%nat -> T i j = inner n (b i) (mv n H (b j)).
  Proof. intros Hi Hj. symmetry. now apply Rm. Qed.
  Lemma T_hermitian : hermitian d T.
  Proof. intros i j Hi Hj. rewrite !T_entry by assumption. rewrite inner_conj. symmetry. rewrite <- hermitian_move by assumption. reflexivity. Qed.
  (** M b_k in the span: M b_k = sum_j T_jk b_j. *)
  Lemma mv_b k : (k < d)%nat -> in_span n d b (mv n H (b k)) -> veqn n (mv n H (b k)) (fun i => csum d (fun j => T j k * b j i)).
  Proof.
    intros Hk Hs i Hi. rewrite (span_coords n d b _ Ob Hs i Hi). unfold combo. apply csum_ext. intros j Hj. now rewrite T_entry.
  Qed.
  Lemma mv_combo y : (forall k, (k < d)%nat -> y k = c0 \/ in_span n d b (mv n H (b k))) ->
    veqn n (mv n H (combo d y b)) (combo d (mv d T y) b).
  Proof.
    intros Hs i Hi. unfold combo. rewrite (mv_csum n H d (fun k i => y k * b k i) i).
    transitivity (csum d (fun k => y k * csum d (fun j => T j k * b j i))).
    - apply csum_ext. intros k Hk. cbv beta. assert (EM := mv_scale n H (y k) (b k) i). unfold vscale in EM. rewrite EM.
      destruct (Hs k Hk) as [->|G]; [unfold c0; ring|]. now rewrite (mv_b k Hk G i Hi).
    - transitivity (csum d (fun k => csum d (fun j => T j k * y k * b j i))).
      + apply csum_ext. intros k _. rewrite <- csum_mul_l. apply csum_ext. intros. ring.
      + rewrite csum_swap. apply csum_ext. intros j _. unfold mv. rewrite <- csum_mul_r. reflexivity.
  Qed.
  Lemma inner_combo2 y w : inner n (combo d y b) (combo d w b) = inner d y w.
  Proof.
    rewrite inner_combo. unfold inner at 2. apply csum_ext. intros k Hk. rewrite <- inner_conj, (inner_ortho n d b y k Ob Hk). ring.
  Qed.
  Lemma green_projected sign GE z a c g : (forall k, (k < d)%nat -> in_span n d b (mv n H (b k))) -> (0 < d)%nat ->
    green sign d T GE z (fun k => inner n (b k) a) (fun k => match k with O => c | _ => c0 end) g ->
    green sign n H GE z a (fun i => c * b O i) g.
  Proof.
    intros Inv Hd (y & Hy & ->). exists (combo d y b). split.
    - intros i Hi. unfold combo. rewrite shifted_csum.
      transitivity (csum d (fun k => shifted sign d T GE z y k * b k i)).
      + transitivity (csum d (fun k => (if String.eqb sign "+" then z - RtoC GE else z + RtoC GE) * (y k * b k i)) +
                      (if String.eqb sign "+" then c1 else - c1) * mv n H (combo d y b) i).
        * unfold shifted. unfold combo. rewrite (mv_csum n H d (fun k i => y k * b k i) i).
          rewrite <- csum_mul_l, <- csum_add. apply csum_ext. intros k _. cbv beta. assert (EM := mv_scale n H (y k) (b k) i). unfold vscale in EM. rewrite EM. destruct (String.eqb sign "+"); unfold c1; ring.
        * rewrite (mv_combo y (fun k Hk => or_intror (Inv k Hk)) i Hi). unfold combo. rewrite <- csum_mul_l, <- csum_add. apply csum_ext. intros k _.
          unfold shifted. destruct (String.eqb sign "+"); unfold c1; ring.
      + rewrite (csum_single d _ 0 Hd).
        * now rewrite (Hy 0%nat Hd).
        * intros k Hk Nk. rewrite (Hy k Hk). destruct k; [lia|]. unfold c0. ring.
    - rewrite inner_combo. unfold inner at 1. apply csum_ext. intros k _. rewrite inner_conj. ring.
  Qed.

  (** Moments. *)
  Section Moments.
    Variable v0 : vec.
    Hypothesis N0 : norm n v0 <> 0%R.
    Hypothesis B0 : veqn n (b O) (fun i => v0 i / RtoC (norm n v0)).
    Hypothesis Sp : forall k, (k < d)%nat -> in_span n (S k) (fun j => power n H j v0) (b k) /\ in_span n (S k) b (power n H k v0).
    Hypothesis Tri : forall i j, (i < d)%nat -> (j < d)%nat -> (S j < i)%nat -> T i j = c0.
    Lemma tpow_support k : forall i, (k < i)%nat -> (i < d)%nat -> power d T k e0 i = c0.
    Proof.
      induction k as [|k IH]; intros i Hi Hd; [destruct i; [lia|reflexivity]|]. cbn [power]. unfold mv. apply csum_zero. intros j Hj.
      destruct (Nat.lt_ge_cases k j).
      - rewrite (IH j) by assumption. unfold c0. ring.
      - rewrite Tri by lia. unfold c0. ring.
    Qed.
    Lemma v0_b : veqn n v0 (fun i => RtoC (norm n v0) * b O i).
    Proof. intros i Hi. rewrite B0 by assumption. field. now apply RtoC_neq0. Qed.
    Lemma power_coords k : (k < d)%nat -> veqn n (power n H k v0) (fun i => RtoC (norm n v0) * combo d (power d T k e0) b i).
    Proof.
      induction k as [|k IH]; intros Hk i Hi.
      - cbn [power]. rewrite (v0_b i Hi). f_equal. unfold combo. rewrite (csum_single d _ 0 Hk).
        + unfold e0, c1. ring.
        + intros j _ Hj. destruct j; [lia|]. unfold e0, c0. ring.
      - cbn [power]. rewrite (mv_ext n H _ _ (IH ltac:(lia)) i).
        change (fun i0 => RtoC (norm n v0) * combo d (power d T k e0) b i0) with (vscale (RtoC (norm n v0)) (combo d (power d T k e0) b)).
        rewrite mv_scale. f_equal. apply mv_combo; [|assumption]. intros j Hj.
        destruct (Nat.lt_ge_cases k j) as [L|L].
        + left. now apply tpow_support.
        + right. apply (krylov_step n H v0 d b Sp). lia.
    Qed.
    Lemma power_move nn A j k u v : hermitian nn A -> inner nn u (power nn A (j + k) v) = inner nn (power nn A j u) (power nn A k v).
    Proof.
      intros HA. revert k. induction j as [|j IH]; intros k; [reflexivity|].
      replace (S j + k)%nat with (j + S k)%nat by lia. rewrite IH. cbn [power]. now apply hermitian_move.
    Qed.
    Lemma moment p : (p <= 2 * d - 1)%nat -> (0 < d)%nat ->
      inner n v0 (power n H p v0) = RtoC (norm2 n v0) * power d T p e0 O.
    Proof.
      intros Hp Hd. set (c := RtoC (norm n v0)).
      assert (Cc : Cj c * c = RtoC (norm2 n v0)) by (unfold c; rewrite Cj_R, <- RtoC_mult, norm_sq; reflexivity).
      assert (E0 : forall w, inner d e0 w = w O).
      { intros w. unfold inner. rewrite (csum_single d _ 0 Hd).
        - unfold e0. rewrite Cj_1. unfold c1. ring.
        - intros i _ Hi. destruct i; [lia|]. unfold e0. rewrite Cj_0. unfold c0. ring. }
      rewrite <- E0.
      assert (P1 : forall j k, (j < d)%nat -> (k < d)%nat -> inner n (power n H j v0) (power n H k v0) = RtoC (norm2 n v0) * inner d (power d T j e0) (power d T k e0)).
      { intros j k Hj Hk. rewrite (inner_ext n _ _ _ _ (power_coords j Hj) (power_coords k Hk)).
        fold c. change (fun i => c * combo d (power d T j e0) b i) with (vscale c (combo d (power d T j e0) b)).
        change (fun i => c * combo d (power d T k e0) b i) with (vscale c (combo d (power d T k e0) b)).
        rewrite inner_scale_l, inner_scale_r, inner_combo2, <- Cc. ring. }
      destruct (Nat.le_gt_cases p (2 * d - 2)) as [L|L].
      - assert (exists j k, p = (j + k)%nat /\ (j < d)%nat /\ (k < d)%nat) as (j & k & -> & Hj & Hk).
        { exists (Nat.min p (d - 1)), (p - Nat.min p (d - 1))%nat. lia. }
        rewrite power_move, P1 by assumption. f_equal. symmetry. apply power_move. exact T_hermitian.
      - assert (p = ((d - 1) + S (d - 1))%nat) as -> by lia.
        rewrite power_move, (power_move d T) by (assumption || exact T_hermitian). cbn [power].
        assert (Hd1 : (d - 1 < d)%nat) by lia.
        rewrite (inner_ext n _ _ _ _ (power_coords (d - 1) Hd1) (fun i _ => mv_ext n H _ _ (power_coords (d - 1) Hd1) i)).
        set (t := power d T (d - 1) e0). fold c.
        change (fun i => c * combo d t b i) with (vscale c (combo d t b)).
        rewrite inner_scale_l.
        rewrite (inner_ext n (combo d t b) (combo d t b) (mv n H (vscale c (combo d t b))) (vscale c (mv n H (combo d t b))) (fun i _ => eq_refl) (fun i _ => mv_scale n H c (combo d t b) i)).
        rewrite inner_scale_r.
        transitivity (RtoC (norm2 n v0) * inner n (combo d t b) (mv n H (combo d t b))); [rewrite <- Cc; ring|]. f_equal.
        assert (E : veqn n (mv n H (combo d t b)) (fun i => csum d (fun k => t k * mv n H (b k) i))).
        { intros i _. unfold combo. rewrite (mv_csum n H d (fun k i => t k * b k i) i). apply csum_ext. intros k _. apply (mv_scale n H (t k) (b k) i). }
        rewrite (inner_ext n _ _ _ _ (fun i _ => eq_refl) E).
        rewrite (inner_csum_r n (combo d t b) d (fun k i => t k * mv n H (b k) i)).
        transitivity (csum d (fun k => t k * csum d (fun j => Cj (t j) * T j k))).
        + apply csum_ext. intros k Hk. change (fun i => t k * mv n H (b k) i) with (vscale (t k) (mv n H (b k))). rewrite inner_scale_r. f_equal.
          rewrite <- inner_conj, inner_combo, csum_conj. apply csum_ext. intros j Hj. rewrite Cj_mul, inner_conj. now rewrite T_entry.
        + unfold inner, mv. transitivity (csum d (fun k => csum d (fun j => Cj (t j) * T j k * t k))).
          * apply csum_ext. intros k _. rewrite <- csum_mul_l. apply csum_ext. intros. ring.
          * rewrite csum_swap. apply csum_ext. intros j _. rewrite <- csum_mul_l. apply csum_ext. intros. ring.
    Qed.
  End Moments.
End Projected.
