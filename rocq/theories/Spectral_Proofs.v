(** The spectral theorem for Hermitian matrices: an orthonormal basis of
    eigenvectors with real eigenvalues.  (What np.linalg.eigh and eigsh compute
    exists.)  Proof: the normalised powers H^k x0 have a limit point x with
    H^2 x = l x; then H x = +/- sqrt l x for x or (H + sqrt l) x. *)
From Coq Require Import Reals List Arith Lia Lra ConstructiveEpsilon.
From Coquelicot Require Import Coquelicot.
From Verif Require Import CVec LinSolve Lanczos_Model Lanczos_Spec Lanczos_Proofs Lanczos_Proofs2 GF_Model GF_Proofs4 GFAnalytic_Proofs Free_Proofs6.
Local Open Scope nat_scope.

(** ** Bolzano-Weierstrass in R^m *)
Lemma bw_1 (u : nat -> R) (M : R) : (forall k, Rabs (u k) <= M)%R ->
  exists (phi : nat -> nat) (l : R), (forall k, k <= phi k) /\ is_lim_seq (fun k => u (phi k)) l.
Proof.
  intros HM.
  destruct (Bolzano_Weierstrass u (fun x => (- M <= x <= M)%R)) as (l & Hl); [apply compact_P3| |].
  { intros k. specialize (HM k). apply Rabs_le_between in HM. exact HM. }
  assert (F : forall k, {p : nat | k <= p /\ (Rabs (u p - l) < / (INR k + 1))%R}).
  { intros k. apply constructive_indefinite_ground_description_nat.
    - intros p. destruct (le_dec k p); [|right; tauto]. destruct (Rlt_dec (Rabs (u p - l)) (/ (INR k + 1))); [left|right]; tauto.
    - assert (P : (0 < / (INR k + 1))%R) by (apply Rinv_0_lt_compat; pose proof (pos_INR k); lra).
      destruct (Hl (disc l (mkposreal _ P)) k) as (p & Hp & D).
      + exists (mkposreal _ P). intros x Hx. exact Hx.
      + exists p. split; [exact Hp|exact D]. }
  exists (fun k => proj1_sig (F k)), l. split; [intros k; exact (proj1 (proj2_sig (F k)))|].
  apply is_lim_seq_spec. intros eps. destruct (archimed_cor1 eps (cond_pos eps)) as (N & HN & HN0). exists N. intros k Hk.
  destruct (F k) as (p & Hp & D). cbn [proj1_sig]. eapply Rlt_trans; [exact D|]. eapply Rle_lt_trans; [|exact HN].
  apply Rinv_le_contravar; [now apply lt_0_INR|]. apply le_INR in Hk. lra.
Qed.
Lemma lim_sub (u : nat -> R) (phi : nat -> nat) (l : R) : (forall k, k <= phi k) -> is_lim_seq u l -> is_lim_seq (fun k => u (phi k)) l.
Proof.
  intros H L. apply (is_lim_seq_subseq u l phi); [|exact L]. intros P (N & HN). exists N. intros k Hk. apply HN. specialize (H k). lia.
Qed.
Lemma bw_m (m : nat) (x : nat -> nat -> R) (M : R) : (forall k i, (i < m)%nat -> (Rabs (x k i) <= M)%R) ->
  exists (phi : nat -> nat) (l : nat -> R), (forall k, k <= phi k) /\ forall i, (i < m)%nat -> is_lim_seq (fun k => x (phi k) i) (l i).
Proof.
  intros HM. induction m as [|m IH].
  - exists (fun k => k), (fun _ => 0%R). split; [lia|]. intros; lia.
  - destruct IH as (phi & l & Hp & Hl); [intros; apply HM; lia|].
    destruct (bw_1 (fun k => x (phi k) m) M) as (psi & l0 & Hs & L0); [intros; apply HM; lia|].
    exists (fun k => phi (psi k)), (fun i => if Nat.eqb i m then l0 else l i). split; [intros k; etransitivity; [apply (Hs k)|apply Hp]|].
    intros i Hi. destruct (Nat.eqb_spec i m) as [->|Ne]; [exact L0|].
    apply (lim_sub (fun k => x (phi k) i) psi (l i) Hs). apply Hl. lia.
Qed.

(** ** Limits of complex sequences *)
Definition clim (u : nat -> C) (l : C) : Prop := is_lim_seq (fun k => fst (u k)) (fst l) /\ is_lim_seq (fun k => snd (u k)) (snd l).
Lemma clim_const c : clim (fun _ => c) c.
Proof. split; apply is_lim_seq_const. Qed.
Lemma clim_add u v a b : clim u a -> clim v b -> clim (fun k => (u k + v k)%C) (a + b)%C.
Proof. intros [A1 A2] [B1 B2]. split; cbn [fst snd Cplus]; apply is_lim_seq_plus'; assumption. Qed.
Lemma clim_mul u v a b : clim u a -> clim v b -> clim (fun k => (u k * v k)%C) (a * b)%C.
Proof.
  intros [A1 A2] [B1 B2]. split; cbn [fst snd Cmult].
  - apply is_lim_seq_minus'; apply is_lim_seq_mult'; assumption.
  - apply is_lim_seq_plus'; apply is_lim_seq_mult'; assumption.
Qed.
Lemma clim_conj u a : clim u a -> clim (fun k => Cj (u k)) (Cj a).
Proof. intros [A B]. split; cbn [fst snd Cj]; [exact A|]. apply (is_lim_seq_opp (fun k => snd (u k)) (snd a)). exact B. Qed.
Lemma clim_csum n (u : nat -> nat -> C) (a : nat -> C) : (forall i, (i < n)%nat -> clim (fun k => u k i) (a i)) ->
  clim (fun k => csum n (u k)) (csum n a).
Proof.
  induction n as [|n IH]; intros H; [apply clim_const|]. cbn [csum].
  apply (clim_add (fun k => csum n (u k)) (fun k => u k n)); [apply IH; intros; apply H; lia|apply H; lia].
Qed.
Lemma clim_inner n (u v : nat -> vec) (a b : vec) : (forall i, (i < n)%nat -> clim (fun k => u k i) (a i)) ->
  (forall i, (i < n)%nat -> clim (fun k => v k i) (b i)) -> clim (fun k => inner n (u k) (v k)) (inner n a b).
Proof.
  intros Hu Hv. unfold inner. apply (clim_csum n (fun k i => (Cj (u k i) * v k i)%C) (fun i => (Cj (a i) * b i)%C)). intros i Hi.
  apply (clim_mul (fun k => Cj (u k i)) (fun k => v k i)); [apply clim_conj; now apply Hu|now apply Hv].
Qed.
Lemma clim_mv n H (v : nat -> vec) (b : vec) i : (forall i, (i < n)%nat -> clim (fun k => v k i) (b i)) -> clim (fun k => mv n H (v k) i) (mv n H b i).
Proof.
  intros Hv. unfold mv. apply (clim_csum n (fun k j => (H i j * v k j)%C) (fun j => (H i j * b j)%C)). intros j Hj.
  apply (clim_mul (fun _ => H i j) (fun k => v k j)); [apply clim_const|now apply Hv].
Qed.
Lemma clim_unique u a b : clim u a -> clim u b -> a = b.
Proof.
  intros [A1 A2] [B1 B2]. apply is_lim_seq_unique in A1, A2, B1, B2. apply C_eq.
  - rewrite A1 in B1. now injection B1.
  - rewrite A2 in B2. now injection B2.
Qed.
Lemma clim_ext u v a : (forall k, u k = v k) -> clim u a -> clim v a.
Proof. intros E [A B]. split; eapply is_lim_seq_ext; try eassumption; intros k; cbn; now rewrite E. Qed.
Local Open Scope C_scope.

(** ** A bound for H *)
Lemma row_bound n H x i : (i < n)%nat -> (Re (mv n H x i) * Re (mv n H x i) + Im (mv n H x i) * Im (mv n H x i) <= norm2 n (fun j => Cj (H i j)) * norm2 n x)%R.
Proof.
  intros Hi. assert (E : mv n H x i = inner n (fun j => Cj (H i j)) x).
  { unfold mv, inner. apply csum_ext. intros. now rewrite Cj_Cj. }
  rewrite E, <- Cmod_sq. assert (CS := cauchy_schwarz n (fun j => Cj (H i j)) x).
  replace (norm2 n (fun j => Cj (H i j)) * norm2 n x)%R with ((norm n (fun j => Cj (H i j)) * norm n x) * (norm n (fun j => Cj (H i j)) * norm n x))%R.
  - apply Rmult_le_compat; try assumption; apply Cmod_ge_0.
  - rewrite <- !norm_sq. ring.
Qed.
Lemma mv_bound n H x : (norm2 n (mv n H x) <= rsum n (fun i => norm2 n (fun j => Cj (H i j))) * norm2 n x)%R.
Proof.
  unfold norm2 at 1. assert (S : forall m f c, rsum m (fun i => (f i * c)%R) = (rsum m f * c)%R).
  { induction m as [|m IH]; intros f c; cbn; [ring|]. rewrite IH. ring. }
  rewrite <- S. apply rsum_le. intros i Hi. now apply row_bound.
Qed.

Section Power.
  Variables (n : nat) (H : cmat) (x0 : vec).
  Hypothesis HH : hermitian n H.
  Local Notation y k := (power n H k x0).
  Local Notation a k := (norm2 n (power n H k x0)).
  Hypothesis Pos : forall k, (0 < a k)%R.

  Lemma power_move j k : inner n (y j) (y (S k)) = inner n (y (S j)) (y k).
  Proof. cbn [power]. now apply hermitian_move. Qed.
  Lemma a_convex k : (a (S k) * a (S k) <= a k * a (S (S k)))%R.
  Proof.
    assert (E : inner n (y k) (y (S (S k))) = RtoC (a (S k))) by (rewrite (power_move k (S k)); apply inner_self).
    assert (CS := cauchy_schwarz n (y k) (y (S (S k)))). rewrite E in CS. rewrite Cmod_R, Rabs_right in CS by (apply Rle_ge, norm2_nonneg).
    replace (a k * a (S (S k)))%R with ((norm n (y k) * norm n (y (S (S k)))) * (norm n (y k) * norm n (y (S (S k)))))%R by (rewrite <- !norm_sq; ring).
    apply Rmult_le_compat; try assumption; apply norm2_nonneg.
  Qed.
  Definition ratio (k : nat) : R := (a (S k) / a k)%R.
  Lemma ratio_incr k : (ratio k <= ratio (S k))%R.
  Proof.
    unfold ratio. assert (P0 := Pos k). assert (P1 := Pos (S k)). assert (Cv := a_convex k).
    apply Rmult_le_reg_r with (a k * a (S k))%R; [now apply Rmult_lt_0_compat|].
    replace (a (S k) / a k * (a k * a (S k)))%R with (a (S k) * a (S k))%R by (field; lra).
    replace (a (S (S k)) / a (S k) * (a k * a (S k)))%R with (a k * a (S (S k)))%R by (field; lra). exact Cv.
  Qed.
  Lemma ratio_bound k : (ratio k <= rsum n (fun i => norm2 n (fun j => Cj (H i j))))%R.
  Proof.
    unfold ratio. assert (P0 := Pos k). assert (B := mv_bound n H (y k)). change (mv n H (power n H k x0)) with (power n H (S k) x0) in B.
    apply Rmult_le_reg_r with (a k); [exact P0|]. unfold Rdiv. rewrite Rmult_assoc, Rinv_l by lra. lra.
  Qed.
  Lemma ratio_pos k : (0 < ratio k)%R.
  Proof. unfold ratio, Rdiv. apply Rmult_lt_0_compat; [apply Pos|apply Rinv_0_lt_compat, Pos]. Qed.

  Lemma limit_vector : exists (x : vec) (l : R), (0 < l)%R /\ inner n x x = c1 /\ veqn n (mv n H (mv n H x)) (fun i => RtoC l * x i) /\
    forall w E, veqn n (mv n H w) (fun i => RtoC E * w i) -> inner n w x0 = c0 -> inner n w x = c0.
  Proof.
    destruct (ex_finite_lim_seq_incr ratio _ ratio_incr ratio_bound) as (l & Hl).
    assert (Hlpos : (0 < l)%R).
    { apply Rlt_le_trans with (ratio 0); [apply ratio_pos|].
      apply (is_lim_seq_incr_compare ratio l Hl ratio_incr). }
    set (x := fun k i => y k i / RtoC (norm n (y k))).
    assert (Nz : forall k, norm n (y k) <> 0%R).
    { intros k Z. assert (P := Pos k). rewrite <- norm_sq, Z in P. lra. }
    assert (U : forall k, inner n (x k) (x k) = c1) by (intros k; apply unit_ket; apply Nz).
    assert (Bd : forall k i, (i < n)%nat -> (Rabs (fst (x k i)) <= 1)%R /\ (Rabs (snd (x k i)) <= 1)%R).
    { intros k i Hi. assert (E := U k). rewrite inner_self in E. apply RtoC_inj' in E.
      assert (Q : (Re (x k i) * Re (x k i) + Im (x k i) * Im (x k i) <= 1)%R).
      { rewrite <- E. unfold norm2. clear - Hi. generalize (x k). intros v. induction n as [|m IH]; [lia|]. cbn [rsum].
        assert (G1 := Rle_0_sqr (Re (v m))). assert (G2 := Rle_0_sqr (Im (v m))). unfold Rsqr in *.
        assert (G3 := rsum_nonneg m (fun i => Re (v i) * Re (v i) + Im (v i) * Im (v i))%R). cbv beta in G3.
        destruct (Nat.eq_dec i m) as [->|Ne].
        - assert (0 <= rsum m (fun i => Re (v i) * Re (v i) + Im (v i) * Im (v i)))%R; [|lra]. apply G3. intros j _.
          assert (K1 := Rle_0_sqr (Re (v j))). assert (K2 := Rle_0_sqr (Im (v j))). unfold Rsqr in *. lra.
        - assert (Q := IH ltac:(lia)). lra. }
      assert (G1 := Rle_0_sqr (Re (x k i))). assert (G2 := Rle_0_sqr (Im (x k i))). unfold Rsqr in *. unfold Re, Im in *.
      split; apply Rabs_le; split; nra. }
    destruct (bw_m (n + n) (fun k i => if Nat.ltb i n then fst (x k i) else snd (x k (i - n)%nat)) 1) as (phi & lm & Hphi & Hlm).
    { intros k i Hi. cbv beta. destruct (Nat.ltb_spec i n); apply Bd; lia. }
    set (v := fun i => (lm i, lm (n + i)%nat) : C).
    assert (L : forall i, (i < n)%nat -> clim (fun k => x (phi k) i) (v i)).
    { intros i Hi. split; cbn [v fst snd].
      - eapply is_lim_seq_ext; [|apply (Hlm i); lia]. intros k. cbv beta. destruct (Nat.ltb_spec i n); [reflexivity|lia].
      - eapply is_lim_seq_ext; [|apply (Hlm (n + i)%nat); lia]. intros k. cbv beta. destruct (Nat.ltb_spec (n + i) n); [lia|].
        now replace (n + i - n)%nat with i by lia. }
    exists v, l. split; [exact Hlpos|]. split.
    { apply (clim_unique (fun k => inner n (x (phi k)) (x (phi k)))); [now apply clim_inner|].
      eapply clim_ext; [intros k; symmetry; apply U|apply clim_const]. }
    assert (Lw : forall i, (i < n)%nat -> clim (fun k => mv n H (mv n H (x (phi k))) i + - RtoC l * x (phi k) i) (mv n H (mv n H v) i + - RtoC l * v i)).
    { intros i Hi. apply (clim_add (fun k => mv n H (mv n H (x (phi k))) i) (fun k => - RtoC l * x (phi k) i)).
      - apply (clim_mv n H (fun k => mv n H (x (phi k))) (mv n H v) i). intros j Hj. now apply (clim_mv n H (fun k => x (phi k)) v j).
      - apply (clim_mul (fun _ => - RtoC l) (fun k => x (phi k) i)); [apply clim_const|now apply L]. }
    split.
    - set (w := fun k i => mv n H (mv n H (x k)) i + - RtoC l * x k i).
      set (w0 := fun i => mv n H (mv n H v) i + - RtoC l * v i).
      assert (Z : inner n w0 w0 = c0).
      { apply (clim_unique (fun k => inner n (w (phi k)) (w (phi k)))); [now apply clim_inner|].
        assert (E : forall k, inner n (w k) (w k) = RtoC (ratio (S k) * ratio k - 2 * l * ratio k + l * l)).
        { intros k. assert (P0 := Pos k). assert (P1 := Pos (S k)).
          set (s := norm n (y k)). assert (Hs := Nz k). fold s in Hs. assert (Cs : RtoC s <> c0) by now apply RtoC_neq0.
          assert (Ew : veqn n (w k) (vsub (vscale (/ RtoC s) (y (S (S k)))) (vscale (RtoC l / RtoC s) (y k)))).
          { intros i Hi. unfold w, vsub, vscale, x. fold s. cbn [power].
            rewrite (mv_ext n H (mv n H (fun i0 => y k i0 / RtoC s)) (vscale (/ RtoC s) (mv n H (y k)))).
            - rewrite mv_scale. unfold Cdiv. ring.
            - intros j Hj. rewrite (mv_ext n H (fun i0 => y k i0 / RtoC s) (vscale (/ RtoC s) (y k))), mv_scale; [reflexivity|].
              intros q _. unfold vscale, Cdiv. ring. }
          rewrite (inner_ext n _ _ _ _ Ew Ew), inner_sub_r, !inner_sub_l, !inner_scale_r, !inner_scale_l.
          assert (M1 : inner n (y k) (y (S (S k))) = RtoC (a (S k))) by (rewrite (power_move k (S k)); apply inner_self).
          assert (M2 : inner n (y (S (S k))) (y k) = RtoC (a (S k))) by (rewrite <- inner_conj, M1; apply Cj_R).
          rewrite M1, M2, !inner_self. rewrite Cj_div, Cj_inv, !Cj_R.
          assert (Es : RtoC s * RtoC s = RtoC (a k)) by (rewrite <- RtoC_mult; unfold s; now rewrite norm_sq).
          unfold ratio. set (a0 := a k) in *. set (a1 := a (S k)) in *. set (a2 := a (S (S k))) in *.
          assert (Ca : RtoC a0 <> c0) by (apply RtoC_neq0; lra). assert (Ca1 : RtoC a1 <> c0) by (apply RtoC_neq0; lra).
          rewrite RtoC_plus, RtoC_minus, !RtoC_mult, !RtoC_div by lra.
          transitivity ((RtoC a2 - RtoC l * RtoC a1 - RtoC l * RtoC a1 + RtoC l * RtoC l * RtoC a0) / (RtoC s * RtoC s)); [field; exact Cs|].
          rewrite Es. replace (RtoC 2) with (RtoC 1 + RtoC 1) by (rewrite <- RtoC_plus; f_equal; ring). field. split; [exact Ca|exact Ca1]. }
        eapply clim_ext; [intros k; symmetry; apply E|].
        assert (Ll : is_lim_seq (fun k => ratio (S (phi k)) * ratio (phi k) - 2 * l * ratio (phi k) + l * l)%R (l * l - 2 * l * l + l * l)%R).
        { assert (L1 := lim_sub ratio phi l Hphi Hl). assert (L2 := lim_sub ratio (fun k => S (phi k)) l (fun k => le_S _ _ (Hphi k)) Hl).
          apply is_lim_seq_plus'; [|apply is_lim_seq_const]. apply is_lim_seq_minus'.
          - now apply is_lim_seq_mult'.
          - apply is_lim_seq_mult'; [apply is_lim_seq_const|exact L1]. }
        replace (l * l - 2 * l * l + l * l)%R with 0%R in Ll by ring. split; cbn [fst snd RtoC c0]; [exact Ll|apply is_lim_seq_const]. }
      rewrite inner_self in Z. apply RtoC_inj' in Z. intros i Hi. assert (Zi := norm2_zero n w0 Z i Hi). unfold w0, vzero in Zi.
      transitivity (mv n H (mv n H v) i + - RtoC l * v i + RtoC l * v i); [ring|]. rewrite Zi. unfold c0. ring.
    - intros e E He Oe.
      assert (Op : forall k, inner n e (y k) = c0).
      { induction k as [|k IH]; [exact Oe|]. cbn [power]. rewrite hermitian_move by exact HH.
        rewrite (inner_ext n _ (vscale (RtoC E) e) _ (y k) He (fun i _ => eq_refl)), inner_scale_l, IH. unfold c0. ring. }
      apply (clim_unique (fun k => inner n e (x (phi k)))); [apply clim_inner; [intros; apply clim_const|exact L]|].
      eapply clim_ext; [intros k; symmetry|apply clim_const].
      assert (Ex : veqn n (x (phi k)) (vscale (/ RtoC (norm n (y (phi k)))) (y (phi k)))) by (intros i _; unfold x, vscale, Cdiv; ring).
      rewrite (inner_ext n _ _ _ _ (fun i _ => eq_refl) Ex), inner_scale_r, Op. unfold c0. ring.
  Qed.
End Power.

(** ** An eigenvector orthogonal to given ones *)
Definition unit_at (j : nat) : vec := fun i => if Nat.eqb i j then c1 else c0.
Lemma inner_unit n v j : (j < n)%nat -> inner n (unit_at j) v = v j.
Proof.
  intros Hj. unfold inner. rewrite (csum_single n _ j Hj).
  - unfold unit_at. rewrite Nat.eqb_refl, Cj_1. unfold c1. ring.
  - intros i _ Hi. unfold unit_at. destruct (Nat.eqb_spec i j); [contradiction|]. rewrite Cj_0. unfold c0. ring.
Qed.
Lemma unit_orthonormal n : orthonormal n n unit_at.
Proof.
  intros i j Hi Hj. rewrite inner_unit by assumption. unfold unit_at. reflexivity.
Qed.
Lemma unit_span n v : in_span n n unit_at v.
Proof.
  exists v. intros i Hi. symmetry. rewrite (csum_single n _ i Hi).
  - unfold unit_at. rewrite Nat.eqb_refl. unfold c1. ring.
  - intros k _ Hk. unfold unit_at. destruct (Nat.eqb_spec i k); [congruence|]. unfold c0. ring.
Qed.
(** Fewer than n orthonormal vectors leave a non-zero vector orthogonal to them. *)
Lemma room n d b : orthonormal n d b -> (d < n)%nat -> exists x, norm n x <> 0%R /\ forall k, (k < d)%nat -> inner n (b k) x = c0.
Proof.
  intros O Hd.
  set (r := fun j => vsub (unit_at j) (combo d (fun k => inner n (b k) (unit_at j)) b)).
  assert (Or : forall j k, (k < d)%nat -> inner n (b k) (r j) = c0).
  { intros j k Hk. unfold r. rewrite inner_sub_r, inner_ortho by assumption. unfold c0. ring. }
  assert (Dec : forall m, (m <= n)%nat -> (exists j, (j < m)%nat /\ norm n (r j) <> 0%R) \/ forall j, (j < m)%nat -> norm n (r j) = 0%R).
  { induction m as [|m IH]; intros Hm; [right; intros; lia|]. destruct (IH ltac:(lia)) as [(j & Hj & Hn)|A]; [left; exists j; split; [lia|exact Hn]|].
    destruct (Req_EM_T (norm n (r m)) 0) as [Z|Z]; [right|left; exists m; split; [lia|exact Z]].
    intros j Hj. destruct (Nat.eq_dec j m) as [->|]; [exact Z|apply A; lia]. }
  destruct (Dec n (le_n n)) as [(j & Hj & Hn)|A]; [exists (r j); split; [exact Hn|apply Or]|exfalso].
  assert (B := span_bound n n unit_at d b (unit_orthonormal n)). enough (n <= d)%nat by lia. apply B. intros j Hj.
  exists (fun k => inner n (b k) (unit_at j)). intros i Hi. specialize (A j Hj). apply norm_0_iff in A. specialize (A i Hi). unfold r, vsub, combo, vzero in A.
  transitivity (unit_at j i - csum d (fun k => inner n (b k) (unit_at j) * b k i) + csum d (fun k => inner n (b k) (unit_at j) * b k i)); [ring|].
  rewrite A. unfold c0. ring.
Qed.
Lemma normalise n x : norm n x <> 0%R -> exists u c, inner n u u = c1 /\ u = vscale c x.
Proof.
  intros Hx. exists (vscale (/ RtoC (norm n x)) x), (/ RtoC (norm n x)). split; [|reflexivity].
  rewrite <- (unit_ket n x Hx). apply inner_ext; intros i _; unfold vscale, Cdiv; ring.
Qed.
Definition eigen (n : nat) (H : cmat) (E : R) (x : vec) : Prop := veqn n (mv n H x) (fun i => RtoC E * x i).
Lemma eigen_scale n H E c x : eigen n H E x -> eigen n H E (vscale c x).
Proof. intros He i Hi. rewrite mv_scale, (He i Hi). unfold vscale. ring. Qed.
Lemma eigen_next n H d b (E : nat -> R) : hermitian n H -> orthonormal n d b -> (forall k, (k < d)%nat -> eigen n H (E k) (b k)) -> (d < n)%nat ->
  exists x e, inner n x x = c1 /\ eigen n H e x /\ forall k, (k < d)%nat -> inner n (b k) x = c0.
Proof.
  intros HH O Eb Hd. destruct (room n d b O Hd) as (x0 & N0 & O0).
  (* either some power vanishes, or none does *)
  assert (Cases : (exists z, norm n z <> 0%R /\ veqn n (mv n H z) vzero /\ forall k, (k < d)%nat -> inner n (b k) z = c0) \/
                  (forall k, (k < d)%nat -> True) /\ exists x l, (0 < l)%R /\ inner n x x = c1 /\ veqn n (mv n H (mv n H x)) (fun i => RtoC l * x i) /\
                    forall k, (k < d)%nat -> inner n (b k) x = c0).
  { assert (Op : forall j k, (k < d)%nat -> inner n (b k) (power n H j x0) = c0).
    { induction j as [|j IH]; intros k Hk; [now apply O0|]. cbn [power]. rewrite hermitian_move by exact HH.
      rewrite (inner_ext n _ (vscale (RtoC (E k)) (b k)) _ _ (Eb k Hk) (fun i _ => eq_refl)), inner_scale_l, IH by assumption. unfold c0. ring. }
    destruct (Req_EM_T (norm2 n (power n H 1 x0)) 0) as [Z|Z].
    - left. exists x0. split; [exact N0|]. split; [|exact O0]. cbn [power] in Z. now apply norm2_zero.
    - right. split; [trivial|].
      assert (Pos : forall k, (0 < norm2 n (power n H k x0))%R).
      { assert (Step : forall k, (0 < norm2 n (power n H k x0))%R /\ (0 < norm2 n (power n H (S k) x0))%R).
        { induction k as [|k [P0 P1]].
          - split; [|assert (G := norm2_nonneg n (power n H 1 x0)); lra]. cbn [power]. assert (G := norm2_nonneg n x0).
            assert (norm2 n x0 <> 0%R); [|lra]. intros E0. apply N0. apply norm_0_iff. now apply norm2_zero.
          - split; [exact P1|]. assert (Cv := a_convex n H x0 HH k). assert (G := norm2_nonneg n (power n H (S (S k)) x0)). nra. }
        intros k. apply Step. }
      destruct (limit_vector n H x0 HH Pos) as (x & l & Hl & U & Ex & Ox). exists x, l. split; [exact Hl|]. split; [exact U|]. split; [exact Ex|].
      intros k Hk. apply (Ox (b k) (E k) (Eb k Hk)). now apply O0. }
  destruct Cases as [(z & Nz & Ez & Oz)|(_ & x & l & Hl & U & Ex & Ox)].
  - destruct (normalise n z Nz) as (u & c & Uu & ->). exists (vscale c z), 0%R. split; [exact Uu|]. split.
    + apply eigen_scale. intros i Hi. rewrite (Ez i Hi). unfold vzero, c0. ring.
    + intros k Hk. rewrite inner_scale_r, Oz by assumption. unfold c0. ring.
  - set (s := sqrt l). assert (Es : RtoC s * RtoC s = RtoC l) by (apply RtoC_sqrt_sq; lra).
    set (w := vadd (mv n H x) (vscale (RtoC s) x)).
    assert (Ew : veqn n (mv n H w) (fun i => RtoC s * w i)).
    { intros i Hi. unfold w. rewrite mv_add, mv_scale, (Ex i Hi). unfold vadd, vscale. rewrite <- Es. ring. }
    destruct (Req_EM_T (norm n w) 0) as [Z|Z].
    + exists x, (- s)%R. split; [exact U|]. split; [|exact Ox]. intros i Hi. apply norm_0_iff in Z. specialize (Z i Hi). unfold w, vadd, vscale, vzero in Z.
      transitivity (mv n H x i + RtoC s * x i - RtoC s * x i); [ring|]. rewrite Z, RtoC_opp. unfold c0. ring.
    + destruct (normalise n w Z) as (u & c & Uu & ->). exists (vscale c w), s. split; [exact Uu|]. split; [now apply eigen_scale|].
      intros k Hk. rewrite inner_scale_r. unfold w. rewrite inner_add_r, inner_scale_r, Ox by assumption.
      rewrite hermitian_move by exact HH.
      rewrite (inner_ext n _ (vscale (RtoC (E k)) (b k)) _ _ (Eb k Hk) (fun i _ => eq_refl)), inner_scale_l, Ox by assumption. unfold c0. ring.
Qed.
Theorem spectral n H : hermitian n H -> exists (E : nat -> R) (e : nat -> vec),
  orthonormal n n e /\ (forall k, (k < n)%nat -> eigen n H (E k) (e k)) /\ forall v, in_span n n e v.
Proof.
  intros HH.
  assert (St : forall d, (d <= n)%nat -> exists (E : nat -> R) e, orthonormal n d e /\ forall k, (k < d)%nat -> eigen n H (E k) (e k)).
  { induction d as [|d IH]; intros Hd.
    - exists (fun _ => 0%R), (fun _ => vzero). split; [intros i j Hi; lia|intros; lia].
    - destruct (IH ltac:(lia)) as (E & e & O & Ee). destruct (eigen_next n H d e E HH O Ee ltac:(lia)) as (x & ex & U & Ex & Ox).
      exists (fun k => if Nat.eqb k d then ex else E k), (fun k => if Nat.eqb k d then x else e k). split.
      + intros i j Hi Hj. destruct (Nat.eqb_spec i d) as [->|Ni], (Nat.eqb_spec j d) as [->|Nj].
        * now rewrite Nat.eqb_refl.
        * destruct (Nat.eqb_spec d j); [congruence|]. rewrite <- inner_conj, Ox by lia. apply Cj_0.
        * destruct (Nat.eqb_spec i d); [congruence|]. apply Ox. lia.
        * apply O; lia.
      + intros k Hk. destruct (Nat.eqb_spec k d); [exact Ex|apply Ee; lia]. }
  destruct (St n (le_n n)) as (E & e & O & Ee). exists E, e. split; [exact O|]. split; [exact Ee|]. intros v.
  apply (span_complete n n e unit_at v O); [intros; apply unit_span|apply unit_span].
Qed.
Print Assumptions spectral.
