(** Lemmas for C55. *)
From Coq Require Import Reals String List ZArith Bool Arith Lia Lra.
From Coquelicot Require Import Complex.
From Verif Require Import Py CVec LinSolve Lanczos_Model Lanczos_Spec Lanczos_Proofs Lanczos_Proofs2
  GF_Model GF_Spec GF_Proofs2 GF_Proofs4 GF_Proofs5 GFAnalytic_Spec.
Import ListNotations.
Local Open Scope nat_scope.
Local Open Scope C_scope.

(** ** Cauchy-Schwarz *)
Lemma Cmod_sq z : (Cmod z * Cmod z = Re z * Re z + Im z * Im z)%R.
Proof. unfold Cmod. rewrite sqrt_sqrt; [unfold Re, Im; ring|]. assert (G1 := Rle_0_sqr (fst z)). assert (G2 := Rle_0_sqr (snd z)). unfold Rsqr in *. cbn. lra. Qed.
Lemma cauchy_schwarz n u v : (Cmod (inner n u v) <= norm n u * norm n v)%R.
Proof.
  set (p := inner n u v). apply Rsqr_incr_0_var; [|apply Rmult_le_pos; apply norm_nonneg]. unfold Rsqr.
  rewrite Cmod_sq. replace (norm n u * norm n v * (norm n u * norm n v))%R with (norm2 n u * norm2 n v)%R by (rewrite <- !norm_sq; ring).
  set (P := (Re p * Re p + Im p * Im p)%R).
  (* |  |u|^2 v - <u|v> u |^2 = |u|^2 (|u|^2 |v|^2 - |<u|v>|^2) *)
  set (w := vsub (vscale (RtoC (norm2 n u)) v) (vscale p u)).
  assert (E : RtoC (norm2 n w) = RtoC (norm2 n u * (norm2 n u * norm2 n v - P))).
  { rewrite <- inner_self. unfold w. rewrite inner_sub_r, !inner_sub_l, !inner_scale_r, !inner_scale_l, !inner_self, Cj_R.
    rewrite <- (inner_conj n u v). fold p. rewrite !RtoC_mult, RtoC_minus, RtoC_mult. unfold P. rewrite <- Cmul_j. ring. }
  apply RtoC_inj' in E. assert (G := norm2_nonneg n w). assert (Gu := norm2_nonneg n u).
  destruct (Req_dec (norm2 n u) 0) as [Z|Z].
  - assert (p = c0) as Hp. { unfold p. rewrite (inner_ext n u vzero v v (norm2_zero n u Z) (fun i _ => eq_refl)). apply inner_zero_l. }
    unfold P. rewrite Hp. cbn. rewrite Z. lra.
  - assert (0 < norm2 n u)%R by lra. rewrite E in G. apply Rmult_le_reg_l with (norm2 n u); [assumption|]. lra.
Qed.

(** ** The operator D = +/- (H - GE) *)
Section D.
  Variables (sign : string) (n : nat) (H : cmat) (GE : R).
  Notation D := (excitation sign n H GE).
  Notation Dk := (excited sign n H GE).
  Lemma shifted_D z x i : shifted sign n H GE z x i = z * x i - D x i.
  Proof. unfold shifted, excitation. destruct (String.eqb sign "+"); ring. Qed.
  Lemma D_ext x y : veqn n x y -> veqn n (D x) (D y).
  Proof. intros E i Hi. unfold excitation. rewrite (mv_ext n H x y E i), (E i Hi). reflexivity. Qed.
  Lemma Dk_ext k x y : veqn n x y -> veqn n (Dk k x) (Dk k y).
  Proof. intros E. induction k as [|k IH]; [exact E|]. cbn [excited]. now apply D_ext. Qed.
  Lemma D_scale c x i : D (fun j => c * x j) i = c * D x i.
  Proof. unfold excitation. assert (E := mv_scale n H c x i). unfold vscale in E. rewrite E. destruct (String.eqb sign "+"); ring. Qed.
  Lemma D_sub x y i : D (fun j => x j - y j) i = D x i - D y i.
  Proof.
    unfold excitation. assert (E : mv n H (fun j => x j - y j) i = mv n H x i - mv n H y i).
    { unfold mv. rewrite <- csum_sub. apply csum_ext. intros. ring. }
    rewrite E. destruct (String.eqb sign "+"); ring.
  Qed.
  Lemma Dk_scale k c x : veqn n (Dk k (fun j => c * x j)) (fun j => c * Dk k x j).
  Proof.
    induction k as [|k IH]; intros i Hi; [reflexivity|]. cbn [excited]. rewrite (D_ext _ _ IH i Hi). apply D_scale.
  Qed.
  Lemma Dk_S k x : Dk (S k) x = Dk k (D x).
  Proof. induction k as [|k IH]; [reflexivity|]. cbn [excited] in *. now rewrite IH. Qed.
  Hypothesis HH : hermitian n H.
  Lemma D_move u v : inner n u (D v) = inner n (D u) v.
  Proof.
    assert (EH := hermitian_move n H u v HH).
    assert (C : forall w, veqn n (D w) (vscale (if String.eqb sign "+" then - c1 else c1) (vsub (mv n H w) (vscale (RtoC GE) w)))).
    { intros w i _. unfold excitation, vscale, vsub. destruct (String.eqb sign "+"); unfold c1; ring. }
    rewrite (inner_ext n u u (D v) _ (fun i _ => eq_refl) (C v)), (inner_ext n (D u) _ v v (C u) (fun i _ => eq_refl)).
    rewrite inner_scale_r, inner_scale_l, inner_sub_r, inner_sub_l, inner_scale_r, inner_scale_l, EH, Cj_R.
    destruct (String.eqb sign "+"); [rewrite Cj_opp|]; rewrite Cj_1; ring.
  Qed.
  Lemma Dk_move p q u v : inner n u (Dk (p + q) v) = inner n (Dk p u) (Dk q v).
  Proof.
    revert q. induction p as [|p IH]; intros q; [reflexivity|]. replace (S p + q)%nat with (p + S q)%nat by lia. rewrite IH. cbn [excited]. apply D_move.
  Qed.
  (** |(z - D) x| >= |Im z| |x| *)
  Lemma resolvent_bound omega eta x y : veqn n (shifted sign n H GE (frequency omega eta) x) y -> (Rabs eta * norm n x <= norm n y)%R.
  Proof.
    intros E. assert (S := shifted_inner sign n H GE omega eta x HH).
    rewrite (inner_ext n x x _ y (fun i _ => eq_refl) E) in S.
    assert (CS := cauchy_schwarz n x y).
    assert (I : (Rabs eta * norm2 n x <= Cmod (inner n x y))%R).
    { rewrite <- (Rabs_pos_eq (norm2 n x)) by apply norm2_nonneg. rewrite <- Rabs_mult, <- S. apply (Rle_trans _ (Cmod (inner n x y))); [|lra].
      destruct (inner n x y) as [p q]. unfold Im. cbn [snd]. apply (Rle_trans _ (Rmax (Rabs p) (Rabs q))); [apply Rmax_r|exact (Rmax_Cmod (p, q))]. }
    rewrite <- norm_sq in I. assert (G := norm_nonneg n x). assert (Gy := norm_nonneg n y).
    destruct (Req_dec (norm n x) 0) as [Z|Z]; [rewrite Z; lra|]. apply Rmult_le_reg_l with (norm n x); [lra|]. lra.
  Qed.
  (** (z - D) x = b  ->  (z - D) D^k x = D^k b *)
  Lemma shifted_Dk z x b k : veqn n (shifted sign n H GE z x) b -> veqn n (shifted sign n H GE z (Dk k x)) (Dk k b).
  Proof.
    intros E. induction k as [|k IH]; [exact E|]. intros i Hi. cbn [excited]. rewrite shifted_D, <- D_scale, <- D_sub.
    apply D_ext; [|exact Hi]. intros j Hj. rewrite <- (IH j Hj), shifted_D. reflexivity.
  Qed.
  Lemma expansion_S z a b m : expansion sign n H GE z a b (S m) = z * expansion sign n H GE z a b m + inner n a (Dk m b).
  Proof.
    unfold expansion. cbn [csum]. f_equal.
    - rewrite <- csum_mul_l. apply csum_ext. intros k Hk. replace (S m - 1 - k)%nat with (S (m - 1 - k)) by lia. cbn [cpow]. ring.
    - replace (S m - 1 - m)%nat with 0%nat by lia. cbn [cpow]. unfold c1. ring.
  Qed.
  Lemma expansion_exact z a b x m : veqn n (shifted sign n H GE z x) b ->
    cpow z m * inner n a x = expansion sign n H GE z a b m + inner n a (Dk m x).
  Proof.
    intros E. induction m as [|m IH].
    - unfold expansion. cbn. unfold c0, c1. ring.
    - rewrite expansion_S. cbn [cpow]. transitivity (z * (cpow z m * inner n a x)); [ring|]. rewrite IH.
      assert (F : z * inner n a (Dk m x) = inner n a (Dk m b) + inner n a (Dk (S m) x)).
      { rewrite <- inner_scale_r, <- inner_add_r. apply inner_ext; [intros i _; reflexivity|]. intros i Hi. unfold vscale, vadd.
        rewrite <- (shifted_Dk z x b m E i Hi), shifted_D. cbn [excited]. ring. }
      transitivity (z * expansion sign n H GE z a b m + z * inner n a (Dk m x)); [ring|]. rewrite F. ring.
  Qed.
  Lemma remainder_bound omega eta a b x p q : eta <> 0%R -> veqn n (shifted sign n H GE (frequency omega eta) x) b ->
    (Cmod (inner n a (Dk (p + q) x)) <= norm n (Dk p a) * norm n (Dk q b) / Rabs eta)%R.
  Proof.
    intros He E. rewrite Dk_move. assert (Ha := Rabs_pos_lt eta He).
    assert (B := resolvent_bound omega eta (Dk q x) (Dk q b) (shifted_Dk _ x b q E)).
    assert (CS := cauchy_schwarz n (Dk p a) (Dk q x)). assert (G := norm_nonneg n (Dk p a)).
    apply (Rle_trans _ _ _ CS). unfold Rdiv. rewrite Rmult_assoc. apply Rmult_le_compat_l; [assumption|].
    apply Rmult_le_reg_l with (Rabs eta); [assumption|]. replace (Rabs eta * (norm n (Dk q b) * / Rabs eta))%R with (norm n (Dk q b)) by (field; lra). assumption.
  Qed.
  Lemma green_expansion omega eta a b g p q : eta <> 0%R -> green sign n H GE (frequency omega eta) a b g ->
    (Cmod (cpow (frequency omega eta) (p + q) * g - expansion sign n H GE (frequency omega eta) a b (p + q))%C <=
     norm n (Dk p a) * norm n (Dk q b) / Rabs eta)%R.
  Proof.
    intros He (x & Hx & ->). rewrite (expansion_exact _ a b x (p + q) Hx).
    match goal with |- (Cmod ?e <= _)%R => replace e with (inner n a (Dk (p + q) x)) by ring end.
    exact (remainder_bound omega eta a b x p q He Hx).
  Qed.
End D.

(** G(z)* = G(z* ) with the states swapped. *)
Lemma green_conj sign n H GE omega eta a b g : hermitian n H -> eta <> 0%R ->
  green sign n H GE (frequency omega eta) a b g -> green sign n H GE (frequency omega (- eta)) b a (Cj g).
Proof.
  intros HH He (x & Hx & ->).
  assert (NS : nonsingular n (gf_matrix sign (frequency omega (- eta)) GE H)) by (apply nonsingular_invertible; apply hermitian_invertible; [assumption|lra]).
  destruct (solve_nonsingular n _ a NS) as (y & Ey). apply solve_ok in Ey. destruct Ey as [Ey _]. apply solves_shifted in Ey. exists y. split; [exact Ey|].
  rewrite inner_conj. rewrite <- (inner_ext n x x _ a (fun i _ => eq_refl) Ey), <- (inner_ext n _ b y y Hx (fun i _ => eq_refl)).
  assert (F : forall z u, veqn n (shifted sign n H GE z u) (vsub (vscale z u) (excitation sign n H GE u))) by (intros z u i _; apply shifted_D).
  rewrite (inner_ext n x x _ _ (fun i _ => eq_refl) (F _ y)), (inner_ext n _ _ y y (F _ x) (fun i _ => eq_refl)).
  rewrite inner_sub_r, inner_sub_l, inner_scale_l, inner_scale_r, (D_move sign n H GE HH x y). reflexivity.
Qed.
(** The sign "+" at z is minus the sign "-" at -z. *)
Lemma green_sign n H GE omega eta a b g : green "+" n H GE (frequency omega eta) a b g <-> green "-" n H GE (frequency (- omega) (- eta)) a b (- g).
Proof.
  assert (F : forall x i, shifted "-" n H GE (frequency (- omega) (- eta)) (fun j => - x j) i = shifted "+" n H GE (frequency omega eta) x i).
  { intros x i. unfold shifted. cbn [String.eqb Ascii.eqb Bool.eqb]. assert (E : mv n H (fun j => - x j) i = - mv n H x i).
    { unfold mv. rewrite <- csum_opp. apply csum_ext. intros. ring. }
    rewrite E. replace (frequency (- omega) (- eta)) with (- frequency omega eta) by (apply C_eq; cbn; ring). ring. }
  assert (O : forall x, inner n a (fun j => - x j) = - inner n a x) by (intros x; unfold inner; rewrite <- csum_opp; apply csum_ext; intros; ring).
  split; intros (x & Hx & E).
  - exists (fun j => - x j). split; [intros i Hi; rewrite F; now apply Hx|]. rewrite O, E. reflexivity.
  - exists (fun j => - x j). split.
    + intros i Hi. rewrite <- F. rewrite <- (Hx i Hi). unfold shifted. rewrite (mv_ext n H (fun j => - - x j) x); [|intros j _; ring]. cbn. ring.
    + rewrite O, <- E. ring.
Qed.
