(** Proofs for C58. *)
From Coq Require Import Reals Qreals String List ZArith Bool Arith Lia Lra.
From Coquelicot Require Import Coquelicot.
From Verif Require Import Py CVec LinSolve Lanczos_Model Lanczos_Spec Lanczos_Proofs2 GF_Model GF_Spec GF_Proofs GF_Proofs2 GFAnalytic_Proofs
  Free_Spec Spectral_Proofs Spectrum_Spec.
Import ListNotations.
Local Open Scope nat_scope.
Local Open Scope C_scope.

Lemma eigenbasis_exists n H : hermitian n H -> exists E e, eigenbasis n H E e.
Proof.
  intros HH. destruct (Spectral_Proofs.spectral n H HH) as (E & e & O & Ei & Sp). exists E, e. split; [exact O|]. split; [exact Ei|].
  intros v. destruct (Sp v) as (c & Hc). intros i Hi. rewrite (Hc i Hi). apply csum_ext. intros k Hk. f_equal.
  rewrite (inner_ext n (e k) (e k) v (combo n c e) (fun i _ => eq_refl) Hc). symmetry. now apply inner_ortho.
Qed.
Lemma parseval n H E e u v : eigenbasis n H E e -> inner n u v = csum n (fun k => inner n u (e k) * inner n (e k) v).
Proof.
  intros (O & _ & X). rewrite (inner_ext n u u v (combo n (fun k => inner n (e k) v) e) (fun i _ => eq_refl) (X v)).
  rewrite (inner_combo n n (fun k => inner n (e k) v) e u). apply csum_ext. intros. ring.
Qed.
Lemma inner_swap n u v : inner n v u = Cj (inner n u v). Proof. now rewrite inner_conj. Qed.
Lemma parseval2 n H E e v : eigenbasis n H E e -> norm2 n v = rsum n (fun k => Re (inner n (e k) v) * Re (inner n (e k) v) + Im (inner n (e k) v) * Im (inner n (e k) v))%R.
Proof.
  intros B. apply RtoC_inj. rewrite <- inner_self, (parseval n H E e v v B), <- csum_R. apply csum_ext. intros k Hk.
  rewrite (inner_swap n (e k) v). unfold Cj. apply injective_projections; cbn; unfold Re, Im; ring.
Qed.

(** The Lehmann representation. *)
Lemma green_eigenbasis sign n H GE omega eta a b E e : eta <> 0%R -> eigenbasis n H E e ->
  green sign n H GE (frequency omega eta) a b
    (csum n (fun k => inner n a (e k) * inner n (e k) b / shifted_value sign (E k) GE (frequency omega eta))).
Proof.
  intros He (O & Ei & X).
  destruct (green_lehmann sign n H GE omega eta a b n (fun k => inner n (e k) b) E e He Ei (X b)) as (x & Hx & Eg).
  exists x. split; [exact Hx|]. rewrite <- Eg. apply csum_ext. intros. unfold Cdiv. ring.
Qed.

(** The quadratic form of the solver's values is the function of one state. *)
Lemma green_form sign n H GE omega eta d (a b : nat -> vec) (u v : nat -> C) (G : cmat) : hermitian n H -> eta <> 0%R ->
  (forall i j, (i < d)%nat -> (j < d)%nat -> green sign n H GE (frequency omega eta) (a i) (b j) (G i j)) ->
  green sign n H GE (frequency omega eta) (superposition d u a) (superposition d v b)
    (csum d (fun i => csum d (fun j => Cj (u i) * v j * G i j))).
Proof.
  intros HH He HG. pose proof (hermitian_invertible sign n H GE omega eta HH He) as HI.
  pose proof (proj2 (nonsingular_invertible sign n (frequency omega eta) GE H) HI) as NS.
  set (x := fun j => match solve n (gf_matrix sign (frequency omega eta) GE H) (b j) with Ok y => y | Err _ => vzero end).
  assert (Hx : forall j, veqn n (shifted sign n H GE (frequency omega eta) (x j)) (b j)).
  { intros j. unfold x. destruct (solve_nonsingular n _ (b j) NS) as (y & Ey). rewrite Ey. apply solves_shifted. now apply solve_ok in Ey. }
  exists (superposition d v x). split.
  - intros i Hi. unfold superposition. rewrite shifted_csum. apply csum_ext. intros j _. f_equal. now apply Hx.
  - change (superposition d v x) with (combo d v x). rewrite inner_combo.
    rewrite (csum_swap d d (fun i j => Cj (u i) * v j * G i j)). apply csum_ext. intros j Hj.
    rewrite (inner_swap n (x j)). change (superposition d u a) with (combo d u a). rewrite inner_combo, csum_conj, <- csum_mul_l. apply csum_ext. intros i Hi.
    rewrite (green_unique sign n H GE (frequency omega eta) (a i) (b j) (G i j) (inner n (a i) (x j)) HI (HG i j Hi Hj)).
    + rewrite (inner_swap n (a i) (x j)). unfold Cj. apply injective_projections; cbn; ring.
    + exists (x j). split; [apply Hx|reflexivity].
Qed.

(** ** Lorentzians *)
Lemma lorentz_pos e eta x : (0 < eta)%R -> (0 < (x - e) * (x - e) + eta * eta)%R.
Proof. intros. pose proof (Rle_0_sqr (x - e)). pose proof (Rlt_0_sqr eta). unfold Rsqr in *. assert (eta <> 0)%R by lra. specialize (H1 H2). lra. Qed.
Definition lorentz (e eta x : R) : R := (/ PI * (eta / ((x - e) * (x - e) + eta * eta)))%R.
Lemma lorentz_int e eta a b : (0 < eta)%R -> is_RInt (lorentz e eta) a b ((atan ((b - e) / eta) - atan ((a - e) / eta)) / PI)%R.
Proof.
  intros He. pose proof PI_RGT_0 as HP.
  replace ((atan ((b - e) / eta) - atan ((a - e) / eta)) / PI)%R with (minus (atan ((b - e) / eta) / PI)%R (atan ((a - e) / eta) / PI)%R)
    by (unfold minus, plus, opp; cbn; field; lra).
  apply (is_RInt_derive (fun x => atan ((x - e) / eta) / PI)%R).
  - intros x _. pose proof (lorentz_pos e eta x He) as HL. auto_derive; [trivial|]. unfold lorentz.
    field_simplify_eq; [ring|]. repeat split; try lra.
  - intros x _. pose proof (lorentz_pos e eta x He) as HL. apply (ex_derive_continuous (lorentz e eta)). unfold lorentz. auto_derive. lra.
Qed.
Lemma atan_tail eps : (0 < eps)%R -> exists y, forall x, (y < x)%R -> (PI / 2 - eps < atan x < PI / 2)%R.
Proof.
  intros He. pose proof PI_RGT_0 as HP. set (d := Rmin eps (PI / 4)). assert (0 < d <= eps)%R as [D1 D2].
  { unfold d. split; [apply Rmin_glb_lt; lra|apply Rmin_l]. }
  assert (d <= PI / 4)%R by (unfold d; apply Rmin_r).
  exists (tan (PI / 2 - d)). intros x Hx. split; [|apply atan_bound].
  apply (Rle_lt_trans _ (atan (tan (PI / 2 - d)))); [|now apply atan_increasing].
  rewrite atan_tan by lra. lra.
Qed.
Lemma atan_tail_m eps : (0 < eps)%R -> exists y, forall x, (x < - y)%R -> (- (PI / 2) < atan x < - (PI / 2) + eps)%R.
Proof.
  intros He. destruct (atan_tail eps He) as (y & Hy). exists y. intros x Hx. specialize (Hy (- x)%R ltac:(lra)). rewrite atan_opp in Hy. lra.
Qed.
Lemma integrates_lorentz e eta : (0 < eta)%R -> integrates_to (lorentz e eta) 1.
Proof.
  intros He. pose proof PI_RGT_0 as HP. split; [intros a b; eexists; now apply lorentz_int|].
  intros eps Hep. destruct (atan_tail (eps * PI / 2) ltac:(apply Rmult_lt_0_compat; [now apply Rmult_lt_0_compat|lra])) as (y1 & H1).
  destruct (atan_tail_m (eps * PI / 2) ltac:(apply Rmult_lt_0_compat; [now apply Rmult_lt_0_compat|lra])) as (y2 & H2).
  exists (Rmax (Rmax y1 y2) 0 * eta + Rabs e)%R. intros a b Ha Hb.
  rewrite (is_RInt_unique _ _ _ _ (lorentz_int e eta a b He)).
  set (M := Rmax (Rmax y1 y2) 0) in *. assert (y1 <= M)%R by (unfold M; eapply Rle_trans; [apply (Rmax_l y1 y2)|apply Rmax_l]).
  assert (y2 <= M)%R by (unfold M; eapply Rle_trans; [apply (Rmax_r y1 y2)|apply Rmax_l]).
  pose proof (Rle_abs e). pose proof (Rle_abs (- e)). rewrite Rabs_Ropp in *.
  assert (Xb : (M < (b - e) / eta)%R) by (apply (Rmult_lt_reg_r eta); [assumption|]; unfold Rdiv; rewrite Rmult_assoc, Rinv_l by lra; lra).
  assert (Xa : ((a - e) / eta < - M)%R) by (apply (Rmult_lt_reg_r eta); [assumption|]; unfold Rdiv; rewrite Rmult_assoc, Rinv_l by lra; lra).
  specialize (H1 ((b - e) / eta)%R ltac:(lra)). specialize (H2 ((a - e) / eta)%R ltac:(lra)).
  set (p := atan ((b - e) / eta)) in *. set (q := atan ((a - e) / eta)) in *.
  replace ((p - q) / PI - 1)%R with ((p - q - PI) / PI)%R by (field; lra).
  apply Rabs_def1; apply (Rmult_lt_reg_r PI); try assumption; unfold Rdiv; rewrite Rmult_assoc, Rinv_l by lra; lra.
Qed.
Lemma integrates_ext f g l : (forall x, f x = g x) -> integrates_to f l -> integrates_to g l.
Proof.
  intros E [A B]. split.
  - intros a b. apply (ex_RInt_ext f); [intros; apply E|apply A].
  - intros eps He. destruct (B eps He) as (M & HM). exists M. intros a b Ha Hb. rewrite <- (RInt_ext f g) by (intros; apply E). now apply HM.
Qed.
Lemma integrates_0 : integrates_to (fun _ => 0%R) 0.
Proof.
  split; [intros a b; apply (@ex_RInt_const R_NormedModule a b 0%R)|]. intros eps He. exists 0%R. intros a b _ _. rewrite (@RInt_const R_CompleteNormedModule a b 0%R). unfold scal. cbn. unfold mult. cbn.
  rewrite Rmult_0_r, Rminus_0_r, Rabs_R0. exact He.
Qed.
Lemma integrates_plus f g l m : integrates_to f l -> integrates_to g m -> integrates_to (fun x => f x + g x)%R (l + m).
Proof.
  intros [A1 B1] [A2 B2]. split; [intros; now apply (ex_RInt_plus f g)|]. intros eps He.
  destruct (B1 (eps / 2)%R ltac:(lra)) as (M1 & H1). destruct (B2 (eps / 2)%R ltac:(lra)) as (M2 & H2).
  exists (Rmax M1 M2). intros a b Ha Hb. pose proof (Rmax_l M1 M2). pose proof (Rmax_r M1 M2).
  specialize (H1 a b ltac:(lra) ltac:(lra)). specialize (H2 a b ltac:(lra) ltac:(lra)).
  assert (Es : RInt (fun x => f x + g x)%R a b = (RInt f a b + RInt g a b)%R) by exact (RInt_plus f g a b (A1 a b) (A2 a b)). rewrite Es.
  replace (RInt f a b + RInt g a b - (l + m))%R with ((RInt f a b - l) + (RInt g a b - m))%R by ring.
  eapply Rle_lt_trans; [apply Rabs_triang|]. lra.
Qed.
Lemma integrates_scal c f l : integrates_to f l -> integrates_to (fun x => c * f x)%R (c * l).
Proof.
  intros [A B]. split; [intros; apply (ex_RInt_scal f); apply A|]. intros eps He.
  assert (Hc : (0 < Rabs c + 1)%R) by (pose proof (Rabs_pos c); lra).
  destruct (B (eps / (Rabs c + 1))%R) as (M & HM); [now apply Rdiv_lt_0_compat|].
  exists M. intros a b Ha Hb. specialize (HM a b Ha Hb).
  assert (Es : RInt (fun x => c * f x)%R a b = (c * RInt f a b)%R) by (exact (RInt_scal f a b c (A a b))).
  rewrite Es. replace (c * RInt f a b - c * l)%R with (c * (RInt f a b - l))%R by ring. rewrite Rabs_mult.
  apply (Rle_lt_trans _ ((Rabs c + 1) * Rabs (RInt f a b - l))%R).
  - pose proof (Rabs_pos (RInt f a b - l)). nra.
  - apply (Rlt_le_trans _ ((Rabs c + 1) * (eps / (Rabs c + 1)))%R); [now apply Rmult_lt_compat_l|]. right. field. lra.
Qed.
Lemma integrates_rsum n (c : nat -> R) (f : nat -> R -> R) : (forall k, (k < n)%nat -> integrates_to (f k) 1) ->
  integrates_to (fun x => rsum n (fun k => c k * f k x)%R) (rsum n c).
Proof.
  induction n as [|n IH]; intros Hf; cbn [rsum]; [exact integrates_0|].
  apply integrates_plus; [apply IH; intros; apply Hf; lia|]. rewrite <- (Rmult_1_r (c n)) at 1. apply integrates_scal. apply Hf. lia.
Qed.
