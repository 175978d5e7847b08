(** Rounding in rotations. *)
From Coq Require Import List ZArith Bool Reals Lra Lia Floats.SpecFloat.
From Flocq Require Import Core.Raux Core.Zaux Core.Defs Core.Float_prop IEEE754.BinarySingleNaN.
From Verif Require Import Py Float64_Model Float64_Proofs State_Model State_Proofs Bond_Model KPath_Model KPathFloat_Proofs KPathRound_Proofs LineFloat_Spec LineFloat_Proofs
  Rotation_Model Rotation_Spec Rotation_Proofs RotationPi_Proofs RotationFloat_Model RotationFloat_Spec.
Import ListNotations.
Open Scope R_scope.

Lemma rnd_close x B : Rabs x <= B -> Rabs (rnd64 x - x) <= B * u + eta.
Proof.
  intros H. destruct (rnd_err x) as (e & h & He & Hh & ->). replace (x * (1 + e) + h - x) with (x * e + h) by ring.
  eapply Rle_trans; [apply Rabs_triang|]. apply Rplus_le_compat; [|exact Hh]. rewrite Rabs_mult. apply Rmult_le_compat; auto using Rabs_pos.
Qed.
Lemma near_within d x r : near d x r -> d <= 1 -> Rabs r <= 1 -> within 1 x.
Proof.
  intros [[V F] H] D Hr. split; [exact V|]. split; [exact F|]. change (bpow radix2 1) with 2. apply Rabs_le_inv in H, Hr. apply Rabs_le. lra.
Qed.
Lemma near_weaken d d' x r : d <= d' -> near d x r -> near d' x r.
Proof. intros L [N H]. split; [exact N|lra]. Qed.
Lemma near_prod x y a b d d' : Rabs (x - a) <= d -> Rabs (y - b) <= d' -> Rabs a <= 1 -> Rabs b <= 1 -> Rabs (x * y - a * b) <= d + d' + d * d'.
Proof.
  intros Hx Hy Ha Hb. replace (x * y - a * b) with ((x - a) * b + a * (y - b) + (x - a) * (y - b)) by ring.
  pose proof (Rabs_pos (x - a)). pose proof (Rabs_pos (y - b)). pose proof (Rabs_pos a). pose proof (Rabs_pos b).
  eapply Rle_trans; [apply Rabs_triang|]. eapply Rle_trans; [apply Rplus_le_compat_r, Rabs_triang|]. rewrite !Rabs_mult.
  assert (Rabs (x - a) * Rabs b <= d * 1) by (apply Rmult_le_compat; lra). assert (Rabs a * Rabs (y - b) <= 1 * d') by (apply Rmult_le_compat; lra). assert (Rabs (x - a) * Rabs (y - b) <= d * d') by (apply Rmult_le_compat; lra). lra.
Qed.
Lemma fdot3_near d d' a b c x y z a' b' c' x' y' z' : 0 <= d <= 1 / 100 -> 0 <= d' <= 1 / 100 ->
  near d a a' -> near d b b' -> near d c c' -> near d' x x' -> near d' y y' -> near d' z z' ->
  Rabs a' <= 1 -> Rabs b' <= 1 -> Rabs c' <= 1 -> Rabs x' <= 1 -> Rabs y' <= 1 -> Rabs z' <= 1 ->
  near (3 * (d + d' + d * d') + 2 / 10 ^ 15) (fdot3 a b c x y z) (a' * x' + b' * y' + c' * z').
Proof.
  intros D D' Na Nb Nc Nx Ny Nz Ba Bb Bc Bx By Bz. unfold fdot3. pose proof eta_small as ES. pose proof eta_pos as EP.
  assert (P : forall k l k' l', near d k k' -> near d' l l' -> Rabs k' <= 1 -> Rabs l' <= 1 -> within 2 (fmul k l) /\ Rabs (f2R (fmul k l) - k' * l') <= d + d' + d * d' + 21 / 10 ^ 17 /\ Rabs (k' * l') <= 1).
  { intros k l k' l' Nk Nl Bk Bl. destruct (within_mul 1 1 k l ltac:(lia) (near_within _ _ _ Nk ltac:(lra) Bk) (near_within _ _ _ Nl ltac:(lra) Bl)) as [W E]. split; [exact W|].
    assert (B1 : Rabs (k' * l') <= 1) by (rewrite Rabs_mult; pose proof (Rabs_pos k'); pose proof (Rabs_pos l'); nra). split; [|exact B1].
    pose proof (near_prod _ _ _ _ _ _ (proj2 Nk) (proj2 Nl) Bk Bl) as Q. assert (DD : d * d' <= 1 / 10000) by nra. 
    assert (R : Rabs (f2R k * f2R l) <= 103 / 100) by (apply Rabs_le_inv in Q, B1; apply Rabs_le; lra).
    pose proof (rnd_close _ _ R) as C. rewrite E. apply Rabs_le_inv in Q, C. apply Rabs_le. unfold u in C. lra. }
  destruct (P a x a' x' Na Nx Ba Bx) as (W1 & Q1 & U1). destruct (P b y b' y' Nb Ny Bb By) as (W2 & Q2 & U2). destruct (P c z c' z' Nc Nz Bc Bz) as (W3 & Q3 & U3).
  destruct (within_add 2 _ _ ltac:(lia) W1 W2) as [W4 E4]. destruct (within_add 3 _ _ ltac:(lia) W4 (within_le 2 3 _ ltac:(lia) W3)) as [W5 E5].
  split; [eapply within_number; exact W5|]. assert (DD : 0 <= d * d' <= 1 / 10000) by nra. set (dd := d * d') in *.
  apply Rabs_le_inv in Q1, Q2, Q3, U1, U2, U3. set (p1 := a' * x') in *. set (p2 := b' * y') in *. set (p3 := c' * z') in *.
  assert (R4 : Rabs (f2R (fmul a x) + f2R (fmul b y)) <= 205 / 100) by (apply Rabs_le; lra). pose proof (rnd_close _ _ R4) as C4. rewrite <- E4 in C4. apply Rabs_le_inv in C4. unfold u in C4.
  assert (R5 : Rabs (f2R (fadd (fmul a x) (fmul b y)) + f2R (fmul c z)) <= 31 / 10) by (apply Rabs_le; lra). pose proof (rnd_close _ _ R5) as C5. rewrite <- E5 in C5. apply Rabs_le_inv in C5. unfold u in C5.
  apply Rabs_le. lra.
Qed.

(** ** matrices *)
Definition small3 (M : mat3) : Prop :=
  let '(M3 a b c x y z p q r) := M in
  (Rabs a <= 1 /\ Rabs b <= 1 /\ Rabs c <= 1) /\ (Rabs x <= 1 /\ Rabs y <= 1 /\ Rabs z <= 1) /\ (Rabs p <= 1 /\ Rabs q <= 1 /\ Rabs r <= 1).
Ltac nine := split; [split; [|split]|split; [split; [|split]|split; [|split]]].
Lemma near3_weaken d d' A M : d <= d' -> near3 d A M -> near3 d' A M.
Proof.
  intros L. destruct A, M. unfold near3. intros ((? & ? & ?) & (? & ? & ?) & (? & ? & ?)). nine; eapply near_weaken; eassumption.
Qed.
Lemma matmul_near d d' A B M N : 0 <= d <= 1 / 100 -> 0 <= d' <= 1 / 100 -> near3 d A M -> near3 d' B N -> small3 M -> small3 N ->
  near3 (3 * (d + d' + d * d') + 2 / 10 ^ 15) (fmatmul A B) (matmul M N).
Proof.
  intros D D'. destruct A, B, M, N. unfold near3, small3, fmatmul, matmul. intros ((? & ? & ?) & (? & ? & ?) & (? & ? & ?)) ((? & ? & ?) & (? & ? & ?) & (? & ? & ?)) ((? & ? & ?) & (? & ? & ?) & (? & ? & ?)) ((? & ? & ?) & (? & ? & ?) & (? & ? & ?)).
  nine; apply fdot3_near; assumption.
Qed.
Lemma transpose_near d A M : near3 d A M -> near3 d (ftranspose A) (transpose M).
Proof. destruct A, M. unfold near3. cbn [ftranspose transpose]. tauto. Qed.
Lemma isometry_small M : isometry M -> small3 M.
Proof.
  intros H. pose proof (H ex ex) as X. pose proof (H ey ey) as Y. pose proof (H ez ez) as Z. destruct M as [a b c d e f g h i]. cbn [apply ex ey ez vdot] in X, Y, Z.
  assert (K : forall p q r, p * p + q * q + r * r = 1 -> Rabs p <= 1 /\ Rabs q <= 1 /\ Rabs r <= 1).
  { intros p q r E. repeat split; apply Rabs_le; nra. }
  destruct (K a d g) as (? & ? & ?); [lra|]. destruct (K b e h) as (? & ? & ?); [lra|]. destruct (K c f i) as (? & ? & ?); [lra|]. unfold small3. tauto.
Qed.
Lemma isometry_matmul M N : isometry M -> isometry N -> isometry (matmul M N).
Proof. intros HM HN p q. rewrite !apply_mul. now rewrite HM. Qed.
Definition rZ (s c : R) : mat3 := M3 c (- s) 0 s c 0 0 0 1.
Definition rY (s c : R) : mat3 := M3 c 0 s 0 1 0 (- s) 0 c.
Definition rX (s c : R) : mat3 := M3 1 0 0 0 c (- s) 0 s c.
Lemma isometry_Z s c : c * c = 1 - s * s -> isometry (rZ s c).
Proof. intros E [[x y] z] [[x' y'] z']. cbn [rZ apply vdot]. ring [E]. Qed.
Lemma isometry_Y s c : c * c = 1 - s * s -> isometry (rY s c).
Proof. intros E [[x y] z] [[x' y'] z']. cbn [rY apply vdot]. ring [E]. Qed.
Lemma isometry_X s c : c * c = 1 - s * s -> isometry (rX s c).
Proof. intros E [[x y] z] [[x' y'] z']. cbn [rX apply vdot]. ring [E]. Qed.
Lemma isometry_Zt s c : c * c = 1 - s * s -> isometry (transpose (rZ s c)).
Proof. intros E [[x y] z] [[x' y'] z']. cbn [rZ transpose apply vdot]. ring [E]. Qed.
Lemma isometry_Yt s c : c * c = 1 - s * s -> isometry (transpose (rY s c)).
Proof. intros E [[x y] z] [[x' y'] z']. cbn [rY transpose apply vdot]. ring [E]. Qed.
Lemma matmul_assoc p q r : matmul (matmul p q) r = matmul p (matmul q r).
Proof. apply apply_ext. intros v. now rewrite !apply_mul. Qed.

(** ** constants *)
Lemma number_0 : number f0 /\ f2R f0 = 0. Proof. repeat split. Qed.
Lemma number_1 : number f1 /\ f2R f1 = 1.
Proof. destruct one_value as [E W]. split; [exact (within_number _ _ W)|exact E]. Qed.
Lemma fneg_value x : number x -> number (fneg x) /\ f2R (fneg x) = - f2R x.
Proof.
  intros [V F]. destruct x as [s|s| |s m e]; try discriminate.
  - split; [split; reflexivity|]. cbn. lra.
  - split; [split; [exact V|reflexivity]|]. cbn [fneg SFopp f2R SF2R]. rewrite <- F2R_Zopp. f_equal. destruct s; reflexivity.
Qed.
Lemma near_0 d : 0 <= d -> near d f0 0.
Proof. intros D. split; [apply number_0|]. rewrite (proj2 number_0), Rminus_diag_eq, Rabs_R0 by reflexivity. exact D. Qed.
Lemma near_f1 d : 0 <= d -> near d f1 1.
Proof. intros D. split; [apply number_1|]. rewrite (proj2 number_1), Rminus_diag_eq, Rabs_R0 by reflexivity. exact D. Qed.
Lemma near_neg d x r : near d x r -> near d (fneg x) (- r).
Proof. intros [N H]. destruct (fneg_value x N) as [N' E]. split; [exact N'|]. rewrite E. replace (- f2R x - - r) with (- (f2R x - r)) by ring. now rewrite Rabs_Ropp. Qed.
Lemma near_fX d s c s' c' : 0 <= d -> near d s s' -> near d c c' -> near3 d (fX s c) (rX s' c').
Proof. intros D Hs Hc. unfold fX, rX, near3. nine; auto using near_0, near_f1, near_neg. Qed.
Lemma near_fY d s c s' c' : 0 <= d -> near d s s' -> near d c c' -> near3 d (fY s c) (rY s' c').
Proof. intros D Hs Hc. unfold fY, rY, near3. nine; auto using near_0, near_f1, near_neg. Qed.
Lemma near_fZ d s c s' c' : 0 <= d -> near d s s' -> near d c c' -> near3 d (fZ s c) (rZ s' c').
Proof. intros D Hs Hc. unfold fZ, rZ, near3. nine; auto using near_0, near_f1, near_neg. Qed.

(** The inversion is exact. *)
Lemma exact_neg a : within 1 a -> within 1 (fmul a (fneg f1)) /\ f2R (fmul a (fneg f1)) = - f2R a.
Proof.
  intros W. destruct number_1 as [N1 E1]. destruct (fneg_value f1 N1) as [[V1 F1] E]. rewrite E1 in E.
  assert (W1 : within 0 (fneg f1)). { split; [exact V1|]. split; [exact F1|]. rewrite E, Rabs_Ropp, Rabs_R1. apply Rle_refl. }
  destruct (within_mul 1 0 a (fneg f1) ltac:(lia) W W1) as [W2 E2]. split; [exact W2|]. rewrite E2, E. match goal with |- rnd64 ?t = _ => replace t with (- f2R a) by ring end.
  rewrite rnd64_opp. f_equal. apply number_fixed. exact (within_number _ _ W).
Qed.
Lemma exact_zero a : within 1 a -> within 1 (fmul a f0) /\ f2R (fmul a f0) = 0.
Proof.
  intros W. assert (W0 : within 0 f0). { split; [reflexivity|]. split; [reflexivity|]. rewrite (proj2 number_0), Rabs_R0. apply bpow_ge_0. }
  destruct (within_mul 1 0 a f0 ltac:(lia) W W0) as [W2 E2]. split; [exact W2|]. rewrite E2, (proj2 number_0), Rmult_0_r. apply rnd64_0.
Qed.
Lemma exact_add k x y : (0 <= k <= 100)%Z -> within k x -> within k y -> f2R x = 0 \/ f2R y = 0 -> within (k + 1) (fadd x y) /\ f2R (fadd x y) = f2R x + f2R y.
Proof.
  intros K Wx Wy Z. destruct (within_add k x y ltac:(lia) Wx Wy) as [W E]. split; [exact W|]. rewrite E.
  destruct Z as [Z|Z]; rewrite Z; rewrite ?Rplus_0_l, ?Rplus_0_r; apply number_fixed; eapply within_number; eassumption.
Qed.
Lemma finish_near d b A M : d <= 1 -> near3 d A M -> small3 M -> near3 d (ffinish b A) (finish b M).
Proof.
  intros D. destruct b; [|intros H _; exact H]. destruct A as [a b c x y z p q r], M as [a' b' c' x' y' z' p' q' r']. unfold near3, small3. cbn [ffinish finish]. unfold fINVERSION, INVERSION, fmatmul, matmul.
  intros ((N1 & N2 & N3) & (N4 & N5 & N6) & (N7 & N8 & N9)) ((B1 & B2 & B3) & (B4 & B5 & B6) & (B7 & B8 & B9)).
  assert (K : forall i j k i' j' k', near d i i' -> near d j j' -> near d k k' -> Rabs i' <= 1 -> Rabs j' <= 1 -> Rabs k' <= 1 ->
    near d (fdot3 i j k (fneg f1) f0 f0) (i' * -1 + j' * 0 + k' * 0) /\ near d (fdot3 i j k f0 (fneg f1) f0) (i' * 0 + j' * -1 + k' * 0) /\ near d (fdot3 i j k f0 f0 (fneg f1)) (i' * 0 + j' * 0 + k' * -1)).
  { intros i j k i' j' k' Ni Nj Nk Bi Bj Bk. pose proof (near_within _ _ _ Ni D Bi) as Wi. pose proof (near_within _ _ _ Nj D Bj) as Wj. pose proof (near_within _ _ _ Nk D Bk) as Wk.
    assert (G : forall s t v w, within 1 s -> within 1 t -> within 1 v -> (f2R s = 0 /\ f2R t = 0 /\ f2R v = - f2R w \/ f2R s = 0 /\ f2R v = 0 /\ f2R t = - f2R w \/ f2R t = 0 /\ f2R v = 0 /\ f2R s = - f2R w) ->
       forall w', near d w w' -> near d (fadd (fadd s t) v) (- w')).
    { intros s t v w Ws Wt Wv Z w' [Nw Hw]. destruct (exact_add 1 s t ltac:(lia) Ws Wt ltac:(tauto)) as [W1 E1]. destruct (exact_add 2 (fadd s t) v ltac:(lia) W1 (within_le 1 2 _ ltac:(lia) Wv) ltac:(rewrite E1; lra)) as [W2 E2].
      split; [eapply within_number; exact W2|]. rewrite E2, E1. replace (f2R s + f2R t + f2R v - - w') with (- (f2R w - w')) by lra. now rewrite Rabs_Ropp. }
    destruct (exact_neg i Wi) as [Ui Vi]. destruct (exact_neg j Wj) as [Uj Vj]. destruct (exact_neg k Wk) as [Uk Vk].
    destruct (exact_zero i Wi) as [Xi Yi]. destruct (exact_zero j Wj) as [Xj Yj]. destruct (exact_zero k Wk) as [Xk Yk].
    split; [|split].
    - replace (i' * -1 + j' * 0 + k' * 0) with (- i') by ring. apply (G _ _ _ i); auto 6.
    - replace (i' * 0 + j' * -1 + k' * 0) with (- j') by ring. apply (G _ _ _ j); auto 6.
    - replace (i' * 0 + j' * 0 + k' * -1) with (- k') by ring. apply (G _ _ _ k); auto 6. }
  destruct (K a b c a' b' c' N1 N2 N3 B1 B2 B3) as (? & ? & ?). destruct (K x y z x' y' z' N4 N5 N6 B4 B5 B6) as (? & ? & ?). destruct (K p q r p' q' r' N7 N8 N9 B7 B8 B9) as (? & ? & ?).
  nine; assumption.
Qed.

(** ** sine and cosine *)
Lemma sin_abs x : Rabs (sin x) <= Rabs x.
Proof.
  assert (P : forall y, 0 < y -> Rabs (sin y) <= y).
  { intros y Y. pose proof (SIN_bound y). pose proof (sin_lt_x y Y). destruct (Rle_dec 1 y) as [L|L]; [apply Rabs_le; lra|].
    assert (0 < sin y) by (apply sin_gt_0; [exact Y|]; pose proof PI2_1; lra). apply Rabs_le. lra. }
  destruct (Rtotal_order x 0) as [L|[->|L]].
  - specialize (P (- x) ltac:(lra)). rewrite sin_neg, Rabs_Ropp in P. rewrite (Rabs_left x) by lra. exact P.
  - rewrite sin_0. lra.
  - rewrite (Rabs_pos_eq x) by lra. now apply P.
Qed.
Lemma sin_lip x y : Rabs (sin x - sin y) <= Rabs (x - y).
Proof.
  rewrite form4. rewrite !Rabs_mult. rewrite (Rabs_pos_eq 2) by lra. pose proof (sin_abs ((x - y) / 2)) as S.
  assert (C : Rabs (cos ((x + y) / 2)) <= 1) by (apply Rabs_le, COS_bound). pose proof (Rabs_pos (cos ((x + y) / 2))). pose proof (Rabs_pos (sin ((x - y) / 2))).
  unfold Rdiv in S at 2. rewrite Rabs_mult in S. rewrite (Rabs_pos_eq (/ 2)) in S by lra. nra.
Qed.
Lemma cos_lip x y : Rabs (cos x - cos y) <= Rabs (x - y).
Proof.
  rewrite form2. rewrite !Rabs_mult. rewrite (Rabs_left (-2)) by lra. pose proof (sin_abs ((x - y) / 2)) as S.
  assert (C : Rabs (sin ((x + y) / 2)) <= 1) by (apply Rabs_le, SIN_bound). pose proof (Rabs_pos (sin ((x + y) / 2))). pose proof (Rabs_pos (sin ((x - y) / 2))).
  unfold Rdiv in S at 2. rewrite Rabs_mult in S. rewrite (Rabs_pos_eq (/ 2)) in S by lra. nra.
Qed.

(** ** degrees *)
Lemma npi_value : within 2 npi /\ f2R npi = 7074237752028440 / IZR (2 ^ 51).
Proof.
  assert (E : f2R npi = 7074237752028440 / IZR (2 ^ 51)).
  { unfold npi. cbn [f2R SF2R cond_Zopp]. unfold F2R. cbn [Fnum Fexp]. replace (bpow radix2 (-51)) with (/ IZR (2 ^ 51)) by reflexivity. reflexivity. }
  split; [|exact E]. split; [reflexivity|]. split; [reflexivity|]. rewrite E. change (bpow radix2 2) with 4. change (2 ^ 51)%Z with 2251799813685248%Z. rewrite Rabs_pos_eq by lra. lra.
Qed.
Lemma npi_near : exists q, Rabs (q - 1) <= 6 / 10 ^ 17 /\ f2R npi = PI * q.
Proof.
  exists (f2R npi / PI). pose proof PI_RGT_0 as P. split; [|field; lra]. rewrite (proj2 npi_value). change (2 ^ 51)%Z with 2251799813685248%Z. destruct pi_bounds as [L U]. set (p := PI) in *.
  replace (7074237752028440 / 2251799813685248 / p - 1) with ((7074237752028440 / 2251799813685248 - p) * / p) by (field; lra). rewrite Rabs_mult, (Rabs_pos_eq (/ p)) by (left; apply Rinv_0_lt_compat; lra).
  assert (I : / p <= / 3) by (apply Rinv_le_contravar; lra). pose proof (Rinv_0_lt_compat p P). assert (D : Rabs (7074237752028440 / 2251799813685248 - p) <= 18 / 10 ^ 17) by (apply Rabs_le; lra).
  pose proof (Rabs_pos (7074237752028440 / 2251799813685248 - p)). nra.
Qed.
