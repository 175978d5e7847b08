(** The triangle, honeycomb and kagome clusters: going out layer by layer the
    distances do not decrease. *)
From Coq Require Import String List Reals ZArith Bool Arith Lra Lia Permutation.
From Verif Require Import Py CVec LinSolve Line2D_Model Line2D_Proofs Lattice_Model Lattice_Spec Lattice_Proofs Lattice_Proofs2 Lattice_Proofs3 Lattice_Properties LatticeCases_Properties
  Neighbors_Spec Neighbors_Proofs2 LatticeBonds_Spec LatticeBonds_Properties LatticeGen_Model LatticeGen_Spec LatticeGen_Proofs LatticeGen_Properties.
From Flocq Require Import Core.Raux.
Import ListNotations.
Open Scope R_scope.

Definition hex : list point := [(1, 0, 0); (0.5, sqrt 3 / 2, 0)].
Definition hq (x y : R) : R := x * x + x * y + y * y.
Lemma hq_nonneg x y : 0 <= hq x y. Proof. unfold hq. nra. Qed.
Lemma hex_norm x y : norm (combination [x; y] hex) = sqrt (hq x y).
Proof. unfold norm, hex, hq. f_equal. cbn [combination vscale vadd vdot v0]. pose proof s3_sq as Q. nra. Qed.

(** A vector in the closed Voronoi cell of the triangular lattice, in coordinates. *)
Definition central (a b : R) : Prop := Rabs (a - b) <= 1 /\ Rabs (2 * a + b) <= 1 /\ Rabs (a + 2 * b) <= 1.
Lemma central_bounds a b : central a b -> -1 <= a - b <= 1 /\ -1 <= 2 * a + b <= 1 /\ -1 <= a + 2 * b <= 1.
Proof. intros (A & B & C). apply Raux.Rabs_le_inv in A, B, C. auto. Qed.
(** One step towards the origin. *)
Lemma hex_step1 (u v : Z) a b : central a b -> (u, v) <> (0, 0)%Z ->
  exists u' v', (Z.abs u' + Z.abs v' < Z.abs u + Z.abs v)%Z /\ (Z.abs (u' - u) <= 1)%Z /\ (Z.abs (v' - v) <= 1)%Z /\
    hq (IZR u' + a) (IZR v' + b) <= hq (IZR u + a) (IZR v + b).
Proof.
  intros C N. apply central_bounds in C as (C1 & C2 & C3).
  assert (Cases : (1 <= u /\ v <= -1 \/ u <= -1 /\ 1 <= v \/ 1 <= u /\ 0 <= v \/ u <= -1 /\ v <= 0 \/ u = 0 /\ 1 <= v \/ u = 0 /\ v <= -1)%Z).
  { destruct (Z.eq_dec u 0) as [->|]; destruct (Z.eq_dec v 0) as [->|]; try lia. now contradiction N. }
  destruct Cases as [[H1 H2]|[[H1 H2]|[[H1 H2]|[[H1 H2]|[[H1 H2]|[H1 H2]]]]]].
  - exists (u - 1)%Z, (v + 1)%Z. split; [lia|]. split; [lia|]. split; [lia|]. apply IZR_le in H1, H2. rewrite minus_IZR, plus_IZR. unfold hq. nra.
  - exists (u + 1)%Z, (v - 1)%Z. split; [lia|]. split; [lia|]. split; [lia|]. apply IZR_le in H1, H2. rewrite minus_IZR, plus_IZR. unfold hq. nra.
  - exists (u - 1)%Z, v. split; [lia|]. split; [lia|]. split; [lia|]. apply IZR_le in H1, H2. rewrite minus_IZR. unfold hq. nra.
  - exists (u + 1)%Z, v. split; [lia|]. split; [lia|]. split; [lia|]. apply IZR_le in H1, H2. rewrite plus_IZR. unfold hq. nra.
  - exists u, (v - 1)%Z. split; [lia|]. split; [lia|]. split; [lia|]. rewrite H1. apply IZR_le in H2. rewrite minus_IZR. unfold hq. nra.
  - exists u, (v + 1)%Z. split; [lia|]. split; [lia|]. split; [lia|]. rewrite H1. apply IZR_le in H2. rewrite plus_IZR. unfold hq. nra.
Qed.

(** The layer of the copy of the cluster in which a cell lies. *)
Definition lay (n0 n1 m0 m1 : Z) : Z := Z.max (Z.abs (m0 / n0)) (Z.abs (m1 / n1)).
Lemma div_close n a b : (1 <= n)%Z -> (Z.abs (a - b) <= 1)%Z -> (Z.abs (a / n - b / n) <= 1)%Z.
Proof.
  intros Hn H. assert (G : forall x y, (x <= y + 1 -> x / n <= y / n + 1)%Z).
  { intros x y L. replace (y / n + 1)%Z with ((y + 1 * n) / n)%Z by (rewrite Z.div_add; lia). apply Z.div_le_mono; lia. }
  pose proof (G a b ltac:(lia)). pose proof (G b a ltac:(lia)). lia.
Qed.
Lemma hex_walk n0 n1 k0 k1 a b s : (1 <= n0)%Z -> (1 <= n1)%Z -> (0 <= k0 < n0)%Z -> (0 <= k1 < n1)%Z -> central a b -> (1 <= s)%Z ->
  forall t u v, Z.to_nat (Z.abs u + Z.abs v) = t -> (s <= lay n0 n1 (k0 + u) (k1 + v))%Z ->
  exists u' v', lay n0 n1 (k0 + u') (k1 + v') = s /\ hq (IZR u' + a) (IZR v' + b) <= hq (IZR u + a) (IZR v + b).
Proof.
  intros Hn0 Hn1 Hk0 Hk1 C Hs t. induction t as [t IH] using (well_founded_induction lt_wf). intros u v Et Hl.
  destruct (Z.eq_dec (lay n0 n1 (k0 + u) (k1 + v)) s) as [E|N]; [exists u, v; split; [exact E|lra]|].
  assert (Z0 : (u, v) <> (0, 0)%Z).
  { intros E. injection E as -> ->. unfold lay in Hl. rewrite !Z.add_0_r, !Z.div_small in Hl by assumption. cbn in Hl. lia. }
  destruct (hex_step1 u v a b C Z0) as (u1 & v1 & M & D0 & D1 & Q).
  destruct (IH (Z.to_nat (Z.abs u1 + Z.abs v1)) ltac:(lia) u1 v1 eq_refl) as (u' & v' & E' & Q').
  - pose proof (div_close n0 (k0 + u1) (k0 + u) Hn0 ltac:(lia)). pose proof (div_close n1 (k1 + v1) (k1 + v) Hn1 ltac:(lia)). unfold lay in Hl, N |- *. clear IH C Q.
    revert H H0 Hl N. generalize ((k0 + u1) / n0)%Z ((k0 + u) / n0)%Z ((k1 + v1) / n1)%Z ((k1 + v) / n1)%Z. clear. intros a b c d. lia.
  - exists u', v'. split; [exact E'|lra].
Qed.

(** Cells with these vectors whose points are near each other. *)
Definition hexagonal (c : cell) : Prop := cvectors c = hex /\
  forall p q, In p (cpoints c) -> In q (cpoints c) -> exists a b, central a b /\ vsub p q = combination [a; b] hex.
Lemma hex_site_dist c i j m0 m1 k0 k1 a b : cvectors c = hex -> vsub (nth i (cpoints c) v0) (nth j (cpoints c) v0) = combination [a; b] hex ->
  dist (site c i [m0; m1]) (site c j [k0; k1]) = sqrt (hq (IZR (m0 - k0) + a) (IZR (m1 - k1) + b)).
Proof.
  intros Ev E. rewrite <- hex_norm. unfold dist. f_equal. unfold site, shift. rewrite Ev.
  replace (vsub (vadd (nth i (cpoints c) v0) (combination (map IZR [m0; m1]) hex)) (vadd (nth j (cpoints c) v0) (combination (map IZR [k0; k1]) hex))) with
    (vadd (vsub (nth i (cpoints c) v0) (nth j (cpoints c) v0)) (vsub (combination (map IZR [m0; m1]) hex) (combination (map IZR [k0; k1]) hex))) by (generalize (nth i (cpoints c) v0), (nth j (cpoints c) v0), (combination (map IZR [m0; m1]) hex), (combination (map IZR [k0; k1]) hex); vring).
  rewrite E. unfold hex. cbn [map combination vscale vadd vsub v0]. rewrite !minus_IZR. apply p3_eq; ring.
Qed.

Lemma hex_steady c n0 n1 L : hexagonal c -> (1 <= n0)%Z -> (1 <= n1)%Z -> points L = cluster c [n0; n1] -> vectors L = scale_rows [n0; n1] (cvectors c) ->
  steady (vectors L) (points L).
Proof.
  intros [Ev Hc] H0 H1 Ep Evs p q Ms Hp Hq Lm R2. assert (F : Forall (fun n => (1 <= n)%Z) [n0; n1]) by (repeat apply Forall_cons; auto).
  assert (Hl : List.length [n0; n1] = List.length (cvectors c)) by (rewrite Ev; reflexivity).
  rewrite Ep in Hp, Hq. apply (In_nth _ _ v0) in Hp as (ip & Hip & <-). apply (In_nth _ _ v0) in Hq as (iq & Hiq & <-).
  destruct (cluster_site c _ ip F Hip) as (ns & j & Bn & Hj & _ & ->). destruct (cluster_site c _ iq F Hiq) as (ks & j' & Bk & Hj' & _ & ->).
  rewrite Evs, (scale_rows_length _ _ Hl), <- Hl in Lm. destruct Ms as [|M0 [|M1 [|]]]; try discriminate.
  inversion Bn as [|? x ? ns' B0 Bn']; subst. inversion Bn' as [|? y ? ns2 B1 Bn2]; subst. inversion Bn2; subst.
  inversion Bk as [|? k0 ? ks' K0 Bk']; subst. inversion Bk' as [|? k1 ? ks2 K1 Bk2]; subst. inversion Bk2; subst.
  destruct (Hc _ _ (nth_In _ v0 Hj) (nth_In _ v0 Hj')) as (a & b & Cab & E).
  assert (Site : forall x y M0 M1, vadd (shift [M0; M1] (vectors L)) (site c j [x; y]) = site c j [x + n0 * M0; y + n1 * M1]%Z).
  { intros x1 y1 N0 N1. pose proof (shift_muladd [n0; n1] [x1; y1] [N0; N1] (cvectors c) Hl ltac:(rewrite Ev; reflexivity) ltac:(rewrite Ev; reflexivity)) as S. rewrite <- Evs in S.
    cbn [muladd] in S. unfold site. rewrite S. generalize (shift [N0; N1] (vectors L)), (shift [x1; y1] (cvectors c)), (nth j (cpoints c) v0). vring. }
  rewrite Site, (hex_site_dist c j j' _ _ k0 k1 a b Ev E).
  set (u := (x + n0 * M0 - k0)%Z). set (v := (y + n1 * M1 - k1)%Z).
  assert (Lay : forall x y M0 M1, (0 <= x < n0)%Z -> (0 <= y < n1)%Z -> lay n0 n1 (x + n0 * M0) (y + n1 * M1) = reach [M0; M1]).
  { intros x1 y1 N0 N1 X1 Y1. unfold lay. rewrite (Z.mul_comm n0), (Z.mul_comm n1), !Z.div_add, !Z.div_small by lia. cbn. lia. }
  destruct (hex_walk n0 n1 k0 k1 a b (reach [M0; M1] - 1) H0 H1 K0 K1 Cab ltac:(lia) _ u v eq_refl) as (u' & v' & E' & Q').
  { replace (k0 + u)%Z with (x + n0 * M0)%Z by (unfold u; lia). replace (k1 + v)%Z with (y + n1 * M1)%Z by (unfold v; lia). rewrite Lay by assumption. lia. }
  set (X := ((k0 + u') mod n0)%Z). set (Y := ((k1 + v') mod n1)%Z). set (N0 := ((k0 + u') / n0)%Z). set (N1 := ((k1 + v') / n1)%Z).
  assert (EX : (k0 + u' = X + n0 * N0)%Z) by (unfold X, N0; pose proof (Z.div_mod (k0 + u') n0); lia).
  assert (EY : (k1 + v' = Y + n1 * N1)%Z) by (unfold Y, N1; pose proof (Z.div_mod (k1 + v') n1); lia).
  assert (BX : (0 <= X < n0)%Z) by (apply Z.mod_pos_bound; lia). assert (BY : (0 <= Y < n1)%Z) by (apply Z.mod_pos_bound; lia).
  assert (InC : forall i x y, (i < List.length (cpoints c))%nat -> (0 <= x < n0)%Z -> (0 <= y < n1)%Z -> In (site c i [x; y]) (points L)).
  { intros i x1 y1 Hi X1 Y1. assert (B : box [n0; n1] [x1; y1]) by (repeat constructor; lia). rewrite Ep, <- (cluster_nth c [n0; n1] [x1; y1] i B Hi). apply nth_In.
    rewrite cluster_length by exact F. pose proof (position_range _ _ B). nia. }
  exists (site c j [X; Y]), (site c j' [k0; k1]), [N0; N1].
  split; [now apply InC|]. split; [now apply InC|]. split; [rewrite Evs, scale_rows_length by exact Hl; rewrite Ev; reflexivity|].
  split; [rewrite <- (Lay X Y N0 N1) by assumption; now rewrite <- EX, <- EY|].
  rewrite Site, (hex_site_dist c j j' _ _ k0 k1 a b Ev E). apply sqrt_le_1_alt.
  replace (X + n0 * N0 - k0)%Z with u' by lia. replace (Y + n1 * N1 - k1)%Z with v' by lia. exact Q'.
Qed.

(** The translations alone. *)
Definition hform (A B x y : R) : R := hq (A * x) (B * y).
Lemma hform_layer_aux (A B : R) (R y : Z) : 0 < A -> 0 < B -> (2 <= R)%Z -> (Z.abs y <= R)%Z ->
  exists x' y', Z.max (Z.abs x') (Z.abs y') = (R - 1)%Z /\ hform A B (IZR x') (IZR y') <= hform A B (IZR R) (IZR y).
Proof.
  intros HA HB HR Hy. pose proof (IZR_le _ _ HR) as HR'. assert (AB : 0 < A * B) by nra. assert (AA : 0 < A * A) by nra. assert (BB : 0 < B * B) by nra.
  destruct (Z.le_gt_cases 0 y) as [Y0|Y0].
  - destruct (Z.le_gt_cases y (R - 1)) as [Y1|Y1].
    + exists (R - 1)%Z, y. split; [lia|]. apply IZR_le in Y0. rewrite minus_IZR. unfold hform, hq. nra.
    + assert (y = R) by lia. subst y. exists (R - 1)%Z, (R - 1)%Z. split; [lia|]. rewrite minus_IZR. unfold hform, hq.
      assert (0 <= (2 * IZR R - 1)) by lra. nra.
  - destruct (Z.eq_dec y (- R)) as [->|Y1].
    + exists (R - 1)%Z, (- (R - 1))%Z. split; [lia|]. rewrite !opp_IZR, minus_IZR. unfold hform, hq.
      assert (P : 0 <= A * A - A * B + B * B) by nra. assert (0 <= 2 * IZR R - 1) by lra. nra.
    + set (z := (- y)%Z). assert (Hz : (1 <= z <= R - 1)%Z) by lia. replace y with (- z)%Z by lia. clearbody z. clear Hy Y0 Y1 y.
      assert (Z1 : 1 <= IZR z) by (apply IZR_le; lia). rewrite opp_IZR.
      destruct (Rle_dec (B * IZR z) (A * (2 * IZR R - 1))) as [C|C].
      * exists (R - 1)%Z, (- z)%Z. split; [lia|]. rewrite opp_IZR, minus_IZR. unfold hform, hq. nra.
      * exists (R - 1)%Z, 0%Z. split; [lia|]. rewrite minus_IZR. unfold hform, hq. set (r := IZR R) in *. set (w := B * IZR z) in *.
        assert (W : A * (2 * r - 1) < w) by lra.
        assert (L1 : A * r * (A * r) + A * r * (B * - IZR z) + B * - IZR z * (B * - IZR z) = (A * r - w / 2) * (A * r - w / 2) + 3 / 4 * (w * w)) by (unfold w; field).
        rewrite L1. assert (P : 0 < A * (2 * r - 1)) by nra. assert (L2 : A * (2 * r - 1) * (A * (2 * r - 1)) <= w * w) by nra.
        pose proof (Rle_0_sqr (A * r - w / 2)) as Sq. unfold Rsqr in Sq. assert (L3 : A * (r - 1) * (A * (r - 1)) <= 3 / 4 * (A * (2 * r - 1) * (A * (2 * r - 1)))).
        { replace (A * (2 * r - 1) * (A * (2 * r - 1))) with (A * A * ((2 * r - 1) * (2 * r - 1))) by ring. replace (A * (r - 1) * (A * (r - 1))) with (A * A * ((r - 1) * (r - 1))) by ring.
          replace (3 / 4 * (A * A * ((2 * r - 1) * (2 * r - 1)))) with (A * A * (3 / 4 * ((2 * r - 1) * (2 * r - 1)))) by ring. apply Rmult_le_compat_l; nra. }
        nra.
Qed.
Lemma hform_opp A B x y : hform A B (- x) (- y) = hform A B x y. Proof. unfold hform, hq. ring. Qed.
Lemma hform_swap A B x y : hform A B x y = hform B A y x. Proof. unfold hform, hq. ring. Qed.
Lemma hform_layer1 (A B : R) (x y : Z) : 0 < A -> 0 < B -> (2 <= Z.abs x)%Z -> (Z.abs y <= Z.abs x)%Z ->
  exists x' y', Z.max (Z.abs x') (Z.abs y') = (Z.abs x - 1)%Z /\ hform A B (IZR x') (IZR y') <= hform A B (IZR x) (IZR y).
Proof.
  intros HA HB Hx Hy. destruct (Z.le_gt_cases 0 x) as [P|P].
  - rewrite (Z.abs_eq x P) in *. now apply hform_layer_aux.
  - destruct (hform_layer_aux A B (Z.abs x) (- y)%Z HA HB Hx ltac:(lia)) as (x' & y' & E & Q). exists x', y'. split; [exact E|].
    replace (Z.abs x) with (- x)%Z in Q by lia. rewrite !opp_IZR, hform_opp in Q. exact Q.
Qed.
Lemma hform_layer (A B : R) (x y : Z) : 0 < A -> 0 < B -> (2 <= Z.max (Z.abs x) (Z.abs y))%Z ->
  exists x' y', Z.max (Z.abs x') (Z.abs y') = (Z.max (Z.abs x) (Z.abs y) - 1)%Z /\ hform A B (IZR x') (IZR y') <= hform A B (IZR x) (IZR y).
Proof.
  intros HA HB H. destruct (Z.le_gt_cases (Z.abs y) (Z.abs x)) as [C|C].
  - rewrite Z.max_l in * by lia. now apply hform_layer1.
  - rewrite (Z.max_r (Z.abs x)) in * by lia. destruct (hform_layer1 B A y x HB HA H ltac:(lia)) as (y' & x' & E & Q). exists x', y'. split; [rewrite Z.max_comm; exact E|].
    now rewrite hform_swap, (hform_swap A B (IZR x)).
Qed.
Lemma scaled_hex_norm n0 n1 x y : norm (combination [x; y] (scale_rows [n0; n1] hex)) = sqrt (hform (IZR n0) (IZR n1) x y).
Proof.
  unfold hform. rewrite <- hex_norm. f_equal. unfold hex. cbn [scale_rows combination vscale vadd v0]. apply p3_eq; ring.
Qed.
Lemma hex_translations_steady n0 n1 : (1 <= n0)%Z -> (1 <= n1)%Z -> steady (scale_rows [n0; n1] hex) [v0].
Proof.
  intros H0 H1 p q ns [<-|[]] [<-|[]] Ln R2. destruct ns as [|x [|y [|]]]; try discriminate.
  assert (D : forall u, dist (vadd u v0) v0 = norm u) by (intros u; rewrite vadd_0_r; unfold dist; now rewrite vsub_0_r).
  cbn [reach] in R2. rewrite (Z.max_l (Z.abs y) 0) in R2 by lia.
  destruct (hform_layer (IZR n0) (IZR n1) x y) as (x' & y' & E & Q); [apply IZR_lt; lia|apply IZR_lt; lia|exact R2|].
  exists v0, v0, [x'; y']. split; [now left|]. split; [now left|]. split; [reflexivity|]. split; [cbn [reach]; lia|].
  rewrite !D. unfold shift. cbn [map]. rewrite !scaled_hex_norm. now apply sqrt_le_1_alt.
Qed.
Lemma hex_wide n0 n1 : (1 <= n0)%Z -> (1 <= n1)%Z -> wide (scale_rows [n0; n1] hex).
Proof.
  intros H0 H1 xs t Lx Ht _. destruct xs as [|x [|y [|]]]; try discriminate. rewrite scaled_hex_norm. assert (Ht2 : (t < 2)%nat) by exact Ht.
  assert (P0 : 0 < IZR n0) by (apply IZR_lt; lia). assert (P1 : 0 < IZR n1) by (apply IZR_lt; lia).
  assert (N : forall k, norm (nth k hex v0) = 1 \/ (2 <= k)%nat).
  { intros k. pose proof s3_sq as Q. destruct k as [|[|k]]; [left|left|right; lia]; cbn [nth hex]; unfold norm; cbn [vdot]; (match goal with |- sqrt ?e = 1 => replace e with 1 by nra end); apply sqrt_1. }
  assert (G : forall a b, Rabs a * Rabs a <= 4 * hq a b).
  { intros a b. rewrite <- Rabs_mult. unfold hq. assert (0 <= a * a) by nra. rewrite Rabs_right by lra. nra. }
  assert (K : forall s h, 0 <= s -> 0 <= h -> s * s <= 4 * h -> s <= 2 * sqrt h).
  { intros s h Hs Hh HH. pose proof (sqrt_pos h) as SP. pose proof (sqrt_sqrt h Hh) as SS. apply Rsqr_incr_0_var; unfold Rsqr; nra. }
  destruct t as [|[|t]]; [| |lia].
  - destruct (N 0%nat) as [E|]; [|lia]. cbn [nth scale_rows hex] in E |- *. rewrite norm_scale, E, (Rabs_right (IZR n0)) by lra. unfold hform.
    apply K; [pose proof (Rabs_pos x); nra|apply hq_nonneg|]. specialize (G (IZR n0 * x) (IZR n1 * y)). rewrite Rabs_mult, (Rabs_right (IZR n0)) in G by lra. nra.
  - destruct (N 1%nat) as [E|]; [|lia]. cbn [nth scale_rows hex] in E |- *. rewrite norm_scale, E, (Rabs_right (IZR n1)) by lra. unfold hform.
    apply K; [pose proof (Rabs_pos y); nra|apply hq_nonneg|]. specialize (G (IZR n1 * y) (IZR n0 * x)). rewrite Rabs_mult, (Rabs_right (IZR n1)) in G by lra. unfold hq in *. nra.
Qed.

(** The three cells. *)
Lemma central_intro a b : -1 <= a - b <= 1 -> -1 <= 2 * a + b <= 1 -> -1 <= a + 2 * b <= 1 -> central a b.
Proof. intros. repeat split; now apply Rabs_le. Qed.
Lemma common_hexagonal s c : In (s, c) common_cells -> In s ["triangle"; "honeycomb"; "kagome"]%string -> hexagonal c.
Proof.
  intros H Hs. cbn [common_cells In] in H. cbn in Hs. repeat destruct H as [H|H]; try contradiction; injection H as <- <-; try (exfalso; repeat destruct Hs as [Hs|Hs]; try discriminate Hs; exact Hs);
    (split; [reflexivity|]); intros p q Hp Hq.
  - cbn [cpoints triangle_cell In] in Hp, Hq. destruct Hp as [<-|[]], Hq as [<-|[]]. exists 0, 0. split; [apply central_intro; lra|]. unfold hex. cbn [combination vscale vadd vsub v0]. apply p3_eq; ring.
  - cbn [cpoints honeycomb_cell In] in Hp, Hq. rewrite !inv_s3 in Hp, Hq.
    assert (G : exists x, (x = 0 \/ x = 1 \/ x = -1) /\ vsub p q = (0, x * (sqrt 3 / 3), 0)).
    { destruct Hp as [<-|[<-|[]]], Hq as [<-|[<-|[]]]; [exists 0|exists (-1)|exists 1|exists 0]; (split; [tauto|]); cbn [vsub]; apply p3_eq; lra. }
    destruct G as (x & Hx & E). exists (- x / 3), (2 * x / 3). split; [destruct Hx as [->|[->| ->]]; apply central_intro; lra|].
    rewrite E. unfold hex. cbn [combination vscale vadd v0]. apply p3_eq; lra.
  - cbn [cpoints kagome_cell In] in Hp, Hq.
    assert (G : exists x y, ((x, y) = (0, 0) \/ (x, y) = (0, 1) \/ (x, y) = (0, -1) \/ (x, y) = (1, 0) \/ (x, y) = (-1, 0) \/ (x, y) = (1, -1) \/ (x, y) = (-1, 1)) /\ vsub p q = (x / 2 + y / 4, y * (sqrt 3 / 4), 0)).
    { destruct Hp as [<-|[<-|[<-|[]]]], Hq as [<-|[<-|[<-|[]]]]; [exists 0, 0|exists 0, (-1)|exists (-1), 0|exists 0, 1|exists 0, 0|exists (-1), 1|exists 1, 0|exists 1, (-1)|exists 0, 0]; (split; [tauto|]); cbn [vsub]; apply p3_eq; lra. }
    destruct G as (x & y & Hx & E). exists (x / 2), (y / 2). split.
    + repeat destruct Hx as [Hx|Hx]; injection Hx as -> ->; apply central_intro; lra.
    + rewrite E. unfold hex. cbn [combination vscale vadd v0]. apply p3_eq; lra.
Qed.
