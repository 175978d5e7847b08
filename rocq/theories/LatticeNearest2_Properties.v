(** C37: the nearest-neighbour bonds of the generated clusters. *)
From Coq Require Import String List Reals ZArith Bool Arith Lra Lia Permutation.
From Flocq Require Import Core.Raux.
From Verif Require Import Py CVec LinSolve Line2D_Model Line2D_Proofs Lattice_Model Lattice_Spec Lattice_Proofs Lattice_Proofs2 Lattice_Proofs3 Lattice_Properties LatticeCases_Properties
  Neighbors_Spec Neighbors_Proofs Neighbors_Proofs2 Neighbors_Properties NeighborsCases_Properties LatticeBonds_Spec LatticeBonds_Properties LatticeGen_Model LatticeGen_Spec LatticeGen_Proofs LatticeGen_Properties
  LatticeBondsCases_Properties LatticeHex_Proofs LatticeNice_Properties LatticeNearest_Spec LatticeNearest_Properties.
Import ListNotations.
Open Scope R_scope.

(** The nearest-neighbour distance of the six lattices. *)
Definition spacing (s : string) : R := if String.eqb s "honeycomb" then / sqrt 3 else if String.eqb s "kagome" then 1 / 2 else 1.

(** ** distances of the infinite lattices *)
Lemma level (N : Z) delta x : 1 / 2 <= delta -> 0 < x -> x = sqrt (IZR N * (delta * delta)) -> (N <> 2%Z \/ delta = 1) -> x = delta \/ delta + 3 / 10 <= x.
Proof.
  intros Hd Hx E HN. assert (D2 : 0 < delta * delta) by nra.
  assert (N1 : (1 <= N)%Z).
  { destruct (Z.le_gt_cases 1 N) as [H|H]; [exact H|exfalso]. assert (IZR N <= 0) by (apply IZR_le; lia). rewrite E, sqrt_neg_0 in Hx by nra. lra. }
  assert (G : forall k, 0 <= k -> (k * k) * (delta * delta) <= IZR N * (delta * delta) -> k * delta <= x).
  { intros k Hk H. rewrite E. replace (k * delta) with (sqrt (k * k * (delta * delta))); [now apply sqrt_le_1_alt|]. replace (k * k * (delta * delta)) with ((k * delta) * (k * delta)) by ring. apply sqrt_square. nra. }
  destruct (Z.eq_dec N 1) as [->|M1]; [left; rewrite E, Rmult_1_l; apply sqrt_square; lra|right].
  destruct (Z.eq_dec N 2) as [->|M2].
  - destruct HN as [HN|HN]; [now contradiction HN|]. specialize (G (14 / 10) ltac:(lra)). subst delta. lra.
  - assert (3 <= IZR N) by (apply IZR_le; lia). specialize (G (17 / 10) ltac:(lra) ltac:(nra)). lra.
Qed.
Definition H2 (x y : Z) : Z := (x * x + x * y + y * y)%Z.
Lemma H2_not_2 x y : H2 x y <> 2%Z.
Proof.
  unfold H2. intros E. assert (Y : (-1 <= y <= 1)%Z) by nia. assert (X : (-1 <= x <= 1)%Z) by nia.
  assert (Cy : (y = -1 \/ y = 0 \/ y = 1)%Z) by lia. assert (Cx : (x = -1 \/ x = 0 \/ x = 1)%Z) by lia. destruct Cy as [->|[->| ->]], Cx as [->|[->| ->]]; discriminate.
Qed.
Lemma half_sq : 1 / 2 * (1 / 2) = / 4. Proof. lra. Qed.
Lemma third_sq : / sqrt 3 * / sqrt 3 = / 3.
Proof. pose proof s3_pos. pose proof s3_sq as Q. rewrite <- Rinv_mult, Q. reflexivity. Qed.
Lemma spacing_half s c : In (s, c) common_cells -> 1 / 2 <= spacing s <= 1.
Proof.
  intros H. pose proof s3_bounds as B. pose proof s3_pos. assert (1 / 2 <= / sqrt 3 <= 1).
  { split; [apply (Rmult_le_reg_r (sqrt 3)); [lra|]; rewrite Rinv_l by lra; lra|apply (Rmult_le_reg_r (sqrt 3)); [lra|]; rewrite Rinv_l by lra; lra]. }
  unfold spacing. destruct (String.eqb s "honeycomb"); [assumption|]. destruct (String.eqb s "kagome"); lra.
Qed.
(** A distance of two sites is the root of an integer multiple of the squared spacing. *)
Lemma site_multiple s c a b ms ks : In (s, c) common_cells -> is_site c a ms -> is_site c b ks ->
  exists N : Z, dist (site c a ms) (site c b ks) = sqrt (IZR N * (spacing s * spacing s)) /\ (N <> 2%Z \/ spacing s = 1).
Proof.
  intros H [Ha Hm] [Hb Hk].
  cbn [common_cells In] in H. repeat destruct H as [H|H]; try contradiction; injection H as <- <-; cbn [cpoints cvectors chain_cell square_cell triangle_cell honeycomb_cell kagome_cell cubic_cell List.length] in Ha, Hm, Hb, Hk;
    repeat (destruct ms as [|? ms]; try discriminate Hm); repeat (destruct ks as [|? ks]; try discriminate Hk).
  - assert (a = O) by lia. assert (b = O) by lia. subst. exists ((z - z0) * (z - z0))%Z. split; [|right; reflexivity]. unfold dist, norm. f_equal. unfold site, shift, spacing.
    cbn [String.eqb Ascii.eqb Bool.eqb chain_cell cpoints cvectors nth map combination vscale vadd vsub vdot v0]. rewrite mult_IZR, minus_IZR. ring.
  - assert (a = O) by lia. assert (b = O) by lia. subst. exists ((z - z1) * (z - z1) + (z0 - z2) * (z0 - z2))%Z. split; [|right; reflexivity]. unfold dist, norm. f_equal. unfold site, shift, spacing.
    cbn [String.eqb Ascii.eqb Bool.eqb square_cell cpoints cvectors nth map combination vscale vadd vsub vdot v0]. rewrite plus_IZR, !mult_IZR, !minus_IZR. ring.
  - assert (a = O) by lia. assert (b = O) by lia. subst. exists (H2 (z - z1) (z0 - z2)). split; [|right; reflexivity]. rewrite (hex_site_dist triangle_cell 0 0 _ _ _ _ 0 0 eq_refl).
    + f_equal. unfold spacing, hq, H2. cbn [String.eqb Ascii.eqb Bool.eqb]. rewrite !plus_IZR, !mult_IZR. ring.
    + unfold hex. cbn [triangle_cell cpoints nth combination vscale vadd vsub v0]. apply p3_eq; ring.
  - assert (G : exists t : Z, (t = 0 \/ t = 1 \/ t = -1)%Z /\ vsub (nth a (cpoints honeycomb_cell) v0) (nth b (cpoints honeycomb_cell) v0) = (0, IZR t * (sqrt 3 / 3), 0)).
    { cbn [cpoints honeycomb_cell]. rewrite !inv_s3. destruct a as [|[|a]]; [| |lia]; (destruct b as [|[|b]]; [| |lia]); [exists 0%Z|exists (-1)%Z|exists 1%Z|exists 0%Z]; (split; [tauto|]); cbn [nth vsub]; apply p3_eq; lra. }
    destruct G as (t & Ht & E). exists (3 * H2 (z - z1) (z0 - z2) + 3 * t * (z0 - z2) + t * t)%Z. split.
    + rewrite (hex_site_dist honeycomb_cell a b _ _ _ _ (- IZR t / 3) (2 * IZR t / 3) eq_refl).
      * f_equal. unfold spacing. cbn [String.eqb Ascii.eqb Bool.eqb]. rewrite third_sq. unfold hq, H2. rewrite !plus_IZR, !mult_IZR, !plus_IZR, !mult_IZR, !minus_IZR. field.
      * rewrite E. unfold hex. cbn [combination vscale vadd v0]. apply p3_eq; lra.
    + left. intros E2. assert (T : (t * t = 0 \/ t * t = 1)%Z) by (destruct Ht as [->|[->| ->]]; lia). rewrite <- Z.mul_assoc in E2. lia.
  - assert (G : exists x y : Z, vsub (nth a (cpoints kagome_cell) v0) (nth b (cpoints kagome_cell) v0) = (IZR x / 2 + IZR y / 4, IZR y * (sqrt 3 / 4), 0)).
    { cbn [cpoints kagome_cell]. destruct a as [|[|[|a]]]; [| | |lia]; (destruct b as [|[|[|b]]]; [| | |lia]); [exists 0%Z, 0%Z|exists 0%Z, (-1)%Z|exists (-1)%Z, 0%Z|exists 0%Z, 1%Z|exists 0%Z, 0%Z|exists (-1)%Z, 1%Z|exists 1%Z, 0%Z|exists 1%Z, (-1)%Z|exists 0%Z, 0%Z]; cbn [nth vsub]; apply p3_eq; lra. }
    destruct G as (x & y & E). exists (H2 (2 * (z - z1) + x) (2 * (z0 - z2) + y)). split; [|left; apply H2_not_2].
    rewrite (hex_site_dist kagome_cell a b _ _ _ _ (IZR x / 2) (IZR y / 2) eq_refl).
    + f_equal. unfold spacing. cbn [String.eqb Ascii.eqb Bool.eqb]. rewrite half_sq. unfold hq, H2. rewrite !plus_IZR, !mult_IZR, !plus_IZR, !mult_IZR, !minus_IZR. field.
    + rewrite E. unfold hex. cbn [combination vscale vadd v0]. apply p3_eq; lra.
  - assert (a = O) by lia. assert (b = O) by lia. subst. exists ((z - z2) * (z - z2) + (z0 - z3) * (z0 - z3) + (z1 - z4) * (z1 - z4))%Z. split; [|right; reflexivity]. unfold dist, norm. f_equal. unfold site, shift, spacing.
    cbn [String.eqb Ascii.eqb Bool.eqb cubic_cell cpoints cvectors nth map combination vscale vadd vsub vdot v0]. rewrite !plus_IZR, !mult_IZR, !minus_IZR. ring.
Qed.

Lemma site_levels s c a b ms ks : In (s, c) common_cells -> is_site c a ms -> is_site c b ks -> 0 < dist (site c a ms) (site c b ks) ->
  dist (site c a ms) (site c b ks) = spacing s \/ spacing s + 3 / 10 <= dist (site c a ms) (site c b ks).
Proof.
  intros H Ha Hb Hpos. pose proof (spacing_half s c H) as SB. destruct (site_multiple s c a b ms ks H Ha Hb) as (N & E & HN). apply (level N); auto. lra.
Qed.

(** ** some two points are that near *)
Lemma unit_step nums : forall vs, List.length nums = List.length vs -> Forall (fun n => (1 <= n)%Z) nums -> Forall (fun v => norm v = 1) vs ->
  Forall (fun n => n = 1%Z) nums \/ exists e, box nums e /\ norm (shift e vs) = 1.
Proof.
  induction nums as [|n nums IH]; intros [|v vs] Hl F N; try discriminate; [left; constructor|]. inversion F as [|? ? F1 F2]; subst. inversion N as [|? ? N1 N2]; subst. injection Hl as Hl.
  assert (Z0 : box nums (repeat 0%Z (List.length nums))) by (clear - F2; induction F2 as [|m l Hm _ IH2]; [constructor|constructor; [lia|exact IH2]]).
  destruct (Z.eq_dec n 1) as [->|M].
  - destruct (IH vs Hl F2 N2) as [A|(e & B & E)]; [left; now constructor|right]. exists (0%Z :: e). split; [constructor; [lia|exact B]|]. unfold shift in *. cbn [map combination].
    replace (vadd (vscale 0 v) (combination (map IZR e) vs)) with (combination (map IZR e) vs) by (generalize (combination (map IZR e) vs); vring). exact E.
  - right. exists (1%Z :: repeat 0%Z (List.length nums)). split; [constructor; [lia|exact Z0]|]. assert (S0 : shift (repeat 0%Z (List.length nums)) vs = v0) by (rewrite Hl; apply shift_zero). unfold shift in *. cbn [map combination]. rewrite S0.
    replace (vadd (vscale 1 v) v0) with v by vring. exact N1.
Qed.
Lemma position_zero nums : position nums (repeat 0%Z (List.length nums)) = 0%Z.
Proof. induction nums as [|n nums IH]; [reflexivity|]. cbn [List.length repeat position]. lia. Qed.
Lemma zeros_box nums : Forall (fun n => (1 <= n)%Z) nums -> box nums (repeat 0%Z (List.length nums)).
Proof. induction 1 as [|m l Hm _ IH]; [constructor|constructor; [lia|exact IH]]. Qed.
Lemma cell_attained s c nums L : In (s, c) common_cells -> Forall (fun n => (1 <= n)%Z) nums -> List.length nums = List.length (cvectors c) ->
  points L = cluster c nums -> vectors L = scale_rows nums (cvectors c) -> attained L (spacing s).
Proof.
  intros H F Hl Ep Ev. pose proof (zeros_box nums F) as B0. pose proof (count_nonneg nums F) as C0.
  assert (At : forall j ns, box nums ns -> (j < List.length (cpoints c))%nat -> (Z.to_nat (position nums ns) * List.length (cpoints c) + j < List.length (points L))%nat /\
    nth (Z.to_nat (position nums ns) * List.length (cpoints c) + j) (points L) v0 = site c j ns).
  { intros j ns B Hj. rewrite Ep. split; [|now apply cluster_nth]. rewrite cluster_length by exact F. pose proof (position_range _ _ B). nia. }
  assert (Z0 : shift (repeat 0%Z (List.length nums)) (cvectors c) = v0) by (rewrite Hl; apply shift_zero).
  assert (Two : (1 < List.length (cpoints c))%nat -> dist (nth 0 (cpoints c) v0) (nth 1 (cpoints c) v0) = spacing s -> attained L (spacing s)).
  { intros H1 E. left. destruct (At 0%nat _ B0 ltac:(lia)) as [A0 E0]. destruct (At 1%nat _ B0 H1) as [A1 E1]. rewrite position_zero in *. cbn [Z.to_nat Nat.mul Nat.add] in *. exists 0%nat, 1%nat. split; [lia|]. rewrite E0, E1. unfold site. rewrite Z0, !vadd_0_r. exact E. }
  assert (One : List.length (cpoints c) = 1%nat -> cvectors c <> [] -> Forall (fun v => norm v = 1) (cvectors c) -> spacing s = 1 -> attained L (spacing s)).
  { intros H1 Hn N ->. destruct (unit_step nums (cvectors c) Hl F N) as [O1|(e & Be & E)].
    - right. split; [rewrite Ep, ones_cluster by exact O1; exact H1|]. exists (nth 0 (cvectors c) v0). rewrite Ev, ones_scale by assumption. assert (I0 : In (nth 0 (cvectors c) v0) (cvectors c)) by (destruct (cvectors c); [contradiction|now left]).
      split; [exact I0|]. rewrite Forall_forall in N. now apply N.
    - left. destruct (At 0%nat _ B0 ltac:(lia)) as [A0 E0]. destruct (At 0%nat _ Be ltac:(lia)) as [A1 E1]. rewrite position_zero in *. cbn [Z.to_nat Nat.mul Nat.add] in *.
      assert (D : dist (site c 0 (repeat 0%Z (List.length nums))) (site c 0 e) = 1). { rewrite dist_sym. unfold dist, site. rewrite Z0, vadd_0_r, vadd_sub. exact E. }
      set (j := (Z.to_nat (position nums e) * List.length (cpoints c) + 0)%nat) in *. exists 0%nat, j. rewrite E0, E1. split; [|exact D].
      destruct j; [|lia]. rewrite E0 in E1. rewrite E1, dist_refl in D. lra. }
  pose proof s3_sq as Q. pose proof s3_pos as P3.
  assert (U : norm (1, 0, 0) = 1) by (apply norm_x; lra).
  assert (U2 : norm (0.5, sqrt 3 / 2, 0) = 1) by (unfold norm; replace (vdot _ _) with 1 by (cbn [vdot]; nra); apply sqrt_1).
  cbn [common_cells In] in H. repeat destruct H as [H|H]; try contradiction; injection H as <- <-.
  - apply One; [reflexivity|discriminate|repeat apply Forall_cons; auto|reflexivity].
  - apply One; [reflexivity|discriminate|repeat apply Forall_cons; auto|reflexivity]. unfold norm. replace (vdot _ _) with 1 by (cbn [vdot]; ring). apply sqrt_1.
  - apply One; [reflexivity|discriminate|repeat apply Forall_cons; auto|reflexivity].
  - apply Two; [cbn; lia|]. cbn [nth cpoints honeycomb_cell]. unfold spacing. cbn [String.eqb Ascii.eqb Bool.eqb]. unfold dist, norm. cbn [vsub vdot].
    assert (Hy : -0.5 / sqrt 3 - 0.5 / sqrt 3 = - / sqrt 3) by (unfold Rdiv; lra). rewrite Hy. match goal with |- sqrt ?e = _ => replace e with (/ sqrt 3 * / sqrt 3) by ring end. apply sqrt_square. apply Rlt_le, Rinv_0_lt_compat; lra.
  - apply Two; [cbn; lia|]. cbn [nth cpoints kagome_cell]. unfold spacing. cbn [String.eqb Ascii.eqb Bool.eqb]. unfold dist, norm. cbn [vsub vdot].
    match goal with |- sqrt ?e = _ => replace e with (1 / 2 * (1 / 2)) by nra end. apply sqrt_square. lra.
  - apply One; [reflexivity|discriminate|repeat apply Forall_cons; auto|reflexivity]; unfold norm; (replace (vdot _ _) with 1 by (cbn [vdot]; ring)); apply sqrt_1.
Qed.

(** All clusters have that nearest-neighbour distance, well separated from the next. *)
Theorem C37_spacing : forall prec s c n0 n1 n2 L d0, (1 <= prec)%nat -> In (s, c) common_cells -> (1 <= n0)%Z -> (1 <= n1)%Z -> (1 <= n2)%Z ->
  lattice_generator prec (Name s) (AnInt n0) (AnInt n1) (AnInt n2) = Ok (L, d0) -> view prec <= spacing s /\ next_gap prec L (spacing s) /\ attained L (spacing s).
Proof.
  intros prec s c n0 n1 n2 L d0 Hpr H H0 H1 H2' E.
  destruct (C37_suitable prec s c n0 n1 n2 L d0 Hpr H H0 H1 H2' E) as (Sp & Hres & _).
  destruct (C37_generator prec s c n0 n1 n2 Hpr H H0 H1 H2') as (L' & d' & E' & _ & _ & _ & _ & _ & _ & _ & Ti & _). rewrite E in E'. injection E' as <- <-.
  destruct (extents_ok s c n0 n1 n2 H H0 H1 H2') as [F Hl]. pose proof (common_gridded s c H) as g.
  destruct (cluster_accepted prec c g _ Hpr F Hl) as (L' & d' & E' & E1 & E2 & E3 & _). pose proof E as Eg. rewrite (generator_build prec s c) in Eg by auto. rewrite E' in Eg. injection Eg as -> ->.
  pose proof (spacing_half s c H) as SB. pose proof (view_tenth prec Hpr) as VT. pose proof (view_pos prec) as VP.
  split; [lra|]. split; [|now apply (cell_attained s c (extents c n0 n1 n2))].
  intros i j ns Hi Hj Ln D x. pose proof (Hres i j ns Hi Hj Ln D) as G. fold x in G.
  destruct (Ti i ns Hi Ln) as (a & ms & Sa & Ea). destruct (Ti j (repeat 0%Z (List.length (vectors L))) Hj (repeat_length _ _)) as (b & ks & Sb & Eb). rewrite shift_zero, vadd_0_r in Eb.
  unfold x in *. clear x. rewrite Ea, Eb in *. destruct (site_levels s c a b ms ks H Sa Sb ltac:(lra)) as [X|X]; [now left|right; lra].
Qed.
Print Assumptions C37_spacing.

(** All clusters of lattice_generator, after every history: bonds(1) lists each
    pair of nearest neighbours once and no other pair, if the nearest-neighbour
    distance is not lowered by rounding it, which matters for the honeycomb only. *)
Theorem C37_nearest : forall prec s c n0 n1 n2 L d0 ord pord d only fold, (1 <= prec)%nat -> In (s, c) common_cells -> (1 <= n0)%Z -> (1 <= n1)%Z -> (1 <= n2)%Z ->
  lattice_generator prec (Name s) (AnInt n0) (AnInt n1) (AnInt n2) = Ok (L, d0) -> listing ord -> listing pord -> reachable prec L ord d0 d ->
  (s = "honeycomb"%string -> / sqrt 3 <= rounded prec (/ sqrt 3)) ->
  exists F, forall fuel, (F <= fuel)%nat -> exists intra inter T, fst (bonds L ord pord fuel prec d (AnInt 1) only fold) = Some (Ok (intra, Some inter)) /\
    lists_intra L (fun x => x = spacing s) intra /\ lists_inter L (fun x => x = spacing s) fold inter T /\
    forall k, valid L k -> crossing k -> len L k = spacing s -> In k T \/ In (opposite k) T.
Proof.
  intros prec s c n0 n1 n2 L d0 ord pord d only fold Hpr H H0 H1 H2' E Ho Hpo Hr Hh. destruct (C37_nice prec s c n0 n1 n2 L d0 Hpr H H0 H1 H2' E) as (HL & Ni & _ & _).
  destruct (C37_suitable prec s c n0 n1 n2 L d0 Hpr H H0 H1 H2' E) as (Sp & _). destruct (C37_spacing prec s c n0 n1 n2 L d0 Hpr H H0 H1 H2' E) as (V & G & A).
  rewrite (generator_build prec s c) in E by auto. rewrite (fresh_of_constructor _ _ _ _ _ E) in Hr.
  apply C36_nearest; auto. unfold spacing in *. destruct (String.eqb_spec s "honeycomb") as [Es|_]; [now apply Hh|]. apply Req_le. unfold rounded. pose proof (zoom_pos prec) as Z0.
  destruct (String.eqb s "kagome").
  - destruct prec as [|p]; [lia|]. replace (1 / 2 * zoom (S p)) with (IZR (5 * 10 ^ Z.of_nat p)) by (rewrite mult_IZR, <- zoom_Z; unfold zoom; cbn [pow]; field). rewrite rint_IZR, mult_IZR, <- zoom_Z. unfold zoom in *. cbn [pow] in *. field. apply pow_nonzero. lra.
  - rewrite Rmult_1_l, zoom_Z, rint_IZR. field. rewrite <- zoom_Z. lra.
Qed.
Print Assumptions C37_nearest.

(** With the default precision 4 it holds for the honeycomb too: 0.5774. *)
Lemma s3_close : 173205 / 100000 < sqrt 3 < 173206 / 100000.
Proof. pose proof s3_pos. pose proof s3_sq. split; [apply Rnot_le_lt; intros H1; nra|apply Rnot_le_lt; intros H1; nra]. Qed.
Theorem C37_nearest_default : rounded 4 (/ sqrt 3) = 5774 / 10000 /\ / sqrt 3 <= rounded 4 (/ sqrt 3).
Proof.
  pose proof s3_close as C. assert (I : / sqrt 3 = sqrt 3 / 3) by (pose proof (inv_s3 1) as I; unfold Rdiv in I at 1; lra). assert (Z4 : zoom 4 = 10000) by (unfold zoom; cbn; lra).
  assert (R4 : rint (/ sqrt 3 * zoom 4) = 5774%Z).
  { rewrite Z4, I. pose proof (rint_half (sqrt 3 / 3 * 10000)) as B. apply Rabs_le_inv in B. assert (A1 : 5773 < IZR (rint (sqrt 3 / 3 * 10000))) by lra. assert (A2 : IZR (rint (sqrt 3 / 3 * 10000)) < 5775) by lra.
    apply lt_IZR in A1. apply lt_IZR in A2. lia. }
  unfold rounded. rewrite R4, Z4. split; [reflexivity|]. rewrite I. lra.
Qed.
Print Assumptions C37_nearest_default.

(** With precision 3 it does not: 0.577 < 1/sqrt 3.  On every honeycomb cluster
    bonds(1) then lists no bond that leaves the cluster, although there is one. *)
Theorem C37_nearest_refuted : forall n0 n1 n2 ord pord, (1 <= n0)%Z -> (1 <= n1)%Z -> (1 <= n2)%Z -> listing ord -> listing pord ->
  exists L d0, lattice_generator 3 (Name "honeycomb") (AnInt n0) (AnInt n1) (AnInt n2) = Ok (L, d0) /\
    (exists k, valid L k /\ crossing k /\ len L k = spacing "honeycomb") /\
    forall d only fold, reachable 3 L ord d0 d -> exists F, forall fuel, (F <= fuel)%nat -> exists intra, fst (bonds L ord pord fuel 3 d (AnInt 1) only fold) = Some (Ok (intra, Some [])) /\
      lists_intra L (fun x => x = spacing "honeycomb") intra.
Proof.
  intros n0 n1 n2 ord pord H0 H1 H2' Ho Hpo. assert (H : In ("honeycomb"%string, honeycomb_cell) common_cells) by (cbn; tauto).
  destruct (C37_generator 3 "honeycomb" honeycomb_cell n0 n1 n2 ltac:(lia) H H0 H1 H2') as (L & d0 & E & HL & _ & Lv & Nv & Lp & At & _). exists L, d0. split; [exact E|]. split.
  - cbn [cvectors honeycomb_cell List.length firstn] in *. cbn [cpoints honeycomb_cell List.length] in Lp, At.
    assert (B0 : box [n0; n1] [0; 0]%Z) by (repeat constructor; lia). assert (B1 : box [n0; n1] [0; n1 - 1]%Z) by (repeat constructor; lia).
    pose proof (At _ 0%nat B0 ltac:(lia)) as A0. pose proof (At _ 1%nat B1 ltac:(lia)) as A1. pose proof (position_range _ _ B0) as P0. pose proof (position_range _ _ B1) as P1.
    set (i := (Z.to_nat (position [n0; n1] [0; n1 - 1]%Z) * 2 + 1)%nat) in *. set (j := (Z.to_nat (position [n0; n1] [0; 0]%Z) * 2 + 0)%nat) in *.
    assert (Hi : (i < List.length (points L))%nat) by (unfold i; lia). assert (Hj : (j < List.length (points L))%nat) by (unfold j; lia).
    exists (Link i j [0; 1]%Z). split; [repeat split; cbn [from to by_]; auto|]. split; [exists 1%Z; cbn; split; [auto|lia]|].
    unfold len, head, tail. cbn [from to by_]. rewrite A0, A1.
    assert (Et : vadd (site honeycomb_cell 0 [0; 0]%Z) (shift [0; 1]%Z (vectors L)) = site honeycomb_cell 0 [0; n1]%Z).
    { destruct (vectors L) as [|v [|w [|]]] eqn:Ev; try discriminate. pose proof (Nv 0%nat ltac:(lia)) as V0. pose proof (Nv 1%nat ltac:(lia)) as V1. cbn [nth] in V0, V1. subst v w. unfold site, shift. cbn [cvectors honeycomb_cell map combination].
      generalize (nth 0 (cpoints honeycomb_cell) v0). intros p. destruct p as [[px py] pz]. cbn [vadd vscale v0]. apply p3_eq; ring. }
    rewrite Et. rewrite (hex_site_dist honeycomb_cell 1 0 _ _ _ _ (- (1 / 3)) (2 / 3) eq_refl).
    + unfold spacing. cbn [String.eqb Ascii.eqb Bool.eqb]. replace (/ sqrt 3) with (sqrt (/ sqrt 3 * / sqrt 3)) by (apply sqrt_square, Rlt_le, Rinv_0_lt_compat, s3_pos). f_equal. rewrite third_sq. unfold hq. rewrite !minus_IZR. field.
    + cbn [cpoints honeycomb_cell nth]. rewrite !inv_s3. unfold hex. cbn [combination vscale vadd vsub v0]. apply p3_eq; lra.
  - intros d only fold Hr. destruct (C37_nice 3 "honeycomb" honeycomb_cell n0 n1 n2 L d0 ltac:(lia) H H0 H1 H2' E) as (_ & Ni & _).
    destruct (C37_suitable 3 "honeycomb" honeycomb_cell n0 n1 n2 L d0 ltac:(lia) H H0 H1 H2' E) as (Sp & _). destruct (C37_spacing 3 "honeycomb" honeycomb_cell n0 n1 n2 L d0 ltac:(lia) H H0 H1 H2' E) as (V & G & A).
    rewrite (generator_build 3 "honeycomb" honeycomb_cell) in E by auto. rewrite (fresh_of_constructor _ _ _ _ _ E) in Hr. apply C36_nearest_lowered; auto.
    unfold spacing. cbn [String.eqb Ascii.eqb Bool.eqb]. pose proof s3_close as C. assert (I : / sqrt 3 = sqrt 3 / 3) by (pose proof (inv_s3 1) as I; unfold Rdiv in I at 1; lra). assert (Z3 : zoom 3 = 1000) by (unfold zoom; cbn; lra).
    assert (R3 : rint (/ sqrt 3 * zoom 3) = 577%Z).
    { rewrite Z3, I. pose proof (rint_half (sqrt 3 / 3 * 1000)) as B. apply Rabs_le_inv in B. assert (A1 : 576 < IZR (rint (sqrt 3 / 3 * 1000))) by lra. assert (A2 : IZR (rint (sqrt 3 / 3 * 1000)) < 578) by lra.
      apply lt_IZR in A1. apply lt_IZR in A2. lia. }
    unfold rounded. rewrite R3, Z3, I. lra.
Qed.
Print Assumptions C37_nearest_refuted.
(** Non-vacuity: a 3 x 2 honeycomb cluster, the default precision. *)
Example nearest_case : exists L d0, lattice_generator 4 (Name "honeycomb") (AnInt 3) (AnInt 2) (AnInt 1) = Ok (L, d0) /\ listing (fun l : list (list Z) => l) /\ listing (fun l : list (nat * nat) => l) /\
  reachable 4 L (fun l => l) d0 d0 /\ / sqrt 3 <= rounded 4 (/ sqrt 3).
Proof.
  destruct (C37_generator 4 "honeycomb" honeycomb_cell 3 2 1) as (L & d & E & _); try lia; [cbn; tauto|]. exists L, d. split; [exact E|]. split; [intros l; apply Permutation_refl|]. split; [intros l; apply Permutation_refl|].
  split; [constructor|apply C37_nearest_default].
Qed.
