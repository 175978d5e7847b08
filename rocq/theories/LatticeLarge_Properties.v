(** C37: clusters of all six lattices that are large enough: distances and bonds
    after every history. *)
From Coq Require Import String List Reals ZArith Bool Arith Lra Lia Permutation Sorting.Sorted.
From Flocq Require Import Core.Raux.
From Verif Require Import Py CVec LinSolve Line2D_Model Line2D_Proofs Lattice_Model Lattice_Spec Lattice_Proofs Lattice_Proofs2 Lattice_Proofs3 Lattice_Properties LatticeCases_Properties
  Neighbors_Spec Neighbors_Proofs Neighbors_Proofs2 Neighbors_Properties NeighborsCases_Properties LatticeBonds_Spec LatticeBonds_Proofs LatticeBonds_Proofs2 LatticeBonds_Properties LatticeGen_Model LatticeGen_Spec LatticeGen_Proofs LatticeGen_Properties
  LatticeBondsCases_Properties LatticeHex_Proofs LatticeNice_Properties LatticeNearest_Spec LatticeNearest_Properties LatticeNearest2_Properties LatticeChain_Properties LatticeSquare_Spec LatticeSquare_Properties LatticeExact_Spec LatticeExact_Properties.
Import ListNotations.
Open Scope R_scope.

Definition diff (ms ks : list Z) : list Z := map (fun p => (fst p - snd p)%Z) (combine ms ks).
Lemma shift_diff vs : forall ms ks, List.length ms = List.length vs -> List.length ks = List.length vs -> shift (diff ms ks) vs = vsub (shift ms vs) (shift ks vs).
Proof.
  unfold shift, diff. induction vs as [|v vs IH]; intros [|x Ms] [|y Ks] H1 H2'; try discriminate; [cbn; apply p3_eq; ring|]. cbn [combine map combination fst snd]. rewrite IH by (now injection H1 + now injection H2'). rewrite minus_IZR.
  generalize (combination (map IZR Ms) vs), (combination (map IZR Ks) vs). intros [[? ?] ?] [[? ?] ?]. destruct v as [[? ?] ?]. cbn. apply p3_eq; ring.
Qed.
(** only the difference of the cells matters *)
Lemma dist_diff c a b ms ks ms' ks' : is_site c a ms -> is_site c b ks -> is_site c a ms' -> is_site c b ks' -> diff ms ks = diff ms' ks' -> dist (site c a ms) (site c b ks) = dist (site c a ms') (site c b ks').
Proof.
  intros [_ A] [_ B] [_ A'] [_ B'] E. unfold dist. f_equal. unfold site. pose proof (shift_diff (cvectors c) ms ks A B) as P. pose proof (shift_diff (cvectors c) ms' ks' A' B') as Q. rewrite E in P. rewrite P in Q. revert Q.
  generalize (shift ms (cvectors c)), (shift ks (cvectors c)), (shift ms' (cvectors c)), (shift ks' (cvectors c)), (nth a (cpoints c) v0), (nth b (cpoints c) v0). intros [[x1 x2] x3] [[y1 y2] y3] [[z1 z2] z3] [[w1 w2] w3] [[p1 p2] p3] [[q1 q2] q3]. cbn. intros Q.
  apply pair_equal_spec in Q as [Q Q3]. apply pair_equal_spec in Q as [Q1 Q2]. apply p3_eq; lra.
Qed.
(** small differences fit into the box *)
Lemma fit nums : forall ms ks, List.length ms = List.length nums -> List.length ks = List.length nums -> Forall2 (fun num t => (Z.abs t < num)%Z) nums (diff ms ks) ->
  exists ms' ks', box nums ms' /\ box nums ks' /\ diff ms' ks' = diff ms ks.
Proof.
  induction nums as [|m nums IH]; intros [|x ms] [|y ks] H1 H2' F; try discriminate.
  - exists [], []. repeat split; constructor.
  - unfold diff in F. cbn [combine map fst snd] in F. inversion F as [|? ? ? ? F1 F2]; subst. destruct (IH ms ks) as (ms' & ks' & B1 & B2 & E); [now injection H1|now injection H2'|exact F2|].
    exists (Z.max (x - y) 0 :: ms')%Z, (Z.max (y - x) 0 :: ks')%Z. split; [constructor; [lia|exact B1]|]. split; [constructor; [lia|exact B2]|]. unfold diff in *. cbn [combine map fst snd]. f_equal; [lia|exact E].
Qed.
(** near sites have near cells *)
Lemma hex_near (x : Z) (a b D y : R) : 1 <= D -> Rabs a <= 2 / 3 -> sqrt (hq (IZR x + a) (y + b)) <= D -> Rabs (IZR x) < 2 * D.
Proof.
  intros HD Ha H. pose proof (hq_nonneg (IZR x + a) (y + b)) as Q0. assert (Q : hq (IZR x + a) (y + b) <= D * D).
  { rewrite <- (sqrt_sqrt _ Q0). pose proof (sqrt_pos (hq (IZR x + a) (y + b))). apply Rmult_le_compat; auto. }
  unfold hq in Q. set (u := IZR x + a) in *. assert (U : 3 / 4 * (u * u) <= D * D) by (pose proof (Rle_0_sqr (u / 2 + (y + b))) as K; unfold Rsqr in K; lra).
  assert (Ub : Rabs u <= 12 / 10 * D). { apply Rnot_lt_le. intros C. pose proof (Rabs_pos u). assert (S1 : (12 / 10 * D) * (12 / 10 * D) < Rabs u * Rabs u) by (apply Rmult_le_0_lt_compat; lra). replace (Rabs u * Rabs u) with (u * u) in S1 by (rewrite <- Rabs_mult; symmetry; apply Rabs_right; nra). nra. }
  apply Rabs_le_inv in Ub. apply Rabs_le_inv in Ha. apply Rabs_def1; unfold u in *; lra.
Qed.
Lemma near_cells s c a b ms ks (D : Z) : In (s, c) common_cells -> is_site c a ms -> is_site c b ks -> (1 <= D)%Z -> dist (site c a ms) (site c b ks) <= IZR D -> Forall (fun t => (Z.abs t < 2 * D)%Z) (diff ms ks).
Proof.
  intros H [Ha Hm] [Hb Hk] HD Le. pose proof (IZR_le _ _ HD) as HD'.
  assert (Zlt : forall t, Rabs (IZR t) < 2 * IZR D -> (Z.abs t < 2 * D)%Z) by (intros t Ht; apply lt_IZR; now rewrite abs_IZR, mult_IZR).
  assert (Orth : forall i (t : Z), coord i (vsub (site c a ms) (site c b ks)) = IZR t -> (Z.abs t < 2 * D)%Z).
  { intros i t E. apply Zlt. rewrite <- E. eapply Rle_lt_trans; [apply coord_le_norm|]. unfold dist in Le. lra. }
  assert (Hex : hexagonal c -> List.length (cvectors c) = 2%nat -> Forall (fun t => (Z.abs t < 2 * D)%Z) (diff ms ks)).
  { intros [Ev Hc] L2. rewrite L2 in Hm, Hk. destruct ms as [|m0 [|m1 [|]]]; try discriminate. destruct ks as [|k0 [|k1 [|]]]; try discriminate.
    destruct (Hc (nth a (cpoints c) v0) (nth b (cpoints c) v0)) as (u & v & Cuv & E); [now apply nth_In|now apply nth_In|]. apply central_bounds in Cuv.
    rewrite (hex_site_dist c a b m0 m1 k0 k1 u v Ev E) in Le.
    assert (Bu : Rabs u <= 2 / 3) by (apply Rabs_le; lra). assert (Bv : Rabs v <= 2 / 3) by (apply Rabs_le; lra).
    unfold diff. cbn [combine map fst snd]. repeat apply Forall_cons; [| |constructor]; apply Zlt.
    - exact (hex_near _ u v (IZR D) _ HD' Bu Le).
    - apply (hex_near _ v u (IZR D) (IZR (m0 - k0)) HD' Bv). replace (hq (IZR (m1 - k1) + v) (IZR (m0 - k0) + u)) with (hq (IZR (m0 - k0) + u) (IZR (m1 - k1) + v)) by (unfold hq; ring). exact Le. }
  pose proof (fun Hs => Hex (common_hexagonal s c H Hs)) as Hx. clear Hex. clear Le.
  cbn [common_cells In] in H. repeat destruct H as [H|H]; try contradiction; injection H as <- <-; try (apply Hx; [cbn; tauto|reflexivity]); clear Hx;
    cbn [cpoints cvectors chain_cell square_cell cubic_cell List.length] in *; repeat (destruct ms as [|? ms]; try discriminate Hm); repeat (destruct ks as [|? ks]; try discriminate Hk);
    assert (a = O) by lia; assert (b = O) by lia; subst; unfold diff; cbn [combine map fst snd]; repeat apply Forall_cons; try constructor.
  all: try (apply (Orth 0%nat); unfold site, shift; cbn [chain_cell square_cell cubic_cell cpoints cvectors nth map combination vscale vadd vsub v0 coord]; rewrite minus_IZR; ring).
  all: try (apply (Orth 1%nat); unfold site, shift; cbn [chain_cell square_cell cubic_cell cpoints cvectors nth map combination vscale vadd vsub v0 coord]; rewrite minus_IZR; ring).
  all: try (apply (Orth 2%nat); unfold site, shift; cbn [chain_cell square_cell cubic_cell cpoints cvectors nth map combination vscale vadd vsub v0 coord]; rewrite minus_IZR; ring).
Qed.
(** Distances up to D occur within a cluster of 2 D cells or more in each direction. *)
Lemma large_within prec s c n0 n1 n2 L d0 (D : Z) y : (1 <= prec)%nat -> In (s, c) common_cells -> (1 <= n0)%Z -> (1 <= n1)%Z -> (1 <= n2)%Z ->
  lattice_generator prec (Name s) (AnInt n0) (AnInt n1) (AnInt n2) = Ok (L, d0) -> (1 <= D)%Z -> Forall (fun m => (2 * D <= m)%Z) (extents c n0 n1 n2) ->
  lattice_distance L y -> y <= IZR D -> within L y.
Proof.
  intros Hpr H H0 H1 H2' E HD Big Hy Le. pose proof E as Eg. rewrite (generator_build prec s c) in Eg by auto.
  destruct (extents_ok s c n0 n1 n2 H H0 H1 H2') as [F Hl]. pose proof (common_gridded _ _ H) as g.
  destruct (cluster_accepted prec c g (extents c n0 n1 n2) Hpr F Hl) as (L' & d' & E' & _ & Ep & Ev & _). rewrite E' in Eg. injection Eg as -> ->.
  destruct (C37_generator prec s c n0 n1 n2 Hpr H H0 H1 H2') as (L2 & d2 & Eg2 & _ & _ & _ & _ & _ & _ & _ & Ti & _). rewrite E in Eg2. injection Eg2 as <- <-.
  apply dist_link in Hy as (k & (V1 & V2 & V3) & ->). destruct (Ti (to k) (by_ k) V2 V3) as (a & ms & Sa & Ea). destruct (Ti (from k) (repeat 0%Z (List.length (vectors L))) V1 (repeat_length _ _)) as (b & ks & Sb & Eb). rewrite shift_zero, vadd_0_r in Eb.
  unfold len, head, tail in *. rewrite Ea, Eb in *. pose proof (near_cells s c b a ks ms D H Sb Sa HD Le) as Nr. destruct Sa as [Ha Hm]. destruct Sb as [Hb Hk].
  destruct (fit (extents c n0 n1 n2) ks ms) as (ks' & ms' & B1 & B2 & Ed); [congruence|congruence| |].
  { assert (Len : List.length (diff ks ms) = List.length (extents c n0 n1 n2)) by (unfold diff; rewrite map_length, combine_length; lia). revert Nr Len Big. generalize (diff ks ms), (extents c n0 n1 n2). clear. intros l nums. revert l.
    induction nums as [|m nums IH]; intros [|t l] A B C; try discriminate; [constructor|]. inversion A; subst. inversion C; subst. constructor; [lia|]. apply IH; auto. }
  assert (At : forall j ns, box (extents c n0 n1 n2) ns -> (j < List.length (cpoints c))%nat -> In (site c j ns) (points L)).
  { intros j ns B Hj. rewrite Ep, <- (cluster_nth c (extents c n0 n1 n2) ns j B Hj). apply nth_In. rewrite cluster_length by exact F. pose proof (position_range _ _ B). nia. }
  exists (site c b ks'), (site c a ms'). split; [now apply At|]. split; [now apply At|].
  apply dist_diff; [split; auto|split; auto|split; [auto|rewrite (box_length _ _ B1); auto]|split; [auto|rewrite (box_length _ _ B2); auto]|now symmetry].
Qed.
(** There is an n-th distance, at most n. *)
Lemma exact_exists prec s c n0 n1 n2 L d0 (ord : list (list Z) -> list (list Z)) n : (1 <= prec)%nat -> In (s, c) common_cells -> (1 <= n0)%Z -> (1 <= n1)%Z -> (1 <= n2)%Z ->
  lattice_generator prec (Name s) (AnInt n0) (AnInt n1) (AnInt n2) = Ok (L, d0) -> listing ord -> (24 * Z.of_nat (S n) <= 10 ^ Z.of_nat prec)%Z -> exists delta, exact_nth L (S n) delta /\ delta <= IZR (Z.of_nat (S n)).
Proof.
  intros Hpr H H0 H1 H2' E Ho Hn. destruct (cl_recomputed prec s c n0 n1 n2 L d0 ord [] n Hpr H H0 H1 H2' E Ho Hn ltac:(cbn; lia)) as (judge & _ & _ & _ & Nj & _).
  pose proof (cl_le prec s c n0 n1 n2 L d0 n Hpr H H0 H1 H2' E Hn _ _ Nj) as Bj. pose proof (cl_zoom prec n Hn) as Zb.
  destruct Nj as [(delta & Dd & ->) Lj]. change (IZR (rint (delta * zoom prec)) / zoom prec) with (rounded prec delta) in *.
  pose proof (cl_q s c H) as Hq. pose proof (cl_Root prec s c n0 n1 n2 L d0 n Hpr H H0 H1 H2' E Hn) as Root.
  assert (Hx : exact_nth L (S n) delta) by (apply (level_exact prec L _ Hpr Hq Root (S n) delta Dd); [lra|split; [now exists delta|exact Lj]]).
  exists delta. split; [exact Hx|]. destruct Hx as (_ & l & Nl & Ll & Hll). apply Rnot_lt_le. intros C.
  assert (I : incl (map (fun k => IZR (Z.of_nat k)) (seq 0 (S (S n)))) l).
  { intros u Hu. apply in_map_iff in Hu as (k & <- & Hk). apply in_seq in Hk. apply Hll. split; [|apply Rle_lt_trans with (IZR (Z.of_nat (S n))); [apply IZR_le; lia|exact C]].
    apply (integer_distance s c); [exact H|exact (cl_tiles prec s c n0 n1 n2 L d0 Hpr H H0 H1 H2' E)]. }
  apply NoDup_incl_length in I; [rewrite map_length, seq_length in I; lia|]. apply FinFun.Injective_map_NoDup; [|apply seq_NoDup]. intros a b X. apply eq_IZR in X. lia.
Qed.
(** All six lattices, clusters of at least 2 (n + 1) cells in each direction, after
    every history of calls: neighbor_distance(n + 1) is the (n + 1)-th distance of
    the infinite lattice, rounded, and unless rounding lowers it bonds(n + 1) lists
    each pair of sites at exactly that distance (only=False: at most that
    distance) once and no other pair. *)
Theorem C37_large : forall prec s c n0 n1 n2 L d0 ord pord d n (only fold : bool), (1 <= prec)%nat -> In (s, c) common_cells -> (1 <= n0)%Z -> (1 <= n1)%Z -> (1 <= n2)%Z ->
  lattice_generator prec (Name s) (AnInt n0) (AnInt n1) (AnInt n2) = Ok (L, d0) -> listing ord -> listing pord -> reachable prec L ord d0 d -> (24 * Z.of_nat (S n) <= 10 ^ Z.of_nat prec)%Z ->
  Forall (fun m => (2 * Z.of_nat (S n) <= m)%Z) (extents c n0 n1 n2) ->
  exists delta, exact_nth L (S n) delta /\ fst (neighbor_distance L ord prec d (AnInt (Z.of_nat (S n)))) = Ok (rounded prec delta) /\
  (delta <= rounded prec delta -> let P := fun x => if only then x = delta else x <= delta in
   exists F, forall fuel, (F <= fuel)%nat -> exists intra inter T, fst (bonds L ord pord fuel prec d (AnInt (Z.of_nat (S n))) only fold) = Some (Ok (intra, Some inter)) /\
     lists_intra L P intra /\ lists_inter L P fold inter T /\ forall k, valid L k -> crossing k -> P (len L k) -> In k T \/ In (opposite k) T).
Proof.
  intros prec s c n0 n1 n2 L d0 ord pord d n only fold Hpr H H0 H1 H2' E Ho Hpo Hr Hn Big.
  destruct (exact_exists prec s c n0 n1 n2 L d0 ord n Hpr H H0 H1 H2' E Ho Hn) as (delta & Hx & Le). exists delta. split; [exact Hx|].
  assert (W : forall y, lattice_distance L y -> y <= delta -> within L y).
  { intros y Hy Ly. apply (large_within prec s c n0 n1 n2 L d0 (Z.of_nat (S n)) y Hpr H H0 H1 H2' E); auto; [lia|lra]. }
  apply (C37_cached prec s c n0 n1 n2 L d0 ord pord d n delta only fold Hpr H H0 H1 H2' E Ho Hpo Hr Hn Hx); [intros y Hy Ly; apply W; [exact Hy|lra]|].
  intros _. apply W; [apply Hx|lra].
Qed.
Print Assumptions C37_large.

(** ** clusters that large, from the second distance on: no condition on rounding *)
Lemma reach_zeros n : reach (repeat 0%Z n) = 0%Z.
Proof. induction n as [|n IH]; [reflexivity|]. cbn [repeat reach]. rewrite IH. reflexivity. Qed.
Lemma reach_one nums : forall ns ks Ms (D : Z), box nums ns -> box nums ks -> List.length Ms = List.length nums -> Forall (fun m => (2 * D <= m)%Z) nums ->
  Forall (fun t => (Z.abs t < 2 * D)%Z) (diff ks (muladd nums ns Ms)) -> (reach Ms <= 1)%Z.
Proof.
  unfold diff. induction nums as [|m nums IH]; intros ns ks Ms D B1 B2 Hl Big F.
  { destruct Ms; [cbn; lia|discriminate Hl]. }
  destruct ns as [|x ns]; [inversion B1|]. destruct ks as [|y ks]; [inversion B2|]. destruct Ms as [|M Ms]; [discriminate Hl|].
  inversion B1; subst. inversion B2; subst. inversion Big; subst. cbn [muladd combine map fst snd] in F. inversion F; subst. cbn [reach]. apply Z.max_lub; [|apply (IH ns ks Ms D); auto; now injection Hl].
  assert (A : (- (2 * m) < m * M < 2 * m)%Z) by (set (t := (m * M)%Z) in *; lia). assert (M < 2)%Z by (apply (Z.mul_lt_mono_pos_l m); lia). assert (-2 < M)%Z by (apply (Z.mul_lt_mono_pos_l m); lia). lia.
Qed.
(** a link from the last cell of the first direction to the first cell of the next copy *)
Lemma border_link c m nums v vs L a b : cvectors c = v :: vs -> Forall (fun n => (1 <= n)%Z) (m :: nums) -> List.length (m :: nums) = List.length (cvectors c) ->
  points L = cluster c (m :: nums) -> vectors L = scale_rows (m :: nums) (cvectors c) -> (a < List.length (cpoints c))%nat -> (b < List.length (cpoints c))%nat ->
  exists k, valid L k /\ reach (by_ k) = 1%Z /\ len L k = dist (nth a (cpoints c) v0) (vadd (nth b (cpoints c) v0) v).
Proof.
  intros Ec F Hl Ep Ev Ha Hb. inversion F as [|? ? M1 F2]; subst. pose proof (zeros_box nums F2) as B0.
  assert (BL : box (m :: nums) ((m - 1)%Z :: repeat 0%Z (List.length nums))) by (constructor; [lia|exact B0]).
  assert (BF : box (m :: nums) (0%Z :: repeat 0%Z (List.length nums))) by (constructor; [lia|exact B0]).
  set (i := (Z.to_nat (position (m :: nums) ((m - 1)%Z :: repeat 0%Z (List.length nums))) * List.length (cpoints c) + a)%nat).
  set (j := (Z.to_nat (position (m :: nums) (0%Z :: repeat 0%Z (List.length nums))) * List.length (cpoints c) + b)%nat).
  exists (Link i j (1%Z :: repeat 0%Z (List.length nums))).
  assert (Hn : List.length nums = List.length vs) by (rewrite Ec in Hl; now injection Hl).
  assert (Lt : forall ns t, box (m :: nums) ns -> (t < List.length (cpoints c))%nat -> (Z.to_nat (position (m :: nums) ns) * List.length (cpoints c) + t < List.length (points L))%nat).
  { intros ns t B Ht. rewrite Ep, cluster_length by exact F. pose proof (position_range _ _ B). nia. }
  split; [|split].
  - split; [now apply Lt|]. split; [now apply Lt|]. cbn [by_ List.length]. rewrite repeat_length, Ev, scale_rows_length by exact Hl. now rewrite <- Hl.
  - cbn [by_ reach]. now rewrite reach_zeros.
  - unfold len, head, tail. cbn [from to by_]. rewrite Ep. unfold i, j. rewrite !cluster_nth by assumption.
    assert (Z0 : shift (repeat 0%Z (List.length nums)) vs = v0) by (rewrite Hn; apply shift_zero).
    assert (Z1 : shift (repeat 0%Z (List.length nums)) (scale_rows nums vs) = v0) by (rewrite Hn, <- (scale_rows_length nums vs Hn); apply shift_zero).
    unfold site, dist. f_equal. rewrite Ev, Ec. unfold shift in *. cbn [scale_rows map combination]. rewrite Z0, Z1. rewrite minus_IZR.
    generalize (nth a (cpoints c) v0), (nth b (cpoints c) v0). destruct v as [[? ?] ?]. intros [[? ?] ?] [[? ?] ?]. cbn. apply p3_eq; ring.
Qed.
(** the length of such a link *)
Definition step (s : string) : R := if String.eqb s "kagome" then 1 / 2 else 1.
Lemma border_step prec s c n0 n1 n2 L d0 : (1 <= prec)%nat -> In (s, c) common_cells -> (1 <= n0)%Z -> (1 <= n1)%Z -> (1 <= n2)%Z ->
  lattice_generator prec (Name s) (AnInt n0) (AnInt n1) (AnInt n2) = Ok (L, d0) -> exists k, valid L k /\ reach (by_ k) = 1%Z /\ len L k = step s.
Proof.
  intros Hpr H H0 H1 H2' E. pose proof E as Eg. rewrite (generator_build prec s c) in Eg by auto.
  destruct (extents_ok s c n0 n1 n2 H H0 H1 H2') as [F Hl]. pose proof (common_gridded _ _ H) as g.
  destruct (cluster_accepted prec c g (extents c n0 n1 n2) Hpr F Hl) as (L' & d' & E' & _ & Ep & Ev & _). rewrite E' in Eg. injection Eg as -> ->. clear E' E.
  assert (Self : forall p : point, dist p (vadd p (1, 0, 0)) = 1).
  { intros [[x y] z]. unfold dist. cbn [vadd vsub]. replace (x - (x + 1), y - (y + 0), z - (z + 0)) with (vscale (-1) (1, 0, 0)) by (cbn; apply p3_eq; ring). rewrite norm_scale, norm_x by lra. rewrite Rabs_left by lra. ring. }
  assert (K : forall a b vs, cvectors c = (1, 0, 0) :: vs -> (a < List.length (cpoints c))%nat -> (b < List.length (cpoints c))%nat -> dist (nth a (cpoints c) v0) (vadd (nth b (cpoints c) v0) (1, 0, 0)) = step s -> exists k, valid L k /\ reach (by_ k) = 1%Z /\ len L k = step s).
  { intros a b vs Ec Ha Hb Es. destruct (extents c n0 n1 n2) as [|m nums] eqn:Ex; [rewrite Ec in Hl; discriminate|].
    destruct (border_link c m nums (1, 0, 0) vs L a b Ec F Hl Ep Ev Ha Hb) as (k & V & Rk & Lk). exists k. rewrite Lk. auto. }
  clear Ep Ev F Hl g. cbn [common_cells In] in H. repeat destruct H as [H|H]; try contradiction; injection H as <- <-; try (apply (K 0%nat 0%nat _ eq_refl); [cbn; lia|cbn; lia|exact (Self _)]).
  apply (K 2%nat 0%nat _ eq_refl); [cbn; lia|cbn; lia|]. unfold step. cbn [String.eqb Ascii.eqb Bool.eqb kagome_cell cpoints nth]. unfold dist, norm. match goal with |- sqrt ?e = _ => replace e with (1 / 2 * (1 / 2)) by (cbn; lra) end. apply sqrt_square. lra.
Qed.
(** from the second distance on, every distance is at least a step *)
Lemma step_le prec s c n0 n1 n2 L d0 n delta : (1 <= prec)%nat -> In (s, c) common_cells -> (1 <= n0)%Z -> (1 <= n1)%Z -> (1 <= n2)%Z ->
  lattice_generator prec (Name s) (AnInt n0) (AnInt n1) (AnInt n2) = Ok (L, d0) -> (24 * Z.of_nat (S n) <= 10 ^ Z.of_nat prec)%Z -> exact_nth L (S (S n)) delta -> step s <= delta.
Proof.
  intros Hpr H H0 H1 H2' E Hn Hx. pose proof (spacing_half s c H) as SB. pose proof (cl_root prec s c n0 n1 n2 L d0 n Hpr H H0 H1 H2' E Hn) as Root.
  set (q := spacing s * spacing s) in *. assert (Q0 : 0 < q) by (unfold q; nra).
  assert (X : exists x, lattice_distance L x /\ 0 < x < delta).
  { destruct Hx as (_ & l & Nl & Ll & Hl). destruct l as [|u [|w l]]; try discriminate. assert (Nn : forall y, lattice_distance L y -> 0 <= y) by (intros y Hy; destruct (Root y Hy) as (M & _ & -> & _); apply sqrt_pos).
    assert (Nw : u <> w) by (intros ->; inversion Nl as [|? ? C]; apply C; now left).
    destruct (proj1 (Hl u) (or_introl eq_refl)) as [Du Lu]. destruct (proj1 (Hl w) (or_intror (or_introl eq_refl))) as [Dw Lw]. pose proof (Nn u Du). pose proof (Nn w Dw).
    destruct (Req_dec u 0) as [->|U]; [exists w; split; [exact Dw|lra]|exists u; split; [exact Du|lra]]. }
  destruct X as (x & Dx & X0 & Xd). destruct (Root x Dx) as (M & M0 & -> & _). destruct Hx as [Dd _]. destruct (Root delta Dd) as (K & K0 & -> & K2).
  assert (Mp : (1 <= M)%Z). { destruct (Z.eq_dec M 0) as [->|N0]; [rewrite Rmult_0_l, sqrt_0 in X0; lra|lia]. }
  assert (MK : (M < K)%Z). { destruct (Z.lt_ge_cases M K) as [C|C]; [exact C|exfalso]. apply IZR_le in C. assert (C2 : IZR K * q <= IZR M * q) by (apply Rmult_le_compat_r; lra). apply sqrt_le_1_alt in C2. lra. }
  assert (Two : 2 <= IZR K) by (apply IZR_le; lia). assert (Thr : K <> 2%Z -> 3 <= IZR K) by (intros; apply IZR_le; lia).
  assert (Rt : forall w, 0 <= w -> w * w <= IZR K * q -> w <= sqrt (IZR K * q)) by (intros w W0 W; rewrite <- (sqrt_square w W0); now apply sqrt_le_1_alt).
  pose proof third_sq as TS. unfold step. destruct (String.eqb s "kagome") eqn:Es.
  - apply Rt; [lra|]. unfold q. nra.
  - apply Rt; [lra|]. unfold q, spacing. rewrite Es. unfold spacing in K2. rewrite Es in K2. destruct (String.eqb s "honeycomb") eqn:Eh; [|lra]. rewrite TS. destruct K2 as [K2|K2]; [pose proof (Thr K2); lra|]. exfalso.
    rewrite K2 in TS. lra.
Qed.
Lemma step_rounded prec s : (1 <= prec)%nat -> rounded prec (step s) = step s.
Proof.
  intros Hp. unfold step. destruct (String.eqb s "kagome"); [|unfold rounded; rewrite (rint_int_zoom prec 1), back_zoom; reflexivity].
  unfold rounded. pose proof (Neighbors_Proofs.zoom_pos prec) as Z0. assert (E : exists k : Z, zoom prec = 2 * IZR k).
  { exists (5 * 10 ^ Z.of_nat (prec - 1))%Z. rewrite zoom_Z, <- mult_IZR. f_equal. replace (Z.of_nat prec) with (Z.succ (Z.of_nat (prec - 1))) at 1 by lia. rewrite Z.pow_succ_r by lia. lia. }
  destruct E as (k & Ek). rewrite Ek in *. replace (1 / 2 * (2 * IZR k)) with (IZR k) by lra. rewrite rint_IZR. field. lra.
Qed.
(** All six lattices, clusters of at least 2 (n + 2) cells in each direction, after
    every history: from the second distance on bonds lists each pair at exactly
    the (n + 2)-th distance of the infinite lattice (only=False: at most it) once
    and no other pair, however it is rounded. *)
Theorem C37_far : forall prec s c n0 n1 n2 L d0 ord pord d n (only fold : bool), (1 <= prec)%nat -> In (s, c) common_cells -> (1 <= n0)%Z -> (1 <= n1)%Z -> (1 <= n2)%Z ->
  lattice_generator prec (Name s) (AnInt n0) (AnInt n1) (AnInt n2) = Ok (L, d0) -> listing ord -> listing pord -> reachable prec L ord d0 d -> (24 * Z.of_nat (S (S n)) <= 10 ^ Z.of_nat prec)%Z ->
  Forall (fun m => (2 * Z.of_nat (S (S n)) <= m)%Z) (extents c n0 n1 n2) ->
  exists delta, exact_nth L (S (S n)) delta /\ fst (neighbor_distance L ord prec d (AnInt (Z.of_nat (S (S n))))) = Ok (rounded prec delta) /\
  let P := fun x => if only then x = delta else x <= delta in
   exists F, forall fuel, (F <= fuel)%nat -> exists intra inter T, fst (bonds L ord pord fuel prec d (AnInt (Z.of_nat (S (S n)))) only fold) = Some (Ok (intra, Some inter)) /\
     lists_intra L P intra /\ lists_inter L P fold inter T /\ forall k, valid L k -> crossing k -> P (len L k) -> In k T \/ In (opposite k) T.
Proof.
  intros prec s c n0 n1 n2 L d0 ord pord d n only fold Hpr H H0 H1 H2' E Ho Hpo Hr Hn Big.
  destruct (exact_exists prec s c n0 n1 n2 L d0 ord (S n) Hpr H H0 H1 H2' E Ho Hn) as (delta & Hx & Le). exists delta. split; [exact Hx|].
  assert (W : forall y, lattice_distance L y -> y <= delta -> within L y).
  { intros y Hy Ly. apply (large_within prec s c n0 n1 n2 L d0 (Z.of_nat (S (S n))) y Hpr H H0 H1 H2' E); auto; [lia|lra]. }
  destruct (cached_reach prec s c n0 n1 n2 L d0 ord pord d (S n) delta only fold Hpr H H0 H1 H2' E Ho Hpo Hr Hn Hx) as [A B]; [intros y Hy Ly; apply W; [exact Hy|lra]| |].
  { intros _. apply W; [apply Hx|lra]. }
  split; [exact A|]. apply B. clear A B W. intros k Vk _ Lk.
  destruct (border_step prec s c n0 n1 n2 L d0 Hpr H H0 H1 H2' E) as (k' & V' & R' & L').
  assert (Hn' : (24 * Z.of_nat (S n) <= 10 ^ Z.of_nat prec)%Z) by lia. pose proof (step_le prec s c n0 n1 n2 L d0 n delta Hpr H H0 H1 H2' E Hn' Hx) as Sd.
  exists k'. split; [exact V'|]. split; [|rewrite L', <- (step_rounded prec s Hpr); now apply rounded_le]. rewrite R'.
  (* the link is one of length delta *)
  pose proof (cl_bound prec s c n0 n1 n2 L d0 (S n) Hpr H H0 H1 H2' E Hn (S (S n)) delta (le_n _) Hx) as Bd.
  assert (Dk : lattice_distance L (len L k)) by (apply dist_link; now exists k). pose proof (view_pos prec) as VP.
  assert (Lk2 : len L k <= delta).
  { apply Rnot_lt_le. intros C. pose proof (level_keeps prec L _ Hpr (cl_q s c H) (cl_Root prec s c n0 n1 n2 L d0 (S n) Hpr H H0 H1 H2' E Hn) delta (len L k) (proj1 Hx) Dk Bd C) as K.
    pose proof (rounded_near prec (len L k)) as Nr. apply Rabs_le_inv in Nr. lra. }
  pose proof E as Eg. rewrite (generator_build prec s c) in Eg by auto. destruct (extents_ok s c n0 n1 n2 H H0 H1 H2') as [F Hl]. pose proof (common_gridded _ _ H) as g.
  destruct (cluster_accepted prec c g (extents c n0 n1 n2) Hpr F Hl) as (L2 & d2 & E' & _ & Ep & Ev & _). rewrite E' in Eg. injection Eg as -> ->.
  destruct Vk as (V1 & V2 & V3). rewrite Ep in V1, V2. destruct (cluster_site c _ _ F V1) as (ks & b & Bb & Hb & _ & Eb). destruct (cluster_site c _ _ F V2) as (ns & a & Ba & Ha & _ & Ea).
  assert (V4 : List.length (by_ k) = List.length (cvectors c)) by (rewrite V3, Ev; now apply scale_rows_length).
  assert (Et : tail L k = site c a (muladd (extents c n0 n1 n2) ns (by_ k))).
  { unfold tail. rewrite Ep, Ea, Ev. unfold site. rewrite (shift_muladd (extents c n0 n1 n2) ns (by_ k) (cvectors c) Hl) by (rewrite ?(box_length _ _ Ba); auto).
    generalize (nth a (cpoints c) v0), (shift ns (cvectors c)), (shift (by_ k) (scale_rows (extents c n0 n1 n2) (cvectors c))). vring. }
  apply (reach_one (extents c n0 n1 n2) ns ks (by_ k) (Z.of_nat (S (S n)))); auto; [congruence|].
  apply (near_cells s c b a ks _ (Z.of_nat (S (S n))) H); [split; [auto|rewrite (box_length _ _ Bb); auto]| |lia|].
  - split; [auto|]. rewrite muladd_length; [auto|now rewrite (box_length _ _ Ba)|congruence].
  - rewrite <- Et. replace (site c b ks) with (head L k) by (unfold head; now rewrite Ep, Eb). fold (len L k). lra.
Qed.
Print Assumptions C37_far.
(** Non-vacuity: a kagome cluster of 8 x 8 cells, up to the fourth distance, at the default precision. *)
Example large_case : exists L d0, lattice_generator 4 (Name "kagome") (AnInt 8) (AnInt 8) (AnInt 1) = Ok (L, d0) /\ reachable 4 L (fun l => l) d0 d0 /\
  (24 * Z.of_nat 4 <= 10 ^ Z.of_nat 4)%Z /\ Forall (fun m => (2 * Z.of_nat 4 <= m)%Z) (extents kagome_cell 8 8 1).
Proof.
  assert (H : In ("kagome"%string, kagome_cell) common_cells) by (cbn; tauto). destruct (C37_generator 4 "kagome" kagome_cell 8 8 1 ltac:(lia) H ltac:(lia) ltac:(lia) ltac:(lia)) as (L & d0 & E & _).
  exists L, d0. split; [exact E|]. split; [apply reach_init|]. split; [now vm_compute|]. cbn. repeat constructor; lia.
Qed.
