(** C35: rounding errors in the coordinates and in the distances do not change the list of
    distances of the six lattices, as long as they are small. *)
From Coq Require Import String List Reals ZArith Bool Arith Lra Lia Psatz Permutation.
From Flocq Require Import Core.Raux.
From Verif Require Import Py Line2D_Proofs Lattice_Model Lattice_Spec Lattice_Proofs Lattice_Proofs2 Lattice_Proofs3 Neighbors_Spec Neighbors_Proofs LatticeGen_Model LatticeGen_Spec LatticeGen_Proofs LatticeGen_Properties
  LatticeHex_Proofs LatticeNearest2_Properties LatticeThird_Properties.
Import ListNotations.
Open Scope R_scope.

(** ** how near 10^p times a distance comes to a tie *)
Lemma zoom_IZR p : zoom p = IZR (10 ^ Z.of_nat p). Proof. unfold zoom. rewrite <- pow_IZR. reflexivity. Qed.
Lemma zoom_pos p : 1 <= zoom p. Proof. unfold zoom. apply pow_R1_Rle. lra. Qed.
Lemma odd_gap (m : Z) : Z.odd m = true -> 1 <= Rabs (IZR m).
Proof. intros H. rewrite <- abs_IZR. apply IZR_le. destruct m; [discriminate| |]; lia. Qed.
Lemma gap p (N f k : Z) z : (1 <= p)%nat -> 0 <= z -> 12 * (z * z) = IZR (f * N) * (zoom p * zoom p) -> / (24 * z + 12) <= Rabs (z - (IZR k + / 2)).
Proof.
  intros Hp Hz E. set (h := IZR k + / 2).
  assert (O : 1 <= Rabs (12 * (z * z - h * h))).
  { replace (12 * (z * z - h * h)) with (IZR (f * N * (10 ^ Z.of_nat p * 10 ^ Z.of_nat p) - 12 * (k * k) - 12 * k - 3)).
    - apply odd_gap. replace (Z.of_nat p) with (1 + Z.of_nat (p - 1))%Z by lia. rewrite Z.pow_add_r by lia. generalize (10 ^ Z.of_nat (p - 1))%Z. intros t.
      replace (f * N * (10 ^ 1 * t * (10 ^ 1 * t)) - 12 * (k * k) - 12 * k - 3)%Z with (1 + 2 * (f * N * (50 * (t * t)) - 6 * (k * k) - 6 * k - 2))%Z by ring. rewrite Z.odd_add_mul_2. reflexivity.
    - rewrite !minus_IZR, !mult_IZR, <- !zoom_IZR. rewrite mult_IZR in E. unfold h. lra. }
  destruct (Rle_lt_dec (/ (24 * z + 12)) (Rabs (z - h))) as [H|H]; [exact H|exfalso].
  assert (G0 : / (24 * z + 12) <= / 12) by (apply Rinv_le_contravar; lra).
  assert (Hs : Rabs (z + h) <= 2 * z + / 12). { apply Rabs_def2 in H. apply Rabs_le. lra. }
  replace (12 * (z * z - h * h)) with (12 * ((z - h) * (z + h))) in O by ring. rewrite !Rabs_mult, (Rabs_pos_eq 12) in O by lra.
  assert (P : Rabs (z - h) * Rabs (z + h) <= / (24 * z + 12) * (2 * z + / 12)).
  { apply Rmult_le_compat; try apply Rabs_pos; lra. }
  assert (Q : / (24 * z + 12) * (2 * z + / 12) < / 12). { apply (Rmult_lt_reg_l (24 * z + 12)); [lra|]. rewrite <- Rmult_assoc, Rinv_r by lra. lra. }
  lra.
Qed.
Lemma steady_rint p (N f : Z) z x : (1 <= p)%nat -> 0 <= z -> 12 * (z * z) = IZR (f * N) * (zoom p * zoom p) -> Rabs (x - z) < / (24 * z + 12) -> rint x = rint z.
Proof.
  intros Hp Hz E H. pose proof (gap p N f (rint z) z Hp Hz E) as G1. pose proof (gap p N f (rint z - 1) z Hp Hz E) as G2. pose proof (rint_half z) as B.
  apply Rabs_le_inv in B. apply Rabs_def2 in H. rewrite minus_IZR in G2. rewrite Rabs_left1 in G1 by lra. rewrite Rabs_pos_eq in G2 by lra. apply rint_is. lra.
Qed.

(** ** distances of the six lattices *)
Definition of_cell (c : cell) (p : point) : Prop := exists j ms, is_site c j ms /\ p = site c j ms.
Lemma sqrt_pos_part x : sqrt (Rmax 0 x) = sqrt x.
Proof. unfold Rmax. destruct (Rle_dec 0 x); [reflexivity|]. rewrite sqrt_0, sqrt_neg_0 by lra. reflexivity. Qed.
Lemma cell_dist s c p q prec : In (s, c) common_cells -> of_cell c p -> of_cell c q ->
  0 <= dist p q * zoom prec /\ exists N f : Z, 12 * (dist p q * zoom prec * (dist p q * zoom prec)) = IZR (f * N) * (zoom prec * zoom prec).
Proof.
  intros H (a & ms & Ha & ->) (b & ks & Hb & ->). pose proof (zoom_pos prec) as Zp. split; [apply Rmult_le_pos; [apply dist_nonneg|lra]|].
  destruct (site_multiple s c a b ms ks H Ha Hb) as (N & E & _). rewrite E.
  assert (S2 : exists f : Z, 12 * (spacing s * spacing s) = IZR f).
  { unfold spacing. destruct (String.eqb s "honeycomb"); [exists 4%Z; rewrite third_sq; lra|]. destruct (String.eqb s "kagome"); [exists 3%Z; lra|exists 12%Z; lra]. }
  destruct S2 as (f & S2). set (X := IZR N * (spacing s * spacing s)). exists (Z.max 0 N), f. rewrite <- (sqrt_pos_part X).
  replace (12 * (sqrt (Rmax 0 X) * zoom prec * (sqrt (Rmax 0 X) * zoom prec))) with (12 * (sqrt (Rmax 0 X) * sqrt (Rmax 0 X)) * (zoom prec * zoom prec)) by ring.
  rewrite sqrt_sqrt by apply Rmax_l. f_equal. rewrite mult_IZR, <- S2.
  assert (M : Rmax 0 X = IZR (Z.max 0 N) * (spacing s * spacing s)); [|rewrite M; ring].
  unfold X. assert (P2 : 0 <= spacing s * spacing s) by nra. destruct (Z.le_gt_cases 0 N) as [HN|HN].
  - rewrite Z.max_r by exact HN. apply Rmax_right. apply IZR_le in HN. nra.
  - rewrite Z.max_l by lia. assert (IZR N <= 0) by (apply IZR_le; lia). rewrite Rmult_0_l. apply Rmax_left. nra.
Qed.
Lemma pdist_in : forall ps d, In d (pdist ps) -> exists p q, In p ps /\ In q ps /\ d = dist p q.
Proof.
  induction ps as [|p ps IH]; intros d H; [contradiction|]. cbn [pdist] in H. apply in_app_iff in H as [H|H].
  - apply in_map_iff in H as (q & <- & Hq). exists p, q. repeat split; [now left|now right].
  - destruct (IH d H) as (a & b & Ha & Hb & E). exists a, b. repeat split; [now right|now right|exact E].
Qed.

(** Whatever numbers xs a computer finds instead of the products of the distances with
    10^p: if each is nearer than 1 / (24 z + 12) to the exact product z, the list is the one
    of exact arithmetic. *)
Theorem C35_products : forall prec s c sites xs, (1 <= prec)%nat -> In (s, c) common_cells ->
  (forall p, In p sites -> exists j ms, is_site c j ms /\ p = site c j ms) ->
  Forall2 (fun x d => Rabs (x - d * zoom prec) < / (24 * (d * zoom prec) + 12)) xs (pdist sites) ->
  0 :: map (fun k => IZR k / zoom prec) (zunique (map rint xs)) = all_distances prec sites.
Proof.
  intros prec s c sites xs Hp H Hs F. unfold all_distances. do 3 f_equal.
  assert (G : forall d, In d (pdist sites) -> forall x, Rabs (x - d * zoom prec) < / (24 * (d * zoom prec) + 12) -> rint x = rint (d * zoom prec)).
  { intros d Hd x Hx. destruct (pdist_in _ _ Hd) as (p & q & Hip & Hiq & ->). destruct (cell_dist s c p q prec H (Hs p Hip) (Hs q Hiq)) as (Pz & N & f & E). apply (steady_rint prec N f); assumption. }
  revert G. induction F as [|x d xs ds Hx F IH]; intros G; [reflexivity|]. cbn [map]. f_equal; [apply G; [now left|exact Hx]|apply IH; intros; apply G; [now right|assumption]].
Qed.
Print Assumptions C35_products.

(** ** perturbed lattices *)
Lemma pdist_close e : forall ps qs, Forall2 (fun p q => dist p q <= e) ps qs -> Forall2 (fun d' d => Rabs (d' - d) <= 2 * e) (pdist qs) (pdist ps).
Proof.
  intros ps qs F. induction F as [|p q ps qs Hpq F IH]; [constructor|]. cbn [pdist]. apply Forall2_app; [|exact IH].
  clear IH. induction F as [|a b ps qs Hab F IH]; [constructor|]. cbn [map]. constructor; [|exact IH].
  pose proof (dist_triangle q a b) as T1. pose proof (dist_triangle q p a) as T2. pose proof (dist_triangle p b a) as T3. pose proof (dist_triangle p q b) as T4. rewrite (dist_sym q p) in T2. rewrite (dist_sym b a) in T3.
  apply Rabs_le. lra.
Qed.
Lemma dist_vadd a b p q : dist (vadd a p) (vadd b q) <= dist a b + dist p q.
Proof. unfold dist. replace (vsub (vadd a p) (vadd b q)) with (vadd (vsub a b) (vsub p q)) by (revert a b p q; vring). apply norm_triangle. Qed.
Lemma dist_vscale x a b : dist (vscale x a) (vscale x b) = Rabs x * dist a b.
Proof. unfold dist. replace (vsub (vscale x a) (vscale x b)) with (vscale x (vsub a b)) by (revert x a b; intros x [[? ?] ?] [[? ?] ?]; cbn; apply p3_eq; ring). apply norm_scale. Qed.
Lemma comb_close e (n : Z) : 0 <= e -> forall vs ws, Forall2 (fun v w => dist v w <= e) vs ws -> forall cs, (forall x, In x cs -> (Z.abs x <= n)%Z) -> (0 <= n)%Z ->
  dist (comb cs vs) (comb cs ws) <= INR (List.length vs) * (IZR n * e).
Proof.
  intros He vs ws F. assert (Z0 : forall (k : nat) (m : Z), (0 <= m)%Z -> 0 <= INR k * (IZR m * e)).
  { intros k m Hm. apply Rmult_le_pos; [apply pos_INR|]. apply Rmult_le_pos; [apply IZR_le; exact Hm|exact He]. }
  induction F as [|v w vs ws Hvw F IH]; intros cs Hc Hn.
  - destruct cs; cbn [comb]; rewrite dist_refl; apply Z0; exact Hn.
  - destruct cs as [|x cs]; [cbn [comb]; rewrite dist_refl; apply Z0; exact Hn|]. cbn [comb]. rewrite S_INR || (cbn [List.length]; rewrite S_INR). eapply Rle_trans; [apply dist_vadd|]. rewrite dist_vscale.
    specialize (IH cs (fun y Hy => Hc y (or_intror Hy)) Hn). assert (A : Rabs (IZR x) <= IZR n) by (rewrite <- abs_IZR; apply IZR_le; apply Hc; now left).
    assert (Rabs (IZR x) * dist v w <= IZR n * e) by (apply Rmult_le_compat; try assumption; [apply Rabs_pos|apply dist_nonneg]). lra.
Qed.
Lemma in_translations L (n : Z) inv cs : In cs (translations L n inv) -> List.length cs = List.length (vectors L) /\ forall x, In x cs -> (Z.abs x <= n)%Z.
Proof.
  unfold translations. intros H. apply filter_In in H as [H _].
  assert (M : In cs (product (zrange (- n) (n + 1)) (List.length (vectors L)))).
  { destruct inv; [|exact H]. revert H. assert (G : forall mesh kept, In cs (fold_left (fun kept config => if existsb (zs_eqb (map Z.opp config)) kept then kept else kept ++ [config]) mesh kept) -> In cs kept \/ In cs mesh).
    { induction mesh as [|x mesh IH]; intros kept Hk; [now left|]. cbn [fold_left] in Hk. apply IH in Hk as [Hk|Hk]; [|right; now right]. destruct (existsb _ kept); [now left|]. apply in_app_iff in Hk as [Hk|[<-|[]]]; [now left|right; now left]. }
    intros H. apply G in H as [[]|H]. exact H. }
  clear H. revert cs M. generalize (List.length (vectors L)). induction n0 as [|m IH]; intros cs M.
  - destruct M as [<-|[]]. split; [reflexivity|intros x []].
  - cbn [product] in M. apply in_flat_map in M as (x & Hx & M). apply in_map_iff in M as (r & <- & Hr). destruct (IH r Hr) as [E B]. split; [cbn; now rewrite E|].
    intros y [<-|Hy]; [|now apply B]. unfold zrange in Hx. apply in_map_iff in Hx as (i & <- & Hi). apply in_seq in Hi. lia.
Qed.
Lemma forall2_flat {A B C} (R : B -> C -> Prop) (f : A -> list B) (g : A -> list C) : forall l, (forall x, In x l -> Forall2 R (f x) (g x)) -> Forall2 R (flat_map f l) (flat_map g l).
Proof. induction l as [|x l IH]; intros H; [constructor|]. cbn. apply Forall2_app; [apply H; now left|apply IH; intros; apply H; now right]. Qed.

(** A lattice L' whose points and translation vectors differ by at most e from those of a
    cluster of lattice_generator: neighbor_distance(m) answers the same on both, and leaves
    the same stored list behind, for every m up to n -- if e is small compared with the
    distances D of the sites it looks at. *)
Theorem C35_perturbed : forall prec s c n0 n1 n2 L d0 L' ord n e D, (1 <= prec)%nat -> listing ord -> In (s, c) common_cells -> (1 <= n0)%Z -> (1 <= n1)%Z -> (1 <= n2)%Z ->
  lattice_generator prec (Name s) (AnInt n0) (AnInt n1) (AnInt n2) = Ok (L, d0) ->
  Forall2 (fun p q => dist p q <= e) (points L) (points L') -> Forall2 (fun p q => dist p q <= e) (vectors L) (vectors L') -> (0 <= n)%Z ->
  (forall p q ms ns, In p (points L) -> In q (points L) -> List.length ms = List.length (vectors L) -> List.length ns = List.length (vectors L) ->
     (forall x, In x ms \/ In x ns -> (Z.abs x <= n)%Z) -> dist (vadd (shift ms (vectors L)) p) (vadd (shift ns (vectors L)) q) <= D) ->
  2 * ((1 + INR (List.length (vectors L)) * IZR n) * e) * zoom prec < / (24 * (D * zoom prec) + 12) ->
  all_distances prec (points L') = all_distances prec (points L) /\
  forall m d, (0 <= m <= n)%Z -> neighbor_distance L' ord prec d (AnInt m) = neighbor_distance L ord prec d (AnInt m).
Proof.
  intros prec s c n0 n1 n2 L d0 L' ord n e D Hpr Hord H H0 H1 H2' E FP FV Hn HD He.
  destruct (C37_generator prec s c n0 n1 n2 Hpr H H0 H1 H2') as (L1 & d1 & E1 & _ & _ & Ev & _ & Ep & _ & _ & Ti & _). rewrite E in E1. injection E1 as <- <-.
  pose proof (zoom_pos prec) as Zp.
  assert (e0 : 0 <= e).
  { destruct FV as [|v w vs ws Hvw _]; [exfalso; revert Ev; cbn [common_cells In] in H; repeat destruct H as [H|H]; try contradiction; injection H as <- <-; discriminate|]. eapply Rle_trans; [apply dist_nonneg|exact Hvw]. }
  assert (LV : List.length (vectors L') = List.length (vectors L)) by (clear - FV; induction FV as [|? ? ? ? _ _ IH]; [reflexivity|cbn; now rewrite IH]).
  (* one window *)
  assert (W : forall cs0, (forall cs, In cs cs0 -> List.length cs = List.length (vectors L) /\ forall x, In x cs -> (Z.abs x <= n)%Z) ->
    all_distances prec (flat_map (fun c => map (vadd (comb c (vectors L'))) (points L')) cs0) = all_distances prec (flat_map (fun c => map (vadd (comb c (vectors L))) (points L)) cs0)).
  { intros cs0 Hcs. set (ss := flat_map (fun c => map (vadd (comb c (vectors L))) (points L)) cs0). set (ss' := flat_map (fun c => map (vadd (comb c (vectors L'))) (points L')) cs0).
    assert (F : Forall2 (fun p q => dist p q <= (1 + INR (List.length (vectors L)) * IZR n) * e) ss ss').
    { apply forall2_flat. intros cs Hin. destruct (Hcs cs Hin) as [_ B]. pose proof (comb_close e n e0 _ _ FV cs B Hn) as K. clear - FP K. induction FP as [|p q ps qs Hpq F IH]; [constructor|]. cbn [map]. constructor; [|exact IH].
      eapply Rle_trans; [apply dist_vadd|]. lra. }
    unfold all_distances at 1. rewrite <- map_map with (f := fun d => d * zoom prec) (g := rint). apply (C35_products prec s c ss); auto.
    - intros p Hp. unfold ss in Hp. apply in_flat_map in Hp as (cs & Hin & Hp). apply in_map_iff in Hp as (p0 & <- & Hp). destruct (Hcs cs Hin) as [Lc _].
      apply (In_nth _ _ v0) in Hp as (i & Hi & <-). destruct (Ti i cs Hi Lc) as (j & ms & Hj & Es). exists j, ms. split; [exact Hj|]. rewrite <- Es, comb_shift. apply vadd_comm.
    - pose proof (pdist_close _ _ _ F) as P. assert (B : forall d, In d (pdist ss) -> d <= D).
      { intros d Hd. destruct (pdist_in _ _ Hd) as (p & q & Hp & Hq & ->). unfold ss in Hp, Hq. apply in_flat_map in Hp as (ms & Hm & Hp). apply in_flat_map in Hq as (ns & Hns & Hq). apply in_map_iff in Hp as (p0 & <- & Hp). apply in_map_iff in Hq as (q0 & <- & Hq).
        rewrite !comb_shift. destruct (Hcs _ Hm) as [L1 B1]. destruct (Hcs _ Hns) as [L2 B2]. apply HD; auto. intros x [Hx|Hx]; [now apply B1|now apply B2]. }
      assert (B0 : forall d, In d (pdist ss) -> 0 <= d) by (intros d Hd; destruct (pdist_in _ _ Hd) as (p & q & _ & _ & ->); apply dist_nonneg).
      revert B B0. clear - P He Zp. induction P as [|x d xs ds Hx P IH]; intros B B0; [constructor|]. cbn [map]. constructor; [|apply IH; intros; [apply B|apply B0]; now right].
      specialize (B d (or_introl eq_refl)). specialize (B0 d (or_introl eq_refl)). replace (x * zoom prec - d * zoom prec) with ((x - d) * zoom prec) by ring. rewrite Rabs_mult, (Rabs_pos_eq (zoom prec)) by lra.
      assert (Rabs (x - d) * zoom prec <= 2 * ((1 + INR (List.length (vectors L)) * IZR n) * e) * zoom prec) by (apply Rmult_le_compat_r; lra).
      assert (/ (24 * (D * zoom prec) + 12) <= / (24 * (d * zoom prec) + 12)). { assert (d * zoom prec <= D * zoom prec) by (apply Rmult_le_compat_r; lra). assert (0 <= d * zoom prec) by (apply Rmult_le_pos; lra). apply Rinv_le_contravar; lra. }
      lra. }
  assert (Zr : forall k (x : Z), In x (repeat 0%Z k) -> x = 0%Z) by (intros k x Hx; apply repeat_spec in Hx; exact Hx).
  split.
  - specialize (W [repeat 0%Z (List.length (vectors L))]). cbn [flat_map] in W. rewrite !app_nil_r in W.
    assert (S0 : forall vs : list point, List.length vs = List.length (vectors L) -> comb (repeat 0%Z (List.length (vectors L))) vs = v0) by (intros vs Hv; rewrite <- Hv, comb_shift; apply shift_zero).
    rewrite (S0 _ eq_refl), (S0 _ LV) in W. assert (I0 : forall ps, map (vadd v0) ps = ps) by (intros ps; rewrite <- (map_id ps) at 2; apply map_ext; intros [[? ?] ?]; cbn; apply p3_eq; ring). rewrite !I0 in W. apply W.
    intros cs [<-|[]]. split; [apply repeat_length|]. intros x Hx. rewrite (Zr _ _ Hx). exact Hn.
  - intros m d Hm. unfold neighbor_distance. destruct (m <? 0)%Z; [reflexivity|]. destruct (nth_error d (Z.to_nat m)); [reflexivity|].
    assert (K : all_distances prec (sites_factory L' ord m false) = all_distances prec (sites_factory L ord m false)); [|now rewrite K].
    unfold sites_factory. assert (T : translations L' m false = translations L m false) by (unfold translations; now rewrite LV). rewrite T, LV. apply W.
    intros cs [<-|Hin]; [split; [apply repeat_length|intros x Hx; rewrite (Zr _ _ Hx); exact Hn]|]. apply (Permutation_in _ (Hord _)) in Hin. apply in_translations in Hin as [Lc B]. split; [exact Lc|]. intros x Hx. specialize (B x Hx). lia.
Qed.
Print Assumptions C35_perturbed.

(** Non-vacuity: the honeycomb lattice with the coordinates NumPy actually stores (the
    double-precision numbers nearest to 0.5 / sqrt 3 and sqrt 3 / 2) at the default
    precision: neighbor_distance(0), ..., neighbor_distance(10) answer as in exact arithmetic. *)
Definition honeycomb_doubles : lattice :=
  let y := 5200308914369309 / 18014398509481984 in
  MkLattice 2 [(0, - y, 0); (0, y, 0)] [(1, 0, 0); (0.5, 3900231685776981 / 4503599627370496, 0)] [].
Lemma s3_digits : 17320508075688772935 / 10000000000000000000 < sqrt 3 < 17320508075688772936 / 10000000000000000000.
Proof. split; [apply Rsqr_incrst_0|apply Rsqr_incrst_0]; try (apply sqrt_pos); try lra; unfold Rsqr; rewrite sqrt_sqrt by lra; lra. Qed.
Lemma dist_0_r p : dist p v0 = norm p. Proof. unfold dist. now rewrite vsub_0_r. Qed.
Lemma dist_vertical x y y' z e : 0 <= e -> Rabs (y - y') <= e -> dist (x, y, z) (x, y', z) <= e.
Proof.
  intros He H. unfold dist, norm. cbn [vsub vdot]. replace ((x - x) * (x - x) + (y - y') * (y - y') + (z - z) * (z - z)) with (Rsqr (y - y')) by (unfold Rsqr; ring).
  rewrite sqrt_Rsqr_abs. exact H.
Qed.
Example C35_perturbed_example : forall ord, listing ord -> exists L d0, lattice_generator 4 (Name "honeycomb") (AnInt 1) (AnInt 1) (AnInt 1) = Ok (L, d0) /\
  all_distances 4 (points honeycomb_doubles) = all_distances 4 (points L) /\
  forall m d, (0 <= m <= 10)%Z -> neighbor_distance honeycomb_doubles ord 4 d (AnInt m) = neighbor_distance L ord 4 d (AnInt m).
Proof.
  intros ord Ho. assert (H : In ("honeycomb"%string, honeycomb_cell) common_cells) by (cbn; tauto). assert (O1 : (1 <= 1)%Z) by lia.
  destruct (extents_ok "honeycomb" honeycomb_cell 1 1 1 H O1 O1 O1) as [F1 Hl]. pose proof (common_gridded _ _ H) as g.
  destruct (cluster_accepted 4 honeycomb_cell g _ ltac:(lia) F1 Hl) as (L & d0 & E & _ & E1 & E2 & HL).
  assert (Eg : lattice_generator 4 (Name "honeycomb") (AnInt 1) (AnInt 1) (AnInt 1) = Ok (L, d0)) by (rewrite (generator_build 4 "honeycomb" honeycomb_cell); auto).
  assert (Ep : points L = cpoints honeycomb_cell) by (rewrite E1; apply ones_cluster; repeat constructor). assert (Ev : vectors L = hex) by (rewrite E2; apply ones_scale; [exact Hl|repeat constructor]).
  exists L, d0. split; [exact Eg|]. pose proof s3_digits as S3.
  assert (F0 : forall p, dist p p <= / 10000000000000) by (intros p; rewrite dist_refl; lra).
  apply (C35_perturbed 4 "honeycomb" honeycomb_cell 1 1 1 L d0 honeycomb_doubles ord 10 (/ 10000000000000) 41); auto; try lia.
  - rewrite Ep. cbn [cpoints honeycomb_cell points honeycomb_doubles]. rewrite !inv_s3. constructor; [|constructor; [|constructor]]; apply dist_vertical; try lra; apply Rabs_le; lra.
  - rewrite Ev. cbn [vectors honeycomb_doubles]. unfold hex. constructor; [apply F0|constructor; [|constructor]]. apply dist_vertical; [lra|]. apply Rabs_le. lra.
  - rewrite Ev, Ep. intros p q ms ns Hp Hq Lm Ln B.
    assert (N1 : norm (1, 0, 0) = 1) by (unfold norm; cbn [vdot]; replace (1 * 1 + 0 * 0 + 0 * 0) with 1 by ring; apply sqrt_1).
    assert (N2 : norm (0.5, sqrt 3 / 2, 0) = 1).
    { unfold norm. cbn [vdot]. replace (0.5 * 0.5 + sqrt 3 / 2 * (sqrt 3 / 2) + 0 * 0) with (1 / 4 + (sqrt 3 * sqrt 3) / 4) by lra. rewrite s3_sq. replace (1 / 4 + 3 / 4) with 1 by lra. apply sqrt_1. }
    assert (K : forall cs, List.length cs = 2%nat -> (forall x, In x cs -> (Z.abs x <= 10)%Z) -> norm (shift cs hex) <= 20).
    { intros [|a [|b [|? ?]]] Lc Bc; try discriminate. rewrite <- comb_shift. unfold hex. cbn [comb]. eapply Rle_trans; [apply norm_triangle|]. replace (vadd (vscale (IZR b) (0.5, sqrt 3 / 2, 0)) v0) with (vscale (IZR b) (0.5, sqrt 3 / 2, 0)) by (cbn; apply p3_eq; ring).
      rewrite !norm_scale, N1, N2, <- !abs_IZR. assert (IZR (Z.abs a) <= 10) by (apply IZR_le; apply Bc; now left). assert (IZR (Z.abs b) <= 10) by (apply IZR_le; apply Bc; right; now left). lra. }
    assert (G : forall p, In p (cpoints honeycomb_cell) -> norm p <= 3 / 10).
    { cbn [cpoints honeycomb_cell]. rewrite !inv_s3. intros r [<-|[<-|[]]]; rewrite <- (dist_0_r _); apply dist_vertical; try lra; apply Rabs_le; lra. }
    eapply Rle_trans; [apply dist_vadd|]. pose proof (K ms Lm (fun x Hx => B x (or_introl Hx))). pose proof (K ns Ln (fun x Hx => B x (or_intror Hx))). pose proof (G p Hp). pose proof (G q Hq).
    pose proof (dist_triangle (shift ms hex) v0 (shift ns hex)) as T1. pose proof (dist_triangle p v0 q) as T2. rewrite (dist_sym v0 (shift ns hex)), !dist_0_r in T1. rewrite (dist_sym v0 q), !dist_0_r in T2. lra.
  - rewrite Ev, zoom4. cbn [List.length hex]. rewrite S_INR. cbn [INR]. lra.
Qed.
