(** C62: what Lattice.show, ShowFirstBZ and Octahedron.py draw. *)
From Coq Require Import String List Reals ZArith Bool Arith Lra Lia Psatz.
From Verif Require Import Py Line2D_Model Lattice_Model Lattice_Spec Lattice_Proofs Lattice_Proofs2 Lattice_Proofs3 Lattice_Properties LatticeBonds_Proofs LatticeGen_Model LatticeGen_Proofs LatticeGen_Properties Reciprocal_Model Reciprocal_Spec Reciprocal_Proofs Reciprocal_Properties Zone_Proofs BrillouinZone_Proofs
  ColorPrint_Model ColorPrint_Spec ColorPrint_Proofs Text_Model Text_Proofs Figures_Model Figures_Spec Figures_Proofs Figures_Proofs2 Figures_Proofs3.
Import ListNotations.
Open Scope R_scope.

Lemma map_nodup_in {A B} (f : A -> B) : forall l, (forall x y, In x l -> In y l -> f x = f y -> x = y) -> NoDup l -> NoDup (map f l).
Proof.
  induction l as [|x l IH]; intros H N; [constructor|]. inversion N as [|? ? Nx Nl]; subst. cbn. constructor.
  - intros Hin. apply in_map_iff in Hin as (y & E & Hy). apply Nx. rewrite (H x y); [exact Hy|now left|now right|now symmetry].
  - apply IH; [|exact Nl]. intros a b Ha Hb. apply H; now right.
Qed.

(** ** Lattice.show *)
(** Every site whose cell has coordinates between -scope and scope is drawn, and nothing
    else; each exactly once if no two points of the cluster are equivalent. *)
Theorem C62_show : forall prec L s, lattice_of prec L -> (space_dim L <= 2)%nat -> (forall p, In p (points L) \/ In p (vectors L) -> in_space (space_dim L) p) -> (0 <= s)%Z ->
  exists clusters, show_clusters L (AnInt s) = Ok clusters /\
    List.length clusters = (Z.to_nat (2 * s + 1) ^ List.length (vectors L))%nat /\
    (forall x y, In (x, y) (show_marks L clusters) <->
       exists j ns, (j < List.length (points L))%nat /\ List.length ns = List.length (vectors L) /\ Forall (fun n => (- s <= n <= s)%Z) ns /\
         (x, y, 0) = vadd (nth j (points L) v0) (shift ns (vectors L))) /\
    ((exists eps, 0 < eps /\ separated eps L) -> NoDup (show_marks L clusters)).
Proof.
  intros prec L s HL HD HS Hs. pose proof (lattice_of_facts _ _ HL) as (HA & Hb & Hv & Hp).
  assert (D1 : (1 <= space_dim L)%nat).
  { destruct HL as ((d & E) & _ & Nv). cbn [make_lattice] in E. destruct (Nat.ltb 3 _); [discriminate|]. destruct (Nat.ltb (space_dim L) (List.length (vectors L))) eqn:E1; [discriminate|]. apply Nat.ltb_ge in E1. lia. }
  unfold show_clusters. replace (0 <=? s)%Z with true by (symmetry; apply Z.leb_le; exact Hs). cbn [negb]. replace (Nat.leb 3 (space_dim L)) with false by (symmetry; apply Nat.leb_gt; lia).
  eexists. split; [reflexivity|]. set (box := product (zrange (- s) (s + 1)) (List.length (vectors L))).
  assert (SP : forall ns p, In p (points L) -> in_space (space_dim L) (vadd p (comb ns (vectors L)))).
  { intros ns p Hin. apply in_space_add; [apply HS; now left|]. apply in_space_comb. intros v Hin'. apply HS. now right. }
  assert (EM : show_marks L (map (fun tmp => map (fun p => vadd p (comb tmp (vectors L))) (points L)) box) = flat_map (fun ns => map (fun p => mark (space_dim L) (vadd p (comb ns (vectors L)))) (points L)) box).
  { unfold show_marks. induction box as [|b r IH]; [reflexivity|]. cbn [map flat_map]. rewrite IH, map_map. reflexivity. }
  rewrite EM. split; [|split].
  - rewrite map_length. unfold box. rewrite product_count, zrange_length. f_equal. lia.
  - intros x y. rewrite in_flat_map. split.
    + intros (ns & Hns & H). apply in_map_iff in H as (p & E & H). apply in_box in Hns as [Ln F]; [|exact Hs]. apply (In_nth _ _ v0) in H as (j & Hj & <-). exists j, ns. split; [exact Hj|]. split; [exact Ln|]. split; [exact F|].
      rewrite <- comb_shift. apply (mark_point (space_dim L)); [lia|apply SP; now apply nth_In|now symmetry].
    + intros (j & ns & Hj & Ln & F & E). exists ns. split; [apply in_box; auto|]. apply in_map_iff. exists (nth j (points L) v0). split; [|now apply nth_In]. rewrite <- comb_shift in E.
      symmetry. apply (mark_point (space_dim L)); [lia|apply SP; now apply nth_In|exact E].
  - intros (eps & He & SE). assert (NP : NoDup (points L)).
    { apply (NoDup_nth _ v0). intros i j Hi Hj E. destruct (Nat.eq_dec i j) as [|N]; [assumption|]. exfalso. specialize (SE i j (repeat 0%Z (List.length (vectors L))) Hi Hj N (repeat_length _ _)).
      rewrite shift_zero, vadd_0_r, E, dist_refl in SE. lra. }
    assert (MI : forall ns p ms q, In p (points L) -> In q (points L) -> mark (space_dim L) (vadd p (comb ns (vectors L))) = mark (space_dim L) (vadd q (comb ms (vectors L))) -> vadd p (comb ns (vectors L)) = vadd q (comb ms (vectors L))).
    { intros ns p ms q Hin Hin' E. destruct (mark (space_dim L) (vadd p (comb ns (vectors L)))) as [x y] eqn:Ex.
      transitivity (x, y, 0); [symmetry|]; apply (mark_point (space_dim L)); try lia; try (now apply SP); congruence. }
    apply nodup_flat_map.
    + apply nodup_product, nodup_zrange.
    + intros ns _. apply map_nodup_in; [|exact NP]. intros p q Hin Hin' E. apply MI in E; auto. revert E. clear. generalize (comb ns (vectors L)). intros w E.
      destruct p as [[? ?] ?], q as [[? ?] ?], w as [[? ?] ?]. cbn in E. apply point_inj in E as (E1 & E2 & E3). apply p3_eq; lra.
    + intros ns ms b Hns Hms H H'. apply in_map_iff in H as (p & <- & H). apply in_map_iff in H' as (q & E & H'). apply in_box in Hns as [Ln F]; [|exact Hs]. apply in_box in Hms as [Lm F']; [|exact Hs].
      apply MI in E; auto. rewrite !comb_shift in E. apply (In_nth _ _ v0) in H as (i & Hi & <-). apply (In_nth _ _ v0) in H' as (j & Hj & <-).
      assert (IJ : i = j).
      { destruct (Nat.eq_dec i j) as [|N]; [assumption|]. exfalso. specialize (SE i j (map (fun p => (fst p - snd p)%Z) (combine ms ns)) Hi Hj N). rewrite map_length, combine_length, Ln, Lm, Nat.min_id in SE. specialize (SE eq_refl).
        rewrite <- shift_sub in SE by congruence. replace (vadd (nth j (points L) v0) (vsub (shift ms (vectors L)) (shift ns (vectors L)))) with (nth i (points L) v0) in SE; [rewrite dist_refl in SE; lra|].
        revert E. generalize (nth i (points L) v0) (nth j (points L) v0) (shift ms (vectors L)) (shift ns (vectors L)). clear. intros [[? ?] ?] [[? ?] ?] [[? ?] ?] [[? ?] ?] E. cbn in *. apply point_inj in E as (E1 & E2 & E3). apply p3_eq; lra. }
      subst j. apply (shift_inj (vectors L) (bs L)); auto. revert E. generalize (nth i (points L) v0) (shift ms (vectors L)) (shift ns (vectors L)). clear. intros [[? ?] ?] [[? ?] ?] [[? ?] ?] E. cbn in *. apply point_inj in E as (E1 & E2 & E3). apply p3_eq; lra.
Qed.
Print Assumptions C62_show.
(** What it refuses; the axes: the limits become a square with the same centre which
    contains the old ones; two figures have the same file name only if name and scope agree. *)
Theorem C62_show_rest :
  (forall L, show_clusters L NotInt = Err AssertionError) /\
  (forall L s, (s < 0)%Z -> show_clusters L (AnInt s) = Err AssertionError) /\
  (forall L s, (0 <= s)%Z -> (3 <= space_dim L)%nat -> show_clusters L (AnInt s) = Err RuntimeError) /\
  (forall l r b t l' r' b' t', l <= r -> b <= t -> show_limits l r b t = ((l', r'), (b', t')) ->
     l' <= l /\ r <= r' /\ b' <= b /\ t <= t' /\ r' - l' = t' - b' /\ r' - l' = Rmax (r - l) (t - b) /\ l' + r' = l + r /\ b' + t' = b + t) /\
  (forall name s name' s', show_file name s = show_file name' s' <-> name = name' /\ s = s') /\
  (forall name s, show_title name s = (name ++ ",scope=" ++ ColorPrint_Spec.decimal s)%string /\ show_file name s = (name ++ ",scope=" ++ ColorPrint_Spec.decimal s ++ ".png")%string).
Proof.
  split; [reflexivity|]. split; [|split; [|split; [|split]]].
  - intros L s H. cbn. replace (0 <=? s)%Z with false by (symmetry; apply Z.leb_gt; exact H). reflexivity.
  - intros L s H D. cbn [show_clusters]. replace (0 <=? s)%Z with true by (symmetry; apply Z.leb_le; exact H). cbn [negb]. replace (Nat.leb 3 (space_dim L)) with true by (symmetry; apply Nat.leb_le; exact D). reflexivity.
  - intros l r b t l' r' b' t' H1 H2 E. unfold show_limits in E. cbv zeta in E. apply pair_equal_spec in E as [E1 E2]. apply pair_equal_spec in E1 as [<- <-]. apply pair_equal_spec in E2 as [<- <-].
    pose proof (Rmax_l (r - l) (t - b)). pose proof (Rmax_r (r - l) (t - b)). repeat split; lra.
  - intros n s n' s'. split; [apply file_inj|intros [-> ->]; reflexivity].
  - intros n s. unfold show_file, show_title. rewrite !ColorPrint_Proofs.sapp_assoc. split; reflexivity.
Qed.
Print Assumptions C62_show_rest.

(** ** ShowFirstBZ *)
(** The nine points m b0 + n b1 with m, n between -1 and 1 are marked and labelled (m, n);
    for each but the origin the part of the perpendicular bisector within |scale| |K| of its
    middle is drawn. *)
Theorem C62_bz : forall a0 a1 scale, in_space 2 a0 -> in_space 2 a1 -> area a0 a1 <> 0 ->
  exists BS marks lines, show_first_bz (Arr 2 [a0; a1]) scale = Ok (marks, lines) /\
    dual_to [a0; a1] BS /\ (forall b, In b BS -> in_space 2 b) /\
    (forall t p, In (t, p) marks <-> exists m n, (-1 <= m <= 1)%Z /\ (-1 <= n <= 1)%Z /\ t = ("(" ++ dec m ++ ", " ++ dec n ++ ")")%string /\ p = shift [m; n] BS) /\
    (forall p, drawn lines p <-> exists m n, (-1 <= m <= 1)%Z /\ (-1 <= n <= 1)%Z /\ (m, n) <> (0, 0)%Z /\
       let K := shift [m; n] BS in in_space 2 p /\ norm p = dist p K /\ dist p (vscale (1 / 2) K) <= Rabs scale * norm K).
Proof.
  intros a0 a1 scale S0 S1 Har. assert (Nd : coord 0 a0 * coord 1 a1 - coord 1 a0 * coord 0 a1 <> 0) by (intros E; apply Har; unfold area; rewrite E; apply Rabs_R0).
  destruct (plane_dual a0 a1 S0 S1 Nd) as [EB DU]. unfold show_first_bz. cbn [Nat.eqb List.length andb negb]. rewrite EB. set (b0 := rb0 a0 a1) in *. set (b1 := rb1 a0 a1) in *.
  assert (T0 : in_space 2 b0) by reflexivity. assert (T1 : in_space 2 b1) by reflexivity. destruct (rb_dots a0 a1 S0 S1 Nd) as (_ & _ & _ & ED & Pf). fold b0 b1 in ED.
  exists [b0; b1]. eexists. eexists. split; [reflexivity|]. split; [exact DU|]. split; [intros b [<-|[<-|[]]]; assumption|].
  assert (SH : forall m n, shift [m; n] [b0; b1] = Kmn b0 b1 m n) by (intros m n; rewrite <- comb_shift; apply comb_pair). split.
  - assert (TT : forall m n, tuple_repr (map dec [m; n]) = ("(" ++ dec m ++ ", " ++ dec n ++ ")")%string) by (intros m n; transitivity ("(" ++ (dec m ++ ", " ++ dec n) ++ ")")%string; [reflexivity|now rewrite !sapp_A]).
    intros t p. split.
    + intros H. apply in_map_iff in H as (co & E & H). apply in_product in H as [L F]. destruct co as [|m [|n [|]]]; try discriminate.
      inversion F as [|? ? Fm F']; subst. inversion F' as [|? ? Fn _]; subst. apply in_zrange in Fm, Fn. apply pair_equal_spec in E as [<- <-]. exists m, n. split; [lia|]. split; [lia|]. split; [apply TT|]. now rewrite SH, comb_pair.
    + intros (m & n & Hm & Hn & -> & ->). apply in_map_iff. exists [m; n]. rewrite comb_pair, SH. split; [now rewrite TT|].
      apply in_product. split; [reflexivity|]. apply Forall_cons; [apply in_zrange; lia|]. apply Forall_cons; [apply in_zrange; lia|]. constructor.
  - assert (HD : coord 0 b0 * coord 1 b1 - coord 1 b0 * coord 0 b1 <> 0) by (rewrite ED; apply Rmult_integral_contrapositive_currified; [lra|exact Nd]).
    intros p. change (drawn (lines b0 b1 scale) p <-> exists m n, (-1 <= m <= 1)%Z /\ (-1 <= n <= 1)%Z /\ (m, n) <> (0, 0)%Z /\ let K := shift [m; n] [b0; b1] in in_space 2 p /\ norm p = dist p K /\ dist p (vscale (1 / 2) K) <= Rabs scale * norm K). rewrite drawn_iff.
    assert (DL : forall K u, in_space 2 K -> dist (at_ K u) (vscale (1 / 2) K) = Rabs u * norm K).
    { intros [[x y] z] u. cbn [in_space]. intros ->. unfold dist, norm, at_, orth. cbn [vsub vadd vscale coord vdot]. rewrite <- sqrt_Rsqr_abs, <- sqrt_mult_alt by apply Rle_0_sqr. f_equal. unfold Rsqr. field. }
    split.
    + intros (m & n & u & Hm & Hn & N & Hu & ->). exists m, n. repeat (split; [assumption|]). rewrite SH. cbv zeta. assert (SK := Kmn_space b0 b1 T0 T1 m n). split; [now apply at_space|]. split; [apply equi_iff; now apply at_line|].
      rewrite DL by exact SK. apply Rmult_le_compat_r; [apply norm_nonneg|exact Hu].
    + intros (m & n & Hm & Hn & N & H). rewrite SH in H. cbv zeta in H. destruct H as (Sp & E & Le). assert (SK := Kmn_space b0 b1 T0 T1 m n). assert (NK : Kmn b0 b1 m n <> v0) by (apply Kmn_nz; assumption). apply equi_iff in E.
      destruct (on_line _ p SK Sp NK E) as (u & ->). exists m, n, u. repeat (split; [assumption|]). split; [|reflexivity]. rewrite DL in Le by exact SK. apply (Rmult_le_reg_r (norm (Kmn b0 b1 m n))); [|exact Le].
      destruct (Rle_lt_or_eq_dec _ _ (norm_nonneg (Kmn b0 b1 m n))) as [|E0]; [assumption|]. exfalso. apply NK. symmetry in E0. now apply norm_zero.
Qed.
Print Assumptions C62_bz.

(** If the vectors are reduced (|a0 . a1| at most half of either squared length) the first
    Brillouin zone is what the eight marked points cut out, and its boundary is drawn
    completely exactly if max(a0^2, a1^2) - |a0 . a1| <= 2 |scale| area. *)
Theorem C62_bz_reduced : forall a0 a1 scale marks lines, in_space 2 a0 -> in_space 2 a1 -> area a0 a1 <> 0 -> reduced (1 / 2) [a0; a1] ->
  show_first_bz (Arr 2 [a0; a1]) scale = Ok (marks, lines) ->
  exists BS, dual_to [a0; a1] BS /\ (forall b, In b BS -> in_space 2 b) /\
    (forall k, first_BZ 2 BS k <-> in_space 2 k /\ forall t g, In (t, g) marks -> norm k <= dist k g) /\
    ((forall k, zone_boundary BS k -> drawn lines k) <-> Rmax (vdot a0 a0) (vdot a1 a1) - Rabs (vdot a0 a1) <= 2 * Rabs scale * area a0 a1).
Proof.
  intros a0 a1 scale marks ls S0 S1 Har Red E. assert (Nd : coord 0 a0 * coord 1 a1 - coord 1 a0 * coord 0 a1 <> 0) by (intros E0; apply Har; unfold area; rewrite E0; apply Rabs_R0).
  destruct (plane_dual a0 a1 S0 S1 Nd) as [EB DU]. pose proof (rb_dots a0 a1 S0 S1 Nd) as RD. cbv zeta in RD.
  unfold show_first_bz in E. cbn [Nat.eqb List.length andb negb] in E. rewrite EB in E. set (b0 := rb0 a0 a1) in *. set (b1 := rb1 a0 a1) in *.
  assert (T0 : in_space 2 b0) by reflexivity. assert (T1 : in_space 2 b1) by reflexivity. clearbody b0 b1.
  set (d := coord 0 a0 * coord 1 a1 - coord 1 a0 * coord 0 a1) in *. set (f := 2 * PI / d * (2 * PI / d)) in *. destruct RD as (EA & EBB & EC & ED & Pf). clearbody f.
  cbv zeta in E. apply (f_equal (fun r => match r with Ok x => x | Err _ => (marks, ls) end)) in E. apply pair_equal_spec in E as [<- <-].
  assert (HR : 2 * Rabs (vdot a0 a1) <= vdot a0 a0 /\ 2 * Rabs (vdot a0 a1) <= vdot a1 a1).
  { pose proof (Red 0%nat ltac:(cbn; lia)) as R0. pose proof (Red 1%nat ltac:(cbn; lia)) as R1'. unfold overlap in R0, R1'. cbn in R0, R1'. rewrite (vdot_comm a1 a0) in R1'. lra. }
  destruct HR as [HR0 HR1].
  assert (Cabs : Rabs (vdot b0 b1) = f * Rabs (vdot a0 a1)) by (rewrite EC, Rabs_Ropp, Rabs_mult, (Rabs_right f) by lra; reflexivity).
  assert (HA : 2 * Rabs (vdot b0 b1) <= vdot b0 b0) by (rewrite Cabs, EA; apply (Rmult_le_compat_l f) in HR1; lra).
  assert (HB : 2 * Rabs (vdot b0 b1) <= vdot b1 b1) by (rewrite Cabs, EBB; apply (Rmult_le_compat_l f) in HR0; lra).
  assert (HD : coord 0 b0 * coord 1 b1 - coord 1 b0 * coord 0 b1 <> 0) by (rewrite ED; apply Rmult_integral_contrapositive_currified; [lra|exact Nd]).
  exists [b0; b1]. split; [exact DU|]. split; [intros b [<-|[<-|[]]]; assumption|]. split.
  - intros k. rewrite zone_iff by assumption. split; intros [Sk F]; (split; [exact Sk|]).
    + intros t g Hg. apply in_map_iff in Hg as (co & Eg & Hg). apply in_product in Hg as [L _]. destruct co as [|m [|n [|]]]; try discriminate. apply pair_equal_spec in Eg as [_ <-]. rewrite comb_pair.
      apply near_iff. rewrite Kmn_dot, Kmn_sq. destruct (Z.eq_dec m 0) as [->|Nm]; [destruct (Z.eq_dec n 0) as [->|Nn]|].
      * unfold rhs. lra.
      * now apply half_planes; [..|congruence].
      * now apply half_planes; [..|congruence].
    + apply four_of. intros m n Hm Hn. rewrite <- Kmn_dot, <- Kmn_sq. apply near_iff. apply (F (tuple_repr (map dec [m; n]))). apply in_map_iff. exists [m; n]. rewrite comb_pair. split; [reflexivity|].
      apply in_product. split; [reflexivity|]. apply Forall_cons; [apply in_zrange; lia|]. apply Forall_cons; [apply in_zrange; lia|]. constructor.
  - assert (EQ : Rmax (vdot b0 b0) (vdot b1 b1) - Rabs (vdot b0 b1) <= 2 * Rabs scale * Rabs (coord 0 b0 * coord 1 b1 - coord 1 b0 * coord 0 b1) <-> Rmax (vdot a0 a0) (vdot a1 a1) - Rabs (vdot a0 a1) <= 2 * Rabs scale * area a0 a1).
    { unfold area. fold d. rewrite Cabs, EA, EBB, ED, Rabs_mult, (Rabs_right f) by lra. rewrite RmaxRmult by lra. rewrite (Rmax_comm (vdot a1 a1)). split; intros H.
      - apply (Rmult_le_reg_l f); [exact Pf|]. lra.
      - apply (Rmult_le_compat_l f) in H; lra. }
    rewrite <- EQ. change (map (fun coeff => bisector scale (comb coeff [b0; b1])) (filter (fun coeff => negb (zs_eqb coeff [0; 0]%Z)) (product (zrange (-1) 2) 2))) with (lines b0 b1 scale). split.
    + intros H. apply Rnot_lt_le. intros L. assert (X : exists k, zone_boundary [b0; b1] k /\ ~ drawn (lines b0 b1 scale) k) by (apply not_covered; assumption). destruct X as (k & Hk & Nk). exact (Nk (H k Hk)).
    + intros H. now apply covered.
Qed.
Print Assumptions C62_bz_reduced.
(** So the default scale is not enough for a rectangular lattice with sides 1 and 3 ... *)
Theorem C62_bz_scale_refuted : exists a0 a1 BS marks lines, in_space 2 a0 /\ in_space 2 a1 /\ area a0 a1 <> 0 /\ orthogonal [a0; a1] /\ dual_to [a0; a1] BS /\
  show_first_bz (Arr 2 [a0; a1]) 1 = Ok (marks, lines) /\ exists k, zone_boundary BS k /\ ~ drawn lines k.
Proof.
  set (a0 := (1, 0, 0) : point). set (a1 := (0, 3, 0) : point). assert (AR : area a0 a1 = 3) by (unfold area; cbn; rewrite Rabs_right; lra).
  assert (RD : reduced (1 / 2) [a0; a1]).
  { intros i Hi. unfold overlap. destruct i as [|[|i]]; [| |cbn in Hi; lia]; cbn; rewrite ?Rabs_right by lra; lra. }
  destruct (C62_bz a0 a1 1 eq_refl eq_refl ltac:(rewrite AR; lra)) as (_ & marks & ls & E & _).
  destruct (C62_bz_reduced a0 a1 1 marks ls eq_refl eq_refl ltac:(rewrite AR; lra) RD E) as (BS & DU & SB & _ & CV).
  exists a0, a1, BS, marks, ls. split; [reflexivity|]. split; [reflexivity|]. split; [rewrite AR; lra|]. split.
  { intros i j Hi Hj N. cbn in Hi, Hj. destruct i as [|[|i]], j as [|[|j]]; try lia; cbn; ring. }
  split; [exact DU|]. split; [exact E|]. apply Classical_Pred_Type.not_all_not_ex. intros H. assert (C : forall k, zone_boundary BS k -> drawn ls k).
  { intros k Hk. apply Classical_Prop.NNPP. intros N. exact (H k (conj Hk N)). }
  apply CV in C. rewrite AR in C. cbn in C. rewrite Rabs_R1 in C. replace (1 * 0 + 0 * 3 + 0 * 0) with 0 in C by ring. rewrite Rabs_R0, Rmax_right in C by lra. lra.
Qed.
Print Assumptions C62_bz_scale_refuted.
(** ... and for vectors that are not reduced no scale is. *)
Theorem C62_bz_skew_refuted : exists a0 a1 BS, in_space 2 a0 /\ in_space 2 a1 /\ area a0 a1 = 1 /\ dual_to [a0; a1] BS /\
  forall scale, exists marks lines, show_first_bz (Arr 2 [a0; a1]) scale = Ok (marks, lines) /\ exists k, zone_boundary BS k /\ ~ drawn lines k.
Proof.
  set (a0 := (1, 0, 0) : point). set (a1 := (3, 1, 0) : point). set (b0 := (2 * PI, - (6 * PI), 0) : point). set (b1 := (0, 2 * PI, 0) : point).
  assert (AR : area a0 a1 = 1) by (unfold area; cbn; rewrite Rabs_right; lra).
  assert (DU : dual_to [a0; a1] [b0; b1]). { split; [reflexivity|]. intros i j Hi Hj. cbn in Hi, Hj. destruct i as [|[|i]], j as [|[|j]]; try lia; cbn; ring. }
  exists a0, a1, [b0; b1]. split; [reflexivity|]. split; [reflexivity|]. split; [exact AR|]. split; [exact DU|]. intros scale.
  destruct (C62_bz a0 a1 scale eq_refl eq_refl ltac:(rewrite AR; lra)) as (BS & marks & ls & E & DU' & SB & _ & DR). exists marks, ls. split; [exact E|].
  assert (BE : BS = [b0; b1]).
  { assert (Ss : forall a, In a [a0; a1] -> in_space 2 a) by (intros a [<-|[<-|[]]]; reflexivity). destruct (C52_BS 2 [a0; a1] ltac:(lia) eq_refl Ss) as [DE NDE].
    destruct NDE as (BS' & _ & _ & _ & U); [|rewrite (U BS DU' SB); symmetry; apply U; [exact DU|intros b [<-|[<-|[]]]; reflexivity]].
    apply pair_independent; try reflexivity. unfold a0, a1. cbn. lra. }
  subst BS. pose proof PI_RGT_0 as Pi. assert (PP : 0 < PI * PI) by nra.
  assert (KD : forall m n, 2 * vdot (PI, PI / 2, 0) (Kmn b0 b1 m n) = 2 * (PI * PI) * IZR (2 * m + (n - 3 * m)) /\ vdot (Kmn b0 b1 m n) (Kmn b0 b1 m n) = 2 * (PI * PI) * IZR (2 * (m * m + (n - 3 * m) * (n - 3 * m)))).
  { intros m n. unfold Kmn, b0, b1. cbn [vadd vscale vdot]. rewrite !mult_IZR, !plus_IZR, !mult_IZR, !minus_IZR, !mult_IZR. split; field. }
  assert (SH : forall m n, shift [m; n] [b0; b1] = Kmn b0 b1 m n) by (intros m n; rewrite <- comb_shift; apply comb_pair).
  exists (PI, PI / 2, 0). split.
  - split.
    + split; [reflexivity|]. intros ns L. destruct ns as [|m [|n [|]]]; try discriminate. rewrite SH. apply near_iff. destruct (KD m n) as [-> ->]. apply Rmult_le_compat_l; [lra|]. apply IZR_le. generalize (n - 3 * m)%Z. intros j. assert (m <= m * m)%Z by nia. assert (j <= j * j)%Z by nia. nia.
    + exists [1; 3]%Z. split; [reflexivity|]. split; [exists 1%Z; split; [now left|discriminate]|]. rewrite SH. apply equi_iff. destruct (KD 1%Z 3%Z) as [-> ->]. reflexivity.
  - intros D. apply DR in D as (m & n & Hm & Hn & N & H). cbv zeta in H. destruct H as (_ & H & _). rewrite SH in H. apply equi_iff in H. destruct (KD m n) as [E1 E2]. rewrite E1, E2 in H.
    apply Rmult_eq_reg_l in H; [|lra]. apply eq_IZR in H. assert (Am : (m = -1 \/ m = 0 \/ m = 1)%Z) by lia. assert (An : (n = -1 \/ n = 0 \/ n = 1)%Z) by lia.
    destruct Am as [-> | [-> | ->]], An as [-> | [-> | ->]]; try (now apply N); lia.
Qed.
Print Assumptions C62_bz_skew_refuted.
(** Anything but a 2 x 2 array is refused, and dependent vectors have no reciprocal vectors. *)
Theorem C62_bz_errors : forall scale,
  show_first_bz NotArr2 scale = Err AssertionError /\
  (forall cols rows, cols <> 2%nat \/ List.length rows <> 2%nat -> show_first_bz (Arr cols rows) scale = Err AssertionError) /\
  (forall a0 a1, in_space 2 a0 -> in_space 2 a1 -> area a0 a1 = 0 -> show_first_bz (Arr 2 [a0; a1]) scale = Err LinAlgError).
Proof.
  intros scale. split; [reflexivity|]. split.
  - intros cols rows H. unfold show_first_bz. destruct (Nat.eqb_spec cols 2), (Nat.eqb_spec (List.length rows) 2); try reflexivity. destruct H; contradiction.
  - intros a0 a1 S0 S1 E. assert (Ss : forall a, In a [a0; a1] -> in_space 2 a) by (intros a [<-|[<-|[]]]; assumption).
    unfold show_first_bz. cbn [Nat.eqb List.length andb negb]. destruct (C52_BS 2 [a0; a1] ltac:(lia) eq_refl Ss) as [H _]. rewrite H; [reflexivity|].
    assert (D0 : coord 0 a0 * coord 1 a1 - coord 1 a0 * coord 0 a1 = 0). { unfold area in E. destruct (Req_dec (coord 0 a0 * coord 1 a1 - coord 1 a0 * coord 0 a1) 0) as [|N]; [assumption|]. apply Rabs_no_R0 in N. contradiction. }
    destruct a0 as [[x y] z], a1 as [[x' y'] z']. cbn in S0, S1, D0. subst z z'.
    destruct (Req_dec x 0) as [Ex|Nx].
    + destruct (Req_dec y 0) as [Ey|Ny].
      * exists [1; 0]. split; [reflexivity|]. split; [exists 1; split; [now left|lra]|]. subst. cbn. apply p3_eq; ring.
      * exists [y'; - y]. split; [reflexivity|]. split; [exists (- y); split; [right; now left|lra]|]. cbn. apply p3_eq; lra.
    + exists [x'; - x]. split; [reflexivity|]. split; [exists (- x); split; [right; now left|lra]|]. cbn. apply p3_eq; lra.
Qed.
Print Assumptions C62_bz_errors.

(** ** Octahedron.py *)
(** The six corners have the distance sqrt 2 from the centre; two corners have at least the
    distance 2, and a line is drawn between them exactly if they have it; every corner is
    connected with the centre; no line is drawn twice. *)
Theorem C62_octahedron :
  (forall i, In i oct_corners -> dist (oct_point 0) (oct_point i) = sqrt 2) /\
  (forall i j, In i oct_corners -> In j oct_corners -> i <> j -> 2 <= dist (oct_point i) (oct_point j) /\
     ((exists l, In l oct_lines /\ joins l i j) <-> dist (oct_point i) (oct_point j) = 2)) /\
  (forall i, In i oct_corners -> In (0%nat, i) oct_lines) /\
  NoDup oct_lines /\ (forall i j, In (i, j) oct_lines -> ~ In (j, i) oct_lines) /\ List.length oct_lines = 18%nat /\
  NoDup oct_corners /\ forall i, In i oct_corners <-> (1 <= i <= 6)%nat.
Proof.
  assert (S2 : sqrt 2 * sqrt 2 = 2) by (apply sqrt_sqrt; lra). assert (P2 : 0 < sqrt 2) by (apply sqrt_lt_R0; lra).
  assert (S4 : sqrt 4 = 2) by (replace 4 with (2 * 2) by ring; apply sqrt_square; lra). assert (S8 : 2 < sqrt 8) by (rewrite <- S4; apply sqrt_lt_1; lra).
  split; [|split; [|split; [|split; [|split; [|split; [|split]]]]]].
  - intros i H. unfold oct_corners in H. cbn [In] in H. repeat (destruct H as [<-|H]; [unfold dist, norm; cbn; f_equal; lra|]). destruct H.
  - assert (DD : forall i j, In i oct_corners -> In j oct_corners -> i <> j ->
        (dist (oct_point i) (oct_point j) = sqrt 4 /\ (In (i, j) oct_lines \/ In (j, i) oct_lines)) \/ (dist (oct_point i) (oct_point j) = sqrt 8 /\ ~ In (i, j) oct_lines /\ ~ In (j, i) oct_lines)).
    { intros i j Hi Hj N. unfold oct_corners in Hi, Hj. cbn [In] in Hi, Hj.
      destruct Hi as [<-|[<-|[<-|[<-|[<-|[<-|[]]]]]]]; destruct Hj as [<-|[<-|[<-|[<-|[<-|[<-|[]]]]]]]; try (exfalso; now apply N);
        (left; split; [unfold dist, norm; cbn; f_equal; lra|unfold oct_lines; cbn [In]; first [left; tauto|right; tauto]]) ||
        (right; split; [unfold dist, norm; cbn; f_equal; lra|split; unfold oct_lines; cbn [In]; intuition congruence]). }
    intros i j Hi Hj N. destruct (DD i j Hi Hj N) as [[E H]|(E & H1 & H2)]; rewrite E; [rewrite S4|].
    + split; [lra|]. split; [reflexivity|]. intros _. destruct H as [H|H]; eexists; (split; [exact H|]); [now left|now right].
    + split; [lra|]. split; [|lra]. intros (l & Hl & [-> | ->]); contradiction.
  - intros i H. unfold oct_corners in H. cbn [In] in H. unfold oct_lines. repeat (destruct H as [<-|H]; [cbn; tauto|]). destruct H.
  - unfold oct_lines. repeat (apply NoDup_cons; [cbn [In]; intuition congruence|]). apply NoDup_nil.
  - intros i j H. unfold oct_lines in *. cbn [In] in H. repeat (destruct H as [H|H]; [injection H as <- <-; cbn [In]; intuition congruence|]). destruct H.
  - reflexivity.
  - unfold oct_corners. repeat (apply NoDup_cons; [cbn [In]; intuition congruence|]). apply NoDup_nil.
  - intros i. unfold oct_corners. cbn [In]. lia.
Qed.
Print Assumptions C62_octahedron.

(** Non-vacuity: the square cell is reduced and the default scale draws its whole zone; so is
    the triangular one. *)
Example C62_case : forall a0 a1, In (a0, a1) [((1, 0, 0), (0, 1, 0)); ((1, 0, 0), (1 / 2, sqrt 3 / 2, 0))] ->
  in_space 2 a0 /\ in_space 2 a1 /\ area a0 a1 <> 0 /\ reduced (1 / 2) [a0; a1] /\ Rmax (vdot a0 a0) (vdot a1 a1) - Rabs (vdot a0 a1) <= 2 * Rabs 1 * area a0 a1.
Proof.
  assert (S3 : sqrt 3 * sqrt 3 = 3) by (apply sqrt_sqrt; lra). assert (L3 : 1 < sqrt 3) by (rewrite <- sqrt_1; apply sqrt_lt_1; lra).
  intros a0 a1 [E|[E|[]]]; injection E as <- <-; (split; [reflexivity|]); (split; [reflexivity|]); unfold area; cbn [coord vdot]; rewrite ?Rabs_R1.
  - replace (1 * 1 - 0 * 0) with 1 by ring. replace (1 * 0 + 0 * 1 + 0 * 0) with 0 by ring. replace (0 * 0 + 1 * 1 + 0 * 0) with 1 by ring. replace (1 * 1 + 0 * 0 + 0 * 0) with 1 by ring. rewrite Rabs_R1, Rabs_R0, Rmax_left by lra.
    split; [lra|]. split; [|lra]. intros i Hi. unfold overlap. destruct i as [|[|i]]; [| |cbn in Hi; lia]; cbn; rewrite ?Rabs_right by lra; lra.
  - replace (1 * (sqrt 3 / 2) - 0 * (1 / 2)) with (sqrt 3 / 2) by field. replace (1 * (1 / 2) + 0 * (sqrt 3 / 2) + 0 * 0) with (1 / 2) by field.
    replace (1 / 2 * (1 / 2) + sqrt 3 / 2 * (sqrt 3 / 2) + 0 * 0) with 1 by lra. replace (1 * 1 + 0 * 0 + 0 * 0) with 1 by ring. rewrite !Rabs_right, Rmax_left by lra.
    split; [lra|]. split; [|lra]. intros i Hi. unfold overlap. destruct i as [|[|i]]; [| |cbn in Hi; lia]; cbn; rewrite ?Rabs_right by lra; lra.
Qed.
