(** C37: third neighbours of the honeycomb lattice at the default precision. *)
From Coq Require Import String List Reals ZArith Bool Arith Lra Lia Permutation.
From Flocq Require Import Core.Raux.
From Verif Require Import Py CVec LinSolve Line2D_Model Line2D_Proofs Lattice_Model Lattice_Spec Lattice_Proofs Lattice_Proofs2 Lattice_Proofs3 Lattice_Properties LatticeCases_Properties
  Neighbors_Spec Neighbors_Proofs Neighbors_Proofs2 Neighbors_Properties NeighborsCases_Properties LatticeBonds_Spec LatticeBonds_Proofs LatticeBonds_Proofs2 LatticeBonds_Properties LatticeGen_Model LatticeGen_Spec LatticeGen_Proofs LatticeGen_Properties
  LatticeBondsCases_Properties LatticeHex_Proofs LatticeNice_Properties LatticeNearest_Spec LatticeNearest_Properties LatticeNearest2_Properties.
Import ListNotations.
Open Scope R_scope.

Lemma nth_distance_unique prec L n u v : nth_distance prec L n u -> nth_distance prec L n v -> u = v.
Proof.
  assert (K : forall u v, nth_distance prec L n u -> nth_distance prec L n v -> ~ u < v).
  { clear. intros u v (Hu & l & Nl & Ll & Il) (Hv & m & Nm & Lm & Im) Lt.
    assert (Inc : incl (u :: l) m). { intros x [<-|Hx]; [apply Im; auto|]. apply Il in Hx as [Hx Hx2]. apply Im. split; [exact Hx|lra]. }
    assert (Nu : NoDup (u :: l)). { constructor; [|exact Nl]. intros Hin. apply Il in Hin as [_ Hin]. lra. }
    pose proof (NoDup_incl_length Nu Inc) as Q. cbn in Q. lia. }
  intros A B. pose proof (K u v A B). pose proof (K v u B A). lra.
Qed.

(** ** the honeycomb *)
Definition hN (t x y : Z) : Z := (3 * H2 x y + 3 * (t * y) + t * t)%Z.
Lemma hN_mod t x y : (-1 <= t <= 1)%Z -> (hN t x y mod 3 = 0 \/ hN t x y mod 3 = 1)%Z.
Proof.
  intros Ht. unfold hN. replace (3 * H2 x y + 3 * (t * y) + t * t)%Z with (t * t + (H2 x y + t * y) * 3)%Z by ring. rewrite Z.mod_add by lia.
  assert (C : (t = -1 \/ t = 0 \/ t = 1)%Z) by lia. destruct C as [->|[->| ->]]; cbn; auto.
Qed.
Lemma hN_nonneg t x y : (-1 <= t <= 1)%Z -> (0 <= hN t x y)%Z.
Proof.
  intros Ht. assert (E : (4 * hN t x y = 3 * ((2 * x + y) * (2 * x + y)) + (3 * y + 2 * t) * (3 * y + 2 * t))%Z) by (unfold hN, H2; ring).
  pose proof (Z.square_nonneg (2 * x + y)). pose proof (Z.square_nonneg (3 * y + 2 * t)). lia.
Qed.
Lemma hN_far t x y : (-1 <= t <= 1)%Z -> (2 <= Z.max (Z.abs x) (Z.abs y))%Z -> (4 <= hN t x y)%Z.
Proof.
  intros Ht Hr. unfold hN, H2. assert (C : (t = -1 \/ t = 0 \/ t = 1)%Z) by lia.
  assert (Q : (x * x + x * y + y * y + t * y <= 0)%Z -> (-1 <= y <= 1)%Z /\ (-1 <= x <= 1)%Z).
  { intros Q. assert (Y : (-1 <= y <= 1)%Z) by (destruct C as [->|[->| ->]]; nia). split; [exact Y|]. assert (Cy : (y = -1 \/ y = 0 \/ y = 1)%Z) by lia. destruct C as [->|[->| ->]], Cy as [->|[->| ->]]; nia. }
  destruct (Z.le_gt_cases (x * x + x * y + y * y + t * y) 0) as [Hq|Hq]; [destruct (Q Hq); lia|].
  destruct C as [->|[->| ->]]; try lia.
  assert (3 <= x * x + x * y + y * y)%Z by nia. lia.
Qed.
Definition hp (i : nat) : point := nth i (cpoints honeycomb_cell) v0.
Lemma hc_dist i j x y : (i < 2)%nat -> (j < 2)%nat -> dist (vadd (hp i) (shift [x; y] hex)) (hp j) = sqrt (IZR (hN (Z.of_nat i - Z.of_nat j) x y) / 3).
Proof.
  intros Hi Hj. pose proof (hex_site_dist honeycomb_cell i j x y 0 0 (- IZR (Z.of_nat i - Z.of_nat j) / 3) (2 * IZR (Z.of_nat i - Z.of_nat j) / 3) eq_refl) as D.
  assert (E0 : site honeycomb_cell j [0; 0]%Z = hp j). { unfold site. change [0; 0]%Z with (repeat 0%Z (List.length (cvectors honeycomb_cell))). rewrite shift_zero, vadd_0_r. reflexivity. }
  rewrite E0 in D. change (vadd (hp i) (shift [x; y] hex)) with (site honeycomb_cell i [x; y]). rewrite D.
  - f_equal. unfold hq, hN, H2. rewrite !Z.sub_0_r. generalize (Z.of_nat i - Z.of_nat j)%Z. intros t. rewrite !plus_IZR, !mult_IZR, !plus_IZR, !mult_IZR. field.
  - cbn [cpoints honeycomb_cell]. rewrite !inv_s3. destruct i as [|[|i]]; [| |lia]; (destruct j as [|[|j]]; [| |lia]); cbn [nth Z.of_nat Pos.of_succ_nat Z.sub Z.add Z.opp Z.pos_sub]; unfold hex; cbn [combination vscale vadd vsub v0]; apply p3_eq; lra.
Qed.
Lemma root_le a b : 0 <= a -> a * a <= b -> a <= sqrt b.
Proof. intros H1 H2. rewrite <- (sqrt_square a) by exact H1. now apply sqrt_le_1_alt. Qed.
Lemma root_lt a b : 0 < a -> 0 <= b -> b < a * a -> sqrt b < a.
Proof. intros H1 H0 H2. rewrite <- (sqrt_square a) by lra. apply sqrt_lt_1_alt. lra. Qed.
Lemma rint_is x (n : Z) : IZR n - / 2 < x < IZR n + / 2 -> rint x = n.
Proof.
  intros H. pose proof (rint_half x) as B. apply Rabs_le_inv in B.
  assert (A1 : IZR (n - 1) < IZR (rint x)) by (rewrite minus_IZR; lra). assert (A2 : IZR (rint x) < IZR (n + 1)) by (rewrite plus_IZR; lra).
  apply lt_IZR in A1. apply lt_IZR in A2. lia.
Qed.
Lemma zoom4 : zoom 4 = 10000. Proof. unfold zoom. cbn. lra. Qed.
Lemma view4 : view 4 = / 10000. Proof. unfold view. f_equal. cbn. lra. Qed.
(** the rounded lengths *)
Lemma hc_round (n : Z) : (0 <= n)%Z -> (n mod 3 = 0 \/ n mod 3 = 1)%Z -> let r := rint (sqrt (IZR n / 3) * zoom 4) in
  (n = 0%Z /\ r = 0%Z) \/ (n = 1%Z /\ r = 5774%Z) \/ (n = 3%Z /\ r = 10000%Z) \/ (n = 4%Z /\ r = 11547%Z) \/ (5 <= n /\ 14000 < r)%Z.
Proof.
  intros H0 Hm r.
  assert (C : (n = 0 \/ n = 1 \/ n = 3 \/ n = 4 \/ 5 <= n)%Z). { assert (n <> 2%Z) by (intros ->; cbn in Hm; lia). lia. }
  unfold r. rewrite zoom4. clear r. destruct C as [->|[->|[->|[->|C]]]].
  - left. split; [reflexivity|]. replace (0 / 3) with 0 by lra. rewrite sqrt_0. apply rint_is. lra.
  - right; left. split; [reflexivity|]. apply rint_is. assert (5773501 / 10000000 <= sqrt (1 / 3)) by (apply root_le; lra). assert (sqrt (1 / 3) < 57744 / 100000) by (apply root_lt; lra). lra.
  - right; right; left. split; [reflexivity|]. replace (3 / 3) with 1 by lra. rewrite sqrt_1. apply rint_is. lra.
  - right; right; right; left. split; [reflexivity|]. apply rint_is. assert (115466 / 100000 <= sqrt (4 / 3)) by (apply root_le; lra). assert (sqrt (4 / 3) < 115474 / 100000) by (apply root_lt; lra). lra.
  - right; right; right; right. split; [exact C|]. assert (5 <= IZR n) by (apply IZR_le; lia). assert (A : 141 / 100 <= sqrt (IZR n / 3)).
    { destruct (Z.eq_dec n 5) as [->|N5]; [cbn in Hm; lia|]. assert (6 <= IZR n) by (apply IZR_le; lia). apply root_le; lra. }
    pose proof (rint_half (sqrt (IZR n / 3) * 10000)) as B. apply Rabs_le_inv in B. apply lt_IZR. lra.
Qed.

Section Cell.
  Variables (L : lattice).
  Hypothesis Ep : points L = cpoints honeycomb_cell.
  Hypothesis Ev : vectors L = hex.
  Lemma Lp2 : List.length (points L) = 2%nat. Proof. now rewrite Ep. Qed.
  Lemma Lv2 : List.length (vectors L) = 2%nat. Proof. now rewrite Ev. Qed.
  Lemma hc_rounded u : rounded_distance 4 L u <-> exists i j x y, (i < 2)%nat /\ (j < 2)%nat /\ u = IZR (rint (sqrt (IZR (hN (Z.of_nat i - Z.of_nat j) x y) / 3) * zoom 4)) / zoom 4.
  Proof.
    split.
    - intros (d & (p & q & ns & Hp & Hq & Ln & ->) & ->). apply (In_nth _ _ v0) in Hp as (i & Hi & <-), Hq as (j & Hj & <-). rewrite Lp2 in Hi, Hj. rewrite Lv2 in Ln. destruct ns as [|x [|y [|]]]; try discriminate.
      exists i, j, x, y. split; [exact Hi|]. split; [exact Hj|]. rewrite Ep, Ev. fold (hp i) (hp j). now rewrite hc_dist.
    - intros (i & j & x & y & Hi & Hj & ->). eexists. split; [|reflexivity]. exists (hp i), (hp j), [x; y]. rewrite Ep, Ev. split; [apply nth_In; exact Hi|]. split; [apply nth_In; exact Hj|]. split; [reflexivity|]. now rewrite hc_dist.
  Qed.
  Lemma hc_third : nth_distance 4 L 3 (11547 / 10000).
  Proof.
    pose proof zoom4 as Z4. split.
    - apply hc_rounded. exists 1%nat, 0%nat, 1%Z, (-2)%Z. split; [lia|]. split; [lia|]. change (hN (Z.of_nat 1 - Z.of_nat 0) 1 (-2)) with 4%Z. destruct (hc_round 4 ltac:(lia) (or_intror eq_refl)) as [[X _]|[[X _]|[[X _]|[[_ ->]|[X Y]]]]]; try discriminate; [now rewrite Z4|].
      exfalso. revert Y. rewrite Z4. rewrite (rint_is _ 11547); [lia|]. assert (115466 / 100000 <= sqrt (4 / 3)) by (apply root_le; lra). assert (sqrt (4 / 3) < 115474 / 100000) by (apply root_lt; lra). lra.
    - exists [0; 5774 / 10000; 1]. split; [|split; [reflexivity|]].
      + repeat constructor; cbn; intros H; repeat destruct H as [H|H]; try contradiction; lra.
      + intros u. split.
        * assert (W : forall i j x y (n r : Z), (i < 2)%nat -> (j < 2)%nat -> hN (Z.of_nat i - Z.of_nat j) x y = n -> (0 <= n <= 3)%Z -> (n = 0 -> r = 0)%Z -> (n = 1 -> r = 5774)%Z -> (n = 3 -> r = 10000)%Z -> (n <> 2)%Z -> rounded_distance 4 L (IZR r / zoom 4)).
          { intros i j x y n r Hi Hj E Hn R0 R1' R3 N2. apply hc_rounded. exists i, j, x, y. split; [exact Hi|]. split; [exact Hj|]. f_equal. f_equal. rewrite E.
            assert (M : (n mod 3 = 0 \/ n mod 3 = 1)%Z) by (assert (C : (n = 0 \/ n = 1 \/ n = 3)%Z) by lia; destruct C as [->|[->| ->]]; cbn; auto).
            destruct (hc_round n ltac:(lia) M) as [[X ->]|[[X ->]|[[X ->]|[[X ->]|[X Y]]]]]; auto; lia. }
          intros H. cbn [In] in H. rewrite Z4 in W. destruct H as [<-|[<-|[<-|[]]]].
          -- split; [|lra]. replace 0 with (0 / 10000) by lra. apply (W 0%nat 0%nat 0%Z 0%Z 0%Z 0%Z); try lia. reflexivity.
          -- split; [|lra]. apply (W 1%nat 0%nat 0%Z 0%Z 1%Z 5774%Z); try lia. reflexivity.
          -- split; [|lra]. replace 1 with (10000 / 10000) by lra. apply (W 0%nat 0%nat 1%Z 0%Z 3%Z 10000%Z); try lia. reflexivity.
        * intros [H Hu]. apply hc_rounded in H as (i & j & x & y & Hi & Hj & ->). assert (Ht : (-1 <= Z.of_nat i - Z.of_nat j <= 1)%Z) by lia. rewrite Z4 in Hu |- *.
          pose proof (hc_round _ (hN_nonneg _ x y Ht) (hN_mod _ x y Ht)) as [[_ Y]|[[_ Y]|[[_ Y]|[[_ Y]|[_ Y]]]]]; rewrite Z4 in Y; try (rewrite Y in Hu |- *).
          -- left. lra.
          -- right; left. reflexivity.
          -- right; right; left. lra.
          -- lra.
          -- exfalso. apply IZR_lt in Y. lra.
  Qed.
  Lemma hc_scope fuel scope : guess_scope L fuel (11547 / 10000) = Some (Ok scope) -> (scope <= 1)%Z.
  Proof.
    intros Eg. apply guess_loop_spec in Eg as (_ & _ & Below). destruct (Z.le_gt_cases scope 1) as [H|H]; [exact H|exfalso].
    destruct (Below 1%Z ltac:(lia)) as (m & Em & Hm). destruct (edge_min_spec L 1) as (m' & Em' & _ & (c & p & q & Lc & Rc & Hip & Hiq & ->)); [rewrite Lv2; lia|rewrite Ep; discriminate|lia|].
    rewrite Em in Em'. injection Em' as ->. apply (In_nth _ _ v0) in Hip as (i & Hi & <-), Hiq as (j & Hj & <-). rewrite Lp2 in Hi, Hj. rewrite Lv2 in Lc. destruct c as [|x [|y [|]]]; try discriminate.
    rewrite vadd_comm, Ep, Ev in Hm. fold (hp i) (hp j) in Hm. rewrite hc_dist in Hm by assumption.
    assert (F : (4 <= hN (Z.of_nat i - Z.of_nat j) x y)%Z). { apply hN_far; [lia|]. cbn [reach fold_right] in Rc. lia. }
    apply IZR_le in F. assert (11547001 / 10000000 <= sqrt (IZR (hN (Z.of_nat i - Z.of_nat j) x y) / 3)) by (apply root_le; lra). lra.
  Qed.
End Cell.

(** The unit cell of the honeycomb lattice, default precision: the third distance
    2/sqrt 3 is correctly found to be 1.1547, but bonds(3) misses a pair of sites
    that far apart, in both of its forms. *)
Definition third_link : link := Link 1 0 [-1; 2]%Z.
Theorem C37_third_refuted : forall ord pord only, listing ord -> listing pord ->
  exists L d0, lattice_generator 4 (Name "honeycomb") (AnInt 1) (AnInt 1) (AnInt 1) = Ok (L, d0) /\
    fst (neighbor_distance L ord 4 d0 (AnInt 3)) = Ok 1.1547 /\ nth_distance 4 L 3 1.1547 /\
    valid L third_link /\ crossing third_link /\ rounded 4 (len L third_link) = 1.1547 /\
    exists F, forall fuel, (F <= fuel)%nat -> exists intra inter, fst (bonds L ord pord fuel 4 d0 (AnInt 3) only false) = Some (Ok (intra, Some inter)) /\
      ~ In (head L third_link, tail L third_link) inter /\ ~ In (head L (opposite third_link), tail L (opposite third_link)) inter.
Proof.
  intros ord pord only Ho Hpo. assert (H : In ("honeycomb"%string, honeycomb_cell) common_cells) by (cbn; tauto). assert (O1 : (1 <= 1)%Z) by lia.
  destruct (extents_ok "honeycomb" honeycomb_cell 1 1 1 H O1 O1 O1) as [F1 Hl]. pose proof (common_gridded _ _ H) as g.
  destruct (cluster_accepted 4 honeycomb_cell g _ ltac:(lia) F1 Hl) as (L & d0 & E & _ & E1 & E2 & HL).
  assert (Eg : lattice_generator 4 (Name "honeycomb") (AnInt 1) (AnInt 1) (AnInt 1) = Ok (L, d0)) by (rewrite (generator_build 4 "honeycomb" honeycomb_cell); auto).
  assert (Ep : points L = cpoints honeycomb_cell) by (rewrite E1; apply ones_cluster; repeat constructor). assert (Ev : vectors L = hex) by (rewrite E2; apply ones_scale; [exact Hl|repeat constructor]).
  pose proof (fresh_of_constructor _ _ _ _ _ E) as Ef. exists L, d0. split; [exact Eg|].
  assert (D31 : 1.1547 = 11547 / 10000) by lra. rewrite D31. clear D31.
  assert (Ld : (List.length d0 <= 3)%nat).
  { rewrite Ef. unfold fresh. rewrite Ep. cbn. lia. }
  destruct (C37_distances 4 "honeycomb" honeycomb_cell 1 1 1 L d0 ord 3 ltac:(lia) H O1 O1 O1 Eg Ho Ld) as (v & d' & Ed & Hv & _).
  pose proof (hc_third L Ep Ev) as H3. pose proof (nth_distance_unique _ _ _ _ _ Hv H3) as ->. change (Z.of_nat 3) with 3%Z in Ed.
  split; [now rewrite Ed|]. split; [exact H3|]. split; [repeat split; cbn [third_link from to by_]; rewrite ?Ep, ?Ev; cbn; lia|]. split; [exists 2%Z; split; [cbn; tauto|lia]|].
  assert (Ln : len L third_link = sqrt (4 / 3)).
  { unfold len, head, tail, third_link. cbn [from to by_]. rewrite dist_sym, Ep, Ev. fold (hp 0) (hp 1). rewrite hc_dist by lia. reflexivity. }
  split.
  { unfold rounded. rewrite Ln, zoom4. rewrite (rint_is _ 11547); [reflexivity|]. assert (115466 / 100000 <= sqrt (4 / 3)) by (apply root_le; lra). assert (sqrt (4 / 3) < 115474 / 100000) by (apply root_lt; lra). lra. }
  destruct (C37_bonds 4 "honeycomb" honeycomb_cell 1 1 1 L d0 ord pord d0 3 only false ltac:(lia) H O1 O1 O1 Eg Ho Hpo (reach_init _ _ _ _) ltac:(lia)) as (F & HF).
  exists F. intros fuel Hf. destruct (HF fuel Hf) as (intra & inter & Eb). exists intra, inter. split; [exact Eb|].
  pose proof (surjective_pairing (bonds L ord pord fuel 4 d0 (AnInt 3) only false)) as Es. rewrite Eb in Es.
  apply bonds_inv in Es as (judge & scope & lo & J & pairs & Ej & Egs & _ & EJ & El & Np & Ip); auto; [|lia]. injection EJ as <-. rewrite Ed in Ej. cbn [fst] in Ej. injection Ej as <-.
  pose proof (hc_scope L Ep Ev fuel scope Egs) as Sc.
  assert (Pn : points L <> []) by (rewrite Ep; discriminate).
  assert (Sn : (0 <= scope)%Z) by (eapply scope_nonneg; [| | |exact Egs]; [rewrite Ev; cbn; lia|exact Pn|lra]).
  apply bond_loop_spec in El as (_ & Ei & _). cbn [app] in Ei.
  assert (LO : lists_inter L (fun x => exceeds lo x /\ x <= 11547 / 10000 + view 4) false inter (links L ord scope pairs)).
  { rewrite Ei. now apply (links_ok L ord scope Ho Sn Pn _ pairs Np Ip false (fun x => x)). }
  destruct LO as (_ & HT & Pm).
  assert (No : forall k, valid L k -> (2 <= reach (by_ k))%Z -> ~ In (head L k, tail L k) inter).
  { intros k Vk Rk Hin. apply (Permutation_in _ Pm) in Hin. apply in_map_iff in Hin as (k' & Ek & Hk').
    destruct (links_in L ord scope Ho Sn Pn (fun x => exceeds lo x /\ x <= 11547 / 10000 + view 4) pairs Ip k' Hk') as (Vk' & Tk' & _).
    destruct (translations_half L scope Sn) as (_ & Tr & _). destruct (Tr _ Tk') as (Lc & Rc & _).
    apply pair_equal_spec in Ek as [_ Et]. unfold tail in Et. rewrite Ep, Ev in Et.
    destruct Vk as (_ & V2 & V3). destruct Vk' as (_ & V2' & _). rewrite Ep in V2, V2'. rewrite Ev in V3, Lc.
    destruct (site_inj honeycomb_cell g (to k') (by_ k') (to k) (by_ k)) as [_ Eby]; [split; auto|split; auto|exact Et|]. rewrite Eby in Rc. lia. }
  assert (V : valid L third_link) by (repeat split; cbn [third_link from to by_]; rewrite ?Ep, ?Ev; cbn; lia).
  assert (V' : valid L (opposite third_link)) by (repeat split; cbn [opposite third_link from to by_ map]; rewrite ?Ep, ?Ev; cbn; lia).
  split; apply No; auto; cbn; lia.
Qed.
Print Assumptions C37_third_refuted.

(** A 1 x 3 square cluster, default precision: neighbor_distance(2) on the new
    cluster is 2, the longest distance within the cluster; the second distance of
    the square lattice is sqrt 2, and this is the answer after neighbor_distance(3). *)
Theorem C37_distance_refuted : forall ord, listing ord -> exists L d0,
  lattice_generator 4 (Name "square") (AnInt 1) (AnInt 3) (AnInt 1) = Ok (L, d0) /\
  fst (neighbor_distance L ord 4 d0 (AnInt 2)) = Ok 2 /\ nth_distance 4 L 2 1.4142 /\
  fst (neighbor_distance L ord 4 (snd (neighbor_distance L ord 4 d0 (AnInt 3))) (AnInt 2)) = Ok 1.4142.
Proof.
  intros ord Ho. assert (H : In ("square"%string, square_cell) common_cells) by (cbn; tauto). assert (O1 : (1 <= 1)%Z) by lia. assert (O3 : (1 <= 3)%Z) by lia.
  destruct (extents_ok "square" square_cell 1 3 1 H O1 O3 O1) as [F1 Hl]. pose proof (common_gridded _ _ H) as g.
  destruct (cluster_accepted 4 square_cell g _ ltac:(lia) F1 Hl) as (L & d0 & E & _ & E1 & E2 & HL).
  assert (Eg : lattice_generator 4 (Name "square") (AnInt 1) (AnInt 3) (AnInt 1) = Ok (L, d0)) by (rewrite (generator_build 4 "square" square_cell); auto; lia).
  destruct (C37_generator 4 "square" square_cell 1 3 1 ltac:(lia) H O1 O3 O1) as (L' & d' & E' & _ & _ & _ & _ & _ & _ & _ & Ti & Cov). rewrite Eg in E'. injection E' as <- <-.
  assert (Ep : points L = [(0, 0, 0); (0, 1, 0); (0, 2, 0)]) by (rewrite E1; cbn; change (Pos.to_nat 3) with 3%nat; change (Pos.to_nat 1) with 1%nat; cbn; repeat (apply f_equal2; [apply p3_eq; lra|]); reflexivity).
  assert (Ev : vectors L = [(1, 0, 0); (0, 3, 0)]) by (rewrite E2; cbn; repeat (apply f_equal2; [apply p3_eq; lra|]); reflexivity).
  pose proof (fresh_of_constructor _ _ _ _ _ E) as Ef. exists L, d0. split; [exact Eg|]. pose proof zoom4 as Z4.
  assert (Da : dist (0, 0, 0) (0, 1, 0) = 1) by (unfold dist, norm; replace (vdot _ _) with 1 by (cbn; ring); apply sqrt_1).
  assert (Db : dist (0, 0, 0) (0, 2, 0) = 2) by (unfold dist, norm; replace (vdot _ _) with (2 * 2) by (cbn; ring); apply sqrt_square; lra).
  assert (Dc : dist (0, 1, 0) (0, 2, 0) = 1) by (unfold dist, norm; replace (vdot _ _) with 1 by (cbn; ring); apply sqrt_1).
  assert (F : fresh 4 L = [0; 1; 2]).
  { unfold fresh, all_distances. rewrite Ep. cbn [pdist map app]. rewrite Da, Db, Dc, Z4. rewrite (rint_is (1 * 10000) 10000), (rint_is (2 * 10000) 20000) by lra. cbn [zunique fold_right zinsert map Z.ltb Z.eqb Z.compare Pos.compare Pos.compare_cont Pos.eqb].
    repeat (apply f_equal2; [lra|]); reflexivity. }
  rewrite F in Ef. subst d0. split; [reflexivity|].
  assert (D14 : 1.4142 = 14142 / 10000) by lra. rewrite D14. clear D14.
  assert (B : forall i j x y, (i < 3)%nat -> (j < 3)%nat -> dist (vadd (nth i (points L) v0) (shift [x; y] (vectors L))) (nth j (points L) v0) =
    sqrt (IZR (x * x + (Z.of_nat i - Z.of_nat j + 3 * y) * (Z.of_nat i - Z.of_nat j + 3 * y)))).
  { intros i j x y Hi Hj. unfold dist, norm. f_equal. rewrite Ep, Ev. unfold shift. rewrite plus_IZR, !mult_IZR, !plus_IZR, !minus_IZR, !mult_IZR.
    destruct i as [|[|[|i]]]; try lia; (destruct j as [|[|[|j]]]; try lia); cbn; ring. }
  assert (Sq : forall n : Z, (0 <= n)%Z -> let r := rint (sqrt (IZR n) * 10000) in (n = 0%Z /\ r = 0%Z) \/ (n = 1%Z /\ r = 10000%Z) \/ (n = 2%Z /\ r = 14142%Z) \/ (3 <= n /\ 17000 < r)%Z).
  { intros n Hn r. assert (C : (n = 0 \/ n = 1 \/ n = 2 \/ 3 <= n)%Z) by lia. unfold r. clear r. destruct C as [->|[->|[->|C]]].
    - left. split; [reflexivity|]. rewrite sqrt_0. apply rint_is. lra.
    - right; left. split; [reflexivity|]. rewrite sqrt_1. apply rint_is. lra.
    - right; right; left. split; [reflexivity|]. apply rint_is. assert (14142 / 10000 <= sqrt 2) by (apply root_le; lra). assert (sqrt 2 < 14143 / 10000 - / 20000) by (apply root_lt; lra). lra.
    - right; right; right. split; [exact C|]. apply IZR_le in C. assert (A : 173 / 100 <= sqrt (IZR n)) by (apply root_le; lra).
      pose proof (rint_half (sqrt (IZR n) * 10000)) as Q. apply Rabs_le_inv in Q. apply lt_IZR. lra. }
  assert (Rd : forall u, rounded_distance 4 L u <-> exists i j x y, (i < 3)%nat /\ (j < 3)%nat /\ u = IZR (rint (sqrt (IZR (x * x + (Z.of_nat i - Z.of_nat j + 3 * y) * (Z.of_nat i - Z.of_nat j + 3 * y))) * 10000)) / 10000).
  { intros u. split.
    - intros (d & (p & q & ns & Hp & Hq & Ln & ->) & ->). apply (In_nth _ _ v0) in Hp as (i & Hi & <-), Hq as (j & Hj & <-). rewrite Ep in Hi, Hj. rewrite Ev in Ln. destruct ns as [|x [|y [|]]]; try discriminate.
      exists i, j, x, y. split; [exact Hi|]. split; [exact Hj|]. now rewrite B, Z4.
    - intros (i & j & x & y & Hi & Hj & ->). rewrite <- Z4. eexists. split; [|reflexivity]. exists (nth i (points L) v0), (nth j (points L) v0), [x; y]. split; [apply nth_In; rewrite Ep; exact Hi|]. split; [apply nth_In; rewrite Ep; exact Hj|]. split; [now rewrite Ev|]. now rewrite B. }
  assert (Have : forall x (n r : Z), (x * x + 0 = n)%Z -> rint (sqrt (IZR n) * 10000) = r -> rounded_distance 4 L (IZR r / 10000)).
  { intros x n r En Er. apply Rd. exists 0%nat, 0%nat, x, 0%Z. split; [lia|]. split; [lia|]. rewrite <- Er, <- En. do 4 f_equal. }
  assert (N2 : nth_distance 4 L 2 (14142 / 10000)).
  { split.
    - apply Rd. exists 1%nat, 0%nat, 1%Z, 0%Z. split; [lia|]. split; [lia|]. change (1 * 1 + (Z.of_nat 1 - Z.of_nat 0 + 3 * 0) * (Z.of_nat 1 - Z.of_nat 0 + 3 * 0))%Z with 2%Z.
      destruct (Sq 2%Z ltac:(lia)) as [[X _]|[[X _]|[[_ ->]|[X _]]]]; try discriminate; [reflexivity|lia].
    - exists [0; 1]. split; [repeat constructor; cbn; intros X; repeat destruct X as [X|X]; try contradiction; lra|]. split; [reflexivity|]. intros u. split.
      + intros [<-|[<-|[]]]; (split; [|lra]).
        * replace 0 with (0 / 10000) by lra. apply (Have 0%Z 0%Z 0%Z); [reflexivity|]. rewrite sqrt_0. apply rint_is. lra.
        * replace 1 with (10000 / 10000) by lra. apply (Have 1%Z 1%Z 10000%Z); [reflexivity|]. rewrite sqrt_1. apply rint_is. lra.
      + intros [Hu Lt]. apply Rd in Hu as (i & j & x & y & _ & _ & ->). set (n := (x * x + _)%Z) in *.
        assert (N0 : (0 <= n)%Z) by (unfold n; pose proof (Z.square_nonneg x); pose proof (Z.square_nonneg (Z.of_nat i - Z.of_nat j + 3 * y)); lia).
        destruct (Sq n N0) as [[_ Y]|[[_ Y]|[[_ Y]|[_ Y]]]]; try rewrite Y in *; [left; lra|right; left; lra|lra|apply IZR_lt in Y; lra]. }
  split; [exact N2|].
  destruct (C37_distances 4 "square" square_cell 1 3 1 L [0; 1; 2] ord 3 ltac:(lia) H O1 O3 O1 Eg Ho ltac:(cbn; lia)) as (v & d' & Ed & _ & Below).
  change (Z.of_nat 3) with 3%Z in Ed. rewrite Ed. cbn [snd]. destruct (Below 2%nat ltac:(lia)) as (u & Eu & Hu). change (Z.of_nat 2) with 2%Z in Eu. rewrite Eu. cbn [fst]. f_equal. exact (nth_distance_unique _ _ _ _ _ Hu N2).
Qed.
Print Assumptions C37_distance_refuted.
