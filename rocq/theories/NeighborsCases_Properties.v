(** C35 on concrete cells: non-vacuity, and histories that change the answer. *)
From Coq Require Import List Reals ZArith Bool Arith Lra Lia Permutation Sorted.
From Verif Require Import Py CVec LinSolve Line2D_Model Line2D_Proofs Lattice_Model Lattice_Spec Lattice_Proofs Lattice_Proofs2 Lattice_Proofs3 Lattice_Properties LatticeCases_Properties
  Neighbors_Spec Neighbors_Proofs Neighbors_Proofs2 Neighbors_Properties.
Import ListNotations.
Open Scope R_scope.

Lemma sqrt_le_of_sq a b : 0 <= a -> a * a <= b -> a <= sqrt b.
Proof. intros Ha H. rewrite <- (sqrt_square a Ha). now apply sqrt_le_1_alt. Qed.
Lemma rint_int_zoom prec n : rint (IZR n * zoom prec) = (n * 10 ^ Z.of_nat prec)%Z.
Proof. rewrite zoom_Z, <- mult_IZR. apply rint_IZR. Qed.
Lemma ten_pos prec : (0 < 10 ^ Z.of_nat prec)%Z. Proof. apply Z.pow_pos_nonneg; lia. Qed.
Lemma back_zoom prec n : IZR (n * 10 ^ Z.of_nat prec) / zoom prec = IZR n.
Proof. rewrite mult_IZR, <- zoom_Z. field. pose proof (zoom_pos prec). lra. Qed.

Lemma nth_error_tail {A} (x : A) l n : (0 < n)%nat -> nth_error (x :: l) n = nth_error l (pred n).
Proof. destruct n; [lia|reflexivity]. Qed.
Lemma nd_miss L ord prec d n : (0 <= n)%Z -> nth_error d (Z.to_nat n) = None -> neighbor_distance L ord prec d (AnInt n) =
  (match nth_error (all_distances prec (sites_factory L ord n false)) (Z.to_nat n) with Some x => Ok x | None => Err IndexError end, all_distances prec (sites_factory L ord n false)).
Proof. intros Hn E. unfold neighbor_distance. destruct (Z.ltb_spec n 0); [lia|]. now rewrite E. Qed.
Lemma nd_hit L ord prec d n x : (0 <= n)%Z -> nth_error d (Z.to_nat n) = Some x -> neighbor_distance L ord prec d (AnInt n) = (Ok x, d).
Proof. intros Hn E. unfold neighbor_distance. destruct (Z.ltb_spec n 0); [lia|]. now rewrite E. Qed.
(** A rectangular cell with one point: sides 1 and 10. *)
Definition rect : list point := [(1, 0, 0); (0, 10, 0)].
Lemma rect_independent : ~ dependent rect.
Proof.
  intros (xs & Lx & (x & Hx & Nx) & E). destruct xs as [|x1 [|x2 [|]]]; try discriminate. cbn in E. injection E as E1 E2 _.
  destruct Hx as [<-|[<-|[]]]; apply Nx; lra.
Qed.
Lemma rect_lattice prec : exists L, lattice_of prec L /\ points L = [v0] /\ vectors L = rect.
Proof.
  pose proof (view_le_1 prec) as V.
  destruct (C31_constructor prec (Arr 2 [v0]) (Arr 2 rect)) as [_ K]. specialize (K 2%nat [v0] 2%nat rect eq_refl eq_refl).
  destruct K as (_ & _ & K). destruct K as (L & d & H & Ed & Ep & Ev).
  - cbn [List.length rect]. split; [lia|]. split; [lia|]. split; [reflexivity|]. split.
    + apply apart2. eapply Rle_trans; [|apply (coord_le_dist 0)]. cbn. rewrite Rabs_right; lra.
    + intros i j Hij. cbn in Hij. lia.
  - apply rect_independent.
  - exists L. split; [eapply lattice_of_make; [exact H|discriminate|discriminate]|]. auto.
Qed.
Lemma rect_between L x y : points L = [v0] -> vectors L = rect -> between L 0 0 [x; y] = sqrt (IZR x * IZR x + 100 * (IZR y * IZR y)).
Proof. intros Ep Ev. unfold between, dist, norm. f_equal. rewrite Ep, Ev. unfold shift. cbn. ring. Qed.
Lemma rect_cases L prec x y : points L = [v0] -> vectors L = rect ->
  (y = 0%Z /\ rint (between L 0 0 [x; y] * zoom prec) = (Z.abs x * 10 ^ Z.of_nat prec)%Z) \/
  (10 * 10 ^ Z.of_nat prec <= rint (between L 0 0 [x; y] * zoom prec))%Z.
Proof.
  intros Ep Ev. rewrite (rect_between L x y Ep Ev). destruct (Z.eq_dec y 0) as [-> | N]; [left|right].
  - split; [reflexivity|]. replace (IZR x * IZR x + 100 * (0 * 0)) with (IZR x * IZR x) by ring. change (IZR x * IZR x) with (Rsqr (IZR x)). rewrite sqrt_Rsqr_abs, <- abs_IZR. apply rint_int_zoom.
  - rewrite <- rint_int_zoom. apply rint_le. apply Rmult_le_compat_r; [apply Rlt_le, zoom_pos|]. apply sqrt_le_of_sq; [lra|].
    assert (1 <= IZR y * IZR y) by (rewrite <- mult_IZR; apply IZR_le; nia). pose proof (Rle_0_sqr (IZR x)). unfold Rsqr in *. lra.
Qed.
Example rect_ok prec L : points L = [v0] -> vectors L = rect -> reduced (1 / 2) (vectors L) /\ resolved prec L.
Proof.
  intros Ep Ev. split.
  - rewrite Ev. apply orthogonal_reduced; [lra|]. intros i j Hi Hj N. cbn in Hi, Hj. destruct i as [|[|i]], j as [|[|j]]; try lia; cbn; lra.
  - intros i j ns Hi Hj Ln D. rewrite Ep in Hi, Hj. cbn in Hi, Hj. assert (i = O) by lia. assert (j = O) by lia. subst i j. rewrite Ev in Ln. destruct ns as [|x [|y [|]]]; try discriminate.
    fold (between L 0 0 [x; y]). rewrite rect_between by auto. eapply Rle_trans; [apply view_le_1|]. apply sqrt_le_of_sq; [lra|].
    assert (K : (1 <= x * x + 100 * (y * y))%Z) by (destruct D as [D|(k & [<-|[<-|[]]] & Nk)]; [congruence|nia|nia]). apply IZR_le in K. rewrite plus_IZR, !mult_IZR in K. lra.
Qed.
(** The same call gives 3 on a new instance and 10 after neighbor_distance(1). *)
Theorem C35_history_refuted : forall prec ord, listing ord -> exists L, lattice_of prec L /\ points L = [v0] /\ vectors L = rect /\ reduced (1 / 2) (vectors L) /\ resolved prec L /\
  fst (neighbor_distance L ord prec (fresh prec L) (AnInt 3)) = Ok 3 /\
  fst (neighbor_distance L ord prec (snd (neighbor_distance L ord prec (fresh prec L) (AnInt 1))) (AnInt 3)) = Ok 10.
Proof.
  intros prec ord Ho. destruct (rect_lattice prec) as (L & HL & Ep & Ev). exists L. split; [exact HL|]. split; [exact Ep|]. split; [exact Ev|].
  destruct (rect_ok prec L Ep Ev) as [Hr Hres]. split; [exact Hr|]. split; [exact Hres|].
  assert (F : fresh prec L = [0]) by (unfold fresh; now rewrite Ep). rewrite F. pose proof (ten_pos prec) as T. set (T10 := (10 ^ Z.of_nat prec)%Z) in *.
  assert (Entry : forall S k, (1 <= S)%Z -> (k = 3 \/ k = 10)%Z -> (k = 3%Z -> S = 3%Z) -> (k = 10%Z -> S = 1%Z) -> nth_error (all_distances prec (sites_factory L ord S false)) 3 = Some (IZR k)).
  { intros S k HS Hk Hk3 Hk10. rewrite all_distances_zlist, nth_error_map, nth_error_tail by lia. cbn [pred].
    rewrite (sorted_nth_intro _ [(1 * T10)%Z; (2 * T10)%Z] 2 (k * T10)%Z (zlist_sorted _ _)); [cbn [option_map]; f_equal; apply back_zoom| | |reflexivity|].
    - apply in_zlist; auto; [lia|]. exists 0%nat, 0%nat. rewrite Ep, Ev. destruct Hk as [-> | ->].
      + exists [3; 0]%Z. rewrite (Hk3 eq_refl). cbn. repeat (split; [lia|]). split; [right; exists 3%Z; cbn; split; [now left|lia]|]. destruct (rect_cases L prec 3 0 Ep Ev) as [[_ ->]|Hb]; [reflexivity|].
        exfalso. rewrite (rect_between L 3 0 Ep Ev) in Hb. replace (3 * 3 + 100 * (0 * 0)) with (3 * 3) in Hb by ring. rewrite sqrt_square in Hb by lra. rewrite rint_int_zoom in Hb. fold T10 in Hb. lia.
      + exists [0; 1]%Z. rewrite (Hk10 eq_refl). cbn. repeat (split; [lia|]). split; [right; exists 1%Z; cbn; split; [now right; left|lia]|].
        rewrite (rect_between L 0 1 Ep Ev). replace (0 * 0 + 100 * (1 * 1)) with (10 * 10) by ring. rewrite sqrt_square by lra. symmetry. apply rint_int_zoom.
    - constructor; [intros [H|[]]; lia|]. constructor; [intros []|constructor].
    - intros z. rewrite in_zlist by (auto; lia). split.
      + assert (G : forall m, (1 <= m <= 2)%Z -> (exists i j c, (i < List.length (points L))%nat /\ (j < List.length (points L))%nat /\ List.length c = List.length (vectors L) /\ (reach c <= 2 * S)%Z /\ differ i j c /\ (m * T10)%Z = rint (between L i j c * zoom prec)) /\ (m * T10 < k * T10)%Z).
        { intros m Hm. split; [|nia]. exists 0%nat, 0%nat, [m; 0]%Z. rewrite Ep, Ev. cbn [List.length rect reach]. repeat (split; [lia|]). split; [right; exists m; cbn; split; [now left|lia]|].
          rewrite (rect_between L m 0 Ep Ev). replace (IZR m * IZR m + 100 * (0 * 0)) with (IZR m * IZR m) by ring. rewrite sqrt_square by (apply IZR_le; lia). symmetry. apply rint_int_zoom. }
        intros [<-|[<-|[]]]; apply G; lia.
      + intros ((i & j & c & Hi & Hj & Lc & Rc & D & ->) & Lt). rewrite Ep in Hi, Hj. cbn in Hi, Hj. assert (i = O) by lia. assert (j = O) by lia. subst i j. rewrite Ev in Lc. destruct c as [|x [|y [|]]]; try discriminate.
        destruct (rect_cases L prec x y Ep Ev) as [[-> E]|Hb]; [|fold T10 in Hb; nia]. fold T10 in E. rewrite E in *. cbn [reach] in Rc.
        assert (X : (x <> 0)%Z) by (destruct D as [D|(n & [<-|[<-|[]]] & Nn)]; congruence).
        assert (Hx : (Z.abs x = 1 \/ Z.abs x = 2)%Z).
        { assert (Z.abs x < k)%Z by nia. destruct Hk as [-> | ->]; [lia|]. rewrite (Hk10 eq_refl) in Rc. lia. }
        destruct Hx as [-> | ->]; cbn; auto. }
  split.
  - rewrite nd_miss by (lia || reflexivity). cbn [fst]. change (Z.to_nat 3) with 3%nat. rewrite (Entry 3%Z 3%Z) by lia. reflexivity.
  - rewrite (nd_miss L ord prec [0] 1) by (lia || reflexivity). cbn [snd]. rewrite (nd_hit L ord prec _ 3 10); [reflexivity|lia|]. apply (Entry 1%Z 10%Z); lia.
Qed.
Print Assumptions C35_history_refuted.

(** The points 0 and 2 with the translation 3: a new instance answers 2 for the
    nearest neighbours, and 1 after neighbor_distance(2). *)
Theorem C35_cluster_refuted : forall prec ord, listing ord -> exists L, lattice_of prec L /\ points L = [v0; (2, 0, 0)] /\ vectors L = [(3, 0, 0)] /\ compact L /\
  fst (neighbor_distance L ord prec (fresh prec L) (AnInt 1)) = Ok 2 /\
  fst (neighbor_distance L ord prec (snd (neighbor_distance L ord prec (fresh prec L) (AnInt 2))) (AnInt 1)) = Ok 1.
Proof.
  intros prec ord Ho. pose proof (view_le_1 prec) as V.
  destruct (C31_constructor prec (Arr 1 [v0; (2, 0, 0)]) (Arr 1 [(3, 0, 0)])) as [_ K]. specialize (K 1%nat [v0; (2, 0, 0)] 1%nat [(3, 0, 0)] eq_refl eq_refl).
  destruct K as (_ & _ & K). destruct K as (L & d & H & Ed & Ep & Ev).
  { cbn [List.length]. split; [lia|]. split; [lia|]. split; [reflexivity|]. split.
    - intros i j Hij. cbn in Hij. lia.
    - apply apart2. eapply Rle_trans; [|apply (coord_le_dist 0)]. cbn. rewrite Rabs_left1; lra. }
  { intros (xs & Lx & (x & Hx & Nx) & E). destruct xs as [|x1 [|]]; try discriminate. cbn in E. injection E as E1. destruct Hx as [<-|[]]; apply Nx; lra. }
  exists L. split; [eapply lattice_of_make; [exact H|discriminate|discriminate]|]. split; [exact Ep|]. split; [exact Ev|].
  assert (Hc : compact L).
  { intros p q Hp Hq. rewrite Ep in Hp, Hq. rewrite Ev.
    assert (G : exists t, Rabs t <= 1 /\ vsub p q = (3 * t, 0, 0)).
    { destruct Hp as [<-|[<-|[]]], Hq as [<-|[<-|[]]]; [exists 0|exists (- 2 / 3)|exists (2 / 3)|exists 0]; (split; [unfold Rabs; destruct (Rcase_abs _); lra|cbn; apply p3_eq; lra]). }
    destruct G as (t & Ht & E). exists [t], v0. split; [reflexivity|]. split; [constructor; [exact Ht|constructor]|]. split; [intros a _; apply vdot_0_l|]. rewrite E. cbn. apply p3_eq; lra. }
  split; [exact Hc|]. pose proof (ten_pos prec) as T. set (T10 := (10 ^ Z.of_nat prec)%Z) in *.
  assert (D2 : dist v0 (2, 0, 0) = 2) by (unfold dist, norm; replace (vdot _ _) with (2 * 2) by (cbn; ring); apply sqrt_square; lra).
  assert (F : fresh prec L = [0; 2]).
  { unfold fresh, all_distances. rewrite Ep. cbn [pdist map app]. rewrite D2, (rint_int_zoom prec 2). cbn [zunique fold_right zinsert map]. rewrite back_zoom. reflexivity. }
  rewrite F. split; [reflexivity|].
  assert (Bet : forall i j n, (i < 2)%nat -> (j < 2)%nat -> exists m, between L i j [n] = IZR (Z.abs m) /\ (m = 3 * n + (if Nat.eqb i 1 then 2 else 0) - (if Nat.eqb j 1 then 2 else 0))%Z).
  { intros i j n Hi Hj. eexists. split; [|reflexivity]. unfold between, dist, norm. rewrite Ep, Ev, abs_IZR, <- sqrt_Rsqr_abs. f_equal. unfold Rsqr, shift.
    rewrite !minus_IZR, !plus_IZR, !mult_IZR. destruct i as [|[|i]], j as [|[|j]]; try lia; cbn; ring. }
  assert (E1 : nth_error (all_distances prec (sites_factory L ord 2 false)) 1 = Some 1).
  { rewrite all_distances_zlist, nth_error_map, nth_error_tail by lia. cbn [pred].
    rewrite (sorted_nth_intro _ [] 0 (1 * T10)%Z (zlist_sorted _ _)); [cbn [option_map]; f_equal; apply back_zoom| |constructor|reflexivity|].
    - apply in_zlist; auto; [lia|]. exists 1%nat, 0%nat, [-1]%Z. rewrite Ep, Ev. cbn [List.length reach]. repeat (split; [lia|]). split; [left; lia|].
      destruct (Bet 1%nat 0%nat (-1)%Z ltac:(lia) ltac:(lia)) as (m & -> & ->). symmetry. apply (rint_int_zoom prec 1).
    - intros z. rewrite in_zlist by (auto; lia). split; [intros []|]. intros ((i & j & c & Hi & Hj & Lc & Rc & D & ->) & Lt). rewrite Ep in Hi, Hj. rewrite Ev in Lc. destruct c as [|n [|]]; try discriminate.
      cbn in Hi, Hj. destruct (Bet i j n Hi Hj) as (m & Eb & Em). rewrite Eb, rint_int_zoom in Lt. fold T10 in Lt.
      assert (Hm : (1 <= Z.abs m)%Z).
      { destruct D as [D|(k & [<-|[]] & Nk)]; destruct i as [|[|i]], j as [|[|j]]; try lia; cbn [Nat.eqb] in Em; lia. }
      exfalso. nia. }
  rewrite (nd_miss L ord prec [0; 2] 2) by (lia || reflexivity). cbn [snd]. rewrite (nd_hit L ord prec _ 1 1); [reflexivity|lia|exact E1].
Qed.
Print Assumptions C35_cluster_refuted.

(** A translation vector shorter than the tolerance: the nearest-neighbour
    distance is reported as 0, and the next one raises IndexError. *)
Theorem C35_tiny_refuted : forall ord, listing ord -> exists L, lattice_of 4 L /\ points L = [v0] /\ vectors L = [(/ 1000000, 0, 0)] /\
  fst (neighbor_distance L ord 4 (fresh 4 L) (AnInt 1)) = Ok 0 /\
  fst (neighbor_distance L ord 4 (fresh 4 L) (AnInt 2)) = Err IndexError.
Proof.
  intros ord Ho.
  destruct (C31_constructor 4 (Arr 1 [v0]) (Arr 1 [(/ 1000000, 0, 0)])) as [_ K]. specialize (K 1%nat [v0] 1%nat [(/ 1000000, 0, 0)] eq_refl eq_refl).
  destruct K as (_ & _ & K). destruct K as (L & d & H & Ed & Ep & Ev).
  { cbn [List.length]. split; [lia|]. split; [lia|]. split; [reflexivity|]. split; intros i j Hij; cbn in Hij; lia. }
  { intros (xs & Lx & (x & Hx & Nx) & E). destruct xs as [|x1 [|]]; try discriminate. cbn in E. injection E as E1. destruct Hx as [<-|[]]; apply Nx; lra. }
  exists L. split; [eapply lattice_of_make; [exact H|discriminate|discriminate]|]. split; [exact Ep|]. split; [exact Ev|].
  assert (F : fresh 4 L = [0]) by (unfold fresh; now rewrite Ep). rewrite F.
  assert (Na : norm (/ 1000000, 0, 0) * zoom 4 = / 100).
  { unfold norm. replace (vdot _ _) with (/ 1000000 * / 1000000) by (cbn; ring). rewrite sqrt_square by lra. unfold zoom. cbn. lra. }
  assert (Z0 : forall S, (S = 1 \/ S = 2)%Z -> zlist 4 (sites_factory L ord S false) = [0%Z]).
  { intros S HS. assert (A : forall z, In z (zlist 4 (sites_factory L ord S false)) <-> z = 0%Z).
    { intros z. rewrite (chain_zlist 4 L v0 (/ 1000000, 0, 0)) by (auto; lia). rewrite Na.
      assert (R0 : forall k, (1 <= k <= 4)%Z -> rint (IZR k * / 100) = 0%Z).
      { intros k Hk. assert (K1 : 1 <= IZR k <= 4) by (split; apply IZR_le; lia). pose proof (rint_half (IZR k * / 100)) as B.
        assert (B1 : (0 <= rint (IZR k * / 100))%Z) by (apply rint_nonneg; lra).
        assert (B2 : IZR (rint (IZR k * / 100)) < 1) by (unfold Rabs in B; destruct (Rcase_abs _); lra). apply (lt_IZR _ 1) in B2. lia. }
      split; [intros (k & Hk & ->); apply R0; lia|]. intros ->. exists 1%Z. split; [lia|]. symmetry. apply R0. lia. }
    pose proof (zlist_sorted 4 (sites_factory L ord S false)) as Hs. destruct (zlist 4 (sites_factory L ord S false)) as [|z [|y l]].
    - exfalso. apply (A 0%Z). reflexivity.
    - f_equal. apply A. now left.
    - exfalso. inversion Hs as [|? ? _ Fa]; subst. inversion Fa; subst. assert (z = 0%Z) by (apply A; now left). assert (y = 0%Z) by (apply A; right; now left). lia. }
  split.
  - rewrite nd_miss by (lia || reflexivity). cbn [fst]. rewrite all_distances_zlist, Z0 by auto. change (Z.to_nat 1) with 1%nat. cbn [map nth_error]. apply f_equal. unfold Rdiv. ring.
  - rewrite nd_miss by (lia || reflexivity). cbn [fst]. rewrite all_distances_zlist, Z0 by auto. reflexivity.
Qed.
Print Assumptions C35_tiny_refuted.
