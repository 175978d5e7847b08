(** Concrete cases of C31-C37: clusters that meet the hypotheses of the theorems on
    lattices, and what the theorems say about them. *)
From Coq Require Import String List Reals ZArith Bool Arith Lra Lia Permutation.
From Verif Require Import Py CVec LinSolve Line2D_Model Line2D_Proofs Lattice_Model Lattice_Spec Lattice_Proofs Lattice_Proofs2 Lattice_Proofs3 Lattice_Properties LatticeCases_Properties
  Neighbors_Spec Neighbors_Proofs Neighbors_Proofs2 Neighbors_Properties NeighborsCases_Properties LatticeBonds_Spec LatticeBonds_Proofs LatticeBonds_Proofs2 LatticeBonds_Properties LatticeGen_Model LatticeGen_Spec LatticeGen_Proofs LatticeGen_Properties
  LatticeBondsCases_Properties LatticeHex_Proofs LatticeNice_Properties LatticeNearest_Spec LatticeNearest_Properties LatticeNearest2_Properties LatticeChain_Properties LatticeSquare_Spec LatticeSquare_Properties LatticeExact_Spec LatticeExact_Properties LatticeLarge_Properties LatticeRobust_Properties.
Import ListNotations.
Open Scope R_scope.

(** A function that finds a nearest point, and orders in which sets are listed. *)
Fixpoint argmin (f : nat -> R) (n : nat) : nat :=
  match n with O => O | S m => let i := argmin f m in if Rltb (f (S m)) (f i) then S m else i end.
Definition first_nearest (ps : list point) (s : point) : nat := argmin (fun i => dist (nth i ps v0) s) (List.length ps - 1).
Lemma argmin_ok f n : (argmin f n <= n)%nat /\ forall k, (k <= n)%nat -> f (argmin f n) <= f k.
Proof.
  induction n as [|n [A B]]; [split; [reflexivity|]; intros k Hk; replace k with 0%nat by lia; apply Rle_refl|].
  cbn [argmin]. destruct (Rltb (f (S n)) (f (argmin f n))) eqn:E.
  - apply Rltb_iff in E. split; [reflexivity|]. intros k Hk. destruct (Nat.eq_dec k (S n)) as [->|D]; [apply Rle_refl|]. assert (k <= n)%nat as K by lia. specialize (B k K). lra.
  - split; [lia|]. intros k Hk. destruct (Nat.eq_dec k (S n)) as [->|D]; [|apply B; lia]. apply Rnot_lt_le. intros L. apply Rltb_iff in L. congruence.
Qed.
Example first_nearest_case : finds_nearest first_nearest.
Proof.
  intros ps s Hp. unfold first_nearest. destruct (argmin_ok (fun i => dist (nth i ps v0) s) (List.length ps - 1)) as [A B]. assert (0 < List.length ps)%nat as P by (destruct ps; [congruence|cbn; lia]).
  split; [lia|]. intros q Hq. apply (In_nth _ _ v0) in Hq as (k & Hk & <-). apply B. lia.
Qed.
Example listing_case : listing (fun l : list (list Z) => l) /\ listing (@rev (list Z)) /\ listing (@rev (nat * nat)).
Proof. repeat split; intros l; [apply Permutation_refl|apply Permutation_sym, Permutation_rev|apply Permutation_sym, Permutation_rev]. Qed.

(** The square cluster of 3 x 2 cells and the honeycomb cluster of 2 x 3 cells at the
    default precision: the hypotheses of C31-C36. *)
Example square_instance : exists L d, lattice_generator 4 (Name "square") (AnInt 3) (AnInt 2) (AnInt 1) = Ok (L, d) /\ lattice_of 4 L /\
  List.length (points L) = 6%nat /\ vectors L = [(3, 0, 0); (0, 2, 0)] /\ nth 3 (points L) v0 = (1, 1, 0) /\ separated (view 4) L /\ separated (2 * view 4) L /\ orthogonal (vectors L) /\ reduced (1 / 2) (vectors L) /\
  steady (vectors L) [v0] /\ nice L /\ wide (vectors L) /\ compact L /\ resolved 4 L.
Proof.
  destruct (C37_generator 4 "square" square_cell 3 2 1 ltac:(lia) ltac:(cbn; tauto) ltac:(lia) ltac:(lia) ltac:(lia)) as (L & d & E & HL & _ & Lv & Sv & Lp & Pt & Sp & _).
  destruct (C37_suitable 4 "square" square_cell 3 2 1 L d ltac:(lia) ltac:(cbn; tauto) ltac:(lia) ltac:(lia) ltac:(lia) E) as (S1 & Re & Co & Or & _). destruct (Or ltac:(cbn; tauto)) as (Ni & O & Rd).
  destruct (C37_nice 4 "square" square_cell 3 2 1 L d ltac:(lia) ltac:(cbn; tauto) ltac:(lia) ltac:(lia) ltac:(lia) E) as (_ & _ & W & _).
  exists L, d. split; [exact E|]. split; [exact HL|]. split; [rewrite Lp; reflexivity|]. split.
  { cbn [List.length cvectors square_cell] in Lv, Sv. destruct (vectors L) as [|a [|b [|? ?]]]; try discriminate Lv. pose proof (Sv 0%nat ltac:(lia)) as A. pose proof (Sv 1%nat ltac:(lia)) as B. cbn in A, B. rewrite A, B.
    f_equal; [|f_equal]; apply p3_eq; ring. }
  split.
  { pose proof (Pt [1; 1]%Z 0%nat) as Q. change (Z.to_nat (position _ _) * _ + 0)%nat with 3%nat in Q. rewrite Q; [cbn; apply p3_eq; ring|repeat apply Forall2_cons; try apply Forall2_nil; lia|cbn; lia]. }
  split; [exact S1|]. split; [|split; [exact O|split; [exact Rd|split; [apply Ni|repeat split; auto; apply Ni]]]].
  intros i j ns Hi Hj D Ln. pose proof (Sp i j ns Hi Hj D Ln) as Q. unfold view. cbn. lra.
Qed.
Example honeycomb_instance : exists L d, lattice_generator 4 (Name "honeycomb") (AnInt 2) (AnInt 3) (AnInt 1) = Ok (L, d) /\ lattice_of 4 L /\
  List.length (points L) = 12%nat /\ List.length (vectors L) = 2%nat /\ separated (view 4) L /\ steady (vectors L) [v0] /\ nice L /\ wide (vectors L) /\ compact L /\ resolved 4 L /\
  view 4 <= spacing "honeycomb" /\ next_gap 4 L (spacing "honeycomb") /\ attained L (spacing "honeycomb") /\ spacing "honeycomb" <= rounded 4 (spacing "honeycomb") /\
  vdot (nth 0 (vectors L) v0) (nth 1 (vectors L) v0) = 3.
Proof.
  destruct (C37_generator 4 "honeycomb" honeycomb_cell 2 3 1 ltac:(lia) ltac:(cbn; tauto) ltac:(lia) ltac:(lia) ltac:(lia)) as (L & d & E & HL & _ & Lv & Sv & Lp & _ & Sp & _).
  destruct (C37_suitable 4 "honeycomb" honeycomb_cell 2 3 1 L d ltac:(lia) ltac:(cbn; tauto) ltac:(lia) ltac:(lia) ltac:(lia) E) as (S1 & Re & Co & _).
  destruct (C37_nice 4 "honeycomb" honeycomb_cell 2 3 1 L d ltac:(lia) ltac:(cbn; tauto) ltac:(lia) ltac:(lia) ltac:(lia) E) as (_ & Ni & W & _).
  destruct (C37_spacing 4 "honeycomb" honeycomb_cell 2 3 1 L d ltac:(lia) ltac:(cbn; tauto) ltac:(lia) ltac:(lia) ltac:(lia) E) as (V & G & A).
  exists L, d. split; [exact E|]. split; [exact HL|]. split; [rewrite Lp; reflexivity|]. split; [exact Lv|]. split; [exact S1|]. split; [apply Ni|]. split; [exact Ni|]. split; [exact W|]. split; [exact Co|]. split; [exact Re|].
  split; [exact V|]. split; [exact G|]. split; [exact A|]. split; [exact (proj2 C37_nearest_default)|].
  cbn [List.length cvectors honeycomb_cell] in Sv. rewrite (Sv 0%nat), (Sv 1%nat) by lia. cbn [firstn nth cvectors honeycomb_cell vscale vdot]. lra.
Qed.

(** C32 and C34 there: the site 5 a0 - 7 a1 away from the 8th point, and its index. *)
Example honeycomb_far : exists L d, lattice_generator 4 (Name "honeycomb") (AnInt 2) (AnInt 3) (AnInt 1) = Ok (L, d) /\ exists F, forall fuel, (F <= fuel)%nat ->
  decompose L fuel 4 (Site (space_dim L) (vadd (nth 7 (points L) v0) (shift [5; -7]%Z (vectors L)))) = Some (Ok (nth 7 (points L) v0, shift [5; -7]%Z (vectors L))) /\
  getIndex L first_nearest fuel 4 (Site (space_dim L) (vadd (nth 7 (points L) v0) (shift [5; -7]%Z (vectors L)))) true = Some (Ok 7%Z) /\
  getIndex L first_nearest fuel 4 (Site (space_dim L) (nth 7 (points L) v0)) false = Some (Ok 7%Z) /\ getSite L (AnInt 7) = Ok (nth 7 (points L) v0).
Proof.
  destruct honeycomb_instance as (L & d & E & HL & Lp & Lv & Sp & St & _). exists L, d. split; [exact E|].
  destruct (C34_steady 4 4 L 7 [5; -7]%Z HL Sp St ltac:(rewrite Lp; lia) ltac:(rewrite Lv; reflexivity)) as [F HF]. exists F. intros fuel Hf. specialize (HF fuel Hf). split; [exact HF|].
  assert (GI : forall s p dR, decompose L fuel 4 (Site (space_dim L) s) = Some (Ok (p, dR)) -> p = nth 7 (points L) v0 -> getIndex L first_nearest fuel 4 (Site (space_dim L) s) true = Some (Ok 7%Z)).
  { intros s p dR Dc ->. destruct (proj1 (C32_fold first_nearest 4 4 fuel L (space_dim L) s first_nearest_case HL) _ _ Dc) as (i & Ei & Es). rewrite Ei. f_equal. f_equal.
    destruct (C32_inverse first_nearest 4 4 fuel L first_nearest_case HL) as [I1 _]. destruct (I1 7%Z ltac:(rewrite Lp; cbn; lia)) as (p & P1 & _ & P3).
    unfold getSite in Es. destruct ((0 <=? i)%Z && (i <? Z.of_nat (List.length (points L)))%Z) eqn:B; [|discriminate]. apply andb_true_iff in B as [B1 B2]. apply Z.leb_le in B1. apply Z.ltb_lt in B2.
    injection Es as Es. destruct (I1 i ltac:(lia)) as (p' & P1' & _ & P3'). assert (p' = p) as Ep.
    { unfold getSite in P1, P1'. rewrite Lp in *. cbn [Z.leb Z.ltb andb Z.of_nat Pos.of_succ_nat Z.compare Pos.compare Pos.compare_cont] in P1. replace ((0 <=? i)%Z && (i <? Z.of_nat 12)%Z) with true in P1' by (symmetry; apply andb_true_iff; split; [apply Z.leb_le|apply Z.ltb_lt]; lia).
      injection P1' as <-. rewrite Es. cbn in P1. now injection P1. }
    rewrite Ep in P3'. rewrite P3 in P3'. now injection P3'. }
  split; [now apply (GI _ _ _ HF)|].
  destruct (C32_inverse first_nearest 4 4 fuel L first_nearest_case HL) as [I1 _]. destruct (I1 7%Z ltac:(rewrite Lp; cbn; lia)) as (p & P1 & _ & P3).
  assert (getSite L (AnInt 7) = Ok (nth 7 (points L) v0)) as Gs by (unfold getSite; rewrite Lp; reflexivity). rewrite Gs in P1. injection P1 as <-. split; [exact P3|exact Gs].
Qed.

(** C34_inexact: a site of the square cluster that is off by 0.00005. *)
Example square_inexact : exists L d, lattice_generator 4 (Name "square") (AnInt 3) (AnInt 2) (AnInt 1) = Ok (L, d) /\
  let e := (5 / 100000, 0, 0) in norm e < view 4 /\ (exists q, In q (points L) /\ norm (shift [2; -3]%Z (vectors L)) <= dist (vadd (vadd (nth 0 (points L) v0) (shift [2; -3]%Z (vectors L))) e) q) /\
  exists F, forall fuel, (F <= fuel)%nat -> decompose L fuel 4 (Site (space_dim L) (vadd (vadd (nth 0 (points L) v0) (shift [2; -3]%Z (vectors L))) e)) = Some (Ok (nth 0 (points L) v0, vadd (shift [2; -3]%Z (vectors L)) e)).
Proof.
  destruct square_instance as (L & d & E & HL & Lp & Ev & _ & _ & S2 & _ & Rd & _). exists L, d. split; [exact E|]. intros e.
  assert (P0 : nth 0 (points L) v0 = v0).
  { destruct (C37_generator 4 "square" square_cell 3 2 1 ltac:(lia) ltac:(cbn; tauto) ltac:(lia) ltac:(lia) ltac:(lia)) as (L' & d' & E' & _ & _ & _ & _ & _ & Pt & _). rewrite E in E'. injection E' as <- <-.
    pose proof (Pt [0; 0]%Z 0%nat) as Q. change (Z.to_nat (position _ _) * _ + 0)%nat with 0%nat in Q. rewrite Q; [cbn; apply p3_eq; ring|repeat apply Forall2_cons; try apply Forall2_nil; lia|cbn; lia]. }
  assert (Ne : norm e < view 4).
  { unfold e, norm, view. cbn [vdot pow]. replace (5 / 100000 * (5 / 100000) + 0 * 0 + 0 * 0) with ((5 / 100000) * (5 / 100000)) by ring. rewrite sqrt_square by lra. lra. }
  assert (Q : exists q, In q (points L) /\ norm (shift [2; -3]%Z (vectors L)) <= dist (vadd (vadd (nth 0 (points L) v0) (shift [2; -3]%Z (vectors L))) e) q).
  { exists v0. split; [rewrite <- P0; apply nth_In; lia|]. rewrite P0, Ev. unfold dist, norm, e. apply sqrt_le_1_alt. cbn. lra. }
  split; [exact Ne|]. split; [exact Q|]. apply (C34_inexact 4); auto; [|rewrite Lp; lia|rewrite Ev; reflexivity]. intros i Hi. pose proof (Rd i Hi) as B. pose proof (vdot_nonneg (nth i (vectors L) v0)). lra.
Qed.

(** C35 and C36 on the honeycomb cluster, after whatever calls d records. *)
Example honeycomb_bonds : exists L d0, lattice_generator 4 (Name "honeycomb") (AnInt 2) (AnInt 3) (AnInt 1) = Ok (L, d0) /\ forall d, reachable 4 L (fun l => l) d0 d ->
  fst (neighbor_distance L (fun l => l) 4 d (AnInt 2)) = Ok 1 /\
  exists F, forall fuel, (F <= fuel)%nat -> exists intra inter T, fst (bonds L (fun l => l) (@rev (nat * nat)) fuel 4 d (AnInt 1) true false) = Some (Ok (intra, Some inter)) /\
    lists_intra L (fun x => x = spacing "honeycomb") intra /\ lists_inter L (fun x => x = spacing "honeycomb") false inter T /\
    forall k, valid L k -> crossing k -> len L k = spacing "honeycomb" -> In k T \/ In (opposite k) T.
Proof.
  destruct honeycomb_instance as (L & d0 & E & HL & Lp & Lv & Sp & _ & Ni & _ & _ & _ & V & G & A & R & _). exists L, d0. split; [exact E|]. intros d Hr.
  assert (Li : listing (fun l : list (list Z) => l)) by (intros l; apply Permutation_refl). assert (Lr : listing (@rev (nat * nat))) by (intros l; apply Permutation_sym, Permutation_rev).
  split; [exact (proj1 (C37_second 4 2 3 1 L d0 _ (@rev (nat * nat)) d true false ltac:(lia) ltac:(lia) ltac:(lia) ltac:(lia) E Li Lr Hr))|].
  pose proof E as Eg. rewrite (generator_build 4 "honeycomb" honeycomb_cell) in Eg by (first [lia|cbn; tauto]). rewrite (fresh_of_constructor _ _ _ _ _ Eg) in Hr. apply C36_nearest; auto.
Qed.

(** C35_recomputed: the 100th distance of the square cluster is not tabulated. *)
Example square_distances : exists L d0, lattice_generator 4 (Name "square") (AnInt 3) (AnInt 2) (AnInt 1) = Ok (L, d0) /\ (List.length d0 <= 100)%nat /\
  exists v d', neighbor_distance L (fun l => l) 4 d0 (AnInt (Z.of_nat 100)) = (Ok v, d') /\ nth_distance 4 L 100 v.
Proof.
  destruct square_instance as (L & d0 & E & HL & Lp & _ & _ & _ & _ & _ & _ & _ & _ & W & Co & Re). exists L, d0. split; [exact E|].
  assert (B : (List.length d0 <= 100)%nat).
  { pose proof E as Eg. rewrite (generator_build 4 "square" square_cell) in Eg by (first [lia|cbn; tauto]). rewrite (fresh_of_constructor _ _ _ _ _ Eg). unfold fresh, all_distances. cbn [List.length]. rewrite map_length.
    assert (U : forall l, (List.length (zunique l) <= List.length l)%nat).
    { induction l as [|x l IH]; [apply Nat.le_refl|]. cbn [zunique fold_right List.length]. fold (zunique l). assert (I : forall y m, (List.length (zinsert y m) <= S (List.length m))%nat); [|specialize (I x (zunique l)); lia].
      intros y m. induction m as [|z m IHm]; [apply Nat.le_refl|]. cbn [zinsert]. destruct (y <? z)%Z; [apply Nat.le_refl|]. destruct (y =? z)%Z; cbn [List.length]; lia. }
    eapply Nat.le_trans; [apply le_n_S, U|]. rewrite map_length. destruct (points L) as [|p1 [|p2 [|p3 [|p4 [|p5 [|p6 [|? ?]]]]]]]; try discriminate Lp. cbn [pdist]. rewrite ?app_length, ?map_length. cbn. lia. }
  split; [exact B|]. destruct (C35_recomputed 4 L (fun l => l) d0 100 ltac:(intros l; apply Permutation_refl) HL W Co Re B) as (v & d' & X & Y & _). now exists v, d'.
Qed.
