(** C37: chain, square and cubic clusters of every size: bonds, for real lengths. *)
From Coq Require Import String List Reals ZArith Bool Arith Lra Lia Permutation Sorting.Sorted.
From Flocq Require Import Core.Raux.
From Verif Require Import Py CVec LinSolve Line2D_Model Line2D_Proofs Lattice_Model Lattice_Spec Lattice_Proofs Lattice_Proofs2 Lattice_Proofs3 Lattice_Properties LatticeCases_Properties
  Neighbors_Spec Neighbors_Proofs Neighbors_Proofs2 Neighbors_Properties NeighborsCases_Properties LatticeBonds_Spec LatticeBonds_Proofs LatticeBonds_Proofs2 LatticeBonds_Properties LatticeGen_Model LatticeGen_Spec LatticeGen_Proofs LatticeGen_Properties
  LatticeBondsCases_Properties LatticeHex_Proofs LatticeNice_Properties LatticeChain_Properties LatticeSquare_Spec.
Import ListNotations.
Open Scope R_scope.

Lemma zoom10 prec : (1 <= prec)%nat -> 10 <= zoom prec.
Proof. intros H. destruct prec as [|p]; [lia|]. unfold zoom. cbn [pow]. pose proof (pow_R1_Rle 10 p ltac:(lra)). lra. Qed.
Lemma rounded_le prec x y : x <= y -> rounded prec x <= rounded prec y.
Proof.
  intros H. pose proof (Neighbors_Proofs.zoom_pos prec) as Z0. unfold rounded, Rdiv. apply Rmult_le_compat_r; [left; now apply Rinv_0_lt_compat|]. apply IZR_le, rint_le. apply Rmult_le_compat_r; lra.
Qed.
Lemma rounded_near prec x : Rabs (x - rounded prec x) <= view prec / 2.
Proof.
  pose proof (Neighbors_Proofs.zoom_pos prec) as Z0. pose proof (zoom_view prec) as ZV. pose proof (rint_half (x * zoom prec)) as H. unfold rounded.
  replace (x - IZR (rint (x * zoom prec)) / zoom prec) with ((x * zoom prec - IZR (rint (x * zoom prec))) * view prec) by (unfold view; fold (zoom prec); field; lra).
  rewrite Rabs_mult, (Rabs_right (view prec)) by (pose proof (view_pos prec); lra). pose proof (view_pos prec). apply Rle_trans with (/ 2 * view prec); [apply Rmult_le_compat_r; lra|lra].
Qed.
(** Roots of integers are far enough apart, in units of the last digit. *)
Lemma root_gap prec (M K : Z) : (1 <= prec)%nat -> (0 <= M < K)%Z -> rounded prec (sqrt (IZR M)) <= zoom prec / 6 ->
  rounded prec (sqrt (IZR M)) + 2 * view prec <= rounded prec (sqrt (IZR K)).
Proof.
  intros Hp [M0 MK] B. pose proof (zoom10 prec Hp) as Z10. pose proof (rounded_near prec (sqrt (IZR M))) as Nr. apply Rabs_le_inv in Nr. pose proof (view_tenth prec Hp) as VT. pose proof (view_pos prec) as VP. pose proof (zoom_view prec) as ZV.
  set (a := sqrt (IZR M)) in *. set (b := sqrt (IZR K)) in *. set (Z := zoom prec) in *.
  assert (A0 : 0 <= a) by apply sqrt_pos. assert (B0 : 0 <= b) by apply sqrt_pos.
  assert (A2 : a * a = IZR M) by (apply sqrt_sqrt, IZR_le; lia). assert (B2 : b * b = IZR K) by (apply sqrt_sqrt, IZR_le; lia).
  assert (K1 : IZR M + 1 <= IZR K) by (rewrite <- plus_IZR; apply IZR_le; lia).
  assert (Ab : a < b). { apply Rnot_le_lt. intros C. pose proof (Rmult_le_compat b a b a B0 B0 C C). lra. }
  assert (G : a * Z + 2 < b * Z).
  { assert (D : 2 / Z < b - a); [|apply Rmult_lt_compat_r with (r := Z) in D; [|lra]; unfold Rdiv in D; rewrite Rmult_assoc, Rinv_l in D by lra; lra].
    apply Rnot_le_lt. intros C. assert (IZ : / Z <= / 10) by (apply Rinv_le_contravar; lra). assert (IP : 0 < / Z) by (apply Rinv_0_lt_compat; lra).
    assert (ZI : Z * / Z = 1) by (apply Rinv_r; lra). assert (Eb : b <= a + 2 * / Z) by (unfold Rdiv in C; lra).
    assert (S1 : b * b <= (a + 2 * / Z) * (a + 2 * / Z)) by (apply Rmult_le_compat; lra).
    assert (Ea : a <= Z / 6 + / 20) by lra.
    assert (S2 : a * / Z <= (Z / 6 + / 20) * / Z) by (apply Rmult_le_compat_r; lra).
    assert (S3 : (Z / 6 + / 20) * / Z = / 6 + / 20 * / Z) by (unfold Rdiv; nra).
    assert (S4 : / Z * / Z <= / 10 * / 10) by (apply Rmult_le_compat; lra).
    assert (S5 : (a + 2 * / Z) * (a + 2 * / Z) = a * a + 4 * (a * / Z) + 4 * (/ Z * / Z)) by ring. lra. }
  assert (R2 : (rint (a * Z) + 2 <= rint (b * Z))%Z).
  { pose proof (rint_half (a * Z)) as Ra. pose proof (rint_half (b * Z)) as Rb. apply Rabs_le_inv in Ra. apply Rabs_le_inv in Rb.
    assert (L1 : IZR (rint (a * Z) + 1) < IZR (rint (b * Z))) by (rewrite plus_IZR; lra). apply lt_IZR in L1. lia. }
  unfold rounded. fold Z. apply IZR_le in R2. rewrite plus_IZR in R2. apply Rmult_le_compat_r with (r := / Z) in R2; [|left; apply Rinv_0_lt_compat; lra].
  replace (view prec) with (/ Z) by (unfold view; reflexivity). unfold Rdiv. lra.
Qed.

Lemma reach_max c x : In x c -> (Z.abs x <= reach c)%Z.
Proof. induction c as [|y c IH]; intros []; cbn [reach fold_right]; fold (reach c); [subst; lia|specialize (IH H); lia]. Qed.

(** ** coordinates of the sites *)
Section Grid.
  Variables (prec : nat) (m0 m1 m2 : Z) (L : lattice).
  Hypothesis Hpr : (1 <= prec)%nat.
  Hypothesis Pt : forall i, (i < List.length (points L))%nat -> exists x y z, nth i (points L) v0 = (IZR x, IZR y, IZR z) /\ (0 <= x < m0)%Z /\ (0 <= y < m1)%Z /\ (0 <= z < m2)%Z.
  Hypothesis At : forall x y z, (0 <= x < m0)%Z -> (0 <= y < m1)%Z -> (0 <= z < m2)%Z -> exists i, (i < List.length (points L))%nat /\ nth i (points L) v0 = (IZR x, IZR y, IZR z).
  Hypothesis Sh : forall c, List.length c = List.length (vectors L) -> shift c (vectors L) = (IZR (m0 * nth 0 c 0%Z), IZR (m1 * nth 1 c 0%Z), IZR (m2 * nth 2 c 0%Z)).
  Hypothesis L3 : (List.length (vectors L) <= 3)%nat.
  Hypothesis Pos : (1 <= m0)%Z /\ (1 <= m1)%Z /\ (1 <= m2)%Z.

  (** every distance is the root of an integer *)
  Lemma grid_len k : valid L k -> exists M, (0 <= M)%Z /\ len L k = sqrt (IZR M) /\ exists X Y Z, (M = X * X + Y * Y + Z * Z)%Z /\
    (m0 * (Z.abs (nth 0 (by_ k) 0%Z) - 1) + 1 <= Z.abs X)%Z /\ (m1 * (Z.abs (nth 1 (by_ k) 0%Z) - 1) + 1 <= Z.abs Y)%Z /\ (m2 * (Z.abs (nth 2 (by_ k) 0%Z) - 1) + 1 <= Z.abs Z)%Z /\
    (nth 1 (by_ k) 0%Z = 0%Z -> (Z.abs Y < m1)%Z) /\ (nth 2 (by_ k) 0%Z = 0%Z -> (Z.abs Z < m2)%Z).
  Proof.
    intros (V1 & V2 & V3). destruct (Pt _ V1) as (x & y & z & E1 & X1 & Y1 & Z1). destruct (Pt _ V2) as (x' & y' & z' & E2 & X2 & Y2 & Z2).
    set (X := (x - (x' + m0 * nth 0 (by_ k) 0))%Z). set (Y := (y - (y' + m1 * nth 1 (by_ k) 0))%Z). set (Z := (z - (z' + m2 * nth 2 (by_ k) 0))%Z).
    exists (X * X + Y * Y + Z * Z)%Z. split; [nia|]. split.
    - unfold len, head, tail. rewrite E1, E2, (Sh _ V3). unfold dist, norm. f_equal. unfold X, Y, Z. cbn [vsub vadd vdot]. rewrite !plus_IZR, !mult_IZR, !minus_IZR, !plus_IZR, !mult_IZR. ring.
    - exists X, Y, Z. split; [reflexivity|]. unfold X, Y, Z. generalize (nth 0 (by_ k) 0%Z), (nth 1 (by_ k) 0%Z), (nth 2 (by_ k) 0%Z). intros a b c. repeat split; try nia; intros ->; lia.
  Qed.
  Lemma dist_link x : lattice_distance L x <-> exists k, valid L k /\ x = len L k.
  Proof.
    split.
    - intros (p & q & ns & Hp & Hq & Hl & ->). apply (In_nth _ _ v0) in Hp as (i & Hi & <-). apply (In_nth _ _ v0) in Hq as (j & Hj & <-). exists (Link j i ns). split; [repeat split; assumption|]. unfold len, head, tail. cbn [from to by_]. apply dist_sym.
    - intros (k & (V1 & V2 & V3) & ->). exists (nth (to k) (points L) v0), (nth (from k) (points L) v0), (by_ k). split; [now apply nth_In|]. split; [now apply nth_In|]. split; [exact V3|]. unfold len, head, tail. apply dist_sym.
  Qed.
  Lemma dist_root x : lattice_distance L x -> exists M, (0 <= M)%Z /\ x = sqrt (IZR M).
  Proof. intros H. apply dist_link in H as (k & V & ->). destruct (grid_len k V) as (M & M0 & E & _). now exists M. Qed.

  (** rounding keeps the order of the distances, up to zoom / 6 *)
  Lemma keeps x y : lattice_distance L x -> lattice_distance L y -> rounded prec x <= zoom prec / 6 -> x < y -> rounded prec x + 2 * view prec <= rounded prec y.
  Proof.
    intros Hx Hy B Lt. destruct (dist_root x Hx) as (M & M0 & ->). destruct (dist_root y Hy) as (K & K0 & ->). apply (root_gap prec M K Hpr); [|exact B]. split; [exact M0|].
    destruct (Z.lt_ge_cases M K) as [C|C]; [exact C|exfalso]. apply IZR_le in C. apply sqrt_le_1_alt in C. lra.
  Qed.
  Lemma keeps_iff x y : lattice_distance L x -> lattice_distance L y -> rounded prec x <= zoom prec / 6 ->
    (rounded prec y <= rounded prec x <-> y <= x) /\ (rounded prec y = rounded prec x <-> y = x).
  Proof.
    intros Hx Hy B. pose proof (view_pos prec) as VP. destruct (Rtotal_order x y) as [Lt|[->|Gt]].
    - pose proof (keeps x y Hx Hy B Lt). split; split; intros; exfalso; lra.
    - split; split; intros; lra.
    - assert (By : rounded prec y <= zoom prec / 6) by (apply Rle_trans with (rounded prec x); [apply rounded_le; lra|exact B]). pose proof (keeps y x Hy Hx By Gt). split; split; intros; lra.
  Qed.
  Lemma no_next x : lattice_distance L x -> rounded prec x <= zoom prec / 6 -> ~ rounded_distance prec L (rounded prec x + view prec).
  Proof.
    intros Hx B (y & Hy & E). pose proof (view_pos prec) as VP. change (IZR (rint (y * zoom prec)) / zoom prec) with (rounded prec y) in E. destruct (Rle_lt_dec y x) as [C|C].
    - apply (rounded_le prec) in C. lra.
    - pose proof (keeps x y Hx Hy B C). lra.
  Qed.
  (** the n-th rounded distance is the n-th distance, rounded *)
  Lemma nth_exact n x : lattice_distance L x -> rounded prec x <= zoom prec / 6 -> nth_distance prec L n (rounded prec x) -> exact_nth L n x.
  Proof.
    intros Hx B (_ & l & Nl & Ll & Hl). split; [exact Hx|]. pose proof (view_pos prec) as VP.
    assert (Ex : exists l2, map (rounded prec) l2 = l /\ forall y, In y l2 -> lattice_distance L y).
    { assert (Hall : forall u, In u l -> exists y, lattice_distance L y /\ u = rounded prec y) by (intros u Hu; apply Hl in Hu as [(y & Hy & E) _]; now exists y).
      clear - Hall. induction l as [|u l IH]; [exists []; split; [reflexivity|intros y []]|]. destruct IH as (l2 & E & A); [intros v Hv; apply Hall; now right|]. destruct (Hall u (or_introl eq_refl)) as (y & Hy & ->).
      exists (y :: l2). split; [cbn [map]; now rewrite E|]. intros w [<-|Hw]; [exact Hy|now apply A]. }
    destruct Ex as (l2 & E2 & A2). exists l2. split; [apply (NoDup_map_inv (rounded prec)); now rewrite E2|]. split; [rewrite <- Ll, <- E2; now rewrite map_length|]. intros u. split.
    - intros Hu. pose proof (A2 u Hu) as Du. split; [exact Du|]. assert (Iu : In (rounded prec u) l) by (rewrite <- E2; now apply in_map). apply Hl in Iu as [_ Lt]. apply Rnot_le_lt. intros C. apply (rounded_le prec) in C. lra.
    - intros [Du Lt]. assert (Bu : rounded prec u <= zoom prec / 6) by (apply Rle_trans with (rounded prec x); [apply rounded_le; lra|exact B]).
      assert (Iu : In (rounded prec u) l). { apply Hl. split; [now exists u|]. pose proof (keeps u x Du Hx Bu Lt). lra. }
      rewrite <- E2 in Iu. apply in_map_iff in Iu as (w & Ew & Hw). destruct (keeps_iff u w Du (A2 w Hw) Bu) as [_ K]. apply K in Ew. now subst w.
  Qed.

  (** a link straight across the border *)
  Lemma straight a r : (a < List.length (vectors L))%nat -> (1 <= r)%Z -> exists k, valid L k /\ (r <= reach (by_ k))%Z /\ len L k = IZR (nth a [m0; m1; m2] 0%Z * (r - 1) + 1).
  Proof.
    intros Ha Hr. destruct Pos as (P0 & P1 & P2). set (c := map (fun i => if Nat.eqb i a then r else 0%Z) (seq 0 (List.length (vectors L)))).
    assert (Lc : List.length c = List.length (vectors L)) by (unfold c; now rewrite map_length, seq_length).
    assert (Nc : forall i, nth i c 0%Z = if Nat.eqb i a then r else 0%Z).
    { intros i. unfold c. destruct (Nat.lt_ge_cases i (List.length (vectors L))) as [H|H].
      - rewrite (nth_indep _ 0%Z (if Nat.eqb 0 a then r else 0%Z)) by (rewrite map_length, seq_length; exact H). rewrite (map_nth (fun i => if Nat.eqb i a then r else 0%Z)), seq_nth by exact H. reflexivity.
      - rewrite nth_overflow by (rewrite map_length, seq_length; exact H). destruct (Nat.eqb_spec i a); [lia|reflexivity]. }
    assert (Rc : (r <= reach c)%Z).
    { assert (Hin : In r c) by (pose proof (Nc a) as E; rewrite Nat.eqb_refl in E; rewrite <- E; apply nth_In; lia).
      pose proof (reach_max c r Hin). lia. }
    assert (Ca : a = 0%nat \/ a = 1%nat \/ a = 2%nat) by lia.
    destruct (At 0 0 0) as (o & Ho & Eo); [lia|lia|lia|].
    destruct (At (if Nat.eqb a 0 then m0 - 1 else 0) (if Nat.eqb a 1 then m1 - 1 else 0) (if Nat.eqb a 2 then m2 - 1 else 0))%Z as (e & He & Ee); [destruct (Nat.eqb a 0); lia|destruct (Nat.eqb a 1); lia|destruct (Nat.eqb a 2); lia|].
    exists (Link e o c). split; [repeat split; cbn [from to by_]; assumption|]. split; [exact Rc|]. unfold len, head, tail. cbn [from to by_]. rewrite Eo, Ee, (Sh c Lc), !Nc. unfold dist, norm.
    rewrite <- (sqrt_square (IZR (nth a [m0; m1; m2] 0%Z * (r - 1) + 1))); [|apply IZR_le; destruct Ca as [->|[->| ->]]; cbn [nth]; match goal with |- (0 <= ?m * ?t + 1)%Z => assert (0 <= m * t)%Z by (apply Z.mul_nonneg_nonneg; lia) end; lia]. f_equal.
    destruct Ca as [->|[->| ->]]; cbn [Nat.eqb nth vsub vadd vdot]; rewrite ?Z.mul_0_r, ?plus_IZR, ?mult_IZR, ?minus_IZR; cbn; ring.
  Qed.
  (** the search window holds every link it should *)
  Lemma reaches x k : lattice_distance L x -> rounded prec x <= zoom prec / 6 -> valid L k -> crossing k -> rounded prec x < len L k <= rounded prec x + view prec -> in_reach L (rounded prec x) k.
  Proof.
    intros Hx B Vk Ck [A1 A2]. pose proof (view_pos prec) as VP. assert (Dk : lattice_distance L (len L k)) by (apply dist_link; now exists k).
    destruct (Rtotal_order x (len L k)) as [Lt|[E|Gt]].
    - exfalso. pose proof (keeps x (len L k) Hx Dk B Lt). pose proof (rounded_near prec (len L k)) as N. apply Rabs_le_inv in N. lra.
    - (* the length was rounded down, so it is not an integer *)
      destruct (reach_nth (by_ k)) as (a & [[Ha Er]|E0]); [|destruct Ck as (n & Hn & _); rewrite E0 in Hn; destruct Hn].
      assert (R1 : (1 <= reach (by_ k))%Z). { destruct Ck as (n & Hn & N0). pose proof (reach_max _ _ Hn). lia. }
      assert (Ha' : (a < List.length (vectors L))%nat) by (destruct Vk as (_ & _ & V3); lia).
      destruct (straight a (reach (by_ k)) Ha' R1) as (k' & V' & R' & E'). exists k'. split; [exact V'|]. split; [exact R'|]. rewrite E'. set (q := (nth a [m0; m1; m2] 0 * (reach (by_ k) - 1) + 1)%Z) in *.
      assert (Le : IZR q <= len L k).
      { destruct (grid_len k Vk) as (M & M0 & EM & X & Y & Z & EMx & BX & BY & BZ & _). assert (Q1 : (q * q <= M)%Z).
        { destruct Pos as (P0 & P1 & P2). assert (Ca : a = 0%nat \/ a = 1%nat \/ a = 2%nat) by lia. assert (Hq : (1 <= q)%Z) by (unfold q; destruct Ca as [->|[->| ->]]; cbn [nth]; match goal with |- (1 <= ?m * ?t + 1)%Z => assert (0 <= m * t)%Z by (apply Z.mul_nonneg_nonneg; lia) end; lia).
          unfold q in *. rewrite Er in *. destruct Ca as [->|[->| ->]]; cbn [nth] in Hq |- *.
          - assert ((m0 * (Z.abs (nth 0 (by_ k) 0) - 1) + 1) * (m0 * (Z.abs (nth 0 (by_ k) 0) - 1) + 1) <= Z.abs X * Z.abs X)%Z by (apply Z.mul_le_mono_nonneg; lia). rewrite EMx. nia.
          - assert ((m1 * (Z.abs (nth 1 (by_ k) 0) - 1) + 1) * (m1 * (Z.abs (nth 1 (by_ k) 0) - 1) + 1) <= Z.abs Y * Z.abs Y)%Z by (apply Z.mul_le_mono_nonneg; lia). rewrite EMx. nia.
          - assert ((m2 * (Z.abs (nth 2 (by_ k) 0) - 1) + 1) * (m2 * (Z.abs (nth 2 (by_ k) 0) - 1) + 1) <= Z.abs Z * Z.abs Z)%Z by (apply Z.mul_le_mono_nonneg; lia). rewrite EMx. nia. }
        rewrite EM. destruct (Rle_lt_dec (IZR q) 0) as [C|C]; [apply Rle_trans with 0; [exact C|apply sqrt_pos]|].
        replace (IZR q) with (sqrt (IZR (q * q))) by (rewrite mult_IZR; apply sqrt_square; lra). apply sqrt_le_1_alt, IZR_le, Q1. }
      assert (Rq : rounded prec (IZR q) = IZR q) by (unfold rounded; now rewrite rint_int_zoom, back_zoom).
      apply (rounded_le prec) in Le. rewrite Rq, <- E in Le. exact Le.
    - exfalso. assert (Bk : rounded prec (len L k) <= rounded prec x) by (apply rounded_le; lra). assert (Bk' : rounded prec (len L k) <= zoom prec / 6) by lra.
      pose proof (keeps (len L k) x Dk Hx Bk' Gt). pose proof (rounded_near prec (len L k)) as N. apply Rabs_le_inv in N. lra.
  Qed.

  (** every integer is a distance *)
  Hypothesis L1 : (1 <= List.length (vectors L))%nat.
  Lemma integers (m : nat) : rounded_distance prec L (IZR (Z.of_nat m)).
  Proof.
    destruct Pos as (P0 & P1 & P2). set (q := (Z.of_nat m / m0)%Z). set (t := (Z.of_nat m mod m0)%Z). pose proof (Z.mod_pos_bound (Z.of_nat m) m0 ltac:(lia)) as Tb. fold t in Tb. pose proof (Z.div_mod (Z.of_nat m) m0 ltac:(lia)) as Em. fold q t in Em.
    destruct (At 0 0 0) as (o & Ho & Eo); [lia|lia|lia|]. destruct (At t 0 0) as (e & He & Ee); [lia|lia|lia|].
    set (c := q :: repeat 0%Z (List.length (vectors L) - 1)). assert (Lc : List.length c = List.length (vectors L)) by (unfold c; cbn [List.length]; rewrite repeat_length; lia).
    assert (Z1 : forall i, nth i (repeat 0%Z (List.length (vectors L) - 1)) 0%Z = 0%Z) by (intros i; apply nth_repeat).
    exists (IZR (Z.of_nat m)). split; [|now rewrite rint_int_zoom, back_zoom]. apply dist_link. exists (Link o e c). split; [repeat split; assumption|]. unfold len, head, tail. cbn [from to by_]. rewrite Eo, Ee, (Sh c Lc). unfold c. cbn [nth]. rewrite !Z1.
    unfold dist, norm. rewrite Em at 1. rewrite <- (sqrt_square (IZR (m0 * q + t))) by (apply IZR_le; lia). f_equal. cbn [vsub vadd vdot]. rewrite !Z.mul_0_r, !plus_IZR, !mult_IZR. ring.
  Qed.
  Lemma nth_le n v : nth_distance prec L n v -> v <= IZR (Z.of_nat n).
  Proof.
    intros (_ & l & Nl & Ll & Hl). apply Rnot_lt_le. intros C. assert (I : incl (map (fun k => IZR (Z.of_nat k)) (seq 0 (S n))) l).
    { intros u Hu. apply in_map_iff in Hu as (k & <- & Hk). apply in_seq in Hk. apply Hl. split; [apply integers|]. apply Rle_lt_trans with (IZR (Z.of_nat n)); [apply IZR_le; lia|exact C]. }
    apply NoDup_incl_length in I; [rewrite map_length, seq_length in I; lia|]. apply FinFun.Injective_map_NoDup; [|apply seq_NoDup]. intros a b E. apply eq_IZR in E. lia.
  Qed.
  (** the distances within the cluster, up to its extents *)
  Lemma fresh_right m : (Z.of_nat m < m0)%Z -> ((1 < List.length (vectors L))%nat -> (Z.of_nat m < m1)%Z) -> ((2 < List.length (vectors L))%nat -> (Z.of_nat m < m2)%Z) ->
    resolved prec L -> exists v, nth_error (fresh prec L) m = Some v /\ nth_distance prec L m v.
  Proof.
    intros B0 B1 B2 Hres. destruct Pos as (P0 & P1 & P2). unfold fresh. rewrite all_distances_zlist. set (l := zlist prec (points L)). pose proof (ten_pos prec) as T10.
    assert (Hp : points L <> []) by (destruct (At 0 0 0) as (o & Ho & _); [lia|lia|lia|]; intros E; rewrite E in Ho; cbn in Ho; lia).
    assert (Inl : forall z, In z l <-> exists i j, (i < List.length (points L))%nat /\ (j < List.length (points L))%nat /\ i <> j /\ z = rint (dist (nth i (points L) v0) (nth j (points L) v0) * zoom prec)).
    { intros z. unfold l, zlist. rewrite in_zunique, in_map_iff. split.
      - intros (d & <- & Hd). rewrite points_map in Hd. apply in_pdist_map in Hd as (i & j & Hi & Hj & N & ->); [|apply seq_NoDup]. apply in_seq in Hi, Hj. exists i, j. repeat split; auto; lia.
      - intros (i & j & Hi & Hj & N & ->). eexists. split; [reflexivity|]. replace (pdist (points L)) with (pdist (map (fun i => nth i (points L) v0) (seq 0 (List.length (points L))))) by (f_equal; symmetry; apply points_map). apply in_pdist_map; [apply seq_NoDup|]. exists i, j. rewrite !in_seq. repeat split; auto; lia. }
    assert (Sup : forall y, In y (0%Z :: l) -> rounded_distance prec L (IZR y / zoom prec)).
    { intros y Hy. apply (cache_rounded prec L (fresh prec L) _ Hp (fresh_ok prec L)). unfold fresh. rewrite all_distances_zlist. now apply (in_map (fun k => IZR k / zoom prec)). }
    assert (Hs : StronglySorted Z.lt (0%Z :: l)).
    { constructor; [apply zlist_sorted|]. apply Forall_forall. intros z Hz. apply Inl in Hz as (i & j & Hi & Hj & N & ->).
      pose proof (resolved_pos prec L i j (repeat 0%Z (List.length (vectors L))) Hres Hi Hj (repeat_length _ _) (or_introl N)) as R0. unfold between in R0. rewrite shift_zero, vadd_0_r in R0. lia. }
    (* a length below the extents occurs within the cluster *)
    assert (Occurs : forall y, lattice_distance L y -> y < IZR (Z.of_nat m) + 1 -> In (rint (y * zoom prec)) (0%Z :: l)).
    { intros y Hy Lt. apply dist_link in Hy as (k & Vk & ->). destruct (grid_len k Vk) as (M & M0 & EM & X & Y & Z & EMx & _ & _ & _ & NY & NZ). rewrite EM in *.
      assert (Small : forall W, (W * W <= M)%Z -> (Z.abs W <= Z.of_nat m)%Z).
      { intros W HW. assert (A : IZR (Z.abs W) < IZR (Z.of_nat m + 1)).
        { rewrite plus_IZR. apply Rle_lt_trans with (sqrt (IZR M)); [|exact Lt]. apply sqrt_le_of_sq; [apply IZR_le; lia|]. rewrite <- mult_IZR. apply IZR_le. lia. }
        apply lt_IZR in A. lia. }
      assert (SX : (Z.abs X <= Z.of_nat m)%Z) by (apply Small; nia). assert (SY : (Z.abs Y <= Z.of_nat m)%Z) by (apply Small; nia). assert (SZ : (Z.abs Z <= Z.of_nat m)%Z) by (apply Small; nia).
      assert (FX : (Z.abs X < m0)%Z) by lia.
      assert (FY : (Z.abs Y < m1)%Z) by (destruct (Nat.lt_ge_cases 1 (List.length (vectors L))) as [Q|Q]; [specialize (B1 Q); lia|apply NY, nth_overflow; destruct Vk as (_ & _ & V3); lia]).
      assert (FZ : (Z.abs Z < m2)%Z) by (destruct (Nat.lt_ge_cases 2 (List.length (vectors L))) as [Q|Q]; [specialize (B2 Q); lia|apply NZ, nth_overflow; destruct Vk as (_ & _ & V3); lia]).
      destruct (At 0 0 0) as (o & Ho & Eo); [lia|lia|lia|]. destruct (At (Z.abs X) (Z.abs Y) (Z.abs Z)) as (e & He & Ee); [lia|lia|lia|].
      assert (De : dist (nth e (points L) v0) (nth o (points L) v0) = sqrt (IZR M)).
      { rewrite Ee, Eo. unfold dist, norm. f_equal. cbn [vsub vdot]. replace M with (Z.abs X * Z.abs X + Z.abs Y * Z.abs Y + Z.abs Z * Z.abs Z)%Z by (rewrite EMx, !Z.abs_square; reflexivity). rewrite !plus_IZR, !mult_IZR. ring. }
      destruct (Nat.eq_dec e o) as [->|Neo].
      - left. rewrite <- De. rewrite dist_refl. rewrite Rmult_0_l. symmetry. apply (rint_IZR 0).
      - right. apply Inl. exists e, o. rewrite De. auto. }
    (* the integers do *)
    assert (Ints : forall k, (k <= m)%nat -> In (Z.of_nat k * 10 ^ Z.of_nat prec)%Z (0%Z :: l)).
    { intros k Hk. destruct (integers k) as (y & Hy & Ey). rewrite <- rint_int_zoom, Ey. 
      assert (Yk : Rabs (y - rounded prec y) <= view prec / 2) by apply rounded_near. unfold rounded in Yk. rewrite <- Ey in Yk. apply Rabs_le_inv in Yk. pose proof (view_tenth prec Hpr) as VT. 
      replace (rint (IZR (rint (y * zoom prec)) / zoom prec * zoom prec)) with (rint (y * zoom prec)).
      - apply Occurs; [exact Hy|]. assert (IZR (Z.of_nat k) <= IZR (Z.of_nat m)) by (apply IZR_le; lia). lra.
      - unfold Rdiv. rewrite Rmult_assoc, Rinv_l, Rmult_1_r by (pose proof (Neighbors_Proofs.zoom_pos prec); lra). symmetry. apply rint_IZR. }
    assert (NI : NoDup (map (fun k => (Z.of_nat k * 10 ^ Z.of_nat prec)%Z) (seq 0 (S m)))).
    { apply FinFun.Injective_map_NoDup; [|apply seq_NoDup]. intros a b E. apply Z.mul_reg_r in E; lia. }
    assert (Len : (m < List.length (0%Z :: l))%nat).
    { assert (I : incl (map (fun k => (Z.of_nat k * 10 ^ Z.of_nat prec)%Z) (seq 0 (S m))) (0%Z :: l)) by (intros z Hz; apply in_map_iff in Hz as (k & <- & Hk); apply in_seq in Hk; apply Ints; lia).
      apply NoDup_incl_length in I; [rewrite map_length, seq_length in I; lia|exact NI]. }
    destruct (nth_error (0%Z :: l) m) as [z|] eqn:Ez; [|apply nth_error_None in Ez; lia].
    assert (Zm : (z <= Z.of_nat m * 10 ^ Z.of_nat prec)%Z).
    { apply Z.nlt_ge. intros C. assert (I : incl (map (fun k => (Z.of_nat k * 10 ^ Z.of_nat prec)%Z) (seq 0 (S m))) (firstn m (0%Z :: l))).
      { intros w Hw. apply in_map_iff in Hw as (k & <- & Hk). apply in_seq in Hk. apply (sorted_rank _ Hs m z Ez). split; [apply Ints; lia|]. nia. }
      apply NoDup_incl_length in I; [rewrite map_length, seq_length, firstn_length in I; lia|exact NI]. }
    exists (IZR z / zoom prec). split; [now rewrite nth_error_map, Ez|]. split; [apply Sup; eapply nth_error_In, Ez|].
    exists (map (fun k => IZR k / zoom prec) (firstn m (0%Z :: l))). split; [|split].
    - apply FinFun.Injective_map_NoDup; [intros a b E; now apply unit_div_inj in E|]. apply firstn_nodup, sorted_nodup, Hs.
    - rewrite map_length, firstn_length. lia.
    - intros u. rewrite in_map_iff. split.
      + intros (y & <- & Hy). apply (sorted_rank _ Hs m z Ez) in Hy as [Hy Lt]. split; [now apply Sup|now apply unit_div_lt].
      + intros [(y & Hy & ->) Lt]. apply unit_div_lt in Lt. exists (rint (y * zoom prec)). split; [reflexivity|]. apply (sorted_rank _ Hs m z Ez). split; [|exact Lt]. apply Occurs; [exact Hy|].
        pose proof (rounded_near prec y) as Yn. apply Rabs_le_inv in Yn. pose proof (view_tenth prec Hpr) as VT.
        assert (rounded prec y <= IZR (Z.of_nat m)). { unfold rounded. rewrite <- (back_zoom prec (Z.of_nat m)). unfold Rdiv. apply Rmult_le_compat_r; [left; apply Rinv_0_lt_compat, Neighbors_Proofs.zoom_pos|]. apply IZR_le. lia. }
        lra.
  Qed.
End Grid.

(** The three cells with the sites at the integer points. *)
Definition grids : list (string * cell) := [("chain", chain_cell); ("square", square_cell); ("cubic", cubic_cell)]%string.
Lemma grid_common s c : In (s, c) grids -> In (s, c) common_cells.
Proof. intros [E|[E|[E|[]]]]; rewrite <- E; cbn; tauto. Qed.
Lemma grid_coordinates prec s c n0 n1 n2 L d0 : (1 <= prec)%nat -> In (s, c) grids -> (1 <= n0)%Z -> (1 <= n1)%Z -> (1 <= n2)%Z ->
  lattice_generator prec (Name s) (AnInt n0) (AnInt n1) (AnInt n2) = Ok (L, d0) ->
  let m1 := if Nat.ltb 1 (List.length (cvectors c)) then n1 else 1%Z in let m2 := if Nat.ltb 2 (List.length (cvectors c)) then n2 else 1%Z in
  List.length (vectors L) = List.length (cvectors c) /\
  (forall i, (i < List.length (points L))%nat -> exists x y z, nth i (points L) v0 = (IZR x, IZR y, IZR z) /\ (0 <= x < n0)%Z /\ (0 <= y < m1)%Z /\ (0 <= z < m2)%Z) /\
  (forall x y z, (0 <= x < n0)%Z -> (0 <= y < m1)%Z -> (0 <= z < m2)%Z -> exists i, (i < List.length (points L))%nat /\ nth i (points L) v0 = (IZR x, IZR y, IZR z)) /\
  (forall c', List.length c' = List.length (vectors L) -> shift c' (vectors L) = (IZR (n0 * nth 0 c' 0%Z), IZR (m1 * nth 1 c' 0%Z), IZR (m2 * nth 2 c' 0%Z))).
Proof.
  intros Hpr Hg H0 H1 H2 E. pose proof (grid_common s c Hg) as H. pose proof (common_gridded s c H) as g. destruct (extents_ok s c n0 n1 n2 H H0 H1 H2) as [F Hl].
  destruct (cluster_accepted prec c g _ Hpr F Hl) as (L' & d' & E' & _ & E2 & E3 & _). rewrite (generator_build prec s c) in E by auto. rewrite E' in E. injection E as -> ->.
  assert (In_ : forall ns, box (extents c n0 n1 n2) ns -> exists i, (i < List.length (points L))%nat /\ nth i (points L) v0 = site c 0 ns).
  { intros ns Hb. pose proof (position_range _ _ Hb) as Pr. assert (Lc : List.length (cpoints c) = 1%nat) by (destruct Hg as [e|[e|[e|[]]]]; injection e as <- <-; reflexivity).
    exists (Z.to_nat (position (extents c n0 n1 n2) ns) * List.length (cpoints c) + 0)%nat. rewrite E2. split; [rewrite cluster_length by exact F; rewrite Lc; lia|]. apply cluster_nth; [exact Hb|lia]. }
  assert (Out : forall i, (i < List.length (points L))%nat -> exists ns, box (extents c n0 n1 n2) ns /\ nth i (points L) v0 = site c 0 ns).
  { intros i Hi. rewrite E2 in Hi. destruct (cluster_site c _ i F Hi) as (ns & j & Hb & Hj & _ & Ei). exists ns. split; [exact Hb|]. rewrite E2, Ei. f_equal. destruct Hg as [e|[e|[e|[]]]]; injection e as <- <-; cbn in Hj; lia. }
  cbv zeta. split; [rewrite E3; now apply scale_rows_length|].
  destruct Hg as [e|[e|[e|[]]]]; injection e as <- <-; unfold extents in *; cbn [cvectors chain_cell square_cell cubic_cell List.length Nat.ltb Nat.leb firstn] in *; rewrite E3; cbn [scale_rows cvectors chain_cell square_cell cubic_cell List.length].
  - split; [|split].
    + intros i Hi. destruct (Out i Hi) as (ns & Hb & ->). inversion Hb as [|? x ? ? X Hb1]; subst. inversion Hb1; subst. exists x, 0%Z, 0%Z. split; [unfold site, shift; cbn; apply p3_eq; ring|lia].
    + intros x y z X Y Z. destruct (In_ [x]) as (i & Hi & Ei); [constructor; [exact X|constructor]|]. exists i. split; [exact Hi|]. rewrite Ei. assert (y = 0%Z) by lia. assert (z = 0%Z) by lia. subst. unfold site, shift; cbn; apply p3_eq; ring.
    + intros c' Hc. destruct c' as [|a [|]]; try discriminate Hc. unfold shift. cbn [map combination vscale vadd v0 nth]. rewrite !mult_IZR. apply p3_eq; ring.
  - split; [|split].
    + intros i Hi. destruct (Out i Hi) as (ns & Hb & ->). inversion Hb as [|? x ? ? X Hb1]; subst. inversion Hb1 as [|? y ? ? Y Hb2]; subst. inversion Hb2; subst. exists x, y, 0%Z. split; [unfold site, shift; cbn; apply p3_eq; ring|lia].
    + intros x y z X Y Z. destruct (In_ [x; y]) as (i & Hi & Ei); [repeat (apply Forall2_cons; [assumption|]); constructor|]. exists i. split; [exact Hi|]. rewrite Ei. assert (z = 0%Z) by lia. subst. unfold site, shift; cbn; apply p3_eq; ring.
    + intros c' Hc. destruct c' as [|a [|b [|]]]; try discriminate Hc. unfold shift. cbn [map combination vscale vadd v0 nth]. rewrite !mult_IZR. apply p3_eq; ring.
  - split; [|split].
    + intros i Hi. destruct (Out i Hi) as (ns & Hb & ->). inversion Hb as [|? x ? ? X Hb1]; subst. inversion Hb1 as [|? y ? ? Y Hb2]; subst. inversion Hb2 as [|? z ? ? Z Hb3]; subst. inversion Hb3; subst. exists x, y, z. split; [unfold site, shift; cbn; apply p3_eq; ring|lia].
    + intros x y z X Y Z. destruct (In_ [x; y; z]) as (i & Hi & Ei); [repeat (apply Forall2_cons; [assumption|]); constructor|]. exists i. split; [exact Hi|]. rewrite Ei. unfold site, shift; cbn; apply p3_eq; ring.
    + intros c' Hc. destruct c' as [|a [|b [|e [|]]]]; try discriminate Hc. unfold shift. cbn [map combination vscale vadd v0 nth]. rewrite !mult_IZR. apply p3_eq; ring.
Qed.

(** Chain, square and cubic clusters of every size.  If n + 1 is smaller than the
    extents of the cluster (after any history), or if the list of distances is
    too short for n + 1 and is rebuilt, neighbor_distance(n + 1) is the (n + 1)-th
    distance of the infinite lattice, rounded, and bonds(n + 1) lists each pair of
    sites at exactly that distance (only=False: at most that distance) once and
    no other pair; up to n = 1665 at the default precision. *)
Theorem C37_square : forall prec s c n0 n1 n2 L d0 ord pord d n (only fold : bool), (1 <= prec)%nat -> In (s, c) grids -> (1 <= n0)%Z -> (1 <= n1)%Z -> (1 <= n2)%Z ->
  lattice_generator prec (Name s) (AnInt n0) (AnInt n1) (AnInt n2) = Ok (L, d0) -> listing ord -> listing pord -> reachable prec L ord d0 d -> (6 * Z.of_nat (S n) <= 10 ^ Z.of_nat prec)%Z ->
  (List.length d <= S n)%nat \/ Forall (fun m => (Z.of_nat (S n) < m)%Z) (firstn (List.length (cvectors c)) [n0; n1; n2]) ->
  exists delta, exact_nth L (S n) delta /\ fst (neighbor_distance L ord prec d (AnInt (Z.of_nat (S n)))) = Ok (rounded prec delta) /\
  let P := fun x => if only then x = delta else x <= delta in
  exists F, forall fuel, (F <= fuel)%nat -> exists intra inter T, fst (bonds L ord pord fuel prec d (AnInt (Z.of_nat (S n))) only fold) = Some (Ok (intra, Some inter)) /\
    lists_intra L P intra /\ lists_inter L P fold inter T /\ forall k, valid L k -> crossing k -> P (len L k) -> In k T \/ In (opposite k) T.
Proof.
  intros prec s c n0 n1 n2 L d0 ord pord d n only fold Hpr Hg H0 H1 H2 E Ho Hpo Hr Hn Hsrc. pose proof (grid_common s c Hg) as H.
  destruct (grid_coordinates prec s c n0 n1 n2 L d0 Hpr Hg H0 H1 H2 E) as (Lv & Pt & At & Sh). cbv zeta in Pt, At, Sh.
  set (m1 := if Nat.ltb 1 (List.length (cvectors c)) then n1 else 1%Z) in *. set (m2 := if Nat.ltb 2 (List.length (cvectors c)) then n2 else 1%Z) in *.
  assert (Pos : (1 <= n0)%Z /\ (1 <= m1)%Z /\ (1 <= m2)%Z) by (unfold m1, m2; destruct (Nat.ltb 1 _), (Nat.ltb 2 _); lia).
  assert (L3 : (1 <= List.length (vectors L) <= 3)%nat) by (rewrite Lv; destruct Hg as [e|[e|[e|[]]]]; injection e as <- <-; cbn; lia). destruct L3 as [L1 L3].
  destruct (C37_nice prec s c n0 n1 n2 L d0 Hpr H H0 H1 H2 E) as (HL & Ni & W & _). destruct (C37_suitable prec s c n0 n1 n2 L d0 Hpr H H0 H1 H2 E) as (Sp & Hres & Hc & _).
  pose proof E as Eg. rewrite (generator_build prec s c) in E by auto. pose proof (fresh_of_constructor _ _ _ _ _ E) as Fr. pose proof (lattice_of_facts _ _ HL) as (_ & _ & Hk & Hp).
  (* the answers are right *)
  assert (Right : exists judge judge' d2, neighbor_distance L ord prec d (AnInt (Z.of_nat (S n))) = (Ok judge, d2) /\ nth_distance prec L (S n) judge /\ fst (neighbor_distance L ord prec d2 (AnInt (Z.of_nat n))) = Ok judge' /\ nth_distance prec L n judge').
  { destruct (Nat.le_gt_cases (List.length d) (S n)) as [Hd|Hd].
    - destruct (C35_recomputed prec L ord d (S n) Ho HL W Hc Hres Hd) as (v & d' & Ev & Nv & Hm). destruct (Hm n ltac:(lia)) as (u & Eu & Nu). exists v, u, d'. rewrite Eu. auto.
    - destruct Hsrc as [C|B]; [lia|].
      assert (Fm : forall m, (m <= S n)%nat -> exists v, nth_error (fresh prec L) m = Some v /\ nth_distance prec L m v).
      { intros m Hm. assert (Bs : (Z.of_nat m < n0)%Z /\ ((1 < List.length (vectors L))%nat -> (Z.of_nat m < m1)%Z) /\ ((2 < List.length (vectors L))%nat -> (Z.of_nat m < m2)%Z)).
        { rewrite Lv. unfold m1, m2. destruct Hg as [e|[e|[e|[]]]]; injection e as <- <-; cbn [cvectors chain_cell square_cell cubic_cell List.length Nat.ltb Nat.leb firstn] in B |- *; repeat match goal with X : Forall _ (_ :: _) |- _ => inversion X; subst; clear X end; lia. }
        destruct Bs as (B0 & B1 & B2). exact (fresh_right prec n0 m1 m2 L Hpr Pt At Sh L3 Pos L1 m B0 B1 B2 Hres). }
      assert (Dm : forall m, (m <= S n)%nat -> exists v, nth_error d m = Some v /\ nth_distance prec L m v).
      { rewrite Fr in Hr. clear Hd. induction Hr as [|d m' Hr IH]; [exact Fm|]. destruct (nd_cache L ord prec d m') as [-> |(q & Hq & -> & Lq & ->)]; [exact IH|].
        intros m Hm. apply (entries_right prec L ord q m); auto; try lia. destruct (IH (S n) (le_n _)) as (v & Ev & _). assert (S n < List.length d)%nat by (apply nth_error_Some; congruence). lia. }
      destruct (Dm (S n) (le_n _)) as (v & Ev & Nv). destruct (Dm n ltac:(lia)) as (u & Eu & Nu). exists v, u, d.
      rewrite (nd_hit L ord prec d (Z.of_nat (S n)) v), (nd_hit L ord prec d (Z.of_nat n) u) by (try lia; now rewrite Nat2Z.id). auto. }
  destruct Right as (judge & judge' & d2 & Ej & Nj & Ej' & Nj').
  pose proof (nth_le prec n0 m1 m2 L Hpr At Sh L3 Pos L1 (S n) judge Nj) as Bj. pose proof (nth_le prec n0 m1 m2 L Hpr At Sh L3 Pos L1 n judge' Nj') as Bj'.
  assert (Zb : IZR (Z.of_nat (S n)) <= zoom prec / 6). { rewrite zoom_Z. apply IZR_le in Hn. rewrite mult_IZR in Hn. lra. }
  assert (Zb' : IZR (Z.of_nat n) <= IZR (Z.of_nat (S n))) by (apply IZR_le; lia).
  destruct Nj as [(delta & Dd & Ed) Lj] eqn:Q. clear Q. change (IZR (rint (delta * zoom prec)) / zoom prec) with (rounded prec delta) in Ed. assert (Nj2 : nth_distance prec L (S n) (rounded prec delta)) by (rewrite <- Ed; split; [exists delta; auto|exact Lj]).
  assert (Bd : rounded prec delta <= zoom prec / 6) by lra.
  destruct Nj' as [(delta' & Dd' & Ed') Lj'] eqn:Q. clear Q. change (IZR (rint (delta' * zoom prec)) / zoom prec) with (rounded prec delta') in Ed'. assert (Nj2' : nth_distance prec L n (rounded prec delta')) by (rewrite <- Ed'; split; [exists delta'; auto|exact Lj']).
  assert (Bd' : rounded prec delta' <= zoom prec / 6) by lra.
  exists delta. split; [exact (nth_exact prec n0 m1 m2 L Hpr Pt Sh L3 Pos (S n) delta Dd Bd Nj2)|]. split; [rewrite Ej; cbn [fst]; now rewrite Ed|]. intros P.
  destruct (C37_bonds prec s c n0 n1 n2 L d0 ord pord d (Z.of_nat (S n)) only fold Hpr H H0 H1 H2 Eg Ho Hpo Hr ltac:(lia)) as (F & HF).
  exists F. intros fuel Hf. destruct (HF fuel Hf) as (intra & inter & Eb). exists intra, inter. rewrite Fr in Hr. rewrite Ed in Ej. rewrite Ed' in Ej'.
  destruct (C36_exact prec L ord pord fuel d n only fold intra (Some inter) _ _ _ Ho Hpo HL Hr Ni Hres (or_intror Sp) Ej Ej' Nj2 Nj2' (no_next prec n0 m1 m2 L Hpr Pt Sh L3 Pos delta Dd Bd) (fun _ => no_next prec n0 m1 m2 L Hpr Pt Sh L3 Pos delta' Dd' Bd')) as (Hin & J & T & EJ & HT & Hall); [|exact Eb|].
  { intros k Vk Ck B. exact (reaches prec n0 m1 m2 L Hpr Pt At Sh L3 Pos delta k Dd Bd Vk Ck B). }
  injection EJ as <-. exists T. split; [exact Eb|].
  assert (PQ0 : forall x, lattice_distance L x -> ((if only then rounded prec x = rounded prec delta else rounded prec x <= rounded prec delta) <-> P x)).
  { intros x Dx. destruct (keeps_iff prec n0 m1 m2 L Hpr Pt Sh L3 Pos delta x Dd Dx Bd) as [K1 K2]. unfold P. destruct only; [exact K2|exact K1]. }
  assert (PQ : forall k, valid L k -> ((if only then rounded prec (len L k) = rounded prec delta else rounded prec (len L k) <= rounded prec delta) <-> P (len L k))) by (intros k Vk; apply PQ0, dist_link; now exists k).
  split; [|split].
  - revert Hin. apply intra_iff. intros i j Hij. apply PQ0. exists (nth i (points L) v0), (nth j (points L) v0), (repeat 0%Z (List.length (vectors L))). rewrite shift_zero, vadd_0_r. repeat split; [apply nth_In; lia|apply nth_In; lia|apply repeat_length].
  - revert HT. apply inter_iff. exact PQ.
  - intros k Vk Ck Pk. apply Hall; auto. now apply PQ.
Qed.
Print Assumptions C37_square.
(** Non-vacuity: the square 10 x 12 cluster, up to the ninth distance; and the
    1 x 1 x 1 cubic cluster, whose list is always rebuilt at first. *)
Example square_cluster_case : exists L d0, lattice_generator 4 (Name "square") (AnInt 10) (AnInt 12) (AnInt 1) = Ok (L, d0) /\ reachable 4 L (fun l => l) d0 d0 /\ In ("square"%string, square_cell) grids /\
  (6 * Z.of_nat 9 <= 10 ^ Z.of_nat 4)%Z /\ Forall (fun m => (Z.of_nat 9 < m)%Z) (firstn (List.length (cvectors square_cell)) [10; 12; 1]%Z).
Proof.
  destruct (C37_generator 4 "square" square_cell 10 12 1) as (L & d & E & _); try lia; [cbn; tauto|]. exists L, d. split; [exact E|]. split; [constructor|]. split; [cbn; tauto|]. split; [cbn; lia|].
  cbn. apply Forall_cons; [lia|]. apply Forall_cons; [lia|]. constructor.
Qed.
Example cubic_cluster_case : exists L d0, lattice_generator 4 (Name "cubic") (AnInt 1) (AnInt 1) (AnInt 1) = Ok (L, d0) /\ reachable 4 L (fun l => l) d0 d0 /\ (List.length d0 <= 1)%nat.
Proof.
  destruct (C37_generator 4 "cubic" cubic_cell 1 1 1) as (L & d & E & _ & _ & _ & _ & Lp & _); try lia; [cbn; tauto|]. exists L, d. split; [exact E|]. split; [constructor|].
  rewrite (generator_build 4 "cubic" cubic_cell) in E by (try lia; cbn; tauto). rewrite (fresh_of_constructor _ _ _ _ _ E). unfold fresh. rewrite all_distances_zlist. cbn in Lp. destruct (points L) as [|p [|]]; try discriminate Lp. cbn. lia.
Qed.
