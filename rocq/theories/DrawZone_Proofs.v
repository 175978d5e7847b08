(** tools/BrillouinZone.py *)
From Coq Require Import String List Reals ZArith Bool Lia Lra Psatz Permutation.
From Verif Require Import Py Line2D_Model Lattice_Model Lattice_Spec Lattice_Proofs LatticeGen_Model LatticeGen_Proofs LatticeGen_Properties Reciprocal_Model Reciprocal_Spec Zone_Proofs BrillouinZone_Proofs Draw_Model.
Import ListNotations.
Open Scope R_scope.

Definition b0 : point := (2 * PI, - (2 * PI / 3) * sqrt 3, 0).
Definition b1 : point := (0, 4 * PI / 3 * sqrt 3, 0).
Lemma Bs_eq : BZ_Bs = [b0; b1].
Proof. unfold BZ_Bs, b0, b1. cbn [map vscale]. rewrite ?inv_s3. repeat (apply f_equal2; [apply p3_eq; lra|]); reflexivity. Qed.
Lemma dots : vdot b0 b0 = 16 / 3 * (PI * PI) /\ vdot b1 b1 = 16 / 3 * (PI * PI) /\ vdot b0 b1 = - (16 / 3 * (PI * PI)) / 2.
Proof.
  pose proof s3_sq as Q. unfold b0, b1. cbn [vdot]. repeat split.
  - transitivity (4 * (PI * PI) + 4 / 9 * (PI * PI) * (sqrt 3 * sqrt 3)); [field|rewrite Q; field].
  - transitivity (16 / 9 * (PI * PI) * (sqrt 3 * sqrt 3)); [field|rewrite Q; field].
  - transitivity (- (8 / 9) * (PI * PI) * (sqrt 3 * sqrt 3)); [field|rewrite Q; field].
Qed.
Lemma dual : dual_to BZ_As BZ_Bs.
Proof.
  rewrite Bs_eq. split; [reflexivity|]. pose proof s3_sq as Q. intros [|[|i]] [|[|j]] Hi Hj; cbn in Hi, Hj; try lia; cbn [nth BZ_As Nat.eqb]; unfold b0, b1; cbn [vdot]; try lra; replace 0.5 with (/ 2) by lra.
  - transitivity (PI - PI / 3 * (sqrt 3 * sqrt 3)); [field|rewrite Q; field].
  - transitivity (2 * PI / 3 * (sqrt 3 * sqrt 3)); [field|rewrite Q; field].
Qed.
Definition d0 : point := vadd (vscale (2 / 3) b0) (vscale (1 / 3) b1).
Definition d1 : point := vadd (vscale (1 / 3) b0) (vscale (2 / 3) b1).
Definition corners : list point := map (chart2 d0 d1) [(1, -1, 0); (0, -1, 0); (-1, 0, 0); (-1, 1, 0); (0, 1, 0); (1, 0, 0)].
Definition edges : list point := map (chart2 d0 d1) [(1 / 2, -1, 0); (-1 / 2, -1 / 2, 0); (-1, 1 / 2, 0); (-1 / 2, 1, 0); (1 / 2, 1 / 2, 0); (1, -1 / 2, 0)].
Lemma listed : lists (edge_middle (first_BZ 2 BZ_Bs)) edges /\ lists (corner (first_BZ 2 BZ_Bs)) corners.
Proof.
  destruct dots as (A & B & C). pose proof PI_RGT_0. apply (hexagon_listed b0 b1 (16 / 3 * (PI * PI))); auto; try reflexivity; [nra|]. intros k. rewrite Bs_eq. tauto.
Qed.
Lemma Ks_eq : BZ_Ks = skipn 2 corners ++ firstn 2 corners.
Proof.
  unfold BZ_Ks, corners, d0, d1, b0, b1, chart2. cbn [map vscale vadd skipn firstn app]. rewrite ?inv_s3. repeat (apply f_equal2; [apply p3_eq; lra|]); reflexivity.
Qed.
Lemma Ms_eq : BZ_Ms = skipn 2 edges ++ firstn 2 edges.
Proof.
  unfold BZ_Ms, edges, d0, d1, b0, b1, chart2. cbn [map vscale vadd skipn firstn app]. rewrite ?inv_s3. repeat (apply f_equal2; [apply p3_eq; lra|]); reflexivity.
Qed.
Lemma lists_perm P l l' : Permutation l l' -> lists P l -> lists P l'.
Proof. intros H [N K]. split; [now apply (Permutation_NoDup H)|]. intros k. rewrite K. split; apply Permutation_in; [exact H|now apply Permutation_sym]. Qed.
Lemma rotated {A} (l : list A) m : Permutation l (skipn m l ++ firstn m l).
Proof. rewrite <- (firstn_skipn m l) at 1. apply Permutation_app_comm. Qed.
Lemma zone_listed : lists (corner (first_BZ 2 BZ_Bs)) BZ_Ks /\ lists (edge_middle (first_BZ 2 BZ_Bs)) BZ_Ms.
Proof. destruct listed as [E C]. rewrite Ks_eq, Ms_eq. split; eapply lists_perm; eauto using rotated. Qed.
Lemma Ms_middle i : (i < 6)%nat -> middle (nth i BZ_Ms v0) (nth i BZ_Ks v0) (nth (S i mod 6) BZ_Ks v0).
Proof.
  intros Hi. unfold middle. do 6 (destruct i as [|i]; [unfold BZ_Ms, BZ_Ks; cbn [Nat.modulo Nat.divmod fst snd Nat.sub map nth vscale vadd]; rewrite ?inv_s3; apply p3_eq; lra|]). lia.
Qed.

(** ** the segments *)
Lemma sq3 a b c : 0 <= a * a + b * b + c * c.
Proof. pose proof (Rle_0_sqr a). pose proof (Rle_0_sqr b). pose proof (Rle_0_sqr c). unfold Rsqr in *. lra. Qed.
Lemma segment_char K p : K <> v0 -> coord 2 K = 0 -> 
  (on_segment (fst (BZ_segment K)) (snd (BZ_segment K)) p <-> in_space 2 p /\ norm p = dist p K /\ dist p (vscale (1 / 2) K) <= norm K).
Proof.
  destruct K as [[x y] z], p as [[u v] w]. cbn [coord]. intros N ->. unfold BZ_segment. cbn [fst snd coord vscale].
  assert (P : 0 < x * x + y * y).
  { destruct (Req_dec x 0) as [->|Nx]; [destruct (Req_dec y 0) as [->|Ny]; [exfalso; now apply N|]|]; nra. }
  assert (E : norm (u, v, w) = dist (u, v, w) (x, y, 0) <-> 2 * (u * x + v * y) = x * x + y * y).
  { unfold dist, norm. cbn [vsub vdot]. split; intros H.
    - assert (G : u * u + v * v + w * w = (u - x) * (u - x) + (v - y) * (v - y) + (w - 0) * (w - 0)) by (apply sqrt_inj; [apply sq3|apply sq3|exact H]). lra.
    - f_equal. lra. }
  rewrite E. assert (F : in_space 2 (u, v, w) -> (dist (u, v, w) (1 / 2 * x, 1 / 2 * y, 1 / 2 * 0) <= norm (x, y, 0) <-> (u - 1 / 2 * x) * (u - 1 / 2 * x) + (v - 1 / 2 * y) * (v - 1 / 2 * y) <= x * x + y * y)).
  { cbn [in_space]. intros ->. unfold dist, norm. cbn [vsub vdot]. split; intros H.
    - assert (G : (u - 1 / 2 * x) * (u - 1 / 2 * x) + (v - 1 / 2 * y) * (v - 1 / 2 * y) + (0 - 1 / 2 * 0) * (0 - 1 / 2 * 0) <= x * x + y * y + 0 * 0) by (apply sqrt_le_0; [apply sq3|apply sq3|exact H]). lra.
    - apply sqrt_le_1; [apply sq3|apply sq3|lra]. }
  unfold on_segment. cbn [vadd vsub vscale in_space]. split.
  - intros (t & Ht & H). pose proof (f_equal (coord 0) H) as H0. pose proof (f_equal (coord 1) H) as H1. pose proof (f_equal (coord 2) H) as H2. cbn [coord] in H0, H1, H2. clear H.
    assert (W : w = 0) by lra. clear H2. subst w. split; [reflexivity|]. assert (Eu : u = 1 / 2 * x - (1 - 2 * t) * y) by lra. assert (Ev : v = 1 / 2 * y + (1 - 2 * t) * x) by lra. clear H0 H1. split; [subst; lra|].
    apply F; [reflexivity|]. replace ((u - 1 / 2 * x) * (u - 1 / 2 * x) + (v - 1 / 2 * y) * (v - 1 / 2 * y)) with ((1 - 2 * t) * (1 - 2 * t) * (x * x + y * y)) by (subst; ring).
    assert (T : (1 - 2 * t) * (1 - 2 * t) <= 1) by nra. nra.
  - intros (W & H & L). subst w. specialize (F eq_refl). apply F in L. clear E F N.
    set (s := ((v - 1 / 2 * y) * x - (u - 1 / 2 * x) * y) / (x * x + y * y)).
    assert (Es : s * (x * x + y * y) = (v - 1 / 2 * y) * x - (u - 1 / 2 * x) * y) by (unfold s; field; lra).
    assert (Eu : u - 1 / 2 * x = - s * y).
    { apply (Rmult_eq_reg_r (x * x + y * y)); [|lra]. transitivity (- (s * (x * x + y * y)) * y); [rewrite Es|ring].
      transitivity ((u - 1 / 2 * x) * (x * x + y * y) - x * (u * x + v * y - 1 / 2 * (x * x + y * y))); [replace (u * x + v * y) with (1 / 2 * (x * x + y * y)) by lra; ring|ring]. }
    assert (Ev : v - 1 / 2 * y = s * x).
    { apply (Rmult_eq_reg_r (x * x + y * y)); [|lra]. transitivity ((s * (x * x + y * y)) * x); [rewrite Es|ring].
      transitivity ((v - 1 / 2 * y) * (x * x + y * y) - y * (u * x + v * y - 1 / 2 * (x * x + y * y))); [replace (u * x + v * y) with (1 / 2 * (x * x + y * y)) by lra; ring|ring]. }
    rewrite Eu, Ev in L. clearbody s.
    assert (S1 : s * s <= 1). { apply Rnot_lt_le. intros G. assert (x * x + y * y < s * s * (x * x + y * y)) by nra. lra. }
    exists ((1 - s) / 2). split; [nra|]. apply p3_eq; [| |lra].
    + transitivity (1 / 2 * x - s * y); [lra|field].
    + transitivity (1 / 2 * y + s * x); [lra|field].
Qed.
Lemma segments_eq : BZ_segments = map (fun ns => BZ_segment (comb ns BZ_Bs)) [[-1; -1]; [-1; 0]; [-1; 1]; [0; -1]; [0; 1]; [1; -1]; [1; 0]; [1; 1]]%Z.
Proof. reflexivity. Qed.
Lemma points_eq : BZ_points = map (fun ns => (ns, comb ns BZ_Bs)) [[-1; -1]; [-1; 0]; [-1; 1]; [0; -1]; [0; 0]; [0; 1]; [1; -1]; [1; 0]; [1; 1]]%Z.
Proof. reflexivity. Qed.
Lemma segment_convex A B c c' p : on_segment A B c -> on_segment A B c' -> on_segment c c' p -> on_segment A B p.
Proof.
  intros (t & Ht & ->) (t' & Ht' & ->) (s & Hs & ->). exists ((1 - s) * t + s * t'). split; [split; nra|]. destruct A as [[? ?] ?], B as [[? ?] ?]. cbn [vadd vscale]. apply p3_eq; ring.
Qed.
Lemma edge_on i ns : In (i, ns) [(0%nat, [-1; 0]); (1%nat, [0; 1]); (2%nat, [1; 1]); (3%nat, [1; 0]); (4%nat, [0; -1]); (5%nat, [-1; -1])]%Z ->
  let g := BZ_segment (comb ns BZ_Bs) in on_segment (fst g) (snd g) (nth i BZ_Ks v0) /\ on_segment (fst g) (snd g) (nth (S i mod 6) BZ_Ks v0).
Proof.
  pose proof s3_sq as Q. pose proof s3_bounds as B. intros H g. unfold g.
  repeat (destruct H as [H|H]; [injection H as <- <-; split|]); try destruct H.
  all: rewrite Bs_eq; unfold b0, b1, BZ_Ks, BZ_segment, on_segment; cbn [Nat.modulo Nat.divmod fst snd Nat.sub map nth vscale vadd vsub comb coord v0]; rewrite ?inv_s3.
  all: first [exists (1 / 2 - sqrt 3 / 12); split; [lra|]; apply p3_eq; [field [Q]|field [Q]|lra]|exists (1 / 2 + sqrt 3 / 12); split; [lra|]; apply p3_eq; [field [Q]|field [Q]|lra]].
Qed.
Lemma edges_drawn i p : (i < 6)%nat -> on_segment (nth i BZ_Ks v0) (nth (S i mod 6) BZ_Ks v0) p -> exists g, In g BZ_segments /\ on_segment (fst g) (snd g) p.
Proof.
  intros Hi H. rewrite segments_eq.
  assert (K : forall k ns, In (k, ns) [(0%nat, [-1; 0]); (1%nat, [0; 1]); (2%nat, [1; 1]); (3%nat, [1; 0]); (4%nat, [0; -1]); (5%nat, [-1; -1])]%Z ->
    In ns [[-1; -1]; [-1; 0]; [-1; 1]; [0; -1]; [0; 1]; [1; -1]; [1; 0]; [1; 1]]%Z -> on_segment (nth k BZ_Ks v0) (nth (S k mod 6) BZ_Ks v0) p ->
    exists g, In g (map (fun ns => BZ_segment (comb ns BZ_Bs)) [[-1; -1]; [-1; 0]; [-1; 1]; [0; -1]; [0; 1]; [1; -1]; [1; 0]; [1; 1]]%Z) /\ on_segment (fst g) (snd g) p).
  { intros k ns Hk Hn Hp. exists (BZ_segment (comb ns BZ_Bs)). split; [exact (in_map (fun ns => BZ_segment (comb ns BZ_Bs)) _ ns Hn)|]. destruct (edge_on k ns Hk) as [A B]. exact (segment_convex _ _ _ _ _ A B Hp). }
  destruct i as [|[|[|[|[|[|i]]]]]]; [eapply K; [|  |exact H]..|lia].
  1: instantiate (1 := [-1; 0]%Z). 3: instantiate (1 := [0; 1]%Z). 5: instantiate (1 := [1; 1]%Z). 7: instantiate (1 := [1; 0]%Z). 9: instantiate (1 := [0; -1]%Z). 11: instantiate (1 := [-1; -1]%Z).
  all: cbn; tauto.
Qed.
