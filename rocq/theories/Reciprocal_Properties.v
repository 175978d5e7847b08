(** C52: the reciprocal-space constants of the lattice database. *)
From Coq Require Import String List Reals ZArith Bool Arith Lra Lia Psatz.
From Verif Require Import Py Lattice_Model Lattice_Spec Lattice_Proofs Lattice_Proofs2 Lattice_Properties LatticeGen_Model LatticeGen_Proofs LatticeGen_Properties
  Reciprocal_Model Reciprocal_Spec Reciprocal_Proofs Zone_Proofs BrillouinZone_Proofs.
Import ListNotations.
Open Scope R_scope.

(** The reciprocal vectors: for d vectors of the d-dimensional space (d <= 3), the
    call fails exactly if they are linearly dependent, and otherwise returns the only d
    vectors of that space with b_i . a_j = 2 pi delta_ij. *)
Theorem C52_BS : forall d AS, (d <= 3)%nat -> List.length AS = d -> (forall a, In a AS -> in_space d a) ->
  (dependent AS -> BSCalculator d AS = Err LinAlgError) /\
  (~ dependent AS -> exists BS, BSCalculator d AS = Ok BS /\ dual_to AS BS /\ (forall b, In b BS -> in_space d b) /\
     forall BS', dual_to AS BS' -> (forall b, In b BS' -> in_space d b) -> BS' = BS).
Proof.
  intros d AS Hd L Hs. split.
  - intros D. destruct (BSCalculator d AS) as [BS|e] eqn:E; [|now rewrite (BSCalculator_err _ _ _ E)]. apply BSCalculator_ok in E as (_ & N & _); auto. contradiction.
  - intros N. destruct (BSCalculator_total d AS) as [BS E]; auto. exists BS. pose proof (BSCalculator_ok d AS BS Hd Hs E) as (_ & _ & D & Sb). repeat (split; [assumption|]).
    intros BS' D' Sb'. apply (dual_unique d AS); auto.
Qed.
Print Assumptions C52_BS.
Lemma BS_is d AS BS : (d <= 3)%nat -> List.length AS = d -> (forall a, In a AS -> in_space d a) -> ~ dependent AS -> dual_to AS BS -> (forall b, In b BS -> in_space d b) -> BSCalculator d AS = Ok BS.
Proof. intros Hd L Hs N D Sb. destruct (C52_BS d AS Hd L Hs) as [_ K]. destruct (K N) as (BS' & -> & _ & _ & U). now rewrite (U BS). Qed.

(** They are the attribute bs of every instance with as many translation vectors as dimensions. *)
Theorem C52_instance : forall prec d ps AS L ds, make_lattice prec (Arr d ps) (Arr d AS) = Ok (L, ds) -> List.length AS = d -> (forall a, In a AS -> in_space d a) ->
  BSCalculator d AS = Ok (bs L).
Proof.
  intros prec d ps AS L ds H La Hs. pose proof (C31_dual _ _ _ _ _ H) as (Lb & D & Sp & _).
  cbn [make_lattice] in H. destruct (Nat.ltb 3 d) eqn:E3; [discriminate|]. apply Nat.ltb_ge in E3. destruct (Nat.ltb d (List.length AS)); [discriminate|]. destruct (negb (Nat.eqb d d)); [discriminate|].
  destruct (existsb _ (pdist AS)); [discriminate|]. destruct (existsb _ (pdist ps)); [discriminate|]. destruct (solve_columns AS) as [b|e] eqn:E; [|discriminate]. injection H as <- <-. cbn [bs vectors] in *.
  pose proof (solve_columns_ok _ _ E) as (RN & _). apply BS_is; auto; [now apply rnonsingular_independent|split; auto|].
  intros x Hx. apply (In_nth _ _ v0) in Hx as (i & Hi & <-). rewrite Lb in Hi. destruct (Sp i Hi) as (xs & Lx & ->). rewrite combination_fcomb by exact Lx. now apply in_space_fcomb.
Qed.
Print Assumptions C52_instance.

(** Gamma is the centre of the first Brillouin zone. *)
Lemma shift_opp ns BS : shift (map Z.opp ns) BS = vscale (-1) (shift ns BS).
Proof.
  revert BS. induction ns as [|n ns IH]; intros [|b BS]; unfold shift in *; cbn [map combination]; try (cbn; apply p3_eq; ring). rewrite IH, opp_IZR. destruct b as [[? ?] ?], (combination (map IZR ns) BS) as [[? ?] ?]. cbn. apply p3_eq; ring.
Qed.
Theorem C52_gamma : forall d BS, centre (first_BZ d BS) (0, 0, 0) /\
  Forall (fun g => g = (0, 0, 0)) [CHAIN_CELL_GAMMA; SQUARE_CELL_GAMMA; TRIANGLE_CELL_GAMMA; HONEYCOMB_CELL_GAMMA; KAGOME_CELL_GAMMA; CUBIC_CELL_GAMMA;
    SQUARE_CROSS_GAMMA; SQUARE_Z_GAMMA; SQUARE_S_GAMMA; TRIANGLE_STAR_GAMMA; HONEYCOMB_BENZENE_GAMMA; HONEYCOMB_DIPHENYL_GAMMA; HONEYCOMB_GEAR_GAMMA].
Proof.
  intros d BS. split; [|repeat constructor]. split.
  - split; [destruct d as [|[|[|d]]]; cbn; auto|]. intros ns _. change (0, 0, 0) with v0. rewrite norm_0. apply dist_nonneg.
  - intros p [Sp K]. assert (E : vsub (vscale 2 (0, 0, 0)) p = vscale (-1) p) by (destruct p as [[? ?] ?]; cbn; apply p3_eq; ring). rewrite E. split; [now apply in_space_scale|].
    intros ns Hns. specialize (K (map Z.opp ns) ltac:(now rewrite map_length)). apply near_iff. apply near_iff in K. rewrite shift_opp in K. rewrite !vdot_scale_r, vdot_scale_l in K. rewrite vdot_scale_l. lra.
Qed.
Print Assumptions C52_gamma.

(** ** two vectors of the same length at 90, 60 and 120 degrees (lines 61-82) *)
Theorem C52_square : forall a0 a1, in_space 2 a0 -> in_space 2 a1 -> vdot a0 a0 = vdot a1 a1 -> vdot a0 a0 <> 0 -> vdot a0 a1 = 0 ->
  exists BS, BSCalculator 2 [a0; a1] = Ok BS /\
    lists (edge_middle (first_BZ 2 BS)) (dot_over SQUARE_XS_COEFF BS 2) /\ lists (corner (first_BZ 2 BS)) (dot_over SQUARE_MS_COEFF BS 2).
Proof.
  intros a0 a1 S0 S1 E N G. pose proof (vdot_nonneg a0) as P. destruct (pair_dual a0 a1 (vdot a0 a0) 0) as (b0 & b1 & B & H & _ & T0 & T1 & HB & G0 & G1 & Gm); auto; try lra.
  exists [b0; b1]. split; [exact H|]. apply (square_listed b0 b1 B); auto. rewrite Gm. ring.
Qed.
Print Assumptions C52_square.
Theorem C52_hexagon_60 : forall a0 a1, in_space 2 a0 -> in_space 2 a1 -> vdot a0 a0 = vdot a1 a1 -> vdot a0 a0 <> 0 -> vdot a0 a1 = vdot a0 a0 / 2 ->
  exists BS, BSCalculator 2 [a0; a1] = Ok BS /\
    lists (edge_middle (first_BZ 2 BS)) (dot_over HEXAGON_MS_COEFF_60 BS 2) /\ lists (corner (first_BZ 2 BS)) (dot_over HEXAGON_KS_COEFF_60 BS 3).
Proof.
  intros a0 a1 S0 S1 E N G. pose proof (vdot_nonneg a0) as P. destruct (pair_dual a0 a1 (vdot a0 a0) (1 / 2)) as (b0 & b1 & B & H & _ & T0 & T1 & HB & G0 & G1 & Gm); auto; try lra.
  exists [b0; b1]. split; [exact H|]. apply (hexagon_listed b0 b1 B); auto; [lra|tauto| |]; clear; destruct b0 as [[? ?] ?], b1 as [[? ?] ?]; cbn; repeat (apply f_equal2; [apply p3_eq; field|]); reflexivity.
Qed.
Print Assumptions C52_hexagon_60.
Lemma lists_perm P l l' : Permutation.Permutation l l' -> lists P l -> lists P l'.
Proof. intros Q [N K]. split; [eapply Permutation.Permutation_NoDup; eauto|]. intros k. rewrite K. split; apply Permutation.Permutation_in; [exact Q|now apply Permutation.Permutation_sym]. Qed.
Theorem C52_hexagon_120 : forall a0 a1, in_space 2 a0 -> in_space 2 a1 -> vdot a0 a0 = vdot a1 a1 -> vdot a0 a0 <> 0 -> vdot a0 a1 = - vdot a0 a0 / 2 ->
  exists BS, BSCalculator 2 [a0; a1] = Ok BS /\
    lists (edge_middle (first_BZ 2 BS)) (dot_over HEXAGON_MS_COEFF_120 BS 2) /\ lists (corner (first_BZ 2 BS)) (dot_over HEXAGON_KS_COEFF_120 BS 3).
Proof.
  intros a0 a1 S0 S1 E N G. pose proof (vdot_nonneg a0) as P. destruct (pair_dual a0 a1 (vdot a0 a0) (-1 / 2)) as (b0 & b1 & B & H & _ & T0 & T1 & HB & G0 & G1 & Gm); auto; try lra.
  exists [b0; b1]. split; [exact H|]. pose (b1' := vadd b1 (vscale (-1) b0)).
  assert (Q1 : vdot b1' b1' = B) by (unfold b1'; rewrite vdot_add_l, !vdot_add_r, !vdot_scale_l, !vdot_scale_r, (vdot_comm b1 b0), G0, G1, Gm; field).
  assert (Qm : vdot b0 b1' = - B / 2) by (unfold b1'; rewrite vdot_add_r, vdot_scale_r, G0, Gm; field).
  assert (T1' : in_space 2 b1') by (apply in_space_add; [|apply in_space_scale]; assumption).
  assert (Zone : forall k, first_BZ 2 [b0; b1] k <-> first_BZ 2 [b0; b1'] k).
  { intros k. split; intros [Sk K]; (split; [exact Sk|]); intros ns Hns; destruct ns as [|m [|n [|]]]; try discriminate.
    - specialize (K [m - n; n]%Z eq_refl). replace (shift [m; n] [b0; b1']) with (shift [(m - n)%Z; n] [b0; b1]); [exact K|]. unfold shift, b1'. cbn [map combination]. rewrite minus_IZR. clear. destruct b0 as [[? ?] ?], b1 as [[? ?] ?]. cbn. apply p3_eq; ring.
    - specialize (K [m + n; n]%Z eq_refl). replace (shift [m; n] [b0; b1]) with (shift [(m + n)%Z; n] [b0; b1']); [exact K|]. unfold shift, b1'. cbn [map combination]. rewrite plus_IZR. clear. destruct b0 as [[? ?] ?], b1 as [[? ?] ?]. cbn. apply p3_eq; ring. }
  destruct (hexagon_listed b0 b1' B (dot_over HEXAGON_MS_COEFF_60 [b0; b1'] 2) (dot_over HEXAGON_KS_COEFF_60 [b0; b1'] 3) (first_BZ 2 [b0; b1])) as [Ms Ks]; auto;
    try (clear; unfold b1'; destruct b0 as [[? ?] ?], b1 as [[? ?] ?]; cbn; repeat (apply f_equal2; [apply p3_eq; field|]); reflexivity).
  assert (EM : dot_over HEXAGON_MS_COEFF_60 [b0; b1'] 2 = dot_over [[1; -1]; [0; -1]; [-1; 0]; [-1; 1]; [0; 1]; [1; 0]]%Z [b0; b1] 2).
  { clear. unfold b1'. destruct b0 as [[? ?] ?], b1 as [[? ?] ?]. cbn. repeat (apply f_equal2; [apply p3_eq; field|]). reflexivity. }
  assert (EK : dot_over HEXAGON_KS_COEFF_60 [b0; b1'] 3 = dot_over [[2; -1]; [1; -2]; [-1; -1]; [-2; 1]; [-1; 2]; [1; 1]]%Z [b0; b1] 3).
  { clear. unfold b1'. destruct b0 as [[? ?] ?], b1 as [[? ?] ?]. cbn. repeat (apply f_equal2; [apply p3_eq; field|]). reflexivity. }
  rewrite EM in Ms. rewrite EK in Ks. split; (eapply lists_perm; [|eassumption]); unfold dot_over; apply Permutation.Permutation_map.
  - apply (Permutation.Permutation_cons_append [[0; -1]; [-1; 0]; [-1; 1]; [0; 1]; [1; 0]]%Z [1; -1]%Z).
  - apply (Permutation.Permutation_cons_append [[1; -2]; [-1; -1]; [-2; 1]; [-1; 2]; [1; 1]]%Z [2; -1]%Z).
Qed.
Print Assumptions C52_hexagon_120.

(** ** the constants *)
(** The square first Brillouin zones: X the middles of the edges, M the corners. *)
Theorem C52_square_constants : forall c BS XS MS,
  In (c, BS, XS, MS) [(square_cell, SQUARE_CELL_BS, SQUARE_CELL_XS, SQUARE_CELL_MS); (square_z, SQUARE_Z_BS, SQUARE_Z_XS, SQUARE_Z_MS); (square_s, SQUARE_S_BS, SQUARE_S_XS, SQUARE_S_MS)] ->
  exists bs xs ms, BS = Ok bs /\ XS = Ok xs /\ MS = Ok ms /\ dual_to (cvectors c) bs /\ lists (edge_middle (first_BZ 2 bs)) xs /\ lists (corner (first_BZ 2 bs)) ms.
Proof.
  intros c BS XS MS H.
  assert (K : forall a0 a1, c = Cell 2 (cpoints c) [a0; a1] -> in_space 2 a0 -> in_space 2 a1 -> vdot a0 a0 = vdot a1 a1 -> vdot a0 a0 <> 0 -> vdot a0 a1 = 0 ->
    exists bs xs ms, BS_of c = Ok bs /\ points_of SQUARE_XS_COEFF 2 c = Ok xs /\ points_of SQUARE_MS_COEFF 2 c = Ok ms /\ dual_to (cvectors c) bs /\ lists (edge_middle (first_BZ 2 bs)) xs /\ lists (corner (first_BZ 2 bs)) ms).
  { intros a0 a1 E S0 S1 L N G. destruct (C52_square a0 a1 S0 S1 L N G) as (bs & Hb & X & M). rewrite E. unfold points_of, BS_of. cbn [cdim cvectors]. rewrite Hb. cbn [bind]. exists bs. do 2 eexists. repeat (split; [reflexivity|]). split; [|split; eassumption].
    apply (BSCalculator_ok 2 [a0; a1]); auto. intros a [<-|[<-|[]]]; assumption. }
  cbn [In] in H. repeat destruct H as [H|H]; try contradiction; injection H as <- <- <- <-; (eapply K; [reflexivity|..]); cbn; lra.
Qed.
Print Assumptions C52_square_constants.
(** The hexagonal ones: M the middles of the edges, K the corners. *)
Theorem C52_hexagon_constants : forall c BS MS KS,
  In (c, BS, MS, KS) [(triangle_cell, TRIANGLE_CELL_BS, TRIANGLE_CELL_MS, TRIANGLE_CELL_KS); (honeycomb_cell, HONEYCOMB_CELL_BS, HONEYCOMB_CELL_MS, HONEYCOMB_CELL_KS);
    (kagome_cell, KAGOME_CELL_BS, KAGOME_CELL_MS, KAGOME_CELL_KS); (triangle_star, TRIANGLE_STAR_BS, TRIANGLE_STAR_MS, TRIANGLE_STAR_KS);
    (honeycomb_benzene, HONEYCOMB_BENZENE_BS, HONEYCOMB_BENZENE_MS, HONEYCOMB_BENZENE_KS); (honeycomb_gear, HONEYCOMB_GEAR_BS, HONEYCOMB_GEAR_MS, HONEYCOMB_GEAR_KS)] ->
  exists bs ms ks, BS = Ok bs /\ MS = Ok ms /\ KS = Ok ks /\ dual_to (cvectors c) bs /\ lists (edge_middle (first_BZ 2 bs)) ms /\ lists (corner (first_BZ 2 bs)) ks.
Proof.
  intros c BS MS KS H. pose proof s3_sq as Q3. pose proof s3_pos as P3.
  assert (K : forall a0 a1, c = Cell 2 (cpoints c) [a0; a1] -> in_space 2 a0 -> in_space 2 a1 -> vdot a0 a0 = vdot a1 a1 -> vdot a0 a0 <> 0 -> vdot a0 a1 = vdot a0 a0 / 2 ->
    exists bs ms ks, BS_of c = Ok bs /\ points_of HEXAGON_MS_COEFF_60 2 c = Ok ms /\ points_of HEXAGON_KS_COEFF_60 3 c = Ok ks /\ dual_to (cvectors c) bs /\ lists (edge_middle (first_BZ 2 bs)) ms /\ lists (corner (first_BZ 2 bs)) ks).
  { intros a0 a1 E S0 S1 L N G. destruct (C52_hexagon_60 a0 a1 S0 S1 L N G) as (bs & Hb & X & M). rewrite E. unfold points_of, BS_of. cbn [cdim cvectors]. rewrite Hb. cbn [bind]. exists bs. do 2 eexists. repeat (split; [reflexivity|]). split; [|split; eassumption].
    apply (BSCalculator_ok 2 [a0; a1]); auto. intros a [<-|[<-|[]]]; assumption. }
  cbn [In] in H. repeat destruct H as [H|H]; try contradiction; injection H as <- <- <- <-; (eapply K; [reflexivity|..]); cbn [in_space vdot]; try reflexivity; lra.
Qed.
Print Assumptions C52_hexagon_constants.

(** ** chain and cube *)
Lemma PI_scale_inj u v : vscale PI u = vscale PI v -> u = v.
Proof. destruct u as [[x y] z], v as [[x' y'] z']. pose proof PI_RGT_0. cbn. rewrite !point_inj. intros (A & B & C). repeat split; apply (Rmult_eq_reg_l PI); lra. Qed.
Lemma PI_scale_add u v : vscale PI (vadd u v) = vadd (vscale PI u) (vscale PI v). Proof. vring. Qed.
Lemma PI_scale_scale c u : vscale PI (vscale c u) = vscale c (vscale PI u). Proof. vring. Qed.
Lemma PI_div u : u = vscale PI (vscale (/ PI) u).
Proof. pose proof PI_RGT_0. destruct u as [[? ?] ?]. cbn. apply p3_eq; field; lra. Qed.
Lemma chain_bs : CHAIN_CELL_BS = Ok [(2 * PI, 0, 0)].
Proof.
  apply BS_is; try (cbn; lia); try reflexivity.
  - intros a [<-|[]]. cbn. lra.
  - intros (xs & L & (x & Hx & Nx) & E). destruct xs as [|s [|]]; try discriminate. cbn in E. apply point_inj in E. destruct Hx as [<-|[]]. apply Nx. lra.
  - split; [reflexivity|]. intros [|i] [|j] Hi Hj; cbn in Hi, Hj; try lia. cbn. ring.
  - intros b [<-|[]]. cbn. lra.
Qed.
(** The chain: E are the two end points of the first Brillouin zone. *)
Theorem C52_chain_constants : exists bs es, CHAIN_CELL_BS = Ok bs /\ CHAIN_CELL_ES = Ok es /\ dual_to (cvectors chain_cell) bs /\ lists (corner (first_BZ 1 bs)) es.
Proof.
  exists [(2 * PI, 0, 0)], [(- PI, 0, 0); (PI, 0, 0)]. split; [exact chain_bs|]. split.
  - unfold CHAIN_CELL_ES, points_of. change (BS_of chain_cell) with CHAIN_CELL_BS. rewrite chain_bs. cbn. f_equal. repeat (apply f_equal2; [apply p3_eq; field|]). reflexivity.
  - split; [split; [reflexivity|]; intros [|i] [|j] Hi Hj; cbn in Hi, Hj; try lia; cbn; ring|].
    pose proof PI_RGT_0 as Pi. apply (corners_listed 1 (vscale PI) _ interval PI_scale_add PI_scale_scale) with (l' := [(-1, 0, 0); (1, 0, 0)]).
    + intros. now apply PI_scale_inj.
    + intros [[x y] z]. cbn. tauto.
    + intros k. split.
      * intros [Sk K]. exists (vscale (/ PI) k). split; [|apply PI_div]. destruct k as [[x y] z]. cbn in Sk. destruct Sk as [-> ->]. cbn. split; [|split; ring].
        pose proof (K [1%Z] eq_refl) as K1. pose proof (K [(-1)%Z] eq_refl) as K2. apply near_iff in K1, K2. cbn in K1, K2.
        assert (B1 : x <= PI) by nra. assert (B2 : - PI <= x) by nra. unfold bounded. assert (Pinv : 0 < / PI) by (now apply Rinv_0_lt_compat).
        assert (I1 : / PI * PI = 1) by (field; lra). split; nra.
      * intros (u & Hu & ->). destruct u as [[x y] z]. destruct Hu as (Bx & -> & ->). unfold bounded in Bx. split; [cbn; lra|]. intros ns Hns. destruct ns as [|n [|]]; try discriminate. apply near_iff. unfold shift. cbn [map combination vscale vadd vdot v0].
        assert (Hn : IZR n * x <= IZR n * IZR n) by (pose proof (proj1 (box2_lin x 0)) as A; specialize (A ltac:(cbn; unfold bounded; slra) n 0%Z); lra). assert (0 < PI * PI) by nra. nra.
    + cbn. repeat (apply f_equal2; [apply p3_eq; ring|]). reflexivity.
    + exact interval_corners.
Qed.
Print Assumptions C52_chain_constants.

Lemma cubic_bs : CUBIC_CELL_BS = Ok [(2 * PI, 0, 0); (0, 2 * PI, 0); (0, 0, 2 * PI)].
Proof.
  apply BS_is; try (cbn; lia); try reflexivity.
  - intros a Ha. cbn in Ha. destruct a as [[? ?] ?]. exact I.
  - intros (xs & L & (x & Hx & Nx) & E). destruct xs as [|s [|t [|w [|]]]]; try discriminate. cbn in E. apply point_inj in E. destruct Hx as [<-|[<-|[<-|[]]]]; apply Nx; lra.
  - split; [reflexivity|]. intros [|[|[|i]]] [|[|[|j]]] Hi Hj; cbn in Hi, Hj; try lia; cbn; ring.
  - intros [[? ?] ?] _. exact I.
Qed.
Lemma cubic_shift l m n : shift [l; m; n] [(2 * PI, 0, 0); (0, 2 * PI, 0); (0, 0, 2 * PI)] = (2 * PI * IZR l, 2 * PI * IZR m, 2 * PI * IZR n).
Proof. unfold shift. cbn. apply p3_eq; ring. Qed.
Lemma cubic_centres : forall k, face_centre [(2 * PI, 0, 0); (0, 2 * PI, 0); (0, 0, 2 * PI)] k <-> In k [(- PI, 0, 0); (PI, 0, 0); (0, - PI, 0); (0, PI, 0); (0, 0, - PI); (0, 0, PI)].
Proof.
  intros k. pose proof PI_RGT_0 as Pi. assert (PP : 0 < 4 * (PI * PI)) by nra.
  assert (Far : forall a b c l m n, norm (PI * IZR a, PI * IZR b, PI * IZR c) < dist (PI * IZR a, PI * IZR b, PI * IZR c) (shift [l; m; n] [(2 * PI, 0, 0); (0, 2 * PI, 0); (0, 0, 2 * PI)]) <-> (a * l + b * m + c * n < l * l + m * m + n * n)%Z).
  { intros a b c l m n. rewrite nearer_iff, cubic_shift. cbn [vdot].
    replace (2 * (PI * IZR a * (2 * PI * IZR l) + PI * IZR b * (2 * PI * IZR m) + PI * IZR c * (2 * PI * IZR n))) with (4 * (PI * PI) * IZR (a * l + b * m + c * n)) by (rewrite !plus_IZR, !mult_IZR; ring).
    replace (2 * PI * IZR l * (2 * PI * IZR l) + 2 * PI * IZR m * (2 * PI * IZR m) + 2 * PI * IZR n * (2 * PI * IZR n)) with (4 * (PI * PI) * IZR (l * l + m * m + n * n)) by (rewrite !plus_IZR, !mult_IZR; ring).
    split; intros H; [apply Rmult_lt_reg_l in H; [now apply lt_IZR|exact PP]|apply Rmult_lt_compat_l; [exact PP|now apply IZR_lt]]. }
  split.
  - intros (ns & L & (x & Hx & Nx) & -> & K). destruct ns as [|a [|b [|c [|]]]]; try discriminate.
    assert (E : vscale (1 / 2) (shift [a; b; c] [(2 * PI, 0, 0); (0, 2 * PI, 0); (0, 0, 2 * PI)]) = (PI * IZR a, PI * IZR b, PI * IZR c)) by (rewrite cubic_shift; cbn; apply p3_eq; field). rewrite E in *.
    assert (K' : forall l m n, [l; m; n] <> [a; b; c] -> (l <> 0 \/ m <> 0 \/ n <> 0)%Z -> (a * l + b * m + c * n < l * l + m * m + n * n)%Z).
    { intros l m n N0 N1. apply Far, K; [reflexivity|exact N0|]. destruct N1 as [?|[?|?]]; eexists; (split; [|eassumption]); cbn; auto. }
    assert (Ca : (a = 0 \/ [Z.sgn a; 0; 0] = [a; b; c])%Z).
    { destruct (Z.eq_dec a 0) as [|Na]; [auto|]. right. destruct (list_eq_dec Z.eq_dec [Z.sgn a; 0; 0]%Z [a; b; c]) as [|N]; [assumption|]. exfalso. specialize (K' (Z.sgn a) 0%Z 0%Z N ltac:(lia)). nia. }
    assert (Cb : (b = 0 \/ [0; Z.sgn b; 0] = [a; b; c])%Z).
    { destruct (Z.eq_dec b 0) as [|Nb]; [auto|]. right. destruct (list_eq_dec Z.eq_dec [0; Z.sgn b; 0]%Z [a; b; c]) as [|N]; [assumption|]. exfalso. specialize (K' 0%Z (Z.sgn b) 0%Z N ltac:(lia)). nia. }
    assert (Cc : (c = 0 \/ [0; 0; Z.sgn c] = [a; b; c])%Z).
    { destruct (Z.eq_dec c 0) as [|Nc]; [auto|]. right. destruct (list_eq_dec Z.eq_dec [0; 0; Z.sgn c]%Z [a; b; c]) as [|N]; [assumption|]. exfalso. specialize (K' 0%Z 0%Z (Z.sgn c) N ltac:(lia)). nia. }
    assert (Cs : ((a = 1 \/ a = -1) /\ b = 0 /\ c = 0 \/ (b = 1 \/ b = -1) /\ a = 0 /\ c = 0 \/ (c = 1 \/ c = -1) /\ a = 0 /\ b = 0)%Z).
    { assert (Nz : (a <> 0 \/ b <> 0 \/ c <> 0)%Z) by (destruct Hx as [<-|[<-|[<-|[]]]]; auto).
      destruct Ca as [Ca|Ca]; [|injection Ca as Ca Cb' Cc'; lia]. destruct Cb as [Cb|Cb]; [|injection Cb as Cb' Cb Cc'; lia]. destruct Cc as [Cc|Cc]; [|injection Cc as Cc' Cb' Cc; lia]. lia. }
    cbn [In]. destruct Cs as [([-> | ->] & -> & ->)|[([-> | ->] & -> & ->)|([-> | ->] & -> & ->)]].
    + right; left. apply p3_eq; ring.
    + left. apply p3_eq; ring.
    + right; right; right; left. apply p3_eq; ring.
    + right; right; left. apply p3_eq; ring.
    + do 5 right; left. apply p3_eq; ring.
    + do 4 right; left. apply p3_eq; ring.
  - assert (K : forall a b c, (a * a + b * b + c * c = 1)%Z -> face_centre [(2 * PI, 0, 0); (0, 2 * PI, 0); (0, 0, 2 * PI)] (PI * IZR a, PI * IZR b, PI * IZR c)).
    { intros a b c H. exists [a; b; c]. split; [reflexivity|]. split.
      - destruct (Z.eq_dec a 0) as [-> |Na]; [|exists a; cbn; auto]. destruct (Z.eq_dec b 0) as [-> |Nb]; [|exists b; cbn; auto]. exists c. split; [cbn; auto|]. intros ->. lia.
      - split; [rewrite cubic_shift; cbn; apply p3_eq; field|]. intros ms Lm Nm (x & Hx & Nx). destruct ms as [|l [|m [|n [|]]]]; try discriminate. apply Far.
        assert (Nz : (l <> 0 \/ m <> 0 \/ n <> 0)%Z) by (destruct Hx as [<-|[<-|[<-|[]]]]; auto).
        assert (Sq : (1 <= l * l + m * m + n * n)%Z) by nia.
        pose proof (Z.square_nonneg (a - l)). pose proof (Z.square_nonneg (b - m)). pose proof (Z.square_nonneg (c - n)).
        assert (Ne : ((a - l) * (a - l) + (b - m) * (b - m) + (c - n) * (c - n) <> 0)%Z).
        { intros Z0. apply Nm. assert (A1 : ((a - l) * (a - l) = 0)%Z) by lia. assert (A2 : ((b - m) * (b - m) = 0)%Z) by lia. assert (A3 : ((c - n) * (c - n) = 0)%Z) by lia.
          apply Z.mul_eq_0 in A1, A2, A3. assert (l = a) by lia. assert (m = b) by lia. assert (n = c) by lia. congruence. }
        assert (X : ((a - l) * (a - l) + (b - m) * (b - m) + (c - n) * (c - n) = a * a + b * b + c * c + (l * l + m * m + n * n) - 2 * (a * l + b * m + c * n))%Z) by ring. lia. }
    intros H. cbn [In] in H. repeat destruct H as [H|H]; try contradiction; subst k.
    + replace (- PI, 0, 0) with (PI * IZR (-1), PI * IZR 0, PI * IZR 0) by (apply p3_eq; ring). now apply K.
    + replace (PI, 0, 0) with (PI * IZR 1, PI * IZR 0, PI * IZR 0) by (apply p3_eq; ring). now apply K.
    + replace (0, - PI, 0) with (PI * IZR 0, PI * IZR (-1), PI * IZR 0) by (apply p3_eq; ring). now apply K.
    + replace (0, PI, 0) with (PI * IZR 0, PI * IZR 1, PI * IZR 0) by (apply p3_eq; ring). now apply K.
    + replace (0, 0, - PI) with (PI * IZR 0, PI * IZR 0, PI * IZR (-1)) by (apply p3_eq; ring). now apply K.
    + replace (0, 0, PI) with (PI * IZR 0, PI * IZR 0, PI * IZR 1) by (apply p3_eq; ring). now apply K.
Qed.
Lemma cubic_zone k : first_BZ 3 [(2 * PI, 0, 0); (0, 2 * PI, 0); (0, 0, 2 * PI)] k <-> exists u, box3 u /\ k = vscale PI u.
Proof.
  pose proof PI_RGT_0 as Pi. assert (Pinv : 0 < / PI) by (now apply Rinv_0_lt_compat). assert (I1 : / PI * PI = 1) by (field; lra). split.
  - intros [_ K]. exists (vscale (/ PI) k). split; [|apply PI_div]. destruct k as [[x y] z].
    pose proof (K [1; 0; 0]%Z eq_refl) as K1. pose proof (K [-1; 0; 0]%Z eq_refl) as K2. pose proof (K [0; 1; 0]%Z eq_refl) as K3. pose proof (K [0; -1; 0]%Z eq_refl) as K4. pose proof (K [0; 0; 1]%Z eq_refl) as K5. pose proof (K [0; 0; -1]%Z eq_refl) as K6.
    rewrite cubic_shift in K1, K2, K3, K4, K5, K6. apply near_iff in K1, K2, K3, K4, K5, K6. cbn [vdot] in *. clear K. cbn. unfold bounded.
    assert (x <= PI) by nra. assert (- PI <= x) by nra. assert (y <= PI) by nra. assert (- PI <= y) by nra. assert (z <= PI) by nra. assert (- PI <= z) by nra. clear K1 K2 K3 K4 K5 K6. repeat split; nra.
  - intros ([[x y] z] & (Bx & By & Bz) & ->). split; [exact I|]. intros ns Hns. destruct ns as [|l [|m [|n [|]]]]; try discriminate. apply near_iff. rewrite cubic_shift. cbn [vscale vdot].
    assert (S1 : forall (n : Z) x, bounded x -> IZR n * x <= IZR n * IZR n) by (intros n0 x0 B0; pose proof (proj1 (box2_lin x0 0)) as A; specialize (A ltac:(cbn; unfold bounded in *; slra) n0 0%Z); lra).
    pose proof (S1 l x Bx). pose proof (S1 m y By). pose proof (S1 n z Bz). assert (0 < PI * PI) by nra. 
    replace (2 * (PI * x * (2 * PI * IZR l) + PI * y * (2 * PI * IZR m) + PI * z * (2 * PI * IZR n))) with (4 * (PI * PI) * (IZR l * x + IZR m * y + IZR n * z)) by ring.
    replace (2 * PI * IZR l * (2 * PI * IZR l) + 2 * PI * IZR m * (2 * PI * IZR m) + 2 * PI * IZR n * (2 * PI * IZR n)) with (4 * (PI * PI) * (IZR l * IZR l + IZR m * IZR m + IZR n * IZR n)) by ring.
    apply Rmult_le_compat_l; lra.
Qed.
Lemma box3_space : forall u, box3 u -> in_space 3 u. Proof. intros [[x y] z] _. exact I. Qed.
(** The cube: X the centres of the surfaces, M the middles of the edges, K the corners. *)
Theorem C52_cubic_constants : exists bs xs ms ks, CUBIC_CELL_BS = Ok bs /\ CUBIC_CELL_XS = Ok xs /\ CUBIC_CELL_MS = Ok ms /\ CUBIC_CELL_KS = Ok ks /\ dual_to (cvectors cubic_cell) bs /\
  lists (face_centre bs) xs /\ lists (edge_middle (first_BZ 3 bs)) ms /\ lists (corner (first_BZ 3 bs)) ks.
Proof.
  exists [(2 * PI, 0, 0); (0, 2 * PI, 0); (0, 0, 2 * PI)], [(- PI, 0, 0); (PI, 0, 0); (0, - PI, 0); (0, PI, 0); (0, 0, - PI); (0, 0, PI)]. do 2 eexists.
  unfold CUBIC_CELL_XS, CUBIC_CELL_MS, CUBIC_CELL_KS, points_of. change (BS_of cubic_cell) with CUBIC_CELL_BS. rewrite cubic_bs. cbn [bind].
  split; [reflexivity|]. split; [cbn; f_equal; repeat (apply f_equal2; [apply p3_eq; field|]); reflexivity|]. split; [reflexivity|]. split; [reflexivity|].
  split; [split; [reflexivity|]; intros [|[|[|i]]] [|[|[|j]]] Hi Hj; cbn in Hi, Hj; try lia; cbn; ring|]. pose proof PI_RGT_0 as Pi. split; [split; [pt_nodup|exact cubic_centres]|]. split.
  - eapply (edges_listed 3 (vscale PI) _ box3 PI_scale_add PI_scale_scale); [intros; now apply PI_scale_inj|exact box3_space|exact cubic_zone| |exact box3_edges].
    cbn. repeat (apply f_equal2; [apply p3_eq; field|]). reflexivity.
  - eapply (corners_listed 3 (vscale PI) _ box3 PI_scale_add PI_scale_scale); [intros; now apply PI_scale_inj|exact box3_space|exact cubic_zone| |exact box3_corners].
    cbn. repeat (apply f_equal2; [apply p3_eq; field|]). reflexivity.
Qed.
Print Assumptions C52_cubic_constants.
(** The two clusters without named points of the zone: their reciprocal vectors. *)
Theorem C52_other_constants : (exists bs, SQUARE_CROSS_BS = Ok bs /\ dual_to (cvectors square_cross) bs) /\ (exists bs, HONEYCOMB_DIPHENYL_BS = Ok bs /\ dual_to (cvectors honeycomb_diphenyl) bs).
Proof.
  assert (K : forall c a0 a1, cdim c = 2%nat -> cvectors c = [a0; a1] -> in_space 2 a0 -> in_space 2 a1 -> vdot a0 a0 * vdot a1 a1 - vdot a0 a1 * vdot a0 a1 <> 0 -> exists bs, BS_of c = Ok bs /\ dual_to (cvectors c) bs).
  { intros c a0 a1 Hd E S0 S1 N. unfold BS_of. rewrite Hd, E. destruct (C52_BS 2 [a0; a1]) as [_ X]; auto; [intros a [<-|[<-|[]]]; assumption|]. destruct X as (bs & H & D & _); [now apply pair_independent|]. eauto. }
  pose proof s3_sq as Q3. pose proof s3_pos as P3. split; (eapply K; [reflexivity|reflexivity|reflexivity|reflexivity|]); cbn [vdot]; [lra|].
  intros E. nra.
Qed.
Print Assumptions C52_other_constants.
