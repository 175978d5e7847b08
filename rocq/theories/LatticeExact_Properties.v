(** C37: all six lattices: distances and bonds for real lengths, when the n-th
    distance is not lowered by rounding it. *)
From Coq Require Import String List Reals ZArith Bool Arith Lra Lia Permutation Sorting.Sorted.
From Flocq Require Import Core.Raux.
From Verif Require Import Py CVec LinSolve Line2D_Model Line2D_Proofs Lattice_Model Lattice_Spec Lattice_Proofs Lattice_Proofs2 Lattice_Proofs3 Lattice_Properties LatticeCases_Properties
  Neighbors_Spec Neighbors_Proofs Neighbors_Proofs2 Neighbors_Properties NeighborsCases_Properties LatticeBonds_Spec LatticeBonds_Proofs LatticeBonds_Proofs2 LatticeBonds_Properties LatticeGen_Model LatticeGen_Spec LatticeGen_Proofs LatticeGen_Properties
  LatticeBondsCases_Properties LatticeHex_Proofs LatticeNice_Properties LatticeNearest_Spec LatticeNearest_Properties LatticeNearest2_Properties LatticeChain_Properties LatticeSquare_Spec LatticeSquare_Properties LatticeExact_Spec.
Import ListNotations.
Open Scope R_scope.

Lemma level_gap prec (q : R) (M K : Z) : (1 <= prec)%nat -> 1 / 4 <= q -> (0 <= M < K)%Z -> rounded prec (sqrt (IZR M * q)) <= zoom prec / 24 ->
  rounded prec (sqrt (IZR M * q)) + 2 * view prec <= rounded prec (sqrt (IZR K * q)).
Proof.
  intros Hp Hq [M0 MK] B. pose proof (zoom10 prec Hp) as Z10. pose proof (rounded_near prec (sqrt (IZR M * q))) as Nr. apply Rabs_le_inv in Nr. pose proof (view_tenth prec Hp) as VT. pose proof (view_pos prec) as VP. pose proof (zoom_view prec) as ZV.
  assert (IM0 : 0 <= IZR M) by (apply IZR_le; lia). assert (K1 : IZR M + 1 <= IZR K) by (rewrite <- plus_IZR; apply IZR_le; lia).
  assert (P1 : 0 <= IZR M * q) by (apply Rmult_le_pos; lra). assert (P2 : 0 <= IZR K * q) by (apply Rmult_le_pos; lra). assert (P3 : IZR M * q + 1 / 4 <= IZR K * q) by nra.
  set (a := sqrt (IZR M * q)) in *. set (b := sqrt (IZR K * q)) in *. set (Z := zoom prec) in *.
  assert (A0 : 0 <= a) by apply sqrt_pos. assert (B0 : 0 <= b) by apply sqrt_pos.
  assert (A2 : a * a = IZR M * q) by (now apply sqrt_sqrt). assert (B2 : b * b = IZR K * q) by (now apply sqrt_sqrt).
  assert (G : a * Z + 2 < b * Z).
  { assert (D : 2 / Z < b - a); [|apply Rmult_lt_compat_r with (r := Z) in D; [|lra]; unfold Rdiv in D; rewrite Rmult_assoc, Rinv_l in D by lra; lra].
    apply Rnot_le_lt. intros C. assert (IZ : / Z <= / 10) by (apply Rinv_le_contravar; lra). assert (IP : 0 < / Z) by (apply Rinv_0_lt_compat; lra).
    assert (ZI : Z * / Z = 1) by (apply Rinv_r; lra). assert (Eb : b <= a + 2 * / Z) by (unfold Rdiv in C; lra).
    assert (S1 : b * b <= (a + 2 * / Z) * (a + 2 * / Z)) by (apply Rmult_le_compat; lra).
    assert (VZ : view prec = / Z) by (unfold view; reflexivity).
    assert (Ea : a <= Z / 24 + / Z / 2) by lra.
    assert (S2 : a * / Z <= (Z / 24 + / Z / 2) * / Z) by (apply Rmult_le_compat_r; lra).
    assert (S3 : (Z / 24 + / Z / 2) * / Z = / 24 + / 2 * (/ Z * / Z)) by (unfold Rdiv; nra).
    assert (S4 : / Z * / Z <= / 10 * / 10) by (apply Rmult_le_compat; lra).
    assert (S5 : (a + 2 * / Z) * (a + 2 * / Z) = a * a + 4 * (a * / Z) + 4 * (/ Z * / Z)) by ring. lra. }
  assert (R2 : (rint (a * Z) + 2 <= rint (b * Z))%Z).
  { pose proof (rint_half (a * Z)) as Ra. pose proof (rint_half (b * Z)) as Rb. apply Rabs_le_inv in Ra. apply Rabs_le_inv in Rb.
    assert (L1 : IZR (rint (a * Z) + 1) < IZR (rint (b * Z))) by (rewrite plus_IZR; lra). apply lt_IZR in L1. lia. }
  unfold rounded. fold Z. apply IZR_le in R2. rewrite plus_IZR in R2. apply Rmult_le_compat_r with (r := / Z) in R2; [|left; apply Rinv_0_lt_compat; lra].
  replace (view prec) with (/ Z) by (unfold view; reflexivity). unfold Rdiv. lra.
Qed.

Section Levels.
  Variables (prec : nat) (L : lattice) (q : R).
  Hypothesis Hpr : (1 <= prec)%nat.
  Hypothesis Hq : 1 / 4 <= q.
  Hypothesis Root : forall x, lattice_distance L x -> exists M, (0 <= M)%Z /\ x = sqrt (IZR M * q).
  Lemma level_keeps x y : lattice_distance L x -> lattice_distance L y -> rounded prec x <= zoom prec / 24 -> x < y -> rounded prec x + 2 * view prec <= rounded prec y.
  Proof.
    intros Hx Hy B Lt. destruct (Root x Hx) as (M & M0 & ->). destruct (Root y Hy) as (K & K0 & ->). apply (level_gap prec q M K Hpr Hq); [|exact B]. split; [exact M0|].
    destruct (Z.lt_ge_cases M K) as [C|C]; [exact C|exfalso]. apply IZR_le in C. assert (D : IZR K * q <= IZR M * q) by (apply Rmult_le_compat_r; lra). apply sqrt_le_1_alt in D. lra.
  Qed.
  Lemma level_iff x y : lattice_distance L x -> lattice_distance L y -> rounded prec x <= zoom prec / 24 ->
    (rounded prec y <= rounded prec x <-> y <= x) /\ (rounded prec y = rounded prec x <-> y = x).
  Proof.
    intros Hx Hy B. pose proof (view_pos prec) as VP. destruct (Rtotal_order x y) as [Lt|[->|Gt]].
    - pose proof (level_keeps x y Hx Hy B Lt). split; split; intros; exfalso; lra.
    - split; split; intros; lra.
    - assert (By : rounded prec y <= zoom prec / 24) by (apply Rle_trans with (rounded prec x); [apply rounded_le; lra|exact B]). pose proof (level_keeps y x Hy Hx By Gt). split; split; intros; lra.
  Qed.
  Lemma level_next x : lattice_distance L x -> rounded prec x <= zoom prec / 24 -> ~ rounded_distance prec L (rounded prec x + view prec).
  Proof.
    intros Hx B (y & Hy & E). pose proof (view_pos prec) as VP. change (IZR (rint (y * zoom prec)) / zoom prec) with (rounded prec y) in E. destruct (Rle_lt_dec y x) as [C|C].
    - apply (rounded_le prec) in C. lra.
    - pose proof (level_keeps x y Hx Hy B C). lra.
  Qed.
  Lemma level_exact n x : lattice_distance L x -> rounded prec x <= zoom prec / 24 -> nth_distance prec L n (rounded prec x) -> exact_nth L n x.
  Proof.
    intros Hx B (_ & l & Nl & Ll & Hl). split; [exact Hx|]. pose proof (view_pos prec) as VP.
    assert (Ex : exists l2, map (rounded prec) l2 = l /\ forall y, In y l2 -> lattice_distance L y).
    { assert (Hall : forall u, In u l -> exists y, lattice_distance L y /\ u = rounded prec y) by (intros u Hu; apply Hl in Hu as [(y & Hy & E) _]; now exists y).
      clear - Hall. induction l as [|u l IH]; [exists []; split; [reflexivity|intros y []]|]. destruct IH as (l2 & E & A); [intros v Hv; apply Hall; now right|]. destruct (Hall u (or_introl eq_refl)) as (y & Hy & ->).
      exists (y :: l2). split; [cbn [map]; now rewrite E|]. intros w [<-|Hw]; [exact Hy|now apply A]. }
    destruct Ex as (l2 & E2 & A2). exists l2. split; [apply (NoDup_map_inv (rounded prec)); now rewrite E2|]. split; [rewrite <- Ll, <- E2; now rewrite map_length|]. intros u. split.
    - intros Hu. pose proof (A2 u Hu) as Du. split; [exact Du|]. assert (Iu : In (rounded prec u) l) by (rewrite <- E2; now apply in_map). apply Hl in Iu as [_ Lt]. apply Rnot_le_lt. intros C. apply (rounded_le prec) in C. lra.
    - intros [Du Lt]. assert (Bu : rounded prec u <= zoom prec / 24) by (apply Rle_trans with (rounded prec x); [apply rounded_le; lra|exact B]).
      assert (Iu : In (rounded prec u) l). { apply Hl. split; [now exists u|]. pose proof (level_keeps u x Du Hx Bu Lt). lra. }
      rewrite <- E2 in Iu. apply in_map_iff in Iu as (w & Ew & Hw). destruct (level_iff u w Du (A2 w Hw) Bu) as [_ K]. apply K in Ew. now subst w.
  Qed.
  Lemma level_rounded n x : exact_nth L n x -> rounded prec x <= zoom prec / 24 -> nth_distance prec L n (rounded prec x).
  Proof.
    intros (Hx & l & Nl & Ll & Hl) B. pose proof (view_pos prec) as VP. split; [now exists x|].
    assert (Bu : forall u, In u l -> lattice_distance L u /\ u < x /\ rounded prec u <= zoom prec / 24).
    { intros u Hu. apply Hl in Hu as [Du Lt]. split; [exact Du|]. split; [exact Lt|]. apply Rle_trans with (rounded prec x); [apply rounded_le; lra|exact B]. }
    exists (map (rounded prec) l). split; [|split; [now rewrite map_length|]].
    - clear - Nl Bu Hpr Hq Root. induction Nl as [|a l Ha Nl IH]; [constructor|]. cbn [map]. constructor; [|apply IH; intros u Hu; apply Bu; now right].
      intros Hin. apply in_map_iff in Hin as (w & Ew & Hw). destruct (Bu a (or_introl eq_refl)) as (Da & _ & Ba). destruct (Bu w (or_intror Hw)) as (Dw & _ & _). apply (level_iff a w Da Dw Ba) in Ew. now subst w.
    - intros u. rewrite in_map_iff. split.
      + intros (w & <- & Hw). destruct (Bu w Hw) as (Dw & Lt & Bw). split; [now exists w|]. pose proof (level_keeps w x Dw Hx Bw Lt). lra.
      + intros [(w & Dw & ->) Lt]. change (IZR (rint (w * zoom prec)) / zoom prec) with (rounded prec w) in *. exists w. split; [reflexivity|]. apply Hl. split; [exact Dw|]. apply Rnot_le_lt. intros C. apply (rounded_le prec) in C. lra.
  Qed.
  (** the search window: nothing is lost unless the distance was lowered *)
  Lemma level_reach x k : lattice_distance L x -> rounded prec x <= zoom prec / 24 -> x <= rounded prec x -> valid L k -> rounded prec x < len L k <= rounded prec x + view prec -> False.
  Proof.
    intros Hx B Up Vk [A1 A2]. assert (Dk : lattice_distance L (len L k)) by (apply dist_link; now exists k). pose proof (view_pos prec) as VP.
    pose proof (level_keeps x (len L k) Hx Dk B ltac:(lra)). pose proof (rounded_near prec (len L k)) as N. apply Rabs_le_inv in N. lra.
  Qed.
End Levels.

(** Two sites of the infinite lattice are at a distance of the cluster. *)
Lemma site_distance c L a ms b ks : tiles c L -> is_site c a ms -> is_site c b ks -> lattice_distance L (dist (site c a ms) (site c b ks)).
Proof.
  intros [_ Cov] Ha Hb. destruct (Cov a ms Ha) as (i & Ms & (Hi & Li & Ei) & _). destruct (Cov b ks Hb) as (j & Ks & (Hj & Lj & Ej) & _). rewrite <- Ei, <- Ej.
  exists (nth i (points L) v0), (nth j (points L) v0), (map (fun p => (fst p - snd p)%Z) (combine Ms Ks)). split; [now apply nth_In|]. split; [now apply nth_In|]. split; [rewrite map_length, combine_length; lia|].
  assert (E : forall vs Ms Ks, List.length Ms = List.length vs -> List.length Ks = List.length vs -> shift (map (fun p => (fst p - snd p)%Z) (combine Ms Ks)) vs = vsub (shift Ms vs) (shift Ks vs)).
  { clear. unfold shift. induction vs as [|v vs IH]; intros [|x Ms] [|y Ks] H1 H2'; try discriminate; [cbn; apply p3_eq; ring|]. cbn [combine map combination fst snd]. rewrite IH by (now injection H1 + now injection H2'). rewrite minus_IZR.
    generalize (combination (map IZR Ms) vs), (combination (map IZR Ks) vs). intros [[? ?] ?] [[? ?] ?]. destruct v as [[? ?] ?]. cbn. apply p3_eq; ring. }
  rewrite E by assumption. unfold dist. f_equal. generalize (nth i (points L) v0), (nth j (points L) v0), (shift Ms (vectors L)), (shift Ks (vectors L)). intros [[? ?] ?] [[? ?] ?] [[? ?] ?] [[? ?] ?]. cbn. apply p3_eq; ring.
Qed.
(** The first vector of every cell has length 1, so every integer is a distance. *)
Lemma integer_distance s c L (m : nat) : In (s, c) common_cells -> tiles c L -> lattice_distance L (IZR (Z.of_nat m)).
Proof.
  intros H Ti. assert (D : exists v vs, cvectors c = v :: vs /\ norm v = 1 /\ (0 < List.length (cpoints c))%nat).
  { assert (U : norm (1, 0, 0) = 1) by (apply norm_x; lra). cbn [common_cells In] in H. repeat destruct H as [H|H]; try contradiction; injection H as <- <-; do 2 eexists; (split; [reflexivity|]); (split; [exact U|cbn; lia]). }
  destruct D as (v & vs & Ec & Nv & Hp).
  pose proof (site_distance c L 0 (Z.of_nat m :: repeat 0%Z (List.length vs)) 0 (0%Z :: repeat 0%Z (List.length vs)) Ti) as X.
  replace (IZR (Z.of_nat m)) with (dist (site c 0 (Z.of_nat m :: repeat 0%Z (List.length vs))) (site c 0 (0%Z :: repeat 0%Z (List.length vs)))).
  { apply X; (split; [exact Hp|]); rewrite Ec; cbn [List.length]; now rewrite repeat_length. }
  unfold dist, site, shift. rewrite Ec. cbn [map combination]. fold (shift (repeat 0%Z (List.length vs)) vs). rewrite shift_zero.
  replace (vsub _ _) with (vscale (IZR (Z.of_nat m)) v).
  - rewrite norm_scale, Nv, Rabs_right by (apply Rle_ge, IZR_le; lia). ring.
  - generalize (nth 0 (cpoints c) v0). intros [[? ?] ?]. destruct v as [[? ?] ?]. cbn. apply p3_eq; ring.
Qed.


(** A list of distances whose beginning is complete. *)
Lemma entry_right prec L l m z : StronglySorted Z.lt (0%Z :: l) -> (forall y, In y (0%Z :: l) -> rounded_distance prec L (IZR y / zoom prec)) -> nth_error (0%Z :: l) m = Some z ->
  (forall y, lattice_distance L y -> (rint (y * zoom prec) < z)%Z -> In (rint (y * zoom prec)) (0%Z :: l)) -> nth_distance prec L m (IZR z / zoom prec).
Proof.
  intros Hs Sup Ez Occ. split; [apply Sup; eapply nth_error_In, Ez|]. assert (Len : (m < List.length (0%Z :: l))%nat) by (apply nth_error_Some; congruence).
  exists (map (fun k => IZR k / zoom prec) (firstn m (0%Z :: l))). split; [|split].
  - apply FinFun.Injective_map_NoDup; [intros a b E; now apply unit_div_inj in E|]. apply firstn_nodup, sorted_nodup, Hs.
  - rewrite map_length, firstn_length. lia.
  - intros u. rewrite in_map_iff. split.
    + intros (y & <- & Hy). apply (sorted_rank _ Hs m z Ez) in Hy as [Hy Lt]. split; [now apply Sup|now apply unit_div_lt].
    + intros [(y & Hy & ->) Lt]. apply unit_div_lt in Lt. exists (rint (y * zoom prec)). split; [reflexivity|]. apply (sorted_rank _ Hs m z Ez). split; [|exact Lt]. now apply Occ.
Qed.
Lemma exact_unique L n x y : exact_nth L n x -> exact_nth L n y -> x = y.
Proof.
  assert (K : forall u v, exact_nth L n u -> exact_nth L n v -> ~ u < v).
  { intros u v (Hu & l & Nl & Ll & Il) (Hv & m & Nm & Lm & Im) Lt.
    assert (Inc : incl (u :: l) m). { intros w [<-|Hw]; [apply Im; auto|]. apply Il in Hw as [Hw Hw2]. apply Im. split; [exact Hw|lra]. }
    assert (Nu : NoDup (u :: l)). { constructor; [|exact Nl]. intros Hin. apply Il in Hin as [_ Hin]. lra. }
    pose proof (NoDup_incl_length Nu Inc) as Q. cbn in Q. lia. }
  intros A B. pose proof (K x y A B). pose proof (K y x B A). lra.
Qed.

Section Cluster.
  Variables (prec : nat) (s : string) (c : cell) (n0 n1 n2 : Z) (L : lattice) (d0 : list R) (ord : list (list Z) -> list (list Z)) (pord : list (nat * nat) -> list (nat * nat)) (d : list R) (n : nat) (only fold : bool).
  Hypothesis Hpr : (1 <= prec)%nat.
  Hypothesis H : In (s, c) common_cells.
  Hypothesis H0 : (1 <= n0)%Z.
  Hypothesis H1 : (1 <= n1)%Z.
  Hypothesis H2' : (1 <= n2)%Z.
  Hypothesis Eg : lattice_generator prec (Name s) (AnInt n0) (AnInt n1) (AnInt n2) = Ok (L, d0).
  Hypothesis Ho : listing ord.
  Hypothesis Hpo : listing pord.
  Hypothesis Hr : reachable prec L ord d0 d.
  Hypothesis Hn : (24 * Z.of_nat (S n) <= 10 ^ Z.of_nat prec)%Z.
  Let q := spacing s * spacing s.
  Lemma cl_q : 1 / 4 <= q. Proof. pose proof (spacing_half s c H). unfold q. nra. Qed.
  Lemma cl_tiles : tiles c L.
  Proof. destruct (C37_generator prec s c n0 n1 n2 Hpr H H0 H1 H2') as (L' & d' & E' & _ & _ & _ & _ & _ & _ & _ & Ti). rewrite Eg in E'. injection E' as <- <-. exact Ti. Qed.
  Lemma cl_root x : lattice_distance L x -> exists M, (0 <= M)%Z /\ x = sqrt (IZR M * q) /\ (M <> 2%Z \/ spacing s = 1).
  Proof.
    intros Hx. pose proof (spacing_half s c H) as SB. assert (Q0 : 0 < q) by (pose proof cl_q; lra). apply dist_link in Hx as (k & (V1 & V2 & V3) & ->). destruct cl_tiles as [Ti _]. destruct (Ti (to k) (by_ k) V2 V3) as (a & ms & Sa & Ea). destruct (Ti (from k) (repeat 0%Z (List.length (vectors L))) V1 (repeat_length _ _)) as (b & ks & Sb & Eb). rewrite shift_zero, vadd_0_r in Eb.
    unfold len, head, tail. rewrite Ea, Eb. destruct (site_multiple s c b a ks ms H Sb Sa) as (M & EM & N2). fold q in EM. destruct (Z.le_gt_cases 0 M) as [M0|M0]; [exists M; auto|]. exists 0%Z. split; [lia|]. split; [|left; lia]. rewrite EM. apply IZR_lt in M0. rewrite sqrt_neg_0 by nra. rewrite Rmult_0_l. symmetry. apply sqrt_0.
  Qed.
  Lemma cl_Root x : lattice_distance L x -> exists M, (0 <= M)%Z /\ x = sqrt (IZR M * q).
  Proof. intros Hx. destruct (cl_root x Hx) as (M & A & B & _). now exists M. Qed.
  Lemma cl_le m v : nth_distance prec L m v -> v <= IZR (Z.of_nat m).
  Proof.
    intros (_ & l & Nl & Ll & Hl). apply Rnot_lt_le. intros C. assert (I : incl (map (fun k => IZR (Z.of_nat k)) (seq 0 (S m))) l).
    { intros u Hu. apply in_map_iff in Hu as (k & <- & Hk). apply in_seq in Hk. apply Hl. split; [|apply Rle_lt_trans with (IZR (Z.of_nat m)); [apply IZR_le; lia|exact C]].
      exists (IZR (Z.of_nat k)). split; [apply (integer_distance s c); [exact H|exact cl_tiles]|]. now rewrite rint_int_zoom, back_zoom. }
    apply NoDup_incl_length in I; [rewrite map_length, seq_length in I; lia|]. apply FinFun.Injective_map_NoDup; [|apply seq_NoDup]. intros a b X. apply eq_IZR in X. lia.
  Qed.
  Lemma cl_zoom : IZR (Z.of_nat (S n)) <= zoom prec / 24.
  Proof. rewrite zoom_Z. pose proof (IZR_le _ _ Hn) as X. rewrite mult_IZR in X. lra. Qed.
  Lemma cl_bound m x : (m <= S n)%nat -> exact_nth L m x -> rounded prec x <= zoom prec / 24.
  Proof.
    intros Hm (Hx & l & Nl & Ll & Hl). pose proof cl_zoom as Zb. assert (X : x <= IZR (Z.of_nat m)).
    { apply Rnot_lt_le. intros C. assert (I : incl (map (fun k => IZR (Z.of_nat k)) (seq 0 (S m))) l).
      { intros u Hu. apply in_map_iff in Hu as (k & <- & Hk). apply in_seq in Hk. apply Hl. split; [|apply Rle_lt_trans with (IZR (Z.of_nat m)); [apply IZR_le; lia|exact C]].
        apply (integer_distance s c); [exact H|exact cl_tiles]. }
      apply NoDup_incl_length in I; [rewrite map_length, seq_length in I; lia|]. apply FinFun.Injective_map_NoDup; [|apply seq_NoDup]. intros a b E. apply eq_IZR in E. lia. }
    apply (rounded_le prec) in X. unfold rounded in X at 2. rewrite rint_int_zoom, back_zoom in X. assert (IZR (Z.of_nat m) <= IZR (Z.of_nat (S n))) by (apply IZR_le; lia). lra.
  Qed.
  (** right answers give right bonds *)
  Lemma cl_core judge judge' d2 : neighbor_distance L ord prec d (AnInt (Z.of_nat (S n))) = (Ok judge, d2) -> nth_distance prec L (S n) judge -> fst (neighbor_distance L ord prec d2 (AnInt (Z.of_nat n))) = Ok judge' -> nth_distance prec L n judge' ->
    exists delta, exact_nth L (S n) delta /\ fst (neighbor_distance L ord prec d (AnInt (Z.of_nat (S n)))) = Ok (rounded prec delta) /\
    ((forall k, valid L k -> crossing k -> rounded prec delta < len L k <= rounded prec delta + view prec -> in_reach L (rounded prec delta) k) -> let P := fun x => if only then x = delta else x <= delta in
     exists F, forall fuel, (F <= fuel)%nat -> exists intra inter T, fst (bonds L ord pord fuel prec d (AnInt (Z.of_nat (S n))) only fold) = Some (Ok (intra, Some inter)) /\
       lists_intra L P intra /\ lists_inter L P fold inter T /\ forall k, valid L k -> crossing k -> P (len L k) -> In k T \/ In (opposite k) T).
  Proof.
    intros Ej Nj Ej' Nj'. destruct (C37_nice prec s c n0 n1 n2 L d0 Hpr H H0 H1 H2' Eg) as (HL & Ni & W & _). destruct (C37_suitable prec s c n0 n1 n2 L d0 Hpr H H0 H1 H2' Eg) as (Sp & Hres & Hc & _).
    pose proof Eg as E. rewrite (generator_build prec s c) in E by auto. pose proof (fresh_of_constructor _ _ _ _ _ E) as Fr.
    pose proof (cl_le _ _ Nj) as Bj. pose proof (cl_le _ _ Nj') as Bj'. pose proof cl_zoom as Zb.
    assert (Zb' : IZR (Z.of_nat n) <= IZR (Z.of_nat (S n))) by (apply IZR_le; lia). pose proof cl_q as Hq. pose proof cl_Root as Root.
    destruct Nj as [(delta & Dd & Ed) Lj] eqn:Q. clear Q. change (IZR (rint (delta * zoom prec)) / zoom prec) with (rounded prec delta) in Ed. assert (Nj2 : nth_distance prec L (S n) (rounded prec delta)) by (rewrite <- Ed; split; [exists delta; auto|exact Lj]).
    assert (Bd : rounded prec delta <= zoom prec / 24) by lra.
    destruct Nj' as [(delta' & Dd' & Ed') Lj'] eqn:Q. clear Q. change (IZR (rint (delta' * zoom prec)) / zoom prec) with (rounded prec delta') in Ed'. assert (Nj2' : nth_distance prec L n (rounded prec delta')) by (rewrite <- Ed'; split; [exists delta'; auto|exact Lj']).
    assert (Bd' : rounded prec delta' <= zoom prec / 24) by lra.
    exists delta. split; [exact (level_exact prec L q Hpr Hq Root (S n) delta Dd Bd Nj2)|]. split; [rewrite Ej; cbn [fst]; now rewrite Ed|]. intros Up P.
    destruct (C37_bonds prec s c n0 n1 n2 L d0 ord pord d (Z.of_nat (S n)) only fold Hpr H H0 H1 H2' Eg Ho Hpo Hr ltac:(lia)) as (F & HF).
    exists F. intros fuel Hf. destruct (HF fuel Hf) as (intra & inter & Eb). exists intra, inter. rewrite Ed in Ej. rewrite Ed' in Ej'. assert (Hr' : reachable prec L ord (fresh prec L) d) by (now rewrite <- Fr).
    destruct (C36_exact prec L ord pord fuel d n only fold intra (Some inter) _ _ _ Ho Hpo HL Hr' Ni Hres (or_intror Sp) Ej Ej' Nj2 Nj2' (level_next prec L q Hpr Hq Root delta Dd Bd) (fun _ => level_next prec L q Hpr Hq Root delta' Dd' Bd')) as (Hin & J & T & EJ & HT & Hall); [|exact Eb|].
    { exact Up. }
    injection EJ as <-. exists T. split; [exact Eb|].
    assert (PQ0 : forall x, lattice_distance L x -> ((if only then rounded prec x = rounded prec delta else rounded prec x <= rounded prec delta) <-> P x)).
    { intros x Dx. destruct (level_iff prec L q Hpr Hq Root delta x Dd Dx Bd) as [K1 K2]. unfold P. destruct only; [exact K2|exact K1]. }
    assert (PQ : forall k, valid L k -> ((if only then rounded prec (len L k) = rounded prec delta else rounded prec (len L k) <= rounded prec delta) <-> P (len L k))) by (intros k Vk; apply PQ0, dist_link; now exists k).
    split; [|split].
    - revert Hin. apply intra_iff. intros i j Hij. apply PQ0. exists (nth i (points L) v0), (nth j (points L) v0), (repeat 0%Z (List.length (vectors L))). rewrite shift_zero, vadd_0_r. repeat split; [apply nth_In; lia|apply nth_In; lia|apply repeat_length].
    - revert HT. apply inter_iff. exact PQ.
    - intros k Vk Ck Pk. apply Hall; auto. now apply PQ.
  Qed.
  (** a distance that rounding does not lower is within reach *)
  Lemma cl_up delta : exact_nth L (S n) delta -> delta <= rounded prec delta -> forall k, valid L k -> crossing k -> rounded prec delta < len L k <= rounded prec delta + view prec -> in_reach L (rounded prec delta) k.
  Proof.
    intros Hx Up k Vk _ B. exfalso. pose proof (cl_bound (S n) delta (le_n _) Hx) as Bd. destruct Hx as [Dd _]. exact (level_reach prec L q Hpr cl_q cl_Root delta k Dd Bd Up Vk B).
  Qed.
  Lemma cl_recomputed : (List.length d <= S n)%nat -> exists judge judge' d2, neighbor_distance L ord prec d (AnInt (Z.of_nat (S n))) = (Ok judge, d2) /\ nth_distance prec L (S n) judge /\ fst (neighbor_distance L ord prec d2 (AnInt (Z.of_nat n))) = Ok judge' /\ nth_distance prec L n judge'.
  Proof.
    intros Hd. destruct (C37_nice prec s c n0 n1 n2 L d0 Hpr H H0 H1 H2' Eg) as (HL & Ni & W & _). destruct (C37_suitable prec s c n0 n1 n2 L d0 Hpr H H0 H1 H2' Eg) as (Sp & Hres & Hc & _).
    destruct (C35_recomputed prec L ord d (S n) Ho HL W Hc Hres Hd) as (judge & d2 & Ej & Nj & Hm). destruct (Hm n ltac:(lia)) as (judge' & Ej' & Nj'). apply (f_equal fst) in Ej'. cbn [fst] in Ej'. exists judge, judge', d2. auto.
  Qed.
  Lemma cl_cached delta : exact_nth L (S n) delta -> (forall y, lattice_distance L y -> y < delta -> within L y) -> ((exists y, within L y /\ delta <= y) -> within L delta) ->
    exists judge judge' d2, neighbor_distance L ord prec d (AnInt (Z.of_nat (S n))) = (Ok judge, d2) /\ nth_distance prec L (S n) judge /\ fst (neighbor_distance L ord prec d2 (AnInt (Z.of_nat n))) = Ok judge' /\ nth_distance prec L n judge'.
  Proof.
    intros Hx Att AttD. destruct (Nat.le_gt_cases (List.length d) (S n)) as [Hd|Hd]; [now apply cl_recomputed|].
    destruct (C37_nice prec s c n0 n1 n2 L d0 Hpr H H0 H1 H2' Eg) as (HL & Ni & W & _). destruct (C37_suitable prec s c n0 n1 n2 L d0 Hpr H H0 H1 H2' Eg) as (Sp & Hres & Hc & _). pose proof (lattice_of_facts _ _ HL) as (_ & _ & Hk & Hp).
    pose proof Eg as E. rewrite (generator_build prec s c) in E by auto. pose proof (fresh_of_constructor _ _ _ _ _ E) as Fr.
    pose proof (cl_bound (S n) delta (le_n _) Hx) as Bd. pose proof cl_q as Hq. pose proof cl_Root as Root. pose proof (level_rounded prec L q Hpr Hq Root (S n) delta Hx Bd) as Nd. destruct Hx as (Dd & ld & Nld & Lld & Hld).
    set (l := zlist prec (points L)). pose proof (Neighbors_Proofs.zoom_pos prec) as Z0. pose proof (view_pos prec) as VP.
    assert (Inl : forall z, In z l <-> exists i j, (i < List.length (points L))%nat /\ (j < List.length (points L))%nat /\ i <> j /\ z = rint (dist (nth i (points L) v0) (nth j (points L) v0) * zoom prec)).
    { intros z. unfold l, zlist. rewrite in_zunique, in_map_iff. split.
      - intros (e & <- & He). rewrite points_map in He. apply in_pdist_map in He as (i & j & Hi & Hj & N & ->); [|apply seq_NoDup]. apply in_seq in Hi, Hj. exists i, j. repeat split; auto; lia.
      - intros (i & j & Hi & Hj & N & ->). eexists. split; [reflexivity|]. replace (pdist (points L)) with (pdist (map (fun i => nth i (points L) v0) (seq 0 (List.length (points L))))) by (f_equal; symmetry; apply points_map). apply in_pdist_map; [apply seq_NoDup|]. exists i, j. rewrite !in_seq. repeat split; auto; lia. }
    assert (Sup : forall y, In y (0%Z :: l) -> rounded_distance prec L (IZR y / zoom prec)).
    { intros y Hy. apply (cache_rounded prec L (fresh prec L) _ Hp (fresh_ok prec L)). unfold fresh. rewrite all_distances_zlist. now apply (in_map (fun k => IZR k / zoom prec)). }
    assert (Hs : StronglySorted Z.lt (0%Z :: l)).
    { constructor; [apply zlist_sorted|]. apply Forall_forall. intros z Hz. apply Inl in Hz as (i & j & Hi & Hj & N & ->).
      pose proof (resolved_pos prec L i j (repeat 0%Z (List.length (vectors L))) Hres Hi Hj (repeat_length _ _) (or_introl N)) as R0. unfold between in R0. rewrite shift_zero, vadd_0_r in R0. lia. }
    assert (Wi : forall y, within L y -> In (rint (y * zoom prec)) (0%Z :: l)).
    { intros y (p & p' & Hp1 & Hp2 & ->). apply (In_nth _ _ v0) in Hp1 as (i & Hi & <-). apply (In_nth _ _ v0) in Hp2 as (j & Hj & <-). destruct (Nat.eq_dec i j) as [<-|N]; [left; rewrite dist_refl, Rmult_0_l; symmetry; apply (rint_IZR 0)|].
      right. apply Inl. exists i, j. auto. }
    assert (Fm : (S n <= List.length (0%Z :: l))%nat /\ ((S n < List.length (0%Z :: l))%nat -> forall m, (m <= S n)%nat -> exists v, nth_error (fresh prec L) m = Some v /\ nth_distance prec L m v)).
    { assert (Below : forall y, In y ld -> In (rint (y * zoom prec)) (0%Z :: l)) by (intros y Hy; apply Hld in Hy as [Dy Lt]; apply Wi; now apply Att).
      assert (NI : NoDup (map (fun y => rint (y * zoom prec)) (delta :: ld))).
      { assert (Bu : forall u, In u (delta :: ld) -> lattice_distance L u /\ rounded prec u <= zoom prec / 24).
        { intros u [<-|Hu]; [auto|]. apply Hld in Hu as [Du Lt]. split; [exact Du|]. apply Rle_trans with (rounded prec delta); [apply rounded_le; lra|exact Bd]. }
        assert (ND : NoDup (delta :: ld)) by (constructor; [intros Hin; apply Hld in Hin; lra|exact Nld]). clear - ND Bu Hpr Hq Root. induction ND as [|a l Ha Nl IH]; [constructor|]. cbn [map]. constructor; [|apply IH; intros u Hu; apply Bu; now right].
        intros Hin. apply in_map_iff in Hin as (w & Ew & Hw). destruct (Bu a (or_introl eq_refl)) as (Da & Ba). destruct (Bu w (or_intror Hw)) as (Dw & _). assert (Er : rounded prec w = rounded prec a) by (unfold rounded; now rewrite Ew). apply (level_iff prec L q Hpr Hq Root a w Da Dw Ba) in Er. now subst w. }
      split.
      - assert (I : incl (map (fun y => rint (y * zoom prec)) ld) (0%Z :: l)) by (intros z Hz; apply in_map_iff in Hz as (y & <- & Hy); now apply Below).
        cbn [map] in NI. inversion NI as [|? ? _ NI2]; subst. apply NoDup_incl_length in I; [rewrite map_length, Lld in I; exact I|exact NI2].
      - intros Len m Hm.
        assert (WD : within L delta).
        { apply AttD. destruct (nth_error (0%Z :: l) (S n)) as [z|] eqn:Ez; [|apply nth_error_None in Ez; lia].
          (* the entry S n is at least the rounded delta *)
          assert (Zd : (rint (delta * zoom prec) <= z)%Z).
          { apply Z.nlt_ge. intros C. destruct Nd as (_ & lr & Nr & Lr & Hlr). assert (I : incl (map (fun k => IZR k / zoom prec) (firstn (S (S n)) (0%Z :: l))) lr).
            { intros u Hu. apply in_map_iff in Hu as (k & <- & Hk2). apply Hlr. assert (Kin : In k (0%Z :: l) /\ (k <= z)%Z).
              { destruct (nth_error (0%Z :: l) (S (S n))) as [z2|] eqn:Ez2.
                - pose proof (proj1 (sorted_rank _ Hs (S (S n)) z2 Ez2 k) Hk2) as [Kin Klt]. split; [exact Kin|]. apply In_nth_error in Hk2 as (t & Et). assert (Ht : (t < S (S n))%nat). { assert (T1 : (t < List.length (firstn (S (S n)) (0%Z :: l)))%nat) by (apply nth_error_Some; congruence). rewrite firstn_length in T1. lia. }
                  assert (Et2 : nth_error (0%Z :: l) t = Some k). { rewrite <- (firstn_skipn (S (S n)) (0%Z :: l)). rewrite nth_error_app1; [exact Et|]. apply nth_error_Some. congruence. }
                  destruct (Nat.eq_dec t (S n)) as [->|Nt]; [rewrite Ez in Et2; injection Et2 as <-; lia|]. pose proof (sorted_nth_lt _ Hs t (S n) k z Et2 Ez ltac:(lia)). lia.
                - apply nth_error_None in Ez2. rewrite firstn_all2 in Hk2 by exact Ez2. split; [exact Hk2|]. apply In_nth_error in Hk2 as (t & Et). assert (Ht : (t < List.length (0%Z :: l))%nat) by (apply nth_error_Some; congruence).
                  destruct (Nat.eq_dec t (S n)) as [->|Nt]; [rewrite Ez in Et; injection Et as <-; lia|]. pose proof (sorted_nth_lt _ Hs t (S n) k z Et Ez ltac:(lia)). lia. }
              destruct Kin as [Kin Kz]. split; [now apply Sup|]. unfold rounded. apply unit_div_lt. lia. }
            apply NoDup_incl_length in I; [rewrite map_length, firstn_length, Lr in I; lia|]. apply FinFun.Injective_map_NoDup; [intros a b X; now apply unit_div_inj in X|]. apply firstn_nodup, sorted_nodup, Hs. }
          cbn [nth_error] in Ez. apply nth_error_In in Ez.
          apply Inl in Ez as (i & j & Hi & Hj & N & ->). exists (dist (nth i (points L) v0) (nth j (points L) v0)). split; [exists (nth i (points L) v0), (nth j (points L) v0); split; [apply nth_In; exact Hi|split; [apply nth_In; exact Hj|reflexivity]]|].
            apply Rnot_lt_le. intros C. assert (De : lattice_distance L (dist (nth i (points L) v0) (nth j (points L) v0))).
            { exists (nth i (points L) v0), (nth j (points L) v0), (repeat 0%Z (List.length (vectors L))). rewrite shift_zero, vadd_0_r. repeat split; [now apply nth_In|now apply nth_In|apply repeat_length]. }
            assert (Be : rounded prec (dist (nth i (points L) v0) (nth j (points L) v0)) <= zoom prec / 24) by (apply Rle_trans with (rounded prec delta); [apply rounded_le; lra|exact Bd]).
            pose proof (level_keeps prec L q Hpr Hq Root _ delta De Dd Be C) as K. apply IZR_le in Zd. assert (rounded prec delta <= rounded prec (dist (nth i (points L) v0) (nth j (points L) v0))) by (unfold rounded, Rdiv; apply Rmult_le_compat_r; [left; now apply Rinv_0_lt_compat|exact Zd]). lra. }
        destruct (nth_error (0%Z :: l) m) as [z|] eqn:Ez; [|apply nth_error_None in Ez; lia].
        assert (Zm : (z <= rint (delta * zoom prec))%Z).
        { apply Z.nlt_ge. intros C. assert (I : incl (map (fun y => rint (y * zoom prec)) (delta :: ld)) (firstn m (0%Z :: l))).
          { intros w Hw. apply in_map_iff in Hw as (y & <- & Hy). apply (sorted_rank _ Hs m z Ez). destruct Hy as [<-|Hy]; [split; [now apply Wi|exact C]|]. split; [now apply Below|]. apply Hld in Hy as [_ Lt].
            apply Z.le_lt_trans with (rint (delta * zoom prec)); [apply rint_le, Rmult_le_compat_r; lra|exact C]. }
          apply NoDup_incl_length in I; [rewrite map_length, firstn_length in I; cbn [List.length] in I; rewrite Lld in I; lia|exact NI]. }
        exists (IZR z / zoom prec). split; [unfold fresh; rewrite all_distances_zlist; fold l; now rewrite nth_error_map, Ez|]. apply (entry_right prec L l m z Hs Sup Ez).
        intros y Dy Ly. apply Wi. apply Att; [exact Dy|]. apply Rnot_le_lt. intros C. assert (rint (delta * zoom prec) <= rint (y * zoom prec))%Z by (apply rint_le, Rmult_le_compat_r; lra). lia. }
    destruct Fm as [Flen Fm]. assert (Lf : List.length (fresh prec L) = List.length (0%Z :: l)) by (unfold fresh; rewrite all_distances_zlist; apply map_length). rewrite <- Lf in Flen, Fm.
    assert (Dm : (S n <= List.length d)%nat /\ ((S n < List.length d)%nat -> forall m, (m <= S n)%nat -> exists v, nth_error d m = Some v /\ nth_distance prec L m v)).
    { clear Hd. pose proof Hr as Hr'. clear Hr. rewrite Fr in Hr'. induction Hr' as [|e m' Hr' IH]; [auto|]. destruct (nd_cache L ord prec e m') as [-> |(t & Ht & -> & Lt & ->)]; [exact IH|]. destruct IH as [IH1 _].
      assert (A : forall m, (m <= S n)%nat -> exists v, nth_error (all_distances prec (sites_factory L ord t false)) m = Some v /\ nth_distance prec L m v) by (intros m Hm; apply (entries_right prec L ord t m); auto; lia).
      split; [|intros _; exact A]. destruct (A (S n) (le_n _)) as (v & Ev & _). assert (S n < List.length (all_distances prec (sites_factory L ord t false)))%nat by (apply nth_error_Some; congruence). lia. }
    destruct Dm as [_ Dm]. specialize (Dm Hd). destruct (Dm (S n) (le_n _)) as (v & Ev & Nv). destruct (Dm n ltac:(lia)) as (u & Eu & Nu). exists v, u, d.
    rewrite (nd_hit L ord prec d (Z.of_nat (S n)) v), (nd_hit L ord prec d (Z.of_nat n) u) by (try lia; now rewrite Nat2Z.id). auto.
  Qed.
End Cluster.
(** All six lattices, clusters of every size: when the list of distances is too
    short for n + 1 and is rebuilt, neighbor_distance(n + 1) is the (n + 1)-th
    distance delta of the infinite lattice, rounded; and if rounding does not
    lower delta, bonds(n + 1) lists each pair of sites at exactly that distance
    (only=False: at most that distance) once and no other pair; up to n = 415 at
    the default precision. *)
Theorem C37_exact : forall prec s c n0 n1 n2 L d0 ord pord d n (only fold : bool), (1 <= prec)%nat -> In (s, c) common_cells -> (1 <= n0)%Z -> (1 <= n1)%Z -> (1 <= n2)%Z ->
  lattice_generator prec (Name s) (AnInt n0) (AnInt n1) (AnInt n2) = Ok (L, d0) -> listing ord -> listing pord -> reachable prec L ord d0 d -> (24 * Z.of_nat (S n) <= 10 ^ Z.of_nat prec)%Z ->
  (List.length d <= S n)%nat ->
  exists delta, exact_nth L (S n) delta /\ fst (neighbor_distance L ord prec d (AnInt (Z.of_nat (S n)))) = Ok (rounded prec delta) /\
  (delta <= rounded prec delta -> let P := fun x => if only then x = delta else x <= delta in
   exists F, forall fuel, (F <= fuel)%nat -> exists intra inter T, fst (bonds L ord pord fuel prec d (AnInt (Z.of_nat (S n))) only fold) = Some (Ok (intra, Some inter)) /\
     lists_intra L P intra /\ lists_inter L P fold inter T /\ forall k, valid L k -> crossing k -> P (len L k) -> In k T \/ In (opposite k) T).
Proof.
  intros prec s c n0 n1 n2 L d0 ord pord d n only fold Hpr H H0 H1 H2' E Ho Hpo Hr Hn Hd.
  destruct (cl_recomputed prec s c n0 n1 n2 L d0 ord d n Hpr H H0 H1 H2' E Ho Hn Hd) as (judge & judge' & d2 & A1 & A2 & A3 & A4).
  destruct (cl_core prec s c n0 n1 n2 L d0 ord pord d n only fold Hpr H H0 H1 H2' E Ho Hpo Hr Hn judge judge' d2 A1 A2 A3 A4) as (delta & Hx & En & B).
  exists delta. split; [exact Hx|]. split; [exact En|]. intros Up. apply B. exact (cl_up prec s c n0 n1 n2 L d0 n Hpr H H0 H1 H2' E Hn delta Hx Up).
Qed.
Print Assumptions C37_exact.

Lemma cached_reach : forall prec s c n0 n1 n2 L d0 ord pord d n delta (only fold : bool), (1 <= prec)%nat -> In (s, c) common_cells -> (1 <= n0)%Z -> (1 <= n1)%Z -> (1 <= n2)%Z ->
  lattice_generator prec (Name s) (AnInt n0) (AnInt n1) (AnInt n2) = Ok (L, d0) -> listing ord -> listing pord -> reachable prec L ord d0 d -> (24 * Z.of_nat (S n) <= 10 ^ Z.of_nat prec)%Z ->
  exact_nth L (S n) delta -> (forall y, lattice_distance L y -> y < delta -> within L y) -> ((exists y, within L y /\ delta <= y) -> within L delta) ->
  fst (neighbor_distance L ord prec d (AnInt (Z.of_nat (S n)))) = Ok (rounded prec delta) /\
  ((forall k, valid L k -> crossing k -> rounded prec delta < len L k <= rounded prec delta + view prec -> in_reach L (rounded prec delta) k) -> let P := fun x => if only then x = delta else x <= delta in
   exists F, forall fuel, (F <= fuel)%nat -> exists intra inter T, fst (bonds L ord pord fuel prec d (AnInt (Z.of_nat (S n))) only fold) = Some (Ok (intra, Some inter)) /\
     lists_intra L P intra /\ lists_inter L P fold inter T /\ forall k, valid L k -> crossing k -> P (len L k) -> In k T \/ In (opposite k) T).
Proof.
  intros prec s c n0 n1 n2 L d0 ord pord d n delta only fold Hpr H H0 H1 H2' E Ho Hpo Hr Hn Hx Att AttD.
  destruct (cl_cached prec s c n0 n1 n2 L d0 ord d n Hpr H H0 H1 H2' E Ho Hr Hn delta Hx Att AttD) as (judge & judge' & d2 & A1 & A2 & A3 & A4).
  destruct (cl_core prec s c n0 n1 n2 L d0 ord pord d n only fold Hpr H H0 H1 H2' E Ho Hpo Hr Hn judge judge' d2 A1 A2 A3 A4) as (delta' & Hx' & B).
  rewrite (exact_unique L (S n) delta' delta Hx' Hx) in B. exact B.
Qed.
(** The same after every history, when the distances below the (n + 1)-th all occur
    between two sites of the cluster, and the (n + 1)-th does too if the cluster
    is that large. *)
Theorem C37_cached : forall prec s c n0 n1 n2 L d0 ord pord d n delta (only fold : bool), (1 <= prec)%nat -> In (s, c) common_cells -> (1 <= n0)%Z -> (1 <= n1)%Z -> (1 <= n2)%Z ->
  lattice_generator prec (Name s) (AnInt n0) (AnInt n1) (AnInt n2) = Ok (L, d0) -> listing ord -> listing pord -> reachable prec L ord d0 d -> (24 * Z.of_nat (S n) <= 10 ^ Z.of_nat prec)%Z ->
  exact_nth L (S n) delta -> (forall y, lattice_distance L y -> y < delta -> within L y) -> ((exists y, within L y /\ delta <= y) -> within L delta) ->
  fst (neighbor_distance L ord prec d (AnInt (Z.of_nat (S n)))) = Ok (rounded prec delta) /\
  (delta <= rounded prec delta -> let P := fun x => if only then x = delta else x <= delta in
   exists F, forall fuel, (F <= fuel)%nat -> exists intra inter T, fst (bonds L ord pord fuel prec d (AnInt (Z.of_nat (S n))) only fold) = Some (Ok (intra, Some inter)) /\
     lists_intra L P intra /\ lists_inter L P fold inter T /\ forall k, valid L k -> crossing k -> P (len L k) -> In k T \/ In (opposite k) T).
Proof.
  intros prec s c n0 n1 n2 L d0 ord pord d n delta only fold Hpr H H0 H1 H2' E Ho Hpo Hr Hn Hx Att AttD.
  destruct (cached_reach prec s c n0 n1 n2 L d0 ord pord d n delta only fold Hpr H H0 H1 H2' E Ho Hpo Hr Hn Hx Att AttD) as [A B].
  split; [exact A|]. intros Up. apply B. exact (cl_up prec s c n0 n1 n2 L d0 n Hpr H H0 H1 H2' E Hn delta Hx Up).
Qed.
Print Assumptions C37_cached.

(** The distances of the honeycomb lattice: 0, 1/sqrt 3 and then 1. *)
Lemma honeycomb_second : forall prec n0 n1 n2 L d0, (2 <= prec)%nat -> (1 <= n0)%Z -> (1 <= n1)%Z -> (1 <= n2)%Z -> lattice_generator prec (Name "honeycomb") (AnInt n0) (AnInt n1) (AnInt n2) = Ok (L, d0) ->
  exact_nth L 2 1 /\ (forall y, lattice_distance L y -> y < 1 -> within L y) /\ ((exists y, within L y /\ 1 <= y) -> within L 1).
Proof.
  intros prec n0 n1 n2 L d0 Hp2 H0 H1 H2' E. assert (Hpr : (1 <= prec)%nat) by lia.
  assert (H : In ("honeycomb"%string, honeycomb_cell) common_cells) by (cbn; tauto). set (nums := extents honeycomb_cell n0 n1 n2).
  destruct (extents_ok "honeycomb" honeycomb_cell n0 n1 n2 H H0 H1 H2') as [F Hl]. fold nums in F, Hl. pose proof (common_gridded _ _ H) as g.
  destruct (cluster_accepted prec honeycomb_cell g nums Hpr F Hl) as (L' & d' & E' & _ & Ep & Ev & _). pose proof E as Eg. rewrite (generator_build prec "honeycomb" honeycomb_cell) in Eg by auto. fold nums in Eg. rewrite E' in Eg. injection Eg as -> ->.
  pose proof s3_sq as Q3. pose proof s3_pos as P3. pose proof s3_bounds as B3.
  assert (Sp : spacing "honeycomb" = / sqrt 3) by reflexivity. assert (Sq : spacing "honeycomb" * spacing "honeycomb" = / 3) by (rewrite Sp, <- Rinv_mult; f_equal; exact Q3).
  assert (Si : 0 < / sqrt 3 < 1). { split; [now apply Rinv_0_lt_compat|]. rewrite <- Rinv_1. apply Rinv_lt_contravar; lra. }
  pose proof (zeros_box nums F) as B0. pose proof (count_nonneg nums F) as C0.
  assert (At : forall j ns, box nums ns -> (j < 2)%nat -> In (site honeycomb_cell j ns) (points L)).
  { intros j ns B Hj. rewrite Ep. rewrite <- (cluster_nth honeycomb_cell nums ns j B Hj). apply nth_In. rewrite cluster_length by exact F. pose proof (position_range _ _ B). cbn [honeycomb_cell cpoints List.length] in *. nia. }
  assert (Z0 : shift (repeat 0%Z (List.length nums)) (cvectors honeycomb_cell) = v0) by (rewrite Hl; apply shift_zero).
  assert (WD : forall y, within L y -> lattice_distance L y).
  { intros y (p & q & Hp & Hq & ->). exists p, q, (repeat 0%Z (List.length (vectors L))). rewrite shift_zero, vadd_0_r. repeat split; auto. apply repeat_length. }
  assert (W0 : within L 0) by (exists (site honeycomb_cell 0 (repeat 0%Z (List.length nums))), (site honeycomb_cell 0 (repeat 0%Z (List.length nums))); rewrite dist_refl; split; [apply At; auto; lia|split; [apply At; auto; lia|reflexivity]]).
  assert (Dw : dist (nth 0 (cpoints honeycomb_cell) v0) (nth 1 (cpoints honeycomb_cell) v0) = / sqrt 3).
  { cbn [nth cpoints honeycomb_cell]. unfold dist, norm. cbn [vsub vdot]. assert (Hy : 0.5 / sqrt 3 - -0.5 / sqrt 3 = / sqrt 3) by (unfold Rdiv; lra). assert (Hy2 : -0.5 / sqrt 3 - 0.5 / sqrt 3 = - / sqrt 3) by (unfold Rdiv; lra).
    match goal with |- sqrt ?e = _ => replace e with (/ sqrt 3 * / sqrt 3) end; [apply sqrt_square; lra|]. rewrite ?Hy, ?Hy2. ring. }
  assert (W1 : within L (/ sqrt 3)).
  { exists (site honeycomb_cell 0 (repeat 0%Z (List.length nums))), (site honeycomb_cell 1 (repeat 0%Z (List.length nums))). split; [apply At; auto; lia|]. split; [apply At; auto; lia|].
    unfold site. rewrite Z0, !vadd_0_r. now rewrite Dw. }
  assert (Hp48 : (24 * Z.of_nat 2 <= 10 ^ Z.of_nat prec)%Z) by (change (24 * Z.of_nat 2)%Z with 48%Z; apply Z.le_trans with (10 ^ 2)%Z; [now vm_compute|apply Z.pow_le_mono_r; lia]).
  assert (Low : forall y, lattice_distance L y -> y < 1 -> y = 0 \/ y = / sqrt 3).
  { intros y Hy Lt. destruct (cl_root prec "honeycomb" honeycomb_cell n0 n1 n2 L d0 1 Hpr H H0 H1 H2' E Hp48 y Hy) as (M & M0 & Ey & [M2|S1]); [|rewrite Sp in S1; lra]. rewrite Sq in Ey.
    assert (M3 : (M < 3)%Z). { apply Z.nle_gt. intros C. apply IZR_le in C. assert (D : 1 <= IZR M * / 3) by lra. apply sqrt_le_1_alt in D. rewrite sqrt_1 in D. lra. }
    assert (C : (M = 0 \/ M = 1)%Z) by lia. destruct C as [->| ->]; [left; rewrite Ey, Rmult_0_l; apply sqrt_0|right]. rewrite Ey, Rmult_1_l. replace (/ 3) with (/ sqrt 3 * / sqrt 3) by (rewrite <- Rinv_mult; f_equal; exact Q3). apply sqrt_square. lra. }
  assert (D1 : lattice_distance L 1) by (apply (integer_distance "honeycomb" honeycomb_cell L 1 H); destruct (C37_generator prec "honeycomb" honeycomb_cell n0 n1 n2 Hpr H H0 H1 H2') as (L2 & d2 & Eg2 & _ & _ & _ & _ & _ & _ & _ & Ti); rewrite E in Eg2; injection Eg2 as <- <-; exact Ti).
  assert (Hx : exact_nth L 2 1).
  { split; [exact D1|]. exists [0; / sqrt 3]. split; [|split; [reflexivity|]].
    - constructor; [intros [C|[]]; lra|constructor; [intros []|constructor]].
    - intros u. split; [intros [<-|[<-|[]]]; (split; [now apply WD|lra])|]. intros [Du Lt]. destruct (Low u Du Lt) as [-> | ->]; cbn; tauto. }
  split; [exact Hx|]. split.
  - intros y Dy Lt. destruct (Low y Dy Lt) as [-> | ->]; assumption.
  - intros (y & (p & q & Hp & Hq & ->) & Ly). assert (Nv : Forall (fun v => norm v = 1) (cvectors honeycomb_cell)).
    { cbn [cvectors honeycomb_cell]. repeat apply Forall_cons; [apply norm_x; lra| |constructor]. unfold norm. replace (vdot _ _) with 1 by (cbn [vdot]; nra). apply sqrt_1. }
    destruct (unit_step nums (cvectors honeycomb_cell) Hl F Nv) as [O1|(e & Be & En)].
    + exfalso. rewrite Ep, ones_cluster in Hp, Hq by exact O1. 
      assert (Dd : dist p q = 0 \/ dist p q = / sqrt 3); [|destruct Dd; lra].
      apply (In_nth _ _ v0) in Hp as (i & Hi & <-), Hq as (j & Hj & <-). cbn [cpoints honeycomb_cell List.length] in Hi, Hj.
      destruct i as [|[|]]; destruct j as [|[|]]; try lia; rewrite ?dist_refl; auto. right. now rewrite dist_sym.
    + exists (site honeycomb_cell 0 (repeat 0%Z (List.length nums))), (site honeycomb_cell 0 e). split; [apply At; auto; lia|]. split; [apply At; auto; lia|].
      rewrite dist_sym. unfold dist, site. rewrite Z0, vadd_0_r, vadd_sub. now rewrite En.
Qed.
(** The second distance of the honeycomb lattice is 1: bonds(2) lists the pairs of
    sites 1 apart, for every cluster, every history and two digits or more. *)
Theorem C37_second : forall prec n0 n1 n2 L d0 ord pord d (only fold : bool), (2 <= prec)%nat -> (1 <= n0)%Z -> (1 <= n1)%Z -> (1 <= n2)%Z ->
  lattice_generator prec (Name "honeycomb") (AnInt n0) (AnInt n1) (AnInt n2) = Ok (L, d0) -> listing ord -> listing pord -> reachable prec L ord d0 d ->
  fst (neighbor_distance L ord prec d (AnInt 2)) = Ok 1 /\
  let P := fun x => if only then x = 1 else x <= 1 in
  exists F, forall fuel, (F <= fuel)%nat -> exists intra inter T, fst (bonds L ord pord fuel prec d (AnInt 2) only fold) = Some (Ok (intra, Some inter)) /\
    lists_intra L P intra /\ lists_inter L P fold inter T /\ forall k, valid L k -> crossing k -> P (len L k) -> In k T \/ In (opposite k) T.
Proof.
  intros prec n0 n1 n2 L d0 ord pord d only fold Hp2 H0 H1 H2' E Ho Hpo Hr. assert (H : In ("honeycomb"%string, honeycomb_cell) common_cells) by (cbn; tauto).
  assert (Hp48 : (24 * Z.of_nat 2 <= 10 ^ Z.of_nat prec)%Z) by (change (24 * Z.of_nat 2)%Z with 48%Z; apply Z.le_trans with (10 ^ 2)%Z; [now vm_compute|apply Z.pow_le_mono_r; lia]).
  destruct (honeycomb_second prec n0 n1 n2 L d0 Hp2 H0 H1 H2' E) as (Hx & Att & AttD).
  destruct (C37_cached prec "honeycomb" honeycomb_cell n0 n1 n2 L d0 ord pord d 1 1 only fold ltac:(lia) H H0 H1 H2' E Ho Hpo Hr Hp48 Hx Att AttD) as [A B].
  replace (rounded prec 1) with 1 in A, B; [split; [exact A|apply B; lra]|]. unfold rounded. rewrite (rint_int_zoom prec 1), back_zoom. reflexivity.
Qed.
Print Assumptions C37_second.

(** Non-vacuity of C37_exact: the unit cell of the honeycomb, two entries in its
    list, and the second distance 1, not lowered by rounding. (honeycomb_second is
    the witness for C37_cached, any size.) *)
Example exact_case : exists L d0, lattice_generator 4 (Name "honeycomb") (AnInt 1) (AnInt 1) (AnInt 1) = Ok (L, d0) /\ (List.length d0 <= 2)%nat /\ (24 * Z.of_nat 2 <= 10 ^ Z.of_nat 4)%Z /\ exact_nth L 2 1 /\ 1 <= rounded 4 1.
Proof.
  assert (H : In ("honeycomb"%string, honeycomb_cell) common_cells) by (cbn; tauto). assert (O1 : (1 <= 1)%Z) by lia.
  destruct (extents_ok "honeycomb" honeycomb_cell 1 1 1 H O1 O1 O1) as [F1 Hl]. pose proof (common_gridded _ _ H) as g.
  destruct (cluster_accepted 4 honeycomb_cell g _ ltac:(lia) F1 Hl) as (L & d0 & E & _ & E1 & E2 & HL).
  assert (Eg : lattice_generator 4 (Name "honeycomb") (AnInt 1) (AnInt 1) (AnInt 1) = Ok (L, d0)) by (rewrite (generator_build 4 "honeycomb" honeycomb_cell); auto).
  assert (Ep : points L = cpoints honeycomb_cell) by (rewrite E1; apply ones_cluster; repeat constructor).
  pose proof (fresh_of_constructor _ _ _ _ _ E) as Ef. exists L, d0. split; [exact Eg|]. split; [rewrite Ef; unfold fresh; rewrite Ep; cbn; lia|]. split; [now vm_compute|].
  split; [apply (honeycomb_second 4 1 1 1 L d0); auto; lia|]. unfold rounded. rewrite (rint_int_zoom 4 1), back_zoom. lra.
Qed.
