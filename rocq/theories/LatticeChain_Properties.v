(** C37: chain clusters of every size: all distances, all bonds, every history. *)
From Coq Require Import String List Reals ZArith Bool Arith Lra Lia Permutation Sorting.Sorted.
From Flocq Require Import Core.Raux.
From Verif Require Import Py CVec LinSolve Line2D_Model Line2D_Proofs Lattice_Model Lattice_Spec Lattice_Proofs Lattice_Proofs2 Lattice_Proofs3 Lattice_Properties LatticeCases_Properties
  Neighbors_Spec Neighbors_Proofs Neighbors_Proofs2 Neighbors_Properties NeighborsCases_Properties LatticeBonds_Spec LatticeBonds_Proofs LatticeBonds_Proofs2 LatticeBonds_Properties LatticeGen_Model LatticeGen_Spec LatticeGen_Proofs LatticeGen_Properties
  LatticeBondsCases_Properties LatticeHex_Proofs LatticeNice_Properties.
Import ListNotations.
Open Scope R_scope.

(** A cache that lists 0, 1, ..., K. *)
Definition whole (d : list R) : Prop := exists K, forall m, nth_error d m = if Nat.leb m K then Some (IZR (Z.of_nat m)) else None.
Lemma whole_intro prec sites (K : nat) : (forall z, In z (zlist prec sites) <-> exists m, (1 <= m <= Z.of_nat K)%Z /\ z = (m * 10 ^ Z.of_nat prec)%Z) ->
  forall m, nth_error (all_distances prec sites) m = if Nat.leb m K then Some (IZR (Z.of_nat m)) else None.
Proof.
  intros H. pose proof (ten_pos prec) as T.
  assert (Ok_ : forall m, (m <= K)%nat -> nth_error (all_distances prec sites) m = Some (IZR (Z.of_nat m))).
  { intros m Hm. rewrite all_distances_zlist, nth_error_map. destruct m as [|m]; [cbn [nth_error option_map Z.of_nat]; f_equal; unfold Rdiv; ring|]. cbn [nth_error].
    rewrite (sorted_nth_intro _ (map (fun k => (Z.of_nat k * 10 ^ Z.of_nat prec)%Z) (seq 1 m)) m (Z.of_nat (S m) * 10 ^ Z.of_nat prec)%Z (zlist_sorted _ _)).
    - cbn [option_map]. f_equal. apply back_zoom.
    - apply H. exists (Z.of_nat (S m)). split; [lia|reflexivity].
    - apply FinFun.Injective_map_NoDup; [|apply seq_NoDup]. intros a b E. apply Z.mul_reg_r in E; lia.
    - now rewrite map_length, seq_length.
    - intros y. rewrite in_map_iff, H. split.
      + intros (k & <- & Hk). apply in_seq in Hk. split; [exists (Z.of_nat k); split; [lia|reflexivity]|]. apply Z.mul_lt_mono_pos_r; lia.
      + intros ((k & Hk & ->) & Lt). apply Z.mul_lt_mono_pos_r in Lt; [|exact T]. exists (Z.to_nat k). split; [now rewrite Z2Nat.id by lia|]. apply in_seq. lia. }
  intros m. destruct (Nat.leb_spec m K) as [Hm|Hm]; [now apply Ok_|]. destruct (nth_error (all_distances prec sites) m) as [x|] eqn:E; [exfalso|reflexivity].
  rewrite all_distances_zlist, nth_error_map in E. destruct m as [|m]; [lia|]. cbn [nth_error] in E. destruct (nth_error (zlist prec sites) m) as [z|] eqn:Ez; [|discriminate].
  pose proof (nth_error_In _ _ Ez) as Hin. apply H in Hin as (k & Hk & ->).
  pose proof (Ok_ (Z.to_nat k) ltac:(lia)) as Ek. rewrite all_distances_zlist, nth_error_map in Ek. destruct (Z.to_nat k) as [|k'] eqn:Ekk; [lia|]. cbn [nth_error] in Ek.
  destruct (nth_error (zlist prec sites) k') as [z'|] eqn:Ez'; [|discriminate]. cbn [option_map] in Ek. injection Ek as Ek.
  assert (Z' : z' = (k * 10 ^ Z.of_nat prec)%Z). { change (Z.pos (Pos.of_succ_nat k')) with (Z.of_nat (S k')) in Ek. rewrite <- (back_zoom prec (Z.of_nat (S k'))) in Ek. apply unit_div_inj in Ek. rewrite Ek. f_equal. lia. }
  pose proof (sorted_nth_lt _ (zlist_sorted prec sites) k' m z' _ Ez' Ez) as L1. assert (k' < m)%nat by lia. specialize (L1 ltac:(lia)). lia.
Qed.

Section Chain.
  Variables (prec : nat) (n0 : Z) (L : lattice) (ord : list (list Z) -> list (list Z)).
  Hypothesis Hn0 : (1 <= n0)%Z.
  Hypothesis Ho : listing ord.
  Hypothesis Lp : List.length (points L) = Z.to_nat n0.
  Hypothesis Np : forall i, (i < Z.to_nat n0)%nat -> nth i (points L) v0 = (IZR (Z.of_nat i), 0, 0).
  Hypothesis Ev : vectors L = [(IZR n0, 0, 0)].

  Lemma chain_between i j c : (i < List.length (points L))%nat -> (j < List.length (points L))%nat -> between L i j [c] = IZR (Z.abs (Z.of_nat i - Z.of_nat j + n0 * c)).
  Proof.
    intros Hi Hj. rewrite Lp in Hi, Hj. unfold between, dist, norm. rewrite !Np, Ev by assumption. rewrite abs_IZR, <- sqrt_Rsqr_abs. f_equal. unfold Rsqr, shift. cbn [map combination vscale vadd vsub vdot v0].
    rewrite plus_IZR, minus_IZR, mult_IZR. ring.
  Qed.
  Lemma chain_differ i j c : (i < List.length (points L))%nat -> (j < List.length (points L))%nat -> differ i j [c] -> (1 <= Z.abs (Z.of_nat i - Z.of_nat j + n0 * c))%Z.
  Proof.
    intros Hi Hj D. rewrite Lp in Hi, Hj. destruct (Z.eq_dec (Z.of_nat i - Z.of_nat j + n0 * c) 0) as [E|E]; [exfalso|lia].
    assert (C0 : c = 0%Z) by nia. subst c. destruct D as [D|(k & [<-|[]] & Nk)]; lia.
  Qed.
  Lemma chain_value m : (1 <= m)%Z -> exists i j c, (i < List.length (points L))%nat /\ (j < List.length (points L))%nat /\ (0 <= c)%Z /\ (c = m / n0)%Z /\ differ i j [c] /\ between L i j [c] = IZR m.
  Proof.
    intros Hm. pose proof (Z.mod_pos_bound m n0 ltac:(lia)) as B. pose proof (Z.div_mod m n0 ltac:(lia)) as E. assert (Q : (0 <= m / n0)%Z) by (apply Z.div_pos; lia).
    exists (Z.to_nat (m mod n0)), 0%nat, (m / n0)%Z. split; [rewrite Lp; lia|]. split; [rewrite Lp; lia|]. split; [exact Q|]. split; [reflexivity|]. split.
    - destruct (Z.eq_dec (m / n0) 0) as [Z0|Z0]; [left; rewrite Z0 in E; lia|right; exists (m / n0)%Z; cbn; auto].
    - rewrite chain_between by (rewrite Lp; lia). f_equal. rewrite Z2Nat.id by lia. lia.
  Qed.
  Lemma points_ne : points L <> []. Proof. intros E. rewrite E in Lp. cbn in Lp. lia. Qed.

  Lemma fresh_whole : whole (fresh prec L).
  Proof.
    exists (Z.to_nat n0 - 1)%nat. apply whole_intro. intros z. unfold zlist. rewrite in_zunique, in_map_iff.
    assert (PM : points L = map (fun i => nth i (points L) v0) (seq 0 (List.length (points L)))).
    { generalize (points L). intros l. clear. induction l as [|p l IH]; [reflexivity|]. cbn [List.length seq map nth]. f_equal. rewrite <- seq_shift, map_map. exact IH. }
    split.
    - intros (d & <- & Hd). rewrite PM in Hd. apply in_pdist_map in Hd as (i & j & Hi & Hj & N & ->); [|apply seq_NoDup]. apply in_seq in Hi, Hj.
      assert (E : dist (nth i (points L) v0) (nth j (points L) v0) = IZR (Z.abs (Z.of_nat i - Z.of_nat j))).
      { pose proof (chain_between i j 0 ltac:(lia) ltac:(lia)) as B. unfold between in B. assert (S0 : shift [0%Z] (vectors L) = v0) by (rewrite Ev; unfold shift; cbn; apply p3_eq; ring). rewrite S0, vadd_0_r, Z.mul_0_r, Z.add_0_r in B. exact B. }
      rewrite E, rint_int_zoom. eexists. split; [|reflexivity]. rewrite Lp in Hi, Hj. lia.
    - intros (m & Hm & ->). exists (IZR m). split; [apply rint_int_zoom|]. rewrite PM. apply in_pdist_map; [apply seq_NoDup|]. exists (Z.to_nat m), 0%nat. rewrite !in_seq, Lp. split; [lia|]. split; [lia|]. split; [lia|].
      rewrite !Np by lia. unfold dist, norm. cbn [vsub vdot]. rewrite Z2Nat.id by lia. cbn [Z.of_nat].
      match goal with |- _ = sqrt ?e => replace e with (IZR m * IZR m) by ring end. symmetry. apply sqrt_square, IZR_le. lia.
  Qed.
  Lemma recomputed_whole S : (1 <= S)%Z -> exists K, (Z.to_nat S <= K)%nat /\ forall m, nth_error (all_distances prec (sites_factory L ord S false)) m = if Nat.leb m K then Some (IZR (Z.of_nat m)) else None.
  Proof.
    intros HS. exists (Z.to_nat (2 * S * n0 + n0 - 1)). split; [nia|]. apply whole_intro. intros z. rewrite in_zlist by (auto; lia). rewrite Z2Nat.id by nia. split.
    - intros (i & j & c & Hi & Hj & Lc & Rc & D & ->). rewrite Ev in Lc. destruct c as [|c [|]]; try discriminate. rewrite chain_between, rint_int_zoom by assumption. eexists. split; [|reflexivity].
      pose proof (chain_differ i j c Hi Hj D). cbn [reach fold_right] in Rc. rewrite Lp in Hi, Hj. split; [assumption|]. assert (Z.abs c <= 2 * S)%Z by lia. assert (Z.abs (n0 * c) <= n0 * (2 * S))%Z by (rewrite Z.abs_mul; nia). lia.
    - intros (m & Hm & ->). destruct (chain_value m ltac:(lia)) as (i & j & c & Hi & Hj & C0 & Ec & D & B). exists i, j, [c]. split; [exact Hi|]. split; [exact Hj|]. split; [now rewrite Ev|]. split.
      + cbn [reach fold_right]. assert (c < 2 * S + 1)%Z by (rewrite Ec; apply Z.div_lt_upper_bound; lia). lia.
      + split; [exact D|]. rewrite B. symmetry. apply rint_int_zoom.
  Qed.
  Lemma chain_nd d n : whole d -> fst (neighbor_distance L ord prec d (AnInt (Z.of_nat n))) = Ok (IZR (Z.of_nat n)).
  Proof.
    intros (K & HK). pose proof (HK n) as E. destruct (Nat.leb_spec n K) as [H|H].
    - rewrite (nd_hit L ord prec d _ (IZR (Z.of_nat n))); [reflexivity|lia|]. now rewrite Nat2Z.id.
    - assert (HN : (1 <= n)%nat) by (destruct n; [lia|lia]). rewrite nd_miss; [|lia|now rewrite Nat2Z.id]. cbn [fst]. destruct (recomputed_whole (Z.of_nat n) ltac:(lia)) as (K' & B & EK). rewrite EK, Nat2Z.id in *.
      destruct (Nat.leb_spec n K'); [reflexivity|lia].
  Qed.
  Lemma chain_nd_cache d n : whole d -> whole (snd (neighbor_distance L ord prec d n)).
  Proof.
    intros W. pose proof W as (K & HK). destruct n as [n|]; [|exact W]. unfold neighbor_distance. destruct (Z.ltb_spec n 0); [exact W|].
    destruct (nth_error d (Z.to_nat n)) as [x|] eqn:E; [exact W|]. cbn [snd]. assert (1 <= n)%Z. { destruct (Z.eq_dec n 0) as [->|]; [|lia]. rewrite HK in E. discriminate E. }
    destruct (recomputed_whole n ltac:(lia)) as (K' & _ & EK). now exists K'.
  Qed.
  Lemma chain_reachable d : reachable prec L ord (fresh prec L) d -> whole d.
  Proof. induction 1; [apply fresh_whole|now apply chain_nd_cache]. Qed.
  Lemma chain_is_rounded v : rounded_distance prec L v <-> exists m, (0 <= m)%Z /\ v = IZR m.
  Proof.
    rewrite (rounded_iff prec L v points_ne). split.
    - intros (z & -> & [->|(i & j & c & Hi & Hj & Lc & D & ->)]); [exists 0%Z; split; [lia|unfold Rdiv; ring]|].
      rewrite Ev in Lc. destruct c as [|c [|]]; try discriminate. rewrite chain_between, rint_int_zoom, back_zoom by assumption. eexists. split; [|reflexivity]. lia.
    - intros (m & Hm & ->). exists (m * 10 ^ Z.of_nat prec)%Z. split; [now rewrite back_zoom|]. destruct (Z.eq_dec m 0) as [->|N]; [now left|right].
      destruct (chain_value m ltac:(lia)) as (i & j & c & Hi & Hj & _ & _ & D & B). exists i, j, [c]. split; [exact Hi|]. split; [exact Hj|]. split; [now rewrite Ev|]. split; [exact D|]. rewrite B. symmetry. apply rint_int_zoom.
  Qed.
  Lemma chain_nth n : nth_distance prec L n (IZR (Z.of_nat n)).
  Proof.
    split; [apply chain_is_rounded; exists (Z.of_nat n); split; [lia|reflexivity]|]. exists (map (fun k => IZR (Z.of_nat k)) (seq 0 n)). split; [|split].
    - apply FinFun.Injective_map_NoDup; [|apply seq_NoDup]. intros a b E. apply eq_IZR in E. lia.
    - now rewrite map_length, seq_length.
    - intros u. rewrite in_map_iff, chain_is_rounded. split.
      + intros (k & <- & Hk). apply in_seq in Hk. split; [exists (Z.of_nat k); split; [lia|reflexivity]|apply IZR_lt; lia].
      + intros ((m & Hm & ->) & Lt). apply lt_IZR in Lt. exists (Z.to_nat m). split; [now rewrite Z2Nat.id|apply in_seq; lia].
  Qed.
End Chain.

Lemma intra_iff L (P Q : R -> Prop) intra : (forall i j, (i < j < List.length (points L))%nat -> (P (dist (nth i (points L) v0) (nth j (points L) v0)) <-> Q (dist (nth i (points L) v0) (nth j (points L) v0)))) ->
  lists_intra L P intra -> lists_intra L Q intra.
Proof. intros H (I & N & HI & PI). exists I. split; [exact N|]. split; [|exact PI]. intros i j. rewrite HI. split; intros [A B]; (split; [exact A|]); now apply H. Qed.
Lemma inter_iff L (P Q : R -> Prop) (fold : bool) inter T : (forall k, valid L k -> (P (len L k) <-> Q (len L k))) -> lists_inter L P fold inter T -> lists_inter L Q fold inter T.
Proof. intros H (N & HT & PT). split; [exact N|]. split; [|exact PT]. intros k Hk. destruct (HT k Hk) as (V & C & Pk & Nk). split; [exact V|]. split; [exact C|]. split; [now apply H|exact Nk]. Qed.

(** A chain cluster of n0 sites, after every history: the n-th distance is n, and
    bonds(n) lists each pair of sites n apart (only=False: at most n apart) once
    and no other pair. *)
Theorem C37_chain : forall prec n0 num1 num2 L d0 ord pord d n (only fold : bool), (1 <= prec)%nat -> (1 <= n0)%Z -> (1 <= num1)%Z -> (1 <= num2)%Z ->
  lattice_generator prec (Name "chain") (AnInt n0) (AnInt num1) (AnInt num2) = Ok (L, d0) -> listing ord -> listing pord -> reachable prec L ord d0 d -> 
  fst (neighbor_distance L ord prec d (AnInt (Z.of_nat n))) = Ok (IZR (Z.of_nat n)) /\ nth_distance prec L n (IZR (Z.of_nat n)) /\
  ((1 <= n)%nat -> let P := fun x => if only then x = IZR (Z.of_nat n) else x <= IZR (Z.of_nat n) in
   exists F, forall fuel, (F <= fuel)%nat -> exists intra inter T, fst (bonds L ord pord fuel prec d (AnInt (Z.of_nat n)) only fold) = Some (Ok (intra, Some inter)) /\
     lists_intra L P intra /\ lists_inter L P fold inter T /\ forall k, valid L k -> crossing k -> P (len L k) -> In k T \/ In (opposite k) T).
Proof.
  intros prec n0 num1 num2 L d0 ord pord d n only fold Hpr H0 H1 H2 E Ho Hpo Hr. assert (H : In ("chain"%string, chain_cell) common_cells) by (cbn; tauto).
  destruct (C37_generator prec "chain" chain_cell n0 num1 num2 Hpr H H0 H1 H2) as (L' & d' & E' & HL & _ & Lv & Nv & Lp & At & _). rewrite E in E'. injection E' as <- <-.
  destruct (C37_nice prec "chain" chain_cell n0 num1 num2 L d0 Hpr H H0 H1 H2 E) as (_ & Ni & _). destruct (C37_suitable prec "chain" chain_cell n0 num1 num2 L d0 Hpr H H0 H1 H2 E) as (Sp & Hres & _).
  cbn [cvectors chain_cell List.length firstn cpoints] in *.
  assert (Lp' : List.length (points L) = Z.to_nat n0). { rewrite Lp. cbn [count fold_right]. lia. }
  assert (Ev : vectors L = [(IZR n0, 0, 0)]). { destruct (vectors L) as [|v [|]]; try discriminate. f_equal. pose proof (Nv 0%nat ltac:(lia)) as V. cbn [nth] in V. rewrite V. cbn [vscale]. apply p3_eq; ring. }
  assert (Np : forall i, (i < Z.to_nat n0)%nat -> nth i (points L) v0 = (IZR (Z.of_nat i), 0, 0)).
  { intros i Hi. assert (B : box [n0] [Z.of_nat i]) by (constructor; [lia|constructor]). pose proof (At _ 0%nat B ltac:(lia)) as A. cbn [position count fold_right] in A.
    match type of A with nth ?k _ _ = _ => replace k with i in A by lia end. rewrite A. unfold site, shift. cbn. apply p3_eq; ring. }
  pose proof E as Eg. rewrite (generator_build prec "chain" chain_cell) in E by auto. rewrite (fresh_of_constructor _ _ _ _ _ E) in Hr.
  pose proof (chain_reachable prec n0 L ord H0 Ho Lp' Np Ev d Hr) as W. pose proof (chain_nd prec n0 L ord H0 Ho Lp' Np Ev d n W) as Ej. pose proof (chain_nth prec n0 L H0 Lp' Np Ev n) as Nj.
  split; [exact Ej|]. split; [exact Nj|]. intros Hn. destruct n as [|n]; [lia|]. set (P := fun x => if only then x = IZR (Z.of_nat (S n)) else x <= IZR (Z.of_nat (S n))).
  destruct (C37_bonds prec "chain" chain_cell n0 num1 num2 L d0 ord pord d (Z.of_nat (S n)) only fold Hpr H H0 H1 H2 Eg Ho Hpo) as (F & HF); [rewrite (fresh_of_constructor _ _ _ _ _ E); exact Hr|lia|].
  exists F. intros fuel Hf. destruct (HF fuel Hf) as (intra & inter & Eb). exists intra, inter.
  pose proof (surjective_pairing (neighbor_distance L ord prec d (AnInt (Z.of_nat (S n))))) as Hj. rewrite Ej in Hj.
  pose proof (chain_nd_cache prec n0 L ord H0 Ho Lp' Np Ev d (AnInt (Z.of_nat (S n))) W) as W2.
  pose proof (chain_nd prec n0 L ord H0 Ho Lp' Np Ev _ n W2) as Ej'. pose proof (chain_nth prec n0 L H0 Lp' Np Ev n) as Nj'.
  pose proof (view_tenth prec Hpr) as VT. pose proof (view_pos prec) as VP.
  assert (Gap : forall m, ~ rounded_distance prec L (IZR (Z.of_nat m) + view prec)).
  { intros m Hm. apply (chain_is_rounded prec n0 L H0 Lp' Np Ev) in Hm as (k & _ & Ek). assert (A : IZR (Z.of_nat m) < IZR k) by lra. assert (B : IZR k < IZR (Z.of_nat m + 1)) by (rewrite plus_IZR; lra). apply lt_IZR in A. apply lt_IZR in B. lia. }
  assert (Len : forall k, valid L k -> exists m, len L k = IZR m).
  { intros k (V1 & V2 & V3). rewrite Ev in V3. destruct (by_ k) as [|c [|]] eqn:Ec; try discriminate. exists (Z.abs (Z.of_nat (to k) - Z.of_nat (from k) + n0 * c)). rewrite <- (chain_between n0 L Lp' Np Ev) by assumption.
    unfold len, head, tail, between. rewrite Ec. apply dist_sym. }
  assert (Dst : forall i j, (i < j < List.length (points L))%nat -> exists m, dist (nth i (points L) v0) (nth j (points L) v0) = IZR m).
  { intros i j Hij. destruct (Len (Link j i [0%Z])) as (m & Em); [repeat split; cbn [from to by_]; [lia|lia|now rewrite Ev]|]. exists m. rewrite <- Em. unfold len, head, tail. cbn [from to by_].
    assert (S0 : shift [0%Z] (vectors L) = v0) by (rewrite Ev; unfold shift; cbn; apply p3_eq; ring). rewrite S0, vadd_0_r. apply dist_sym. }
  assert (Rnd : forall m, rounded prec (IZR m) = IZR m). { intros m. unfold rounded. now rewrite rint_int_zoom, back_zoom. }
  destruct (C36_exact prec L ord pord fuel d n only fold intra (Some inter) _ _ _ Ho Hpo HL Hr Ni Hres (or_intror Sp) Hj Ej' Nj Nj' (Gap _) (fun _ => Gap _)) as (Hin & J & T & EJ & HT & Hall); [|exact Eb|].
  { intros k Hk _ [A B]. exfalso. destruct (Len k Hk) as (m & Em). rewrite Em in A, B. assert (C : IZR m < IZR (Z.of_nat (S n) + 1)) by (rewrite plus_IZR; lra). apply lt_IZR in A. apply lt_IZR in C. lia. }
  injection EJ as <-. exists T. split; [exact Eb|].
  assert (PQ : forall k, valid L k -> ((if only then rounded prec (len L k) = IZR (Z.of_nat (S n)) else rounded prec (len L k) <= IZR (Z.of_nat (S n))) <-> P (len L k))).
  { intros k Hk. destruct (Len k Hk) as (m & ->). rewrite Rnd. unfold P. reflexivity. }
  split; [|split].
  - revert Hin. apply intra_iff. intros i j Hij. destruct (Dst i j Hij) as (m & ->). rewrite Rnd. unfold P. reflexivity.
  - revert HT. apply inter_iff. exact PQ.
  - intros k Vk Ck Pk. apply Hall; auto. now apply PQ.
Qed.
Print Assumptions C37_chain.
(** Non-vacuity: a chain of seven sites. *)
Example chain_cluster_case : exists L d0, lattice_generator 4 (Name "chain") (AnInt 7) (AnInt 1) (AnInt 1) = Ok (L, d0) /\ listing (fun l : list (list Z) => l) /\ reachable 4 L (fun l => l) d0 d0.
Proof.
  destruct (C37_generator 4 "chain" chain_cell 7 1 1) as (L & d & E & _); try lia; [cbn; tauto|]. exists L, d. split; [exact E|]. split; [intros l; apply Permutation_refl|constructor].
Qed.
