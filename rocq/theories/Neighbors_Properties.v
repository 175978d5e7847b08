(** C35: neighbor_distance. *)
From Coq Require Import List Reals ZArith Bool Arith Lra Lia Permutation Sorted.
From Verif Require Import Py CVec LinSolve Line2D_Model Line2D_Proofs Lattice_Model Lattice_Spec Lattice_Proofs Lattice_Proofs2 Lattice_Proofs3 Lattice_Properties LatticeCases_Properties
  Neighbors_Spec Neighbors_Proofs Neighbors_Proofs2.
Import ListNotations.
Open Scope R_scope.

(** The distances stored by the constructor. *)
Definition fresh (prec : nat) (L : lattice) : list R := all_distances prec (points L).
Lemma fresh_of_constructor prec pts vecs L d : make_lattice prec pts vecs = Ok (L, d) -> d = fresh prec L.
Proof.
  destruct pts as [dim ps|], vecs as [tmp vs|]; cbn [make_lattice]; intros H; try discriminate.
  destruct (Nat.ltb 3 dim); [discriminate|]. destruct (Nat.ltb dim (List.length vs)); [discriminate|]. destruct (negb (Nat.eqb tmp dim)); [discriminate|].
  destruct (existsb _ (pdist vs)); [discriminate|]. destruct (existsb _ (pdist ps)); [discriminate|].
  destruct (solve_columns vs) as [b|]; [|discriminate]. now injection H as <- <-.
Qed.

Lemma points_map L : points L = map (fun i => nth i (points L) v0) (seq 0 (List.length (points L))).
Proof.
  generalize (points L). intros l. induction l as [|p l IH]; [reflexivity|]. cbn [List.length seq map nth]. f_equal. rewrite <- seq_shift, map_map. exact IH.
Qed.
(** the caches that can occur *)
Definition cache_ok (prec : nat) (L : lattice) (d : list R) : Prop :=
  exists l, d = map (fun k => IZR k / zoom prec) (0%Z :: l) /\ StronglySorted Z.lt l /\ (forall z, In z l -> (0 <= z)%Z) /\
    forall z, In z l -> exists i j c, (i < List.length (points L))%nat /\ (j < List.length (points L))%nat /\ List.length c = List.length (vectors L) /\ differ i j c /\ z = rint (between L i j c * zoom prec).
Lemma cache_nonneg prec L i j c : (0 <= rint (between L i j c * zoom prec))%Z.
Proof. apply rint_nonneg, Rmult_le_pos; [apply dist_nonneg|apply Rlt_le, zoom_pos]. Qed.
Lemma fresh_ok prec L : cache_ok prec L (fresh prec L).
Proof.
  exists (zlist prec (points L)). split; [apply all_distances_zlist|]. split; [apply zlist_sorted|].
  assert (K : forall z, In z (zlist prec (points L)) -> exists i j c, (i < List.length (points L))%nat /\ (j < List.length (points L))%nat /\ List.length c = List.length (vectors L) /\ differ i j c /\ z = rint (between L i j c * zoom prec)).
  { intros z Hz. unfold zlist in Hz. rewrite points_map in Hz. rewrite in_zunique in Hz. apply in_map_iff in Hz as (d & <- & Hd).
    apply in_pdist_map in Hd as (i & j & Hi & Hj & N & ->); [|apply seq_NoDup]. apply in_seq in Hi, Hj.
    exists i, j, (repeat 0%Z (List.length (vectors L))). split; [lia|]. split; [lia|]. split; [apply repeat_length|]. split; [now left|].
    unfold between. now rewrite shift_zero, vadd_0_r. }
  split; [|exact K]. intros z Hz. destruct (K z Hz) as (i & j & c & _ & _ & _ & _ & ->). apply cache_nonneg.
Qed.
Lemma window_ok prec L ord S : listing ord -> (0 <= S)%Z -> cache_ok prec L (all_distances prec (sites_factory L ord S false)).
Proof.
  intros Ho HS. exists (zlist prec (sites_factory L ord S false)). split; [apply all_distances_zlist|]. split; [apply zlist_sorted|].
  assert (K : forall z, In z (zlist prec (sites_factory L ord S false)) -> exists i j c, (i < List.length (points L))%nat /\ (j < List.length (points L))%nat /\ List.length c = List.length (vectors L) /\ differ i j c /\ z = rint (between L i j c * zoom prec)).
  { intros z Hz. apply in_zlist in Hz as (i & j & c & A & B & C & _ & D & E); auto. exists i, j, c. auto. }
  split; [|exact K]. intros z Hz. destruct (K z Hz) as (i & j & c & _ & _ & _ & _ & ->). apply cache_nonneg.
Qed.
Lemma nd_cache L ord prec d n : snd (neighbor_distance L ord prec d n) = d \/
  exists m, (0 <= m)%Z /\ n = AnInt m /\ (List.length d <= Z.to_nat m)%nat /\ snd (neighbor_distance L ord prec d n) = all_distances prec (sites_factory L ord m false).
Proof.
  destruct n as [m|]; cbn [neighbor_distance]; [|now left]. destruct (Z.ltb_spec m 0); [now left|]. destruct (nth_error d (Z.to_nat m)) eqn:E; [now left|].
  right. exists m. split; [lia|]. split; [reflexivity|]. split; [now apply nth_error_None|reflexivity].
Qed.
Lemma reachable_ok prec L ord d : listing ord -> reachable prec L ord (fresh prec L) d -> cache_ok prec L d.
Proof.
  intros Ho H. induction H as [|d n H IH]; [apply fresh_ok|]. destruct (nd_cache L ord prec d n) as [-> | (m & Hm & _ & _ & ->)]; [exact IH|]. now apply window_ok.
Qed.
Lemma cache_rounded prec L d v : points L <> [] -> cache_ok prec L d -> In v d -> rounded_distance prec L v.
Proof.
  intros Hp (l & -> & _ & _ & K) Hv. apply in_map_iff in Hv as (z & <- & Hz). apply rounded_iff; [exact Hp|]. exists z. split; [reflexivity|].
  destruct Hz as [<-|Hz]; [now left|right]. destruct (K z Hz) as (i & j & c & H). eauto 8.
Qed.
Lemma cache_monotone prec L d m n u v : cache_ok prec L d -> (m <= n)%nat -> nth_error d m = Some u -> nth_error d n = Some v -> u <= v.
Proof.
  intros (l & -> & Hs & Pos & _) Hmn Eu Ev. rewrite nth_error_map in Eu, Ev.
  destruct (nth_error (0%Z :: l) m) as [a|] eqn:Ea; [|discriminate]. destruct (nth_error (0%Z :: l) n) as [b|] eqn:Eb; [|discriminate]. injection Eu as <-. injection Ev as <-.
  assert (H : (a <= b)%Z).
  { destruct m as [|m]; [|destruct n as [|n]; [lia|]].
    - injection Ea as <-. apply nth_error_In in Eb as [<-|Hb]; [lia|auto].
    - cbn in Ea, Eb. destruct (Nat.eq_dec m n) as [->|N]; [rewrite Ea in Eb; injection Eb as <-; lia|]. pose proof (sorted_nth_lt l Hs m n a b Ea Eb ltac:(lia)). lia. }
  apply IZR_le in H. unfold Rdiv. apply Rmult_le_compat_r; [|exact H]. apply Rlt_le, Rinv_0_lt_compat, zoom_pos.
Qed.
Lemma nd_entry L ord prec d m n v : neighbor_distance L ord prec d (AnInt n) = (Ok v, snd (neighbor_distance L ord prec d (AnInt n))) -> (m <= Z.to_nat n)%nat ->
  exists u, nth_error (snd (neighbor_distance L ord prec d (AnInt n))) m = Some u /\ neighbor_distance L ord prec (snd (neighbor_distance L ord prec d (AnInt n))) (AnInt (Z.of_nat m)) = (Ok u, snd (neighbor_distance L ord prec d (AnInt n))).
Proof.
  intros H Hm. assert (K : nth_error (snd (neighbor_distance L ord prec d (AnInt n))) (Z.to_nat n) = Some v).
  { revert H. cbn [neighbor_distance]. destruct (Z.ltb n 0); [discriminate|]. destruct (nth_error d (Z.to_nat n)) eqn:E; cbn [snd].
    - intros [= ->]. (exact E || reflexivity).
    - destruct (nth_error (all_distances _ _) _) eqn:E2; [|discriminate]. intros [= ->]. reflexivity. }
  set (d' := snd (neighbor_distance L ord prec d (AnInt n))) in *. destruct (nth_error d' m) as [u|] eqn:E.
  - exists u. split; [reflexivity|]. cbn [neighbor_distance]. destruct (Z.ltb_spec (Z.of_nat m) 0); [lia|]. now rewrite Nat2Z.id, E.
  - apply nth_error_None in E. assert (Z.to_nat n < List.length d')%nat by (apply nth_error_Some; congruence). lia.
Qed.

(** After any sequence of calls on an instance: a returned value is a rounded
    distance of the lattice, 0 for nth = 0; smaller arguments then return at most
    that value, and repeating the call returns it again. *)
Theorem C35_sound : forall prec L ord d n v d', listing ord -> points L <> [] -> reachable prec L ord (fresh prec L) d ->
  neighbor_distance L ord prec d (AnInt n) = (Ok v, d') ->
  (0 <= n)%Z /\ rounded_distance prec L v /\ (n = 0%Z -> v = 0) /\
  neighbor_distance L ord prec d' (AnInt n) = (Ok v, d') /\
  (forall m, (0 <= m <= n)%Z -> exists u, neighbor_distance L ord prec d' (AnInt m) = (Ok u, d') /\ u <= v).
Proof.
  intros prec L ord d n v d' Ho Hp Hr H.
  assert (Ed : d' = snd (neighbor_distance L ord prec d (AnInt n))) by now rewrite H.
  assert (Ok' : cache_ok prec L d').
  { rewrite Ed. eapply reachable_ok; [exact Ho|]. now apply reach_call. }
  assert (N0 : (0 <= n)%Z) by (destruct (Z.ltb_spec n 0); [|lia]; cbn [neighbor_distance] in H; apply Z.ltb_lt in H0; rewrite H0 in H; discriminate).
  assert (H' : neighbor_distance L ord prec d (AnInt n) = (Ok v, snd (neighbor_distance L ord prec d (AnInt n)))) by (rewrite <- Ed; exact H).
  destruct (nd_entry L ord prec d (Z.to_nat n) n v H' ltac:(lia)) as (v' & Ev & Cv). rewrite <- Ed in Ev, Cv. rewrite Z2Nat.id in Cv by exact N0.
  assert (v' = v).
  { revert H Ev. cbn [neighbor_distance]. destruct (Z.ltb n 0); [discriminate|]. destruct (nth_error d (Z.to_nat n)) eqn:E; [intros [= -> ->] Ev; congruence|].
    destruct (nth_error (all_distances _ _) _) eqn:E2; [|discriminate]. intros [= -> <-] Ev. congruence. }
  subst v'. split; [exact N0|]. split; [eapply cache_rounded; [exact Hp|exact Ok'|eapply nth_error_In, Ev]|]. split.
  - intros ->. destruct Ok' as (l & -> & _). cbn in Ev. injection Ev as <-. unfold Rdiv. ring.
  - split; [exact Cv|]. intros m Hm. destruct (nd_entry L ord prec d (Z.to_nat m) n v H' ltac:(lia)) as (u & Eu & Cu). rewrite <- Ed in Eu, Cu. rewrite Z2Nat.id in Cu by lia.
    exists u. split; [exact Cu|]. eapply cache_monotone; [exact Ok'| |exact Eu|exact Ev]. lia.
Qed.
Print Assumptions C35_sound.

(** Bad arguments are rejected and leave the instance alone; otherwise, if some
    translation vector is at least the tolerance long, there is always an answer
    (whatever the instance stores). *)
Theorem C35_total : forall prec L ord d n,
  ((n = NotInt \/ exists k, n = AnInt k /\ (k < 0)%Z) -> neighbor_distance L ord prec d n = (Err AssertionError, d)) /\
  (listing ord -> points L <> [] -> (exists a, In a (vectors L) /\ view prec <= norm a) ->
   forall k, n = AnInt k -> (0 <= k)%Z -> exists v, fst (neighbor_distance L ord prec d n) = Ok v).
Proof.
  intros prec L ord d n. split.
  - intros [-> | (k & -> & Hk)]; [reflexivity|]. cbn [neighbor_distance]. apply Z.ltb_lt in Hk. now rewrite Hk.
  - intros Ho Hp (a & Ha & Hv) k -> Hk. apply (In_nth _ _ v0) in Ha as (t & Ht & <-). apply view_zoom_le in Hv.
    cbn [neighbor_distance]. destruct (Z.ltb_spec k 0); [lia|]. destruct (nth_error d (Z.to_nat k)) as [x|]; [cbn; eauto|].
    rewrite all_distances_zlist, nth_error_map. cbn [fst]. destruct (Z.to_nat k) as [|m] eqn:Em; [cbn; eauto|]. cbn [nth_error].
    destruct (entry_bound prec L ord k t m Ho Hk Hp Ht Hv ltac:(lia)) as (z & -> & _). cbn. eauto.
Qed.
Print Assumptions C35_total.

(** Vectors with overlap at most 1/2 are wide (lattice_generator's: see C37). *)
Theorem C35_wide : forall vs, reduced (1 / 2) vs -> wide vs.
Proof. exact reduced_wide. Qed.
Print Assumptions C35_wide.

(** When the stored list is too short it is rebuilt, and then the answer is the
    nth distance, and so is the answer for every smaller argument; for wide
    translation vectors and a compact cluster. *)
Theorem C35_recomputed : forall prec L ord d n, listing ord -> lattice_of prec L -> wide (vectors L) -> compact L -> resolved prec L ->
  (List.length d <= n)%nat ->
  exists v d', neighbor_distance L ord prec d (AnInt (Z.of_nat n)) = (Ok v, d') /\ nth_distance prec L n v /\
    forall m, (m <= n)%nat -> exists u, neighbor_distance L ord prec d' (AnInt (Z.of_nat m)) = (Ok u, d') /\ nth_distance prec L m u.
Proof.
  intros prec L ord d n Ho HL Hr Hc Hres Hd. apply lattice_of_facts in HL as (_ & _ & Hk & Hp).
  destruct (entries_right prec L ord (Z.of_nat n) n Ho ltac:(lia) Hp Hk Hr Hc Hres ltac:(lia)) as (v & Ev & Nv).
  exists v, (all_distances prec (sites_factory L ord (Z.of_nat n) false)). split; [|split; [exact Nv|]].
  - cbn [neighbor_distance]. destruct (Z.ltb_spec (Z.of_nat n) 0); [lia|]. rewrite Nat2Z.id. apply nth_error_None in Hd. rewrite Hd, Ev. reflexivity.
  - intros m Hm. destruct (entries_right prec L ord (Z.of_nat n) m Ho ltac:(lia) Hp Hk Hr Hc Hres ltac:(lia)) as (u & Eu & Nu).
    exists u. split; [|exact Nu]. cbn [neighbor_distance]. destruct (Z.ltb_spec (Z.of_nat m) 0); [lia|]. now rewrite Nat2Z.id, Eu.
Qed.
Print Assumptions C35_recomputed.

(** In particular the first call on a cluster of one point is right. *)
Lemma single_compact L p : points L = [p] -> compact L.
Proof.
  intros E p' q Hp Hq. rewrite E in Hp, Hq. destruct Hp as [<-|[]], Hq as [<-|[]]. exists (repeat 0 (List.length (vectors L))), v0.
  split; [apply repeat_length|]. split; [|split].
  - apply Forall_forall. intros t Ht. apply repeat_spec in Ht. subst. rewrite Rabs_R0. lra.
  - intros a _. apply vdot_0_l.
  - rewrite combination_zero. vring.
Qed.
Theorem C35_single : forall prec L p ord n, listing ord -> lattice_of prec L -> points L = [p] -> wide (vectors L) -> resolved prec L ->
  exists v, fst (neighbor_distance L ord prec (fresh prec L) (AnInt (Z.of_nat n))) = Ok v /\ nth_distance prec L n v.
Proof.
  intros prec L p ord n Ho HL Ep Hr Hres. pose proof (lattice_of_facts _ _ HL) as (_ & _ & Hk & Hp).
  assert (F : fresh prec L = [0]) by (unfold fresh; now rewrite Ep).
  destruct n as [|n].
  - exists 0. rewrite F. split; [reflexivity|]. destruct (entries_right prec L ord 0 0 Ho ltac:(lia) Hp Hk Hr (single_compact L p Ep) Hres ltac:(lia)) as (v & Ev & Nv).
    injection Ev as <-. exact Nv.
  - destruct (C35_recomputed prec L ord (fresh prec L) (S n) Ho HL Hr (single_compact L p Ep) Hres) as (v & d' & E & Nv & _); [rewrite F; cbn; lia|].
    exists v. rewrite E. auto.
Qed.
Print Assumptions C35_single.

(** A chain with one point per cell: right after every history, and equal to n
    lattice constants, rounded. *)
Lemma chain_zlist prec L p a ord S z : listing ord -> (0 <= S)%Z -> points L = [p] -> vectors L = [a] ->
  (In z (zlist prec (sites_factory L ord S false)) <-> exists k, (1 <= k <= 2 * S)%Z /\ z = rint (IZR k * (norm a * zoom prec))).
Proof.
  intros Ho HS Ep Ev. rewrite in_zlist by auto. split.
  - intros (i & j & c & Hi & Hj & Lc & Rc & D & ->). rewrite Ep in Hi, Hj. cbn in Hi, Hj. assert (i = O) by lia. assert (j = O) by lia. subst i j.
    rewrite Ev in Lc. destruct c as [|x [|]]; try discriminate. cbn [reach] in Rc. destruct D as [D|(n & [<-|[]] & Nn)]; [congruence|].
    exists (Z.abs x). split; [lia|]. f_equal. unfold between, dist. rewrite vadd_sub. unfold shift. rewrite Ev. cbn [map combination]. rewrite vadd_0_r, norm_scale, abs_IZR. ring.
  - intros (k & Hk & ->). exists 0%nat, 0%nat, [k]. rewrite Ep, Ev. cbn [List.length reach]. repeat (split; [lia|]). split; [right; exists k; cbn; split; [now left|lia]|].
    f_equal. unfold between, dist. rewrite vadd_sub. unfold shift. rewrite Ev. cbn [map combination]. rewrite vadd_0_r, norm_scale, Rabs_right by (apply Rle_ge, IZR_le; lia). ring.
Qed.
Lemma rint_0x x : rint (IZR (Z.of_nat 0) * x) = 0%Z.
Proof. change (IZR (Z.of_nat 0)) with 0. rewrite Rmult_0_l. apply (rint_IZR 0). Qed.
Lemma chain_entry prec L p a ord S m : listing ord -> (0 <= S)%Z -> points L = [p] -> vectors L = [a] -> 1 <= norm a * zoom prec -> (Z.of_nat m <= 2 * S)%Z ->
  nth_error (all_distances prec (sites_factory L ord S false)) m = Some (IZR (rint (IZR (Z.of_nat m) * (norm a * zoom prec))) / zoom prec).
Proof.
  intros Ho HS Ep Ev Hx Hm. rewrite all_distances_zlist, nth_error_map. destruct m as [|m]; [now rewrite rint_0x|]. cbn [nth_error].
  set (x := norm a * zoom prec) in *. set (f := map (fun k => rint (IZR (Z.of_nat k) * x)) (seq 1 m)).
  rewrite (sorted_nth_intro _ f m (rint (IZR (Z.of_nat (Datatypes.S m)) * x)) (zlist_sorted _ _)); [reflexivity| | | |].
  - apply (chain_zlist prec L p a); auto. exists (Z.of_nat (Datatypes.S m)). split; [lia|reflexivity].
  - assert (I : forall i j, rint (IZR (Z.of_nat i) * x) = rint (IZR (Z.of_nat j) * x) -> i = j).
    { intros i j E. destruct (Nat.lt_trichotomy i j) as [H|[H|H]]; [|exact H|]; exfalso.
      - pose proof (rint_multiples x (Z.of_nat i) (Z.of_nat j) Hx ltac:(lia)). lia.
      - pose proof (rint_multiples x (Z.of_nat j) (Z.of_nat i) Hx ltac:(lia)). lia. }
    apply FinFun.Injective_map_NoDup; [exact I|apply seq_NoDup].
  - unfold f. now rewrite map_length, seq_length.
  - intros y. unfold f. rewrite in_map_iff, (chain_zlist prec L p a ord S y) by auto. fold x. split.
    + intros (k & <- & Hk). apply in_seq in Hk. split; [exists (Z.of_nat k); split; [lia|reflexivity]|]. apply rint_multiples; [exact Hx|lia].
    + intros ((k & Hk & ->) & Lt). exists (Z.to_nat k). rewrite Z2Nat.id by lia. split; [reflexivity|]. apply in_seq.
      destruct (Z.le_gt_cases (Z.of_nat (Datatypes.S m)) k) as [H|H]; [|lia]. exfalso.
      assert (rint (IZR (Z.of_nat (Datatypes.S m)) * x) <= rint (IZR k * x))%Z by (apply rint_le, Rmult_le_compat_r; [lra|now apply IZR_le]). lia.
Qed.
Theorem C35_chain : forall prec L p a ord d n, listing ord -> points L = [p] -> vectors L = [a] -> view prec <= norm a ->
  reachable prec L ord (fresh prec L) d ->
  fst (neighbor_distance L ord prec d (AnInt (Z.of_nat n))) = Ok (IZR (rint (IZR (Z.of_nat n) * norm a * zoom prec)) / zoom prec) /\
  nth_distance prec L n (IZR (rint (IZR (Z.of_nat n) * norm a * zoom prec)) / zoom prec).
Proof.
  intros prec L p a ord d n Ho Ep Ev Hv Hr. apply view_zoom_le in Hv. rewrite Rmult_assoc.
  assert (Hp : points L <> []) by (rewrite Ep; discriminate). split.
  - assert (C : d = [0] \/ exists S, (0 <= S)%Z /\ d = all_distances prec (sites_factory L ord S false)).
    { induction Hr as [|d m Hr IH]; [left; unfold fresh; now rewrite Ep|]. destruct (nd_cache L ord prec d m) as [-> | (k & Hk & _ & _ & ->)]; [exact IH|right; eauto]. }
    cbn [neighbor_distance]. destruct (Z.ltb_spec (Z.of_nat n) 0); [lia|]. rewrite Nat2Z.id.
    destruct (nth_error d n) as [v|] eqn:E.
    + cbn [fst]. destruct C as [-> | (S & HS & ->)].
      * destruct n as [|n]; [|destruct n; discriminate]. injection E as <-. rewrite rint_0x. unfold Rdiv. now rewrite Rmult_0_l.
      * destruct (Z.le_gt_cases (Z.of_nat n) (2 * S)) as [H1|H1]; [rewrite (chain_entry prec L p a) in E by auto; now injection E as <-|]. exfalso.
        assert (Hl : (n < List.length (all_distances prec (sites_factory L ord S false)))%nat) by (apply nth_error_Some; congruence).
        rewrite all_distances_zlist, map_length in Hl. cbn [List.length] in Hl.
        assert (I : incl (zlist prec (sites_factory L ord S false)) (map (fun k => rint (IZR (Z.of_nat k) * (norm a * zoom prec))) (seq 1 (Z.to_nat (2 * S))))).
        { intros z Hz. apply (chain_zlist prec L p a) in Hz as (k & Hk & ->); auto. apply in_map_iff. exists (Z.to_nat k). rewrite Z2Nat.id by lia. split; [reflexivity|]. apply in_seq. lia. }
        apply NoDup_incl_length in I; [|apply sorted_nodup, zlist_sorted]. rewrite map_length, seq_length in I. lia.
    + rewrite (chain_entry prec L p a) by (auto; lia). reflexivity.
  - assert (Hred : reduced (1 / 2) (vectors L)) by (apply orthogonal_reduced; [lra|]; apply single_orthogonal; rewrite Ev; cbn; lia).
    assert (Hres : resolved prec L).
    { intros i j ns Hi Hj Ln D. rewrite Ep in Hi, Hj. cbn in Hi, Hj. assert (i = O) by lia. assert (j = O) by lia. subst i j. rewrite Ev in Ln. destruct ns as [|x [|]]; try discriminate.
      destruct D as [D|(k & [<-|[]] & Nk)]; [congruence|]. unfold dist. rewrite vadd_sub. unfold shift. rewrite Ev. cbn [map combination]. rewrite vadd_0_r, norm_scale, <- abs_IZR.
      assert (1 <= IZR (Z.abs x)) by (apply IZR_le; lia). pose proof (zoom_pos prec). pose proof (zoom_view prec). pose proof (norm_nonneg a).
      apply Rle_trans with (1 * norm a); [|apply Rmult_le_compat_r; lra]. rewrite Rmult_1_l. apply (Rmult_le_reg_l (zoom prec)); lra. }
    destruct (entries_right prec L ord (Z.of_nat n) n Ho ltac:(lia) Hp ltac:(rewrite Ev; cbn; lia) (reduced_wide _ Hred) (single_compact L p Ep) Hres ltac:(lia)) as (v & E & Nv).
    rewrite (chain_entry prec L p a) in E by (auto; lia). injection E as <-. exact Nv.
Qed.
Print Assumptions C35_chain.
