(** C36: bonds(1) lists the nearest-neighbour bonds, after every history. *)
From Coq Require Import String List Reals ZArith Bool Arith Lra Lia Permutation Sorted.
From Flocq Require Import Core.Raux.
From Verif Require Import Py CVec LinSolve Line2D_Model Line2D_Proofs Lattice_Model Lattice_Spec Lattice_Proofs Lattice_Proofs2 Lattice_Proofs3 Lattice_Properties LatticeCases_Properties
  Neighbors_Spec Neighbors_Proofs Neighbors_Proofs2 Neighbors_Properties NeighborsCases_Properties LatticeBonds_Spec LatticeBonds_Proofs LatticeBonds_Proofs2 LatticeBonds_Properties LatticeNearest_Spec.
Import ListNotations.
Open Scope R_scope.

Lemma fresh_is_window prec L ord : listing ord -> fresh prec L = all_distances prec (sites_factory L ord 0 false).
Proof.
  intros Hord. unfold fresh. f_equal. unfold sites_factory. assert (T0 : translations L 0 false = []).
  { unfold translations. change (zrange (- 0) (0 + 1)) with [0%Z]. assert (X : forall k, product [0%Z] k = [repeat 0%Z k]) by (induction k as [|k IH]; [reflexivity|]; cbn; now rewrite IH).
    rewrite X. cbn [filter]. replace (zs_eqb _ _) with true; [reflexivity|]. symmetry. clear. induction (List.length (vectors L)) as [|n IH]; [reflexivity|]. cbn. exact IH. }
  rewrite T0. pose proof (Hord []) as Pn. apply Permutation_sym, Permutation_nil in Pn. rewrite Pn. cbn [flat_map]. rewrite app_nil_r, comb_shift, shift_zero.
  rewrite (map_ext _ (fun p => p)) by apply vadd_0_l. symmetry. apply map_id.
Qed.
Lemma reach_0_all cs : (reach cs <= 0)%Z -> forall x, In x cs -> x = 0%Z.
Proof. induction cs as [|y cs IH]; intros H x Hx; [destruct Hx|]. cbn in H. destruct Hx as [->|Hx]; [lia|apply IH; [lia|exact Hx]]. Qed.

Section Nearest.
  Variables (prec : nat) (L : lattice) (ord : list (list Z) -> list (list Z)) (delta : R).
  Hypothesis Hord : listing ord.
  Hypothesis Hp : points L <> [].
  Hypothesis Hk : (1 <= List.length (vectors L))%nat.
  Hypothesis Hpos : view prec <= delta.
  Hypothesis Hgap : next_gap prec L delta.
  Hypothesis Hatt : attained L delta.
  Let z1 : Z := rint (delta * zoom prec).

  Lemma gap_class i j c : (i < List.length (points L))%nat -> (j < List.length (points L))%nat -> List.length c = List.length (vectors L) -> differ i j c ->
    (between L i j c = delta /\ rint (between L i j c * zoom prec) = z1) \/ (delta + 3 * view prec <= between L i j c /\ (z1 + 2 <= rint (between L i j c * zoom prec))%Z).
  Proof.
    intros Hi Hj Lc D. destruct (Hgap i j c Hi Hj Lc D) as [E|E]; fold (between L i j c) in E.
    - left. split; [exact E|]. now rewrite E.
    - right. split; [exact E|]. pose proof (zoom_pos prec) as Z0. apply (Rmult_le_compat_r (zoom prec)) in E; [|lra]. pose proof (zoom_view prec) as ZV.
      pose proof (rint_half (delta * zoom prec)) as B1. pose proof (rint_half (between L i j c * zoom prec)) as B2. fold z1 in B1. apply Rabs_le_inv in B1, B2.
      assert (X : IZR z1 + 2 <= IZR (rint (between L i j c * zoom prec))) by nra. rewrite <- plus_IZR in X. now apply le_IZR.
  Qed.
  Lemma near_resolved : resolved prec L.
  Proof. intros i j c Hi Hj Lc D. destruct (gap_class i j c Hi Hj Lc D) as [[E _]|[E _]]; unfold between in E; [rewrite E; exact Hpos|]. pose proof (view_pos prec) as P. lra. Qed.
  Lemma attained_link : exists i j c, (i < List.length (points L))%nat /\ (j < List.length (points L))%nat /\ List.length c = List.length (vectors L) /\ (reach c <= 1)%Z /\ differ i j c /\ between L i j c = delta /\ (reach c = 0%Z \/ List.length (points L) = 1%nat).
  Proof.
    destruct Hatt as [(i & j & Hij & E)|(N1 & a & Ha & E)].
    - exists i, j, (repeat 0%Z (List.length (vectors L))). split; [lia|]. split; [lia|]. split; [apply repeat_length|]. rewrite reach_zero. split; [lia|]. split; [left; lia|]. split; [|now left].
      unfold between. now rewrite shift_zero, vadd_0_r.
    - apply (In_nth _ _ v0) in Ha as (t & Ht & <-). exists 0%nat, 0%nat, (along (List.length (vectors L)) t 1). split; [lia|]. split; [lia|]. split; [apply along_length|]. rewrite along_reach by exact Ht. split; [cbn; lia|].
      split; [right; now apply along_nonzero|]. split; [|now right]. rewrite between_along by exact Ht. rewrite Rabs_R1, Rmult_1_l. exact E.
  Qed.
  Lemma near_window m : (0 <= m)%Z -> (zlist prec (sites_factory L ord m false) = [] /\ m = 0%Z) \/ exists r, zlist prec (sites_factory L ord m false) = z1 :: r.
  Proof.
    intros Hm. pose proof (zlist_sorted prec (sites_factory L ord m false)) as SS.
    assert (LB : forall z, In z (zlist prec (sites_factory L ord m false)) -> (z1 <= z)%Z).
    { intros z Hz. apply in_zlist in Hz as (i & j & cs & Hi & Hj & Lc & _ & D & ->); auto. destruct (gap_class i j cs Hi Hj Lc D) as [[_ E]|[_ E]]; lia. }
    destruct attained_link as (i & j & c & Hi & Hj & Lc & Rc & D & E & Or).
    assert (In1 : (zlist prec (sites_factory L ord m false) = [] /\ m = 0%Z) \/ In z1 (zlist prec (sites_factory L ord m false))).
    { destruct (Z.eq_dec m 0) as [->|N0].
      - destruct Or as [R0|N1].
        + right. apply in_zlist; auto. exists i, j, c. repeat (split; [assumption|]). split; [lia|]. split; [exact D|]. now rewrite E.
        + left. split; [|reflexivity]. destruct (zlist prec (sites_factory L ord 0 false)) as [|z r] eqn:Ez; [reflexivity|exfalso].
          assert (Hz : In z (zlist prec (sites_factory L ord 0 false))) by (rewrite Ez; now left). apply in_zlist in Hz as (i' & j' & cs & Hi' & Hj' & Lc' & Rc' & D' & _); auto; try lia.
          destruct D' as [D'|(x & Hx & Nx)]; [lia|]. apply Nx. apply (reach_0_all cs); [lia|exact Hx].
      - right. apply in_zlist; auto. exists i, j, c. repeat (split; [assumption|]). split; [lia|]. split; [exact D|]. now rewrite E. }
    destruct In1 as [In1|In1]; [now left|right]. destruct (zlist prec (sites_factory L ord m false)) as [|z r] eqn:Ez; [destruct In1|].
    exists r. f_equal. pose proof (LB z (or_introl eq_refl)) as Q. destruct In1 as [E1|In1]; [congruence|]. inversion SS as [|? ? _ F]; subst. rewrite Forall_forall in F. specialize (F _ In1). lia.
  Qed.
  Lemma near_cache d : reachable prec L ord (fresh prec L) d -> exists m, (0 <= m)%Z /\ d = all_distances prec (sites_factory L ord m false).
  Proof. intros Hr. induction Hr as [|d n Hr IH]; [exists 0%Z; split; [lia|now apply fresh_is_window]|]. destruct (nd_cache L ord prec d n) as [-> | (m & Hm & _ & _ & ->)]; [exact IH|eauto]. Qed.
  Lemma near_distance d : reachable prec L ord (fresh prec L) d -> fst (neighbor_distance L ord prec d (AnInt 1)) = Ok (rounded prec delta).
  Proof.
    intros Hr. destruct (near_cache d Hr) as (m & Hm & ->). cbn [neighbor_distance]. change (1 <? 0)%Z with false. cbn iota. change (Z.to_nat 1) with 1%nat. rewrite !all_distances_zlist. cbn [map nth_error].
    destruct (near_window m Hm) as [[-> _]|(r & ->)]; [|reflexivity]. cbn [map nth_error]. destruct (near_window 1 ltac:(lia)) as [[_ X]|(r & ->)]; [discriminate|]. reflexivity.
  Qed.
  Lemma near_zero d : reachable prec L ord (fresh prec L) d -> fst (neighbor_distance L ord prec d (AnInt 0)) = Ok 0.
  Proof.
    intros Hr. destruct (near_cache d Hr) as (m & Hm & ->). cbn [neighbor_distance]. change (0 <? 0)%Z with false. cbn iota. change (Z.to_nat 0) with 0%nat. rewrite !all_distances_zlist. cbn [map nth_error].
    cbn [fst]. f_equal. unfold Rdiv. ring.
  Qed.
  Lemma near_rounded v : rounded_distance prec L v -> v = 0 \/ v = rounded prec delta \/ exists z, v = IZR z / zoom prec /\ (z1 + 2 <= z)%Z.
  Proof.
    intros H. apply (rounded_iff prec L v Hp) in H as (z & -> & [->|(i & j & cs & Hi & Hj & Lc & D & ->)]); [left; unfold Rdiv; ring|right].
    destruct (gap_class i j cs Hi Hj Lc D) as [[_ ->]|[_ E]]; [now left|right; eauto].
  Qed.
  Lemma z1_pos : (1 <= z1)%Z.
  Proof. apply rint_pos. now apply view_zoom_le. Qed.
  Lemma unit_le a b : (a < b)%Z -> IZR a / zoom prec < IZR b / zoom prec.
  Proof. apply unit_div_lt. Qed.
  Lemma zero_rounded : rounded_distance prec L 0.
  Proof. apply (rounded_iff prec L 0 Hp). exists 0%Z. split; [unfold Rdiv; ring|now left]. Qed.
  Lemma near_nth1 : nth_distance prec L 1 (rounded prec delta).
  Proof.
    assert (P1 : 0 < rounded prec delta) by (unfold rounded; fold z1; replace 0 with (IZR 0 / zoom prec) by (unfold Rdiv; ring); apply unit_le; pose proof z1_pos; lia).
    split.
    - destruct attained_link as (i & j & c & Hi & Hj & Lc & _ & D & E & _). apply (rounded_iff prec L _ Hp). exists z1. split; [reflexivity|right]. exists i, j, c. repeat (split; [assumption|]). now rewrite E.
    - exists [0]. split; [repeat constructor; intros []|]. split; [reflexivity|]. intros u. split.
      + intros [<-|[]]. split; [apply zero_rounded|exact P1].
      + intros [Hu Lu]. destruct (near_rounded u Hu) as [->|[->|(z & -> & Hz)]]; [now left|lra|exfalso]. unfold rounded in Lu. fold z1 in Lu. apply unit_div_lt in Lu. lia.
  Qed.
  Lemma near_nth0 : nth_distance prec L 0 0.
  Proof.
    split; [apply zero_rounded|]. exists []. split; [constructor|]. split; [reflexivity|]. intros u. split; [intros []|]. intros [Hu Lu]. pose proof z1_pos as Z1.
    assert (P : forall z, (1 <= z)%Z -> 0 < IZR z / zoom prec) by (intros z Hz; replace 0 with (IZR 0 / zoom prec) by (unfold Rdiv; ring); apply unit_le; lia).
    destruct (near_rounded u Hu) as [->|[->|(z & -> & Hz)]]; [lra|specialize (P z1 Z1); unfold rounded in Lu; fold z1 in Lu; lra|specialize (P z ltac:(lia)); lra].
  Qed.
  Lemma near_no_next : ~ rounded_distance prec L (rounded prec delta + view prec).
  Proof.
    unfold rounded. fold z1. rewrite unit_succ. intros H. pose proof z1_pos as Z1. destruct (near_rounded _ H) as [E|[E|(z & E & Hz)]].
    - assert (0 < IZR (z1 + 1) / zoom prec) by (replace 0 with (IZR 0 / zoom prec) by (unfold Rdiv; ring); apply unit_le; lia). lra.
    - unfold rounded in E. fold z1 in E. apply unit_div_inj in E. lia.
    - apply unit_div_inj in E. lia.
  Qed.
  (** which lengths round to the nearest one *)
  Lemma near_pred (only : bool) i j c : (i < List.length (points L))%nat -> (j < List.length (points L))%nat -> List.length c = List.length (vectors L) -> differ i j c ->
    (if only then rounded prec (between L i j c) = rounded prec delta else rounded prec (between L i j c) <= rounded prec delta) <-> between L i j c = delta.
  Proof.
    intros Hi Hj Lc D. destruct (gap_class i j c Hi Hj Lc D) as [[E _]|[E Z]].
    - rewrite E. split; [reflexivity|]. intros _. destruct only; [reflexivity|lra].
    - split; [|intros X; rewrite X in Z; fold z1 in Z; lia]. intros X. exfalso. assert (Y : IZR z1 / zoom prec < rounded prec (between L i j c)) by (unfold rounded; apply unit_le; lia).
      unfold rounded in X at 2. unfold rounded in X at 3. fold z1 in X. destruct only; lra.
  Qed.
End Nearest.

Lemma len_between L k : len L k = between L (to k) (from k) (by_ k).
Proof. unfold len, between, head, tail. apply dist_sym. Qed.

(** If delta is the nearest-neighbour distance, well separated from the next one
    and not lowered by the rounding, then after every history bonds(1) lists each
    pair of sites delta apart once, and no other pair. *)
Theorem C36_nearest : forall prec L ord pord d delta only fold, listing ord -> listing pord -> lattice_of prec L -> nice L -> separated (view prec) L ->
  view prec <= delta -> next_gap prec L delta -> attained L delta -> delta <= rounded prec delta -> reachable prec L ord (fresh prec L) d ->
  exists F, forall fuel, (F <= fuel)%nat -> exists intra inter T, fst (bonds L ord pord fuel prec d (AnInt 1) only fold) = Some (Ok (intra, Some inter)) /\
    lists_intra L (fun x => x = delta) intra /\ lists_inter L (fun x => x = delta) fold inter T /\
    forall k, valid L k -> crossing k -> len L k = delta -> In k T \/ In (opposite k) T.
Proof.
  intros prec L ord pord d delta only fold Ho Hpo HL Hni Hsep Hpos Hgap Hatt Hup Hr. pose proof (lattice_of_facts _ _ HL) as (_ & _ & Hk & Hp).
  pose proof (near_resolved prec L delta Hpos Hgap) as Hres.
  assert (V : exists a, In a (vectors L) /\ view prec <= norm a).
  { exists (nth 0 (vectors L) v0). split; [now apply nth_In|]. pose proof (resolved_vectors prec L 0 Hres Hp Hk) as V. pose proof (zoom_pos prec) as Z. pose proof (zoom_view prec) as ZV. apply (Rmult_le_reg_r (zoom prec)); [exact Z|lra]. }
  destruct (C36_total prec L ord pord d 1 only fold Ho Hpo HL Hni Hsep V Hr ltac:(lia)) as (F & HF). exists F. intros fuel Hf. destruct (HF fuel Hf) as (intra & inter & Eb).
  assert (Ej : fst (neighbor_distance L ord prec d (AnInt 1)) = Ok (rounded prec delta)) by (now apply near_distance). pose proof (reach_call prec L ord (fresh prec L) d (AnInt 1) Hr) as Hr2.
  assert (Ej' : fst (neighbor_distance L ord prec (snd (neighbor_distance L ord prec d (AnInt 1))) (AnInt 0)) = Ok 0) by (now apply (near_zero prec L ord delta)). pose proof (surjective_pairing (neighbor_distance L ord prec d (AnInt 1))) as Hj. rewrite Ej in Hj.
  assert (N1 : nth_distance prec L 1 (rounded prec delta)) by (now apply near_nth1). assert (N0 : nth_distance prec L 0 0) by (now apply (near_nth0 prec L delta)).
  destruct (C36_exact prec L ord pord fuel d 0 only fold intra (Some inter) _ _ _ Ho Hpo HL Hr Hni Hres (or_intror Hsep) Hj Ej' N1 N0) as (Hin & J & T & EJ & (NT & HT & PT) & Hall); [|lia| |exact Eb|].
  { now apply near_no_next. }
  { intros k (V1 & V2 & V3) Ck [K1 K2]. exfalso. rewrite len_between in K1, K2. assert (D : differ (to k) (from k) (by_ k)) by (right; exact Ck).
    assert (GC : (between L (to k) (from k) (by_ k) = delta) \/ (rint (delta * zoom prec) + 2 <= rint (between L (to k) (from k) (by_ k) * zoom prec))%Z) by (destruct (gap_class prec L delta) with (i := to k) (j := from k) (c := by_ k) as [[E _]|[_ E]]; auto). destruct GC as [E|E]; [lra|].
    pose proof (zoom_pos prec) as Z0. pose proof (zoom_view prec) as ZV. unfold rounded in K1, K2. rewrite unit_succ in K2. set (z1 := rint (delta * zoom prec)) in *.
    apply (Rmult_le_compat_r (zoom prec)) in K2; [|lra]. rewrite unit_times in K2. pose proof (rint_le _ _ K2) as Q. rewrite rint_IZR in Q. lia. }
  injection EJ as <-. exists intra, inter, T. split; [exact Eb|].
  assert (PL : forall k, valid L k -> crossing k -> ((if only then rounded prec (len L k) = rounded prec delta else rounded prec (len L k) <= rounded prec delta) <-> len L k = delta)).
  { intros k (V1 & V2 & V3) Ck. rewrite len_between. apply near_pred; auto. right. exact Ck. }
  split; [|split].
  - destruct Hin as (I & NI & HI & PI). exists I. split; [exact NI|]. split; [|exact PI]. intros i j. rewrite HI. split; intros [A B]; (split; [exact A|]);
      assert (Q : (if only then rounded prec (between L i j (repeat 0%Z (List.length (vectors L)))) = rounded prec delta else rounded prec (between L i j (repeat 0%Z (List.length (vectors L)))) <= rounded prec delta) <-> between L i j (repeat 0%Z (List.length (vectors L))) = delta) by (apply near_pred; auto; [lia|lia|apply repeat_length|left; lia]);
      unfold between in Q; rewrite shift_zero, vadd_0_r in Q; now apply Q.
  - split; [exact NT|]. split; [|exact PT]. intros k Hk2. destruct (HT k Hk2) as (A & B & C & D). repeat (split; [assumption|]). split; [now apply PL|exact D].
  - intros k A B C. apply Hall; auto. now apply PL.
Qed.
Print Assumptions C36_nearest.

(** If the rounding lowers delta, no copy of the cluster is searched: bonds(1)
    lists the nearest-neighbour pairs of the cluster and no pair leaving it. *)
Theorem C36_nearest_lowered : forall prec L ord pord d delta only fold, listing ord -> listing pord -> lattice_of prec L -> nice L -> separated (view prec) L ->
  view prec <= delta -> next_gap prec L delta -> attained L delta -> rounded prec delta < delta -> reachable prec L ord (fresh prec L) d ->
  exists F, forall fuel, (F <= fuel)%nat -> exists intra, fst (bonds L ord pord fuel prec d (AnInt 1) only fold) = Some (Ok (intra, Some [])) /\
    lists_intra L (fun x => x = delta) intra.
Proof.
  intros prec L ord pord d delta only fold Ho Hpo HL Hni Hsep Hpos Hgap Hatt Hdown Hr. pose proof (lattice_of_facts _ _ HL) as (_ & _ & Hk & Hp).
  pose proof (near_resolved prec L delta Hpos Hgap) as Hres.
  assert (V : exists a, In a (vectors L) /\ view prec <= norm a).
  { exists (nth 0 (vectors L) v0). split; [now apply nth_In|]. pose proof (resolved_vectors prec L 0 Hres Hp Hk) as V. pose proof (zoom_pos prec) as Z. pose proof (zoom_view prec) as ZV. apply (Rmult_le_reg_r (zoom prec)); [exact Z|lra]. }
  destruct (C36_total prec L ord pord d 1 only fold Ho Hpo HL Hni Hsep V Hr ltac:(lia)) as (F & HF). exists F. intros fuel Hf. destruct (HF fuel Hf) as (intra & inter & Eb).
  assert (Ej : fst (neighbor_distance L ord prec d (AnInt 1)) = Ok (rounded prec delta)) by (now apply near_distance).
  pose proof (surjective_pairing (bonds L ord pord fuel prec d (AnInt 1) only fold)) as Es. rewrite Eb in Es.
  destruct (C36_bonds prec L ord pord fuel d 1 only fold intra (Some inter) _ Ho Hpo HL Hr ltac:(lia) Es) as (judge & lo & J & T & Ej2 & Hlo & Hin & _). rewrite Ej in Ej2. injection Ej2 as <-.
  unfold lower_bound in Hlo. rewrite andb_false_r in Hlo. subst lo.
  apply bonds_inv in Es as (judge & scope & lo & J' & pairs & Ej2 & Eg & _ & EJ & El & _ & Ip); auto; [|lia]. rewrite Ej in Ej2. injection Ej2 as <-. injection EJ as <-.
  assert (Lay1 : forall c p q, List.length c = List.length (vectors L) -> reach c = 1%Z -> In p (points L) -> In q (points L) -> delta <= dist (vadd (shift c (vectors L)) p) q).
  { intros c p q Lc Rc Hip Hiq. apply (In_nth _ _ v0) in Hip as (i & Hi & <-), Hiq as (j & Hj & <-). rewrite (vadd_comm (shift c (vectors L))). destruct (Hgap i j c Hi Hj Lc) as [E|E].
    - right. destruct (all_zero_dec c) as [H|H]; [exact H|exfalso]. assert (Z : reach c = 0%Z). { clear - H. induction c as [|x c IH]; [reflexivity|]. cbn. rewrite (H x) by now left. rewrite IH; [reflexivity|]. intros n Hn. apply H. now right. } lia.
    - lra.
    - pose proof (view_pos prec). lra. }
  assert (S0 : scope = 0%Z).
  { assert (Sn : (0 <= scope)%Z) by (eapply scope_nonneg; eauto; pose proof (rint_nonneg (delta * zoom prec)) as Q; pose proof (zoom_pos prec) as Z0; pose proof (view_pos prec) as VP; unfold rounded; apply Rmult_le_pos; [apply IZR_le, Q; nra|apply Rlt_le, Rinv_0_lt_compat, Z0]).
    apply guess_loop_spec in Eg as (_ & _ & Below). destruct (Z.eq_dec scope 0) as [E|N]; [exact E|exfalso].
    destruct (Below 0%Z ltac:(lia)) as (m & Em & Hm). destruct (edge_min_spec L 0 Hk Hp ltac:(lia)) as (m' & Em' & _ & (c & p & q & Lc & Rc & Hip & Hiq & ->)). rewrite Em in Em'. injection Em' as ->.
    pose proof (Lay1 c p q Lc Rc Hip Hiq). lra. }
  subst scope. assert (Ln : List.length (sites_factory L ord 0 true) = List.length (points L)).
  { unfold sites_factory. assert (T0 : translations L 0 true = []).
    { unfold translations. change (zrange (- 0) (0 + 1)) with [0%Z]. assert (X : forall k, product [0%Z] k = [repeat 0%Z k]) by (induction k as [|k IH]; [reflexivity|]; cbn; now rewrite IH).
      rewrite X. cbn [fold_left existsb app filter]. replace (zs_eqb _ _) with true; [reflexivity|]. symmetry. clear. induction (List.length (vectors L)) as [|n IH]; [reflexivity|]. cbn. exact IH. }
    rewrite T0. pose proof (Ho []) as Pn. apply Permutation_sym, Permutation_nil in Pn. rewrite Pn. cbn [flat_map]. now rewrite app_nil_r, map_length. }
  apply bond_loop_spec in El as (_ & Ei & _). cbn [app] in Ei.
  assert (Nil : filter (is_inter L) pairs = []).
  { destruct (filter (is_inter L) pairs) as [|[a b] r] eqn:Ef; [reflexivity|exfalso]. assert (I : In (a, b) (filter (is_inter L) pairs)) by (rewrite Ef; now left). apply filter_In in I as [I1 I2].
    apply Ip in I1 as [I1 _]. rewrite Ln in I1. unfold is_inter in I2. cbn [fst snd] in I2. apply andb_true_iff in I2 as [I2 _]. apply negb_true_iff, Nat.ltb_ge in I2. lia. }
  rewrite Nil in Ei. cbn [map] in Ei. subst inter. exists intra. split; [exact Eb|].
  destruct Hin as (I & NI & HI & PI). exists I. split; [exact NI|]. split; [|exact PI]. intros i j. rewrite HI. pose proof (zoom_pos prec) as Z0. pose proof (zoom_view prec) as ZV. pose proof (view_pos prec) as VP.
  assert (Half : rounded prec delta - view prec < delta < rounded prec delta + view prec).
  { unfold rounded. pose proof (rint_half (delta * zoom prec)) as B. apply Rabs_le_inv in B. split; apply (Rmult_lt_reg_r (zoom prec)); try exact Z0; [rewrite Rmult_minus_distr_r|rewrite Rmult_plus_distr_r]; rewrite unit_times, (Rmult_comm (view prec)), ZV; lra. }
  split; intros [A B]; (split; [exact A|]).
  - destruct B as [_ B]. destruct (Hgap i j (repeat 0%Z (List.length (vectors L))) ltac:(lia) ltac:(lia) (repeat_length _ _) ltac:(left; lia)) as [E|E]; rewrite shift_zero, vadd_0_r in E; [exact E|lra].
  - split; [exact Logic.I|]. rewrite B. lra.
Qed.
Print Assumptions C36_nearest_lowered.
