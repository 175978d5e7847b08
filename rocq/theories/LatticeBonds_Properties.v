(** C36: Lattice.bonds. *)
From Coq Require Import List Reals ZArith Bool Arith Lra Lia Permutation.
From Flocq Require Import Core.Raux.
From Verif Require Import Py CVec LinSolve Line2D_Model Line2D_Proofs Lattice_Model Lattice_Spec Lattice_Proofs Lattice_Proofs2 Lattice_Proofs3 Lattice_Properties LatticeCases_Properties
  Neighbors_Spec Neighbors_Proofs Neighbors_Proofs2 Neighbors_Properties NeighborsCases_Properties LatticeBonds_Spec LatticeBonds_Proofs LatticeBonds_Proofs2.
Import ListNotations.
Open Scope R_scope.

(** nth = 0: one onsite bond for every point, and no second list. *)
Theorem C36_onsite : forall L ord pord fuel prec d only fold,
  bonds L ord pord fuel prec d (AnInt 0) only fold = (Some (Ok (map (fun p => (p, p)) (points L), None)), d) /\
  forall n, (n = NotInt \/ exists k, n = AnInt k /\ (k < 0)%Z) -> bonds L ord pord fuel prec d n only fold = (Some (Err AssertionError), d).
Proof.
  intros. split; [reflexivity|]. intros n [-> | (k & -> & Hk)]; [reflexivity|]. unfold bonds. apply Z.ltb_lt in Hk. now rewrite Hk.
Qed.
Print Assumptions C36_onsite.

Lemma nd_pair L ord prec d n : neighbor_distance L ord prec d n = (fst (neighbor_distance L ord prec d n), snd (neighbor_distance L ord prec d n)).
Proof. apply surjective_pairing. Qed.
(** A call of bonds leaves a cache that calls of neighbor_distance can leave too,
    so the histories of C35 cover both methods. *)
Theorem C36_history : forall prec L ord pord fuel d n only fold, reachable prec L ord (fresh prec L) d ->
  reachable prec L ord (fresh prec L) (snd (bonds L ord pord fuel prec d n only fold)).
Proof.
  intros prec L ord pord fuel d [n|] only fold Hr; [|exact Hr]. unfold bonds.
  destruct (n <? 0)%Z; [exact Hr|]. destruct (n =? 0)%Z; [exact Hr|].
  pose proof (reach_call prec L ord (fresh prec L) d (AnInt n) Hr) as Hr1. destruct (neighbor_distance L ord prec d (AnInt n)) as [[judge|e] d1]; cbn [snd] in Hr1; [|exact Hr1].
  destruct (guess_scope L fuel judge) as [[sc|e]|]; try exact Hr1. destruct (only && (1 <? n)%Z)%bool.
  - pose proof (reach_call prec L ord (fresh prec L) d1 (AnInt (n - 1)) Hr1) as Hr2. destruct (neighbor_distance L ord prec d1 (AnInt (n - 1))) as [[judge'|e] d2]; exact Hr2.
  - exact Hr1.
Qed.
Print Assumptions C36_history.

Definition lower_bound (L : lattice) (ord : list (list Z) -> list (list Z)) (prec : nat) (d1 : list R) (n : Z) (only : bool) (lo : option R) : Prop :=
  if (only && (1 <? n)%Z)%bool then exists judge', fst (neighbor_distance L ord prec d1 (AnInt (n - 1))) = Ok judge' /\ lo = Some (judge' + view prec) else lo = None.
Lemma bonds_inv L ord pord fuel prec d n only fold intra inter d2 : listing pord -> (1 <= n)%Z ->
  bonds L ord pord fuel prec d (AnInt n) only fold = (Some (Ok (intra, inter)), d2) ->
  exists judge scope lo J pairs, fst (neighbor_distance L ord prec d (AnInt n)) = Ok judge /\ guess_scope L fuel judge = Some (Ok scope) /\
    lower_bound L ord prec (snd (neighbor_distance L ord prec d (AnInt n))) n only lo /\ inter = Some J /\
    bond_loop L fuel prec fold (sites_factory L ord scope true) pairs [] [] = Some (Ok (intra, J)) /\ NoDup pairs /\
    forall a b, In (a, b) pairs <-> (a < b < List.length (sites_factory L ord scope true))%nat /\
      (exceeds lo (dist (nth a (sites_factory L ord scope true) v0) (nth b (sites_factory L ord scope true) v0)) /\
       dist (nth a (sites_factory L ord scope true) v0) (nth b (sites_factory L ord scope true) v0) <= judge + view prec).
Proof.
  intros Hpo Hn H. unfold bonds in H. destruct (Z.ltb_spec n 0); [lia|]. destruct (Z.eqb_spec n 0); [lia|].
  destruct (neighbor_distance L ord prec d (AnInt n)) as [[judge|e] d1] eqn:Ed; [|discriminate]. destruct (guess_scope L fuel judge) as [[scope|e]|] eqn:Eg; try discriminate.
  cbn [fst snd]. set (sites := sites_factory L ord scope true) in *. exists judge, scope. unfold lower_bound.
  assert (K : forall inner lo, (forall a b, In (a, b) (query_pairs sites (judge + view prec)) -> In (a, b) inner <-> ~ exceeds lo (dist (nth a sites v0) (nth b sites v0))) ->
    let pairs := pord (filter (fun ij => negb (existsb (pair_eqb ij) inner)) (query_pairs sites (judge + view prec))) in
    NoDup pairs /\ forall a b, In (a, b) pairs <-> (a < b < List.length sites)%nat /\ (exceeds lo (dist (nth a sites v0) (nth b sites v0)) /\ dist (nth a sites v0) (nth b sites v0) <= judge + view prec)).
  { intros inner lo Hi pairs. split; [eapply Permutation_NoDup; [symmetry; apply Hpo|]; apply NoDup_filter, nodup_query_pairs|].
    intros a b. assert (Pm : In (a, b) pairs <-> In (a, b) (filter (fun ij => negb (existsb (pair_eqb ij) inner)) (query_pairs sites (judge + view prec)))) by (split; apply Permutation_in; [apply Hpo|symmetry; apply Hpo]).
    rewrite Pm, filter_In. rewrite negb_true_iff. rewrite <- not_true_iff_false, existsb_pair. split.
    - intros [Hq Hni]. rewrite (Hi a b Hq) in Hni. apply in_query_pairs in Hq as [A B]. split; [exact A|]. split; [|exact B].
      destruct lo as [x|]; cbn in *; [|exact I]. destruct (Rlt_dec x (dist (nth a sites v0) (nth b sites v0))); [assumption|tauto].
    - intros [A [B C]]. assert (Hq : In (a, b) (query_pairs sites (judge + view prec))) by (apply in_query_pairs; auto). split; [exact Hq|]. rewrite (Hi a b Hq). tauto. }
  destruct (only && (1 <? n)%Z)%bool eqn:Eo.
  - destruct (neighbor_distance L ord prec d1 (AnInt (n - 1))) as [[judge'|e] d2'] eqn:Ed2; [|discriminate]. cbn [fst].
    exists (Some (judge' + view prec)). destruct (bond_loop _ _ _ _ _ _ _ _) as [[[I J]|e]|] eqn:Eb in H; try discriminate. injection H as <- <- _.
    exists J. eexists. split; [reflexivity|]. split; [exact Eg|]. split; [eauto|]. split; [reflexivity|]. split; [exact Eb|]. apply K.
    intros a b Hq. rewrite in_query_pairs. apply in_query_pairs in Hq as [A _]. cbn [exceeds]. split; [intros [_ B]; lra|intros B; split; [exact A|lra]].
  - exists None. destruct (bond_loop _ _ _ _ _ _ _ _) as [[[I J]|e]|] eqn:Eb in H; try discriminate. injection H as <- <- _.
    exists J. eexists. split; [reflexivity|]. split; [exact Eg|]. split; [reflexivity|]. split; [reflexivity|]. split; [exact Eb|]. apply K.
    intros a b _. cbn. tauto.
Qed.
Lemma scope_nonneg L fuel ref r : (1 <= List.length (vectors L))%nat -> points L <> [] -> 0 <= ref -> guess_scope L fuel ref = Some (Ok r) -> (0 <= r)%Z.
Proof.
  intros Hk Hp H0 Hg. apply guess_loop_spec in Hg as (A & (m & Em & Hm) & _). destruct (Z.eq_dec r (-1)) as [->|]; [exfalso|lia].
  destruct (edge_min_spec L (-1) Hk Hp ltac:(lia)) as (m' & Em' & Lo & _). rewrite Em in Em'. injection Em' as <-.
  destruct (points L) as [|p ps] eqn:E; [contradiction|].
  specialize (Lo (repeat 0%Z (List.length (vectors L))) p p (repeat_length _ _) ltac:(apply reach_repeat; lia) (or_introl eq_refl) (or_introl eq_refl)).
  rewrite shift_zero, vadd_0_l, dist_refl in Lo. lra.
Qed.
Lemma rounded_nonneg prec L v : rounded_distance prec L v -> 0 <= v.
Proof.
  intros (x & (p & q & ns & _ & _ & _ & ->) & ->). apply Rmult_le_pos; [|apply Rlt_le, Rinv_0_lt_compat, zoom_pos].
  apply IZR_le, rint_nonneg, Rmult_le_pos; [apply dist_nonneg|apply Rlt_le, zoom_pos].
Qed.
Lemma nice_shrinks L p : nice L -> shrinks (vectors L) p p.
Proof. intros [_ H]. now apply steady_shrinks. Qed.
(** One point with reduced translation vectors, or a compact cluster with
    orthogonal ones (lattice_generator's clusters: see C37). *)
Theorem C36_nice : forall L, (exists p, points L = [p] /\ reduced (3 / 4) (vectors L)) \/ (orthogonal (vectors L) /\ compact L) -> nice L.
Proof.
  intros L H. assert (R : reduced (3 / 4) (vectors L)) by (destruct H as [(p & _ & Hr)|[Ho _]]; [exact Hr|apply orthogonal_reduced; [lra|exact Ho]]).
  split; apply shrinks_steady; intros p q Hp Hq.
  - destruct H as [(r & E & Hr)|[Ho Hc]]; [|now apply orthogonal_shrinks]. rewrite E in Hp, Hq. destruct Hp as [<-|[]], Hq as [<-|[]]. now apply reduced_shrinks.
  - destruct Hp as [<-|[]], Hq as [<-|[]]. now apply reduced_shrinks.
Qed.
Print Assumptions C36_nice.

(** Whatever bonds returns, after any history: the lengths lie above the previous
    neighbour distance (when only is set) and not above the nth, up to the
    tolerance; every bond is listed at most once; the bonds within the cluster
    are all listed; and in nice cells, so are the bonds leaving it. *)
Theorem C36_bonds : forall prec L ord pord fuel d n only fold intra inter d2,
  listing ord -> listing pord -> lattice_of prec L -> reachable prec L ord (fresh prec L) d -> (1 <= n)%Z ->
  bonds L ord pord fuel prec d (AnInt n) only fold = (Some (Ok (intra, inter)), d2) ->
  exists judge lo J T, fst (neighbor_distance L ord prec d (AnInt n)) = Ok judge /\ lower_bound L ord prec (snd (neighbor_distance L ord prec d (AnInt n))) n only lo /\
    lists_intra L (fun x => exceeds lo x /\ x <= judge + view prec) intra /\ inter = Some J /\
    (fold = false \/ separated (view prec) L -> lists_inter L (fun x => exceeds lo x /\ x <= judge + view prec) fold J T) /\
    (nice L -> forall k, valid L k -> crossing k -> exceeds lo (len L k) -> len L k <= judge + view prec -> in_reach L judge k -> In k T \/ In (opposite k) T).
Proof.
  intros prec L ord pord fuel d n only fold intra inter d2 Ho Hpo HL Hr Hn H. pose proof (lattice_of_facts _ _ HL) as (_ & _ & Hk & Hp).
  apply bonds_inv in H as (judge & scope & lo & J & pairs & Ej & Eg & Hlo & -> & Eb & Np & Ip); auto.
  assert (J0 : 0 <= judge).
  { pose proof (nd_pair L ord prec d (AnInt n)) as E. rewrite Ej in E. destruct (C35_sound prec L ord d n judge _ Ho Hp Hr E) as (_ & Rd & _). eapply rounded_nonneg, Rd. }
  assert (S0 : (0 <= scope)%Z) by (eapply scope_nonneg; eauto).
  set (P := fun x => exceeds lo x /\ x <= judge + view prec) in *.
  apply bond_loop_spec in Eb as (-> & -> & Dec). cbn [app].
  exists judge, lo. eexists. exists (links L ord scope pairs). split; [exact Ej|]. split; [exact Hlo|]. split; [now apply intra_ok|]. split; [reflexivity|]. split.
  - intros Hf. apply (links_ok L ord scope Ho S0 Hp P pairs Np Ip fold (fun s => if fold then dec_point L fuel prec s else s)).
    intros k Hk'. destruct fold; [|reflexivity]. destruct Hf as [|Hsep]; [discriminate|].
    destruct (links_tail L ord scope Hp P pairs Ip k Hk') as (ab & Hab & Hi & Et). destruct (Dec ab Hab Hi) as (r & Er). unfold dec_point. rewrite Et in Er. rewrite Er.
    destruct (links_in L ord scope Ho S0 Hp P pairs Ip k Hk') as ((_ & Ht & Lc) & _). unfold tail in Er. apply decompose_unique in Er; auto. subst r. reflexivity.
  - intros Hni k V Cr Ex Le (k' & V' & Rk & Lk'). apply links_all with (P := P); auto; [|split; auto].
    eapply Z.le_trans; [exact Rk|]. destruct V' as (Hf' & Ht' & Lc').
    destruct (scope_covers_steady L fuel judge scope (nth (to k') (points L) v0) (nth (from k') (points L) v0) (by_ k')) as [R _]; auto; try (now apply nth_In).
    + apply Hni.
    + rewrite dist_sym, vadd_comm. exact Lk'.
Qed.
Print Assumptions C36_bonds.

(** ** exactly the bonds of the nth distance *)
Lemma nth_between prec L n v v' u : nth_distance prec L (S n) v -> nth_distance prec L n v' -> rounded_distance prec L u -> v' < u <= v -> u = v.
Proof.
  intros (_ & l & Nl & Ll & Hl) (Rv' & l' & Nl' & Ll' & Hl') Ru [H1 H2]. destruct (Rle_lt_or_eq_dec u v H2) as [H|H]; [exfalso|exact H].
  assert (Inc : incl (u :: v' :: l') l).
  { intros x [<-|[<-|Hx]]; apply Hl; [auto|split; [exact Rv'|lra]|]. apply Hl' in Hx as [A B]. split; [exact A|lra]. }
  apply NoDup_incl_length in Inc; [cbn in Inc; lia|]. constructor; [|constructor; [|exact Nl']].
  - intros [E|Hx]; [lra|]. apply Hl' in Hx as [_ B]. lra.
  - intros Hx. apply Hl' in Hx as [_ B]. lra.
Qed.
Lemma nth_increasing prec L n v v' : nth_distance prec L (S n) v -> nth_distance prec L n v' -> v' < v.
Proof.
  intros (_ & l & Nl & Ll & Hl) (Rv' & l' & Nl' & Ll' & Hl'). destruct (Rlt_dec v' v) as [H|H]; [exact H|exfalso].
  assert (Inc : incl l l') by (intros x Hx; apply Hl in Hx as [A B]; apply Hl'; split; [exact A|lra]). apply NoDup_incl_length in Inc; [lia|exact Nl].
Qed.
Lemma nth_is_unit prec L n v : nth_distance prec L n v -> exists z, v = IZR z / zoom prec.
Proof. intros ((x & _ & ->) & _). eauto. Qed.
Lemma unit_times prec z : IZR z / zoom prec * zoom prec = IZR z.
Proof. field. pose proof (zoom_pos prec). lra. Qed.
Lemma unit_succ prec z : IZR z / zoom prec + view prec = IZR (z + 1) / zoom prec.
Proof. rewrite plus_IZR. unfold view. fold (zoom prec). field. pose proof (zoom_pos prec). lra. Qed.
(** lengths between the two bounds, and rounded lengths *)
Lemma range_rounded prec L n judge judge' x lo (only : bool) :
  nth_distance prec L (S n) judge -> nth_distance prec L n judge' -> rounded_distance prec L (rounded prec x) -> 0 < rounded prec x -> 0 <= x ->
  ~ rounded_distance prec L (judge + view prec) -> ((0 < n)%nat -> ~ rounded_distance prec L (judge' + view prec)) ->
  (n = 0%nat -> judge' = 0) ->
  lo = (if (only && Nat.ltb 0 n)%bool then Some (judge' + view prec) else None) ->
  (exceeds lo x /\ x <= judge + view prec <-> if only then rounded prec x = judge else rounded prec x <= judge).
Proof.
  intros Hj Hj' Rx X0 Xn G1 G2 Hn0 Hlo. pose proof (nth_increasing _ _ _ _ _ Hj Hj') as Inc. pose proof (zoom_pos prec) as Zp.
  pose proof (fun u => nth_between prec L n judge judge' u Hj Hj') as Bt.
  destruct (nth_is_unit _ _ _ _ Hj) as (z & Ez). destruct (nth_is_unit _ _ _ _ Hj') as (z' & Ez'). unfold rounded in *. set (r := rint (x * zoom prec)) in *.
  assert (U : forall a, x <= IZR a / zoom prec <-> x * zoom prec <= IZR a).
  { intros a. rewrite <- (unit_times prec a) at 2. split; intros H; [apply Rmult_le_compat_r; lra|apply (Rmult_le_reg_r (zoom prec)); lra]. }
  assert (V : forall a, IZR a / zoom prec < x <-> IZR a < x * zoom prec).
  { intros a. specialize (U a). split; intros H; apply Rnot_le_lt; intros H'; apply U in H'; lra. }
  pose proof (rint_half (x * zoom prec)) as Hh. fold r in Hh. apply Rabs_le_inv in Hh. rewrite Ez, Ez' in *.
  apply unit_div_lt in Inc. assert (R0 : (0 < r)%Z) by (apply (unit_div_lt prec); replace (0 / zoom prec) with 0 by (unfold Rdiv; ring); exact X0).
  rewrite unit_succ in *.
  assert (Up : x <= IZR (z + 1) / zoom prec <-> (r <= z)%Z).
  { rewrite U. split.
    - intros H. assert (r <= z + 1)%Z by (unfold r; rewrite <- (rint_IZR (z + 1)); now apply rint_le). destruct (Z.eq_dec r (z + 1)) as [E|]; [|lia]. exfalso. apply G1. now rewrite <- E.
    - intros H. apply IZR_le in H. rewrite plus_IZR. lra. }
  assert (Lo : exceeds lo x <-> (if (only && Nat.ltb 0 n)%bool then (z' < r)%Z else True)).
  { rewrite Hlo. destruct (only && Nat.ltb 0 n)%bool eqn:Eb; cbn [exceeds]; [|tauto]. apply andb_true_iff in Eb as [_ Eb]. apply Nat.ltb_lt in Eb. specialize (G2 Eb). rewrite V. split.
    - intros H. assert (z' + 1 <= r)%Z by (unfold r; rewrite <- (rint_IZR (z' + 1)); apply rint_le; lra). lia.
    - intros H. assert (Hr : (z' + 2 <= r)%Z) by (destruct (Z.eq_dec r (z' + 1)) as [E|]; [exfalso; apply G2; now rewrite <- E|lia]). apply IZR_le in Hr. rewrite plus_IZR in *. lra. }
  assert (Lem : (exceeds lo x /\ (r <= z)%Z) <-> if only then r = z else (r <= z)%Z).
  { rewrite Lo. destruct only; cbn [andb]; [|tauto]. split.
    - intros [A B]. assert (z' < r)%Z.
      { destruct (Nat.ltb_spec 0 n) as [Hn|Hn]; [exact A|]. assert (n = O) by lia. specialize (Hn0 ltac:(assumption)). replace 0 with (IZR 0 / zoom prec) in Hn0 by (unfold Rdiv; ring). apply unit_div_inj in Hn0. lia. }
      apply (unit_div_inj prec). apply Bt; [exact Rx|]. split; [now apply unit_div_lt|]. unfold Rdiv. apply Rmult_le_compat_r; [apply Rlt_le, Rinv_0_lt_compat; lra|now apply IZR_le].
    - intros ->. split; [|lia]. destruct (Nat.ltb 0 n); [lia|exact I]. }
  rewrite Up, Lem. destruct only; [symmetry; apply unit_div_inj|]. split; intros H.
  - unfold Rdiv. apply Rmult_le_compat_r; [apply Rlt_le, Rinv_0_lt_compat; lra|now apply IZR_le].
  - destruct (Z.le_gt_cases r z) as [|Hgt]; [assumption|]. apply (unit_div_lt prec) in Hgt. lra.
Qed.

(** If the nth and the previous distance are the right ones, no distance rounds to
    one unit more than either, and the longer-than-rounded bonds of the nth
    distance are within reach of the search, then: exactly the bonds whose
    rounded length is the nth distance (at most that, without only), each once. *)
Theorem C36_exact : forall prec L ord pord fuel d n only fold intra inter d2 judge judge',
  listing ord -> listing pord -> lattice_of prec L -> reachable prec L ord (fresh prec L) d -> nice L -> resolved prec L ->
  (fold = false \/ separated (view prec) L) ->
  neighbor_distance L ord prec d (AnInt (Z.of_nat (S n))) = (Ok judge, d2) -> fst (neighbor_distance L ord prec d2 (AnInt (Z.of_nat n))) = Ok judge' ->
  nth_distance prec L (S n) judge -> nth_distance prec L n judge' ->
  ~ rounded_distance prec L (judge + view prec) -> ((0 < n)%nat -> ~ rounded_distance prec L (judge' + view prec)) ->
  (forall k, valid L k -> crossing k -> judge < len L k <= judge + view prec -> in_reach L judge k) ->
  fst (bonds L ord pord fuel prec d (AnInt (Z.of_nat (S n))) only fold) = Some (Ok (intra, inter)) ->
  let P := fun x => if only then rounded prec x = judge else rounded prec x <= judge in
  lists_intra L P intra /\ exists J T, inter = Some J /\ lists_inter L P fold J T /\ forall k, valid L k -> crossing k -> P (len L k) -> In k T \/ In (opposite k) T.
Proof.
  intros prec L ord pord fuel d n only fold intra inter d2 judge judge' Ho Hpo HL Hr Hni Hres Hf Hj Hj' Nj Nj' G1 G2 Hreach H P. pose proof (lattice_of_facts _ _ HL) as (_ & _ & Hk & Hp).
  pose proof (surjective_pairing (bonds L ord pord fuel prec d (AnInt (Z.of_nat (S n))) only fold)) as Hb. rewrite H in Hb.
  destruct (C36_bonds prec L ord pord fuel d (Z.of_nat (S n)) only fold intra inter _ Ho Hpo HL Hr ltac:(lia) Hb) as (judge0 & lo & J & T & E0 & Hlo & Hintra & EJ & Hinter & Hall).
  rewrite Hj in E0, Hlo. cbn [fst snd] in E0, Hlo. injection E0 as <-. specialize (Hinter Hf). specialize (Hall Hni).
  assert (Hlo' : lo = if (only && Nat.ltb 0 n)%bool then Some (judge' + view prec) else None).
  { unfold lower_bound in Hlo. replace (1 <? Z.of_nat (S n))%Z with (Nat.ltb 0 n) in Hlo by (destruct (Nat.ltb_spec 0 n), (Z.ltb_spec 1 (Z.of_nat (S n))); lia || reflexivity).
    replace (Z.of_nat (S n) - 1)%Z with (Z.of_nat n) in Hlo by lia. destruct (only && Nat.ltb 0 n)%bool; [|exact Hlo]. destruct Hlo as (j & E & ->). rewrite Hj' in E. now injection E as ->. }
  assert (Z0 : n = 0%nat -> judge' = 0).
  { intros ->. assert (Hr2 : reachable prec L ord (fresh prec L) d2) by (replace d2 with (snd (neighbor_distance L ord prec d (AnInt (Z.of_nat 1)))) by (now rewrite Hj); now apply reach_call).
    pose proof (nd_pair L ord prec d2 (AnInt 0)) as E. change (Z.of_nat 0) with 0%Z in Hj'. rewrite Hj' in E. destruct (C35_sound prec L ord d2 0 judge' _ Ho Hp Hr2 E) as (_ & _ & K & _). now apply K. }
  assert (Eq : forall i j c, (i < List.length (points L))%nat -> (j < List.length (points L))%nat -> List.length c = List.length (vectors L) -> differ i j c ->
    (exceeds lo (between L i j c) /\ between L i j c <= judge + view prec <-> P (between L i j c))).
  { intros i j c Hi Hj0 Lc D. assert (X0 : 0 < rounded prec (between L i j c)).
    { pose proof (resolved_pos prec L i j c Hres Hi Hj0 Lc D). unfold rounded. apply Rmult_lt_0_compat; [apply IZR_lt; lia|]. apply Rinv_0_lt_compat, zoom_pos. }
    apply (range_rounded prec L n judge judge'); auto; [|apply dist_nonneg].
    exists (between L i j c). split; [|reflexivity]. exists (nth i (points L) v0), (nth j (points L) v0), c. repeat split; auto; now apply nth_In. }
  assert (Elen : forall k, len L k = between L (to k) (from k) (by_ k)) by (intros k; unfold len, between, head, tail; apply dist_sym).
  assert (EqL : forall k, valid L k -> crossing k -> (exceeds lo (len L k) /\ len L k <= judge + view prec <-> P (len L k))).
  { intros k (A & B & C) Cr. rewrite !Elen. apply Eq; auto. now right. }
  split.
  - destruct Hintra as (Il & NI & HI & PI). exists Il. split; [exact NI|]. split; [|exact PI]. intros i j. rewrite HI.
    assert (D : (i < j < List.length (points L))%nat -> (exceeds lo (dist (nth i (points L) v0) (nth j (points L) v0)) /\ dist (nth i (points L) v0) (nth j (points L) v0) <= judge + view prec <-> P (dist (nth i (points L) v0) (nth j (points L) v0)))).
    { intros Hij. specialize (Eq i j (repeat 0%Z (List.length (vectors L))) ltac:(lia) ltac:(lia) (repeat_length _ _) (or_introl (Nat.lt_neq _ _ (proj1 Hij)))). unfold between in Eq. now rewrite shift_zero, vadd_0_r in Eq. }
    split; intros [A B]; (split; [exact A|]); now apply (D A).
  - exists J, T. split; [exact EJ|]. destruct Hinter as (NT & HT & PT). split.
    + split; [exact NT|]. split; [|exact PT]. intros k Hk'. destruct (HT k Hk') as (A & B & C & D). split; [exact A|]. split; [exact B|]. split; [now apply EqL|exact D].
    + intros k V Cr HP. apply (EqL k V Cr) in HP as [A B]. apply Hall; auto. destruct (Rle_dec (len L k) judge) as [Hle|Hgt].
      * exists k. split; [exact V|]. split; [lia|exact Hle].
      * apply Hreach; auto. lra.
Qed.
Print Assumptions C36_exact.

(** ** bonds always answers, in nice cells without equivalent points *)
Lemma guess_mono L ref fuel : forall fuel' s x, guess_loop L fuel ref s = Some x -> (fuel <= fuel')%nat -> guess_loop L fuel' ref s = Some x.
Proof.
  induction fuel as [|fuel IH]; intros fuel' s x H Hf; [discriminate|]. destruct fuel' as [|fuel']; [lia|]. cbn [guess_loop] in *.
  destruct (edge_min L s) as [m|e]; [|exact H]. destruct (Rltb ref m); [exact H|]. apply IH; [exact H|lia].
Qed.
Lemma finite_bound {A} (Q : A -> nat -> Prop) (l : list A) : (forall x, In x l -> exists F, forall f, (F <= f)%nat -> Q x f) -> exists F, forall f, (F <= f)%nat -> forall x, In x l -> Q x f.
Proof.
  induction l as [|a l IH]; intros H; [exists O; intros f _ x []|]. destruct (H a (or_introl eq_refl)) as (F1 & H1). destruct IH as (F2 & H2); [intros x Hx; apply H; now right|].
  exists (F1 + F2)%nat. intros f Hf x [<-|Hx]; [apply H1; lia|apply H2; [lia|exact Hx]].
Qed.
Theorem C36_total : forall prec L ord pord d n only fold, listing ord -> listing pord -> lattice_of prec L -> nice L -> separated (view prec) L ->
  (exists a, In a (vectors L) /\ view prec <= norm a) -> reachable prec L ord (fresh prec L) d -> (1 <= n)%Z ->
  exists F, forall fuel, (F <= fuel)%nat -> exists intra inter, fst (bonds L ord pord fuel prec d (AnInt n) only fold) = Some (Ok (intra, Some inter)).
Proof.
  intros prec L ord pord d n only fold Ho Hpo HL Hni Hsep Hv Hr Hn. pose proof (lattice_of_facts _ _ HL) as (_ & Hb & Hk & Hp).
  destruct (C35_total prec L ord d (AnInt n)) as [_ T1]. destruct (T1 Ho Hp Hv n eq_refl ltac:(lia)) as (judge & Ej).
  destruct (neighbor_distance L ord prec d (AnInt n)) as [r1 d1] eqn:Ed. cbn [fst] in Ej. subst r1.
  destruct (C35_total prec L ord d1 (AnInt (n - 1))) as [_ T2]. destruct (T2 Ho Hp Hv (n - 1)%Z eq_refl ltac:(lia)) as (judge' & Ej').
  destruct (neighbor_distance L ord prec d1 (AnInt (n - 1))) as [r2 d2] eqn:Ed2. cbn [fst] in Ej'. subst r2.
  destruct (guess_terminates L (bs L) judge Hb Hk Hp) as (F1 & HF1). destruct (HF1 F1 (le_n _)) as (scope & Eg).
  assert (J0 : 0 <= judge) by (destruct (C35_sound prec L ord d n judge d1 Ho Hp Hr Ed) as (_ & Rd & _); eapply rounded_nonneg, Rd).
  assert (S0 : (0 <= scope)%Z) by (eapply scope_nonneg; eauto).
  set (sites := sites_factory L ord scope true).
  set (inner := if (only && (1 <? n)%Z)%bool then query_pairs sites (judge' + view prec) else []).
  set (pairs := pord (filter (fun ij => negb (existsb (pair_eqb ij) inner)) (query_pairs sites (judge + view prec)))).
  assert (D : exists F, forall f, (F <= f)%nat -> forall ab, In ab pairs -> exists r, decompose L f prec (Site (space_dim L) (nth (snd ab) sites v0)) = Some (Ok r)).
  { apply (finite_bound (fun ab f => exists r, decompose L f prec (Site (space_dim L) (nth (snd ab) sites v0)) = Some (Ok r))).
    intros [a b] Hab. apply (Permutation_in _ (Hpo _)) in Hab. apply filter_In in Hab as [Hab _]. apply in_query_pairs in Hab as [Hab _]. cbn [snd].
    set (N := List.length (points L)). set (W := window L ord scope true). assert (N0 : (0 < N)%nat) by (unfold N; destruct (points L); [contradiction|cbn; lia]).
    assert (Hl : List.length sites = (List.length W * N)%nat) by (unfold sites; rewrite sites_window, map_length, length_prod_seq; reflexivity).
    assert (Hj : (b mod N < N)%nat) by (apply Nat.mod_upper_bound; lia). assert (Hw : (b / N < List.length W)%nat) by (apply Nat.div_lt_upper_bound; lia).
    assert (Eb : nth b sites v0 = vadd (nth (b mod N) (points L) v0) (shift (nth (b / N) W []) (vectors L))).
    { assert (Es : nth (b / N * N + b mod N) sites v0 = vadd (shift (nth (b / N) W []) (vectors L)) (nth (b mod N) (points L) v0)).
      { unfold sites. rewrite sites_window. exact (nth_sites L W (b / N) (b mod N) Hj Hw). }
      replace (b / N * N + b mod N)%nat with b in Es by (rewrite (Nat.mul_comm (b / N) N); apply Nat.div_mod; lia). rewrite Es. apply vadd_comm. }
    assert (Lc : List.length (nth (b / N) W []) = List.length (vectors L)).
    { pose proof (nth_In W [] Hw) as Hin. set (c := nth (b / N) W []) in *. clearbody c. unfold W, window in Hin. destruct Hin as [<-|Hin]; [apply repeat_length|]. apply (Permutation_in _ (Ho _)) in Hin. now apply (translations_half L scope S0). }
    destruct (decompose_complete prec prec L (b mod N) (nth (b / N) W []) HL Hsep Hj Lc) as (F & HF); [now apply nice_shrinks|].
    exists F. intros f Hf. rewrite Eb, HF by exact Hf. eauto. }
  destruct D as (F2 & HF2). exists (F1 + F2)%nat. intros fuel Hf.
  destruct (bond_loop_total L fuel prec fold sites pairs [] []) as (I & J & E); [intros ab Hab _; apply HF2; [lia|exact Hab]|].
  exists I, J. unfold bonds. destruct (Z.ltb_spec n 0); [lia|]. destruct (Z.eqb_spec n 0); [lia|]. rewrite Ed.
  unfold guess_scope in Eg |- *. rewrite (guess_mono L judge F1 fuel _ _ Eg) by lia. fold sites.
  unfold pairs, inner in E. destruct (only && (1 <? n)%Z)%bool.
  - rewrite Ed2. cbn [fst]. now rewrite E.
  - cbn [fst]. now rewrite E.
Qed.
Print Assumptions C36_total.
