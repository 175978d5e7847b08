(** C36 on concrete cells: chains end to end, and bonds lost by rounding. *)
From Coq Require Import List Reals ZArith Bool Arith Lra Lia Permutation.
From Flocq Require Import Core.Raux.
From Verif Require Import Py CVec LinSolve Line2D_Model Line2D_Proofs Lattice_Model Lattice_Spec Lattice_Proofs Lattice_Proofs2 Lattice_Proofs3 Lattice_Properties LatticeCases_Properties
  Neighbors_Spec Neighbors_Proofs Neighbors_Proofs2 Neighbors_Properties NeighborsCases_Properties LatticeBonds_Spec LatticeBonds_Proofs LatticeBonds_Proofs2 LatticeBonds_Properties.
Import ListNotations.
Open Scope R_scope.

(** ** chains *)
Lemma chain_len L p a k : points L = [p] -> vectors L = [a] -> valid L k -> exists c, k = Link 0 0 [c] /\ len L k = IZR (Z.abs c) * norm a.
Proof.
  intros Ep Ev (A & B & C). rewrite Ep in A, B. rewrite Ev in C. destruct k as [i j c]. cbn [from to by_ List.length] in *. destruct c as [|c [|]]; try discriminate.
  assert (i = O) by lia. assert (j = O) by lia. subst i j. exists c. split; [reflexivity|]. unfold len, head, tail. cbn [from to by_]. rewrite Ep, Ev. cbn [nth].
  rewrite dist_sym, vadd_comm. unfold dist. rewrite (vadd_comm _ p), vadd_sub. unfold shift. cbn [map combination]. rewrite vadd_0_r, norm_scale, <- abs_IZR. reflexivity.
Qed.
Lemma chain_rounded prec L p a z v : points L = [p] -> vectors L = [a] -> norm a * zoom prec = IZR z -> rounded_distance prec L v -> exists c, v = IZR (Z.abs c * z) / zoom prec.
Proof.
  intros Ep Ev Hz (x & (q & q' & ns & Hq & Hq' & Ln & ->) & ->). rewrite Ep in Hq, Hq'. destruct Hq as [<-|[]], Hq' as [<-|[]]. rewrite Ev in Ln. destruct ns as [|c [|]]; try discriminate.
  exists c. f_equal. f_equal. unfold dist. rewrite vadd_sub. unfold shift. rewrite Ev. cbn [map combination]. rewrite vadd_0_r, norm_scale, <- abs_IZR, Rmult_assoc, Hz, <- mult_IZR. apply rint_IZR.
Qed.
Lemma singleton_of {A} (l : list A) x : NoDup l -> In x l -> (forall y, In y l -> y = x) -> l = [x].
Proof.
  intros Nd Hx H. destruct l as [|y l]; [contradiction|]. assert (y = x) by (apply H; now left). subst y. f_equal. destruct l as [|y l]; [reflexivity|].
  exfalso. assert (y = x) by (apply H; right; now left). subst y. inversion Nd as [|? ? N _]. apply N. now left.
Qed.
(** A chain with one point p per cell whose lattice constant is at least 2 units
    of the precision and a whole number of them: after any history, for every
    n >= 1, bonds(n) answers with the single bond from p to p + n a or p - n a. *)
Theorem C36_chain : forall prec L p a z ord pord d n (fold : bool), listing ord -> listing pord -> lattice_of prec L -> points L = [p] -> vectors L = [a] ->
  norm a * zoom prec = IZR z -> (2 <= z)%Z -> reachable prec L ord (fresh prec L) d -> (1 <= n)%nat ->
  exists F, forall fuel, (F <= fuel)%nat -> exists e, (e = 1 \/ e = -1) /\
    fst (bonds L ord pord fuel prec d (AnInt (Z.of_nat n)) true fold) = Some (Ok ([], Some [(p, if fold then p else vadd p (vscale (e * INR n) a))])).
Proof.
  intros prec L p a z ord pord d n fold Ho Hpo HL Ep Ev Hz Z2 Hr Hn. pose proof (zoom_pos prec) as Zp.
  assert (Ha : view prec <= norm a).
  { apply (Rmult_le_reg_r (zoom prec)); [exact Zp|]. rewrite Hz, Rmult_comm, zoom_view. apply IZR_le. lia. }
  assert (Hni : nice L) by (apply C36_nice; left; exists p; split; [exact Ep|]; apply orthogonal_reduced; [lra|]; apply single_orthogonal; rewrite Ev; cbn; lia).
  assert (Hsep : separated (view prec) L) by (intros i j ns Hi Hj N; rewrite Ep in Hi, Hj; cbn in Hi, Hj; lia).
  assert (Hres : resolved prec L).
  { intros i j ns Hi Hj Ln D. rewrite Ep in Hi, Hj. cbn in Hi, Hj. assert (i = O) by lia. assert (j = O) by lia. subst i j. rewrite Ev in Ln. destruct ns as [|x [|]]; try discriminate.
    destruct D as [D|(k & [<-|[]] & Nk)]; [congruence|]. unfold dist. rewrite vadd_sub. unfold shift. rewrite Ev. cbn [map combination]. rewrite vadd_0_r, norm_scale, <- abs_IZR.
    assert (1 <= IZR (Z.abs x)) by (apply IZR_le; lia). pose proof (norm_nonneg a). apply Rle_trans with (1 * norm a); [|apply Rmult_le_compat_r; lra]. lra. }
  assert (Dn : forall m, IZR (rint (IZR (Z.of_nat m) * norm a * zoom prec)) / zoom prec = IZR (Z.of_nat m * z) / zoom prec).
  { intros m. now rewrite Rmult_assoc, Hz, <- mult_IZR, rint_IZR. }
  assert (Gap : forall m, ~ rounded_distance prec L (IZR (Z.of_nat m * z) / zoom prec + view prec)).
  { intros m H. destruct (chain_rounded prec L p a z _ Ep Ev Hz H) as (c & E). rewrite unit_succ in E. apply unit_div_inj in E.
    assert (E2 : ((Z.abs c - Z.of_nat m) * z = 1)%Z) by lia. assert (Z.abs c - Z.of_nat m <= 0 \/ 1 <= Z.abs c - Z.of_nat m)%Z as [H1|H1] by lia; nia. }
  destruct n as [|n]; [lia|].
  destruct (C35_chain prec L p a ord d (S n) Ho Ep Ev Ha Hr) as [Ej Nj].
  pose proof (reach_call prec L ord (fresh prec L) d (AnInt (Z.of_nat (S n))) Hr) as Hr2.
  destruct (C35_chain prec L p a ord _ n Ho Ep Ev Ha Hr2) as [Ej' Nj']. rewrite Dn in Ej, Nj, Ej', Nj'.
  destruct (C36_total prec L ord pord d (Z.of_nat (S n)) true fold Ho Hpo HL Hni Hsep) as (F & HF); auto; [exists a; rewrite Ev; split; [now left|exact Ha]|lia|].
  exists F. intros fuel Hf. destruct (HF fuel Hf) as (intra & inter & Eb).
  pose proof (surjective_pairing (neighbor_distance L ord prec d (AnInt (Z.of_nat (S n))))) as Hj. rewrite Ej in Hj.
  assert (LenP : forall k, valid L k -> exists c, k = Link 0 0 [c] /\ len L k * zoom prec = IZR (Z.abs c * z)).
  { intros k Hk. destruct (chain_len L p a k Ep Ev Hk) as (c & E & El). exists c. split; [exact E|]. now rewrite El, Rmult_assoc, Hz, <- mult_IZR. }
  destruct (C36_exact prec L ord pord fuel d n true fold intra (Some inter) _ _ _ Ho Hpo HL Hr Hni Hres (or_intror Hsep) Hj Ej' Nj Nj' (Gap _) (fun _ => Gap _)) as (Hin & J & T & EJ & (NT & HT & PT) & Hall); [|exact Eb|].
  { intros k Hk _ [H1 H2]. exfalso. destruct (LenP k Hk) as (c & _ & El).
    apply (Rmult_lt_compat_r (zoom prec)) in H1; [|exact Zp]. apply (Rmult_le_compat_r (zoom prec)) in H2; [|lra]. rewrite unit_succ in H2. rewrite unit_times, El in H1, H2. apply lt_IZR in H1. apply le_IZR in H2.
    assert ((Z.abs c - Z.of_nat (S n)) * z = 1)%Z by lia. assert (Z.abs c - Z.of_nat (S n) <= 0 \/ 1 <= Z.abs c - Z.of_nat (S n))%Z as [H3|H3] by lia; nia. }
  injection EJ as <-.
  assert (Ei : intra = []).
  { destruct Hin as (I & _ & HI & PI). destruct I as [|[i j] I]; [apply Permutation_sym, Permutation_nil in PI; exact PI|].
    destruct (proj1 (HI i j) (or_introl eq_refl)) as [H _]. rewrite Ep in H. cbn in H. lia. }
  set (m := Z.of_nat (S n)) in *.
  assert (Vm : forall x, valid L (Link 0 0 [x])) by (intros x; unfold valid; rewrite Ep, Ev; cbn; lia).
  assert (Pm : forall x, rounded prec (len L (Link 0 0 [x])) = IZR (m * z) / zoom prec <-> Z.abs x = m).
  { intros x. destruct (LenP _ (Vm x)) as (c & E & El). injection E as <-. unfold rounded. rewrite El, rint_IZR. split; [|now intros ->].
    intros E. apply unit_div_inj in E. assert ((Z.abs x - m) * z = 0)%Z by lia. nia. }
  assert (Tin : forall k, In k T -> k = Link 0 0 [m] \/ k = Link 0 0 [(- m)%Z]).
  { intros k Hk. destruct (HT k Hk) as (V & _ & Pk & _). destruct (LenP k V) as (c & E & _). rewrite E in Pk. apply Pm in Pk. rewrite E. assert (c = m \/ c = - m)%Z as [-> | ->] by lia; auto. }
  assert (Cr : crossing (Link 0 0 [m])) by (exists m; cbn; split; [now left|lia]).
  assert (Sg : exists x, (x = m \/ x = - m)%Z /\ T = [Link 0 0 [x]]).
  { destruct (Hall _ (Vm m) Cr) as [H|H]; [apply Pm; lia| |].
    - exists m. split; [now left|]. apply singleton_of; auto. intros k Hk. destruct (Tin k Hk) as [E|E]; [exact E|exfalso].
      destruct (HT _ H) as (_ & _ & _ & N). apply N. unfold opposite. cbn [to from by_ map]. now rewrite <- E.
    - exists (- m)%Z. split; [now right|]. unfold opposite in H. cbn [to from by_ map] in H. apply singleton_of; auto. intros k Hk. destruct (Tin k Hk) as [E|E]; [exfalso|exact E].
      destruct (HT _ H) as (_ & _ & _ & N). apply N. unfold opposite. cbn [to from by_ map]. rewrite Z.opp_involutive. now rewrite <- E. }
  destruct Sg as (x & Hx & ->). cbn [map] in PT. apply Permutation_sym, Permutation_length_1_inv in PT. rewrite Eb, Ei, PT.
  exists (if Z.eq_dec x m then 1 else -1). split; [destruct (Z.eq_dec x m); auto|]. do 5 f_equal.
  unfold head, folded, tail. cbn [from to by_]. rewrite Ep, Ev. cbn [nth]. f_equal. destruct fold; [reflexivity|]. f_equal. unfold shift. cbn [map combination]. rewrite vadd_0_r. f_equal.
  rewrite INR_IZR_INZ. fold m. destruct Hx as [-> | ->]; destruct (Z.eq_dec _ m); try lia; try (now rewrite Rmult_1_l).
  rewrite opp_IZR. ring.
Qed.
Print Assumptions C36_chain.

(** Non-vacuity: the chain with lattice constant 1. *)
Lemma chain_lattice prec x : x <> 0 -> exists L, lattice_of prec L /\ points L = [v0] /\ vectors L = [(x, 0, 0)].
Proof.
  intros Hx. destruct (C31_constructor prec (Arr 1 [v0]) (Arr 1 [(x, 0, 0)])) as [_ K]. specialize (K 1%nat [v0] 1%nat [(x, 0, 0)] eq_refl eq_refl).
  destruct K as (_ & _ & K). destruct K as (L & d & H & Ed & Ep & Ev).
  { cbn [List.length]. split; [lia|]. split; [lia|]. split; [reflexivity|]. split; intros i j Hij; cbn in Hij; lia. }
  { intros (xs & Lx & (y & Hy & Ny) & E). destruct xs as [|x1 [|]]; try discriminate. cbn in E. injection E as E1. destruct Hy as [<-|[]]. apply Ny. rewrite Rplus_0_r in E1. apply Rmult_integral in E1 as [E1|E1]; [exact E1|contradiction]. }
  exists L. split; [eapply lattice_of_make; [exact H|discriminate|discriminate]|]. auto.
Qed.
Lemma norm_x x : 0 <= x -> norm (x, 0, 0) = x.
Proof. intros Hx. unfold norm. replace (vdot _ _) with (x * x) by (cbn; ring). now apply sqrt_square. Qed.
Example chain_case prec : (1 <= prec)%nat -> exists L z, lattice_of prec L /\ points L = [v0] /\ vectors L = [(1, 0, 0)] /\ norm (1, 0, 0) * zoom prec = IZR z /\ (2 <= z)%Z.
Proof.
  intros Hp. destruct (chain_lattice prec 1) as (L & A & B & C); [lra|]. exists L, (10 ^ Z.of_nat prec)%Z. repeat (split; [assumption|]). split; [rewrite norm_x by lra; rewrite zoom_Z; ring|].
  change 2%Z with (2 ^ 1)%Z. etransitivity; [|apply Z.pow_le_mono_r with (b := 1%Z); lia]. lia.
Qed.

(** The chain with lattice constant 1/3 and the default precision: the nearest
    neighbour distance is reported as 0.3333, which is less than 1/3, so no
    translation is searched and bonds(1) returns no bonds at all. *)
Theorem C36_rounding_refuted : forall ord pord only fold, listing ord -> listing pord -> exists L, lattice_of 4 L /\ points L = [v0] /\ vectors L = [(1 / 3, 0, 0)] /\ nice L /\
  fst (neighbor_distance L ord 4 (fresh 4 L) (AnInt 1)) = Ok (3333 / 10000) /\ nth_distance 4 L 1 (3333 / 10000) /\
  valid L (Link 0 0 [1%Z]) /\ crossing (Link 0 0 [1%Z]) /\ len L (Link 0 0 [1%Z]) = 1 / 3 /\ rounded 4 (1 / 3) = 3333 / 10000 /\
  forall fuel, (2 <= fuel)%nat -> fst (bonds L ord pord fuel 4 (fresh 4 L) (AnInt 1) only fold) = Some (Ok ([], Some [])).
Proof.
  intros ord pord only fold Ho Hpo. destruct (chain_lattice 4 (1 / 3)) as (L & HL & Ep & Ev); [lra|]. exists L. split; [exact HL|]. split; [exact Ep|]. split; [exact Ev|].
  assert (Hni : nice L) by (apply C36_nice; left; exists v0; split; [exact Ep|]; apply orthogonal_reduced; [lra|]; apply single_orthogonal; rewrite Ev; cbn; lia). split; [exact Hni|].
  assert (Z4 : zoom 4 = 10000) by (unfold zoom; cbn; lra). assert (V4 : view 4 = / 10000) by (unfold view; cbn; lra).
  assert (Na : norm (1 / 3, 0, 0) = 1 / 3) by (apply norm_x; lra).
  assert (Rt : rint (1 / 3 * 10000) = 3333%Z).
  { pose proof (rint_half (1 / 3 * 10000)) as B. apply Rabs_le_inv in B. assert (A1 : 3332 < IZR (rint (1 / 3 * 10000))) by lra. assert (A2 : IZR (rint (1 / 3 * 10000)) < 3334) by lra.
    apply lt_IZR in A1. apply lt_IZR in A2. lia. }
  destruct (C35_chain 4 L v0 (1 / 3, 0, 0) ord (fresh 4 L) 1 Ho Ep Ev) as [Ej Nj]; [rewrite Na, V4; lra|constructor|].
  change (Z.of_nat 1) with 1%Z in *. rewrite Na, Rmult_1_l, Z4, Rt in Ej, Nj. split; [exact Ej|]. split; [exact Nj|].
  assert (Vl : valid L (Link 0 0 [1%Z])) by (unfold valid; rewrite Ep, Ev; cbn; lia). split; [exact Vl|]. split; [exists 1%Z; cbn; split; [now left|lia]|].
  split; [destruct (chain_len L v0 (1 / 3, 0, 0) _ Ep Ev Vl) as (c & E & ->); injection E as <-; rewrite Na; cbn; lra|]. split; [unfold rounded; now rewrite Z4, Rt|].
  intros fuel Hf.
  assert (Hk : (1 <= List.length (vectors L))%nat) by (rewrite Ev; cbn; lia). assert (Hp : points L <> []) by (rewrite Ep; discriminate).
  assert (Eg : guess_scope L fuel (3333 / 10000) = Some (Ok 0%Z)).
  { destruct fuel as [|[|fuel]]; try lia. unfold guess_scope. cbn [guess_loop].
    destruct (edge_min_spec L (-1) Hk Hp ltac:(lia)) as (m & -> & Lo & _).
    assert (M : m <= 0).
    { specialize (Lo [0%Z] v0 v0). rewrite Ev, Ep in Lo. specialize (Lo eq_refl eq_refl (or_introl eq_refl) (or_introl eq_refl)). unfold shift in Lo. cbn [map combination] in Lo. 
      replace (vadd (vadd (vscale 0 (1 / 3, 0, 0)) v0) v0) with v0 in Lo by vring. now rewrite dist_refl in Lo. }
    unfold Rltb at 1. destruct (Rlt_dec (3333 / 10000) m) as [H|H]; [lra|]. change (-1 + 1)%Z with 0%Z.
    destruct (edge_min_spec L 0 Hk Hp ltac:(lia)) as (m' & -> & _ & (c & q & q' & Lc & Rc & Hq & Hq' & Em)). rewrite Ep in Hq, Hq'. destruct Hq as [<-|[]], Hq' as [<-|[]]. rewrite Ev in Lc. destruct c as [|c [|]]; try discriminate.
    unfold dist in Em. rewrite vadd_comm, vadd_sub in Em. unfold shift in Em. rewrite Ev in Em. cbn [map combination] in Em. rewrite vadd_0_r, norm_scale, Na, <- abs_IZR in Em. cbn [reach] in Rc.
    replace (Z.abs c) with 1%Z in Em by lia. unfold Rltb. destruct (Rlt_dec (3333 / 10000) m') as [H'|H']; [reflexivity|lra]. }
  assert (Es : sites_factory L ord 0 true = [v0]).
  { unfold sites_factory. rewrite Ep. assert (Et : translations L 0 true = []) by (unfold translations; rewrite Ev; reflexivity). rewrite Et.
    assert (Eo : ord [] = []) by (apply Permutation_nil, Permutation_sym, Ho). rewrite Eo. cbn [flat_map map app]. rewrite Ev. cbn [List.length repeat comb]. f_equal. vring. }
  unfold bonds. cbn [Z.ltb Z.compare Z.eqb]. rewrite andb_false_r. destruct (neighbor_distance L ord 4 (fresh 4 L) (AnInt 1)) as [r d1]. cbn [fst] in Ej. subst r. rewrite Eg, Es.
  change (query_pairs [v0] (3333 / 10000 + view 4)) with (@nil (nat * nat)). cbn [filter]. assert (Eo : pord [] = []) by (apply Permutation_nil, Permutation_sym, Hpo). rewrite Eo. reflexivity.
Qed.
Print Assumptions C36_rounding_refuted.
