(** C36: an arbitrarily small excess over a round lattice constant loses the bonds. *)
From Coq Require Import List Reals ZArith Bool Arith Lra Lia Permutation.
From Flocq Require Import Core.Raux.
From Verif Require Import Py CVec LinSolve Line2D_Model Line2D_Proofs Lattice_Model Lattice_Spec Lattice_Proofs Lattice_Proofs2 Lattice_Proofs3 Lattice_Properties LatticeCases_Properties
  Neighbors_Spec Neighbors_Proofs Neighbors_Proofs2 Neighbors_Properties NeighborsCases_Properties LatticeBonds_Spec LatticeBonds_Proofs LatticeBonds_Proofs2 LatticeBonds_Properties LatticeBondsCases_Properties LatticeThird_Properties LatticeRound_Properties.
Import ListNotations.
Open Scope R_scope.

(** The chain with lattice constant 1 + e, 0 < e < 10^-p / 2 (one unit in the last place is
    enough), and with lattice constant exactly 1: neighbor_distance(1) is 1.0 for both, but
    bonds(1) finds the bond only for the second. *)
Theorem C36_unstable : forall prec e ord pord only fold, (1 <= prec)%nat -> listing ord -> listing pord -> 0 < e -> e * zoom prec < / 2 ->
  (exists L, lattice_of prec L /\ points L = [v0] /\ vectors L = [(1 + e, 0, 0)] /\ nice L /\
     fst (neighbor_distance L ord prec (fresh prec L) (AnInt 1)) = Ok 1 /\
     forall fuel, (2 <= fuel)%nat -> fst (bonds L ord pord fuel prec (fresh prec L) (AnInt 1) only fold) = Some (Ok ([], Some []))) /\
  (exists L, lattice_of prec L /\ points L = [v0] /\ vectors L = [(1, 0, 0)] /\ nice L /\
     fst (neighbor_distance L ord prec (fresh prec L) (AnInt 1)) = Ok 1 /\
     exists F, forall fuel, (F <= fuel)%nat -> exists x, (x = 1 \/ x = -1) /\ fst (bonds L ord pord fuel prec (fresh prec L) (AnInt 1) only fold) = Some (Ok ([], Some [(v0, if (fold : bool) then v0 else (x, 0, 0))]))).
Proof.
  intros prec e ord pord only fold Hpr Ho Hpo He Hz. pose proof (LatticeRound_Properties.zoom_pos prec) as Z1.
  assert (HN : forall a, 0 < a -> forall L, vectors L = [(a, 0, 0)] -> points L = [v0] -> nice L).
  { intros a _ L Ev Ep. apply C36_nice; left; exists v0; split; [exact Ep|]; apply orthogonal_reduced; [lra|]; apply single_orthogonal; rewrite Ev; cbn; lia. }
  assert (V1 : view prec <= 1) by (change (/ zoom prec <= 1); rewrite <- Rinv_1; apply Rinv_le_contravar; lra).
  split.
  - destruct (chain_lattice prec (1 + e)) as (L & HL & Ep & Ev); [lra|]. exists L. split; [exact HL|]. split; [exact Ep|]. split; [exact Ev|]. split; [apply (HN (1 + e)); auto; lra|].
    assert (Na : norm (1 + e, 0, 0) = 1 + e) by (apply norm_x; lra).
    assert (Rt : IZR (rint ((1 + e) * zoom prec)) / zoom prec = 1).
    { rewrite (rint_is _ (10 ^ Z.of_nat prec)); [rewrite <- zoom_IZR; field; lra|]. rewrite <- zoom_IZR. assert (0 < e * zoom prec) by (apply Rmult_lt_0_compat; lra). lra. }
    destruct (C35_chain prec L v0 (1 + e, 0, 0) ord (fresh prec L) 1 Ho Ep Ev) as [Ej Nj]; [rewrite Na; lra|constructor|].
    change (Z.of_nat 1) with 1%Z in *. rewrite Na, Rmult_1_l, Rt in Ej. split; [exact Ej|]. intros fuel Hf.
    assert (Hk : (1 <= List.length (vectors L))%nat) by (rewrite Ev; cbn; lia). assert (Hp : points L <> []) by (rewrite Ep; discriminate).
    assert (Eg : guess_scope L fuel 1 = Some (Ok 0%Z)).
    { destruct fuel as [|[|fuel]]; try lia. unfold guess_scope. cbn [guess_loop].
      destruct (edge_min_spec L (-1) Hk Hp ltac:(lia)) as (m & -> & Lo & _).
      assert (M : m <= 0).
      { specialize (Lo [0%Z] v0 v0). rewrite Ev, Ep in Lo. specialize (Lo eq_refl eq_refl (or_introl eq_refl) (or_introl eq_refl)). unfold shift in Lo. cbn [map combination] in Lo.
        replace (vadd (vadd (vscale 0 (1 + e, 0, 0)) v0) v0) with v0 in Lo by (cbn; apply p3_eq; ring). now rewrite dist_refl in Lo. }
      unfold Rltb at 1. destruct (Rlt_dec 1 m) as [H|H]; [lra|]. change (-1 + 1)%Z with 0%Z.
      destruct (edge_min_spec L 0 Hk Hp ltac:(lia)) as (m' & -> & _ & (c & q & q' & Lc & Rc & Hq & Hq' & Em)). rewrite Ep in Hq, Hq'. destruct Hq as [<-|[]], Hq' as [<-|[]]. rewrite Ev in Lc. destruct c as [|c [|]]; try discriminate.
      unfold dist in Em. rewrite vadd_comm, vadd_sub in Em. unfold shift in Em. rewrite Ev in Em. cbn [map combination] in Em. rewrite vadd_0_r, norm_scale, Na, <- abs_IZR in Em. cbn [reach] in Rc.
      replace (Z.abs c) with 1%Z in Em by lia. unfold Rltb. destruct (Rlt_dec 1 m') as [H'|H']; [reflexivity|lra]. }
    assert (Es : sites_factory L ord 0 true = [v0]).
    { unfold sites_factory. rewrite Ep. assert (Et : translations L 0 true = []) by (unfold translations; rewrite Ev; reflexivity). rewrite Et.
      assert (Eo : ord [] = []) by (apply Permutation_nil, Permutation_sym, Ho). rewrite Eo. cbn [flat_map map app]. rewrite Ev. cbn [List.length repeat comb]. f_equal. cbn. apply p3_eq; ring. }
    unfold bonds. cbn [Z.ltb Z.compare Z.eqb]. rewrite andb_false_r. destruct (neighbor_distance L ord prec (fresh prec L) (AnInt 1)) as [r d1]. cbn [fst] in Ej. subst r. rewrite Eg, Es.
    change (query_pairs [v0] (1 + view prec)) with (@nil (nat * nat)). cbn [filter]. assert (Eo : pord [] = []) by (apply Permutation_nil, Permutation_sym, Hpo). rewrite Eo. reflexivity.
  - destruct (chain_case prec Hpr) as (L & z & HL & Ep & Ev & Hzz & Hz2). exists L. split; [exact HL|]. split; [exact Ep|]. split; [exact Ev|]. split; [apply (HN 1); auto; lra|].
    assert (Na : norm (1, 0, 0) = 1) by (apply norm_x; lra).
    split.
    + destruct (C35_chain prec L v0 (1, 0, 0) ord (fresh prec L) 1 Ho Ep Ev) as [Ej Nj]; [rewrite Na; lra|constructor|]. change (Z.of_nat 1) with 1%Z in *. rewrite Na in Ej. rewrite Ej. f_equal. rewrite !Rmult_1_l, zoom_IZR, rint_IZR. field. rewrite <- zoom_IZR. lra.
    + pose proof (C36_chain prec L v0 (1, 0, 0) z ord pord (fresh prec L) 1 fold Ho Hpo HL Ep Ev Hzz Hz2) as C.
      destruct (C (reach_init _ _ _ _) (le_n 1)) as (F & HF). exists F. intros fuel Hf. destruct (HF fuel Hf) as (x & Hx & E). exists x. split; [exact Hx|]. change (Z.of_nat 1) with 1%Z in E.
      assert (Eo : bonds L ord pord fuel prec (fresh prec L) (AnInt 1) only fold = bonds L ord pord fuel prec (fresh prec L) (AnInt 1) true fold) by (unfold bonds; destruct only; reflexivity).
      rewrite Eo, E. do 6 f_equal. destruct fold; [reflexivity|]. cbn. apply p3_eq; ring.
Qed.
Print Assumptions C36_unstable.
(** Non-vacuity: the next double-precision number above 1, at the default precision. *)
Example C36_unstable_example : 0 < / 4503599627370496 /\ / 4503599627370496 * zoom 4 < / 2.
Proof. rewrite zoom4. lra. Qed.
