(** C31-C34 on concrete cells: a cell that meets every hypothesis, and two cells
    for which decompose does not find a site of the lattice. *)
From Coq Require Import List Reals ZArith Bool Arith Lra Lia Permutation.
From Verif Require Import Py CVec LinSolve Line2D_Model Line2D_Proofs Lattice_Model Lattice_Spec Lattice_Proofs Lattice_Proofs2 Lattice_Proofs3 Lattice_Properties.
Import ListNotations.
Open Scope R_scope.

Lemma coord_le_norm c u : Rabs (coord c u) <= Lattice_Model.norm u.
Proof.
  unfold Lattice_Model.norm. rewrite <- sqrt_Rsqr_abs. apply sqrt_le_1_alt. destruct u as [[x y] z]. unfold Rsqr.
  pose proof (Rle_0_sqr x). pose proof (Rle_0_sqr y). pose proof (Rle_0_sqr z). unfold Rsqr in *. destruct c as [|[|c]]; cbn; lra.
Qed.
Lemma coord_le_dist c u v : Rabs (coord c u - coord c v) <= dist u v.
Proof. replace (coord c u - coord c v) with (coord c (vsub u v)); [apply coord_le_norm|]. destruct c as [|[|c]]; vring. Qed.
Lemma dist_eq u v : u = v -> dist u v = 0. Proof. intros ->. apply dist_refl. Qed.
Lemma view_le_1 prec : view prec <= 1.
Proof.
  unfold view. rewrite <- Rinv_1. apply Rinv_le_contravar; [lra|]. apply pow_R1_Rle. lra.
Qed.
Lemma view_tenth prec : (1 <= prec)%nat -> view prec <= / 10.
Proof.
  intros H. destruct prec as [|p]; [lia|]. unfold view. apply Rinv_le_contravar; [lra|]. cbn. pose proof (pow_R1_Rle 10 p ltac:(lra)). lra.
Qed.
(** an integer plus t is at least m away from 0 *)
Lemma int_gap (n : Z) : n = 0%Z \/ 1 <= Rabs (IZR n).
Proof. destruct (Z.eq_dec n 0) as [->|N]; [now left|right]. rewrite <- abs_IZR. apply IZR_le. lia. Qed.
Lemma half_gap (n : Z) : / 2 <= Rabs (/ 2 + IZR n).
Proof.
  destruct (Z.le_gt_cases 0 n) as [H|H].
  - pose proof (IZR_le 0 n H). rewrite Rabs_right; lra.
  - assert (H' : (n <= -1)%Z) by lia. apply IZR_le in H'. rewrite Rabs_left1; lra.
Qed.

(** a choice of the nearest point: the first one *)
Fixpoint first_nearest (ps : list point) (s : point) : nat :=
  match ps with
  | [] => O
  | p :: r => match r with [] => O | _ => if Rleb (dist p s) (dist (nth (first_nearest r s) r v0) s) then O else S (first_nearest r s) end
  end.
Lemma first_nearest_ok : finds_nearest first_nearest.
Proof.
  intros ps s. induction ps as [|p r IH]; intros H; [contradiction|]. destruct r as [|q r'].
  - cbn. split; [lia|]. intros q [<-|[]]. lra.
  - specialize (IH ltac:(discriminate)). destruct IH as [Lt Min]. set (r := q :: r') in *.
    change (first_nearest (p :: r) s) with (if Rleb (dist p s) (dist (nth (first_nearest r s) r v0) s) then O else S (first_nearest r s)).
    unfold Rleb. destruct (Rle_dec (dist p s) (dist (nth (first_nearest r s) r v0) s)) as [Hle|Hgt].
    + split; [cbn; lia|]. cbn [nth]. intros x [<-|Hx]; [lra|]. specialize (Min x Hx). lra.
    + split; [cbn [List.length]; lia|]. cbn [nth]. intros x [<-|Hx]; [lra|auto].
Qed.

(** The centred square cell: two points, two translation vectors. *)
Definition centred_points : list point := [v0; (/ 2, / 2, 0)].
Definition square_vectors : list point := [(1, 0, 0); (0, 1, 0)].
Lemma square_independent : ~ dependent square_vectors.
Proof.
  intros (xs & Lx & (x & Hx & Nx) & E). destruct xs as [|x1 [|x2 [|]]]; try discriminate. cbn in E. injection E as E1 E2 _.
  destruct Hx as [<-|[<-|[]]]; apply Nx; lra.
Qed.
Lemma apart2 eps p q : eps <= dist p q -> apart eps [p; q].
Proof. intros H i j Hij. cbn in Hij. destruct i as [|i], j as [|[|j]]; try lia. exact H. Qed.
Example centred_square : exists L, lattice_of 4 L /\ points L = centred_points /\ vectors L = square_vectors /\ space_dim L = 2%nat /\
  separated (view 4) L /\ orthogonal (vectors L) /\ reduced (3 / 4) (vectors L) /\ finds_nearest first_nearest.
Proof.
  assert (V : view 4 <= / 10) by (apply view_tenth; lia).
  destruct (C31_constructor 4 (Arr 2 centred_points) (Arr 2 square_vectors)) as [_ K]. specialize (K 2%nat centred_points 2%nat square_vectors eq_refl eq_refl).
  destruct K as (_ & _ & K). destruct K as (L & d & H & Ed & Ep & Ev).
  - cbn. split; [lia|]. split; [lia|]. split; [reflexivity|]. split; apply apart2.
    + eapply Rle_trans; [|apply (coord_le_dist 0)]. cbn. rewrite Rabs_right; lra.
    + eapply Rle_trans; [|apply (coord_le_dist 0)]. cbn. rewrite Rabs_left1; lra.
  - apply square_independent.
  - exists L. split; [eapply lattice_of_make; [exact H|discriminate|discriminate]|]. repeat (split; [assumption|]).
    assert (O : orthogonal (vectors L)).
    { rewrite Ev. intros i j Hi Hj N. cbn in Hi, Hj. destruct i as [|[|i]], j as [|[|j]]; try lia; cbn; lra. }
    split; [|split; [exact O|split; [now apply orthogonal_reduced; [lra|]|apply first_nearest_ok]]].
    intros i j ns Hi Hj N Ln. rewrite Ep, Ev in *. destruct ns as [|m [|n [|]]]; try discriminate.
    eapply Rle_trans; [|apply (coord_le_dist 0)]. cbn in Hi, Hj. destruct i as [|[|i]], j as [|[|j]]; try lia; cbn.
    + replace (0 - (/ 2 + (IZR m * 1 + (IZR n * 0 + 0)))) with (- (/ 2 + IZR m)) by ring. rewrite Rabs_Ropp. pose proof (half_gap m). lra.
    + replace (/ 2 - (0 + (IZR m * 1 + (IZR n * 0 + 0)))) with (/ 2 + IZR (- m)) by (rewrite opp_IZR; ring). pose proof (half_gap (- m)). lra.
Qed.

(** The triangular cell is reduced as well (its overlap is 1/2). *)
Definition triangular_vectors : list point := [(1, 0, 0); (/ 2, sqrt 3 / 2, 0)].
Example triangular_reduced : reduced (3 / 4) triangular_vectors /\ ~ orthogonal triangular_vectors.
Proof.
  assert (S3 : sqrt 3 * sqrt 3 = 3) by (apply sqrt_sqrt; lra). split.
  - intros i Hi. cbn in Hi. destruct i as [|[|i]]; try lia; cbn.
    + rewrite Rabs_right; lra.
    + rewrite Rabs_right; nra.
  - intros O. specialize (O 0%nat 1%nat ltac:(cbn; lia) ltac:(cbn; lia) ltac:(lia)). cbn in O. lra.
Qed.

(** A skewed cell: one point, vectors (1, 0) and (5/2, 1/10).  The site
    2 a1 - a2 = (-1/2, -1/10) is in the lattice, but decompose raises. *)
Definition skew_vectors : list point := [(1, 0, 0); (5 / 2, / 10, 0)].
Lemma skew_independent : ~ dependent skew_vectors.
Proof.
  intros (xs & Lx & (x & Hx & Nx) & E). destruct xs as [|x1 [|x2 [|]]]; try discriminate. cbn in E. injection E as E1 E2 _.
  assert (x2 = 0) by lra. subst. destruct Hx as [<-|[<-|[]]]; apply Nx; lra.
Qed.
Definition skew_site : point := shift [2; -1]%Z skew_vectors.
Theorem C34_skewed_refuted : forall prec, (1 <= prec)%nat -> exists L,
  lattice_of prec L /\ points L = [v0] /\ vectors L = skew_vectors /\ separated (view prec) L /\
  (exists ns, List.length ns = List.length (vectors L) /\ skew_site = vadd v0 (shift ns (vectors L))) /\
  forall fuel, (2 <= fuel)%nat -> decompose L fuel prec (Site (space_dim L) skew_site) = Some (Err RuntimeError).
Proof.
  intros prec Hprec. pose proof (view_tenth prec Hprec) as V. pose proof (view_pos prec) as V0.
  destruct (C31_constructor prec (Arr 2 [v0]) (Arr 2 skew_vectors)) as [_ K]. specialize (K 2%nat [v0] 2%nat skew_vectors eq_refl eq_refl).
  destruct K as (_ & _ & K). destruct K as (L & d & H & Ed & Ep & Ev).
  - cbn [List.length skew_vectors]. split; [lia|]. split; [lia|]. split; [reflexivity|]. split.
    + apply apart2. eapply Rle_trans; [|apply (coord_le_dist 0)]. cbn. rewrite Rabs_left1; lra.
    + intros i j Hij. cbn in Hij. lia.
  - apply skew_independent.
  - exists L. split; [eapply lattice_of_make; [exact H|discriminate|discriminate]|]. split; [exact Ep|]. split; [exact Ev|].
    split. { intros i j ns Hi Hj N _. rewrite Ep in Hi, Hj. cbn in Hi, Hj. lia. }
    split. { exists [2; -1]%Z. rewrite Ev. split; [reflexivity|]. unfold skew_site. now rewrite vadd_0_l. }
    intros fuel Hf.
    assert (Es : skew_site = (- / 2, - / 10, 0)) by (unfold skew_site, shift; cbn; apply p3_eq; lra).
    assert (Eref : norm (vsub skew_site v0) = sqrt (26 / 100)) by (unfold norm; f_equal; rewrite Es; cbn; lra).
    assert (Ref1 : sqrt (26 / 100) < 1) by (rewrite <- sqrt_1; apply sqrt_lt_1; lra).
    assert (Ref0 : 0 < sqrt (26 / 100)) by (apply sqrt_lt_R0; lra).
    assert (Kl : (1 <= List.length (vectors L))%nat) by (rewrite Ev; cbn; lia).
    assert (Kp : points L <> []) by (rewrite Ep; discriminate).
    assert (None1 : forall rs, (forall m, In m rs -> (m <= 1)%Z) -> searching L prec (database L rs) (map (vsub skew_site) (points L)) = None).
    { intros rs Hrs. destruct (searching L prec (database L rs) (map (vsub skew_site) (points L))) as [r|] eqn:E; [exfalso|reflexivity].
      apply searching_some in E as (i & Hi & Ni & _ & _). rewrite Ep in Hi. cbn in Hi. assert (i = O) by lia. subst i.
      apply near_iff in Ni as (ns & Ln & F & D). rewrite Ev in *. destruct ns as [|m [|n [|]]]; try discriminate.
      inversion F as [|? ? Hm F2]; subst. specialize (Hrs m Hm). apply IZR_le in Hrs.
      unfold disp in D. rewrite Ep in D. cbn [nth] in D. rewrite vsub_0_r, Es in D.
      pose proof (coord_le_dist 0 (shift [m; n] skew_vectors) (- / 2, - / 10, 0)) as Dx. pose proof (coord_le_dist 1 (shift [m; n] skew_vectors) (- / 2, - / 10, 0)) as Dy.
      remember (dist (shift [m; n] skew_vectors) (- / 2, - / 10, 0)) as dd eqn:Edd. clear Edd. unfold shift in Dx, Dy. cbn in Dx, Dy.
      assert (Dy' : Rabs (IZR (n + 1) * / 10) < / 10) by (rewrite plus_IZR; replace ((IZR n + 1) * / 10) with (IZR m * 0 + (IZR n * / 10 + 0) - - / 10) by ring; lra).
      rewrite Rabs_mult, (Rabs_right (/ 10)) in Dy' by lra. destruct (int_gap (n + 1)) as [En|Gn]; [|lra].
      assert (n = (-1)%Z) by lia. subst n. replace (IZR (-1)) with (-1) in Dx by reflexivity. rewrite Rabs_left1 in Dx; lra. }
    cbn [decompose]. rewrite Nat.eqb_refl. cbn [negb]. rewrite None1 by (intros m [<-|[<-|[<-|[]]]]; lia).
    rewrite Ep at 1. cbn [map max_list fold_left]. fold (norm (vsub skew_site v0)). rewrite Eref.
    assert (G : guess_scope L fuel (sqrt (26 / 100)) = Some (Ok 0%Z)).
    { destruct fuel as [|[|fuel]]; try lia. unfold guess_scope. cbn [guess_loop].
      destruct (edge_min_spec L (-1) Kl Kp ltac:(lia)) as (m1 & -> & Lo & _).
      assert (M1 : m1 <= 0).
      { specialize (Lo [0; 0]%Z v0 v0). rewrite Ev, Ep in Lo. specialize (Lo eq_refl eq_refl (or_introl eq_refl) (or_introl eq_refl)).
        change [0; 0]%Z with (repeat 0%Z 2) in Lo. rewrite shift_zero, vadd_0_l, dist_refl in Lo. exact Lo. }
      rewrite (proj2 (Rltb_false _ _)) by lra. change (-1 + 1)%Z with 0%Z.
      destruct (edge_min_spec L 0 Kl Kp ltac:(lia)) as (m0 & -> & _ & (c & p & q & Lc & Rc & Hp & Hq & ->)).
      rewrite (proj2 (Rltb_iff _ _)); [reflexivity|]. rewrite Ep in Hp, Hq. destruct Hp as [<-|[]], Hq as [<-|[]].
      eapply Rlt_le_trans; [exact Ref1|]. rewrite vadd_0_r. eapply Rle_trans; [|apply (coord_le_dist 0)]. rewrite Ev in *.
      destruct c as [|m [|n [|]]]; try discriminate. cbn in Rc. unfold shift. cbn.
      assert (Hm : (m = -1 \/ m = 0 \/ m = 1)%Z) by lia. assert (Hn : (n = -1 \/ n = 0 \/ n = 1)%Z) by lia.
      destruct Hm as [-> | [-> | ->]], Hn as [-> | [-> | ->]]; try (cbn in Rc; lia); unfold Rabs; destruct (Rcase_abs _); lra. }
    rewrite G, None1; [reflexivity|]. intros m Hm. apply in_zrange in Hm. lia.
Qed.
Print Assumptions C34_skewed_refuted.

(** Two equivalent points: the constructor accepts the points 0 and 1 with the
    translation vector 1, but decompose(0) raises. *)
Theorem C34_equivalent_refuted : forall prec, exists L,
  lattice_of prec L /\ points L = [v0; (1, 0, 0)] /\ vectors L = [(1, 0, 0)] /\
  exists F, forall fuel, (F <= fuel)%nat -> decompose L fuel prec (Site (space_dim L) v0) = Some (Err RuntimeError).
Proof.
  intros prec. pose proof (view_le_1 prec) as V. pose proof (view_pos prec) as V0.
  destruct (C31_constructor prec (Arr 1 [v0; (1, 0, 0)]) (Arr 1 [(1, 0, 0)])) as [_ K]. specialize (K 1%nat [v0; (1, 0, 0)] 1%nat [(1, 0, 0)] eq_refl eq_refl).
  destruct K as (_ & _ & K). destruct K as (L & d & H & Ed & Ep & Ev).
  - cbn [List.length]. split; [lia|]. split; [lia|]. split; [reflexivity|]. split.
    + intros i j Hij. cbn in Hij. lia.
    + apply apart2. eapply Rle_trans; [|apply (coord_le_dist 0)]. cbn. rewrite Rabs_left1; lra.
  - intros (xs & Lx & (x & Hx & Nx) & E). destruct xs as [|x1 [|]]; try discriminate. cbn in E. injection E as E1. destruct Hx as [<-|[]]; apply Nx; lra.
  - exists L. assert (HL : lattice_of prec L) by (eapply lattice_of_make; [exact H|discriminate|discriminate]). split; [exact HL|]. split; [exact Ep|]. split; [exact Ev|].
    destruct (C33_total prec prec L (Site (space_dim L) v0) HL) as (F & HF). exists F. intros fuel Hf.
    destruct (HF fuel Hf) as [[[E|(len & c & E & N)] _]|(_ & [R|(r & R)])]; [discriminate|now injection E as <- _|exact R|exfalso].
    assert (Kl : (1 <= List.length (vectors L))%nat) by (rewrite Ev; cbn; lia).
    assert (Kp : points L <> []) by (rewrite Ep; discriminate).
    assert (None1 : forall rs, In 0%Z rs -> In (-1)%Z rs -> searching L prec (database L rs) (map (vsub v0) (points L)) = None).
    { intros rs H0 H1. destruct (searching L prec (database L rs) (map (vsub v0) (points L))) as [q|] eqn:E; [exfalso|reflexivity].
      apply searching_some in E as (i & Hi & Ni & U & _). rewrite Ep in Hi, U. cbn in Hi.
      assert (N0 : near prec (database L rs) (disp L v0 0) = true).
      { apply near_iff. exists [0%Z]. rewrite Ev. split; [reflexivity|]. split; [now constructor|]. rewrite dist_eq; [exact V0|].
        unfold disp, shift. rewrite Ep. cbn. apply p3_eq; ring. }
      assert (N1 : near prec (database L rs) (disp L v0 1) = true).
      { apply near_iff. exists [(-1)%Z]. rewrite Ev. split; [reflexivity|]. split; [now constructor|]. rewrite dist_eq; [exact V0|].
        unfold disp, shift. rewrite Ep. cbn. apply p3_eq; ring. }
      destruct i as [|[|i]]; [|rewrite U in N0 by (cbn; lia); discriminate|lia]. rewrite U in N1 by (cbn; lia). discriminate. }
    cbn [decompose] in R. rewrite Nat.eqb_refl in R. cbn [negb] in R. rewrite None1 in R by (cbn; auto).
    destruct (max_list (map norm (map (vsub v0) (points L)))) as [ref|] eqn:Em; [|discriminate].
    assert (Ref : 1 <= ref).
    { apply (max_list_spec _ _ Em). rewrite Ep. cbn [map]. right. left. unfold norm. transitivity (sqrt 1); [f_equal; cbn; ring|apply sqrt_1]. }
    destruct (guess_scope L fuel ref) as [[sc|]|] eqn:Eg; try discriminate.
    unfold guess_scope in Eg. apply guess_loop_spec in Eg as (S1 & (m & Em' & Hm) & _).
    assert (Hs : (1 <= sc)%Z).
    { assert (D : (sc = -1 \/ sc = 0 \/ 1 <= sc)%Z) by lia. destruct D as [-> | [-> | D]]; [| |exact D]; exfalso.
      - destruct (edge_min_spec L (-1) Kl Kp ltac:(lia)) as (m1 & E1 & Lo & _). rewrite E1 in Em'. injection Em' as ->.
        specialize (Lo [0]%Z v0 v0). rewrite Ev, Ep in Lo. specialize (Lo eq_refl eq_refl (or_introl eq_refl) (or_introl eq_refl)).
        change [0]%Z with (repeat 0%Z 1) in Lo. rewrite shift_zero, vadd_0_l, dist_refl in Lo. lra.
      - destruct (edge_min_spec L 0 Kl Kp ltac:(lia)) as (m1 & E1 & Lo & _). rewrite E1 in Em'. injection Em' as ->.
        specialize (Lo [1]%Z v0 (1, 0, 0)). rewrite Ev, Ep in Lo. specialize (Lo eq_refl eq_refl (or_introl eq_refl) (or_intror (or_introl eq_refl))).
        rewrite dist_eq in Lo; [lra|]. unfold shift. cbn. apply p3_eq; ring. }
    rewrite None1 in R by (apply in_zrange; lia). discriminate.
Qed.
Print Assumptions C34_equivalent_refuted.
