(** C34: sites given with an error below the tolerance. *)
From Coq Require Import List Reals ZArith Bool Arith Lra Lia Permutation.
From Verif Require Import Py CVec LinSolve Line2D_Model Line2D_Proofs Lattice_Model Lattice_Spec Lattice_Proofs Lattice_Proofs2 Lattice_Proofs3 Lattice_Properties LatticeCases_Properties.
Import ListNotations.
Open Scope R_scope.

Lemma disp_moved L i ns e : disp L (vadd (vadd (nth i (points L) v0) (shift ns (vectors L))) e) i = vadd (shift ns (vectors L)) e.
Proof. unfold disp. generalize (nth i (points L) v0), (shift ns (vectors L)). intros p q. vring. Qed.
Lemma norm_dist e : norm e = dist e v0.
Proof. unfold dist. f_equal. destruct e as [[x y] z]. vring. Qed.
Lemma near_moved prec L i ns e rs : norm e < view prec -> List.length ns = List.length (vectors L) -> Forall (fun n => In n rs) ns ->
  near prec (database L rs) (disp L (vadd (vadd (nth i (points L) v0) (shift ns (vectors L))) e) i) = true.
Proof.
  intros He Ln F. apply near_iff. exists ns. split; [exact Ln|]. split; [exact F|]. rewrite disp_moved.
  replace (dist (shift ns (vectors L)) (vadd (shift ns (vectors L)) e)) with (norm e); [exact He|].
  rewrite dist_sym. unfold dist. f_equal. generalize (shift ns (vectors L)). intros p. vring.
Qed.
Lemma separated_moved prec L i j ns e rs : separated (2 * view prec) L -> norm e < view prec -> (i < List.length (points L))%nat -> (j < List.length (points L))%nat -> j <> i ->
  List.length ns = List.length (vectors L) -> near prec (database L rs) (disp L (vadd (vadd (nth i (points L) v0) (shift ns (vectors L))) e) j) = false.
Proof.
  intros Hs He Hi Hj N Ln. destruct (near _ _ _) eqn:E; [|reflexivity]. exfalso. apply near_iff in E as (ms & Lm & _ & D). unfold disp in D.
  set (m := map (fun p => (fst p - snd p)%Z) (combine ms ns)).
  specialize (Hs i j m Hi Hj (fun E => N (eq_sym E)) ltac:(unfold m; rewrite map_length, combine_length; lia)).
  unfold m in Hs. rewrite <- shift_sub in Hs by lia.
  pose proof (dist_triangle (nth i (points L) v0) (vadd (nth i (points L) v0) e) (vadd (nth j (points L) v0) (vsub (shift ms (vectors L)) (shift ns (vectors L))))) as T.
  replace (dist (nth i (points L) v0) (vadd (nth i (points L) v0) e)) with (norm e) in T.
  2:{ rewrite dist_sym. unfold dist. f_equal. generalize (nth i (points L) v0). intros p. vring. }
  replace (dist (vadd (nth i (points L) v0) e) (vadd (nth j (points L) v0) (vsub (shift ms (vectors L)) (shift ns (vectors L))))) with
    (dist (shift ms (vectors L)) (vsub (vadd (vadd (nth i (points L) v0) (shift ns (vectors L))) e) (nth j (points L) v0))) in T; [lra|].
  generalize (nth i (points L) v0), (nth j (points L) v0), (shift ms (vectors L)), (shift ns (vectors L)).
  intros p q a b. rewrite dist_sym. unfold dist. f_equal. vring.
Qed.

(** A translation by at most one vector in each direction is found also when the
    site is off by less than the tolerance e. *)
Theorem C34_inexact_small : forall prec L i ns e fuel, separated (2 * view prec) L -> norm e < view prec -> (i < List.length (points L))%nat ->
  List.length ns = List.length (vectors L) -> (reach ns <= 1)%Z ->
  decompose L fuel prec (Site (space_dim L) (vadd (vadd (nth i (points L) v0) (shift ns (vectors L))) e)) =
    Some (Ok (nth i (points L) v0, vadd (shift ns (vectors L)) e)).
Proof.
  intros prec L i ns e fuel Hs He Hi Ln R. cbn [decompose]. rewrite Nat.eqb_refl. cbn [negb].
  rewrite (searching_intro prec L _ _ i Hi); [now rewrite disp_moved| |].
  - apply near_moved; auto. apply reach_le in R; [|lia]. eapply Forall_impl; [|exact R]. cbn. intros n Hn. lia.
  - intros j Hj N. now apply separated_moved.
Qed.
Print Assumptions C34_inexact_small.

(** Longer translations are found, in reduced cells, if some point of the cluster
    is at least as far from the given site as the translation is long ... *)
Theorem C34_inexact : forall prec0 prec L i ns e, lattice_of prec0 L -> separated (2 * view prec) L -> reduced (3 / 4) (vectors L) ->
  norm e < view prec -> (i < List.length (points L))%nat -> List.length ns = List.length (vectors L) ->
  (exists q, In q (points L) /\ norm (shift ns (vectors L)) <= dist (vadd (vadd (nth i (points L) v0) (shift ns (vectors L))) e) q) ->
  exists F, forall fuel, (F <= fuel)%nat ->
    decompose L fuel prec (Site (space_dim L) (vadd (vadd (nth i (points L) v0) (shift ns (vectors L))) e)) =
    Some (Ok (nth i (points L) v0, vadd (shift ns (vectors L)) e)).
Proof.
  intros prec0 prec L i ns e HL Hs Hr He Hi Ln (q & Hq & Far). pose proof (lattice_of_facts _ _ HL) as (_ & Hb & Hk & Hp).
  set (s := vadd (vadd (nth i (points L) v0) (shift ns (vectors L))) e) in *. cbn [decompose]. rewrite Nat.eqb_refl. cbn [negb].
  assert (U : forall rs r, searching L prec (database L rs) (map (vsub s) (points L)) = Some r -> r = (nth i (points L) v0, vadd (shift ns (vectors L)) e)).
  { intros rs r H. apply searching_some in H as (j & Hj & Nj & _ & ->). destruct (Nat.eq_dec j i) as [->|N].
    - unfold s. now rewrite disp_moved.
    - exfalso. unfold s in Nj. rewrite separated_moved in Nj by auto. discriminate. }
  destruct (searching L prec (database L [-1; 0; 1]%Z) (map (vsub s) (points L))) as [r|] eqn:E1.
  { exists O. intros fuel _. now rewrite (U _ _ E1). }
  destruct (max_list (map norm (map (vsub s) (points L)))) as [ref|er] eqn:Em.
  2:{ exfalso. destruct (points L); [contradiction|discriminate]. }
  destruct (guess_terminates L (bs L) ref Hb Hk Hp) as (F & HF). exists F. intros fuel Hf. destruct (HF fuel Hf) as (r & Hrr). rewrite Hrr.
  assert (Cov : (reach ns <= r)%Z /\ (0 <= r)%Z).
  { apply (scope_covers L fuel ref r (nth i (points L) v0) (nth i (points L) v0) ns); auto; try (now apply nth_In); [now apply reduced_shrinks|].
    apply (In_nth _ _ v0) in Hq as (j & Hj & <-). pose proof (nth_disp_norm L s j ref Hj Em) as Hd.
    replace (dist (vadd (shift ns (vectors L)) (nth i (points L) v0)) (nth i (points L) v0)) with (norm (shift ns (vectors L))); [lra|].
    unfold dist. f_equal. generalize (nth i (points L) v0), (shift ns (vectors L)). intros a b. vring. }
  destruct Cov as [C1 C0]. rewrite (searching_intro prec L _ s i Hi); [unfold s; now rewrite disp_moved| |].
  - apply near_moved; auto. apply reach_le in C1; [|lia]. eapply Forall_impl; [|exact C1]. cbn. intros n Hn. apply in_zrange. lia.
  - intros j Hj N. now apply separated_moved.
Qed.
Print Assumptions C34_inexact.

(** ... and the index of the point is found with them. *)
Theorem C32_fold_inexact : forall nearest prec0 prec L i ns e, finds_nearest nearest -> lattice_of prec0 L -> separated (2 * view prec) L ->
  norm e < view prec -> (i < List.length (points L))%nat -> List.length ns = List.length (vectors L) ->
  (reach ns <= 1)%Z \/
  (reduced (3 / 4) (vectors L) /\
   exists q, In q (points L) /\ norm (shift ns (vectors L)) <= dist (vadd (vadd (nth i (points L) v0) (shift ns (vectors L))) e) q) ->
  exists F, forall fuel, (F <= fuel)%nat ->
    getIndex L nearest fuel prec (Site (space_dim L) (vadd (vadd (nth i (points L) v0) (shift ns (vectors L))) e)) true = Some (Ok (Z.of_nat i)).
Proof.
  intros nearest prec0 prec L i ns e Hn HL Hs He Hi Ln Hr.
  assert (D : exists F, forall fuel, (F <= fuel)%nat -> decompose L fuel prec (Site (space_dim L) (vadd (vadd (nth i (points L) v0) (shift ns (vectors L))) e)) = Some (Ok (nth i (points L) v0, vadd (shift ns (vectors L)) e))).
  { destruct Hr as [Hr|[Hr Hq]]; [exists O; intros; now apply C34_inexact_small|now apply (C34_inexact prec0)]. }
  destruct D as (F & D). exists F. intros fuel Hf. specialize (D fuel Hf).
  unfold getIndex. rewrite Nat.eqb_refl. cbn [negb]. rewrite D. pose proof (lattice_of_facts _ _ HL) as (_ & _ & _ & Hp).
  rewrite (nearest_self nearest prec0 L i Hn HL Hi), dist_refl, (proj2 (Rltb_iff 0 (view prec))) by apply view_pos. destruct (points L); [contradiction|reflexivity].
Qed.
Print Assumptions C32_fold_inexact.

(** The condition is needed: on the chain of unit spacing the site n - d, for
    every n from 2 on and every positive d however small, is not found, although
    it is nearer than the tolerance to the lattice site n; n + d is found. *)
Theorem C34_inexact_refuted : forall prec, (1 <= prec)%nat -> exists L,
  lattice_of prec L /\ space_dim L = 1%nat /\ points L = [v0] /\ vectors L = [(1, 0, 0)] /\ separated (2 * view prec) L /\ reduced (3 / 4) (vectors L) /\
  forall (n : Z) (d : R), (2 <= n)%Z -> 0 < d < view prec ->
    dist (IZR n - d, 0, 0) (vadd v0 (shift [n] (vectors L))) < view prec /\
    exists F, forall fuel, (F <= fuel)%nat ->
      decompose L fuel prec (Site (space_dim L) (IZR n - d, 0, 0)) = Some (Err RuntimeError) /\
      decompose L fuel prec (Site (space_dim L) (IZR n + d, 0, 0)) = Some (Ok (v0, (IZR n + d, 0, 0))).
Proof.
  intros prec Hprec. pose proof (view_tenth prec Hprec) as V. pose proof (view_pos prec) as V0.
  destruct (C31_constructor prec (Arr 1 [v0]) (Arr 1 [(1, 0, 0)])) as [_ K]. specialize (K 1%nat [v0] 1%nat [(1, 0, 0)] eq_refl eq_refl).
  destruct K as (_ & _ & K). destruct K as (L & dd & H & Ed & Ep & Ev).
  { cbn [List.length]. split; [lia|]. split; [lia|]. split; [reflexivity|]. split; intros i j Hij; cbn in Hij; lia. }
  { intros (xs & Lx & (x & Hx & Nx) & E). destruct xs as [|x1 [|]]; try discriminate. cbn in E. injection E as E1. destruct Hx as [<-|[]]; apply Nx; lra. }
  assert (HL : lattice_of prec L) by (eapply lattice_of_make; [exact H|discriminate|discriminate]).
  assert (Sep : separated (2 * view prec) L) by (intros i j ns Hi Hj N _; rewrite Ep in Hi, Hj; cbn in Hi, Hj; lia).
  assert (Red : reduced (3 / 4) (vectors L)) by (apply orthogonal_reduced; [lra|apply single_orthogonal; rewrite Ev; cbn; lia]).
  exists L. do 6 (split; [assumption|]). intros n d Hn Hd. pose proof (IZR_le _ _ Hn) as Hn'.
  assert (Sh : forall m : Z, shift [m] (vectors L) = (IZR m, 0, 0)) by (intros m; rewrite Ev; unfold shift; cbn; apply p3_eq; ring).
  assert (Nx : forall x, norm (x, 0, 0) = Rabs x).
  { intros x. unfold norm. rewrite <- sqrt_Rsqr_abs. f_equal. unfold Rsqr. cbn. ring. }
  assert (Dx : forall x y, dist (x, 0, 0) (y, 0, 0) = Rabs (x - y)).
  { intros x y. unfold dist. rewrite <- Nx. f_equal. cbn. apply p3_eq; ring. }
  assert (Kl : (1 <= List.length (vectors L))%nat) by (rewrite Ev; cbn; lia).
  assert (Kp : points L <> []) by (rewrite Ep; discriminate).
  split. { rewrite vadd_0_l, Sh, Dx. rewrite Rabs_left; lra. }
  (* outside *)
  assert (Out : exists F, forall fuel, (F <= fuel)%nat -> decompose L fuel prec (Site (space_dim L) (IZR n + d, 0, 0)) = Some (Ok (v0, (IZR n + d, 0, 0)))).
  { pose proof (C34_inexact prec prec L 0 [n] (d, 0, 0) HL Sep Red) as T.
    replace (vadd (vadd (nth 0 (points L) v0) (shift [n] (vectors L))) (d, 0, 0)) with (IZR n + d, 0, 0) in T.
    2:{ rewrite Sh, Ep. cbn. apply p3_eq; ring. }
    replace (vadd (shift [n] (vectors L)) (d, 0, 0)) with (IZR n + d, 0, 0) in T.
    2:{ rewrite Sh. cbn. apply p3_eq; ring. }
    replace (nth 0 (points L) v0) with v0 in T by (now rewrite Ep). apply T.
    - rewrite Nx, Rabs_right; lra.
    - rewrite Ep. cbn. lia.
    - now rewrite Ev.
    - exists v0. rewrite Ep. split; [now left|]. rewrite Sh, Nx. change v0 with ((0, 0, 0) : point). rewrite Dx. rewrite !Rabs_right; lra. }
  destruct Out as (F1 & Out).
  assert (Hb : solve_columns (vectors L) = Ok (bs L)) by (now apply lattice_of_facts in HL as (_ & Hb & _)).
  destruct (guess_terminates L (bs L) (IZR n - d) Hb Kl Kp) as (F2 & HF). exists (Nat.max F1 F2). intros fuel Hf. split; [|apply Out; lia].
  (* inside *)
  assert (None1 : forall rs, (forall m, In m rs -> (m <= n - 1)%Z) -> searching L prec (database L rs) (map (vsub (IZR n - d, 0, 0)) (points L)) = None).
  { intros rs Hrs. destruct (searching L prec (database L rs) _) as [r|] eqn:E; [exfalso|reflexivity].
    apply searching_some in E as (i & Hi & Ni & _ & _). rewrite Ep in Hi. cbn in Hi. assert (i = O) by lia. subst i.
    apply near_iff in Ni as (ns & Ln & F & D). rewrite Ev in Ln. destruct ns as [|m [|]]; try discriminate.
    inversion F as [|? ? Hm F3]; subst. specialize (Hrs m Hm). apply IZR_le in Hrs. rewrite minus_IZR in Hrs.
    unfold disp in D. rewrite Ep in D. cbn [nth] in D. rewrite vsub_0_r, Sh, Dx in D. rewrite Rabs_left in D; lra. }
  cbn [decompose]. rewrite Nat.eqb_refl. cbn [negb]. rewrite None1 by (intros m [<-|[<-|[<-|[]]]]; lia).
  replace (max_list (map norm (map (vsub (IZR n - d, 0, 0)) (points L)))) with (Ok (IZR n - d)).
  2:{ rewrite Ep. cbn [map max_list fold_left]. rewrite vsub_0_r, Nx, Rabs_right; [reflexivity|lra]. }
  destruct (HF fuel ltac:(lia)) as (r & Hr). rewrite Hr. unfold guess_scope in Hr. apply guess_loop_spec in Hr as (R1' & _ & Before).
  assert (Er : (r <= n - 1)%Z).
  { destruct (Z.le_gt_cases r (n - 1)) as [|G]; [assumption|exfalso]. destruct (Before (n - 1)%Z ltac:(lia)) as (m & Em & Le).
    destruct (edge_min_spec L (n - 1) Kl Kp ltac:(lia)) as (m' & Em' & _ & (c & p & q & Lc & Rc & Hp & Hq & ->)). rewrite Em in Em'. injection Em' as ->.
    rewrite Ep in Hp, Hq. destruct Hp as [<-|[]], Hq as [<-|[]]. rewrite Ev in Lc. destruct c as [|m [|]]; try discriminate.
    cbn in Rc. rewrite vadd_0_r, Sh in Le. change v0 with ((0, 0, 0) : point) in Le. rewrite Dx, Rminus_0_r, <- abs_IZR in Le.
    replace (Z.abs m) with n in Le by lia. lra. }
  rewrite None1; [reflexivity|]. intros m Hm. apply in_zrange in Hm. lia.
Qed.
Print Assumptions C34_inexact_refuted.
