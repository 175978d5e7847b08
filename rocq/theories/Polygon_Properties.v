(** C41: polygons. *)
From Coq Require Import List Reals Bool Arith Lra Lia Psatz.
From Verif Require Import Py Line2D_Model Line2D_Spec Line2D_Proofs Polygon_Model Polygon_Spec Polygon_Proofs.
Import ListNotations.
Open Scope R_scope.

Definition near_vertex (tol : R) (vs : list (R * R)) (q : R * R) : Prop := exists v, In v vs /\ dist2 v q <= tol.

(** Rows of two numbers, at least three, pairwise further apart than tol. *)
Theorem C41_constructor : forall rows tol,
  make_polygon VNdim tol = Err AssertionError /\
  ((List.length rows < 3)%nat \/ (exists r, In r rows /\ List.length r <> 2%nat) -> make_polygon (VRows rows) tol = Err AssertionError) /\
  (forall vs, rows = map (fun p => [fst p; snd p]) vs -> (3 <= List.length vs)%nat ->
     (make_polygon (VRows rows) tol = Err ValueError <->
        exists i j, (i < j < List.length vs)%nat /\ dist2 (vertex vs i) (vertex vs j) <= tol) /\
     ((forall i j, (i < j < List.length vs)%nat -> tol < dist2 (vertex vs i) (vertex vs j)) -> make_polygon (VRows rows) tol = Ok vs)).
Proof.
  intros rows tol. split; [reflexivity|]. split.
  - intros H. cbn [make_polygon]. destruct (Nat.leb_spec 3 (List.length rows)) as [L|L]; [|reflexivity]. cbn [assert_ bind].
    destruct H as [H|(r & Hr & Nr)]; [lia|].
    replace (as_points rows) with (@None (list (R * R))); [reflexivity|]. symmetry. clear L. induction rows as [|a rows IH]; [destruct Hr|].
    destruct Hr as [->|Hr].
    + destruct r as [|x [|y [|z r]]]; try reflexivity. cbn in Nr. lia.
    + destruct a as [|x [|y [|z a]]]; try reflexivity. cbn. now rewrite (IH Hr).
  - intros vs -> L. cbn [make_polygon]. rewrite map_length. destruct (Nat.leb_spec 3 (List.length vs)) as [_|L']; [|lia]. cbn [assert_ bind].
    assert (E : as_points (map (fun p => [fst p; snd p]) vs) = Some vs).
    { clear. induction vs as [|[x y] vs IH]; [reflexivity|]. cbn. now rewrite IH. }
    rewrite E.
    assert (A : any_close vs tol = true <-> exists i j, (i < j < List.length vs)%nat /\ dist2 (vertex vs i) (vertex vs j) <= tol).
    { clear. induction vs as [|v vs IH].
      - cbn. split; [discriminate|]. intros (i & j & H & _). lia.
      - cbn [any_close]. rewrite orb_true_iff, existsb_exists, IH. split.
        + intros [(w & Hw & D)|(i & j & H & D)].
          * apply In_nth with (d := (0, 0)) in Hw as (k & Hk & <-). exists 0%nat, (S k). split; [cbn; lia|]. now apply Rleb_iff.
          * exists (S i), (S j). split; [cbn; lia|exact D].
        + intros (i & j & H & D). destruct i as [|i].
          * left. destruct j as [|j]; [lia|]. exists (vertex vs j). split; [apply nth_In; cbn in H; lia|]. now apply Rleb_iff.
          * right. destruct j as [|j]; [lia|]. exists i, j. split; [cbn in H; lia|exact D]. }
    split.
    + rewrite <- A. destruct (any_close vs tol); split; intros; congruence.
    + intros H. destruct (any_close vs tol) eqn:X; [|reflexivity]. destruct (proj1 A eq_refl) as (i & j & Hij & D). specialize (H i j Hij). lra.
Qed.
Print Assumptions C41_constructor.

(** The four answers exclude each other and one of them is right. *)
Theorem C41_answers_exclusive : forall vs q a b, convex vs -> right_answer vs q a -> right_answer vs q b -> a = b.
Proof.
  intros vs q a b C.
  assert (Cs : exists s, (s = 1 \/ s = -1) /\ convex_with s vs) by (destruct C; [exists 1|exists (-1)]; auto).
  destruct Cs as (s & Hs & Cw).
  assert (VE : In q vs -> on_edge vs q).
  { intros H. apply In_nth with (d := (0, 0)) in H as (i & Hi & E). exists i. split; [exact Hi|]. exists 0. split; [lra|].
    change (nth i vs (0, 0)) with (vertex vs i) in E. rewrite E. destruct q; cbn; f_equal; ring. }
  assert (ER : on_edge vs q -> region vs q) by (intros (i & Hi & O); now apply (edge_region s vs Cw q i)).
  destruct a, b; cbn; intros A B; try reflexivity; exfalso; tauto.
Qed.
Print Assumptions C41_answers_exclusive.

Lemma convex_sign vs : convex vs -> exists s, (s = 1 \/ s = -1) /\ convex_with s vs.
Proof. intros [H|H]; [exists 1|exists (-1)]; auto. Qed.
Lemma side_mul s vs i q r : (s = 1 \/ s = -1) -> cross (vertex vs i) (next vs i) q * cross (vertex vs i) (next vs i) r = side s vs i q * side s vs i r.
Proof. unfold side. intros [-> | ->]; ring. Qed.
Lemma verdict_clear tol a b q : 0 <= tol -> (clear_of tol a b q <-> verdict a b tol q <> ON).
Proof.
  intros Ht. unfold verdict, clear_of. destruct (Req_EM_T (fst b) (fst a)) as [X|X].
  - destruct (cmp3_iff ON LEFT RIGHT (fst q) (fst a) tol Ht) as (A & _); try discriminate. rewrite A. split.
    + intros [H _]. specialize (H ltac:(congruence)). lra.
    + intros H. split; [intros _; lra|intros; congruence].
  - destruct (cmp3_iff ON BELOW ABOVE (snd q) ((snd b - snd a) / (fst b - fst a) * (fst q - fst a) + snd a) tol Ht) as (A & B & C); try discriminate. split.
    + intros [_ H]. destruct (H ltac:(congruence)) as [H'|H'].
      * apply above_iff in H'; [|congruence]. apply C in H'. congruence.
      * apply below_iff in H'; [|congruence]. apply B in H'. congruence.
    + intros H. split; [congruence|]. intros _.
      destruct (cmp3_cases ON BELOW ABOVE (snd q) ((snd b - snd a) / (fst b - fst a) * (fst q - fst a) + snd a) tol Ht) as [[_ E]|[[E _]|[E _]]]; [congruence| |].
      * right. apply below_iff; auto.
      * left. apply above_iff; auto.
Qed.

(** With tolerance 0 and a reference point inside, the answer for a convex
    polygon is right, unless the point is level with a vertical edge. *)
Theorem C41_convex_exact : forall vs q ref, convex vs -> interior vs ref -> no_vertical_trap vs q ->
  exists a, PLocationRelation vs q ref 0 = Ok a /\ right_answer vs q a.
Proof.
  intros vs q ref C Iref NV. destruct (convex_sign vs C) as (s & Hs & Cw).
  pose proof (proj1 (interior_iff s vs Hs Cw ref) Iref) as Sref.
  unfold PLocationRelation.
  assert (D0 : forall v, Rleb (dist2 v q) 0 = true <-> v = q).
  { intros v. rewrite Rleb_iff. unfold dist2. split; [|intros ->; replace (_ + _) with 0 by ring; rewrite sqrt_0; lra].
    intros H. pose proof (sqrt_pos ((fst v - fst q) * (fst v - fst q) + (snd v - snd q) * (snd v - snd q))).
    assert (E : sqrt ((fst v - fst q) * (fst v - fst q) + (snd v - snd q) * (snd v - snd q)) = 0) by lra.
    apply sqrt_eq_0 in E; [|apply Rplus_le_le_0_compat; apply Rle_0_sqr].
    apply Rplus_sqr_eq_0 in E as [E1 E2]. apply injective_projections; lra. }
  destruct (existsb (fun v => Rleb (dist2 v q) 0) vs) eqn:Ex.
  { exists CORNER. split; [reflexivity|]. apply existsb_exists in Ex as (v & Hv & E). apply D0 in E. now subst v. }
  assert (Nq : ~ In q vs).
  { intros H. assert (existsb (fun v => Rleb (dist2 v q) 0) vs = true); [|congruence]. apply existsb_exists. exists q. split; auto. now apply D0. }
  assert (G : forall is, (forall i, In i is -> (i < List.length vs)%nat) ->
     exists a, edge_loop vs q ref 0 is = Ok a /\
       match a with
       | CORNER => False
       | BOUNDARY => on_edge vs q
       | INSIDE => forall i, In i is -> 0 < side s vs i q
       | OUTSIDE => ~ region vs q
       end).
  { induction is as [|i is IH]; intros Hin.
    - exists INSIDE. split; [reflexivity|]. intros i [].
    - assert (Hi : (i < List.length vs)%nat) by (apply Hin; now left).
      assert (Ne : vertex vs i <> next vs i) by (apply (edge_distinct s vs Hs Cw); auto).
      assert (Cl : clean 0 (vertex vs i) (next vs i)).
      { split; [|split; [|exact Ne]].
        - destruct (Req_dec (fst (next vs i)) (fst (vertex vs i))); [auto|right; apply Rabs_pos_lt; lra].
        - destruct (Req_dec (snd (next vs i)) (snd (vertex vs i))); [auto|right; apply Rabs_pos_lt; lra]. }
      rewrite edge_loop_cons by (auto; lra). cbv zeta.
      set (p := vertex vs i) in *. set (r := next vs i) in *.
      assert (Vr : verdict p r 0 ref <> ON).
      { rewrite verdict_zero by auto. intros Z. specialize (Sref i Hi). unfold side in Sref. fold p r in Sref. rewrite Z in Sref. lra. }
      destruct (loc_eqb (verdict p r 0 q) ON) eqn:E0.
      + apply loc_eqb_iff in E0. apply verdict_zero in E0; auto.
        assert (Z : side s vs i q = 0) by (unfold side; fold p r; rewrite E0; ring).
        destruct (Rleb (Rmin (fst p) (fst r)) (fst q) && Rleb (fst q) (Rmax (fst p) (fst r)))%bool eqn:Er.
        * exists BOUNDARY. split; [reflexivity|]. exists i. split; [exact Hi|].
          apply andb_prop in Er as [Er1 Er2]. apply Rleb_iff in Er1, Er2.
          destruct (Req_dec (fst p) (fst r)) as [X|X].
          -- apply NV; auto. fold p. rewrite <- X, Rmin_left in Er1 by lra. rewrite <- X, Rmax_left in Er2 by lra. lra.
          -- exists ((fst q - fst p) / (fst r - fst p)). fold p r. split.
             ++ unfold Rmin, Rmax in *. destruct (Rle_dec (fst p) (fst r)).
                ** assert (0 < fst r - fst p) by lra. split; [apply Rmult_le_pos; [lra|left; now apply Rinv_0_lt_compat]|].
                   apply Rmult_le_reg_r with (fst r - fst p); [lra|]. unfold Rdiv. rewrite Rmult_assoc, Rinv_l, Rmult_1_r, Rmult_1_l by lra. lra.
                ** replace ((fst q - fst p) / (fst r - fst p)) with ((fst p - fst q) / (fst p - fst r)) by (field; lra).
                   assert (0 < fst p - fst r) by lra. split; [apply Rmult_le_pos; [lra|left; now apply Rinv_0_lt_compat]|].
                   apply Rmult_le_reg_r with (fst p - fst r); [lra|]. unfold Rdiv. rewrite Rmult_assoc, Rinv_l, Rmult_1_r, Rmult_1_l by lra. lra.
             ++ destruct q as [x y]. unfold cross in E0. cbn [fst snd] in *. f_equal; [field; lra|].
                apply Rmult_eq_reg_l with (fst r - fst p); [|lra]. field_simplify; [|lra]. lra.
        * exists OUTSIDE. split; [reflexivity|]. intros Rq. pose proof (region_zero_edge s vs Hs Cw q i Hi Rq Z) as (t & Ht & Eq).
          fold p r in Eq. apply andb_false_iff in Er. assert (Fq : fst q = (1 - t) * fst p + t * fst r) by (now rewrite Eq).
          unfold Rmin, Rmax in Er. destruct (Rle_dec (fst p) (fst r)) as [L|L]; destruct Er as [Er|Er]; apply Rleb_false in Er; nra.
      + assert (Vq : verdict p r 0 q <> ON) by (intros X; rewrite X in E0; discriminate).
        destruct (verdict_cross p r 0 q ref ltac:(lra) Ne Vq Vr) as [Nz Eq].
        unfold p, r in Eq. rewrite (side_mul s) in Eq by auto. specialize (Sref i Hi).
        destruct (loc_eqb (verdict p r 0 q) (verdict p r 0 ref)) eqn:E1; cbn [negb].
        * apply loc_eqb_iff in E1. apply Eq in E1. destruct IH as (a & Ea & Ha); [intros; apply Hin; now right|].
          exists a. split; [exact Ea|]. destruct a; auto. intros j [<-|Hj]; [nra|auto].
        * exists OUTSIDE. split; [reflexivity|]. intros Rq. pose proof (region_side s vs Hs Cw q Rq i Hi) as P.
          assert (N1 : ~ 0 < side s vs i q * side s vs i ref) by (intros X; apply Eq in X; apply loc_eqb_iff in X; fold p r in X; congruence).
          assert (side s vs i q <> 0) by (unfold side; fold p r; intros X; apply Rmult_integral in X as [X|X]; [destruct Hs; lra|tauto]). nra. }
  destruct (G (seq 0 (List.length vs))) as (a & Ea & Ha).
  { intros i Hi. apply in_seq in Hi. lia. }
  exists a. split; [exact Ea|]. destruct a; cbn [right_answer]; auto; [contradiction|].
  apply (interior_iff s vs Hs Cw). intros i Hi. apply Ha. apply in_seq. lia.
Qed.
Print Assumptions C41_convex_exact.

(** CORNER is answered exactly when some vertex is within the tolerance (any
    polygon, any reference point). *)
Theorem C41_corner : forall vs q ref tol, PLocationRelation vs q ref tol = Ok CORNER <-> near_vertex tol vs q.
Proof.
  intros vs q ref tol. unfold PLocationRelation, near_vertex.
  assert (N : forall is, edge_loop vs q ref tol is <> Ok CORNER).
  { induction is as [|i is IH]; [discriminate|]. cbn [edge_loop]. destruct (make_line _ _ tol); [|discriminate]. cbn [bind].
    destruct (LocationRelation a [fst q; snd q] tol); [|discriminate]. cbn [bind].
    destruct (LocationRelation a [fst ref; snd ref] tol); [|discriminate]. cbn [bind].
    destruct (loc_eqb _ ON); [destruct (_ && _)%bool; discriminate|]. destruct (negb _); [discriminate|exact IH]. }
  destruct (existsb (fun v => Rleb (dist2 v q) tol) vs) eqn:E.
  - split; [intros _|reflexivity]. apply existsb_exists in E as (v & Hv & H). exists v. split; [exact Hv|now apply Rleb_iff].
  - split; [intros X; now apply N in X|]. intros (v & Hv & H).
    assert (existsb (fun v => Rleb (dist2 v q) tol) vs = true); [|congruence]. apply existsb_exists. exists v. split; [exact Hv|now apply Rleb_iff].
Qed.
Print Assumptions C41_corner.

(** One pass over the edges of a convex polygon with tolerance tol. *)
Lemma loop_tol s vs q ref tol : (s = 1 \/ s = -1) -> convex_with s vs -> 0 <= tol -> clean_edges tol vs ->
  interior vs ref -> clear_of_edges tol vs ref ->
  forall is, (forall i, In i is -> (i < List.length vs)%nat) ->
  exists a, edge_loop vs q ref tol is = Ok a /\
    match a with
    | CORNER => False
    | BOUNDARY => exists i, In i is /\ ~ clear_of tol (vertex vs i) (next vs i) q /\
        Rmin (fst (vertex vs i)) (fst (next vs i)) <= fst q <= Rmax (fst (vertex vs i)) (fst (next vs i))
    | INSIDE => forall i, In i is -> 0 < side s vs i q /\ clear_of tol (vertex vs i) (next vs i) q
    | OUTSIDE => exists i, In i is /\ (~ clear_of tol (vertex vs i) (next vs i) q \/ side s vs i q < 0)
    end.
Proof.
  intros Hs Cw Ht Cl Iref Cref. pose proof (proj1 (interior_iff s vs Hs Cw ref) Iref) as Sref.
  induction is as [|i is IH]; intros Hin.
  - exists INSIDE. split; [reflexivity|]. intros i [].
  - assert (Hi : (i < List.length vs)%nat) by (apply Hin; now left).
    assert (Ne : vertex vs i <> next vs i) by (apply (edge_distinct s vs Hs Cw); auto).
    rewrite edge_loop_cons by (auto; now apply Cl). cbv zeta.
    pose proof (Cref i Hi) as Vr. apply verdict_clear in Vr; auto.
    destruct (loc_eqb (verdict (vertex vs i) (next vs i) tol q) ON) eqn:E0.
    + apply loc_eqb_iff in E0.
      assert (Nc : ~ clear_of tol (vertex vs i) (next vs i) q) by (rewrite verdict_clear by auto; tauto).
      destruct (Rleb _ _ && Rleb _ _)%bool eqn:Er.
      * exists BOUNDARY. split; [reflexivity|]. exists i. split; [now left|]. split; [exact Nc|].
        apply andb_prop in Er as [A B]. apply Rleb_iff in A, B. lra.
      * exists OUTSIDE. split; [reflexivity|]. exists i. split; [now left|]. now left.
    + assert (Vq : verdict (vertex vs i) (next vs i) tol q <> ON) by (intros X; rewrite X in E0; discriminate).
      destruct (verdict_cross _ _ tol q ref Ht Ne Vq Vr) as [Nz Eq]. rewrite (side_mul s) in Eq by auto. specialize (Sref i Hi).
      destruct (loc_eqb (verdict (vertex vs i) (next vs i) tol q) (verdict (vertex vs i) (next vs i) tol ref)) eqn:E1; cbn [negb].
      * apply loc_eqb_iff in E1. apply Eq in E1. destruct IH as (a & Ea & Ha); [intros; apply Hin; now right|].
        exists a. split; [exact Ea|]. destruct a; auto.
        -- destruct Ha as (j & Hj & H). exists j. split; [now right|exact H].
        -- intros j [<-|Hj]; [|auto]. split; [nra|now apply verdict_clear].
        -- destruct Ha as (j & Hj & H). exists j. split; [now right|exact H].
      * exists OUTSIDE. split; [reflexivity|]. exists i. split; [now left|]. right.
        assert (N1 : ~ 0 < side s vs i q * side s vs i ref) by (intros X; apply Eq in X; apply loc_eqb_iff in X; congruence).
        assert (side s vs i q <> 0) by (unfold side; intros X; apply Rmult_integral in X as [X|X]; [destruct Hs; lra|tauto]). nra.
Qed.

(** With any tolerance: INSIDE is answered only for points strictly inside ... *)
Theorem C41_inside_sound : forall vs q ref tol, convex vs -> 0 <= tol -> clean_edges tol vs ->
  interior vs ref -> clear_of_edges tol vs ref ->
  PLocationRelation vs q ref tol = Ok INSIDE -> interior vs q /\ clear_of_edges tol vs q.
Proof.
  intros vs q ref tol C Ht Cl Ir Cr H. destruct (convex_sign vs C) as (s & Hs & Cw).
  unfold PLocationRelation in H. destruct (existsb _ vs); [discriminate|].
  destruct (loop_tol s vs q ref tol Hs Cw Ht Cl Ir Cr (seq 0 (List.length vs))) as (a & Ea & Ha); [intros i Hi; apply in_seq in Hi; lia|].
  rewrite Ea in H. injection H as ->. split.
  - apply (interior_iff s vs Hs Cw). intros i Hi. apply Ha. apply in_seq. lia.
  - intros i Hi. apply Ha. apply in_seq. lia.
Qed.
Print Assumptions C41_inside_sound.

(** ... points further than the tolerance from every vertex and every edge's
    line are classified correctly ... *)
Theorem C41_clear_points : forall vs q ref tol, convex vs -> 0 <= tol -> clean_edges tol vs ->
  interior vs ref -> clear_of_edges tol vs ref -> clear_of_edges tol vs q -> ~ near_vertex tol vs q ->
  (region vs q -> PLocationRelation vs q ref tol = Ok INSIDE) /\ (~ region vs q -> PLocationRelation vs q ref tol = Ok OUTSIDE).
Proof.
  intros vs q ref tol C Ht Cl Ir Cr Cq Nv. destruct (convex_sign vs C) as (s & Hs & Cw).
  unfold PLocationRelation. destruct (existsb (fun v => Rleb (dist2 v q) tol) vs) eqn:E.
  { elim Nv. apply existsb_exists in E as (v & Hv & H). exists v. split; [exact Hv|now apply Rleb_iff]. }
  assert (Hin : forall i, In i (seq 0 (List.length vs)) -> (i < List.length vs)%nat) by (intros i Hi; apply in_seq in Hi; lia).
  destruct (loop_tol s vs q ref tol Hs Cw Ht Cl Ir Cr (seq 0 (List.length vs)) Hin) as (a & Ea & Ha).
  rewrite Ea. destruct a.
  - contradiction.
  - destruct Ha as (i & Hi & N & _). elim N. now apply Cq, Hin.
  - split; [reflexivity|]. intros N. elim N. apply (side_region s vs Hs Cw). intros i Hi. left. apply Ha. apply in_seq. lia.
  - destruct Ha as (i & Hi & [N|N]); [elim N; now apply Cq, Hin|]. split; [|reflexivity]. intros Rq.
    pose proof (region_side s vs Hs Cw q Rq i (Hin i Hi)). lra.
Qed.
Print Assumptions C41_clear_points.

(** ... and, without vertical edges, BOUNDARY only for points within the
    tolerance above or below a point of an edge. *)
Theorem C41_boundary_sound : forall vs q ref tol, convex vs -> 0 <= tol -> clean_edges tol vs ->
  interior vs ref -> clear_of_edges tol vs ref ->
  (forall i, (i < List.length vs)%nat -> fst (vertex vs i) <> fst (next vs i)) ->
  PLocationRelation vs q ref tol = Ok BOUNDARY ->
  exists e, on_edge vs e /\ fst e = fst q /\ Rabs (snd q - snd e) <= tol.
Proof.
  intros vs q ref tol C Ht Cl Ir Cr NV H. destruct (convex_sign vs C) as (s & Hs & Cw).
  unfold PLocationRelation in H. destruct (existsb _ vs); [discriminate|].
  assert (Hin : forall i, In i (seq 0 (List.length vs)) -> (i < List.length vs)%nat) by (intros i Hi; apply in_seq in Hi; lia).
  destruct (loop_tol s vs q ref tol Hs Cw Ht Cl Ir Cr (seq 0 (List.length vs)) Hin) as (a & Ea & Ha).
  rewrite Ea in H. injection H as ->. destruct Ha as (i & Hi & N & B). apply Hin in Hi. specialize (NV i Hi).
  set (p := vertex vs i) in *. set (r := next vs i) in *.
  set (y := (snd r - snd p) / (fst r - fst p) * (fst q - fst p) + snd p).
  exists (fst q, y). split; [|split; [reflexivity|]].
  - exists i. split; [exact Hi|]. exists ((fst q - fst p) / (fst r - fst p)). fold p r. split.
    + unfold Rmin, Rmax in *. destruct (Rle_dec (fst p) (fst r)).
      * assert (0 < fst r - fst p) by lra. split; [apply Rmult_le_pos; [lra|left; now apply Rinv_0_lt_compat]|].
        apply Rmult_le_reg_r with (fst r - fst p); [lra|]. unfold Rdiv. rewrite Rmult_assoc, Rinv_l, Rmult_1_r, Rmult_1_l by lra. lra.
      * replace ((fst q - fst p) / (fst r - fst p)) with ((fst p - fst q) / (fst p - fst r)) by (field; lra).
        assert (0 < fst p - fst r) by lra. split; [apply Rmult_le_pos; [lra|left; now apply Rinv_0_lt_compat]|].
        apply Rmult_le_reg_r with (fst p - fst r); [lra|]. unfold Rdiv. rewrite Rmult_assoc, Rinv_l, Rmult_1_r, Rmult_1_l by lra. lra.
    + unfold y. f_equal; field; lra.
  - cbn [snd]. rewrite verdict_clear in N by auto. unfold verdict in N. destruct (Req_EM_T (fst r) (fst p)) as [X|X]; [congruence|]. fold y in N.
    destruct (cmp3_iff ON BELOW ABOVE (snd q) y tol Ht) as (A & _); try discriminate. apply A.
    destruct (cmp3 ON BELOW ABOVE (snd q) y tol); auto; elim N; discriminate.
Qed.
Print Assumptions C41_boundary_sound.

(** ** Refutations *)
Definition square : list (R * R) := [(0, 0); (1, 0); (1, 1); (0, 1)].
Ltac cross_cases := intros i k Hi Hk N1 N2; cbn in Hi, Hk, N1, N2;
  do 4 (destruct i as [|i]; [do 4 (destruct k as [|k]; [cbn in N1, N2; try lia; unfold cross; cbn; lra|]); lia|]); lia.
Lemma square_convex : convex square.
Proof. left. split; [cbn; lia|]. cross_cases. Qed.
Lemma square_inside : interior square (/ 2, / 2).
Proof.
  apply (interior_iff 1 square ltac:(auto)); [split; [cbn; lia|cross_cases]|].
  intros i Hi. cbn in Hi. do 4 (destruct i as [|i]; [unfold side, cross; cbn; lra|]). lia.
Qed.

(** Refuted with vertical edges: (1, 5), far outside the unit square, is
    reported on the BOUNDARY. *)
Theorem C41_vertical_edge_refuted :
  convex square /\ interior square (/ 2, / 2) /\ ~ region square (1, 5) /\
  PLocationRelation square (1, 5) (/ 2, / 2) 0 = Ok BOUNDARY.
Proof.
  assert (Cw : convex_with 1 square) by (split; [cbn; lia|cross_cases]).
  split; [exact square_convex|]. split; [exact square_inside|]. split.
  { intros Rq. pose proof (region_side 1 square ltac:(auto) Cw _ Rq 2%nat ltac:(cbn; lia)) as H. unfold side, cross in H. cbn in H. lra. }
  unfold PLocationRelation.
  assert (D : forall v, v <> (1, 5) -> Rleb (dist2 v (1, 5)) 0 = false).
  { intros [x y] N. apply Rleb_false. unfold dist2. cbn [fst snd]. apply sqrt_lt_R0.
    pose proof (Rle_0_sqr (x - 1)). pose proof (Rle_0_sqr (y - 5)). unfold Rsqr in *.
    destruct (Req_dec x 1) as [->|X]; [destruct (Req_dec y 5) as [->|Y]; [congruence|]|].
    - assert (0 < Rsqr (y - 5)) by (apply Rsqr_pos_lt; lra). unfold Rsqr in *. lra.
    - assert (0 < Rsqr (x - 1)) by (apply Rsqr_pos_lt; lra). unfold Rsqr in *. lra. }
  assert (Ex : existsb (fun v => Rleb (dist2 v (1, 5)) 0) square = false).
  { unfold square. cbn [existsb]. rewrite !D by (intros [=]; lra). reflexivity. }
  rewrite Ex. change (seq 0 (List.length square)) with [0; 1; 2; 3]%nat.
  assert (Cl : forall i, (i < 4)%nat -> clean 0 (vertex square i) (next square i)).
  { intros i Hi. pose proof (edge_distinct 1 square ltac:(auto) Cw i Hi) as Ne. split; [|split; [|exact Ne]].
    - destruct (Req_dec (fst (next square i)) (fst (vertex square i))); [auto|right; apply Rabs_pos_lt; lra].
    - destruct (Req_dec (snd (next square i)) (snd (vertex square i))); [auto|right; apply Rabs_pos_lt; lra]. }
  rewrite edge_loop_cons by (try lra; apply Cl; lia). cbv zeta.
  assert (V : verdict (vertex square 0) (next square 0) 0 (1, 5) = ABOVE /\ verdict (vertex square 0) (next square 0) 0 (/ 2, / 2) = ABOVE).
  { unfold verdict. cbn. destruct (Req_EM_T 1 0); [lra|].
    split; (apply (cmp3_iff ON BELOW ABOVE); try discriminate; lra). }
  destruct V as [-> ->]. cbn [loc_eqb negb].
  rewrite edge_loop_cons by (try lra; apply Cl; lia). cbv zeta.
  assert (V : verdict (vertex square 1) (next square 1) 0 (1, 5) = ON) by (apply verdict_zero; [apply (Cl 1%nat); lia|unfold cross; cbn; ring]).
  rewrite V. cbn [loc_eqb]. cbn. rewrite Rmin_left, Rmax_left by lra. rewrite (proj2 (Rleb_iff 1 1)) by lra. reflexivity.
Qed.
Print Assumptions C41_vertical_edge_refuted.

(** Refuted for a polygon that is not convex: the dart (0,0) (4,0) (1,1) (0,4)
    consists of the triangles (0,0) (4,0) (1,1) and (0,0) (1,1) (0,4); the point
    (3, 1/4) strictly inside the first is reported OUTSIDE. *)
Definition dart : list (R * R) := [(0, 0); (4, 0); (1, 1); (0, 4)].
Theorem C41_nonconvex_refuted :
  interior [(0, 0); (4, 0); (1, 1)] (3, / 4) /\ interior [(0, 0); (4, 0); (1, 1)] (/ 2, / 4) /\
  PLocationRelation dart (3, / 4) (/ 2, / 4) 0 = Ok OUTSIDE.
Proof.
  assert (Cw : convex_with 1 [(0, 0); (4, 0); (1, 1)]).
  { split; [cbn; lia|]. intros i k Hi Hk N1 N2; cbn in Hi, Hk, N1, N2;
    do 3 (destruct i as [|i]; [do 3 (destruct k as [|k]; [cbn in N1, N2; try lia; unfold cross; cbn; lra|]); lia|]); lia. }
  split; [|split].
  - apply (interior_iff 1 _ ltac:(auto) Cw). intros i Hi. cbn in Hi. do 3 (destruct i as [|i]; [unfold side, cross; cbn; lra|]). lia.
  - apply (interior_iff 1 _ ltac:(auto) Cw). intros i Hi. cbn in Hi. do 3 (destruct i as [|i]; [unfold side, cross; cbn; lra|]). lia.
  - unfold PLocationRelation.
    assert (D : forall v, v <> (3, / 4) -> Rleb (dist2 v (3, / 4)) 0 = false).
    { intros [x y] N. apply Rleb_false. unfold dist2. cbn [fst snd]. apply sqrt_lt_R0.
      pose proof (Rle_0_sqr (x - 3)). pose proof (Rle_0_sqr (y - / 4)). unfold Rsqr in *.
      destruct (Req_dec x 3) as [->|X]; [destruct (Req_dec y (/ 4)) as [->|Y]; [congruence|]|].
      - assert (0 < Rsqr (y - / 4)) by (apply Rsqr_pos_lt; lra). unfold Rsqr in *. lra.
      - assert (0 < Rsqr (x - 3)) by (apply Rsqr_pos_lt; lra). unfold Rsqr in *. lra. }
    assert (Ex : existsb (fun v => Rleb (dist2 v (3, / 4)) 0) dart = false).
    { unfold dart. cbn [existsb]. rewrite !D by (intros [=]; lra). reflexivity. }
    rewrite Ex. change (seq 0 (List.length dart)) with [0; 1; 2; 3]%nat.
    assert (Cl : forall i, (i < 4)%nat -> clean 0 (vertex dart i) (next dart i)).
    { intros i Hi. assert (Ne : vertex dart i <> next dart i).
      { do 4 (destruct i as [|i]; [cbn; intros [=]; lra|]). lia. }
      split; [|split; [|exact Ne]].
      - destruct (Req_dec (fst (next dart i)) (fst (vertex dart i))); [auto|right; apply Rabs_pos_lt; lra].
      - destruct (Req_dec (snd (next dart i)) (snd (vertex dart i))); [auto|right; apply Rabs_pos_lt; lra]. }
    rewrite edge_loop_cons by (try lra; apply Cl; lia). cbv zeta.
    assert (V : verdict (vertex dart 0) (next dart 0) 0 (3, / 4) = ABOVE /\ verdict (vertex dart 0) (next dart 0) 0 (/ 2, / 4) = ABOVE).
    { unfold verdict. cbn. destruct (Req_EM_T 4 0); [lra|]. split; (apply (cmp3_iff ON BELOW ABOVE); try discriminate; lra). }
    destruct V as [-> ->]. cbn [loc_eqb negb].
    rewrite edge_loop_cons by (try lra; apply Cl; lia). cbv zeta.
    assert (V : verdict (vertex dart 1) (next dart 1) 0 (3, / 4) = BELOW /\ verdict (vertex dart 1) (next dart 1) 0 (/ 2, / 4) = BELOW).
    { unfold verdict. cbn. destruct (Req_EM_T 1 4); [lra|]. split; (apply (cmp3_iff ON BELOW ABOVE); try discriminate; lra). }
    destruct V as [-> ->]. cbn [loc_eqb negb].
    rewrite edge_loop_cons by (try lra; apply Cl; lia). cbv zeta.
    assert (V : verdict (vertex dart 2) (next dart 2) 0 (3, / 4) = ABOVE /\ verdict (vertex dart 2) (next dart 2) 0 (/ 2, / 4) = BELOW).
    { unfold verdict. cbn. destruct (Req_EM_T 0 1); [lra|]. split; (apply (cmp3_iff ON BELOW ABOVE); try discriminate; lra). }
    destruct V as [-> ->]. reflexivity.
Qed.
Print Assumptions C41_nonconvex_refuted.

(** Non-vacuity: a triangle without vertical edges, with tolerance 1/100. *)
Example C41_example : let vs := [(0, 0); (4, 0); (1, 3)] in
  convex vs /\ clean_edges (/ 100) vs /\ interior vs (1, 1) /\ clear_of_edges (/ 100) vs (1, 1) /\
  no_vertical_trap vs (2, / 2) /\ no_vertical_trap square (/ 3, 2) /\
  (forall i, (i < 3)%nat -> fst (vertex vs i) <> fst (next vs i)).
Proof.
  intros vs.
  assert (Cw : convex_with 1 vs).
  { split; [cbn; lia|]. intros i k Hi Hk N1 N2; cbn in Hi, Hk, N1, N2;
    do 3 (destruct i as [|i]; [do 3 (destruct k as [|k]; [cbn in N1, N2; try lia; unfold cross; cbn; lra|]); lia|]); lia. }
  split; [now left|]. split; [|split; [|split; [|split; [|split]]]].
  - intros i Hi. pose proof (edge_distinct 1 vs ltac:(auto) Cw i Hi) as Ne.
    assert (A : forall a b, b = a \/ / 100 < b - a \/ / 100 < a - b -> b = a \/ / 100 < Rabs (b - a)).
    { intros a b [->|[H|H]]; [auto|right|right]; unfold Rabs; destruct (Rcase_abs (b - a)); lra. }
    split; [|split; [|exact Ne]]; apply A; cbn in Hi; (do 3 (destruct i as [|i]; [cbn; lra|]); lia).
  - apply (interior_iff 1 _ ltac:(auto) Cw). intros i Hi. cbn in Hi. do 3 (destruct i as [|i]; [unfold side, cross; cbn; lra|]). lia.
  - intros i Hi. cbn in Hi. split.
    + intros E. exfalso. revert E. do 3 (destruct i as [|i]; [cbn; lra|]). lia.
    + intros N. do 3 (destruct i as [|i]; [first [left; apply above_iff; [exact N|cbn; lra]|right; apply below_iff; [exact N|cbn; lra]]|]). lia.
  - intros i Hi E. exfalso. revert E. cbn in Hi. do 3 (destruct i as [|i]; [cbn; lra|]). lia.
  - intros i Hi _ E. exfalso. revert E. cbn in Hi. do 4 (destruct i as [|i]; [cbn; lra|]). lia.
  - intros i Hi. do 3 (destruct i as [|i]; [cbn; lra|]). lia.
Qed.
