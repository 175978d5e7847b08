(** C40: lines in the plane. *)
From Coq Require Import List Reals String Bool Lra Lia Psatz.
From Verif Require Import Py Line2D_Model Line2D_Spec Line2D_Proofs.
Import ListNotations.
Open Scope R_scope.

(** Two points with two coordinates each make a line unless they agree within
    the tolerance; IsHorizontal and IsVertical are read off the differences. *)
Theorem C40_constructor : forall p0 p1 tol,
  (forall p q, p0 = pt p -> p1 = pt q ->
     (make_line p0 p1 tol = Err ValueError <-> Rabs (fst q - fst p) <= tol /\ Rabs (snd q - snd p) <= tol) /\
     (~ (Rabs (fst q - fst p) <= tol /\ Rabs (snd q - snd p) <= tol) ->
        exists l, make_line p0 p1 tol = Ok l /\
          (IsHorizontal l = true <-> Rabs (snd q - snd p) <= tol) /\ (IsVertical l = true <-> Rabs (fst q - fst p) <= tol))) /\
  (~ (List.length p0 = 2 /\ List.length p1 = 2)%nat -> make_line p0 p1 tol = Err AssertionError).
Proof.
  intros p0 p1 tol. split.
  - intros [x0 y0] [x1 y1] -> ->. cbn [pt fst snd make_line]. split.
    + rewrite <- !Rleb_iff. destruct (Rleb (Rabs (x1 - x0)) tol), (Rleb (Rabs (y1 - y0)) tol); cbn; split; intuition discriminate.
    + rewrite <- !Rleb_iff. intros N. eexists. split.
      * destruct (Rleb (Rabs (x1 - x0)) tol && Rleb (Rabs (y1 - y0)) tol)%bool eqn:A; [|reflexivity].
        apply andb_prop in A. exfalso. exact (N A).
      * cbn [IsHorizontal IsVertical]. rewrite !Rleb_iff. tauto.
  - intros N. destruct p0 as [|x0 [|y0 [|z0 p0]]], p1 as [|x1 [|y1 [|z1 p1]]]; try reflexivity. cbn in N. tauto.
Qed.
Print Assumptions C40_constructor.

(** A line that is not vertical: ON, BELOW, ABOVE compare the point with the
    point of the line that has the same x. *)
Theorem C40_location : forall t0 tol p q, 0 <= t0 -> 0 <= tol -> clean t0 p q -> ~ vertical p q ->
  exists l, make_line (pt p) (pt q) t0 = Ok l /\
  forall r, (LocationRelation l (pt r) tol = Ok ON <-> near tol p q r) /\
            (LocationRelation l (pt r) tol = Ok BELOW <-> below tol p q r) /\
            (LocationRelation l (pt r) tol = Ok ABOVE <-> above tol p q r) /\
            (near tol p q r \/ below tol p q r \/ above tol p q r).
Proof.
  intros t0 tol p q H0 Ht C Nv. unfold vertical in Nv. destruct (location_clean t0 tol p q H0 C) as (l & E & L). exists l. split; [exact E|].
  intros r. rewrite L. destruct (Req_EM_T (fst q) (fst p)) as [X|X]; [congruence|].
  rewrite near_iff, below_iff, above_iff by auto.
  set (c := (snd q - snd p) / (fst q - fst p) * (fst r - fst p) + snd p).
  destruct (cmp3_iff ON BELOW ABOVE (snd r) c tol Ht) as (A & B & D); try discriminate.
  split; [split; intros Y; [apply A; congruence|f_equal; now apply A]|].
  split; [split; intros Y; [apply B; congruence|f_equal; now apply B]|].
  split; [split; intros Y; [apply D; congruence|f_equal; now apply D]|].
  destruct (cmp3_cases ON BELOW ABOVE (snd r) c tol Ht) as [[H _]|[[H _]|[H _]]]; auto.
Qed.
Print Assumptions C40_location.

(** A vertical line: ON, LEFT, RIGHT. *)
Theorem C40_location_vertical : forall t0 tol p q, 0 <= t0 -> 0 <= tol -> clean t0 p q -> vertical p q ->
  exists l, make_line (pt p) (pt q) t0 = Ok l /\
  forall r, (LocationRelation l (pt r) tol = Ok ON <-> Rabs (fst r - fst p) <= tol) /\
            (LocationRelation l (pt r) tol = Ok LEFT <-> fst r < fst p - tol) /\
            (LocationRelation l (pt r) tol = Ok RIGHT <-> fst p + tol < fst r) /\
            (Rabs (fst r - fst p) <= tol \/ fst r < fst p - tol \/ fst p + tol < fst r).
Proof.
  intros t0 tol p q H0 Ht C V. unfold vertical in V. destruct (location_clean t0 tol p q H0 C) as (l & E & L). exists l. split; [exact E|].
  intros r. rewrite L. destruct (Req_EM_T (fst q) (fst p)) as [X|X]; [|congruence].
  destruct (cmp3_iff ON LEFT RIGHT (fst r) (fst p) tol Ht) as (A & B & D); try discriminate.
  split; [split; intros Y; [apply A; congruence|f_equal; now apply A]|].
  split; [split; intros Y; [apply B; congruence|f_equal; now apply B]|].
  split; [split; intros Y; [apply D; congruence|f_equal; now apply D]|].
  destruct (cmp3_cases ON LEFT RIGHT (fst r) (fst p) tol Ht) as [[H _]|[[H _]|[H _]]]; auto.
Qed.
Print Assumptions C40_location_vertical.

(** With tolerance 0 ON means on the line. *)
Theorem C40_on_exact : forall p q, p <> q ->
  exists l, make_line (pt p) (pt q) 0 = Ok l /\ forall r, LocationRelation l (pt r) 0 = Ok ON <-> on_line p q r.
Proof.
  intros p q N.
  assert (C : clean 0 p q).
  { split; [|split; [|exact N]].
    - destruct (Req_dec (fst q) (fst p)); [auto|right; apply Rabs_pos_lt; lra].
    - destruct (Req_dec (snd q) (snd p)); [auto|right; apply Rabs_pos_lt; lra]. }
  assert (Z : forall x, Rabs x <= 0 <-> x = 0).
  { intros x. split; [|intros ->; rewrite Rabs_R0; lra]. unfold Rabs. destruct (Rcase_abs x); lra. }
  destruct (Req_dec (fst p) (fst q)) as [V|V].
  - destruct (C40_location_vertical 0 0 p q ltac:(lra) ltac:(lra) C V) as (l & E & L). exists l. split; [exact E|].
    intros r. destruct (L r) as (-> & _). rewrite Z, on_line_cross by auto.
    assert (snd q - snd p <> 0) by (intros H; apply N; destruct p, q; cbn in *; f_equal; lra).
    replace (fst q - fst p) with 0 by lra. rewrite Rmult_0_l. split; [intros H1; rewrite H1; ring|].
    intros H1. symmetry in H1. apply Rmult_integral in H1 as [H1|H1]; [tauto|exact H1].
  - destruct (C40_location 0 0 p q ltac:(lra) ltac:(lra) C V) as (l & E & L). exists l. split; [exact E|].
    intros r. destruct (L r) as (-> & _). rewrite near_iff by auto. rewrite Z. destruct r as [x y]. rewrite on_line_y by auto. cbn [fst snd]. split; lra.
Qed.
Print Assumptions C40_on_exact.

(** The order of the two points does not matter. *)
Theorem C40_symmetric : forall t0 tol p q, 0 <= t0 -> 0 <= tol -> clean t0 p q ->
  exists l m, make_line (pt p) (pt q) t0 = Ok l /\ make_line (pt q) (pt p) t0 = Ok m /\
  forall r, LocationRelation l (pt r) tol = LocationRelation m (pt r) tol.
Proof.
  intros t0 tol p q H0 Ht C.
  assert (C' : clean t0 q p).
  { destruct C as (A & B & D). split; [|split].
    - destruct A; [auto|right; now rewrite Rabs_minus_sym].
    - destruct B; [auto|right; now rewrite Rabs_minus_sym].
    - congruence. }
  destruct (location_clean t0 tol p q H0 C) as (l & E & L). destruct (location_clean t0 tol q p H0 C') as (m & F & M).
  exists l, m. split; [exact E|]. split; [exact F|]. intros r. rewrite L, M.
  destruct (Req_EM_T (fst q) (fst p)) as [X|X], (Req_EM_T (fst p) (fst q)) as [Y|Y]; try congruence.
  do 2 f_equal. field. split; lra.
Qed.
Print Assumptions C40_symmetric.

(** Two points at the same side of a line: the whole segment between them is at that side. *)
Theorem C40_same_side : forall t0 tol p q r s u c t, 0 <= t0 -> 0 <= tol -> clean t0 p q ->
  make_line (pt p) (pt q) t0 = Ok u ->
  LocationRelation u (pt r) tol = Ok c -> LocationRelation u (pt s) tol = Ok c -> c <> ON -> 0 <= t <= 1 ->
  LocationRelation u [(1 - t) * fst r + t * fst s; (1 - t) * snd r + t * snd s] tol = Ok c.
Proof.
  intros t0 tol p q r s u c t H0 Ht C Eu Er Es Nc Hb. destruct (location_clean t0 tol p q H0 C) as (l & E & L).
  rewrite E in Eu. injection Eu as <-. rewrite L in Er, Es. injection Er as Er. injection Es as Es.
  change [(1 - t) * fst r + t * fst s; (1 - t) * snd r + t * snd s] with (pt ((1 - t) * fst r + t * fst s, (1 - t) * snd r + t * snd s)).
  rewrite L. cbn [fst snd]. f_equal.
  assert (K : forall on lo hi v w a b : R, forall (o l h : location), o <> l -> o <> h -> l <> h ->
     cmp3 o l h v a tol = c -> cmp3 o l h w b tol = c -> c <> o -> cmp3 o l h ((1 - t) * v + t * w) ((1 - t) * a + t * b) tol = c).
  { clear - Ht Hb. intros _ _ _ v w a b o l h N1 N2 N3 A B Nc.
    destruct (cmp3_iff o l h v a tol Ht N1 N2 N3) as (_ & Al & Ah). destruct (cmp3_iff o l h w b tol Ht N1 N2 N3) as (_ & Bl & Bh).
    destruct (cmp3_iff o l h ((1 - t) * v + t * w) ((1 - t) * a + t * b) tol Ht N1 N2 N3) as (_ & Cl & Ch).
    destruct (cmp3_cases o l h v a tol Ht) as [[H X]|[[H X]|[H X]]]; [congruence| |]; rewrite X in A; subst c.
    - apply Cl. assert (w < b - tol) by (now apply Bl). destruct (Req_dec t 1) as [->|]; [lra|]. nra.
    - apply Ch. assert (b + tol < w) by (now apply Bh). destruct (Req_dec t 1) as [->|]; [lra|]. nra. }
  destruct (Req_EM_T (fst q) (fst p)) as [X|X].
  - replace (fst p) with ((1 - t) * fst p + t * fst p) by ring. apply K; auto; discriminate.
  - set (k := (snd q - snd p) / (fst q - fst p)) in *.
    replace (k * ((1 - t) * fst r + t * fst s - fst p) + snd p) with ((1 - t) * (k * (fst r - fst p) + snd p) + t * (k * (fst s - fst p) + snd p)) by ring.
    apply K; auto; discriminate.
Qed.
Print Assumptions C40_same_side.

(** Coordinate: the point of the line with the given x (or y); RuntimeError for
    the x of a horizontal and the y of a vertical line; AssertionError for
    another [which]; the point is classified as ON. *)
Theorem C40_coordinate : forall t0 p q k, 0 <= t0 -> clean t0 p q ->
  exists l, make_line (pt p) (pt q) t0 = Ok l /\
  (~ vertical p q -> exists y, Coordinate l k "x" = Ok (k, y) /\ on_line p q (k, y)) /\
  (snd p <> snd q -> exists x, Coordinate l k "y" = Ok (x, k) /\ on_line p q (x, k)) /\
  (vertical p q -> Coordinate l k "x" = Err RuntimeError) /\
  (snd p = snd q -> Coordinate l k "y" = Err RuntimeError) /\
  (forall w, w <> "x"%string -> w <> "y"%string -> Coordinate l k w = Err AssertionError) /\
  (forall w r tol, 0 <= tol -> Coordinate l k w = Ok r -> LocationRelation l (pt r) tol = Ok ON).
Proof.
  intros t0 p q k H0 C. destruct (clean_line t0 p q H0 C) as (E & Hh & Hv & N). destruct (location_clean t0 0 p q H0 C) as (l & E' & _).
  rewrite E in E'. injection E' as <-. eexists. split; [exact E|].
  assert (NE : p <> q) by apply C. unfold vertical.
  assert (X : fst p <> fst q -> exists y, Coordinate (MkLine (fst p) (snd p) (fst q - fst p) (snd q - snd p) (Rleb (Rabs (snd q - snd p)) t0) (Rleb (Rabs (fst q - fst p)) t0)) k "x" = Ok (k, y) /\ on_line p q (k, y)).
  { intros V. unfold Coordinate. cbn [String.eqb Ascii.eqb Bool.eqb orb assert_ bind IsHorizontal IsVertical l_x0 l_y0 l_dx l_dy].
    destruct (Rleb (Rabs (snd q - snd p)) t0) eqn:Eh.
    - eexists. split; [reflexivity|]. apply on_line_cross; auto. cbn [fst snd]. assert (snd q = snd p) by (now apply Hh). rewrite H. ring.
    - destruct (Rleb (Rabs (fst q - fst p)) t0) eqn:Ev; [elim V; symmetry; now apply Hv|].
      eexists. split; [reflexivity|]. apply on_line_y; auto. }
  assert (Y : snd p <> snd q -> exists x, Coordinate (MkLine (fst p) (snd p) (fst q - fst p) (snd q - snd p) (Rleb (Rabs (snd q - snd p)) t0) (Rleb (Rabs (fst q - fst p)) t0)) k "y" = Ok (x, k) /\ on_line p q (x, k)).
  { intros V. unfold Coordinate. cbn [String.eqb Ascii.eqb Bool.eqb orb assert_ bind IsHorizontal IsVertical l_x0 l_y0 l_dx l_dy].
    destruct (Rleb (Rabs (snd q - snd p)) t0) eqn:Eh; [elim V; symmetry; now apply Hh|].
    destruct (Rleb (Rabs (fst q - fst p)) t0) eqn:Ev.
    - eexists. split; [reflexivity|]. apply on_line_cross; auto. cbn [fst snd]. assert (fst q = fst p) by (now apply Hv). rewrite H. ring.
    - eexists. split; [reflexivity|]. apply on_line_cross; auto. cbn [fst snd]. field. lra. }
  assert (X' : fst p = fst q -> Coordinate (MkLine (fst p) (snd p) (fst q - fst p) (snd q - snd p) (Rleb (Rabs (snd q - snd p)) t0) (Rleb (Rabs (fst q - fst p)) t0)) k "x" = Err RuntimeError).
  { intros V. unfold Coordinate. cbn [String.eqb Ascii.eqb Bool.eqb orb assert_ bind IsHorizontal IsVertical].
    destruct (Rleb (Rabs (snd q - snd p)) t0) eqn:Eh; [elim N; split; [now apply Hh|auto]|].
    destruct (Rleb (Rabs (fst q - fst p)) t0) eqn:Ev; [reflexivity|]. symmetry in V. apply Hv in V. discriminate. }
  assert (Y' : snd p = snd q -> Coordinate (MkLine (fst p) (snd p) (fst q - fst p) (snd q - snd p) (Rleb (Rabs (snd q - snd p)) t0) (Rleb (Rabs (fst q - fst p)) t0)) k "y" = Err RuntimeError).
  { intros V. unfold Coordinate. cbn [String.eqb Ascii.eqb Bool.eqb orb assert_ bind IsHorizontal IsVertical].
    destruct (Rleb (Rabs (snd q - snd p)) t0) eqn:Eh; [reflexivity|]. symmetry in V. apply Hh in V. discriminate. }
  split; [exact X|]. split; [exact Y|]. split; [exact X'|]. split; [exact Y'|]. split.
  - intros w Wx Wy. unfold Coordinate. destruct (String.eqb_spec w "x"); [tauto|]. destruct (String.eqb_spec w "y"); [tauto|]. reflexivity.
  - intros w r tol Ht Hr.
    assert (On : on_line p q r).
    { destruct (String.eqb_spec w "x") as [->|Wx].
      - destruct (Req_dec (fst p) (fst q)) as [V|V]; [rewrite (X' V) in Hr; discriminate|]. destruct (X V) as (y & Ey & O). rewrite Ey in Hr. injection Hr as <-. exact O.
      - destruct (String.eqb_spec w "y") as [->|Wy].
        + destruct (Req_dec (snd p) (snd q)) as [V|V]; [rewrite (Y' V) in Hr; discriminate|]. destruct (Y V) as (y & Ey & O). rewrite Ey in Hr. injection Hr as <-. exact O.
        + unfold Coordinate in Hr. destruct (String.eqb_spec w "x"); [tauto|]. destruct (String.eqb_spec w "y"); [tauto|]. discriminate. }
    destruct (Req_dec (fst p) (fst q)) as [V|V].
    + destruct (C40_location_vertical t0 tol p q H0 Ht C V) as (l & El & L). rewrite E in El. injection El as <-.
      apply L. destruct On as [t ->]. cbn [fst snd]. rewrite V. replace (fst q + t * (fst q - fst q) - fst q) with 0 by ring. now rewrite Rabs_R0.
    + destruct (C40_location t0 tol p q H0 Ht C V) as (l & El & L). rewrite E in El. injection El as <-.
      apply L. exists (snd r). destruct r as [x y]. split; [exact On|]. cbn [snd]. now rewrite Rminus_diag_eq, Rabs_R0.
Qed.
Print Assumptions C40_coordinate.

(** PointsFactory: p0 + ratio (p1 - p0) for every ratio, all on the line; 101
    points from p0 to p1 by default. *)
Theorem C40_points : forall t0 p q l, 0 <= t0 -> clean t0 p q -> make_line (pt p) (pt q) t0 = Ok l ->
  (forall rs, List.length (PointsFactory l (Some rs)) = List.length rs /\
     forall i t, nth_error rs i = Some t ->
       nth_error (PointsFactory l (Some rs)) i = Some (fst p + t * (fst q - fst p), snd p + t * (snd q - snd p))) /\
  List.length (PointsFactory l None) = 101%nat /\
  (forall k, (k <= 100)%nat -> nth_error (PointsFactory l None) k =
     Some (fst p + INR k / 100 * (fst q - fst p), snd p + INR k / 100 * (snd q - snd p))) /\
  (forall rs r, In r (PointsFactory l rs) -> on_line p q r).
Proof.
  intros t0 p q l H0 C E. destruct (clean_line t0 p q H0 C) as (E' & _). rewrite E' in E. injection E as <-. unfold PointsFactory. cbn [l_x0 l_y0 l_dx l_dy].
  split; [|split; [|split]].
  - intros rs. rewrite map_length. split; [reflexivity|]. intros i t Hi. now rewrite (map_nth_error _ _ _ Hi).
  - unfold default_ratios. now rewrite !map_length, seq_length.
  - intros k Hk. unfold default_ratios. rewrite map_map. erewrite map_nth_error; [reflexivity|].
    rewrite (nth_error_nth' _ 0%nat) by (rewrite seq_length; lia). now rewrite seq_nth by lia.
  - intros rs r Hr. apply in_map_iff in Hr as (t & <- & _). now exists t.
Qed.
Print Assumptions C40_points.

(** Refuted for lines that are horizontal only within the tolerance: the line
    through (0, 0) and (1, 1e-10) contains (10, 1e-9), reported as ABOVE. *)
Theorem C40_near_horizontal_refuted :
  let tol := / 10000000000 in
  exists l, make_line (pt (0, 0)) (pt (1, tol)) tol = Ok l /\ on_line (0, 0) (1, tol) (10, 10 * tol) /\
            LocationRelation l (pt (10, 10 * tol)) tol = Ok ABOVE.
Proof.
  intros tol. assert (T : 0 < tol) by (unfold tol; lra). assert (L : tol < 1) by (unfold tol; lra). clearbody tol.
  exists (MkLine 0 0 (1 - 0) (tol - 0) true false). split; [|split].
  - cbn [pt fst snd make_line]. rewrite !Rminus_0_r, Rabs_R1, (Rabs_pos_eq tol) by lra.
      replace (Rleb 1 tol) with false by (symmetry; apply Rleb_false; lra). replace (Rleb tol tol) with true by (symmetry; apply Rleb_iff; lra). reflexivity.
  - exists 10. cbn. f_equal; ring.
  - unfold LocationRelation, pt. cbn [fst snd IsHorizontal l_y0]. rewrite Rminus_0_r, Rabs_pos_eq by lra.
      replace (Rleb (10 * tol) tol) with false by (symmetry; apply Rleb_false; lra). replace (Rltb (10 * tol) 0) with false by (symmetry; apply Rltb_false; lra). reflexivity.
Qed.
Print Assumptions C40_near_horizontal_refuted.

(** Non-vacuity: the clean line through (0, 0) and (1, 2) with tolerance 1/10. *)
Example C40_example : clean (/ 10) (0, 0) (1, 2) /\ ~ vertical (0, 0) (1, 2) /\
  above (/ 10) (0, 0) (1, 2) (1, 3) /\ below (/ 10) (0, 0) (1, 2) (3, 1) /\ near (/ 10) (0, 0) (1, 2) (2, 4) /\
  clean (/ 10) (1, 0) (1, 5) /\ vertical (1, 0) (1, 5).
Proof.
  unfold clean, vertical, above, below, near, on_line. cbn [fst snd].
  assert (A : Rabs (1 - 0) = 1) by (rewrite Rminus_0_r; apply Rabs_R1).
  assert (B : Rabs (2 - 0) = 2) by (rewrite Rminus_0_r; apply Rabs_pos_eq; lra).
  assert (D : Rabs (5 - 0) = 5) by (rewrite Rminus_0_r; apply Rabs_pos_eq; lra).
  rewrite A, B, D. repeat split; try lra; try (intros [=]; lra); try (right; lra); try (left; reflexivity).
  - exists 2. split; [exists 1; f_equal; ring|lra].
  - exists 6. split; [exists 3; f_equal; ring|lra].
  - exists 4. split; [exists 2; f_equal; ring|]. rewrite Rminus_diag_eq, Rabs_R0 by reflexivity. lra.
Qed.
