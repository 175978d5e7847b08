From Coq Require Import List Reals String Bool Lra Lia Psatz.
From Verif Require Import Py Line2D_Model Line2D_Spec.
Import ListNotations.
Open Scope R_scope.

Lemma Rleb_iff a b : Rleb a b = true <-> a <= b.
Proof. unfold Rleb. destruct (Rle_dec a b); split; auto; discriminate. Qed.
Lemma Rleb_false a b : Rleb a b = false <-> b < a.
Proof. unfold Rleb. destruct (Rle_dec a b); split; auto; try discriminate; lra. Qed.
Lemma Rltb_iff a b : Rltb a b = true <-> a < b.
Proof. unfold Rltb. destruct (Rlt_dec a b); split; auto; discriminate. Qed.
Lemma Rltb_false a b : Rltb a b = false <-> b <= a.
Proof. unfold Rltb. destruct (Rlt_dec a b); split; auto; try discriminate; lra. Qed.

(** three-way comparison with a tolerance *)
Definition cmp3 {A} (on lo hi : A) (v c tol : R) : A := if Rleb (Rabs (v - c)) tol then on else if Rltb v c then lo else hi.
Lemma cmp3_cases {A} (on lo hi : A) v c tol : 0 <= tol ->
  (Rabs (v - c) <= tol /\ cmp3 on lo hi v c tol = on) \/ (v < c - tol /\ cmp3 on lo hi v c tol = lo) \/ (c + tol < v /\ cmp3 on lo hi v c tol = hi).
Proof.
  intros Ht. unfold cmp3. destruct (Rleb (Rabs (v - c)) tol) eqn:E; [left; split; auto; now apply Rleb_iff|].
  apply Rleb_false in E. right. destruct (Rltb v c) eqn:F.
  - apply Rltb_iff in F. left. rewrite Rabs_left in E by lra. split; auto; lra.
  - apply Rltb_false in F. right. rewrite Rabs_pos_eq in E by lra. split; auto; lra.
Qed.

Lemma clean_line tol p q : 0 <= tol -> clean tol p q ->
  make_line (pt p) (pt q) tol = Ok (MkLine (fst p) (snd p) (fst q - fst p) (snd q - snd p)
    (Rleb (Rabs (snd q - snd p)) tol) (Rleb (Rabs (fst q - fst p)) tol)) /\
  (Rleb (Rabs (snd q - snd p)) tol = true <-> snd q = snd p) /\ (Rleb (Rabs (fst q - fst p)) tol = true <-> fst q = fst p) /\
  ~ (snd q = snd p /\ fst q = fst p).
Proof.
  intros Ht (Cx & Cy & N). destruct p as [x0 y0], q as [x1 y1]; cbn [fst snd pt make_line] in *.
  assert (N' : ~ (y1 = y0 /\ x1 = x0)) by (intros [-> ->]; now apply N).
  assert (K : forall a b, b = a \/ tol < Rabs (b - a) -> (Rleb (Rabs (b - a)) tol = true <-> b = a)).
  { intros a b H. rewrite Rleb_iff. split; [intros; destruct H; auto; lra|]. intros ->. rewrite Rminus_diag_eq by reflexivity. rewrite Rabs_R0. lra. }
  pose proof (K _ _ Cx) as Kx. pose proof (K _ _ Cy) as Ky.
  split; [|auto].
  destruct (Rleb (Rabs (x1 - x0)) tol) eqn:Ex, (Rleb (Rabs (y1 - y0)) tol) eqn:Ey; try reflexivity.
  exfalso. apply N'. split; [now apply Ky|now apply Kx].
Qed.

Lemma on_line_cross p q r : p <> q -> (on_line p q r <-> (fst q - fst p) * (snd r - snd p) = (snd q - snd p) * (fst r - fst p)).
Proof.
  intros N. destruct p as [x0 y0], q as [x1 y1], r as [x y]; unfold on_line; cbn [fst snd]. split.
  - intros [t [= -> ->]]. ring.
  - intros E. destruct (Req_dec x1 x0) as [Ex|Ex].
    + assert (y1 <> y0) by (intros ->; apply N; congruence). exists ((y - y0) / (y1 - y0)). subst x1.
      assert (x = x0) by nra. subst x. f_equal; field; lra.
    + exists ((x - x0) / (x1 - x0)). f_equal; [field; lra|]. apply Rmult_eq_reg_l with (x1 - x0); [|lra].
      transitivity ((x1 - x0) * y0 + (y1 - y0) * (x - x0)); [lra|]. field. lra.
Qed.
Lemma on_line_y p q x y : fst p <> fst q -> (on_line p q (x, y) <-> y = (snd q - snd p) / (fst q - fst p) * (x - fst p) + snd p).
Proof.
  intros N. rewrite on_line_cross by congruence. cbn [fst snd]. split; intros E.
  - apply Rmult_eq_reg_l with (fst q - fst p); [|lra]. transitivity ((snd q - snd p) * (x - fst p) + (fst q - fst p) * snd p); [lra|]. field. lra.
  - rewrite E. field. lra.
Qed.

Lemma above_iff tol p q r : fst p <> fst q -> (above tol p q r <-> (snd q - snd p) / (fst q - fst p) * (fst r - fst p) + snd p + tol < snd r).
Proof.
  intros N. unfold above. split.
  - intros (y & H & L). apply on_line_y in H; auto. subst y. lra.
  - intros L. eexists. split; [apply on_line_y; auto|]. exact L.
Qed.
Lemma below_iff tol p q r : fst p <> fst q -> (below tol p q r <-> snd r < (snd q - snd p) / (fst q - fst p) * (fst r - fst p) + snd p - tol).
Proof.
  intros N. unfold below. split.
  - intros (y & H & L). apply on_line_y in H; auto. subst y. lra.
  - intros L. eexists. split; [apply on_line_y; auto|]. exact L.
Qed.
Lemma near_iff tol p q r : fst p <> fst q -> (near tol p q r <-> Rabs (snd r - ((snd q - snd p) / (fst q - fst p) * (fst r - fst p) + snd p)) <= tol).
Proof.
  intros N. unfold near. split.
  - intros (y & H & L). apply on_line_y in H; auto. subst y. exact L.
  - intros L. eexists. split; [apply on_line_y; auto|]. exact L.
Qed.

(** The classification of a clean line. *)
Lemma location_clean t0 tol p q : 0 <= t0 -> clean t0 p q ->
  exists l, make_line (pt p) (pt q) t0 = Ok l /\
  forall r, LocationRelation l (pt r) tol = Ok
    (if Req_EM_T (fst q) (fst p) then cmp3 ON LEFT RIGHT (fst r) (fst p) tol
     else cmp3 ON BELOW ABOVE (snd r) ((snd q - snd p) / (fst q - fst p) * (fst r - fst p) + snd p) tol).
Proof.
  intros Ht C. destruct (clean_line t0 p q Ht C) as (E & Hh & Hv & N). eexists. split; [exact E|]. intros r.
  unfold LocationRelation, pt. cbn [IsHorizontal IsVertical l_x0 l_y0 l_dx l_dy].
  destruct (Rleb (Rabs (snd q - snd p)) t0) eqn:Eh.
  - assert (Ey : snd q = snd p) by (apply Hh; reflexivity). rewrite Ey. destruct (Req_EM_T (fst q) (fst p)) as [X|X]; [tauto|].
    replace ((snd p - snd p) / (fst q - fst p) * (fst r - fst p) + snd p) with (snd p) by (field; lra). reflexivity.
  - destruct (Rleb (Rabs (fst q - fst p)) t0) eqn:Ev.
    + destruct (Req_EM_T (fst q) (fst p)) as [X|X]; [reflexivity|]. elim X. apply Hv. reflexivity.
    + destruct (Req_EM_T (fst q) (fst p)) as [X|X]; [apply Hv in X; discriminate|]. reflexivity.
Qed.
Lemma cmp3_iff {A} (on lo hi : A) v c tol : 0 <= tol -> on <> lo -> on <> hi -> lo <> hi ->
  (cmp3 on lo hi v c tol = on <-> Rabs (v - c) <= tol) /\
  (cmp3 on lo hi v c tol = lo <-> v < c - tol) /\ (cmp3 on lo hi v c tol = hi <-> c + tol < v).
Proof.
  intros Ht N1 N2 N3. destruct (cmp3_cases on lo hi v c tol Ht) as [[H E]|[[H E]|[H E]]]; rewrite E.
  - repeat split; intros; auto; try congruence; exfalso; apply Rabs_le_inv in H || idtac; try lra.
    all: revert H; unfold Rabs; destruct (Rcase_abs (v - c)); lra.
  - repeat split; intros X; auto; try congruence; exfalso; try lra. revert X. unfold Rabs. destruct (Rcase_abs (v - c)); lra.
  - repeat split; intros X; auto; try congruence; exfalso; try lra. revert X. unfold Rabs. destruct (Rcase_abs (v - c)); lra.
Qed.
