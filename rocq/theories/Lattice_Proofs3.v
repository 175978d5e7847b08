From Coq Require Import List Reals ZArith Bool Arith Lra Lia Permutation.
From Verif Require Import Py CVec LinSolve Line2D_Model Line2D_Proofs Lattice_Model Lattice_Spec Lattice_Proofs Lattice_Proofs2.
Import ListNotations.
Open Scope R_scope.

Lemma Rltb_iff a b : Rltb a b = true <-> a < b.
Proof. unfold Rltb. destruct (Rlt_dec a b); split; congruence || lra. Qed.
Lemma Rltb_false a b : Rltb a b = false <-> b <= a.
Proof. unfold Rltb. destruct (Rlt_dec a b); split; try congruence; lra. Qed.
Lemma view_pos prec : 0 < view prec.
Proof. unfold view. apply Rinv_0_lt_compat, pow_lt. lra. Qed.

(** ** _searching *)
Lemma near_iff prec L rs x : near prec (database L rs) x = true <->
  exists ns, List.length ns = List.length (vectors L) /\ Forall (fun n => In n rs) ns /\ dist (shift ns (vectors L)) x < view prec.
Proof.
  unfold near, database. rewrite existsb_exists. split.
  - intros (d & Hd & H). apply in_map_iff in Hd as (ns & <- & Hns). apply in_product in Hns as [Ln F]. apply Rltb_iff in H. rewrite comb_shift in H. eauto.
  - intros (ns & Ln & F & H). exists (comb ns (vectors L)). split; [apply in_map_iff; exists ns; split; [reflexivity|now apply in_product]|]. rewrite comb_shift. now apply Rltb_iff.
Qed.
Lemma filter_single (f : nat -> bool) n i : (i < n)%nat -> f i = true -> (forall j, (j < n)%nat -> j <> i -> f j = false) -> filter f (seq 0 n) = [i].
Proof.
  intros Hi Fi Fj. assert (A : forall a m, (forall j, (a <= j < a + m)%nat -> j <> i -> f j = false) ->
     filter f (seq a m) = if (Nat.leb a i && Nat.ltb i (a + m))%bool then [i] else []).
  { intros a m. revert a. induction m as [|m IH]; intros a H; cbn [seq filter].
    - destruct (Nat.leb_spec a i), (Nat.ltb_spec i (a + 0)); cbn; try reflexivity. lia.
    - rewrite IH by (intros; apply H; lia). destruct (Nat.eq_dec a i) as [->|N].
      + rewrite Fi. destruct (Nat.leb_spec i i); [|lia]. destruct (Nat.ltb_spec i (i + S m)); [|lia]. destruct (Nat.leb_spec (S i) i); [lia|]. reflexivity.
      + rewrite H by lia. destruct (Nat.leb_spec (S a) i), (Nat.ltb_spec i (S a + m)), (Nat.leb_spec a i), (Nat.ltb_spec i (a + S m)); cbn; try reflexivity; lia. }
  rewrite A by (intros; apply Fj; lia). destruct (Nat.leb_spec 0 i); [|lia]. destruct (Nat.ltb_spec i (0 + n)); [reflexivity|lia].
Qed.
Definition disp (L : lattice) (s : point) (i : nat) : point := vsub s (nth i (points L) v0).
Lemma nth_disp L s i : (i < List.length (points L))%nat -> nth i (map (vsub s) (points L)) v0 = disp L s i.
Proof. intros H. rewrite (nth_indep _ v0 (vsub s v0)) by (now rewrite map_length). apply map_nth. Qed.
Lemma searching_some prec L db s r : searching L prec db (map (vsub s) (points L)) = Some r ->
  exists i, (i < List.length (points L))%nat /\ near prec db (disp L s i) = true /\
    (forall j, (j < List.length (points L))%nat -> j <> i -> near prec db (disp L s j) = false) /\
    r = (nth i (points L) v0, disp L s i).
Proof.
  unfold searching. rewrite map_length. set (n := List.length (points L)).
  set (f := fun i => near prec db (nth i (map (vsub s) (points L)) v0)). intros H.
  destruct (filter f (seq 0 n)) as [|i [|j l]] eqn:E; try discriminate. injection H as <-.
  assert (Hi : In i (filter f (seq 0 n))) by (rewrite E; now left). apply filter_In in Hi as [Hi Fi]. apply in_seq in Hi.
  assert (Hi' : (i < n)%nat) by lia. exists i. split; [exact Hi'|]. unfold f in Fi. rewrite nth_disp in Fi by exact Hi'. split; [exact Fi|]. split; [|now rewrite nth_disp].
  intros j Hj N. destruct (near prec db (disp L s j)) eqn:Ej; [|reflexivity]. exfalso. apply N.
  assert (Hj' : In j (filter f (seq 0 n))) by (apply filter_In; split; [apply in_seq; lia|unfold f; rewrite nth_disp; auto]).
  rewrite E in Hj'. destruct Hj' as [<-|[]]. reflexivity.
Qed.
Lemma searching_intro prec L db s i : (i < List.length (points L))%nat -> near prec db (disp L s i) = true ->
  (forall j, (j < List.length (points L))%nat -> j <> i -> near prec db (disp L s j) = false) ->
  searching L prec db (map (vsub s) (points L)) = Some (nth i (points L) v0, disp L s i).
Proof.
  intros Hi Fi Fj. unfold searching. rewrite map_length. rewrite (filter_single _ _ i Hi); [now rewrite nth_disp|now rewrite nth_disp|].
  intros j Hj N. rewrite nth_disp by exact Hj. auto.
Qed.

(** ** changing one coefficient *)
Fixpoint upd (l : list Z) (i : nat) (v : Z) : list Z :=
  match l, i with [], _ => [] | _ :: r, O => v :: r | x :: r, S i' => x :: upd r i' v end.
Fixpoint total (l : list Z) : Z := match l with [] => 0%Z | x :: r => (Z.abs x + total r)%Z end.
Lemma upd_length l i v : List.length (upd l i v) = List.length l.
Proof. revert i. induction l as [|x l IH]; intros [|i]; cbn; auto. Qed.
Lemma upd_total l i v : (i < List.length l)%nat -> total (upd l i v) = (total l - Z.abs (nth i l 0) + Z.abs v)%Z.
Proof. revert i. induction l as [|x l IH]; intros [|i] H; cbn in *; try lia. rewrite IH by lia. lia. Qed.
Lemma upd_reach_le l i v m : (reach l <= m)%Z -> (Z.abs v <= m)%Z -> (reach (upd l i v) <= m)%Z.
Proof. revert i. induction l as [|x l IH]; intros [|i] H Hv; cbn in *; try lia. specialize (IH i). lia. Qed.
Lemma upd_reach_ge l i v : (i < List.length l)%nat -> (Z.abs v <= reach (upd l i v))%Z.
Proof. revert i. induction l as [|x l IH]; intros [|i] H; cbn in *; try lia. specialize (IH i ltac:(lia)). lia. Qed.
Lemma total_nonneg l : (0 <= total l)%Z. Proof. induction l; cbn; lia. Qed.
Lemma upd_shift l : forall vs i v, (i < List.length l)%nat -> List.length l = List.length vs ->
  shift (upd l i v) vs = vadd (shift l vs) (vscale (IZR (v - nth i l 0)%Z) (nth i vs v0)).
Proof.
  unfold shift. induction l as [|x l IH]; intros [|a vs] [|i] v H Hl; cbn [List.length] in *; try lia; cbn [upd map combination nth].
  - rewrite minus_IZR. generalize (combination (map IZR l) vs). vring.
  - rewrite IH by lia. generalize (combination (map IZR l) vs), (nth i vs v0). vring.
Qed.

(** Every far translation can be brought one layer nearer without increasing the
    distance. *)
Definition shrinks (vs : list point) (p q : point) : Prop :=
  forall ns, List.length ns = List.length vs -> (2 <= reach ns)%Z ->
    exists ms, List.length ms = List.length vs /\ reach ms = (reach ns - 1)%Z /\ dist (vadd (shift ms vs) p) q <= dist (vadd (shift ns vs) p) q.
Lemma shrinks_intro vs p q :
  (forall ns i, List.length ns = List.length vs -> (2 <= reach ns)%Z -> (i < List.length vs)%nat -> Z.abs (nth i ns 0%Z) = reach ns ->
     vdot (a_ vs i) (a_ vs i) <= 2 * (IZR (Z.sgn (nth i ns 0%Z)) * vdot (vsub (vadd (shift ns vs) p) q) (a_ vs i))) ->
  shrinks vs p q.
Proof.
  intros Step ns. remember (Z.to_nat (total ns)) as t. revert ns Heqt.
  induction t as [t IH] using (well_founded_induction lt_wf). intros ns -> Ln R2.
  destruct (reach_nth ns) as (i & [[Hi E]| ->]); [|cbn in R2; lia].
  assert (Hi' : (i < List.length vs)%nat) by lia. set (n := nth i ns 0%Z) in *. symmetry in E.
  specialize (Step ns i Ln R2 Hi' E). fold n in Step.
  set (ms := upd ns i (n - Z.sgn n)).
  assert (Lm : List.length ms = List.length vs) by (unfold ms; now rewrite upd_length).
  assert (An : Z.abs (n - Z.sgn n) = (reach ns - 1)%Z) by lia.
  assert (T : total ms = (total ns - 1)%Z) by (unfold ms; rewrite upd_total by exact Hi; fold n; lia).
  assert (R1 : (reach ms <= reach ns)%Z) by (unfold ms; apply upd_reach_le; lia).
  assert (R0 : (reach ns - 1 <= reach ms)%Z) by (unfold ms; rewrite <- An; now apply upd_reach_ge).
  assert (D : dist (vadd (shift ms vs) p) q <= dist (vadd (shift ns vs) p) q).
  { unfold dist. apply norm_le. unfold ms. rewrite upd_shift by auto. fold n. replace (n - Z.sgn n - n)%Z with (- Z.sgn n)%Z by lia. rewrite opp_IZR.
    change (nth i vs v0) with (a_ vs i). set (s := IZR (Z.sgn n)) in *. set (V := vsub (vadd (shift ns vs) p) q) in *.
    replace (vsub (vadd (vadd (shift ns vs) (vscale (- s) (a_ vs i))) p) q) with (vadd V (vscale (- s) (a_ vs i))) by (unfold V; generalize (shift ns vs), (a_ vs i); vring).
    rewrite vdot_add_l, !vdot_add_r, !vdot_scale_l, !vdot_scale_r, (vdot_comm (a_ vs i) V).
    assert (S1 : s * s = 1). { unfold s. rewrite <- mult_IZR. apply IZR_eq. lia. }
    replace (vdot V V + - s * vdot V (a_ vs i) + (- s * vdot V (a_ vs i) + - s * (- s * vdot (a_ vs i) (a_ vs i)))) with (vdot V V - 2 * (s * vdot V (a_ vs i)) + (s * s) * vdot (a_ vs i) (a_ vs i)) by ring.
    rewrite S1. lra. }
  destruct (Z.eq_dec (reach ms) (reach ns - 1)) as [Eq|Ne].
  - exists ms. auto.
  - assert (Rm : reach ms = reach ns) by lia. pose proof (total_nonneg ms). pose proof (total_nonneg ns).
    destruct (IH (Z.to_nat (total ms)) ltac:(lia) ms eq_refl Lm ltac:(lia)) as (ms' & L' & R' & D').
    exists ms'. split; [exact L'|]. split; [lia|]. lra.
Qed.
(** reduced cells *)
Lemma overlap_rsum vs i : overlap vs i = rsum (List.length vs) (fun j => if Nat.eqb j i then 0 else Rabs (vdot (a_ vs i) (a_ vs j))).
Proof.
  unfold overlap. change (fun j s => _) with (fun j s => (fun j => if Nat.eqb j i then 0 else Rabs (vdot (a_ vs i) (a_ vs j))) j + s).
  set (f := fun j => if Nat.eqb j i then 0 else Rabs (vdot (a_ vs i) (a_ vs j))).
  assert (A : forall n a, fold_right (fun j s => f j + s) 0 (seq a n) = rsum n (fun j => f (a + j)%nat)).
  { induction n as [|n IH]; intros a; [reflexivity|]. cbn [seq fold_right]. rewrite IH, rsum_head, Nat.add_0_r. f_equal. apply rsum_ext. intros j _. f_equal. lia. }
  apply A.
Qed.
Lemma dominant c vs i xs m : reduced c vs -> (i < List.length vs)%nat -> List.length xs = List.length vs ->
  (forall j, (j < List.length vs)%nat -> Rabs (nth j xs 0) <= m) -> 0 <= m ->
  Rabs (vdot (combination xs vs) (a_ vs i) - nth i xs 0 * vdot (a_ vs i) (a_ vs i)) <= m * (c * vdot (a_ vs i) (a_ vs i)).
Proof.
  intros Hr Hi Hl Hm M0. rewrite dot_combination by exact Hl. change (fun i0 => nth i0 xs 0 * vdot (nth i0 vs v0) (a_ vs i)) with (fun j => nth j xs 0 * vdot (a_ vs j) (a_ vs i)).
  rewrite (rsum_split_at _ _ i Hi).
  replace (nth i xs 0 * vdot (a_ vs i) (a_ vs i) + _ - _) with (rsum (List.length vs) (fun j => if Nat.eqb j i then 0 else nth j xs 0 * vdot (a_ vs j) (a_ vs i))) by ring.
  eapply Rle_trans; [apply rsum_abs|]. eapply Rle_trans; [|apply Rmult_le_compat_l; [exact M0|apply (Hr i Hi)]].
  rewrite overlap_rsum, <- rsum_scal. apply rsum_le. intros j Hj. destruct (Nat.eqb j i); [rewrite Rabs_R0; lra|].
  rewrite Rabs_mult, (vdot_comm (a_ vs i)). apply Rmult_le_compat_r; [apply Rabs_pos|auto].
Qed.
Lemma reach_bound ns j : (j < List.length ns)%nat -> (Z.abs (nth j ns 0) <= reach ns)%Z.
Proof. revert j. induction ns as [|n ns IH]; intros [|j] H; cbn in *; try lia. specialize (IH j ltac:(lia)). lia. Qed.
Lemma nth_map_IZR ns j : nth j (map IZR ns) 0 = IZR (nth j ns 0%Z).
Proof. change 0 with (IZR 0). apply map_nth. Qed.
Lemma reduced_shrinks vs p : reduced (3 / 4) vs -> shrinks vs p p.
Proof.
  intros Hr. apply shrinks_intro. intros ns i Ln R2 Hi E.
  replace (vsub (vadd (shift ns vs) p) p) with (shift ns vs) by (generalize (shift ns vs); vring).
  assert (M0 : 0 <= IZR (reach ns)) by (apply IZR_le; lia).
  pose proof (dominant (3 / 4) vs i (map IZR ns) (IZR (reach ns)) Hr Hi ltac:(now rewrite map_length)) as D.
  assert (B : Rabs (vdot (combination (map IZR ns) vs) (a_ vs i) - nth i (map IZR ns) 0 * vdot (a_ vs i) (a_ vs i)) <= IZR (reach ns) * (3 / 4 * vdot (a_ vs i) (a_ vs i))).
  { apply D; [|exact M0]. intros j Hj. rewrite nth_map_IZR, <- abs_IZR. apply IZR_le, reach_bound. lia. }
  clear D. fold (shift ns vs) in B. rewrite nth_map_IZR in B. set (n := nth i ns 0%Z) in *.
  pose proof (vdot_nonneg (a_ vs i)) as G0. set (g := vdot (a_ vs i) (a_ vs i)) in *. set (V := vdot (shift ns vs) (a_ vs i)) in *.
  assert (SA : IZR (Z.sgn n) * IZR n = IZR (reach ns)) by (rewrite <- mult_IZR; apply IZR_eq; lia).
  assert (S1 : IZR (Z.sgn n) = 1 \/ IZR (Z.sgn n) = -1).
  { destruct (Z.lt_trichotomy n 0) as [H|[H|H]]; [right|lia|left]; [rewrite (Z.sgn_neg n H)|rewrite (Z.sgn_pos n H)]; reflexivity. }
  assert (R2' : 2 <= IZR (reach ns)) by (apply IZR_le; lia).
  assert (K : IZR (Z.sgn n) * V >= IZR (reach ns) * g - IZR (reach ns) * (3 / 4 * g)).
  { rewrite <- SA at 1. pose proof (Rle_abs (V - IZR n * g)). pose proof (Rle_abs (- (V - IZR n * g))) as A2. rewrite Rabs_Ropp in A2.
    destruct S1 as [-> | ->]; nra. }
  nra.
Qed.
(** orthogonal cells with a compact cluster *)
Lemma orthogonal_shrinks L p q : orthogonal (vectors L) -> compact L -> In p (points L) -> In q (points L) -> shrinks (vectors L) p q.
Proof.
  intros Ho Hc Hp Hq. apply shrinks_intro. intros ns i Ln R2 Hi E. set (vs := vectors L) in *.
  destruct (Hc p q Hp Hq) as (ts & w & Lt & Ft & Hw & Epq). fold vs in Lt, Hw, Epq.
  replace (vsub (vadd (shift ns vs) p) q) with (vadd (shift ns vs) (vsub p q)) by (generalize (shift ns vs); vring). rewrite Epq.
  rewrite !vdot_add_l. assert (Wi : vdot w (a_ vs i) = 0) by (apply Hw, nth_In; exact Hi).
  assert (O : forall xs, List.length xs = List.length vs -> vdot (combination xs vs) (a_ vs i) = nth i xs 0 * vdot (a_ vs i) (a_ vs i)).
  { intros xs Lx. rewrite dot_combination by exact Lx. rewrite (rsum_single _ _ i Hi); [reflexivity|]. intros j Hj N.
    rewrite (Ho j i Hj Hi N : vdot (nth j vs v0) (a_ vs i) = 0). ring. }
  unfold shift. rewrite (O (map IZR ns)) by (now rewrite map_length). rewrite (O ts) by exact Lt. rewrite Wi, nth_map_IZR. set (n := nth i ns 0%Z) in *.
  pose proof (vdot_nonneg (a_ vs i)) as G0. set (g := vdot (a_ vs i) (a_ vs i)) in *.
  assert (Ti : Rabs (nth i ts 0) <= 1) by (rewrite Forall_forall in Ft; apply Ft, nth_In; lia).
  assert (SA : IZR (Z.sgn n) * IZR n = IZR (reach ns)) by (rewrite <- mult_IZR; apply IZR_eq; lia).
  assert (S1 : IZR (Z.sgn n) = 1 \/ IZR (Z.sgn n) = -1).
  { destruct (Z.lt_trichotomy n 0) as [H|[H|H]]; [right|lia|left]; [rewrite (Z.sgn_neg n H)|rewrite (Z.sgn_pos n H)]; reflexivity. }
  assert (R2' : 2 <= IZR (reach ns)) by (apply IZR_le; lia).
  assert (T1 : IZR (Z.sgn n) * nth i ts 0 >= -1).
  { pose proof (Rle_abs (nth i ts 0)). pose proof (Rle_abs (- nth i ts 0)) as A2. rewrite Rabs_Ropp in A2. destruct S1 as [-> | ->]; lra. }
  replace (2 * (IZR (Z.sgn n) * (IZR n * g + (nth i ts 0 * g + 0)))) with (2 * g * (IZR (Z.sgn n) * IZR n + IZR (Z.sgn n) * nth i ts 0)) by ring. rewrite SA. nra.
Qed.
(** what the search scope is good for *)
Lemma scope_covers L fuel ref r p q ns : (1 <= List.length (vectors L))%nat -> In p (points L) -> In q (points L) ->
  guess_scope L fuel ref = Some (Ok r) -> shrinks (vectors L) p q -> List.length ns = List.length (vectors L) ->
  dist (vadd (shift ns (vectors L)) p) q <= ref -> (reach ns <= r)%Z /\ (0 <= r)%Z.
Proof.
  intros Hk Hp Hq Hg Hs Ln Hd. assert (Hne : points L <> []) by (intros E; rewrite E in Hp; contradiction).
  apply guess_loop_spec in Hg as (R1 & (m & Em & Hm) & _).
  assert (R0 : (0 <= r)%Z).
  { destruct (Z.eq_dec r (-1)) as [->|]; [|lia]. exfalso.
    destruct (edge_min_spec L (-1) Hk Hne ltac:(lia)) as (m' & Em' & Lo & _). rewrite Em in Em'. injection Em' as <-.
    specialize (Lo (repeat 0%Z (List.length (vectors L))) p p (repeat_length _ _) ltac:(apply reach_repeat; lia) Hp Hp).
    rewrite shift_zero, vadd_0_l, dist_refl in Lo. pose proof (dist_nonneg (vadd (shift ns (vectors L)) p) q). lra. }
  split; [|exact R0]. destruct (Z.le_gt_cases (reach ns) r) as [H|H]; [exact H|]. exfalso.
  assert (K : forall d ns, Z.to_nat (reach ns - (r + 1)) = d -> List.length ns = List.length (vectors L) -> (r + 1 <= reach ns)%Z -> dist (vadd (shift ns (vectors L)) p) q <= ref -> False).
  { clear ns Ln Hd H. induction d as [|d IH]; intros ns Ed Ln Hr Hd.
    - destruct (edge_min_spec L r Hk Hne ltac:(lia)) as (m' & Em' & Lo & _). rewrite Em in Em'. injection Em' as <-.
      specialize (Lo ns p q Ln ltac:(lia) Hp Hq). lra.
    - destruct (Hs ns Ln ltac:(lia)) as (ms & Lm & Rm & Dm). apply (IH ms); auto; try lia. lra. }
  apply (K _ ns eq_refl Ln ltac:(lia) Hd).
Qed.
Lemma scope_covers_steady L fuel ref r p q ns : (1 <= List.length (vectors L))%nat -> In p (points L) -> In q (points L) ->
  guess_scope L fuel ref = Some (Ok r) -> steady (vectors L) (points L) -> List.length ns = List.length (vectors L) ->
  dist (vadd (shift ns (vectors L)) p) q <= ref -> (reach ns <= r)%Z /\ (0 <= r)%Z.
Proof.
  intros Hk Hp Hq Hg Hs Ln Hd. assert (Hne : points L <> []) by (intros E; rewrite E in Hp; contradiction).
  apply guess_loop_spec in Hg as (R1 & (m & Em & Hm) & _).
  assert (R0 : (0 <= r)%Z).
  { destruct (Z.eq_dec r (-1)) as [->|]; [|lia]. exfalso.
    destruct (edge_min_spec L (-1) Hk Hne ltac:(lia)) as (m' & Em' & Lo & _). rewrite Em in Em'. injection Em' as <-.
    specialize (Lo (repeat 0%Z (List.length (vectors L))) p p (repeat_length _ _) ltac:(apply reach_repeat; lia) Hp Hp).
    rewrite shift_zero, vadd_0_l, dist_refl in Lo. pose proof (dist_nonneg (vadd (shift ns (vectors L)) p) q). lra. }
  split; [|exact R0]. destruct (Z.le_gt_cases (reach ns) r) as [H|H]; [exact H|]. exfalso.
  assert (K : forall d p q ns, Z.to_nat (reach ns - (r + 1)) = d -> In p (points L) -> In q (points L) -> List.length ns = List.length (vectors L) -> (r + 1 <= reach ns)%Z -> dist (vadd (shift ns (vectors L)) p) q <= ref -> False).
  { clear p q ns Hp Hq Ln Hd H. induction d as [|d IH]; intros p q ns Ed Hp Hq Ln Hr Hd.
    - destruct (edge_min_spec L r Hk Hne ltac:(lia)) as (m' & Em' & Lo & _). rewrite Em in Em'. injection Em' as <-.
      specialize (Lo ns p q Ln ltac:(lia) Hp Hq). lra.
    - destruct (Hs p q ns Hp Hq Ln ltac:(lia)) as (p' & q' & ms & Hp' & Hq' & Lm & Rm & Dm). apply (IH p' q' ms); auto; try lia. lra. }
  apply (K _ p q ns eq_refl Hp Hq Ln ltac:(lia) Hd).
Qed.
Lemma steady_shrinks vs p : steady vs [v0] -> shrinks vs p p.
Proof.
  intros H ns Ln R2. destruct (H v0 v0 ns (or_introl eq_refl) (or_introl eq_refl) Ln R2) as (p' & q' & ms & [<-|[]] & [<-|[]] & Lm & Rm & D).
  exists ms. split; [exact Lm|]. split; [exact Rm|].
  assert (E : forall x, dist (vadd x p) p = dist (vadd x v0) v0).
  { intros x. unfold dist. f_equal. rewrite vadd_0_r. vring. }
  rewrite !E. exact D.
Qed.
Lemma shrinks_steady vs ps : (forall p q, In p ps -> In q ps -> shrinks vs p q) -> steady vs ps.
Proof. intros H p q ns Hp Hq Ln R2. destruct (H p q Hp Hq ns Ln R2) as (ms & A & B & C). exists p, q, ms. auto. Qed.
