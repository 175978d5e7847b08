From Coq Require Import List Reals ZArith Bool Arith Lra Lia Permutation.
From Coquelicot Require Import Complex.
From Verif Require Import Py CVec LinSolve Line2D_Model Line2D_Proofs Lattice_Model Lattice_Spec Lattice_Proofs.
Import ListNotations.
Open Scope R_scope.

Definition a_ (vs : list point) (i : nat) : point := nth i vs v0.
Definition G (vs : list point) (i j : nat) : R := vdot (a_ vs i) (a_ vs j).
Lemma Re_csum n (g : nat -> R) (x : nat -> C) : Re (csum n (fun j => RtoC (g j) * x j)%C) = rsum n (fun j => g j * Re (x j)).
Proof. induction n as [|n IH]; [reflexivity|]. cbn [csum rsum]. rewrite <- IH. unfold Re. cbn. ring. Qed.
Lemma Im_csum n (g : nat -> R) (x : nat -> C) : Im (csum n (fun j => RtoC (g j) * x j)%C) = rsum n (fun j => g j * Im (x j)).
Proof. induction n as [|n IH]; [reflexivity|]. cbn [csum rsum]. rewrite <- IH. unfold Im. cbn. ring. Qed.
Definition rnonsingular (k : nat) (g : nat -> nat -> R) : Prop :=
  forall u, (forall i, (i < k)%nat -> rsum k (fun j => g i j * u j) = 0) -> forall i, (i < k)%nat -> u i = 0.
Lemma nonsingular_real k g : nonsingular k (fun i j => RtoC (g i j)) <-> rnonsingular k g.
Proof.
  split; intros H u Hu.
  - intros i Hi. assert (E : veqn k (fun i => RtoC (u i)) vzero).
    { apply H. intros l Hl. unfold vzero. transitivity (RtoC (rsum k (fun j => g l j * u j))); [|now rewrite Hu].
      rewrite <- csum_R. apply csum_ext. intros j _. now rewrite RtoC_mult. }
    specialize (E i Hi). now injection E.
  - intros i Hi. apply C_eq; cbn.
    + apply (H (fun j => Re (u j))); [|exact Hi]. intros l Hl. rewrite <- Re_csum. rewrite (Hu l Hl). reflexivity.
    + apply (H (fun j => Im (u j))); [|exact Hi]. intros l Hl. rewrite <- Im_csum. rewrite (Hu l Hl). reflexivity.
Qed.
Lemma G_sym vs i j : G vs i j = G vs j i. Proof. apply vdot_comm. Qed.

(** combinations given by a function *)
Definition fcomb (c : nat -> R) (vs : list point) : point := combination (map c (seq 0 (List.length vs))) vs.
Lemma fcomb_dot c vs w : vdot (fcomb c vs) w = rsum (List.length vs) (fun i => c i * vdot (a_ vs i) w).
Proof.
  unfold fcomb. rewrite dot_combination by (now rewrite map_length, seq_length). apply rsum_ext. intros i Hi. now rewrite nth_map_seq.
Qed.
Lemma combination_fcomb xs vs : List.length xs = List.length vs -> combination xs vs = fcomb (fun i => nth i xs 0) vs.
Proof. intros H. apply vec_dot_ext. intros w. rewrite fcomb_dot, dot_combination by exact H. reflexivity. Qed.
Lemma rnonsingular_independent vs : rnonsingular (List.length vs) (G vs) <-> ~ dependent vs.
Proof.
  set (k := List.length vs). split.
  - intros H (xs & Hl & (x & Hx & Nx) & E). apply (In_nth _ _ 0) in Hx as (i & Hi & <-). rewrite Hl in Hi. apply Nx.
    apply (H (fun j => nth j xs 0)); [|exact Hi]. intros l _.
    transitivity (vdot (a_ vs l) (combination xs vs)); [|rewrite E; apply vdot_0_r].
    rewrite dot_combination_l by exact Hl. apply rsum_ext. intros j _. unfold G. apply Rmult_comm.
  - intros Hd u Hu i Hi. destruct (Req_dec (u i) 0) as [E|N]; [exact E|]. exfalso. apply Hd.
    exists (map u (seq 0 k)). split; [now rewrite map_length, seq_length|]. split.
    + exists (u i). split; [|exact N]. apply in_map, in_seq. lia.
    + change (fcomb u vs = v0). apply vdot_zero. rewrite fcomb_dot. fold k. apply rsum_zero. intros l Hl.
      replace (vdot (a_ vs l) (fcomb u vs)) with (rsum k (fun j => G vs l j * u j)); [rewrite (Hu l Hl); ring|].
      rewrite vdot_comm, fcomb_dot. apply rsum_ext. intros j _. unfold G. rewrite (vdot_comm (a_ vs j)). ring.
Qed.

Lemma solve_columns_ok vs b : solve_columns vs = Ok b ->
  rnonsingular (List.length vs) (G vs) /\ List.length b = List.length vs /\
  (forall i j, (i < List.length vs)%nat -> (j < List.length vs)%nat -> vdot (nth i b v0) (nth j vs v0) = if Nat.eqb i j then 2 * PI else 0) /\
  (forall i, (i < List.length vs)%nat -> exists c, nth i b v0 = fcomb c vs).
Proof.
  set (k := List.length vs). unfold solve_columns. fold k.
  destruct (solve k (gram vs) _) as [x|] eqn:Ex; [|discriminate]. cbn [bind].
  destruct (solve k (gram vs) (fun i => RtoC (coord 1 _))) as [y|] eqn:Ey; [|discriminate]. cbn [bind].
  destruct (solve k (gram vs) (fun i => RtoC (coord 2 _))) as [z|] eqn:Ez; [|discriminate]. cbn [bind].
  intros [= <-]. apply solve_ok in Ex as [Sx NS], Ey as [Sy _], Ez as [Sz _].
  assert (RN : rnonsingular k (G vs)) by (apply nonsingular_real; exact NS).
  set (B := fun i => (Re (x i), Re (y i), Re (z i)) : point).
  assert (Col : forall (c : nat) (u : nat -> C), solves k (gram vs) u (fun i => RtoC (coord c (nth i vs v0))) ->
            forall i, (i < k)%nat -> rsum k (fun j => G vs i j * Re (u j)) = coord c (a_ vs i)).
  { intros c u Hu i Hi. specialize (Hu i Hi). rewrite <- Re_csum. unfold gram in Hu. unfold G, a_. rewrite Hu. reflexivity. }
  assert (GB : forall i w, (i < k)%nat -> rsum k (fun j => G vs i j * vdot (B j) w) = vdot (a_ vs i) w).
  { intros i [[w1 w2] w3] Hi. pose proof (Col 0%nat x Sx i Hi) as H1. pose proof (Col 1%nat y Sy i Hi) as H2. pose proof (Col 2%nat z Sz i Hi) as H3.
    destruct (a_ vs i) as [[p1 p2] p3] eqn:Ea. cbn [coord vdot] in *. rewrite <- H1, <- H2, <- H3.
    rewrite !(Rmult_comm (rsum _ _)), <- !rsum_scal, <- !rsum_plus. apply rsum_ext. intros j _. unfold B. cbn [vdot]. ring. }
  assert (Uniq : forall D, (forall i w, (i < k)%nat -> rsum k (fun j => G vs i j * vdot (D j) w) = vdot (a_ vs i) w) -> forall i, (i < k)%nat -> B i = D i).
  { intros D HD i Hi. apply vec_dot_ext. intros w. apply Rminus_diag_uniq. apply (RN (fun j => vdot (B j) w - vdot (D j) w)); [|exact Hi].
    intros l Hl. transitivity (rsum k (fun j => G vs l j * vdot (B j) w) - rsum k (fun j => G vs l j * vdot (D j) w)); [|rewrite GB, HD by auto; ring].
    rewrite <- rsum_minus. apply rsum_ext. intros. ring. }
  assert (Dual : forall i l, (i < k)%nat -> (l < k)%nat -> vdot (B i) (a_ vs l) = if Nat.eqb i l then 1 else 0).
  { intros i l Hi Hl. apply Rminus_diag_uniq. apply (RN (fun j => vdot (B j) (a_ vs l) - (if Nat.eqb j l then 1 else 0))); [|exact Hi].
    intros m Hm. transitivity (rsum k (fun j => G vs m j * vdot (B j) (a_ vs l)) - rsum k (fun j => G vs m j * (if Nat.eqb j l then 1 else 0))).
    - rewrite <- rsum_minus. apply rsum_ext. intros. ring.
    - rewrite GB by exact Hm. rewrite (rsum_single k _ l Hl); [rewrite Nat.eqb_refl; unfold G; ring|].
      intros j _ N. destruct (Nat.eqb_spec j l); [contradiction|ring]. }
  assert (Nb : forall i, (i < k)%nat -> nth i (map (fun i0 => vscale (2 * PI) (Re (x i0), Re (y i0), Re (z i0))) (seq 0 k)) v0 = vscale (2 * PI) (B i)).
  { intros i Hi. now rewrite nth_map_seq. }
  split; [exact RN|]. split; [now rewrite map_length, seq_length|]. split.
  - intros i j Hi Hj. rewrite Nb by exact Hi. rewrite vdot_scale_l. change (nth j vs v0) with (a_ vs j). rewrite Dual by auto. destruct (Nat.eqb i j); ring.
  - intros i Hi. rewrite Nb by exact Hi.
    assert (Sol : forall i, exists u, forall l, (l < k)%nat -> rsum k (fun j => G vs l j * u j) = if Nat.eqb l i then 1 else 0).
    { intros i0. destruct (solve_nonsingular k (gram vs) (fun l => RtoC (if Nat.eqb l i0 then 1 else 0)) NS) as [u Hu]. apply solve_ok in Hu as [Hu _].
      exists (fun j => Re (u j)). intros l Hl. specialize (Hu l Hl). rewrite <- Re_csum. unfold gram in Hu. unfold G, a_. rewrite Hu. reflexivity. }
    assert (Ch : exists u : nat -> nat -> R, forall i, (i < k)%nat -> forall l, (l < k)%nat -> rsum k (fun j => G vs l j * u i j) = if Nat.eqb l i then 1 else 0).
    { clear - Sol. generalize k at 1. intros n. induction n as [|n (u & IH)]; [exists (fun _ _ => 0); intros; lia|].
      destruct (Sol n) as [w Hw]. exists (fun i => if Nat.eqb i n then w else u i). intros i Hi l Hl.
      destruct (Nat.eqb_spec i n) as [->|N]; [now apply Hw|]. apply IH; lia. }
    destruct Ch as [u Hu]. exists (fun j => 2 * PI * u i j).
    assert (Dd : forall i l, (i < k)%nat -> (l < k)%nat -> vdot (fcomb (u i) vs) (a_ vs l) = if Nat.eqb l i then 1 else 0).
    { intros i0 l Hi0 Hl. rewrite fcomb_dot. fold k. rewrite <- (Hu i0 Hi0 l Hl). apply rsum_ext. intros j _. unfold G. rewrite (vdot_comm (a_ vs l)). ring. }
    rewrite (Uniq (fun i => fcomb (u i) vs)); [| |exact Hi].
    + apply vec_dot_ext. intros w. rewrite vdot_scale_l, !fcomb_dot, <- rsum_scal. apply rsum_ext. intros. ring.
    + intros l w Hl. pose (E := vsub (fcomb (fun j => if Nat.eqb j l then 1 else 0) vs) (fcomb (fun m => rsum k (fun j => G vs l j * u j m)) vs)).
      assert (F1 : fcomb (fun j => if Nat.eqb j l then 1 else 0) vs = a_ vs l).
      { apply vec_dot_ext. intros w'. rewrite fcomb_dot. fold k. rewrite (rsum_single k _ l Hl); [rewrite Nat.eqb_refl; ring|].
        intros j _ N. destruct (Nat.eqb_spec j l); [contradiction|ring]. }
      assert (F2 : forall w', vdot (fcomb (fun m => rsum k (fun j => G vs l j * u j m)) vs) w' = rsum k (fun j => G vs l j * vdot (fcomb (u j) vs) w')).
      { intros w'. rewrite fcomb_dot. fold k.
        transitivity (rsum k (fun i0 => rsum k (fun j => G vs l j * u j i0 * vdot (a_ vs i0) w'))).
        - apply rsum_ext. intros m _. rewrite Rmult_comm, <- rsum_scal. apply rsum_ext. intros. ring.
        - rewrite rsum_swap. apply rsum_ext. intros j _. rewrite fcomb_dot. fold k. rewrite <- rsum_scal. apply rsum_ext. intros. ring. }
      assert (Ea : forall m, (m < k)%nat -> vdot E (a_ vs m) = 0).
      { intros m Hm. unfold E. rewrite vdot_sub_l, F1, F2. rewrite (rsum_single k _ m Hm).
        - rewrite Dd by auto. rewrite Nat.eqb_refl. unfold G. ring.
        - intros j Hj N. rewrite Dd by auto. destruct (Nat.eqb_spec m j); [congruence|ring]. }
      assert (E0 : vdot E E = 0).
      { unfold E at 1. rewrite vdot_sub_l, !fcomb_dot. fold k. rewrite !rsum_zero; [ring| |]; intros m Hm; rewrite vdot_comm, (Ea m Hm); ring. }
      apply vdot_zero in E0. assert (E1 : vdot E w = 0) by (rewrite E0; apply vdot_0_l). unfold E in E1. rewrite vdot_sub_l, F1, F2 in E1. lra.
Qed.
Lemma solve_columns_err vs e : solve_columns vs = Err e -> e = LinAlgError /\ dependent vs.
Proof.
  set (k := List.length vs). unfold solve_columns. fold k.
  assert (K : forall b e, solve k (gram vs) b = Err e -> e = LinAlgError /\ dependent vs).
  { intros b e' H. apply solve_err in H as [-> N]. split; [reflexivity|]. destruct (Classical_Prop.classic (dependent vs)) as [D|D]; [exact D|].
    elim N. apply nonsingular_real. now apply rnonsingular_independent. }
  destruct (solve k (gram vs) _) as [x|] eqn:Ex; [|intros [= <-]; eauto]. cbn [bind].
  destruct (solve k (gram vs) (fun i => RtoC (coord 1 _))) as [y|] eqn:Ey; [|intros [= <-]; eauto]. cbn [bind].
  destruct (solve k (gram vs) (fun i => RtoC (coord 2 _))) as [z|] eqn:Ez; [|intros [= <-]; eauto]. discriminate.
Qed.
Lemma solve_columns_total vs : ~ dependent vs -> exists b, solve_columns vs = Ok b.
Proof. intros H. destruct (solve_columns vs) as [b|e] eqn:E; [eauto|]. apply solve_columns_err in E as [_ D]. contradiction. Qed.

(** a shift grows with its coefficients *)
Lemma nth_combination_dual vs b xs i : solve_columns vs = Ok b -> List.length xs = List.length vs -> (i < List.length vs)%nat ->
  vdot (nth i b v0) (combination xs vs) = 2 * PI * nth i xs 0.
Proof.
  intros Hb Hl Hi. apply solve_columns_ok in Hb as (_ & _ & D & _). rewrite dot_combination_l by exact Hl.
  rewrite (rsum_single _ _ i Hi); [rewrite D, Nat.eqb_refl by auto; ring|]. intros j Hj N. rewrite D by auto. destruct (Nat.eqb_spec i j); [congruence|ring].
Qed.
Lemma reach_nth c : exists i, (i < List.length c)%nat /\ reach c = Z.abs (nth i c 0%Z) \/ c = [].
Proof.
  induction c as [|x c IH]; [exists O; now right|]. destruct IH as (i & [[Hi E]| ->]).
  - destruct (Z.le_gt_cases (reach c) (Z.abs x)).
    + exists O. left. cbn. split; lia.
    + exists (S i). left. cbn. split; [lia|]. rewrite <- E. lia.
  - exists O. left. cbn. split; lia.
Qed.
Lemma shift_bound vs b : solve_columns vs = Ok b -> exists c, 0 < c /\
  forall ns, List.length ns = List.length vs -> c * IZR (reach ns) <= Lattice_Model.norm (shift ns vs).
Proof.
  intros Hb. pose (M := fold_right (fun v m => Lattice_Model.norm v + m) 1 b).
  assert (HM : 1 <= M /\ forall v, In v b -> Lattice_Model.norm v <= M).
  { unfold M. clear. induction b as [|v b [A B]]; cbn; [split; [lra|intros v []]|]. pose proof (norm_nonneg v). split; [lra|]. intros w [<-|Hw]; [lra|]. specialize (B w Hw). lra. }
  destruct HM as [M1 HM]. exists (/ M). split; [apply Rinv_0_lt_compat; lra|]. intros ns Hl.
  destruct (reach_nth ns) as (i & [[Hi E]| ->]).
  2:{ cbn [reach]. rewrite Rmult_0_r. apply norm_nonneg. }
  assert (Hi' : (i < List.length vs)%nat) by lia.
  assert (D : vdot (nth i b v0) (shift ns vs) = 2 * PI * IZR (nth i ns 0%Z)).
  { unfold shift. rewrite (nth_combination_dual vs b _ i Hb) by (rewrite ?map_length; auto). f_equal. change 0 with (IZR 0). apply map_nth. }
  pose proof (cauchy (nth i b v0) (shift ns vs)) as Cs. rewrite D in Cs.
  pose proof (solve_columns_ok _ _ Hb) as (_ & Lb & _ & _).
  assert (Nb : Lattice_Model.norm (nth i b v0) <= M) by (apply HM, nth_In; lia).
  rewrite Rabs_mult, (Rabs_right (2 * PI)), <- abs_IZR, <- E in Cs by (pose proof PI_RGT_0; lra).
  pose proof PI2_3_2 as P. assert (0 <= IZR (reach ns)) by (apply IZR_le, reach_nonneg).
  assert (P3 : 1 <= 2 * PI) by lra. pose proof (norm_nonneg (shift ns vs)). pose proof (norm_nonneg (nth i b v0)).
  apply Rmult_le_reg_l with M; [lra|]. rewrite <- Rmult_assoc, Rinv_r, Rmult_1_l by lra.
  apply Rle_trans with (2 * PI * IZR (reach ns)); [nra|]. eapply Rle_trans; [exact Cs|]. nra.
Qed.

(** _guess_scope terminates *)
Lemma spread_bound qs : forall ps p q, In p ps -> In q qs ->
  dist q p <= fold_right (fun p m => fold_right (fun q m' => dist q p + m') 0 qs + m) 0 ps.
Proof.
  assert (S1 : forall p, 0 <= fold_right (fun q m' => dist q p + m') 0 qs /\ forall q, In q qs -> dist q p <= fold_right (fun q m' => dist q p + m') 0 qs).
  { intros p'. induction qs as [|q qs [A B]]; cbn; [split; [lra|intros q []]|]. pose proof (dist_nonneg q p'). split; [lra|]. intros q' [<-|H']; [lra|]. specialize (B q' H'). lra. }
  induction ps as [|p0 ps IH]; intros p q Hp' Hq; [contradiction|]. cbn [fold_right].
  assert (S2 : 0 <= fold_right (fun p m => fold_right (fun q m' => dist q p + m') 0 qs + m) 0 ps).
  { clear - S1. induction ps as [|p1 ps IH]; cbn; [lra|]. pose proof (proj1 (S1 p1)). lra. }
  destruct Hp' as [->|Hp']; [pose proof (proj2 (S1 p) q Hq); lra|]. specialize (IH p q Hp' Hq). pose proof (proj1 (S1 p0)). lra.
Qed.
Lemma guess_terminates L b ref : solve_columns (vectors L) = Ok b -> (1 <= List.length (vectors L))%nat -> points L <> [] ->
  exists F, forall fuel, (F <= fuel)%nat -> exists r, guess_scope L fuel ref = Some (Ok r).
Proof.
  intros Hb Hk Hp. destruct (shift_bound _ _ Hb) as (c & Hc & B).
  pose (W := fold_right (fun p m => fold_right (fun q m' => dist q p + m') 0 (points L) + m) 0 (points L)).
  assert (HW : forall p q, In p (points L) -> In q (points L) -> dist q p <= W).
  { intros p q. apply spread_bound. }
  destruct (archimed ((Rabs ref + W) / c)) as [A _]. set (T := up ((Rabs ref + W) / c)) in *.
  assert (W0 : 0 <= W). { destruct (points L) as [|p ps] eqn:E; [contradiction|]. eapply Rle_trans; [apply (dist_nonneg p p)|]. apply HW; now left. }
  assert (T0 : (0 <= T)%Z).
  { apply le_IZR. left. eapply Rle_lt_trans; [|exact A]. pose proof (Rabs_pos ref). apply Rmult_le_pos; [lra|left; now apply Rinv_0_lt_compat]. }
  exists (Z.to_nat (T + 2)). intros fuel Hf.
  destruct (guess_loop_ends L ref T Hk Hp) with (n := Z.to_nat (T - -1)) (s := (-1)%Z) (fuel := fuel) as (r & Hr & _); try lia; [|exists r; exact Hr].
  intros m Hm. destruct (edge_min_spec L T Hk Hp ltac:(lia)) as (m' & Em & _ & (n & p & q & Ln & Rn & Hpp & Hq & Em')). rewrite Hm in Em. injection Em as <-.
  specialize (B n Ln). rewrite Rn, plus_IZR in B.
  assert (Tr : Lattice_Model.norm (shift n (vectors L)) <= m + W).
  { replace (shift n (vectors L)) with (vadd (vsub (vadd (shift n (vectors L)) p) q) (vsub q p)) by (generalize (shift n (vectors L)); vring).
    eapply Rle_trans; [apply norm_triangle|]. rewrite Em'. apply Rplus_le_compat_l. apply (HW p q); auto. }
  assert (c * IZR T > Rabs ref + W).
  { apply Rmult_lt_compat_l with (r := c) in A; [|exact Hc]. unfold Rdiv in A. rewrite (Rmult_comm (Rabs ref + W)), <- Rmult_assoc, Rinv_r, Rmult_1_l in A by lra. lra. }
  pose proof (Rle_abs ref). lra.
Qed.
