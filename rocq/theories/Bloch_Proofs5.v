(** Chain, square and cubic lattices: nearest neighbours. *)
From Coq Require Import Reals List Bool Arith ZArith Lia Lra Permutation Sorted.
From Coquelicot Require Import Complex.
From Verif Require Import Py CVec LinSolve MatrixRepr_Model Line2D_Model Line2D_Proofs Lattice_Model Lattice_Spec Lattice_Proofs Lattice_Properties LatticeGen_Model LatticeGen_Spec LatticeGen_Proofs
  Neighbors_Spec Neighbors_Proofs Neighbors_Proofs2 Neighbors_Properties LatticeBonds_Spec LatticeBonds_Proofs2 LatticeBonds_Properties
  Free_Spec CPT_Model CPT_Spec CPT_Proofs3 Bloch_Spec Bloch_Proofs Bloch_Proofs2.
Import ListNotations.
Local Open Scope R_scope.

Fixpoint sq (ms : list Z) : Z := match ms with [] => 0%Z | m :: r => (m * m + sq r)%Z end.
Fixpoint units (n : nat) : list (list Z) :=
  match n with O => [] | S n' => (1 :: repeat 0 n')%Z :: (-1 :: repeat 0 n')%Z :: map (cons 0%Z) (units n') end.
Fixpoint orthonorm (vs : list point) : Prop :=
  match vs with [] => True | v :: r => vdot v v = 1 /\ Forall (fun w => vdot v w = 0) r /\ orthonorm r end.

Lemma sq_nonneg ms : (0 <= sq ms)%Z.
Proof. induction ms as [|m r IH]; cbn; [lia|nia]. Qed.
Lemma sq_zero ms : sq ms = 0%Z -> ms = repeat 0%Z (length ms).
Proof. induction ms as [|m r IH]; cbn [sq length repeat]; intros H; [reflexivity|]. pose proof (sq_nonneg r). assert (m = 0%Z) by nia. subst. f_equal. apply IH. lia. Qed.
Lemma sq_repeat n : sq (repeat 0%Z n) = 0%Z.
Proof. induction n; cbn; lia. Qed.
Lemma in_units n : forall M, length M = n -> (In M (units n) <-> sq M = 1%Z).
Proof.
  induction n as [|n IH]; intros [|m M] E; try discriminate; cbn [units sq]; [split; [intros []|discriminate]|]. injection E as E. cbn [In]. rewrite in_map_iff. split.
  - intros [H|[H|(M' & H & Hin)]]; injection H as <- <-; try (rewrite sq_repeat; lia). apply IH in Hin; [lia|exact E].
  - intros H. pose proof (sq_nonneg M). assert (m = 0 \/ m = 1 \/ m = -1)%Z as [->|[->| ->]] by nia.
    + right. right. exists M. split; [reflexivity|]. apply IH; [exact E|lia].
    + left. rewrite <- E, <- (sq_zero M) by lia. reflexivity.
    + right. left. rewrite <- E, <- (sq_zero M) by lia. reflexivity.
Qed.
Lemma units_nodup n : NoDup (units n).
Proof.
  induction n as [|n IH]; cbn [units]; [constructor|]. constructor; [|constructor].
  - intros [H|H]; [discriminate|]. apply in_map_iff in H as (x & H & _). discriminate.
  - intros H. apply in_map_iff in H as (x & H & _). discriminate.
  - apply FinFun.Injective_map_NoDup; [intros x y E; now injection E|exact IH].
Qed.
Lemma units_length n : forall M, In M (units n) -> length M = n.
Proof.
  induction n as [|n IH]; cbn [units]; intros M H; [destruct H|]. destruct H as [<-|[<-|H]]; [cbn; now rewrite repeat_length..|].
  apply in_map_iff in H as (x & <- & H). cbn. now rewrite IH.
Qed.
Lemma shift_cons m ms v vs : shift (m :: ms) (v :: vs) = vadd (vscale (IZR m) v) (shift ms vs).
Proof. reflexivity. Qed.
Lemma units_plane k : forall vs, total (fun M => plane k (shift M vs)) (units (length vs)) = RtoC (2 * fold_right (fun a s => cos (vdot k a) + s) 0 vs).
Proof.
  induction vs as [|v vs IH]; [cbn; unfold c0, RtoC; f_equal; ring|]. cbn [length units fold_right].
  rewrite <- lcsum_total in *. cbn [lcsum]. rewrite lcsum_map.
  rewrite (lcsum_ext _ (fun M => plane k (shift M vs))).
  2:{ intros M _. rewrite shift_cons. f_equal. generalize (shift M vs). clear. vring. }
  rewrite IH. rewrite !shift_cons, !shift_zero, !vadd_0_r.
  assert (E1 : vdot k (vscale 1 v) = vdot k v) by (destruct k as [[? ?] ?], v as [[? ?] ?]; cbn; ring).
  assert (E2 : vdot k (vscale (-1) v) = - vdot k v) by (destruct k as [[? ?] ?], v as [[? ?] ?]; cbn; ring).
  unfold plane. rewrite E1, E2, cos_neg, sin_neg. unfold RtoC. apply injective_projections; cbn; ring.
Qed.
Lemma vdot_shift v : forall ms vs, Forall (fun w => vdot v w = 0) vs -> vdot v (shift ms vs) = 0.
Proof.
  intros ms. induction ms as [|m ms IH]; intros [|w vs] F; try (unfold shift; cbn; destruct v as [[? ?] ?]; cbn; ring). inversion F; subst. rewrite shift_cons.
  transitivity (IZR m * vdot v w + vdot v (shift ms vs)); [generalize (shift ms vs); clear; vring|]. rewrite H1, IH by assumption. ring.
Qed.
Lemma norm_shift : forall vs ms, orthonorm vs -> length ms = length vs -> vdot (shift ms vs) (shift ms vs) = IZR (sq ms).
Proof.
  induction vs as [|v vs IH]; intros [|m ms] O E; try discriminate; [unfold shift; cbn; ring|]. destruct O as (O1 & O2 & O3). injection E as E. rewrite shift_cons. cbn [sq]. rewrite plus_IZR, mult_IZR, <- (IH ms O3 E).
  pose proof (vdot_shift v ms vs O2) as Z. revert Z O1. generalize (shift ms vs). clear. intros u Z O1.
  transitivity (IZR m * IZR m * vdot v v + 2 * IZR m * vdot v u + vdot u u); [vring|]. rewrite Z, O1. ring.
Qed.

Lemma shift_difference u w : vsub (vadd u w) (vadd u v0) = w.
Proof. vring. Qed.

Section Simple.
  Variables (c : cell) (p : point).
  Hypothesis Hp : cpoints c = [p].
  Hypothesis Ho : orthonorm (cvectors c).
  Variable P : R -> Prop.
  Hypothesis HP : forall n, (1 <= n)%Z -> (P (sqrt (IZR n)) <-> n = 1%Z).
  Lemma home_length : length (home c) = length (cvectors c). Proof. apply repeat_length. Qed.
  Lemma simple_dist b M : is_site c b M -> b = 0%nat /\ dist (site c 0 (home c)) (site c b M) = sqrt (IZR (sq M)).
  Proof.
    intros [Hb HM]. rewrite Hp in Hb. cbn in Hb. assert (b = 0%nat) by lia. subst b. split; [reflexivity|]. rewrite <- (norm_shift (cvectors c) M Ho HM).
    unfold site, home. rewrite shift_zero. rewrite dist_sym. unfold dist, norm. now rewrite shift_difference.
  Qed.
  Lemma sq_home M : length M = length (cvectors c) -> M <> home c -> (1 <= sq M)%Z.
  Proof. intros E N. pose proof (sq_nonneg M). assert (sq M <> 0%Z); [|lia]. intros Z. apply N. unfold home. rewrite <- E. now apply sq_zero. Qed.
  Lemma simple_neighbours : neighbours c P 0 (map (fun M => (0%nat, M)) (units (length (cvectors c)))).
  Proof.
    split; [apply FinFun.Injective_map_NoDup; [intros x y E; now injection E|apply units_nodup]|]. intros b M. rewrite in_map_iff. split.
    - intros (M' & E & H). injection E as <- <-. pose proof (units_length _ _ H) as E. assert (IS : is_site c 0 M') by (split; [rewrite Hp; cbn; lia|exact E]). split; [exact IS|].
      pose proof (proj1 (in_units _ M' E) H) as S1. split; [intros X; injection X as X; unfold home in X; rewrite X, sq_repeat in S1; discriminate|].
      destruct (simple_dist 0 M' IS) as [_ ->]. apply HP; [lia|exact S1].
    - intros (IS & N & Q). destruct (simple_dist b M IS) as [-> E]. rewrite E in Q. exists M. split; [reflexivity|]. apply in_units; [apply IS|]. apply HP; [|exact Q].
      apply sq_home; [apply IS|]. congruence.
  Qed.
  Lemma simple_bloch t k : bloch_matrix c t (fun _ => map (fun M => (0%nat, M)) (units (length (cvectors c)))) k 0%nat 0%nat = RtoC (2 * t * cosines c k).
  Proof.
    unfold bloch_matrix. assert (F : forall l : list (list Z), filter (fun e : nat * list Z => Nat.eqb (fst e) 0) (map (fun M => (0%nat, M)) l) = map (fun M => (0%nat, M)) l).
    { induction l as [|x l IH]; [reflexivity|]. cbn. now rewrite IH. }
    rewrite F, <- lcsum_total, lcsum_map. cbn [snd]. rewrite lcsum_total, units_plane. unfold cosines. rewrite <- RtoC_mult. f_equal. ring.
  Qed.

  (** the cluster *)
  Variables (nums : list Z) (L : lattice).
  Hypothesis Hnums : Forall (fun n => (1 <= n)%Z) nums.
  Hypothesis Hlen : length nums = length (cvectors c).
  Hypothesis Lp : points L = cluster c nums.
  Hypothesis Lv : vectors L = scale_rows nums (cvectors c).
  Let num := length (points L).
  Let vl := vectors_length c nums L Hlen Lv.
  Lemma simple_len l : valid L l -> (to l, by_ l) <> (from l, still L) -> exists n, (1 <= n)%Z /\ len L l = sqrt (IZR n).
  Proof.
    intros V N. destruct V as (V1 & V2 & V3). assert (V : valid L l) by (repeat split; assumption).
    destruct (rel_moved c nums L Hnums Hlen Lp Lv (from l) l V1 V eq_refl N) as [IS NE].
    exists (sq (snd (rel c nums (from l) l))). rewrite (len_rel c nums L Hnums Hlen Lp Lv (from l) l V eq_refl).
    assert (T0 : ty c (from l) = 0%nat) by (destruct (placed c nums L Hnums Hlen Lp _ V1) as (X & _); rewrite Hp in X; cbn in X; lia).
    destruct (rel c nums (from l) l) as [b M]. cbn [fst snd] in *. destruct (simple_dist b M IS) as [-> E]. rewrite T0 in *. split; [|exact E].
    apply sq_home; [apply IS|]. congruence.
  Qed.
End Simple.
