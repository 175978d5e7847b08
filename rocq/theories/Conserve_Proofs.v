(** Proofs for C56: commutators with the total spin. *)
From Coq Require Import Qcanon String List ZArith NArith Bool Arith Lia Lqa Ring Setoid Morphisms.
From Verif Require Import Py GQ Mat IndexTable_Model State_Model State_Spec MatrixRepr_Model Fock_Spec Fock_Proofs MatrixRepr_Proofs
  Particle_Model Particle_Spec Spin_Model Spin_Spec Spin_Proofs Spin_Proofs2 Spin_Proofs3 Conserve_Spec.
Import ListNotations.
Local Open Scope nat_scope.
Local Open Scope gq_scope.

Global Instance comm_proper d : Proper (eqm d ==> eqm d ==> eqm d) (comm d).
Proof. intros a a' Ha b b' Hb. unfold comm. now rewrite Ha, Hb. Qed.
Lemma comm_mul d a b t : eqm d (comm d (mmul d a b) t) (madd (mmul d a (comm d b t)) (mmul d (comm d a t) b)).
Proof.
  unfold comm. intros i j Hi Hj. unfold msub at 1, madd. rewrite mmul_sub_r, mmul_sub_l. unfold msub.
  rewrite (mmul_A d a b t i j Hi Hj), (mmul_A d t a b i j Hi Hj), (mmul_A d a t b i j Hi Hj) by auto. ring.
Qed.
Lemma comm_add_l d a b t i j : comm d (madd a b) t i j = comm d a t i j + comm d b t i j.
Proof. unfold comm, msub. rewrite mmul_add_l, mmul_add_r. unfold madd. ring. Qed.
Lemma comm_add_r d a b t i j : comm d t (madd a b) i j = comm d t a i j + comm d t b i j.
Proof. unfold comm, msub. rewrite mmul_add_l, mmul_add_r. unfold madd. ring. Qed.
Lemma comm_scale_l d k a t i j : comm d (mscale k a) t i j = k * comm d a t i j.
Proof. unfold comm, msub. rewrite mmul_scale_l, mmul_scale_r. unfold mscale. ring. Qed.
Lemma comm_zero d t i j : comm d mzero t i j = 0.
Proof.
  unfold comm, msub, mmul, mzero. rewrite !bigsum_zero; [ring| |]; intros; ring.
Qed.
Lemma mmul_zero_l d a i j : mmul d mzero a i j = 0.
Proof. unfold mmul, mzero. apply bigsum_zero. intros; ring. Qed.
Lemma mmul_zero_r d a i j : mmul d a mzero i j = 0.
Proof. unfold mmul, mzero. apply bigsum_zero. intros; ring. Qed.
Lemma comm_square_r d h t : eqm d (comm d h t) mzero -> eqm d (comm d h (mmul d t t)) mzero.
Proof.
  intros H i j Hi Hj. rewrite comm_flip.
  assert (E : eqm d (comm d t h) mzero).
  { intros r c Hr Hc. rewrite comm_flip, (H r c Hr Hc). unfold mzero. ring. }
  rewrite (comm_mul d t t h i j Hi Hj). unfold madd.
  rewrite (mmul_proper d t t ltac:(reflexivity) _ _ E i j Hi Hj), (mmul_proper d _ _ E t t ltac:(reflexivity) i j Hi Hj).
  rewrite mmul_zero_l, mmul_zero_r. unfold mzero. ring.
Qed.

(** A spin operator at one site sees only that site's part of the total. *)
Lemma spin_total_comm n k o o' : (k < n)%nat ->
  eqm (2 ^ n) (comm (2 ^ n) (spin_at n k o) (total_spin n o')) (comm (2 ^ n) (spin_at n k o) (spin_at n k o')).
Proof.
  intros Hk r c Hr Hc. unfold comm at 1, msub. unfold total_spin. rewrite mmul_bigsum_l, mmul_bigsum_r.
  unfold bigsum at 1 2. rewrite <- lsum_sub. change (lsum ?f (seq 0 n)) with (bigsum n f). rewrite (bigsum_single n _ k Hk).
  - reflexivity.
  - intros j Hj Hn. change (fun r c => spin_at n j o' r c) with (spin_at n j o'). rewrite (spin_at_comm_diff n k j o o' Hk Hj (not_eq_sym Hn) r c Hr Hc). ring.
Qed.

(** x0 x1 + y0 y1 with [x, t] = - i y and [y, t] = i x on both sides. *)
Lemma plane_comm d x0 y0 x1 y1 t :
  eqm d (comm d x0 t) (mscale (- gi) y0) -> eqm d (comm d y0 t) (mscale gi x0) ->
  eqm d (comm d x1 t) (mscale (- gi) y1) -> eqm d (comm d y1 t) (mscale gi x1) ->
  eqm d (comm d (madd (mmul d x0 x1) (mmul d y0 y1)) t) mzero.
Proof.
  intros X0 Y0 X1 Y1 i j Hi Hj. rewrite comm_add_l, !(comm_mul d _ _ t i j Hi Hj). unfold madd.
  rewrite (mmul_proper d x0 x0 ltac:(reflexivity) _ _ X1 i j Hi Hj), (mmul_proper d _ _ X0 x1 x1 ltac:(reflexivity) i j Hi Hj).
  rewrite (mmul_proper d y0 y0 ltac:(reflexivity) _ _ Y1 i j Hi Hj), (mmul_proper d _ _ Y0 y1 y1 ltac:(reflexivity) i j Hi Hj).
  rewrite !mmul_scale_l, !mmul_scale_r. unfold mscale, mzero. ring.
Qed.
Lemma axis_comm d z0 z1 t : eqm d (comm d z0 t) mzero -> eqm d (comm d z1 t) mzero -> eqm d (comm d (mmul d z0 z1) t) mzero.
Proof.
  intros Z0 Z1 i j Hi Hj. rewrite (comm_mul d _ _ t i j Hi Hj). unfold madd.
  rewrite (mmul_proper d z0 z0 ltac:(reflexivity) _ _ Z1 i j Hi Hj), (mmul_proper d _ _ Z0 z1 z1 ltac:(reflexivity) i j Hi Hj).
  rewrite mmul_zero_l, mmul_zero_r. unfold mzero. ring.
Qed.

Section Sites.
  Variable n : nat.
  Let d := (2 ^ n)%nat.
  Let P k0 k1 o := mmul d (spin_at n k0 o) (spin_at n k1 o).

  Lemma site_up k o1 o2 o3 : (k < n)%nat -> eqm d (comm d (spin_at n k o1) (spin_at n k o2)) (mscale gi (spin_at n k o3)) ->
    eqm d (comm d (spin_at n k o1) (total_spin n o2)) (mscale gi (spin_at n k o3)) /\
    eqm d (comm d (spin_at n k o2) (total_spin n o1)) (mscale (- gi) (spin_at n k o3)).
  Proof.
    intros Hk H. split; (etransitivity; [apply spin_total_comm; exact Hk|]); [exact H|].
    intros r c Hr Hc. rewrite comm_flip. fold d. rewrite (H r c Hr Hc). unfold mscale. ring.
  Qed.
  Lemma site_same k o : (k < n)%nat -> eqm d (comm d (spin_at n k o) (total_spin n o)) mzero.
  Proof. intros Hk. etransitivity; [apply spin_total_comm; exact Hk|]. intros r c _ _. apply comm_self. Qed.
  Lemma pair_axis k0 k1 o : (k0 < n)%nat -> (k1 < n)%nat -> eqm d (comm d (P k0 k1 o) (total_spin n o)) mzero.
  Proof. intros H0 H1. apply axis_comm; now apply site_same. Qed.
  (** The in-plane part for each axis. *)
  Lemma pair_plane k0 k1 o1 o2 o3 : (k0 < n)%nat -> (k1 < n)%nat ->
    (o1, o2, o3) = (SX, SY, SZ) \/ (o1, o2, o3) = (SY, SZ, SX) \/ (o1, o2, o3) = (SZ, SX, SY) ->
    eqm d (comm d (madd (P k0 k1 o1) (P k0 k1 o2)) (total_spin n o3)) mzero.
  Proof.
    intros H0 H1 Ho. destruct (spin_algebra n k0 H0) as (A0 & B0 & C0). destruct (spin_algebra n k1 H1) as (A1 & B1 & C1).
    fold d in A0, B0, C0, A1, B1, C1.
    destruct Ho as [E|[E|E]]; injection E as -> -> ->; apply plane_comm.
    all: match goal with
         | |- eqm d (comm d (spin_at n ?k ?o1) (total_spin n ?o2)) (mscale (- gi) (spin_at n ?k ?o3)) =>
             refine (proj2 (site_up k o2 o1 o3 _ _)); assumption
         | |- eqm d (comm d (spin_at n ?k ?o1) (total_spin n ?o2)) (mscale gi (spin_at n ?k ?o3)) =>
             refine (proj1 (site_up k o1 o2 o3 _ _)); assumption
         end.
  Qed.
  Definition dot k0 k1 : mat := madd (P k0 k1 SX) (madd (P k0 k1 SY) (P k0 k1 SZ)).
  Lemma dot_comm k0 k1 o : (k0 < n)%nat -> (k1 < n)%nat -> o = SX \/ o = SY \/ o = SZ ->
    eqm d (comm d (dot k0 k1) (total_spin n o)) mzero.
  Proof.
    intros H0 H1 Ho i j Hi Hj. unfold dot. rewrite !comm_add_l.
    assert (Pl : forall o1 o2 o3, (o1, o2, o3) = (SX, SY, SZ) \/ (o1, o2, o3) = (SY, SZ, SX) \/ (o1, o2, o3) = (SZ, SX, SY) ->
       comm d (P k0 k1 o1) (total_spin n o3) i j + comm d (P k0 k1 o2) (total_spin n o3) i j = 0).
    { intros o1 o2 o3 H. rewrite <- comm_add_l. exact (pair_plane k0 k1 o1 o2 o3 H0 H1 H i j Hi Hj). }
    assert (Ax : forall o1, comm d (P k0 k1 o1) (total_spin n o1) i j = 0).
    { intros o1. exact (pair_axis k0 k1 o1 H0 H1 i j Hi Hj). }
    unfold mzero. destruct Ho as [->|[->| ->]].
    - rewrite Ax, (Pl SY SZ SX) by auto. ring.
    - rewrite Ax. etransitivity; [|apply (Pl SZ SX SY); auto]. ring.
    - rewrite Ax. etransitivity; [|apply (Pl SX SY SZ); auto]. ring.
  Qed.
End Sites.

(** ** Sums of terms *)
Lemma mapM_forall2 {A B} (f : A -> res B) l : (forall x, In x l -> exists y, f x = Ok y) ->
  exists ys, mapM f l = Ok ys /\ Forall2 (fun x y => f x = Ok y) l ys.
Proof.
  induction l as [|x l IH]; intros H; [exists []; split; [reflexivity|constructor]|].
  destruct (H x (or_introl eq_refl)) as (y & Ey). destruct IH as (ys & E & F); [intros z Hz; apply H; now right|].
  exists (y :: ys). cbn [mapM]. rewrite Ey, E. split; [reflexivity|]. now constructor.
Qed.
Lemma mapM_app_ok {A B} (f : A -> res B) l : forall l' ys ys', mapM f l = Ok ys -> mapM f l' = Ok ys' -> mapM f (l ++ l') = Ok (ys ++ ys').
Proof.
  induction l as [|x l IH]; intros l' ys ys' H H'; cbn [mapM app] in *; [injection H as <-; exact H'|].
  destruct (f x) as [y|]; [|discriminate]. cbn [bind] in *. destruct (mapM f l) as [zs|] eqn:E; [|discriminate].
  cbn [bind] in *. injection H as <-. now rewrite (IH l' zs ys' eq_refl H').
Qed.
(** If each bond's terms are built, represented, and their sum commutes with
    [T], so does the sum over all bonds. *)
Lemma sum_commutes {B} (f : B -> res (list sinter)) tbl bonds (Q : mat -> Prop) d :
  (forall a b, Q a -> Q b -> Q (fun r c => a r c + b r c)) -> Q (fun _ _ => 0) ->
  (forall a b, eqm d a b -> Q b -> Q a) ->
  (forall b, In b bonds -> exists ts H, f b = Ok ts /\ sum_reprs tbl ts = Ok H /\ Q H) ->
  exists ts H, all_terms f bonds = Ok ts /\ sum_reprs tbl ts = Ok H /\ Q H.
Proof.
  intros QA Q0 QE. induction bonds as [|b bonds IH]; intros HB.
  - exists [], (fun _ _ => 0). split; [reflexivity|]. split; [reflexivity|exact Q0].
  - destruct IH as (ts & H & E & S & HQ); [intros x Hx; apply HB; now right|].
    destruct (HB b (or_introl eq_refl)) as (tb & Hb & Eb & Sb & Qb).
    unfold all_terms in *. cbn [mapM]. rewrite Eb. cbn [bind]. destruct (mapM f bonds) as [l|] eqn:El; [|discriminate].
    injection E as <-. cbn [bind concat].
    unfold sum_reprs in S, Sb.
    destruct (mapM (fun t => fst (inter_matrix_repr tbl t None)) tb) as [mb|] eqn:Mb; [|discriminate]. injection Sb as <-.
    destruct (mapM (fun t => fst (inter_matrix_repr tbl t None)) (concat l)) as [ml|] eqn:Ml; [|discriminate]. injection S as <-.
    exists (tb ++ concat l), (fun r c => lsum (fun m => s_ent m r c) (mb ++ ml)). split; [reflexivity|]. split.
    + unfold sum_reprs. now rewrite (mapM_app_ok _ _ _ _ _ Mb Ml).
    + eapply QE; [|exact (QA _ _ Qb HQ)]. intros r c _ _. apply lsum_app.
Qed.

Definition commutes (d : nat) (t a : mat) : Prop := eqm d (comm d a t) mzero.
Lemma commutes_add d t a b : commutes d t a -> commutes d t b -> commutes d t (fun r c => a r c + b r c).
Proof.
  intros Ha Hb i j Hi Hj. change (fun r c => a r c + b r c) with (madd a b).
  rewrite comm_add_l, (Ha i j Hi Hj), (Hb i j Hi Hj). unfold mzero. ring.
Qed.
Lemma commutes_zero d t : commutes d t (fun _ _ => 0).
Proof. intros i j _ _. apply comm_zero. Qed.
Lemma commutes_ext d t a b : eqm d a b -> commutes d t b -> commutes d t a.
Proof. intros E H. unfold commutes. rewrite E. exact H. Qed.

Lemma ghalf2 : ghalf + ghalf = 1.
Proof. apply gq_eq; apply Qcanon.Qc_is_canon; reflexivity. Qed.

(** ** The diagonal total Sz *)
Lemma on_site_offdiag n k o r c : (r < 2 ^ n)%nat -> (c < 2 ^ n)%nat -> r <> c ->
  (forall a b, a <> b -> half_elem o a b = 0) -> spin_at n k o r c = 0.
Proof.
  intros Hr Hc Hne Ho. unfold spin_at, on_site. destruct (forallb _ _) eqn:E; [|reflexivity].
  apply Ho. intros Hk. apply Hne. apply (eq_bits r c n Hr Hc). intros p Hp.
  assert (Ip : In p (seq 0 n)) by (apply in_seq; lia). rewrite forallb_forall in E. specialize (E p Ip).
  apply orb_prop in E as [E|E]; [apply Nat.eqb_eq in E; now subst p|now apply eqb_prop in E].
Qed.
Lemma sz_diag n k r : spin_at n k SZ r r = if Nat.testbit r k then - ghalf else ghalf.
Proof.
  unfold spin_at, on_site. replace (forallb _ _) with true.
  - now destruct (Nat.testbit r k).
  - symmetry. apply forallb_forall. intros p _. now rewrite Bool.eqb_reflx, orb_true_r.
Qed.
Lemma gz_add a b : gz (a + b) = gz a + gz b.
Proof.
  apply gq_eq.
  - cbn [re gz gadd]. unfold Qcanon.Qcplus. apply Qcanon.Q2Qc_eq_iff. cbn [Qcanon.this Qcanon.Q2Qc].
    rewrite !Qreduction.Qred_correct, QArith_base.inject_Z_plus. reflexivity.
  - apply Qcanon.Qc_is_canon. reflexivity.
Qed.
Lemma total_sz_diag n r : total_spin n SZ r r + total_spin n SZ r r = gz (Z.of_nat n - 2 * Z.of_nat (downs n r)).
Proof.
  unfold total_spin, bigsum, downs. generalize (seq_length n 0). generalize (seq 0 n). intros l. revert n.
  induction l as [|k l IH]; intros n Hl; cbn [List.length] in Hl.
  - subst n. cbn. apply gq_eq; apply Qcanon.Qc_is_canon; reflexivity.
  - destruct n as [|n]; [discriminate|]. injection Hl as Hl. specialize (IH n Hl).
    assert (X : lsum (fun i => spin_at (Datatypes.S n) i SZ r r) l = lsum (fun i => spin_at n i SZ r r) l).
    { apply lsum_ext. intros i _. now rewrite !sz_diag. }
    cbn [lsum filter]. rewrite X, sz_diag. destruct (Nat.testbit r k); cbn [List.length].
    + replace (Z.of_nat (Datatypes.S n) - 2 * Z.of_nat (Datatypes.S (List.length (filter (fun k0 => Nat.testbit r k0) l))))%Z
        with ((-1) + (Z.of_nat n - 2 * Z.of_nat (List.length (filter (fun k0 => Nat.testbit r k0) l))))%Z by lia.
      rewrite gz_add, <- IH. replace (gz (-1)) with (- (ghalf + ghalf)); [ring|].
      apply gq_eq; apply Qcanon.Qc_is_canon; reflexivity.
    + replace (Z.of_nat (Datatypes.S n) - 2 * Z.of_nat (List.length (filter (fun k0 => Nat.testbit r k0) l)))%Z
        with (1 + (Z.of_nat n - 2 * Z.of_nat (List.length (filter (fun k0 => Nat.testbit r k0) l))))%Z by lia.
      rewrite gz_add, <- IH. replace (gz 1) with (ghalf + ghalf); [ring|].
      apply gq_eq; apply Qcanon.Qc_is_canon; reflexivity.
Qed.
Lemma gz_inj a b : gz a = gz b -> a = b.
Proof.
  intros H. apply (f_equal re) in H. cbn [re gz] in H. apply Qcanon.Q2Qc_eq_iff in H.
  now apply QArith_base.inject_Z_injective.
Qed.
Lemma Qc_sq_sum (a b : Qcanon.Qc) : Qcanon.Qcplus (Qcanon.Qcmult a a) (Qcanon.Qcmult b b) = Qcanon.Q2Qc (QArith_base.inject_Z 0) ->
  a = Qcanon.Q2Qc (QArith_base.inject_Z 0) /\ b = Qcanon.Q2Qc (QArith_base.inject_Z 0).
Proof.
  intros H.
  assert (E : QArith_base.Qeq (QArith_base.Qplus (QArith_base.Qmult (Qcanon.this a) (Qcanon.this a)) (QArith_base.Qmult (Qcanon.this b) (Qcanon.this b))) (QArith_base.inject_Z 0)).
  { unfold Qcanon.Qcplus in H. apply Qcanon.Q2Qc_eq_iff in H. rewrite <- H. unfold Qcanon.Qcmult. cbn [Qcanon.this Qcanon.Q2Qc].
    now rewrite !Qreduction.Qred_correct. }
  assert (F : forall q : QArith_base.Q, QArith_base.Qeq q (QArith_base.inject_Z 0) -> QArith_base.Qeq q (Qcanon.this (Qcanon.Q2Qc (QArith_base.inject_Z 0)))).
  { intros q Hq. rewrite Hq. reflexivity. }
  unfold QArith_base.inject_Z in *. split; apply Qcanon.Qc_is_canon, F; nra.
Qed.
Lemma gmul_integral a b : a * b = 0 -> a = 0 \/ b = 0.
Proof.
  intros H. assert (N : gmul (gconj a) (gmul a b) = 0) by (rewrite H; ring).
  destruct a as [x y], b as [u v].
  set (q := Qcanon.Qcplus (Qcanon.Qcmult x x) (Qcanon.Qcmult y y)).
  destruct (Qcanon.Qc_eq_dec q (Qcanon.Q2Qc (QArith_base.inject_Z 0))) as [E|E].
  - left. apply Qc_sq_sum in E as [-> ->]. reflexivity.
  - right. assert (A : Qcanon.Qcmult q u = Qcanon.Q2Qc (QArith_base.inject_Z 0)).
    { apply (f_equal re) in N. cbn in N. unfold q. etransitivity; [|exact N]. ring. }
    assert (B : Qcanon.Qcmult q v = Qcanon.Q2Qc (QArith_base.inject_Z 0)).
    { apply (f_equal im) in N. cbn in N. unfold q. etransitivity; [|exact N]. ring. }
    apply Qcanon.Qcmult_integral in A as [A|A]; [contradiction|]. apply Qcanon.Qcmult_integral in B as [B|B]; [contradiction|].
    now rewrite A, B.
Qed.
Lemma commutes_sz_sector n h r c : commutes (2 ^ n) (total_spin n SZ) h -> (r < 2 ^ n)%nat -> (c < 2 ^ n)%nat ->
  h r c <> 0 -> downs n r = downs n c.
Proof.
  intros H Hr Hc Hne. specialize (H r c Hr Hc). unfold comm, msub, mmul, mzero in H.
  rewrite (bigsum_single _ _ c Hc), (bigsum_single _ _ r Hr) in H.
  - assert (E : total_spin n SZ c c = total_spin n SZ r r).
    { assert (X : h r c * (total_spin n SZ c c - total_spin n SZ r r) = 0) by (rewrite <- H; ring).
      apply gmul_integral in X as [X|X]; [contradiction|].
      replace (total_spin n SZ c c) with (total_spin n SZ r r + (total_spin n SZ c c - total_spin n SZ r r)) by ring.
      rewrite X. ring. }
    pose proof (total_sz_diag n r) as D. pose proof (total_sz_diag n c) as D'. rewrite E, D in D'. apply gz_inj in D'. lia.
  - intros i Hi Hn. unfold total_spin. rewrite bigsum_zero; [ring|]. intros k _. apply on_site_offdiag; auto. intros [] []; cbn; congruence.
  - intros i Hi Hn. unfold total_spin. rewrite bigsum_zero; [ring|]. intros k _. apply on_site_offdiag; auto. intros [] []; cbn; congruence.
Qed.
