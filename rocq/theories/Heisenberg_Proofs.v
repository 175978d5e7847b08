(** Proofs for C61, part 1: the Hamiltonian. *)
From Coq Require Import Reals String List ZArith Bool Arith Lia.
From Verif Require Import Py GQ Mat State_Model MatrixRepr_Model Particle_Model Spin_Model Spin_Spec Spin_Proofs Spin_Proofs2 Spin_Proofs3
  Lattice_Model CPT_Model Heisenberg_Model Heisenberg_Spec.
Import ListNotations.
Local Open Scope nat_scope.
Local Open Scope gq_scope.

(** What one bond contributes before HM += HM.getH(). *)
Definition half_term (n : nat) (h : GQ) (p : nat * nat) : mat :=
  madd (mscale h (mmul (2 ^ n) (spin_at n (fst p) SZ) (spin_at n (snd p) SZ)))
       (mscale h (mmul (2 ^ n) (spin_at n (fst p) SP) (spin_at n (snd p) SM))).
Definition acc_is (n : nat) (HM : option smat) (e : mat) : Prop :=
  match HM with None => forall r c, e r c = 0 | Some m => represents n m e end.

Lemma add_to_ok n HM e m e' : acc_is n HM e -> represents n m e' -> exists m', add_to HM m = Ok (Some m') /\ represents n m' (madd e e').
Proof.
  intros A (R1 & R2 & R). destruct HM as [a|]; cbn in A |- *.
  - destruct A as (A1 & A2 & A). unfold plus. rewrite A1, A2, R1, R2, !Nat.eqb_refl. cbn [andb bind]. eexists. split; [reflexivity|].
    split; [reflexivity|]. split; [reflexivity|]. intros r c Hr Hc. cbn [s_ent]. rewrite (A r c Hr Hc), (R r c Hr Hc). reflexivity.
  - exists m. split; [reflexivity|]. split; [exact R1|]. split; [exact R2|]. intros r c Hr Hc. rewrite (R r c Hr Hc). unfold madd. rewrite A. ring.
Qed.
Lemma pair_fun n i j o o' h : (0 < n)%nat -> (i < n)%nat -> (j < n)%nat ->
  exists m, inter_matrix_function [(Z.of_nat i, otype_name o); (Z.of_nat j, otype_name o')] (NInt (Z.of_nat n)) (CNum h) = Ok m /\
    represents n m (mscale h (mmul (2 ^ n) (spin_at n i o) (spin_at n j o'))).
Proof.
  intros Hn Hi Hj. destruct (inter_fun_ok n [(i, o); (j, o')] h Hn) as (m & E & R1 & R2 & R); [repeat constructor; assumption|].
  exists m. split; [exact E|]. split; [exact R1|]. split; [exact R2|]. intros r c Hr Hc. rewrite (R r c Hr Hc). unfold mscale. f_equal.
  change (mmul (2 ^ n) (spin_at n i o) (mmul (2 ^ n) (spin_at n j o') mid) r c = mmul (2 ^ n) (spin_at n i o) (spin_at n j o') r c).
  apply (mmul_proper (2 ^ n) _ _ (fun _ _ _ _ => eq_refl) _ _ (mmul_1r (2 ^ n) (spin_at n j o')) r c Hr Hc).
Qed.
Lemma bond_step_ok n h HM e i j : (i < n)%nat -> (j < n)%nat -> acc_is n HM e ->
  exists m, bond_step (Z.of_nat n) h HM (Z.of_nat i) (Z.of_nat j) = Ok (Some m) /\ represents n m (madd e (half_term n h (i, j))).
Proof.
  intros Hi Hj A. assert (Hn : (0 < n)%nat) by lia.
  destruct (pair_fun n i j SZ SZ h Hn Hi Hj) as (m1 & E1 & R1). destruct (pair_fun n i j SP SM h Hn Hi Hj) as (m2 & E2 & R2). cbn [otype_name] in E1, E2.
  unfold bond_step. rewrite E1. cbn [bind]. destruct (add_to_ok n HM e m1 _ A R1) as (a1 & -> & A1). cbn [bind]. rewrite E2. cbn [bind].
  destruct (add_to_ok n (Some a1) _ m2 _ A1 R2) as (a2 & E & (S1 & S2 & S3)). exists a2. split; [exact E|]. split; [exact S1|]. split; [exact S2|].
  intros r c Hr Hc. rewrite (S3 r c Hr Hc). unfold half_term, madd. cbn [fst snd]. ring.
Qed.

Section Loop.
  Variables (cluster : lattice) (nearest : list point -> point -> nat) (fuel prec n : nat).
  (** the indices that getIndex(fold=True) returns for the endpoints of a bond *)
  Definition indexed (b : point * point) (p : nat * nat) : Prop :=
    getIndex cluster nearest fuel prec (Site (space_dim cluster) (fst b)) true = Some (Ok (Z.of_nat (fst p))) /\
    getIndex cluster nearest fuel prec (Site (space_dim cluster) (snd b)) true = Some (Ok (Z.of_nat (snd p))).
  Lemma bond_loop_ok h bonds pairs : Forall2 indexed bonds pairs -> Forall (fun p => (fst p < n)%nat /\ (snd p < n)%nat) pairs ->
    forall HM e, acc_is n HM e -> exists HM', bond_loop cluster nearest fuel prec (Z.of_nat n) h HM bonds = Some (Ok HM') /\
      (bonds <> [] -> HM' <> None) /\
      acc_is n HM' (fun r c => e r c + lsum (fun p => half_term n h p r c) pairs).
  Proof.
    induction 1 as [|[p0 p1] [i j] bonds pairs [I0 I1] HF IH]; intros HP HM e A.
    - exists HM. split; [reflexivity|]. split; [intros X; contradiction|]. destruct HM as [m|]; cbn in A |- *.
      + destruct A as (A1 & A2 & A). split; [exact A1|]. split; [exact A2|]. intros r c Hr Hc. rewrite (A r c Hr Hc). ring.
      + intros r c. rewrite A. ring.
    - inversion HP as [|? ? [Hi Hj] HP']; subst. cbn [fst snd] in *. cbn [bond_loop]. rewrite I0. cbn [obind]. rewrite I1. cbn [obind].
      destruct (bond_step_ok n h HM e i j Hi Hj A) as (m & -> & R). cbn [owrap obind].
      destruct (IH HP' (Some m) _ R) as (HM' & E & N & A'). exists HM'. split; [exact E|]. split.
      + intros _. destruct bonds as [|b bs]; [|apply N; discriminate]. inversion HF; subst. cbn in E. injection E as <-. discriminate.
      + destruct HM' as [m'|]; cbn in A' |- *.
        * destruct A' as (A1 & A2 & A3). split; [exact A1|]. split; [exact A2|]. intros r c Hr Hc. rewrite (A3 r c Hr Hc). unfold madd. ring.
        * intros r c. rewrite <- (A' r c). unfold madd. ring.
  Qed.
End Loop.

(** HM + HM.getH() *)
Lemma half_term_dag n h p r c : (fst p < n)%nat -> (snd p < n)%nat -> fst p <> snd p -> gconj h = h -> (r < 2 ^ n)%nat -> (c < 2 ^ n)%nat ->
  half_term n h p r c + gconj (half_term n h p c r) = (h + h) * site_dot n (fst p) (snd p) r c.
Proof.
  intros Hi Hj N Hh Hr Hc. destruct p as [i j]. cbn [fst snd] in *. unfold half_term. cbn [fst snd].
  assert (D : forall o o', gconj (mmul (2 ^ n) (spin_at n i o) (spin_at n j o') c r) = mmul (2 ^ n) (spin_at n i (adj_otype o)) (spin_at n j (adj_otype o')) r c).
  { intros o o'. change (gconj (mmul (2 ^ n) (spin_at n i o) (spin_at n j o') c r)) with (mdag (mmul (2 ^ n) (spin_at n i o) (spin_at n j o')) r c).
    rewrite (mmul_dag (2 ^ n) _ _ r c Hr Hc).
    rewrite (mmul_proper (2 ^ n) _ (spin_at n j (adj_otype o')) (fun a b _ _ => spin_at_dag n j o' a b) _ (spin_at n i (adj_otype o)) (fun a b _ _ => spin_at_dag n i o a b) r c Hr Hc).
    apply (spin_at_comm_diff n j i); auto. }
  pose proof (heisenberg_identity n i j (h + h) r c Hr Hc) as HI. unfold site_dot. unfold madd, mscale in HI |- *.
  rewrite <- HI. rewrite gconj_add, !gconj_mul, !D, Hh. cbn [adj_otype].
  assert (E : (h + h) * ghalf = h). { replace ((h + h) * ghalf) with (h * (ghalf + ghalf)) by ring. rewrite ghalf_double. ring. }
  rewrite E. ring.
Qed.
Lemma half_term_self n h i r c : (i < n)%nat -> gconj h = h -> (r < 2 ^ n)%nat -> (c < 2 ^ n)%nat ->
  half_term n h (i, i) r c + gconj (half_term n h (i, i) c r) = (h + h) * (site_dot n i i r c + spin_at n i SZ r c).
Proof.
  intros Hi Hh Hr Hc. unfold half_term. cbn [fst snd].
  assert (D : forall o o', gconj (mmul (2 ^ n) (spin_at n i o) (spin_at n i o') c r) = mmul (2 ^ n) (spin_at n i (adj_otype o')) (spin_at n i (adj_otype o)) r c).
  { intros o o'. change (gconj (mmul (2 ^ n) (spin_at n i o) (spin_at n i o') c r)) with (mdag (mmul (2 ^ n) (spin_at n i o) (spin_at n i o')) r c).
    rewrite (mmul_dag (2 ^ n) _ _ r c Hr Hc).
    apply (mmul_proper (2 ^ n) _ (spin_at n i (adj_otype o')) (fun a b _ _ => spin_at_dag n i o' a b) _ (spin_at n i (adj_otype o)) (fun a b _ _ => spin_at_dag n i o a b) r c Hr Hc). }
  unfold madd, mscale. rewrite gconj_add, !gconj_mul, !D, Hh. cbn [adj_otype].
  assert (X : mmul (2 ^ n) (spin_at n i SZ) (spin_at n i SZ) r c + mmul (2 ^ n) (spin_at n i SP) (spin_at n i SM) r c = site_dot n i i r c + spin_at n i SZ r c).
  { unfold site_dot, madd, spin_at. rewrite !on_site_mul by auto. unfold on_site. destruct (forallb _ _); [|ring]. generalize (Nat.testbit r i), (Nat.testbit c i). bool_elems. }
  rewrite <- X. ring.
Qed.
Lemma lsum_conj {A} (f : A -> GQ) l : gconj (lsum f l) = lsum (fun x => gconj (f x)) l.
Proof. induction l as [|x l IH]; cbn [lsum]; [reflexivity|]. rewrite gconj_add, IH. reflexivity. Qed.

Lemma heisenberg_general cluster nearest fuel prec n J intra inter pairs :
  Forall2 (indexed cluster nearest fuel prec) (intra ++ inter) pairs -> pairs <> [] -> gconj J = J ->
  Forall (fun p => (fst p < n)%nat /\ (snd p < n)%nat) pairs ->
  exists m, heisenberg_matrix cluster nearest fuel prec (Z.of_nat n) J intra inter = Some (Ok m) /\ represents n m (madd (exchange n J pairs) (self_field n J pairs)).
Proof.
  intros HF NE HJ HP. unfold heisenberg_matrix.
  destruct (bond_loop_ok cluster nearest fuel prec n (J * ghalf) _ _ HF) with (HM := @None smat) (e := fun _ _ : nat => g0) as (HM' & E & N & A).
  - exact HP.
  - intros r c. reflexivity.
  - rewrite E. cbn [obind]. assert (NB : intra ++ inter <> []) by (intros X; rewrite X in HF; inversion HF; subst; contradiction). specialize (N NB).
    destruct HM' as [m|]; [|contradiction]. cbn in A. destruct A as (A1 & A2 & A). unfold plus, getH. cbn [s_rows s_cols s_ent]. rewrite A1, A2, Nat.eqb_refl. cbn [andb owrap].
    eexists. split; [reflexivity|]. split; [reflexivity|]. split; [reflexivity|]. cbn [s_ent]. intros r c Hr Hc. unfold mdag. rewrite (A r c Hr Hc), (A c r Hc Hr).
    unfold exchange, self_field, madd. change (0%gq) with g0. rewrite gconj_add. replace (gconj g0) with g0 by reflexivity. rewrite lsum_conj.
    rewrite <- !lsum_mul_l, <- lsum_add. transitivity (lsum (fun p => half_term n (J * ghalf) p r c + gconj (half_term n (J * ghalf) p c r)) pairs).
    + rewrite lsum_add. ring.
    + apply lsum_ext. intros [i j] Hp. rewrite Forall_forall in HP. destruct (HP _ Hp) as (H1 & H2). cbn [fst snd] in *.
      assert (HJ2 : gconj (J * ghalf) = J * ghalf) by (rewrite gconj_mul, HJ; f_equal).
      assert (JJ : J * ghalf + J * ghalf = J) by (replace (J * ghalf + J * ghalf) with (J * (ghalf + ghalf)) by ring; rewrite ghalf_double; ring).
      destruct (Nat.eqb_spec i j) as [->|N2].
      * rewrite half_term_self, JJ; auto. ring.
      * rewrite half_term_dag, JJ; auto. cbn [fst snd]. change (0%gq) with g0. ring.
Qed.
Lemma no_self n J pairs r c : Forall (fun p => fst p <> snd p) pairs -> self_field n J pairs r c = g0.
Proof. intros H. unfold self_field. rewrite lsum_zero; [ring|]. intros p Hp. rewrite Forall_forall in H. destruct (Nat.eqb_spec (fst p) (snd p)) as [E|]; [now apply H in E|reflexivity]. Qed.
Lemma heisenberg_no_bonds cluster nearest fuel prec z J : heisenberg_matrix cluster nearest fuel prec z J [] [] = Some (Err AttributeError).
Proof. reflexivity. Qed.

(** ** Rotations *)
Lemma comm_prod d a b t : eqm d (comm d (mmul d a b) t) (madd (mmul d a (comm d b t)) (mmul d (comm d a t) b)).
Proof.
  intros i j Hi Hj. unfold comm, madd. rewrite mmul_sub_r, mmul_sub_l. unfold msub.
  rewrite (mmul_A d a b t i j Hi Hj), (mmul_A d a t b i j Hi Hj), (mmul_A d t a b i j Hi Hj). ring.
Qed.
Lemma comm_total n i o1 o2 k o3 : (i < n)%nat -> eqm (2 ^ n) (comm (2 ^ n) (spin_at n i o1) (spin_at n i o2)) (mscale k (spin_at n i o3)) ->
  eqm (2 ^ n) (comm (2 ^ n) (spin_at n i o1) (total_spin n o2)) (mscale k (spin_at n i o3)).
Proof.
  intros Hi H r c Hr Hc. rewrite <- (H r c Hr Hc). unfold comm, msub, total_spin. rewrite mmul_bigsum_l, mmul_bigsum_r.
  unfold bigsum. rewrite <- lsum_sub. change (lsum ?f (seq 0 n)) with (bigsum n f). rewrite (bigsum_single n _ i Hi); [reflexivity|].
  intros j Hj Hn. rewrite (spin_at_comm_diff n i j o1 o2) by auto. change (fun r0 c0 : nat => spin_at n j o2 r0 c0) with (spin_at n j o2). ring.
Qed.
Lemma comm_add d a b t i j : comm d (madd a b) t i j = comm d a t i j + comm d b t i j.
Proof. unfold comm, msub. rewrite mmul_add_l, mmul_add_r. unfold madd. ring. Qed.
Lemma comm_ext d a a' b b' : eqm d a a' -> eqm d b b' -> eqm d (comm d a b) (comm d a' b').
Proof. intros Ha Hb r c Hr Hc. unfold comm, msub. now rewrite (mmul_proper d a a' Ha b b' Hb r c Hr Hc), (mmul_proper d b b' Hb a a' Ha r c Hr Hc). Qed.
Lemma rotation_generic d x1 y1 z1 x2 y2 z2 t :
  eqm d (comm d x1 t) (mscale (- gi) y1) -> eqm d (comm d y1 t) (mscale gi x1) -> eqm d (comm d z1 t) mzero ->
  eqm d (comm d x2 t) (mscale (- gi) y2) -> eqm d (comm d y2 t) (mscale gi x2) -> eqm d (comm d z2 t) mzero ->
  eqm d (comm d (madd (mmul d x1 x2) (madd (mmul d y1 y2) (mmul d z1 z2))) t) mzero.
Proof.
  intros X1 Y1 Z1 X2 Y2 Z2 r c Hr Hc. assert (RF : forall x, eqm d x x) by (intros x ? ? _ _; reflexivity). rewrite !comm_add. rewrite !(fun a b => comm_prod d a b t r c Hr Hc). unfold madd.
  rewrite (mmul_proper d _ _ (RF x1) _ _ X2 r c Hr Hc), (mmul_proper d _ _ X1 _ _ (RF x2) r c Hr Hc).
  rewrite (mmul_proper d _ _ (RF y1) _ _ Y2 r c Hr Hc), (mmul_proper d _ _ Y1 _ _ (RF y2) r c Hr Hc).
  rewrite (mmul_proper d _ _ (RF z1) _ _ Z2 r c Hr Hc), (mmul_proper d _ _ Z1 _ _ (RF z2) r c Hr Hc).
  rewrite !mmul_scale_l, !mmul_scale_r. unfold mscale.
  assert (M1 : forall a, mmul d a mzero r c = 0) by (intros a; unfold mmul; apply bigsum_zero; intros; unfold mzero; ring).
  assert (M2 : forall a, mmul d mzero a r c = 0) by (intros a; unfold mmul; apply bigsum_zero; intros; unfold mzero; ring).
  rewrite M1, M2. unfold mzero. ring.
Qed.
