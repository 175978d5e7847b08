(** Proofs for C57: modes, the ring, and that the calls of such a program return. *)
From Coq Require Import Reals Qreals QArith Qcanon String List ZArith NArith Bool Arith Lia Lra Ring.
From Coquelicot Require Import Complex.
From Verif Require Import Py GQ Mat CVec State_Model State_Spec MatrixRepr_Model Fock_Spec Fock_Proofs MatrixRepr_Proofs MatrixRepr_Proofs2
  Particle_Model Particle_Spec Particle_Proofs Particle_Proofs2 Particle_Properties Conserve_Spec
  GF_Model GF_Spec Free_Spec Free_Proofs Free_Proofs2 Free_Proofs3.
Import ListNotations.
Local Open Scope nat_scope.
Local Open Scope C_scope.

(** ** Resolvents *)
Lemma delta_mul_l d i (f : nat -> C) : (i < d)%nat -> csum d (fun k => delta i k * f k) = f i.
Proof.
  intros Hi. rewrite (csum_single d _ i Hi); [unfold delta; rewrite Nat.eqb_refl; unfold c1; ring|].
  intros k _ Hk. unfold delta. destruct (Nat.eqb_spec i k); [congruence|]. unfold c0. ring.
Qed.
Lemma delta_mul_r d j (f : nat -> C) : (j < d)%nat -> csum d (fun k => f k * delta k j) = f j.
Proof.
  intros Hj. rewrite (csum_single d _ j Hj); [unfold delta; rewrite Nat.eqb_refl; unfold c1; ring|].
  intros k _ Hk. unfold delta. destruct (Nat.eqb_spec k j); [congruence|]. unfold c0. ring.
Qed.
Lemma resolvent_unique d t z G G' : resolvent d t z G -> resolvent d t z G' ->
  forall i j, (i < d)%nat -> (j < d)%nat -> G i j = G' i j.
Proof.
  intros R R' i j Hi Hj.
  rewrite <- (delta_mul_r d j (fun k => G i k) Hj).
  rewrite (csum_ext d _ (fun k => csum d (fun l => G i k * ((z * delta k l - t k l) * G' l j)))).
  2:{ intros k Hk. rewrite csum_mul_l. now rewrite (proj1 (R' k j Hk Hj)). }
  rewrite csum_swap. rewrite (csum_ext d _ (fun l => delta i l * G' l j)).
  - exact (delta_mul_l d i (fun l => G' l j) Hi).
  - intros l Hl. rewrite <- (proj2 (R i l Hi Hl)), <- csum_mul_r. apply csum_ext. intros. ring.
Qed.
Lemma resolvent_mode d t z G (v : vec) (e : C) : resolvent d t z G -> z <> e ->
  (forall i, (i < d)%nat -> csum d (fun j => t i j * v j) = e * v i) ->
  forall i, (i < d)%nat -> csum d (fun j => G i j * v j) = v i / (z - e).
Proof.
  intros R Hz Hv i Hi.
  assert (Nz : z - e <> c0) by (intros E; apply Hz; transitivity (z - e + e); [ring|rewrite E; unfold c0; ring]).
  assert (E : (z - e) * csum d (fun j => G i j * v j) = v i).
  { rewrite <- (delta_mul_l d i v Hi). rewrite (csum_ext d (fun k => delta i k * v k) (fun k => csum d (fun l => G i l * (z * delta l k - t l k) * v k))).
    2:{ intros k Hk. rewrite csum_mul_r. now rewrite (proj2 (R i k Hi Hk)). }
    rewrite csum_swap, <- csum_mul_l. apply csum_ext. intros l Hl.
    transitivity (G i l * (z * csum d (fun k => delta l k * v k) - csum d (fun k => t l k * v k))).
    - rewrite (Hv l Hl), (delta_mul_l d l v Hl). ring.
    - rewrite <- csum_mul_l, <- csum_sub, <- csum_mul_l. apply csum_ext. intros. ring. }
  rewrite <- E. field. exact Nz.
Qed.

(** ** The ring *)
Lemma next_inj N i j : (i < N)%nat -> (j < N)%nat -> next N i = next N j -> i = j.
Proof.
  unfold next. intros Hi Hj E.
  destruct (Nat.eq_dec (S i) N) as [E1|E1], (Nat.eq_dec (S j) N) as [E2|E2]; try lia.
  - rewrite E1, Nat.mod_same, Nat.mod_small in E by lia. lia.
  - rewrite E2, Nat.mod_same, Nat.mod_small in E by lia. lia.
  - rewrite !Nat.mod_small in E by lia. lia.
Qed.
Lemma next_surj N i : (i < N)%nat -> exists j, (j < N)%nat /\ next N j = i.
Proof.
  unfold next. intros Hi. destruct i as [|i].
  - exists (N - 1)%nat. split; [lia|]. replace (S (N - 1)) with N by lia. apply Nat.mod_same. lia.
  - exists i. split; [lia|]. apply Nat.mod_small. lia.
Qed.
Lemma next_lt N i : (i < N)%nat -> (next N i < N)%nat.
Proof. intros H. apply Nat.mod_upper_bound. lia. Qed.
Lemma phase_S k j : phase k (S j) = phase k 1 * phase k j.
Proof.
  unfold phase. rewrite S_INR. replace (k * (INR j + 1))%R with (k * INR 1 + k * INR j)%R by (cbn; ring).
  rewrite cos_plus, sin_plus. apply C_eq; cbn; ring.
Qed.
Lemma phase_unit k j : Cj (phase k j) * phase k j = c1.
Proof. unfold phase, Cj, c1. apply C_eq; cbn [fst snd Cmult RtoC]; [|ring]. pose proof (sin2_cos2 (k * INR j)) as H. unfold Rsqr in H. lra. Qed.
Lemma phase_next N m j : (j < N)%nat -> phase (bloch N m) (next N j) = phase (bloch N m) 1 * phase (bloch N m) j.
Proof.
  intros Hj. rewrite <- phase_S. unfold next. destruct (Nat.eq_dec (S j) N) as [->|]; [|now rewrite Nat.mod_small by lia].
  rewrite Nat.mod_same by lia. assert (HN : (INR N <> 0)%R) by (apply not_0_INR; lia).
  unfold phase. replace (bloch N m * INR 0)%R with 0%R by (cbn; ring).
  replace (bloch N m * INR N)%R with (0 + 2 * INR m * PI)%R by (unfold bloch; field; exact HN).
  now rewrite cos_period, sin_period.
Qed.
Lemma ring_mode N m (a : C) i : (i < N)%nat ->
  csum N (fun j => ((if Nat.eqb j (next N i) then a else c0) + (if Nat.eqb i (next N j) then Cj a else c0)) * phase (bloch N m) j) =
  RtoC (2 * (fst a * cos (bloch N m) - snd a * sin (bloch N m)))%R * phase (bloch N m) i.
Proof.
  intros Hi. rewrite (csum_ext N _ (fun j => (if Nat.eqb j (next N i) then a else c0) * phase (bloch N m) j + (if Nat.eqb i (next N j) then Cj a else c0) * phase (bloch N m) j)) by (intros; ring).
  rewrite csum_add, (csum_single N (fun j => (if Nat.eqb j (next N i) then a else c0) * _) (next N i) (next_lt N i Hi)).
  2:{ intros j _ Hj. destruct (Nat.eqb_spec j (next N i)); [contradiction|]. unfold c0. ring. }
  destruct (next_surj N i Hi) as (j & Hj & Ej).
  rewrite (csum_single N (fun j => (if Nat.eqb i (next N j) then Cj a else c0) * _) j Hj).
  2:{ intros l Hl Hne. destruct (Nat.eqb_spec i (next N l)) as [E|]; [|unfold c0; ring]. exfalso. apply Hne. apply (next_inj N); congruence. }
  rewrite !Nat.eqb_refl, Ej, Nat.eqb_refl. rewrite phase_next by exact Hi.
  assert (P : phase (bloch N m) i = phase (bloch N m) 1 * phase (bloch N m) j) by (rewrite <- Ej; now apply phase_next).
  set (u := phase (bloch N m) 1) in *. set (w := phase (bloch N m) j) in *. rewrite P.
  assert (U : Cj u * u = c1) by apply phase_unit.
  transitivity (a * u * (u * w) + Cj a * (Cj u * u) * w); [rewrite U; unfold c1; ring|].
  transitivity ((a * u + Cj (a * u)) * (u * w)); [rewrite Cj_mul; ring|]. f_equal.
  unfold u, phase. change (INR 1) with 1%R. rewrite Rmult_1_r. destruct a as [x y]. apply C_eq; unfold Cj, Cmult, Cplus, RtoC; cbn [fst snd]; ring.
Qed.
Lemma one_body_hopping zoom site0 site1 spin0 spin1 orbit0 orbit1 coeff t :
  HoppingFactory zoom site0 site1 spin0 spin1 orbit0 orbit1 coeff = Ok t -> one_body zoom t.
Proof.
  intros H. destruct (C12_HoppingFactory zoom site0 site1 spin0 spin1 orbit0 orbit1 coeff t) as [I C]. split; [now apply C|].
  apply I in H as (c & s0 & s1 & _ & E0 & E1 & ->). cbn [t_aocs]. split; [|exists s0, s1; reflexivity].
  apply Forall_cons; [|apply Forall_cons; [|constructor]].
  - exists 1%Z, site0, spin0, orbit0. unfold make_aoc. cbn [otype_of_int Z.eqb Pos.eqb]. now rewrite E0.
  - exists 0%Z, site1, (get spin1 spin0), (get orbit1 orbit0). unfold make_aoc. cbn [otype_of_int Z.eqb Pos.eqb]. now rewrite E1.
Qed.
Lemma one_body_cp zoom site spin orbit coeff t : CPFactory zoom site spin orbit coeff = Ok t -> one_body zoom t.
Proof.
  intros H. destruct (C12_CPFactory zoom site spin orbit coeff t) as [I C]. split; [now apply C|].
  apply I in H as (c & s & _ & E & ->). cbn [t_aocs]. split; [|exists s, s; reflexivity].
  apply Forall_cons; [|apply Forall_cons; [|constructor]].
  - exists 1%Z, site, spin, orbit. unfold make_aoc. cbn [otype_of_int Z.eqb Pos.eqb]. now rewrite E.
  - exists 0%Z, site, spin, orbit. unfold make_aoc. cbn [otype_of_int Z.eqb Pos.eqb]. now rewrite E.
Qed.
Lemma lsum_mapM {A B} (f : A -> res B) (h : B -> GQ) (h' : A -> GQ) l : forall ys, mapM f l = Ok ys ->
  (forall x y, In x l -> f x = Ok y -> h y = h' x) -> lsum h ys = lsum h' l.
Proof.
  induction l as [|x l IH]; intros ys H E; cbn [mapM] in H; [injection H as <-; reflexivity|].
  destruct (f x) as [y|] eqn:Ex; [|discriminate]. cbn [bind] in H. destruct (mapM f l) as [zs|]; [|discriminate]. cbn [bind] in H. injection H as <-.
  cbn [lsum]. rewrite (E x y (or_introl eq_refl) Ex), (IH zs eq_refl); [reflexivity|]. intros x' y' Hx. apply E. now right.
Qed.
Section Ring.
  Variables (zoom : Z) (N : nat) (site : nat -> list pynum) (spin orbit : pynum) (a : GQ) (ts : list pterm) (st : nat -> stateid).
  Hypothesis RT : ring_terms zoom N site spin orbit a = Ok ts.
  Hypothesis Est : forall k, (k < N)%nat -> make_state zoom (site k) spin orbit = Ok (st k).
  Hypothesis Dst : forall k l, (k < N)%nat -> (l < N)%nat -> same_st (st k) (st l) -> k = l.
  Lemma ring_term t : In t ts -> exists j, (j < N)%nat /\ t_coeff t = a /\ t_aocs t = [MkAoc CREATION (st j); MkAoc ANNIHILATION (st (next N j))].
  Proof.
    intros H. destruct (Conserve_Proofs2.mapM_in _ _ _ RT t H) as (j & Hj & E). apply in_seq in Hj. cbn [plus] in Hj.
    apply C12_HoppingFactory in E as (c & s0 & s1 & Ec & E0 & E1 & ->). injection Ec as <-. cbn [get] in E1.
    rewrite (Est j) in E0 by lia. rewrite (Est (next N j)) in E1 by (apply next_lt; lia). injection E0 as <-. injection E1 as <-.
    exists j. split; [lia|]. split; reflexivity.
  Qed.
  Lemma ring_one_body : Forall (one_body zoom) ts.
  Proof.
    apply Forall_forall. intros t H. destruct (Conserve_Proofs2.mapM_in _ _ _ RT t H) as (j & _ & E). exact (one_body_hopping _ _ _ _ _ _ _ _ _ E).
  Qed.
  Lemma st_eqb k l : (k < N)%nat -> (l < N)%nat -> state_eq (st k) (st l) = Nat.eqb k l.
  Proof.
    intros Hk Hl. apply Bool.eq_true_iff_eq. rewrite Nat.eqb_eq, state_eq_iff. split; [now apply Dst|]. intros ->. apply same_st_refl.
  Qed.
  Lemma ring_amplitude i j : (i < N)%nat -> (j < N)%nat -> amplitude ts (st i) (st j) = if Nat.eqb j (next N i) then a else g0.
  Proof.
    intros Hi Hj. unfold amplitude. unfold ring_terms in RT.
    rewrite (lsum_mapM _ _ (fun l => if (Nat.eqb l i && Nat.eqb (next N l) j)%bool then a else g0) _ _ RT).
    - rewrite (lsum_single _ (seq 0 N) i (seq_NoDup N 0)).
      + rewrite Nat.eqb_refl, (Nat.eqb_sym j). reflexivity.
      + apply in_seq. lia.
      + intros y _ Hy. destruct (Nat.eqb_spec y i); [contradiction|reflexivity].
    - intros l t Hl E. apply in_seq in Hl. cbn [plus] in Hl.
      apply C12_HoppingFactory in E as (c & s0 & s1 & Ec & E0 & E1 & ->). injection Ec as <-. cbn [get] in E1.
      rewrite (Est l) in E0 by lia. rewrite (Est (next N l)) in E1 by (apply next_lt; lia). injection E0 as <-. injection E1 as <-.
      cbn [t_aocs t_coeff a_state]. rewrite !st_eqb; auto; try lia. apply next_lt; lia.
  Qed.
  Lemma ring_hopping i j : (i < N)%nat -> (j < N)%nat ->
    hopping ts st i j = (if Nat.eqb j (next N i) then gc a else c0) + (if Nat.eqb i (next N j) then Cj (gc a) else c0).
  Proof.
    intros Hi Hj. unfold hopping. rewrite !ring_amplitude by assumption. f_equal.
    - destruct (Nat.eqb j (next N i)); [reflexivity|apply gc_0].
    - destruct (Nat.eqb i (next N j)); [reflexivity|rewrite gc_0; apply Cj_0].
  Qed.
  Lemma ring_closed tbl : (forall k, (k < N)%nat -> exists i, state_index tbl (st k) = Ok i) -> closed_states tbl ts N st.
  Proof.
    intros T. split; [exact T|]. split; [exact Dst|]. intros t x y Hin E. destruct (ring_term t Hin) as (j & Hj & _ & E'). rewrite E' in E. injection E as <- <-.
    cbn [a_state]. split; intros _; [exists (next N j)|exists j]; split; auto using next_lt, same_st_refl.
  Qed.
End Ring.
