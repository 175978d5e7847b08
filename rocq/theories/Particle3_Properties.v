(** C06, C12: NumberOperator.derive and the factories Creator and Annihilator. *)
From Coq Require Import List ZArith Bool.
From Verif Require Import Py GQ State_Model State_Spec MatrixRepr_Model Fock_Spec Particle_Model Particle_Spec Particle_Proofs Particle_Properties.
Import ListNotations.

(** NumberOperator.derive replaces the given attributes and keeps the others. *)
Theorem C06_derive_number : forall zoom x site spin orbit y,
  numop_derive zoom x site spin orbit = Ok y ->
  s_coord (st_site (n_state y)) = get site (s_coord (st_site (n_state x))) /\
  NInt (st_spin (n_state y)) = get spin (NInt (st_spin (n_state x))) /\
  NInt (st_orbit (n_state y)) = get orbit (NInt (st_orbit (n_state x))).
Proof.
  intros zoom x site spin orbit y H. unfold numop_derive, make_numop in H. destruct (make_state _ _ _ _) as [s|] eqn:E; [|discriminate].
  injection H as <-. cbn [n_state]. apply make_state_inv in E as (H1 & H2 & H3 & _). auto.
Qed.
Print Assumptions C06_derive_number.
(** Creator(site, spin, orbit) creates, Annihilator annihilates, both at that state; the
    dagger of one is the other. *)
Theorem C12_ladder_factories : forall zoom site spin orbit,
  (forall y, Creator zoom site spin orbit = Ok y -> a_otype y = CREATION /\
     s_coord (st_site (a_state y)) = site /\ NInt (st_spin (a_state y)) = spin /\ NInt (st_orbit (a_state y)) = orbit /\
     aoc_dagger zoom y = Annihilator zoom site spin orbit) /\
  (forall y, Annihilator zoom site spin orbit = Ok y -> a_otype y = ANNIHILATION /\
     s_coord (st_site (a_state y)) = site /\ NInt (st_spin (a_state y)) = spin /\ NInt (st_orbit (a_state y)) = orbit /\
     aoc_dagger zoom y = Creator zoom site spin orbit) /\
  (forall e, Creator zoom site spin orbit = Err e <-> Annihilator zoom site spin orbit = Err e).
Proof.
  intros zoom site spin orbit. unfold Creator, Annihilator.
  assert (D : forall ot y, make_aoc zoom ot site spin orbit = Ok y -> int_of_otype (a_otype y) = ot /\
     s_coord (st_site (a_state y)) = site /\ NInt (st_spin (a_state y)) = spin /\ NInt (st_orbit (a_state y)) = orbit).
  { intros ot y H. apply make_aoc_inv in H as [E H]. apply make_state_inv in H as (H1 & H2 & H3 & _). auto. }
  split; [|split].
  - intros y H. destruct (D _ _ H) as (A & B & C & E). assert (A' : a_otype y = CREATION) by (destruct (a_otype y); first [reflexivity|discriminate A]).
    repeat split; auto. unfold aoc_dagger, derive. cbn [get]. rewrite A', B, C, E. reflexivity.
  - intros y H. destruct (D _ _ H) as (A & B & C & E). assert (A' : a_otype y = ANNIHILATION) by (destruct (a_otype y); first [reflexivity|discriminate A]).
    repeat split; auto. unfold aoc_dagger, derive. cbn [get]. rewrite A', B, C, E. reflexivity.
  - intros e. unfold make_aoc. destruct (make_state zoom site spin orbit) as [s|e']; cbn; split; intros H; try discriminate; exact H.
Qed.
Print Assumptions C12_ladder_factories.
Example C12_ladder_case : exists y, Creator 10000 [NInt 1; NInt 2] (NInt 1) (NInt 3) = Ok y /\ a_otype y = CREATION.
Proof. eexists. split; [vm_compute; reflexivity|reflexivity]. Qed.
