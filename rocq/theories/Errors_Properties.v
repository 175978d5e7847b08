(** What the constructors raise, and that nothing else is refused. *)
From Coq Require Import String List ZArith Bool Lia.
From Verif Require Import Py Float64_Model State_Model MatrixRepr_Model Particle_Model Bond_Model Text3_Model.
From Verif Require Lattice_Model Line2D_Model.
Import ListNotations.
Local Open Scope Z_scope.

(** AoC(otype, site, spin, orbit): [otype] is 0 or 1, or AssertionError; the rest is
    checked as by StateID, whose exception passes through. *)
Theorem C07_constructor : forall zoom ot site spin orbit,
  (ot <> 0 -> ot <> 1 -> make_aoc zoom ot site spin orbit = Err AssertionError) /\
  forall o, ot = match o with CREATION => 1 | ANNIHILATION => 0 end ->
    (forall s, make_state zoom site spin orbit = Ok s -> make_aoc zoom ot site spin orbit = Ok (MkAoc o s)) /\
    (forall e, make_state zoom site spin orbit = Err e -> make_aoc zoom ot site spin orbit = Err e).
Proof.
  intros zoom ot site spin orbit. unfold make_aoc, otype_of_int. split.
  - intros H0 H1. destruct (Z.eqb_spec ot 0); [contradiction|]. destruct (Z.eqb_spec ot 1); [contradiction|]. reflexivity.
  - intros o E. destruct o; subst ot; cbn; split; intros ? ->; reflexivity.
Qed.
Print Assumptions C07_constructor.

(** ParticleTerm(aocs, coeff, classification=...) and the [coeff] setter: a coefficient
    that is no number and an unknown classification are AssertionErrors, everything
    else is kept as given. *)
Theorem C12_constructor : forall aocs coeff cls,
  ((coeff = CBad \/ cls = None) -> make_pterm aocs coeff cls = Err AssertionError) /\
  (forall c t, coeff = CNum c -> cls = Some t -> exists x, make_pterm aocs coeff cls = Ok x /\ t_aocs x = aocs /\ t_coeff x = c /\ t_class x = t) /\
  forall x, match coeff with
            | CBad => set_coeff x coeff = Err AssertionError
            | CNum c => exists y, set_coeff x coeff = Ok y /\ t_aocs y = t_aocs x /\ t_coeff y = c /\ t_class y = t_class x
            end.
Proof.
  intros aocs coeff cls. split; [|split].
  - intros [-> | ->]; [reflexivity|]. now destruct coeff.
  - intros c t -> ->. eexists. split; [reflexivity|]. now cbn.
  - intros x. destruct coeff as [c|]; [|reflexivity]. eexists. split; [reflexivity|]. now cbn.
Qed.
Print Assumptions C12_constructor.

(** quantumstate.set_float_point_precision(precision): a non-negative int, and coordinates
    are then compared in steps of 1/10^precision, or AssertionError. *)
Theorem C04_precision : forall p,
  match p with
  | NInt n => (0 <= n -> State_Model.set_float_point_precision p = Ok (10 ^ n)) /\
              (n < 0 -> State_Model.set_float_point_precision p = Err AssertionError)
  | _ => State_Model.set_float_point_precision p = Err AssertionError
  end.
Proof.
  intros [n| |]; [|reflexivity|reflexivity]. unfold State_Model.set_float_point_precision. split; intros H.
  - rewrite (proj2 (Z.leb_le 0 n) H). reflexivity.
  - rewrite (proj2 (Z.leb_gt 0 n) H). reflexivity.
Qed.
Print Assumptions C04_precision.

(** lattice.set_float_point_precision(precision): a non-negative int, or AssertionError. *)
Theorem C35_precision : forall p,
  match p with
  | Lattice_Model.AnInt n => (0 <= n -> exists k, Lattice_Model.set_float_point_precision p = Ok k /\ Z.of_nat k = n) /\
                             (n < 0 -> Lattice_Model.set_float_point_precision p = Err AssertionError)
  | Lattice_Model.NotInt => Lattice_Model.set_float_point_precision p = Err AssertionError
  end.
Proof.
  intros [n|]; [|reflexivity]. unfold Lattice_Model.set_float_point_precision. split; intros H.
  - rewrite (proj2 (Z.leb_le 0 n) H). exists (Z.to_nat n). split; [reflexivity|lia].
  - rewrite (proj2 (Z.leb_gt 0 n) H). reflexivity.
Qed.
Print Assumptions C35_precision.

(** Line2D(p0, p1): points that are no pairs are AssertionErrors. *)
Theorem C63_line_points : forall p0 p1,
  (forall s, p0 = PShape s \/ p1 = PShape s -> line_arrays p0 p1 = Err AssertionError) /\
  forall l0 l1 a0 a1, p0 = PVec l0 -> p1 = PVec l1 -> np_array l0 = Ok a0 -> np_array l1 = Ok a1 ->
    (alen a0 = 2%nat /\ alen a1 = 2%nat -> line_arrays p0 p1 = Ok (a0, a1)) /\
    (alen a0 <> 2%nat \/ alen a1 <> 2%nat -> line_arrays p0 p1 = Err AssertionError).
Proof.
  intros p0 p1. split.
  - intros s [-> | ->]; [reflexivity|]. now destruct p0.
  - intros l0 l1 a0 a1 -> -> E0 E1. cbn [line_arrays]. rewrite E0, E1. cbn [bind]. split.
    + intros [-> ->]. reflexivity.
    + intros H. destruct (Nat.eqb_spec (alen a0) 2); [|reflexivity]. destruct (Nat.eqb_spec (alen a1) 2); [|reflexivity]. destruct H; contradiction.
Qed.
Print Assumptions C63_line_points.

(** Line2D.LocationRelation(point): a point that is no pair is a ValueError; every pair
    is answered. *)
Theorem C40_point_shape : forall l p tol,
  (List.length p <> 2%nat -> Line2D_Model.LocationRelation l p tol = Err ValueError) /\
  (List.length p = 2%nat -> exists r, Line2D_Model.LocationRelation l p tol = Ok r).
Proof.
  intros l p tol. destruct p as [|x [|y [|z p]]]; cbn [List.length Line2D_Model.LocationRelation]; (split; [intros H|intros H; try discriminate]); try reflexivity; try lia.
  destruct (Line2D_Model.IsHorizontal l); [eexists; reflexivity|]. destruct (Line2D_Model.IsVertical l); eexists; reflexivity.
Qed.
Print Assumptions C40_point_shape.

Example constructor_cases :
  (exists x, make_aoc 10000 1 [NInt 0] (NInt 0) (NInt 0) = Ok x) /\ make_aoc 10000 2 [NInt 0] (NInt 0) (NInt 0) = Err AssertionError /\
  make_pterm [] CBad (Some Tgeneral) = Err AssertionError /\ Lattice_Model.set_float_point_precision (Lattice_Model.AnInt (-1)) = Err AssertionError /\
  line_arrays (PVec [NInt 0; NInt 1; NInt 2]) (PVec [NInt 0; NInt 1]) = Err AssertionError.
Proof. repeat split; try reflexivity. eexists. reflexivity. Qed.
