(** Specification vocabulary for bonds (C39). *)
From Coq Require Import List ZArith Reals.
From Flocq Require Import Core.Core.
From Verif Require Import State_Model State_Spec.
Import ListNotations.
Open Scope Z_scope.

(** The nearest double (ties to even). *)
Definition to_double (x : R) : R := round radix2 (FLT_exp (-1074) 53) ZnearestE x.

(** With [p] digits of precision a coordinate x is identified with the integer
    part (towards zero) of the double nearest to 10^p x. *)
Definition cell (p : Z) (x : R) : Z := Ztrunc (to_double (IZR (10 ^ p) * x)).

(** Two points are the same: same dimension, same cells. *)
Definition same_point (p : Z) (l m : list pynum) : Prop :=
  Forall2 (fun a b => cell p (coord_value a) = cell p (coord_value b)) l m.

(** Finite numbers small enough for 10^p x to be far from the limits of int64
    and of doubles. *)
Definition moderate (p : Z) (c : pynum) : Prop :=
  finite_coord c /\ (Rabs (IZR (10 ^ p) * coord_value c) <= bpow radix2 51)%R.

(** Finite numbers whose difference is still finite. *)
Definition tame (c : pynum) : Prop :=
  match c with
  | NInt z => Z.abs z <= 2 ^ 52
  | _ => finite_coord c /\ (Rabs (coord_value c) <= bpow radix2 1022)%R
  end.

(** The displacement from l to m: each component is the nearest double. *)
Definition displacement (l m : list pynum) : list R :=
  map (fun ab => to_double (coord_value (snd ab) - coord_value (fst ab))) (combine l m).

Definition sum (l : list R) : R := fold_right Rplus 0%R l.
Definition euclid (v : list R) : R := sqrt (sum (map (fun x => (x ^ 2)%R) v)).
