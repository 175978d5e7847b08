(** Specification vocabulary for sites and states. *)
From Coq Require Import List ZArith Reals.
From Flocq Require Import Core.Core.
From Verif Require Import State_Model Float64_Model.
Import ListNotations.
Open Scope Z_scope.

(** Dictionary order of integer tuples (a proper prefix is smaller). *)
Inductive lex_lt : list Z -> list Z -> Prop :=
| lex_nil : forall y m, lex_lt [] (y :: m)
| lex_head : forall x y l m, x < y -> lex_lt (x :: l) (y :: m)
| lex_tail : forall x l m, lex_lt l m -> lex_lt (x :: l) (x :: m).

(** The quantised coordinates (never empty for an object a constructor returned). *)
Definition s_form_of (a : loc) : list Z :=
  match a with LSite s => s_form s | LState s => s_form (st_site s) end.

Definition same_class (a b : loc) : Prop :=
  match a, b with LSite _, LSite _ | LState _, LState _ => True | _, _ => False end.

(** Same quantised coordinates (and same spin and orbit for states). *)
Definition same_key (a b : loc) : Prop :=
  match a, b with
  | LSite s, LSite t => s_form s = s_form t
  | LState s, LState t => s_form (st_site s) = s_form (st_site t) /\
                          st_spin s = st_spin t /\ st_orbit s = st_orbit t
  | _, _ => False
  end.

(** The intended order: quantised coordinates, then spin, then orbit. *)
Definition key_lt (a b : loc) : Prop :=
  match a, b with
  | LSite s, LSite t => lex_lt (s_form s) (s_form t)
  | LState s, LState t =>
      lex_lt (s_form (st_site s)) (s_form (st_site t)) \/
      (s_form (st_site s) = s_form (st_site t) /\
       (st_spin s < st_spin t \/ (st_spin s = st_spin t /\ st_orbit s < st_orbit t)))
  | _, _ => False
  end.

(** The real number a coordinate denotes. *)
Definition coord_value (c : pynum) : R :=
  match c with
  | NInt z => IZR z
  | NFlt (SpecFloat.S754_finite s m e) =>
      ((if s then -1 else 1) * IZR (Zpos m) * bpow radix2 e)%R
  | _ => 0%R
  end.
(** A genuine finite Python number (floats carry at most 53 significant bits). *)
Definition finite_coord (c : pynum) : Prop :=
  match c with
  | NInt _ => True
  | NFlt f => match f with
              | SpecFloat.S754_zero _ => True
              | SpecFloat.S754_finite _ _ _ => fvalid f = true
              | _ => False
              end
  | NOther => False
  end.
