(** Specification vocabulary for C54. *)
From Coq Require Import String List ZArith Bool Ascii.
From Verif Require Import Py Float64_Model State_Model ColorPrint_Model Text_Model.
Import ListNotations.
Local Open Scope string_scope.

(** None of the characters of [cs] occurs in [s]. *)
Fixpoint has (c : ascii) (s : string) : bool :=
  match s with "" => false | String d r => (Ascii.eqb c d || has c r)%bool end.
Definition none_of (cs s : string) : Prop := forall c, has c cs = true -> has c s = false.

(** What is used about Python's text of floats: [repr] distinguishes floats from
    each other and from ints, and contains no comma, closing parenthesis or
    line break. *)
Definition faithful_repr (T : pytext) : Prop :=
  (forall f g, float_repr T f = float_repr T g -> f = g) /\
  (forall f z, float_repr T f <> dec z) /\
  (forall f, none_of (",)" ++ newline) (float_repr T f)).
(** What is used about the rounded coordinates: no comma, parenthesis, dollar
    sign or brace, and no letter c or S. *)
Definition clean_round (T : pytext) (ndigits : Z) : Prop :=
  forall x, none_of (",)$}cS") (round_text T ndigits x).
(** Two states with the same attributes: same coordinates (1 and 1.0 differ),
    spin and orbit. *)
Definition same_data (s t : stateid) : Prop :=
  s_coord (st_site s) = s_coord (st_site t) /\ st_spin s = st_spin t /\ st_orbit s = st_orbit t.

(** ** Python source text *)
(** Source of an int or float literal (a float's [repr] reads back as that float). *)
Inductive num_source (T : pytext) : string -> pynum -> Prop :=
| int_source z : num_source T (dec z) (NInt z)
| float_source f : num_source T (float_repr T f) (NFlt f).
(** Source of a tuple: "()", "(x,)", "(x, y)", "(x, y, z)", ... *)
Inductive tuple_source (T : pytext) : string -> list pynum -> Prop :=
| no_items : tuple_source T "()" []
| one_item t x : num_source T t x -> tuple_source T ("(" ++ t ++ ",)") [x]
| items t x ts xs : num_source T t x -> Forall2 (num_source T) ts xs -> xs <> [] ->
    tuple_source T ("(" ++ String.concat ", " (t :: ts) ++ ")") (x :: xs).
(** The constants of particlesystem.py: the name stands for the number. *)
Definition constant (name : string) : option Z :=
  if String.eqb name "CREATION" then Some 1%Z else if String.eqb name "ANNIHILATION" then Some 0%Z else None.
