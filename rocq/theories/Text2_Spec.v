(** Python source text of ints and tuples. *)
From Coq Require Import String List ZArith Floats.SpecFloat.
From Verif Require Import Py Float64_Model State_Model ColorPrint_Model Hilbert_Model Text_Spec.
Import ListNotations.
Local Open Scope string_scope.

(** "()", "(x,)", "(x, y)", ... *)
Definition tuple_text (ts : list string) : string :=
  match ts with [t] => "(" ++ t ++ ",)" | _ => "(" ++ String.concat ", " ts ++ ")" end.
(** [source t v]: the text t is an expression with the value v. *)
Inductive source : string -> Hilbert_Model.pyv -> Prop :=
| int_text z : source (dec z) (PInt z)
| tuple_of ts l : Forall2 source ts l -> source (tuple_text ts) (PTup l).
(** A space whose particle numbers are ints (a float one passes the constructor). *)
Definition whole_numbers (s : space) : Prop := Forall (fun x => exists z, snd x = NumI z) s.
(** A float that is a number (repr of inf and nan is no expression). *)
Definition finite_float (f : Float64_Model.f64) : Prop :=
  match f with SpecFloat.S754_infinity _ | SpecFloat.S754_nan => False | _ => True end.
Definition finite_num (x : State_Model.pynum) : Prop := match x with State_Model.NFlt f => finite_float f | _ => True end.
(** A text that does not begin with a digit or a minus sign. *)
Definition no_number_first (s : string) : Prop :=
  match s with "" => False | String c _ => Text_Spec.has c "-0123456789" = false end.
(** The lines of a text. *)
Definition has_lines (text : string) (ls : list string) : Prop := text = String.concat (String (Ascii.ascii_of_nat 10) "") ls.
