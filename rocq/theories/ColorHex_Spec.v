(** Vocabulary for C49_hex: what two characters after "#" pass for a component. *)
From Coq Require Import String List ZArith Ascii.
From Verif Require Import ColorPrint_Spec.
Open Scope Z_scope.

(** Two hexadecimal digits; or one digit with white space before or after it; or one digit with a sign. *)
Inductive component : ascii -> ascii -> Z -> Prop :=
| two a b m n : hexval a m -> hexval b n -> component a b (16 * Z.of_nat m + Z.of_nat n)
| blank_first a b n : white a -> hexval b n -> component a b (Z.of_nat n)
| blank_last a b n : hexval a n -> white b -> component a b (Z.of_nat n)
| plus b n : hexval b n -> component "+" b (Z.of_nat n)
| minus b n : hexval b n -> component "-" b (- Z.of_nat n).
