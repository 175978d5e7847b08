(** Model of the text of the exception raised when two operators of one state
    meet (quantumoperator/particlesystem.py). *)
From Coq Require Import String List Ascii.
From Verif Require Import Float64_Model State_Model MatrixRepr_Model Particle_Model ColorPrint_Model Text_Model.
Import ListNotations.
Local Open Scope string_scope.

(** particlesystem.py:876-884 [SwapFermionError.__str__]; [aoc0] and [aoc1] are the
    operators the exception was created with (871-873). *)
Definition swap_error_str (T : pytext) (aoc0 aoc1 : aoc) : string :=
  join newline
    ["Swapping the following two operators would generate extra " ++
     "identity operator which can not be processed properly:";
     "    " ++ aoc_repr T aoc0;
     "    " ++ aoc_repr T aoc1].
