(** Specification vocabulary: the lines of a text (C54). *)
From Coq Require Import String List Ascii.
Import ListNotations.
Local Open Scope string_scope.

Definition line_break : ascii := ascii_of_nat 10.
(** [s.split("\n")] *)
Fixpoint lines (s : string) : list string :=
  match s with
  | "" => [""]
  | String c r => if Ascii.eqb c line_break then "" :: lines r else match lines r with [] => [] | l :: rest => String c l :: rest end
  end.
