(** Specification vocabulary for IndexTable: what a valid collection is. *)
From Coq Require Import List ZArith.
Import ListNotations.
Open Scope Z_scope.

(** The objects paired with consecutive integers from [s]. *)
Fixpoint enum {A} (s : Z) (l : list A) : list (Z * A) :=
  match l with [] => [] | x :: r => (s, x) :: enum (s + 1) r end.

Section Spec.
  Context {A T : Type}.
  Variable eqb : A -> A -> bool.
  Variable type_of : A -> T.
  Variable isinst : A -> T -> bool.

  (** Every object is an instance of the type of the first one. *)
  Definition same_type (l : list A) : Prop :=
    match l with [] => True | x :: r => Forall (fun y => isinst y (type_of x) = true) r end.

  (** No object equals ([==]) an earlier one. *)
  Definition distinct (l : list A) : Prop :=
    forall i j x y, (i < j)%nat -> nth_error l i = Some x -> nth_error l j = Some y ->
                    eqb x y = false.

  (** Acceptable prefix of a collection. *)
  Definition acceptable (l : list A) : Prop := same_type l /\ distinct l.
End Spec.
