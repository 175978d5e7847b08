(** Specification vocabulary for the nearest-neighbour bonds (C36, C37). *)
From Coq Require Import List Reals ZArith.
From Verif Require Import Lattice_Model Lattice_Spec.
Import ListNotations.
Open Scope R_scope.

(** Two different sites of the infinite lattice are delta apart, or farther by at
    least 3 units of the precision. *)
Definition next_gap (prec : nat) (L : lattice) (delta : R) : Prop :=
  forall i j ns, (i < List.length (points L))%nat -> (j < List.length (points L))%nat -> List.length ns = List.length (vectors L) ->
    (i <> j \/ exists n, In n ns /\ n <> 0%Z) ->
    let x := dist (vadd (nth i (points L) v0) (shift ns (vectors L))) (nth j (points L) v0) in x = delta \/ delta + 3 * view prec <= x.
(** Two points of the cluster are delta apart, or the cluster is one point and
    delta the length of a translation vector. *)
Definition attained (L : lattice) (delta : R) : Prop :=
  (exists i j, (i < j < List.length (points L))%nat /\ dist (nth i (points L) v0) (nth j (points L) v0) = delta) \/
  (List.length (points L) = 1%nat /\ exists a, In a (vectors L) /\ norm a = delta).
