(** Specification vocabulary for neighbour distances and bonds (C35, C36). *)
From Coq Require Import List Reals ZArith Permutation.
From Verif Require Import Lattice_Model Lattice_Spec.
Import ListNotations.
Open Scope R_scope.

(** Any two different sites of the infinite lattice are at least the tolerance
    apart (a site: a cluster point and a translation). *)
Definition resolved (prec : nat) (L : lattice) : Prop :=
  forall i j ns, (i < List.length (points L))%nat -> (j < List.length (points L))%nat -> List.length ns = List.length (vectors L) ->
    (i <> j \/ exists n, In n ns /\ n <> 0%Z) ->
    view prec <= dist (vadd (nth i (points L) v0) (shift ns (vectors L))) (nth j (points L) v0).
(** An order in which Python may list a set. *)
Definition listing {A} (ord : list A -> list A) : Prop := forall l, Permutation (ord l) l.
