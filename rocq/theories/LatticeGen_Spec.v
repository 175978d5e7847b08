(** Specification vocabulary for the lattice database (C37, C51). *)
From Coq Require Import List Reals ZArith.
From Verif Require Import Lattice_Model Lattice_Spec LatticeGen_Model.
Import ListNotations.
Open Scope R_scope.

(** 0 <= n_i < num_i *)
Definition box (nums ns : list Z) : Prop := Forall2 (fun num n => (0 <= n < num)%Z) nums ns.
Definition count (nums : list Z) : Z := fold_right Z.mul 1%Z nums.
(** the place of n in the box, counted row by row *)
Fixpoint position (nums ns : list Z) : Z :=
  match nums, ns with _ :: nums', n :: ns' => (n * count nums' + position nums' ns')%Z | _, _ => 0%Z end.

(** The sites of the infinite lattice of a cell. *)
Definition site (c : cell) (j : nat) (ms : list Z) : point := vadd (nth j (cpoints c) v0) (shift ms (cvectors c)).
Definition is_site (c : cell) (j : nat) (ms : list Z) : Prop := (j < List.length (cpoints c))%nat /\ List.length ms = List.length (cvectors c).
(** The cluster tiles that lattice: its translated points are exactly the sites,
    and each site is obtained from one point by one translation only. *)
Definition tiles (c : cell) (L : lattice) : Prop :=
  (forall i Ms, (i < List.length (points L))%nat -> List.length Ms = List.length (vectors L) ->
     exists j ms, is_site c j ms /\ vadd (nth i (points L) v0) (shift Ms (vectors L)) = site c j ms) /\
  (forall j ms, is_site c j ms -> exists i Ms, ((i < List.length (points L))%nat /\ List.length Ms = List.length (vectors L) /\
     vadd (nth i (points L) v0) (shift Ms (vectors L)) = site c j ms) /\
     forall i' Ms', (i' < List.length (points L))%nat -> List.length Ms' = List.length (vectors L) ->
       vadd (nth i' (points L) v0) (shift Ms' (vectors L)) = site c j ms -> i' = i /\ Ms' = Ms).
