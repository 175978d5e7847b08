(** Vocabulary for C59_bloch: independent particles on an infinite lattice, seen through
    one cell and through a cluster of cells. *)
From Coq Require Import Reals List Arith ZArith.
From Coquelicot Require Import Complex.
From Verif Require Import CVec Lattice_Model Lattice_Spec LatticeGen_Model LatticeGen_Spec LatticeBonds_Spec.
Import ListNotations.
Local Open Scope C_scope.

Definition total {A : Type} (f : A -> C) (l : list A) : C := fold_right (fun x s => f x + s) c0 l.
(** exp(i k.R) *)
Definition plane (k r : point) : C := (cos (vdot k r), sin (vdot k r)).

(** D lists the sites (b, M) of the infinite lattice at the distances P from the a-th
    point of the home cell. *)
Definition home (c : cell) : list Z := repeat 0%Z (length (cvectors c)).
Definition neighbours (c : cell) (P : R -> Prop) (a : nat) (D : list (nat * list Z)) : Prop :=
  NoDup D /\
  forall b M, In (b, M) D <-> is_site c b M /\ (b, M) <> (a, home c) /\ P (dist (site c a (home c)) (site c b M)).
(** h(k): amplitude t to every neighbour, with the phase of its cell. *)
Definition bloch_matrix (c : cell) (t : R) (D : nat -> list (nat * list Z)) (k : point) : cmat := fun a b =>
  RtoC t * total (fun e => plane k (shift (snd e) (cvectors c))) (filter (fun e => Nat.eqb (fst e) b) (D a)).

(** amplitude t between the points of the cluster at the distances P *)
Definition cluster_hopping (L : lattice) (P : R -> Prop) (t : R) (h : cmat) : Prop :=
  forall i j, (i < length (points L))%nat -> (j < length (points L))%nat ->
    let bonded := i <> j /\ P (dist (nth i (points L) v0) (nth j (points L) v0)) in
    (bonded -> h i j = RtoC t) /\ (~ bonded -> h i j = c0).

(** The bonds leaving the cluster at the distances P: every one of them, in one of its
    two directions. *)
Definition lists_all_inter (L : lattice) (P : R -> Prop) (inter : list (point * point)) : Prop :=
  exists T, lists_inter L P false inter T /\ forall k, valid L k -> crossing k -> P (len L k) -> In k T \/ In (opposite k) T.

(** cos(k.a) summed over the translation vectors *)
Definition cosines (c : cell) (k : point) : R := fold_right (fun a s => cos (vdot k a) + s)%R 0%R (cvectors c).
