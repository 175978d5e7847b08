(** Specification vocabulary for Lattice.bonds (C36). *)
From Coq Require Import List Reals ZArith Permutation.
From Verif Require Import Lattice_Model Lattice_Spec.
Import ListNotations.
Open Scope R_scope.

(** A bond with one endpoint in the cluster: from point i to point j translated
    by c.  Translating it by -c and exchanging the endpoints gives (j, i, -c). *)
Record link := Link { from : nat; to : nat; by_ : list Z }.
Definition opposite (k : link) : link := Link (to k) (from k) (map Z.opp (by_ k)).
Definition valid (L : lattice) (k : link) : Prop :=
  (from k < List.length (points L))%nat /\ (to k < List.length (points L))%nat /\ List.length (by_ k) = List.length (vectors L).
Definition crossing (k : link) : Prop := exists n, In n (by_ k) /\ n <> 0%Z.
Definition head (L : lattice) (k : link) : point := nth (from k) (points L) v0.
Definition tail (L : lattice) (k : link) : point := vadd (nth (to k) (points L) v0) (shift (by_ k) (vectors L)).
Definition len (L : lattice) (k : link) : R := dist (head L k) (tail L k).
(** the equivalent point of the cluster *)
Definition folded (L : lattice) (k : link) : point := nth (to k) (points L) v0.
(** longer than lo, if there is such a bound *)
Definition exceeds (lo : option R) (x : R) : Prop := match lo with None => True | Some l => l < x end.

(** The bonds within the cluster: each pair of points once. *)
Definition lists_intra (L : lattice) (P : R -> Prop) (intra : list (point * point)) : Prop :=
  exists I : list (nat * nat), NoDup I /\
    (forall i j, In (i, j) I <-> (i < j < List.length (points L))%nat /\ P (dist (nth i (points L) v0) (nth j (points L) v0))) /\
    Permutation intra (map (fun ij => (nth (fst ij) (points L) v0, nth (snd ij) (points L) v0)) I).
(** The bonds leaving the cluster: links of the given lengths, each at most once,
    never both of two opposite ones. *)
Definition lists_inter (L : lattice) (P : R -> Prop) (fold : bool) (inter : list (point * point)) (T : list link) : Prop :=
  NoDup T /\ (forall k, In k T -> valid L k /\ crossing k /\ P (len L k) /\ ~ In (opposite k) T) /\
  Permutation inter (map (fun k => (head L k, if fold then folded L k else tail L k)) T).

(** x rounded to the precision *)
Definition rounded (prec : nat) (x : R) : R := IZR (rint (x * zoom prec)) / zoom prec.
(** Clusters whose translated copies, and translation vectors whose combinations,
    get farther layer by layer. *)
Definition nice (L : lattice) : Prop := steady (vectors L) (points L) /\ steady (vectors L) [v0].
(** The search window is chosen so that it contains every link at least as
    near as [judge]; it then also contains the links that do not reach further. *)
Definition in_reach (L : lattice) (judge : R) (k : link) : Prop :=
  exists k', valid L k' /\ (reach (by_ k) <= reach (by_ k'))%Z /\ len L k' <= judge.
