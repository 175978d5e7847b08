(** Vocabulary for C61_nearest: the bonds of a periodic cluster. *)
From Coq Require Import Reals String List ZArith.
From Verif Require Import GQ Lattice_Model Lattice_Spec LatticeGen_Model LatticeGen_Spec LatticeBonds_Spec.
Import ListNotations.
Local Open Scope nat_scope.

(** the link that leads from a point to itself *)
Definition stays (L : lattice) (k : link) : Prop := from k = to k /\ forall x, In x (by_ k) -> x = 0%Z.
(** O lists the links (i, j, ns) from a point i of the cluster to a translated point j + ns at the
    distances P: every neighbour of every point, so every bond twice, once from each end. *)
Definition all_links (L : lattice) (P : R -> Prop) (O : list link) : Prop :=
  NoDup O /\ forall k, In k O <-> valid L k /\ ~ stays L k /\ P (len L k).

(** The nearest neighbours of the point a of a cell: (b, M) is the point b of the cell M cells away. *)
Definition nearest_sites (name : string) (a : nat) : list (nat * list Z) :=
  if String.eqb name "chain" then [(0%nat, [1]); (0%nat, [-1])]%Z
  else if String.eqb name "square" then [(0%nat, [1; 0]); (0%nat, [-1; 0]); (0%nat, [0; 1]); (0%nat, [0; -1])]%Z
  else if String.eqb name "cubic" then [(0%nat, [1; 0; 0]); (0%nat, [-1; 0; 0]); (0%nat, [0; 1; 0]); (0%nat, [0; -1; 0]); (0%nat, [0; 0; 1]); (0%nat, [0; 0; -1])]%Z
  else if String.eqb name "triangle" then [(0%nat, [1; 0]); (0%nat, [-1; 0]); (0%nat, [0; 1]); (0%nat, [0; -1]); (0%nat, [1; -1]); (0%nat, [-1; 1])]%Z
  else if String.eqb name "honeycomb" then match a with 0 => [(1%nat, [0; 0]); (1%nat, [1; -1]); (1%nat, [0; -1])]%Z | _ => [(0%nat, [0; 0]); (0%nat, [-1; 1]); (0%nat, [0; 1])]%Z end
  else match a with
       | 0 => [(1%nat, [0; 0]); (1%nat, [0; -1]); (2%nat, [0; 0]); (2%nat, [-1; 0])]%Z
       | 1 => [(0%nat, [0; 0]); (0%nat, [0; 1]); (2%nat, [0; 0]); (2%nat, [-1; 1])]%Z
       | _ => [(0%nat, [0; 0]); (0%nat, [1; 0]); (1%nat, [0; 0]); (1%nat, [1; -1])]%Z
       end.

(** The cells (m0, m1, ...) of a cluster of nums = (n0, n1, ...) cells, 0 <= m_i < n_i. *)
Fixpoint cells (nums : list Z) : list (list Z) :=
  match nums with
  | [] => [[]]
  | n :: r => flat_map (fun x => map (cons x) (cells r)) (map Z.of_nat (seq 0 (Z.to_nat n)))
  end.
(** With periodic boundary conditions: the number of the point b of the cell ms, counted modulo nums. *)
Definition wrap (nums ms : list Z) : list Z := map (fun p => (snd p mod fst p)%Z) (combine nums ms).
Definition number (c : cell) (nums : list Z) (b : nat) (ms : list Z) : nat := Z.to_nat (position nums (wrap nums ms)) * length (cpoints c) + b.
Definition moved (ns M : list Z) : list Z := map (fun p => (fst p + snd p)%Z) (combine ns M).
(** every point with each of its nearest neighbours *)
Definition torus_pairs (name : string) (c : cell) (nums : list Z) : list (nat * nat) :=
  flat_map (fun ns => flat_map (fun a => map (fun e => (number c nums a ns, number c nums (fst e) (moved ns (snd e)))) (nearest_sites name a))
    (seq 0 (length (cpoints c)))) (cells nums).
(** the number of nearest neighbours *)
Definition coordination (name : string) : nat :=
  if String.eqb name "chain" then 2 else if String.eqb name "square" then 4 else if String.eqb name "cubic" then 6
  else if String.eqb name "triangle" then 6 else if String.eqb name "honeycomb" then 3 else 4.
