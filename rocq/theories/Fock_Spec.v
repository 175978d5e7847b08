(** Specification: fermionic operators on occupation-number kets.
    A ket is a natural number whose bit [i] tells whether single-particle state
    [i] is occupied; the ordering convention is the usual one: acting with
    state [i]'s operator yields the sign (-1)^(number of occupied states below i). *)
From Coq Require Import List NArith ZArith Bool Arith.
From Verif Require Import GQ Mat MatrixRepr_Model.
Import ListNotations.

(** Number of occupied states among states 0 .. i-1. *)
Definition below (i : nat) (ket : N) : nat :=
  length (filter (fun p => N.testbit ket (N.of_nat p)) (seq 0 i)).

(** A creation/annihilation operator on state [i]: the sign (true = minus) and
    the new ket, or None for the null vector. *)
Definition fock_act (i : nat) (ot : otype) (ket : N) : option (bool * N) :=
  match ot, N.testbit ket (N.of_nat i) with
  | CREATION, false => Some (Nat.odd (below i ket), N.setbit ket (N.of_nat i))
  | ANNIHILATION, true => Some (Nat.odd (below i ket), N.clearbit ket (N.of_nat i))
  | _, _ => None
  end.

(** A product of operators: the rightmost one acts first. *)
Fixpoint word_act (w : list (nat * otype)) (ket : N) : option (bool * N) :=
  match w with
  | [] => Some (false, ket)
  | (i, ot) :: r =>
      match word_act r ket with
      | None => None
      | Some (s, k) =>
          match fock_act i ot k with
          | None => None
          | Some (s', k') => Some (xorb s s', k')
          end
      end
  end.

(** The matrix element <bra| w |ket>: -1, 0 or 1. *)
Definition amp (w : list (nat * otype)) (bra ket : N) : Z :=
  match word_act w ket with
  | None => 0
  | Some (s, k) => if (k =? bra)%N then (if s then -1 else 1) else 0
  end%Z.

(** Hermitian conjugate of a product. *)
Definition flip_otype (o : otype) : otype :=
  match o with CREATION => ANNIHILATION | ANNIHILATION => CREATION end.
Definition word_dagger (w : list (nat * otype)) : list (nat * otype) :=
  rev (map (fun p => (fst p, flip_otype (snd p))) w).

(** Creators minus annihilators in a product. *)
Definition word_charge (w : list (nat * otype)) : Z :=
  fold_right (fun p z => match snd p with CREATION => z + 1 | ANNIHILATION => z - 1 end)%Z 0%Z w.

(** The matrix of [coeff * w] between two lists of kets. *)
Definition word_mat (coeff : GQ) (w : list (nat * otype)) (L R : list N) : mat :=
  fun i j => gmul coeff (gz (amp w (nth i L 0%N) (nth j R 0%N))).

(** Strictly increasing bases (what base_vectors returns). *)
Fixpoint sorted_bases (l : list N) : Prop :=
  match l with
  | [] => True
  | x :: r => Forall (fun y => (x < y)%N) r /\ sorted_bases r
  end.

(** The basis of the full Fock space of n states: 0, 1, ..., 2^n - 1. *)
Definition full_bases (n : nat) : list N := map N.of_nat (seq 0 (2 ^ n)).
