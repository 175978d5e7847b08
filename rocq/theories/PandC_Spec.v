(** What Permutation and Combination are supposed to count, stated without any
    formula: the number of selections of k items among n items 0..n-1. *)
From Coq Require Import List ZArith Sorted.
Import ListNotations.

(** A selection is the list of the chosen items. *)
Definition from (n k : nat) (l : list nat) : Prop := length l = k /\ Forall (fun x => x < n) l.
(** order matters, no repetition *)
Definition arrangement (n k : nat) (l : list nat) : Prop := from n k l /\ NoDup l.
(** order matters, repetition allowed *)
Definition sequence (n k : nat) (l : list nat) : Prop := from n k l.
(** order does not matter (listed increasingly), no repetition *)
Definition subset (n k : nat) (l : list nat) : Prop := from n k l /\ StronglySorted lt l.
(** order does not matter (listed increasingly), repetition allowed *)
Definition multiset (n k : nat) (l : list nat) : Prop := from n k l /\ StronglySorted le l.

(** [c] is the number of lists with property [P]. *)
Definition count (P : list nat -> Prop) (c : Z) : Prop :=
  exists L, NoDup L /\ (forall l, In l L <-> P l) /\ c = Z.of_nat (length L).
