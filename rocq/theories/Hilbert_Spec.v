(** Specification vocabulary for Hilbert-space bases. *)
From Coq Require Import List ZArith NArith QArith Bool Arith.
From Verif Require Import Py Hilbert_Model.
Import ListNotations.

(** Number of occupied states of a collection. *)
Definition occupied (k : N) (states : list N) : nat := length (filter (N.testbit k) states).

(** The particle-number condition of one subspace: negative = not conserved. *)
Definition number_ok (k : N) (s : list N * pnum) : Prop :=
  match snd s with
  | NumI z => (z < 0)%Z \/ Z.of_nat (occupied k (fst s)) = z
  | NumF q => True
  end.
(** A ket belongs to the space: only listed states are occupied and each
    collection holds its number of particles. *)
Definition in_space (specs : list (list N * pnum)) (k : N) : Prop :=
  (forall b, N.testbit k b = true -> exists s, In s specs /\ In b (fst s)) /\
  Forall (number_ok k) specs.

(** Pascal's triangle. *)
Fixpoint binom (n k : nat) : nat :=
  match k, n with
  | O, _ => 1
  | S _, O => 0
  | S k', S n' => binom n' k' + binom n' k
  end.
(** The dimension of a subspace: C(n, p), or 2^n without conservation. *)
Definition dim (s : list N * pnum) : nat :=
  match snd s with
  | NumI z => if (z <? 0)%Z then 2 ^ length (fst s) else binom (length (fst s)) (Z.to_nat z)
  | NumF _ => 2 ^ length (fst s)
  end.
Definition total_dim (specs : list (list N * pnum)) : nat := fold_right (fun s d => (dim s * d)%nat) 1%nat specs.

(** The integers of the result, whatever the container. *)
Definition items (k : kets) : list N := match k with KList l | KTuple l | KArray l => l end.

(** No collection lists a state twice. *)
Definition no_repeats (specs : list (list N * pnum)) : Prop := Forall (fun s => NoDup (fst s)) specs.
Definition integral (specs : list (list N * pnum)) : Prop :=
  Forall (fun s => exists z, snd s = NumI z) specs.

(** A well-formed specifier, as the module docstring defines it (with the
    number a genuine int), and what it stands for. *)
Inductive std_spec : pyv -> list N -> Z -> Prop :=
| std_int n : (0 < n)%Z -> std_spec (PInt n) (map N.of_nat (seq 0 (Z.to_nat n))) (-1)
| std_range mk n m : mk = PTup \/ mk = PList -> (0 < n)%Z -> (m <= n)%Z ->
    std_spec (mk [PInt n; PInt m]) (map N.of_nat (seq 0 (Z.to_nat n))) m
| std_coll mk mk' l m : mk = PTup \/ mk = PList -> mk' = PTup \/ mk' = PList \/ mk' = PSet ->
    l <> [] -> (m <= Z.of_nat (length l))%Z ->
    std_spec (mk [mk' (map (fun x => PInt (Z.of_N x)) l); PInt m]) l m.
(** A list of well-formed specifiers and the spaces they stand for. *)
Definition std_specs (vs : list pyv) (specs : list (list N * pnum)) : Prop :=
  Forall2 (fun v s => exists z, snd s = NumI z /\ std_spec v (fst s) z) vs specs.
(** No state in two collections. *)
Definition pairwise_disjoint (specs : list (list N * pnum)) : Prop :=
  forall i j s t x, (i < j)%nat -> nth_error specs i = Some s -> nth_error specs j = Some t ->
    In x (fst s) -> ~ In x (fst t).
