(** What a k-path should be (C38). *)
From Coq Require Import List ZArith Reals.
Import ListNotations.
Open Scope R_scope.

(** The anchors visited, in order: the given points and, for a loop, the first
    one again. *)
Definition visited {X} (loop : bool) (P : list X) : list X := P ++ (if loop then firstn 1 P else []).
(** Euclidean distance of two rows. *)
Fixpoint sum_squares (p q : list R) : R :=
  match p, q with x :: p', y :: q' => (y - x) * (y - x) + sum_squares p' q' | _, _ => 0 end.
Definition gap (p q : list R) : R := sqrt (sum_squares p q).
(** The point of the straight segment p -> q at fraction t. *)
Fixpoint between (t : R) (p q : list R) : list R :=
  match p, q with x :: p', y :: q' => (x + t * (y - x)) :: between t p' q' | _, _ => [] end.
(** Length of the i-th leg of the route V; s is the length of the shortest one. *)
Definition leg (V : list (list R)) (i : nat) : R := gap (nth i V []) (nth (S i) V []).
Definition shortest (V : list (list R)) (s : R) : Prop :=
  (exists i, (S i < length V)%nat /\ leg V i = s) /\ forall i, (S i < length V)%nat -> s <= leg V i.

(** Position of anchor i. *)
Definition pos (idx : list nat) (i : nat) : nat := nth i idx 0%nat.
(** [ks] samples the route V: anchor i sits at position idx[i]; between anchors i
    and i+1 the k-points are evenly spaced, their number is the integer part of
    m * (length of the leg) / (length of the shortest leg); the last k-point is
    the last anchor. *)
Record samples (m : nat) (V : list (list R)) (ks : list (list R)) (idx : list nat) : Prop := Samples {
  s_indices : length idx = length V;
  s_first : pos idx 0 = 0%nat;
  s_last : length ks = S (pos idx (length V - 1));
  s_anchors : forall i, (i < length V)%nat -> nth (pos idx i) ks [] = nth i V [];
  s_even : forall i j, (S i < length V)%nat -> (pos idx i + j < pos idx (S i))%nat ->
    nth (pos idx i + j) ks [] = between (INR j / INR (pos idx (S i) - pos idx i)) (nth i V []) (nth (S i) V []);
  s_count : forall i s, (S i < length V)%nat -> shortest V s ->
    let n := (pos idx (S i) - pos idx i)%nat in
    (pos idx i < pos idx (S i))%nat /\ INR n * s <= INR m * leg V i < (INR n + 1) * s
}.
