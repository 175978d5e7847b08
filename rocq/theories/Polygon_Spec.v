(** Specification vocabulary for polygons (C41). *)
From Coq Require Import List Reals Arith.
From Verif Require Import Line2D_Spec Polygon_Model.
Import ListNotations.
Open Scope R_scope.

Definition vertex (vs : list (R * R)) (i : nat) : R * R := nth i vs (0, 0).
Definition next (vs : list (R * R)) (i : nat) : R * R := nth ((i + 1) mod List.length vs) vs (0, 0).

(** The area spanned by q - p and r - p, positive if p, q, r turn left. *)
Definition cross (p q r : R * R) : R :=
  (fst q - fst p) * (snd r - snd p) - (snd q - snd p) * (fst r - fst p).

(** At least three vertices, and every edge has all other vertices strictly on
    one side: always the left (counterclockwise, s = 1), or always the right
    (clockwise, s = -1). *)
Definition convex_with (s : R) (vs : list (R * R)) : Prop :=
  (3 <= List.length vs)%nat /\
  forall i k, (i < List.length vs)%nat -> (k < List.length vs)%nat -> k <> i -> k <> ((i + 1) mod List.length vs)%nat ->
    0 < s * cross (vertex vs i) (next vs i) (vertex vs k).
Definition convex (vs : list (R * R)) : Prop := convex_with 1 vs \/ convex_with (-1) vs.

(** f 0 + ... + f (n - 1) *)
Fixpoint sumn (n : nat) (f : nat -> R) : R := match n with O => 0 | S m => sumn m f + f m end.

(** The closed region: all weighted means of the vertices. *)
Definition region (vs : list (R * R)) (q : R * R) : Prop :=
  exists w : nat -> R,
    (forall k, (k < List.length vs)%nat -> 0 <= w k) /\ sumn (List.length vs) w = 1 /\
    fst q = sumn (List.length vs) (fun k => w k * fst (vertex vs k)) /\
    snd q = sumn (List.length vs) (fun k => w k * snd (vertex vs k)).

(** q is on edge i. *)
Definition on_edge_i (vs : list (R * R)) (i : nat) (q : R * R) : Prop :=
  exists t, 0 <= t <= 1 /\
    q = ((1 - t) * fst (vertex vs i) + t * fst (next vs i), (1 - t) * snd (vertex vs i) + t * snd (next vs i)).
Definition on_edge (vs : list (R * R)) (q : R * R) : Prop := exists i, (i < List.length vs)%nat /\ on_edge_i vs i q.

(** The right answer. *)
Definition right_answer (vs : list (R * R)) (q : R * R) (a : plocation) : Prop :=
  match a with
  | CORNER => In q vs
  | BOUNDARY => on_edge vs q /\ ~ In q vs
  | INSIDE => region vs q /\ ~ on_edge vs q
  | OUTSIDE => ~ region vs q
  end.

(** q is not level with a vertical edge without being on it. *)
Definition no_vertical_trap (vs : list (R * R)) (q : R * R) : Prop :=
  forall i, (i < List.length vs)%nat -> fst (vertex vs i) = fst (next vs i) -> fst q = fst (vertex vs i) -> on_edge_i vs i q.

(** q is away from the line through a and b by more than tol (measured along y,
    along x if the line is vertical). *)
Definition clear_of (tol : R) (a b q : R * R) : Prop :=
  (fst a = fst b -> tol < Rabs (fst q - fst a)) /\
  (fst a <> fst b -> Line2D_Spec.above tol a b q \/ Line2D_Spec.below tol a b q).
Definition clear_of_edges (tol : R) (vs : list (R * R)) (q : R * R) : Prop :=
  forall i, (i < List.length vs)%nat -> clear_of tol (vertex vs i) (next vs i) q.
Definition clean_edges (tol : R) (vs : list (R * R)) : Prop :=
  forall i, (i < List.length vs)%nat -> Line2D_Spec.clean tol (vertex vs i) (next vs i).
(** strictly inside *)
Definition interior (vs : list (R * R)) (q : R * R) : Prop := region vs q /\ ~ on_edge vs q.
