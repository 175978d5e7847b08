(** Specification vocabulary for lattices (C31-C36). *)
From Coq Require Import List Reals ZArith Permutation.
From Verif Require Import Lattice_Model.
Import ListNotations.
Open Scope R_scope.

(** x0 a0 + x1 a1 + ... with real, or with integer, coefficients *)
Fixpoint combination (xs : list R) (vs : list point) : point :=
  match xs, vs with x :: xs', v :: vs' => vadd (vscale x v) (combination xs' vs') | _, _ => v0 end.
Definition shift (ns : list Z) (vs : list point) : point := combination (map IZR ns) vs.
(** The largest absolute value among the coefficients. *)
Fixpoint reach (ns : list Z) : Z := match ns with [] => 0%Z | n :: r => Z.max (Z.abs n) (reach r) end.

Definition dependent (vs : list point) : Prop :=
  exists xs, List.length xs = List.length vs /\ (exists x, In x xs /\ x <> 0) /\ combination xs vs = v0.

(** scipy's query returns the index of some nearest point. *)
Definition finds_nearest (nearest : list point -> point -> nat) : Prop :=
  forall ps s, ps <> [] -> (nearest ps s < List.length ps)%nat /\ forall q, In q ps -> dist (nth (nearest ps s) ps v0) s <= dist q s.

(** No two points of the cluster are equivalent: translating one never brings it
    nearer than eps to another. *)
Definition separated (eps : R) (L : lattice) : Prop :=
  forall i j ns, (i < List.length (points L))%nat -> (j < List.length (points L))%nat -> i <> j -> List.length ns = List.length (vectors L) ->
    eps <= dist (nth i (points L) v0) (vadd (nth j (points L) v0) (shift ns (vectors L))).

(** Each translation vector has at most 3/4 of its squared length as overlap with
    the others (every single vector, every orthogonal set, the triangular cell). *)
Definition overlap (vs : list point) (i : nat) : R :=
  fold_right (fun j s => (if Nat.eqb j i then 0 else Rabs (vdot (nth i vs v0) (nth j vs v0))) + s) 0 (seq 0 (List.length vs)).
Definition reduced (c : R) (vs : list point) : Prop :=
  forall i, (i < List.length vs)%nat -> overlap vs i <= c * vdot (nth i vs v0) (nth i vs v0).
Definition orthogonal (vs : list point) : Prop :=
  forall i j, (i < List.length vs)%nat -> (j < List.length vs)%nat -> i <> j -> vdot (nth i vs v0) (nth j vs v0) = 0.
(** From layer to layer of translations (those with the same largest coefficient)
    the smallest distance between a point and a translated point does not
    decrease, from the first layer on. *)
Definition steady (vs ps : list point) : Prop :=
  forall p q ns, In p ps -> In q ps -> List.length ns = List.length vs -> (2 <= reach ns)%Z ->
    exists p' q' ms, In p' ps /\ In q' ps /\ List.length ms = List.length vs /\ reach ms = (reach ns - 1)%Z /\
      dist (vadd (shift ms vs) p') q' <= dist (vadd (shift ns vs) p) q.
(** A combination is at least half as long as its term with the largest
    coefficient. *)
Definition wide (vs : list point) : Prop :=
  forall xs t, List.length xs = List.length vs -> (t < List.length vs)%nat ->
    (forall j, (j < List.length vs)%nat -> Rabs (nth j xs 0) <= Rabs (nth t xs 0)) ->
    Rabs (nth t xs 0) * norm (nth t vs v0) <= 2 * norm (combination xs vs).
(** The points of the cluster differ by at most one translation in each
    direction (up to a part perpendicular to all translations). *)
Definition compact (L : lattice) : Prop :=
  forall p q, In p (points L) -> In q (points L) ->
    exists ts w, List.length ts = List.length (vectors L) /\ Forall (fun t => Rabs t <= 1) ts /\
      (forall a, In a (vectors L) -> vdot w a = 0) /\ vsub p q = vadd (combination ts (vectors L)) w.

(** d is a distance between two sites of the infinite lattice. *)
Definition lattice_distance (L : lattice) (d : R) : Prop :=
  exists p q ns, In p (points L) /\ In q (points L) /\ List.length ns = List.length (vectors L) /\
    d = dist (vadd p (shift ns (vectors L))) q.
(** v is a distance rounded to the precision *)
Definition rounded_distance (prec : nat) (L : lattice) (v : R) : Prop :=
  exists d, lattice_distance L d /\ v = IZR (rint (d * zoom prec)) / zoom prec.
(** v is the n-th distinct rounded distance: a rounded distance (0 for n = 0),
    with exactly n rounded distances (0 among them) below it. *)
Definition nth_distance (prec : nat) (L : lattice) (n : nat) (v : R) : Prop :=
  rounded_distance prec L v /\
  exists l, NoDup l /\ List.length l = n /\ forall u, In u l <-> (rounded_distance prec L u /\ u < v).

(** A method is called again and again on one instance: the caches that can
    occur. *)
Inductive reachable (prec : nat) (L : lattice) (ord : list (list Z) -> list (list Z)) (init : list R) : list R -> Prop :=
  | reach_init : reachable prec L ord init init
  | reach_call d n : reachable prec L ord init d -> reachable prec L ord init (snd (neighbor_distance L ord prec d n)).
