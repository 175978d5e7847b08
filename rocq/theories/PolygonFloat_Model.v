(** Model of HamiltonianPy/polygon.py once more, on IEEE doubles (Polygon_Model is the
    same code on reals): the vertices and points are floats.  Left out: ints, and that
    scipy's compiled pdist might contract a product and a sum. *)
From Coq Require Import List Bool Arith Floats.SpecFloat.
From Verif Require Import Py Float64_Model KPath_Model Line2D_Model Polygon_Model LineFloat_Model.
Import ListNotations.
Local Open Scope res_scope.

Definition pair_list (p : f64 * f64) : list f64 := [fst p; snd p].
(** np.linalg.norm(p - q), and pdist of the two points *)
Definition fdist2 (p q : f64 * f64) : f64 := row_norm float_arith (row_sub float_arith (pair_list p) (pair_list q)).
(** np.any(pdist(vertices) <= tol) *)
Fixpoint fany_close (vs : list (f64 * f64)) (tol : f64) : bool :=
  match vs with
  | [] => false
  | v :: r => existsb (fun w => SFleb (fdist2 v w) tol) r || fany_close r tol
  end.
(** Polygon(vertices, tol=tol), polygon.py:48-80, of rows of two floats: the stored vertices. *)
Definition fmake_polygon (vs : list (f64 * f64)) (tol : f64) : res (list (f64 * f64)) :=
  _ <- assert_ (Nat.leb 3 (List.length vs)) ;;
  if fany_close vs tol then Err ValueError else Ok vs.

(** np.min and np.max of two floats (no nan) *)
Definition fmin2 (a b : f64) : f64 := if flt b a then b else a.
Definition fmax2 (a b : f64) : f64 := if flt a b then b else a.
Definition fzero2 : f64 * f64 := (S754_zero false, S754_zero false).
(** The loop of LocationRelation over the edges, polygon.py:138-155. *)
Fixpoint fedge_loop (vs : list (f64 * f64)) (point ref : f64 * f64) (tol : f64) (is : list nat) : res plocation :=
  match is with
  | [] => Ok INSIDE
  | i :: rest =>
      let p0 := nth i vs fzero2 in
      let p1 := nth ((i + 1) mod List.length vs) vs fzero2 in
      l <- fmake_line (pair_list p0) (pair_list p1) tol ;;
      location0 <- FLocationRelation l (pair_list point) tol ;;
      location1 <- FLocationRelation l (pair_list ref) tol ;;
      if loc_eqb location0 ON then
        if SFleb (fmin2 (fst p0) (fst p1)) (fst point) && SFleb (fst point) (fmax2 (fst p0) (fst p1))
        then Ok BOUNDARY else Ok OUTSIDE
      else if negb (loc_eqb location0 location1) then Ok OUTSIDE
      else fedge_loop vs point ref tol rest
  end.
(** LocationRelation, polygon.py:113-155; point and ref_point have two coordinates. *)
Definition FPLocationRelation (vs : list (f64 * f64)) (point ref : f64 * f64) (tol : f64) : res plocation :=
  if existsb (fun v => SFleb (fdist2 v point) tol) vs then Ok CORNER
  else fedge_loop vs point ref tol (seq 0 (List.length vs)).
