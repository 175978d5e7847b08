(** Model of HamiltonianPy/polygon.py, on real numbers (float rounding is not
    modelled; plotting is left out). *)
From Coq Require Import List Reals Bool Arith.
From Verif Require Import Py Line2D_Model.
Import ListNotations.
Open Scope R_scope.
Local Open Scope res_scope.

(** Location, polygon.py:18-32 *)
Inductive plocation := CORNER | BOUNDARY | INSIDE | OUTSIDE.

(** What may be passed as vertices: rows of numbers, or an array without two axes. *)
Inductive varg := VRows (rows : list (list R)) | VNdim.

(** Euclidean distance (numpy norm, scipy pdist; exact) *)
Definition dist2 (p q : R * R) : R :=
  sqrt ((fst p - fst q) * (fst p - fst q) + (snd p - snd q) * (snd p - snd q)).

Fixpoint as_points (rows : list (list R)) : option (list (R * R)) :=
  match rows with
  | [] => Some []
  | [x; y] :: r => match as_points r with Some ps => Some ((x, y) :: ps) | None => None end
  | _ => None
  end.
(** np.any(pdist(vertices) <= tol) *)
Fixpoint any_close (vs : list (R * R)) (tol : R) : bool :=
  match vs with
  | [] => false
  | v :: r => existsb (fun w => Rleb (dist2 v w) tol) r || any_close r tol
  end.

(** Polygon(vertices, tol=tol), polygon.py:48-80: the stored vertices. *)
Definition make_polygon (vertices : varg) (tol : R) : res (list (R * R)) :=
  match vertices with
  | VNdim => Err AssertionError
  | VRows rows =>
      _ <- assert_ (Nat.leb 3 (List.length rows)) ;;
      match as_points rows with
      | None => Err AssertionError
      | Some vs => if any_close vs tol then Err ValueError else Ok vs
      end
  end.

(** The loop of LocationRelation over the edges, polygon.py:139-155. *)
Fixpoint edge_loop (vs : list (R * R)) (point ref : R * R) (tol : R) (is : list nat) : res plocation :=
  match is with
  | [] => Ok INSIDE
  | i :: rest =>
      let p0 := nth i vs (0, 0) in
      let p1 := nth ((i + 1) mod List.length vs) vs (0, 0) in
      l <- make_line [fst p0; snd p0] [fst p1; snd p1] tol ;;
      location0 <- LocationRelation l [fst point; snd point] tol ;;
      location1 <- LocationRelation l [fst ref; snd ref] tol ;;
      if loc_eqb location0 ON then
        if Rleb (Rmin (fst p0) (fst p1)) (fst point) && Rleb (fst point) (Rmax (fst p0) (fst p1))
        then Ok BOUNDARY else Ok OUTSIDE
      else if negb (loc_eqb location0 location1) then Ok OUTSIDE
      else edge_loop vs point ref tol rest
  end.

(** LocationRelation, polygon.py:113-155; point and ref_point have two coordinates. *)
Definition PLocationRelation (vs : list (R * R)) (point ref : R * R) (tol : R) : res plocation :=
  if existsb (fun v => Rleb (dist2 v point) tol) vs then Ok CORNER
  else edge_loop vs point ref tol (seq 0 (List.length vs)).
