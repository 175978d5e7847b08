(** HamiltonianPy/tools/Draw2DLattice.py and tools/BrillouinZone.py.
    Coordinates are exact reals (the code computes them in binary64); points are
    padded with zeros to three coordinates.  What matplotlib does with the data is
    not modelled; the data handed to it is. *)
From Coq Require Import String List Reals ZArith Bool.
From Verif Require Import Py Line2D_Model Lattice_Model LatticeGen_Model.
Import ListNotations.
Open Scope R_scope.
Local Open Scope res_scope.

(** Draw2DLattice.py:29-32 *)
Definition draw_square : cell := Cell 2 [(0, 0, 0)] [(1, 0, 0); (0, 1, 0)].
(** Draw2DLattice.py:34-37 *)
Definition draw_triangle : cell := Cell 2 [(0, 0, 0)] [(1, 0, 0); (0.5, sqrt 3 / 2, 0)].
(** Draw2DLattice.py:39-42 *)
Definition draw_honeycomb : cell := Cell 2 [(0, 0, 0); (0, 1 / sqrt 3, 0)] [(1, 0, 0); (0.5, sqrt 3 / 2, 0)].
(** Draw2DLattice.py:44-49 *)
Definition draw_kagome : cell := Cell 2 [(0, 0, 0); (0.25, sqrt 3 / 4, 0); (0.5, 0, 0)] [(1, 0, 0); (0.5, sqrt 3 / 2, 0)].
(** Draw2DLattice.py:51-63 [_common_cells_info] *)
Definition draw_cells : list (string * cell) :=
  [("s", draw_square); ("square", draw_square); ("t", draw_triangle); ("triangle", draw_triangle);
   ("h", draw_honeycomb); ("honeycomb", draw_honeycomb); ("k", draw_kagome); ("kagome", draw_kagome)]%string.

(** Draw2DLattice.py:66-79 [_sites_factory]: an empty product is a one-dimensional
    array of length 0, which np.matmul refuses (ValueError). *)
Definition sites_factory (which : string) (num0 num1 : Z) : res (list point) :=
  match find_cell draw_cells which with
  | None => Err KeyError
  | Some info =>
      match cart [zrange (- num0) (num0 + 1); zrange (- num1) (num1 + 1)] with
      | [] => Err ValueError
      | mesh => let dRs := map (fun ns => comb ns (cvectors info)) mesh in
                Ok (flat_map (fun dR => map (vadd dR) (cpoints info)) dRs)
      end
  end.

(** Python's min of an array; ValueError if it is empty *)
Definition py_min (l : list R) : res R :=
  match l with [] => Err ValueError | x :: r => Ok (fold_left Rmin r x) end.
(** cKDTree(sites).query_pairs(r), as the list of the pairs i < j at distance at most r
    (the code turns a Python set into a list: the order is not specified there). *)
Definition query_pairs (sites : list point) (r : R) : list (nat * nat) :=
  filter (fun ij => Rleb (dist (nth (fst ij) sites v0) (nth (snd ij) sites v0)) r)
    (flat_map (fun i => map (pair i) (seq (S i) (List.length sites - S i))) (seq 0 (List.length sites))).
(** Draw2DLattice.py:82-86 [_bonds_generator]: sites[pairs] *)
Definition bonds_generator (sites : list point) : res (list (point * point)) :=
  m <- py_min (pdist sites) ;;
  let min_dist := m + 0.0001 in
  Ok (map (fun ij => (nth (fst ij) sites v0, nth (snd ij) sites v0)) (query_pairs sites min_dist)).

(** Draw2DLattice.py:165-180: the file the figure is saved to (None: not saved) *)
Definition default_name (which : string) : string :=
  if existsb (String.eqb which) ["s"; "square"]%string then "square.pdf"
  else if existsb (String.eqb which) ["t"; "triangle"]%string then "triangle.pdf"
  else if existsb (String.eqb which) ["h"; "honeycomb"]%string then "honeycomb.pdf"
  else if existsb (String.eqb which) ["k"; "kagome"]%string then "kagome.pdf"
  else (which ++ ".pdf")%string.
Definition saved_file (which : string) (save : bool) (path : string) (name : option string) : option string :=
  if save then Some (path ++ match name with Some n => n | None => default_name which end)%string else None.

(** What [show] (Draw2DLattice.py:89-180) plots: the sites, the bonds if [link] is set,
    and the file written.  The sites are computed first, so an unknown name is a
    KeyError before anything is drawn. *)
Record figure := Figure { f_sites : list point; f_bonds : option (list (point * point)); f_file : option string }.
Definition show (which : string) (num0 num1 : Z) (link save : bool) (path : string) (name : option string) : res figure :=
  sites <- sites_factory which num0 num1 ;;
  bonds <- (if link then b <- bonds_generator sites ;; Ok (Some b) else Ok None) ;;
  Ok (Figure sites bonds (saved_file which save path name)).

(** BrillouinZone.py:17-20 *)
Definition BZ_As : list point := [(1, 0, 0); (0.5, sqrt 3 / 2, 0)].
Definition BZ_Bs : list point := map (vscale (2 * PI)) [(1, -1 / sqrt 3, 0); (0, 2 / sqrt 3, 0)].
(** BrillouinZone.py:23-35 *)
Definition BZ_Gamma : point := (0, 0, 0).
Definition BZ_Ks : list point := map (vscale (2 * PI))
  [(-2 / 3, 0, 0); (-1 / 3, 1 / sqrt 3, 0); (1 / 3, 1 / sqrt 3, 0);
   (2 / 3, 0, 0); (1 / 3, -1 / sqrt 3, 0); (-1 / 3, -1 / sqrt 3, 0)].
Definition BZ_Ms : list point := map (vscale PI)
  [(-1, 1 / sqrt 3, 0); (0, 2 / sqrt 3, 0); (1, 1 / sqrt 3, 0);
   (1, -1 / sqrt 3, 0); (0, -2 / sqrt 3, 0); (-1, -1 / sqrt 3, 0)].
(** BrillouinZone.py:44-55: the nine reciprocal-lattice points drawn, and the end
    points of the eight segments *)
Definition BZ_points : list (list Z * point) :=
  map (fun config => (config, comb config BZ_Bs)) (cart [zrange (-1) 2; zrange (-1) 2]).
Definition BZ_segment (K : point) : point * point :=
  let center := vscale (1 / 2) K in
  let orthogonal_vector := (- coord 1 K, coord 0 K, 0) in
  (vadd center orthogonal_vector, vsub center orthogonal_vector).
Definition BZ_segments : list (point * point) :=
  map (fun cK => BZ_segment (snd cK)) (filter (fun cK => negb (match fst cK with [a; b] => (a =? 0)%Z && (b =? 0)%Z | _ => false end)) BZ_points).
