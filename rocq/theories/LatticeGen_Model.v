(** HamiltonianPy/lattice/_lattice_database.py: the cells, lattice_generator and
    special_cluster.  Coordinates are exact reals, points are padded with zeros to
    three coordinates; the name of the lattice is not modelled. *)
From Coq Require Import String List Reals ZArith Bool.
From Verif Require Import Py Lattice_Model.
Import ListNotations.
Open Scope R_scope.
Local Open Scope res_scope.

(** The argument which: a string, another hashable object, or an unhashable one
    (the dict lookup then raises TypeError, which is not caught). *)
Inductive which_arg := Name (s : string) | OtherKey | Unhashable.
(** points and vectors of a cell, with the number of columns *)
Record cell := Cell { cdim : nat; cpoints : list point; cvectors : list point }.

(** lines 93-94, 342-345 *)
Definition chain_cell : cell := Cell 1 [(0, 0, 0)] [(1, 0, 0)].
(** lines 102-103, 347-350 *)
Definition square_cell : cell := Cell 2 [(0, 0, 0)] [(1, 0, 0); (0, 1, 0)].
(** lines 114-115, 352-355 *)
Definition triangle_cell : cell := Cell 2 [(0, 0, 0)] [(1, 0, 0); (0.5, sqrt 3 / 2, 0)].
(** lines 126-129, 357-360 *)
Definition honeycomb_cell : cell := Cell 2 [(0, -0.5 / sqrt 3, 0); (0, 0.5 / sqrt 3, 0)] [(1, 0, 0); (0.5, sqrt 3 / 2, 0)].
(** lines 140-143, 362-365 *)
Definition kagome_cell : cell := Cell 2 [(0, 0, 0); (0.25, sqrt 3 / 4, 0); (0.5, 0, 0)] [(1, 0, 0); (0.5, sqrt 3 / 2, 0)].
(** lines 154-157, 367-370 *)
Definition cubic_cell : cell := Cell 3 [(0, 0, 0)] [(1, 0, 0); (0, 1, 0); (0, 0, 1)].
(** _common_cells_info, lines 372-379 *)
Definition common_cells : list (string * cell) :=
  [("chain", chain_cell); ("square", square_cell); ("triangle", triangle_cell); ("honeycomb", honeycomb_cell); ("kagome", kagome_cell); ("cubic", cubic_cell)]%string.
(** dict lookup *)
Definition find_cell (table : list (string * cell)) (s : string) : option cell :=
  match find (fun e => String.eqb (fst e) s) table with Some (_, c) => Some c | None => None end.

(** assert isinstance(num, int) and num >= 1 *)
Definition at_least_one (num : int_arg) : res Z :=
  match num with AnInt n => if (1 <=? n)%Z then Ok n else Err AssertionError | NotInt => Err AssertionError end.
(** itertools.product over the given ranges *)
Fixpoint cart (rs : list (list Z)) : list (list Z) :=
  match rs with [] => [[]] | r :: rest => flat_map (fun x => map (cons x) (cart rest)) r end.
(** cell_vectors * np.array([[num0], [num1], ...]) *)
Fixpoint scale_rows (nums : list Z) (vs : list point) : list point :=
  match nums, vs with n :: nums', v :: vs' => vscale (IZR n) v :: scale_rows nums' vs' | _, _ => [] end.

(** lattice_generator, lines 484-549: the instance and its _all_distances. *)
Definition lattice_generator (prec : nat) (which : which_arg) (num0 num1 num2 : int_arg) : res (lattice * list R) :=
  n0 <- at_least_one num0 ;;
  n1 <- at_least_one num1 ;;
  n2 <- at_least_one num2 ;;
  match which with
  | Unhashable => Err TypeError
  | OtherKey => Err KeyError
  | Name s =>
      match find_cell common_cells s with
      | None => Err KeyError
      | Some info =>
          let whole := make_lattice prec (Arr (cdim info) (cpoints info)) (Arr (cdim info) (cvectors info)) in
          let build nums :=
            let vectors := scale_rows nums (cvectors info) in
            let mesh := cart (map (fun n => zrange 0 n) nums) in
            let dRs := map (fun ns => comb ns (cvectors info)) mesh in
            let points := flat_map (fun dR => map (vadd dR) (cpoints info)) dRs in
            make_lattice prec (Arr (cdim info) points) (Arr (cdim info) vectors) in
          if String.eqb s "chain" then
            if (n0 =? 1)%Z then whole else build [n0]
          else if String.eqb s "cubic" then
            if ((n0 =? 1) && (n1 =? 1) && (n2 =? 1))%Z then whole else build [n0; n1; n2]
          else
            if ((n0 =? 1) && (n1 =? 1))%Z then whole else build [n0; n1]
      end
  end.

(** lines 185-194 *)
Definition square_cross : cell := Cell 2
  [(-0.5, -0.5, 0); (-0.5, 0.5, 0); (0.5, 0.5, 0); (0.5, -0.5, 0);
   (-0.5, -1.5, 0); (-1.5, -0.5, 0); (-1.5, 0.5, 0); (-0.5, 1.5, 0);
   (0.5, 1.5, 0); (1.5, 0.5, 0); (1.5, -0.5, 0); (0.5, -1.5, 0)]
  [(3, -2, 0); (3, 2, 0)].
(** lines 202-212 *)
Definition square_z : cell := Cell 2
  [(-1.5, 1, 0); (-0.5, 1, 0); (0.5, 1, 0);
   (-1.5, 0, 0); (-0.5, 0, 0); (0.5, 0, 0); (1.5, 0, 0);
   (-0.5, -1, 0); (0.5, -1, 0); (1.5, -1, 0)]
  [(1, -3, 0); (3, 1, 0)].
(** lines 224-234 *)
Definition square_s : cell := Cell 2
  [(-0.5, 1, 0); (0.5, 1, 0); (1.5, 1, 0);
   (-1.5, 0, 0); (-0.5, 0, 0); (0.5, 0, 0); (1.5, 0, 0);
   (-1.5, -1, 0); (-0.5, -1, 0); (0.5, -1, 0)]
  [(3, -1, 0); (1, 3, 0)].
(** lines 246-260 *)
Definition triangle_star : cell := Cell 2
  [(0, 0, 0);
   (-0.5, - sqrt 3 / 2, 0); (-1, 0, 0); (-0.5, sqrt 3 / 2, 0);
   (0.5, sqrt 3 / 2, 0); (1, 0, 0); (0.5, - sqrt 3 / 2, 0);
   (0, - sqrt 3, 0); (-1.5, - sqrt 3 / 2, 0); (-1.5, sqrt 3 / 2, 0);
   (0, sqrt 3, 0); (1.5, sqrt 3 / 2, 0); (1.5, - sqrt 3 / 2, 0)]
  [(3.5, sqrt 3 / 2, 0); (1, 2 * sqrt 3, 0)].
(** lines 271-281 *)
Definition honeycomb_benzene : cell := Cell 2
  [(0, -1 / sqrt 3, 0); (-0.5, -0.5 / sqrt 3, 0);
   (-0.5, 0.5 / sqrt 3, 0);
   (0, 1 / sqrt 3, 0); (0.5, 0.5 / sqrt 3, 0);
   (0.5, -0.5 / sqrt 3, 0)]
  [(1.5, - sqrt 3 / 2, 0); (1.5, sqrt 3 / 2, 0)].
(** lines 292-303 *)
Definition honeycomb_diphenyl : cell := Cell 2
  [(-0.5, -1 / sqrt 3, 0); (-1, -0.5 / sqrt 3, 0);
   (-1, 0.5 / sqrt 3, 0); (-0.5, 1 / sqrt 3, 0);
   (0, 0.5 / sqrt 3, 0); (0.5, 1 / sqrt 3, 0);
   (1, 0.5 / sqrt 3, 0); (1, -0.5 / sqrt 3, 0);
   (0.5, -1 / sqrt 3, 0); (0, -0.5 / sqrt 3, 0)]
  [(2.5, - sqrt 3 / 2, 0); (2.5, sqrt 3 / 2, 0)].
(** lines 311-331 *)
Definition honeycomb_gear : cell := Cell 2
  [(0, -1 / sqrt 3, 0); (-0.5, -0.5 / sqrt 3, 0);
   (-0.5, 0.5 / sqrt 3, 0); (0, 1 / sqrt 3, 0);
   (0.5, 0.5 / sqrt 3, 0); (0.5, -0.5 / sqrt 3, 0);
   (0, -2 / sqrt 3, 0); (-0.5, -2.5 / sqrt 3, 0);
   (-1, -2 / sqrt 3, 0); (-1, -1 / sqrt 3, 0);
   (-1.5, -0.5 / sqrt 3, 0); (-1.5, 0.5 / sqrt 3, 0);
   (-1, 1 / sqrt 3, 0); (-1, 2 / sqrt 3, 0);
   (-0.5, 2.5 / sqrt 3, 0); (0, 2 / sqrt 3, 0);
   (0.5, 2.5 / sqrt 3, 0); (1, 2 / sqrt 3, 0);
   (1, 1 / sqrt 3, 0); (1.5, 0.5 / sqrt 3, 0);
   (1.5, -0.5 / sqrt 3, 0); (1, -1 / sqrt 3, 0);
   (1, -2 / sqrt 3, 0); (0.5, -2.5 / sqrt 3, 0)]
  [(3, - sqrt 3, 0); (3, sqrt 3, 0)].
(** _special_clusters_info, lines 416-443 *)
Definition special_clusters : list (string * cell) :=
  [("square_cross", square_cross); ("square_12", square_cross); ("cross", square_cross);
   ("square_z", square_z); ("z", square_z);
   ("square_s", square_s); ("s", square_s);
   ("triangle_star", triangle_star); ("triangle_13", triangle_star); ("star", triangle_star); ("SD", triangle_star);
   ("honeycomb_benzene", honeycomb_benzene); ("honeycomb_6", honeycomb_benzene); ("benzene", honeycomb_benzene);
   ("honeycomb_diphenyl", honeycomb_diphenyl); ("honeycomb_10", honeycomb_diphenyl); ("diphenyl", honeycomb_diphenyl);
   ("honeycomb_gear", honeycomb_gear); ("honeycomb_24", honeycomb_gear); ("gear", honeycomb_gear)]%string.
(** special_cluster, lines 446-481 *)
Definition special_cluster (prec : nat) (which : which_arg) : res (lattice * list R) :=
  match which with
  | Unhashable => Err TypeError
  | OtherKey => Err KeyError
  | Name s =>
      match find_cell special_clusters s with
      | None => Err KeyError
      | Some info => make_lattice prec (Arr (cdim info) (cpoints info)) (Arr (cdim info) (cvectors info))
      end
  end.
