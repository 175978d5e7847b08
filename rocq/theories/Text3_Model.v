(** Model of the printed forms of lines, bonds and lattices: line2d.py, bond.py,
    lattice/lattice.py.  Arithmetic is exact, as in Line2D_Model, Bond_Model and
    Lattice_Model; numpy's text of arrays and Python's text of floats are parameters. *)
From Coq Require Import String List ZArith Bool Reals.
From Flocq Require Import Core.Core.
From Verif Require Import Py Float64_Model State_Model ColorPrint_Model Text_Model Bond_Model Line2D_Model Lattice_Model Text2_Model.
Import ListNotations.
Local Open Scope string_scope.
Local Open Scope res_scope.

(** "{0:.4f}".format(x): the nearest multiple of 1/10000, ties to even.  Simplified: on
    reals, so that the text of the float -0.0, "-0.0000", does not occur. *)
Definition fixed4 (x : R) : string :=
  let n := ZnearestE (Rabs x * 10000) in
  (if Rlt_dec x 0 then "-" else "") ++ dec (n / 10000) ++ "." ++
  dec (n / 1000 mod 10) ++ dec (n / 100 mod 10) ++ dec (n / 10 mod 10) ++ dec (n mod 10).
(** line2d.py:105-117 [Line2D.__str__] *)
Definition line_str (l : line) : string :=
  if IsHorizontal l then "y = " ++ fixed4 (l_y0 l)
  else if IsVertical l then "x = " ++ fixed4 (l_x0 l)
  else "y = " ++ fixed4 (l_dy l / l_dx l) ++ "x + " ++ fixed4 (l_y0 l - l_x0 l * l_dy l / l_dx l).
(** line2d.py:83-86: the arrays kept by the constructor. *)
Definition line_arrays (p0 p1 : pobj) : res (arr * arr) :=
  match p0, p1 with
  | PVec l0, PVec l1 =>
      a0 <- np_array l0 ;; a1 <- np_array l1 ;;
      _ <- assert_ (Nat.eqb (alen a0) 2) ;; _ <- assert_ (Nat.eqb (alen a1) 2) ;; Ok (a0, a1)
  | _, _ => Err AssertionError
  end.
(** line2d.py:96-103 [Line2D.__repr__] *)
Definition line_repr (T : pytext) (a : arr * arr) : string :=
  "Line2D(p0=" ++ arr_repr T (fst a) ++ ", p1=" ++ arr_repr T (snd a) ++ ")".

(** What Python and numpy print: str of an array of a bond, of a float and of an array of
    floats. *)
Record numtext := MkNum { arr_text : arr -> string; real_text : R -> string; reals_text : list R -> string }.
Definition azimuth_text (N : numtext) (a : azimuth) : string :=
  match a with AzOne t => real_text N t | AzTwo s t => reals_text N [s; t] end.
(** bond.py:295-308 [Bond.__str__] (getLength, getAzimuth and getDisplace with their
    defaults: degrees, no rounding; the array returned by getDisplace() is the difference
    p1 - p0 itself, Bond_Model.getDisplace gives its values) *)
Definition bond_str (N : numtext) (b : bond) : res string :=
  let titles := ["P0"; "P1"; "Length"; "Azimuth"; "Displace"] in
  let contents := [arr_text N (b_p0 b); arr_text N (b_p1 b); real_text N (getLength b None)] in
  tail <- (if b_dir b then
             az <- getAzimuth b false None ;;
             _ <- getDisplace b None ;;
             Ok [azimuth_text N az; arr_text N (arr_sub (b_p1 b) (b_p0 b))]
           else Ok ["Undefined"; "Undefined"]) ;;
  Ok (join newline (map (fun tc => pad8 (fst tc) ++ ": " ++ snd tc) (combine titles (contents ++ tail)))).

(** lattice/lattice.py:195-213 [Lattice.__str__]; [A d p] is np.array2string of an array
    of d coordinates. *)
Definition lattice_str (A : nat -> point -> string) (L : lattice) : string :=
  let row p := "    " ++ A (space_dim L) p in
  join newline
    ([("Point Number: " ++ dec (Z.of_nat (List.length (points L))))%string;
      ("Space Dimension: " ++ dec (Z.of_nat (space_dim L)))%string;
      ("Translation Dimension: " ++ dec (Z.of_nat (List.length (vectors L))))%string;
      "Points:"] ++ map row (points L) ++ ["Vectors:"] ++ map row (vectors L) ++ ["Bs:"] ++ map row (bs L))%list.
