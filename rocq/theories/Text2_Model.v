(** Model of the printed forms of Hilbert spaces, tables and bonds, and of the names of
    clusters. *)
From Coq Require Import String List ZArith NArith QArith Bool Ascii.
From Verif Require Import Py Float64_Model State_Model ColorPrint_Model Text_Model Bond_Model Hilbert_Model.
Import ListNotations.
Local Open Scope string_scope.

(** repr of a tuple of states *)
Definition states_repr (l : list N) : string := tuple_repr (map (fun n => dec (Z.of_N n)) l).
(** hilbertspace.py:246-253 [SimpleHilbertSpace.__repr__] *)
Definition simple_repr (s : simple_space) : string :=
  "SimpleHilbertSpace(" ++ states_repr (ss_states s) ++ ", " ++ dec (ss_number s) ++ ")".
(** hilbertspace.py:255-268 [SimpleHilbertSpace.__str__] *)
Definition simple_str (s : simple_space) : string :=
  join newline ["The number of particle: " ++ dec (ss_number s);
                "The number of single-particle state: " ++ dec (Z.of_nat (List.length (ss_states s)));
                "All available single-particle states:";
                "    " ++ states_repr (ss_states s)].
(** The text of a float particle number is Python's, [F]. *)
Definition pnum_repr (F : Q -> string) (p : pnum) : string := match p with NumI z => dec z | NumF q => F q end.
Definition specifier_repr (F : Q -> string) (s : list N * pnum) : string := tuple_repr [states_repr (fst s); pnum_repr F (snd s)].
(** hilbertspace.py:412-420 [HilbertSpace.__repr__] *)
Definition space_repr (F : Q -> string) (s : space) : string := "HilbertSpace(" ++ join ", " (map (specifier_repr F) s) ++ ")".
(** hilbertspace.py:422-435 [HilbertSpace.__str__] *)
Definition space_str (F : Q -> string) (s : space) : string :=
  join newline (["subspace number: " ++ dec (Z.of_nat (List.length s)); "subspace specifiers:"] ++ map (fun x => "    " ++ specifier_repr F x) s).

(** "{0:<8}": padded with spaces on the right to 8 characters. *)
Fixpoint spaces (n : nat) : string := match n with O => "" | S k => " " ++ spaces k end.
Definition pad8 (s : string) : string := s ++ spaces (8 - String.length s).
(** indextable.py:99-113 [IndexTable.__str__]; [rep] is repr of the objects. *)
Definition table_str {A T : Type} (rep : A -> string) (t : IndexTable_Model.table A T) : string :=
  join newline (["Index   Object"; "=============="] ++
    map (fun ik => pad8 (dec (fst ik)) ++ rep (snd ik)) (IndexTable_Model.index2object t)).

(** tuple(self._p0): the numpy scalars print like Python numbers (numpy 1.x). *)
Definition arr_repr (T : pytext) (a : arr) : string :=
  tuple_repr (match a with AI l => map dec l | AF l => map (float_repr T) l end).
(** bond.py:285-293 [Bond.__repr__] *)
Definition bond_repr (T : pytext) (b : bond) : string :=
  "Bond(p0=" ++ arr_repr T (b_p0 b) ++ ", p1=" ++ arr_repr T (b_p1 b) ++ ", directional=" ++ (if b_dir b then "True" else "False") ++ ")".

(** _lattice_database.py:522-541: the name given by lattice_generator (for accepted
    arguments). *)
Definition generator_name (which : string) (n0 n1 n2 : Z) : string :=
  if String.eqb which "chain" then
    if (n0 =? 1)%Z then "chain_cell" else "chain(" ++ dec n0 ++ ")"
  else if String.eqb which "cubic" then
    if ((n0 =? 1) && (n1 =? 1) && (n2 =? 1))%Z then "cubic_cell" else "cubic(" ++ dec n0 ++ "," ++ dec n1 ++ "," ++ dec n2 ++ ")"
  else if ((n0 =? 1) && (n1 =? 1))%Z then which ++ "_cell" else which ++ "(" ++ dec n0 ++ "," ++ dec n1 ++ ")".
(** _lattice_database.py:478: Lattice(..., name=which) *)
Definition special_name (which : string) : string := which.
