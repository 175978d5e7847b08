(** Model of HamiltonianPy/quantumoperator/quantumstate.py. *)
From Coq Require Import List ZArith Bool String.
From Verif Require Import Py Float64_Model.
Import ListNotations.
Open Scope Z_scope.

(** ** Python's comparison of nested tuples of ints and strings. *)

(** The values stored in [_tuple_form]: ints, the string "N" and tuples of such. *)
Inductive pv := VInt (z : Z) | VStr (s : string) | VTup (l : list pv).

(** Python [==] on these values. *)
Fixpoint veq (a b : pv) {struct a} : bool :=
  match a, b with
  | VInt x, VInt y => x =? y
  | VStr x, VStr y => String.eqb x y
  | VTup la, VTup lb =>
      (fix go la lb : bool :=
         match la, lb with
         | [], [] => true
         | x :: la', y :: lb' => veq x y && go la' lb'
         | _, _ => false
         end) la lb
  | _, _ => false
  end.

Inductive cop := CLt | CLe | CGt | CGe.
Definition zop (o : cop) (x y : Z) : bool :=
  match o with CLt => x <? y | CLe => x <=? y | CGt => y <? x | CGe => y <=? x end.
Definition sop (o : cop) (x y : string) : bool :=
  match o, String.compare x y with
  | CLt, Lt | CLe, (Lt | Eq) | CGt, Gt | CGe, (Gt | Eq) => true
  | _, _ => false
  end.

(** Python [<], [<=], [>], [>=]: tuples compare their first unequal items, or
    their lengths if one is a prefix of the other; an int against a tuple or
    string raises TypeError (CPython tupleobject.c tuplerichcompare). *)
Fixpoint vcmp (o : cop) (a b : pv) {struct a} : res bool :=
  match a, b with
  | VInt x, VInt y => Ok (zop o x y)
  | VStr x, VStr y => Ok (sop o x y)
  | VTup la, VTup lb =>
      (fix go la lb : res bool :=
         match la, lb with
         | [], [] => Ok (zop o 0 0)
         | [], _ :: _ => Ok (zop o 0 1)
         | _ :: _, [] => Ok (zop o 1 0)
         | x :: la', y :: lb' => if veq x y then go la' lb' else vcmp o x y
         end) la lb
  | _, _ => Err TypeError
  end.

(** ** Precision: module global [_ZOOM] (quantumstate.py:21). *)
Definition default_zoom : Z := 10000.

(** A Python argument: an [int] (or bool), a [float], or something else
    (complex, str, ...; numpy scalars are not modelled). *)
Inductive pynum := NInt (z : Z) | NFlt (f : f64) | NOther.

(** quantumstate.py:25-48 [set_float_point_precision]: the new [_ZOOM]. *)
Definition set_float_point_precision (precision : pynum) : res Z :=
  match precision with
  | NInt p => if 0 <=? p then Ok (10 ^ p) else Err AssertionError
  | _ => Err AssertionError
  end.

(** quantumstate.py:107 [int(_ZOOM * coord)].  [_ZOOM] is an int: int * int is
    exact, int * float converts [_ZOOM] to float and rounds the product. *)
Definition quantise (zoom : Z) (c : pynum) : res Z :=
  match c with
  | NInt z => Ok (zoom * z)
  | NFlt f => match float_of_int zoom with
              | Ok zf => int_of_float (fmul zf f)
              | Err e => Err e
              end
  | NOther => Err TypeError
  end.

Definition is_real (c : pynum) : bool := match c with NOther => false | _ => true end.

(** A SiteID or StateID instance: its coordinates as given and [_tuple_form]. *)
Record siteid := MkSite { s_coord : list pynum; s_form : list Z }.
Record stateid := MkState { st_site : siteid; st_spin : Z; st_orbit : Z }.

(** quantumstate.py:88-107 [SiteID.__init__]. *)
Definition make_site (zoom : Z) (coords : list pynum) : res siteid :=
  let n := List.length coords in
  if (Nat.eqb n 1 || Nat.eqb n 2 || Nat.eqb n 3) && forallb is_real coords then
    match mapM (quantise zoom) coords with
    | Ok q => Ok (MkSite coords q)
    | Err e => Err e
    end
  else Err AssertionError.

(** quantumstate.py:301-325 [StateID.__init__]; the asserts on spin and orbit
    come first. *)
Definition nonneg_int (c : pynum) : option Z :=
  match c with NInt z => if 0 <=? z then Some z else None | _ => None end.
Definition make_state (zoom : Z) (coords : list pynum) (spin orbit : pynum) : res stateid :=
  match nonneg_int spin with
  | None => Err AssertionError
  | Some s =>
      match nonneg_int orbit with
      | None => Err AssertionError
      | Some o => match make_site zoom coords with
                  | Ok st => Ok (MkState st s o)
                  | Err e => Err e
                  end
      end
  end.

(** quantumstate.py:107 and 325: [_tuple_form]. *)
Definition site_form (s : siteid) : pv := VTup (map VInt (s_form s)).
Definition state_form (s : stateid) : pv :=
  VTup [site_form (st_site s); VInt (st_spin s); VInt (st_orbit s)].

(** An instance of SiteID proper or of its subclass StateID. *)
Inductive loc := LSite (s : siteid) | LState (s : stateid).
Definition form (l : loc) : pv :=
  match l with LSite s => site_form s | LState s => state_form s end.

(** quantumstate.py:174-179 [__hash__] is a function of [_tuple_form]. *)
Definition hash_key (l : loc) : pv := form l.

(** quantumstate.py:181-239: the six methods return NotImplemented (None) unless
    [isinstance(other, self.__class__)]; StateID is a subclass of SiteID. *)
Definition is_instance_of_class_of (other self : loc) : bool :=
  match self, other with
  | LSite _, _ => true
  | LState _, LState _ => true
  | LState _, LSite _ => false
  end.
Definition method_cmp (o : cop) (self other : loc) : option (res bool) :=
  if is_instance_of_class_of other self then Some (vcmp o (form self) (form other)) else None.
Definition method_eq (self other : loc) : option bool :=
  if is_instance_of_class_of other self then Some (veq (form self) (form other)) else None.
Definition method_ne (self other : loc) : option bool :=
  if is_instance_of_class_of other self then Some (negb (veq (form self) (form other))) else None.

Definition strict_subclass (sub sup : loc) : bool :=
  match sub, sup with LState _, LSite _ => true | _, _ => false end.
Definition reflected (o : cop) : cop :=
  match o with CLt => CGt | CLe => CGe | CGt => CLt | CGe => CLe end.

(** CPython's [do_richcompare]: if type(b) is a proper subclass of type(a) the
    reflected method of b goes first; then a's method; then b's reflected one;
    if all return NotImplemented, ordering raises TypeError. *)
Definition py_cmp (o : cop) (a b : loc) : res bool :=
  let try1 := if strict_subclass b a then method_cmp (reflected o) b a else None in
  match try1 with
  | Some r => r
  | None =>
      match method_cmp o a b with
      | Some r => r
      | None => match method_cmp (reflected o) b a with
                | Some r => r
                | None => Err TypeError
                end
      end
  end.
(** Same dispatch for [==]/[!=], whose last resort is identity; a SiteID and a
    StateID are never the same object, and the same-class methods always apply,
    so the last resort is only the constant below. *)
Definition py_eq (a b : loc) : bool :=
  match (if strict_subclass b a then method_eq b a else None) with
  | Some r => r
  | None => match method_eq a b with
            | Some r => r
            | None => match method_eq b a with Some r => r | None => false end
            end
  end.
Definition py_ne (a b : loc) : bool :=
  match (if strict_subclass b a then method_ne b a else None) with
  | Some r => r
  | None => match method_ne a b with
            | Some r => r
            | None => match method_ne b a with Some r => r | None => true end
            end
  end.
