(** Model of HamiltonianPy/quantumoperator/particlesystem.py and of the
    fermionic part of HamiltonianPy/quantumoperator/factory.py. *)
From Coq Require Import List ZArith NArith Bool String.
From Verif Require Import Py GQ IndexTable_Model State_Model MatrixRepr_Model.
Import ListNotations.
Open Scope Z_scope.

(** The class of a SiteID/StateID object, [type(x)] and [isinstance]
    (StateID is a subclass of SiteID). *)
Inductive loc_class := CSite | CState.
Definition loc_type (x : loc) : loc_class := match x with LSite _ => CSite | LState _ => CState end.
Definition loc_isinst (x : loc) (c : loc_class) : bool :=
  match c, x with CSite, _ => true | CState, LState _ => true | CState, LSite _ => false end.
(** An IndexTable of sites/states, and [state_indices_table(state)]. *)
Definition state_table := table loc loc_class.
Definition make_state_table (objs : list loc) (start : Z) : res state_table :=
  IndexTable_Model.make py_eq loc_type loc_isinst objs start.
Definition state_index (t : state_table) (s : stateid) : res Z :=
  query_index py_eq loc_isinst t (LState s).

(** ** AoC *)

(** particlesystem.py:98-107: the attributes of an AoC. *)
Record aoc := MkAoc { a_otype : otype; a_state : stateid }.

(** particlesystem.py:77-107 [AoC.__init__]; [otype] is an int argument (the
    values True, 1.0, ... that compare equal to 0 or 1 are not distinguished).
    [zoom] is the module global _ZOOM of quantumstate.py at the time of the call. *)
Definition otype_of_int (z : Z) : option otype :=
  if z =? 0 then Some ANNIHILATION else if z =? 1 then Some CREATION else None.
Definition make_aoc (zoom : Z) (ot : Z) (site : list pynum) (spin orbit : pynum) : res aoc :=
  match otype_of_int ot with
  | None => Err AssertionError
  | Some o => match make_state zoom site spin orbit with
              | Ok s => Ok (MkAoc o s)
              | Err e => Err e
              end
  end.
Definition int_of_otype (o : otype) : Z := match o with ANNIHILATION => 0 | CREATION => 1 end.

(** particlesystem.py:107 [_tuple_form]; __hash__ (257-262) hashes it. *)
Definition aoc_form (x : aoc) : pv := VTup [VInt (int_of_otype (a_otype x)); state_form (a_state x)].
Definition aoc_hash_key (x : aoc) : pv := aoc_form x.

(** particlesystem.py:264-294 [__lt__]. *)
Definition aoc_lt (x y : aoc) : res bool :=
  match a_otype x, a_otype y with
  | CREATION, CREATION => py_cmp CLt (LState (a_state x)) (LState (a_state y))
  | CREATION, ANNIHILATION => Ok true
  | ANNIHILATION, CREATION => Ok false
  | ANNIHILATION, ANNIHILATION => py_cmp CGt (LState (a_state x)) (LState (a_state y))
  end.
(** particlesystem.py:296-319 [__gt__]. *)
Definition aoc_gt (x y : aoc) : res bool :=
  match a_otype x, a_otype y with
  | CREATION, CREATION => py_cmp CGt (LState (a_state x)) (LState (a_state y))
  | CREATION, ANNIHILATION => Ok false
  | ANNIHILATION, CREATION => Ok true
  | ANNIHILATION, ANNIHILATION => py_cmp CLt (LState (a_state x)) (LState (a_state y))
  end.
(** particlesystem.py:321-339 [__eq__], [__ne__]. *)
Definition aoc_eq (x y : aoc) : bool := veq (aoc_form x) (aoc_form y).
Definition aoc_ne (x y : aoc) : bool := negb (veq (aoc_form x) (aoc_form y)).
(** particlesystem.py:341-367 [__le__], [__ge__]: [a or b]. *)
Definition aoc_le (x y : aoc) : res bool :=
  match aoc_lt x y with Ok true => Ok true | Ok false => Ok (aoc_eq x y) | Err e => Err e end.
Definition aoc_ge (x y : aoc) : res bool :=
  match aoc_gt x y with Ok true => Ok true | Ok false => Ok (aoc_eq x y) | Err e => Err e end.

(** particlesystem.py:430-452 [derive]; None = argument not given.  The new
    instance is built from the stored coordinates with the current [zoom]. *)
Definition get {A} (o : option A) (d : A) : A := match o with Some a => a | None => d end.
Definition derive (zoom : Z) (x : aoc) (ot : option Z) (site : option (list pynum))
           (spin orbit : option pynum) : res aoc :=
  make_aoc zoom (get ot (int_of_otype (a_otype x)))
           (get site (s_coord (st_site (a_state x))))
           (get spin (NInt (st_spin (a_state x))))
           (get orbit (NInt (st_orbit (a_state x)))).

(** particlesystem.py:397-403 [dagger]. *)
Definition aoc_dagger (zoom : Z) (x : aoc) : res aoc :=
  derive zoom x (Some (match a_otype x with CREATION => 0 | ANNIHILATION => 1 end)) None None None.

(** particlesystem.py:405-428 [conjugate_of], [same_state]: None = [other] is
    not an AoC (TypeError). *)
Definition state_eq (s t : stateid) : bool := py_eq (LState s) (LState t).
Definition state_ne (s t : stateid) : bool := py_ne (LState s) (LState t).
Definition conjugate_of (x : aoc) (other : option aoc) : res bool :=
  match other with
  | Some y => Ok (negb (otype_eqb (a_otype x) (a_otype y)) && state_eq (a_state x) (a_state y))
  | None => Err TypeError
  end.
Definition same_state (x : aoc) (other : option aoc) : res bool :=
  match other with Some y => Ok (state_eq (a_state x) (a_state y)) | None => Err TypeError end.

(** particlesystem.py:454-490 [AoC.matrix_repr] (to_csr=True); matrix_function's
    defaults are coeff=1.0 and special_tag="general". *)
Definition aoc_matrix_repr (t : state_table) (x : aoc) (right : list N) (left : option (list N)) : res csr :=
  match state_index t (a_state x) with
  | Err e => Err e
  | Ok i => matrix_function [(i, a_otype x)] right left g1 Tgeneral
  end.

(** ** NumberOperator *)

(** particlesystem.py:542-564. *)
Record numop := MkNum { n_state : stateid }.
Definition make_numop (zoom : Z) (site : list pynum) (spin orbit : pynum) : res numop :=
  match make_state zoom site spin orbit with Ok s => Ok (MkNum s) | Err e => Err e end.
Definition numop_form (x : numop) : pv := VTup [VStr "N"; state_form (n_state x)].
Definition numop_hash_key (x : numop) : pv := numop_form x.
(** particlesystem.py:709-767: the six comparisons. *)
Definition numop_cmp (o : cop) (x y : numop) : res bool := vcmp o (numop_form x) (numop_form y).
Definition numop_eq (x y : numop) : bool := veq (numop_form x) (numop_form y).
Definition numop_ne (x y : numop) : bool := negb (veq (numop_form x) (numop_form y)).
(** particlesystem.py:806-811. *)
Definition numop_dagger (x : numop) : numop := x.
(** particlesystem.py:813-832. *)
Definition numop_derive (zoom : Z) (x : numop) (site : option (list pynum)) (spin orbit : option pynum) : res numop :=
  make_numop zoom (get site (s_coord (st_site (n_state x))))
             (get spin (NInt (st_spin (n_state x)))) (get orbit (NInt (st_orbit (n_state x)))).
(** particlesystem.py:834-863. *)
Definition numop_matrix_repr (t : state_table) (x : numop) (bases : list N) : res csr :=
  match state_index t (n_state x) with
  | Err e => Err e
  | Ok i => matrix_function [(i, CREATION); (i, ANNIHILATION)] bases None g1 Tnumber
  end.

(** [==] between an AoC and a NumberOperator: both methods return
    NotImplemented (isinstance fails), identity is False. *)
Definition aoc_eq_numop (x : aoc) (y : numop) : bool := false.

(** ** ParticleTerm *)

(** particlesystem.py:958-960: the attributes. *)
Record pterm := MkTerm { t_aocs : list aoc; t_coeff : GQ; t_class : tag }.

(** A value given as [coeff]: a number or anything else. *)
Inductive pycoeff := CNum (c : GQ) | CBad.

(** particlesystem.py:919-960 [ParticleTerm.__init__]; [cls = None] is a string
    outside the four supported values. *)
Definition make_pterm (aocs : list aoc) (coeff : pycoeff) (cls : option tag) : res pterm :=
  match coeff with
  | CBad => Err AssertionError
  | CNum c => match cls with
              | None => Err AssertionError
              | Some t => Ok (MkTerm aocs c t)
              end
  end.

(** particlesystem.py:970-973: the [coeff] setter. *)
Definition set_coeff (t : pterm) (c : pycoeff) : res pterm :=
  match c with CNum c => Ok (MkTerm (t_aocs t) c (t_class t)) | CBad => Err AssertionError end.

(** particlesystem.py:1004-1037 [check_compatibility]. *)
Definition is_creation (x : aoc) : bool := otype_eqb (a_otype x) CREATION.
Definition is_annihilation (x : aoc) : bool := otype_eqb (a_otype x) ANNIHILATION.
Definition check_compatibility (t : pterm) : bool :=
  match t_class t with
  | Thopping => match t_aocs t with
                | [x; y] => is_creation x && is_annihilation y && state_ne (a_state x) (a_state y)
                | _ => false
                end
  | Tnumber => match t_aocs t with
               | [x; y] => is_creation x && is_annihilation y && state_eq (a_state x) (a_state y)
               | _ => false
               end
  | TCoulomb => match t_aocs t with
                | [x; y; z; w] =>
                    is_creation x && is_annihilation y && is_creation z && is_annihilation w &&
                    state_eq (a_state x) (a_state y) && state_eq (a_state z) (a_state w)
                | _ => false
                end
  | Tgeneral => true
  end.

(** particlesystem.py:769-784 [toterm]. *)
Definition toterm (zoom : Z) (n : numop) : res pterm :=
  let s := n_state n in
  match make_aoc zoom 1 (s_coord (st_site s)) (NInt (st_spin s)) (NInt (st_orbit s)) with
  | Err e => Err e
  | Ok c => match make_aoc zoom 0 (s_coord (st_site s)) (NInt (st_spin s)) (NInt (st_orbit s)) with
            | Err e => Err e
            | Ok a => make_pterm [c; a] (CNum g1) (Some Tgeneral)
            end
  end.

(** ** The [*] operator *)

(** An operand: the classes of this module, a Python number, or an object of
    an unrelated class that implements neither [__mul__] nor [__rmul__].
    numpy scalars (which implement [__mul__] themselves) are not modelled. *)
Inductive operand := OAoc (x : aoc) | ONum (n : numop) | OTerm (t : pterm) | OScalar (c : GQ) | OForeign.

(** particlesystem.py:1095-1115; None = NotImplemented. *)
Definition term_mul (self : pterm) (other : operand) : option (res operand) :=
  let mk aocs c := Some (match make_pterm aocs (CNum c) (Some Tgeneral) with Ok t => Ok (OTerm t) | Err e => Err e end) in
  match other with
  | OTerm o => mk (t_aocs self ++ t_aocs o) (gmul (t_coeff self) (t_coeff o))
  | OAoc x => mk (t_aocs self ++ [x]) (t_coeff self)
  | OScalar c => mk (t_aocs self) (gmul (t_coeff self) c)
  | _ => None
  end.
(** particlesystem.py:1117-1134. *)
Definition term_rmul (self : pterm) (other : operand) : option (res operand) :=
  let mk aocs c := Some (match make_pterm aocs (CNum c) (Some Tgeneral) with Ok t => Ok (OTerm t) | Err e => Err e end) in
  match other with
  | OAoc x => mk ([x] ++ t_aocs self) (t_coeff self)
  | OScalar c => mk (t_aocs self) (gmul c (t_coeff self))
  | _ => None
  end.
(** particlesystem.py:369-382 and 384-395. *)
Definition aoc_mul (self : aoc) (other : operand) : option (res operand) :=
  let mk aocs c := Some (match make_pterm aocs (CNum c) (Some Tgeneral) with Ok t => Ok (OTerm t) | Err e => Err e end) in
  match other with
  | OAoc y => mk [self; y] g1
  | OScalar c => mk [self] c
  | _ => None
  end.
Definition aoc_rmul (self : aoc) (other : operand) : option (res operand) :=
  let mk aocs c := Some (match make_pterm aocs (CNum c) (Some Tgeneral) with Ok t => Ok (OTerm t) | Err e => Err e end) in
  match other with OScalar c => mk [self] c | _ => None end.

Definition same_py_class (x y : operand) : bool :=
  match x, y with
  | OAoc _, OAoc _ | ONum _, ONum _ | OTerm _, OTerm _ | OScalar _, OScalar _ | OForeign, OForeign => true
  | _, _ => false
  end.

(** CPython's binary [x * y]: [type(x).__mul__(x, y)]; on NotImplemented, if the
    types differ, [type(y).__rmul__(y, x)]; else TypeError.
    NumberOperator's methods (particlesystem.py:786-804) evaluate
    [self.toterm() * other] and [other * self.toterm()] recursively; the
    recursion depth is at most three and [fuel] bounds it (fuel 0 is never
    reached from [py_mul], cf. the theorems). *)
Fixpoint py_mul_fuel (fuel : nat) (zoom : Z) (x y : operand) : res operand :=
  match fuel with
  | O => Err RuntimeError
  | S f =>
      let mul := match x with
                 | OAoc a => aoc_mul a y
                 | OTerm t => term_mul t y
                 | ONum n => Some (match toterm zoom n with
                                   | Err e => Err e
                                   | Ok t => py_mul_fuel f zoom (OTerm t) y
                                   end)
                 | OScalar c => match y with OScalar d => Some (Ok (OScalar (gmul c d))) | _ => None end
                 | OForeign => None
                 end in
      match mul with
      | Some r => r
      | None =>
          let rmul := if same_py_class x y then None else
                      match y with
                      | OAoc a => aoc_rmul a x
                      | OTerm t => term_rmul t x
                      | ONum n => Some (match toterm zoom n with
                                        | Err e => Err e
                                        | Ok t => py_mul_fuel f zoom x (OTerm t)
                                        end)
                      | OScalar _ => None
                      | OForeign => None
                      end in
          match rmul with Some r => r | None => Err TypeError end
      end
  end.
Definition py_mul := py_mul_fuel 3.

(** ** normalize *)

(** particlesystem.py:1174-1184, the inner loop [for i in range(0, n)] with
    n = remaining_length - 1: compares items i and i+1 of the current list and
    swaps them in place.  Written by recursion on the list: after step i the
    element at position i is final for this pass. *)
Fixpoint bubble_pass (n : nat) (aocs : list aoc) (swap_count : nat) : res (list aoc * nat) :=
  match n with
  | O => Ok (aocs, swap_count)
  | S n' =>
      match aocs with
      | aoc0 :: aoc1 :: rest =>
          match aoc_gt aoc0 aoc1 with
          | Err e => Err e
          | Ok true =>
              if state_ne (a_state aoc0) (a_state aoc1) then
                match bubble_pass n' (aoc0 :: rest) (S swap_count) with
                | Ok (l, c) => Ok (aoc1 :: l, c)
                | Err e => Err e
                end
              else Err SwapFermionError
          | Ok false =>
              match bubble_pass n' (aoc1 :: rest) swap_count with
              | Ok (l, c) => Ok (aoc0 :: l, c)
              | Err e => Err e
              end
          end
      | _ => Ok (aocs, swap_count)
      end
  end.
(** particlesystem.py:1173: [for remaining_length in range(length, 1, -1)]. *)
Fixpoint bubble_passes (remaining : nat) (aocs : list aoc) (swap_count : nat) : res (list aoc * nat) :=
  match remaining with
  | S (S _ as r) =>
      match bubble_pass r aocs swap_count with
      | Ok (l, c) => bubble_passes r l c
      | Err e => Err e
      end
  | _ => Ok (aocs, swap_count)
  end.
(** particlesystem.py:1136-1185 [normalize]. *)
Definition normalize (aocs : list aoc) : res (list aoc * nat) := bubble_passes (List.length aocs) aocs 0.

(** particlesystem.py:1187-1193 [ParticleTerm.dagger]. *)
Definition pterm_dagger (zoom : Z) (t : pterm) : res pterm :=
  match mapM (aoc_dagger zoom) (rev (t_aocs t)) with
  | Err e => Err e
  | Ok aocs => make_pterm aocs (CNum (gconj (t_coeff t))) (Some Tgeneral)
  end.

(** particlesystem.py:1195-1243 [ParticleTerm.matrix_repr] (to_csr=True): returns
    the result and the term afterwards (the coefficient is assigned first). *)
Definition pterm_matrix_repr (tbl : state_table) (t : pterm) (right : list N)
           (left : option (list N)) (coeff : option pycoeff) : res csr * pterm :=
  let '(err, t') := match coeff with
                    | None => (None, t)
                    | Some c => match set_coeff t c with
                                | Ok t' => (None, t')
                                | Err e => (Some e, t)
                                end
                    end in
  match err with
  | Some e => (Err e, t)
  | None =>
      (match mapM (fun x => match state_index tbl (a_state x) with
                            | Ok i => Ok (i, a_otype x) | Err e => Err e end) (t_aocs t') with
       | Err e => Err e
       | Ok term => matrix_function term right left (t_coeff t') (t_class t')
       end, t')
  end.

(** ** Factories (factory.py) *)

(** factory.py:26-54, 57-85. *)
Definition Creator zoom site spin orbit := make_aoc zoom 1 site spin orbit.
Definition Annihilator zoom site spin orbit := make_aoc zoom 0 site spin orbit.

Open Scope res_scope.
(** factory.py:88-125. *)
Definition CPFactory (zoom : Z) site spin orbit (coeff : pycoeff) : res pterm :=
  c <- make_aoc zoom 1 site spin orbit ;;
  a <- make_aoc zoom 0 site spin orbit ;;
  make_pterm [c; a] coeff (Some Tnumber).
(** factory.py:128-186. *)
Definition HoppingFactory (zoom : Z) site0 site1 spin0 (spin1 : option pynum) orbit0 (orbit1 : option pynum)
           (coeff : pycoeff) : res pterm :=
  let spin1 := get spin1 spin0 in
  let orbit1 := get orbit1 orbit0 in
  c <- make_aoc zoom 1 site0 spin0 orbit0 ;;
  a <- make_aoc zoom 0 site1 spin1 orbit1 ;;
  make_pterm [c; a] coeff (Some (if state_ne (a_state c) (a_state a) then Thopping else Tnumber)).
(** factory.py:189-247. *)
Inductive pairing := WhichH | WhichHole | WhichP | WhichParticle | WhichOther.
Definition PairingFactory (zoom : Z) site0 site1 spin0 spin1 orbit0 orbit1 (coeff : pycoeff) (which : pairing) : res pterm :=
  match which with
  | WhichOther => Err AssertionError
  | _ =>
    let otype := match which with WhichH | WhichHole => 0 | _ => 1 end in
    x <- make_aoc zoom otype site0 spin0 orbit0 ;;
    y <- make_aoc zoom otype site1 spin1 orbit1 ;;
    make_pterm [x; y] coeff (Some Tgeneral)
  end.
(** factory.py:250-292; SPIN_UP = 1, SPIN_DOWN = 0 (constant.py:23-24). *)
Definition HubbardFactory (zoom : Z) site orbit (coeff : pycoeff) : res pterm :=
  c_up <- make_aoc zoom 1 site (NInt 1) orbit ;;
  c_down <- make_aoc zoom 1 site (NInt 0) orbit ;;
  a_up <- make_aoc zoom 0 site (NInt 1) orbit ;;
  a_down <- make_aoc zoom 0 site (NInt 0) orbit ;;
  make_pterm [c_up; a_up; c_down; a_down] coeff (Some TCoulomb).
(** factory.py:295-341. *)
Definition CoulombFactory (zoom : Z) site0 site1 spin0 spin1 orbit0 orbit1 (coeff : pycoeff) : res pterm :=
  c0 <- make_aoc zoom 1 site0 spin0 orbit0 ;;
  a0 <- make_aoc zoom 0 site0 spin0 orbit0 ;;
  c1 <- make_aoc zoom 1 site1 spin1 orbit1 ;;
  a1 <- make_aoc zoom 0 site1 spin1 orbit1 ;;
  make_pterm [c0; a0; c1; a1] coeff (Some TCoulomb).

(** ** Histories of one ParticleTerm object (C17). *)
Inductive term_call :=
| SetCoeff (c : pycoeff)                                  (* term.coeff = c *)
| MatrixRepr (tbl : state_table) (right : list N) (left : option (list N)) (c : option pycoeff).
(** The result of a call (None for an assignment that succeeds). *)
Definition do_call (t : pterm) (k : term_call) : option (res csr) * pterm :=
  match k with
  | SetCoeff c => match set_coeff t c with Ok t' => (None, t') | Err e => (Some (Err e), t) end
  | MatrixRepr tbl rb lb c =>
      let '(r, t') := pterm_matrix_repr tbl t rb lb c in (Some r, t')
  end.
Fixpoint do_calls (t : pterm) (ks : list term_call) : list (option (res csr)) * pterm :=
  match ks with
  | [] => ([], t)
  | k :: r => let '(o, t') := do_call t k in
              let '(os, t'') := do_calls t' r in (o :: os, t'')
  end.
