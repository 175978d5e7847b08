(** Model of HamiltonianPy/indextable.py. *)
From Coq Require Import List ZArith Bool.
From Verif Require Import Py.
Import ListNotations.
Open Scope Z_scope.

Section IndexTable.
  (** Python objects are an arbitrary type [A] of hashable values with Python's
      [==] ([eqb], assumed by the theorems to be an equivalence, as hashing
      requires), [type(x)] ([type_of]) and [isinstance(x, t)] ([isinst]). *)
  Context {A T : Type}.
  Variable eqb : A -> A -> bool.
  Variable type_of : A -> T.
  Variable isinst : A -> T -> bool.

  (** indextable.py:86-89: the attributes set by the constructor. *)
  Record table := MkTable {
    object2index : list (A * Z);   (* OrderedDict, insertion order *)
    index2object : list (Z * A);   (* OrderedDict, insertion order *)
    object_type : T;
    length_ : Z
  }.

  (** dict lookup [d[key]] on [_object2index] (absent = None); also [item in object2index]. *)
  Fixpoint lookup_obj (d : list (A * Z)) (x : A) : option Z :=
    match d with
    | [] => None
    | (y, i) :: r => if eqb y x then Some i else lookup_obj r x
    end.

  (** dict lookup on [_index2object]. *)
  Fixpoint lookup_idx (d : list (Z * A)) (i : Z) : option A :=
    match d with
    | [] => None
    | (j, x) :: r => if j =? i then Some x else lookup_idx r i
    end.

  (** Insertion of a key not present: appended at the end (OrderedDict). *)
  Definition insert {K V} (d : list (K * V)) (k : K) (v : V) := d ++ [(k, v)].

  (** indextable.py:66-84, the loop [for index, item in enumerate(objects, start)].
      [ot] is the local variable [object_type] (None = not yet assigned). *)
  Fixpoint init_loop (objs : list A) (start index : Z) (ot : option T)
           (o2i : list (A * Z)) (i2o : list (Z * A)) : res table :=
    match objs with
    | [] =>
        (* lines 86-89; line 88 raises UnboundLocalError if no object was seen *)
        match ot with
        | None => Err UnboundLocalError
        | Some t => Ok (MkTable o2i i2o t (Z.of_nat (List.length o2i)))
        end
    | item :: rest =>
        (* lines 69-76 *)
        let chk :=
          if index =? start then Ok (type_of item)
          else match ot with
               | None => Err UnboundLocalError
               | Some t => if isinst item t then Ok t else Err (At TypeError (index - start))
               end in
        match chk with
        | Err e => Err e
        | Ok t =>
            (* lines 78-84 *)
            match lookup_obj o2i item with
            | Some _ => Err (At ValueError (index - start))
            | None => init_loop rest start (index + 1) (Some t)
                                (insert o2i item index) (insert i2o index item)
            end
        end
    end.

  (** indextable.py:46-89 [IndexTable.__init__]. *)
  Definition make (objs : list A) (start : Z) : res table :=
    init_loop objs start start None [] [].

  (** indextable.py:145-174 [query_index], also [__call__] (176). *)
  Definition query_index (t : table) (key : A) : res Z :=
    if isinst key (object_type t) then
      match lookup_obj (object2index t) key with
      | Some i => Ok i
      | None => Err KeyError
      end
    else Err TypeError.

  (** A Python value handed to [query_object]: an [int], a [bool] (an [int]
      subclass, [True == 1]) or anything else. *)
  Inductive pyindex := PyInt (z : Z) | PyBool (b : bool) | PyOther.

  (** indextable.py:178-203 [query_object]. *)
  Definition query_object (t : table) (index : pyindex) : res A :=
    let look i := match lookup_idx (index2object t) i with
                  | Some x => Ok x | None => Err KeyError end in
    match index with
    | PyInt z => look z
    | PyBool b => look (if b then 1 else 0)
    | PyOther => Err TypeError
    end.

  (** indextable.py:115-143 [indices], [objects], [__iter__], [__len__]. *)
  Definition indices (t : table) : list Z := map fst (index2object t).
  Definition objects (t : table) : list A := map fst (object2index t).
  Definition iter (t : table) : list (Z * A) := index2object t.
  Definition len (t : table) : Z := length_ t.
End IndexTable.
Arguments table A T : clear implicits.
