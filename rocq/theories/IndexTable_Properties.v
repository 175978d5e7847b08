(** C01, C02: properties of IndexTable (HamiltonianPy/indextable.py). *)
From Coq Require Import List ZArith Bool Lia.
From Verif Require Import Py IndexTable_Model IndexTable_Spec IndexTable_Proofs.
Import ListNotations.
Open Scope Z_scope.

(** C01.  [eqb] is Python's [==] on the objects (an equivalence relation). *)
Theorem C01_index_table_bijection :
  forall (A T : Type) (eqb : A -> A -> bool) (type_of : A -> T) (isinst : A -> T -> bool),
  (forall x, eqb x x = true) ->
  (forall x y, eqb x y = eqb y x) ->
  (forall x y z, eqb x y = true -> eqb y z = true -> eqb x z = true) ->
  (forall x, isinst x (type_of x) = true) ->
  forall objs s t, make eqb type_of isinst objs s = Ok t ->
    (forall k x, nth_error objs k = Some x ->
       query_object t (PyInt (s + Z.of_nat k)) = Ok x /\
       (forall y, eqb x y = true -> isinst y (object_type t) = true ->
                  query_index eqb isinst t y = Ok (s + Z.of_nat k)) /\
       query_index eqb isinst t x = Ok (s + Z.of_nat k)) /\
    (forall z x, query_object t (PyInt z) = Ok x -> query_index eqb isinst t x = Ok z) /\
    (forall y z, query_index eqb isinst t y = Ok z ->
       exists x, query_object t (PyInt z) = Ok x /\ eqb x y = true) /\
    (forall z x, query_object t (PyInt z) = Ok x <->
       exists k, z = s + Z.of_nat k /\ nth_error objs k = Some x) /\
    len t = Z.of_nat (length objs) /\
    iter t = enum s objs /\ objects t = objs /\ indices t = map fst (enum s objs).
Proof. exact @make_bijection. Qed.
Print Assumptions C01_index_table_bijection.

(** C02: the constructor accepts exactly the non-empty, uniformly typed,
    duplicate-free collections ... *)
Theorem C02_constructor_accepts_iff :
  forall (A T : Type) (eqb : A -> A -> bool) (type_of : A -> T) (isinst : A -> T -> bool),
  forall objs s,
    (exists t, make eqb type_of isinst objs s = Ok t) <->
    objs <> [] /\ same_type type_of isinst objs /\ distinct eqb objs.
Proof. exact @make_ok_iff. Qed.
Print Assumptions C02_constructor_accepts_iff.

(** ... raises TypeError naming position [n] iff object [n] is the first
    unacceptable one and its type is wrong ... *)
Theorem C02_type_error_position :
  forall (A T : Type) (eqb : A -> A -> bool) (type_of : A -> T) (isinst : A -> T -> bool),
  forall objs s k,
    make eqb type_of isinst objs s = Err (At TypeError k) <->
    exists n x0 x, k = Z.of_nat n /\ (0 < n)%nat /\ nth_error objs 0 = Some x0 /\
      nth_error objs n = Some x /\ acceptable eqb type_of isinst (firstn n objs) /\
      isinst x (type_of x0) = false.
Proof. exact @make_type_error_iff. Qed.
Print Assumptions C02_type_error_position.

(** ... raises ValueError naming position [n] iff object [n] is the first
    unacceptable one, is well typed and repeats an earlier object ... *)
Theorem C02_value_error_position :
  forall (A T : Type) (eqb : A -> A -> bool) (type_of : A -> T) (isinst : A -> T -> bool),
  forall objs s k,
    make eqb type_of isinst objs s = Err (At ValueError k) <->
    exists n x0 x, k = Z.of_nat n /\ (0 < n)%nat /\ nth_error objs 0 = Some x0 /\
      nth_error objs n = Some x /\ acceptable eqb type_of isinst (firstn n objs) /\
      isinst x (type_of x0) = true /\
      exists j y, (j < n)%nat /\ nth_error objs j = Some y /\ eqb y x = true.
Proof. exact @make_value_error_iff. Qed.
Print Assumptions C02_value_error_position.

(** ... and UnboundLocalError (not a documented error) iff the iterable is empty;
    there is no other failure. *)
Theorem C02_empty_collection :
  forall (A T : Type) (eqb : A -> A -> bool) (type_of : A -> T) (isinst : A -> T -> bool),
  forall objs s, make eqb type_of isinst objs s = Err UnboundLocalError <-> objs = [].
Proof. exact @make_empty_iff. Qed.
Print Assumptions C02_empty_collection.

Theorem C02_no_other_error :
  forall (A T : Type) (eqb : A -> A -> bool) (type_of : A -> T) (isinst : A -> T -> bool),
  forall objs s e, make eqb type_of isinst objs s = Err e ->
    e = UnboundLocalError \/ (exists k, e = At TypeError k) \/ (exists k, e = At ValueError k).
Proof. exact @make_no_other_error. Qed.
Print Assumptions C02_no_other_error.

(** C02: queries. *)
Theorem C02_query_index_errors :
  forall (A T : Type) (eqb : A -> A -> bool) (type_of : A -> T) (isinst : A -> T -> bool),
  forall objs s t y, make eqb type_of isinst objs s = Ok t ->
    (query_index eqb isinst t y = Err TypeError <-> isinst y (object_type t) = false) /\
    (query_index eqb isinst t y = Err KeyError <->
       isinst y (object_type t) = true /\ forall x, In x objs -> eqb x y = false) /\
    (exists x0 r, objs = x0 :: r /\ object_type t = type_of x0).
Proof. exact @query_index_errors. Qed.
Print Assumptions C02_query_index_errors.

Theorem C02_query_object_errors :
  forall (A T : Type) (eqb : A -> A -> bool) (type_of : A -> T) (isinst : A -> T -> bool),
  forall objs s t i, make eqb type_of isinst objs s = Ok t ->
    (query_object t i = Err TypeError <-> i = PyOther) /\
    (forall z, query_object t (PyInt z) = Err KeyError <->
               z < s \/ s + Z.of_nat (length objs) <= z) /\
    (forall b, query_object t (PyBool b) = query_object t (PyInt (if b then 1 else 0))).
Proof. exact @query_object_errors. Qed.
Print Assumptions C02_query_object_errors.

(** Non-vacuity.  Objects: (type tag, value), [==] compares values only (like
    Python's [1 == True]), [isinstance] compares tags. *)
Definition ex_eqb (x y : nat * Z) := snd x =? snd y.
Definition ex_inst (x : nat * Z) (t : nat) := Nat.eqb (fst x) t.
Example C01_example :
  exists t, make ex_eqb fst ex_inst [(0%nat, 7); (0%nat, -3); (0%nat, 5)] (-1) = Ok t /\
    query_index ex_eqb ex_inst t (0%nat, 5) = Ok 1 /\
    query_object t (PyInt (-1)) = Ok (0%nat, 7) /\
    query_object t (PyBool true) = Ok (0%nat, 5).
Proof. eexists; repeat split. Qed.
Example C01_example_hyps :
  (forall x, ex_eqb x x = true) /\ (forall x y, ex_eqb x y = ex_eqb y x) /\
  (forall x y z, ex_eqb x y = true -> ex_eqb y z = true -> ex_eqb x z = true) /\
  (forall x, ex_inst x (fst x) = true).
Proof.
  unfold ex_eqb, ex_inst. repeat split; intros.
  - apply Z.eqb_refl.
  - apply Z.eqb_sym.
  - apply Z.eqb_eq in H, H0. apply Z.eqb_eq. congruence.
  - apply Nat.eqb_refl.
Qed.
Example C02_example_type :
  make ex_eqb fst ex_inst [(0%nat, 7); (0%nat, 8); (1%nat, 7); (0%nat, 7)] 5 = Err (At TypeError 2).
Proof. reflexivity. Qed.
Example C02_example_value :
  make ex_eqb fst ex_inst [(0%nat, 7); (0%nat, 8); (0%nat, 7); (1%nat, 9)] 5 = Err (At ValueError 2).
Proof. reflexivity. Qed.
