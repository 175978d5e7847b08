(** Common vocabulary: Python results and exceptions as values. *)
From Coq Require Import List ZArith.
Import ListNotations.

(** The exception classes the modelled code can raise.  [At e k] is an
    exception of class [e] whose message names the ordinal [k]
    (e.g. "The {0}th object already exists"). *)
Inductive exn : Type :=
| TypeError | ValueError | KeyError | AssertionError | OverflowError
| UnboundLocalError | IndexError | ZeroDivisionError | SwapFermionError
| RuntimeError | AttributeError | LinAlgError | NotImplementedError
| At (e : exn) (k : Z).

(** The outcome of a Python call: a value or an exception. *)
Inductive res (A : Type) : Type :=
| Ok (a : A)
| Err (e : exn).
Arguments Ok {A} a.
Arguments Err {A} e.

Definition bind {A B} (r : res A) (f : A -> res B) : res B :=
  match r with Ok a => f a | Err e => Err e end.
Declare Scope res_scope.
Delimit Scope res_scope with res.
Notation "x <- r ;; k" := (bind r (fun x => k))
  (at level 61, r at next level, right associativity) : res_scope.
Notation "' p <- r ;; k" := (bind r (fun x => match x with p => k end))
  (at level 61, p pattern, r at next level, right associativity) : res_scope.

(** [assert b]: AssertionError unless [b]. *)
Definition assert_ (b : bool) : res unit := if b then Ok tt else Err AssertionError.

(** List comprehension whose body may raise: left to right, first exception wins. *)
Fixpoint mapM {A B} (f : A -> res B) (l : list A) : res (list B) :=
  match l with
  | [] => Ok []
  | x :: r => match f x with
              | Err e => Err e
              | Ok y => match mapM f r with Err e => Err e | Ok ys => Ok (y :: ys) end
              end
  end.

Definition is_ok {A} (r : res A) : bool := match r with Ok _ => true | Err _ => false end.
