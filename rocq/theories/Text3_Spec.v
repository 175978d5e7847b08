(** Vocabulary for C63. *)
From Coq Require Import String List ZArith Reals.
From Verif Require Import Py ColorPrint_Model.
Import ListNotations.
Local Open Scope string_scope.

(** A digit. *)
Definition digit (d : Z) : Prop := (0 <= d <= 9)%Z.
(** [decimal t v]: the text t is a decimal number with four decimals, of value v. *)
Definition decimal (t : string) (v : R) : Prop :=
  exists (minus : bool) n d1 d2 d3 d4, (0 <= n)%Z /\ digit d1 /\ digit d2 /\ digit d3 /\ digit d4 /\
    t = (if minus then "-" else "") ++ dec n ++ "." ++ dec d1 ++ dec d2 ++ dec d3 ++ dec d4 /\
    v = ((if minus then -1 else 1) * (IZR n + IZR d1 / 10 + IZR d2 / 100 + IZR d3 / 1000 + IZR d4 / 10000))%R.
