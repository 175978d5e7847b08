(** Vocabulary for C55: excitation energies and their moments. *)
From Coq Require Import Reals String Arith.
From Coquelicot Require Import Complex.
From Verif Require Import CVec.
Local Open Scope C_scope.

(** z^k. *)
Fixpoint cpow (z : C) (k : nat) : C := match k with O => c1 | S k' => z * cpow z k' end.
(** (H - GE) x for the sign "-", (GE - H) x for "+": the operator whose spectrum is the poles of the Green function. *)
Definition excitation (sign : string) (n : nat) (H : cmat) (GE : R) (x : vec) : vec :=
  fun i => if String.eqb sign "+" then RtoC GE * x i - mv n H x i else mv n H x i - RtoC GE * x i.
(** Its k-th power applied to x. *)
Fixpoint excited (sign : string) (n : nat) (H : cmat) (GE : R) (k : nat) (x : vec) : vec :=
  match k with O => x | S k' => excitation sign n H GE (excited sign n H GE k' x) end.
(** sum_(k < m) z^(m-1-k) <a|(H - GE)^k|b>: z^m times the first m terms of the expansion in 1/z. *)
Definition expansion (sign : string) (n : nat) (H : cmat) (GE : R) (z : C) (a b : vec) (m : nat) : C :=
  csum m (fun k => cpow z (m - 1 - k) * inner n a (excited sign n H GE k b)).
