(** Vocabulary for C45, C46: what a Green function is, without reference to the solvers. *)
From Coq Require Import Reals String List Arith.
From Coquelicot Require Import Complex.
From Verif Require Import CVec Lanczos_Spec GF_Model.
Local Open Scope C_scope.

(** (z - GE + H) x for the sign "+", (z + GE - H) x otherwise. *)
Definition shifted (sign : string) (n : nat) (H : cmat) (GE : R) (z : C) (x : vec) : vec :=
  fun i => if String.eqb sign "+" then (z - RtoC GE) * x i + mv n H x i else (z + RtoC GE) * x i - mv n H x i.
(** z -/+ (E - GE): the same for an eigenvalue E. *)
Definition shifted_value (sign : string) (E GE : R) (z : C) : C :=
  if String.eqb sign "+" then z - RtoC GE + RtoC E else z + RtoC GE - RtoC E.
(** The operator has no kernel. *)
Definition invertible (sign : string) (n : nat) (H : cmat) (GE : R) (z : C) : Prop :=
  forall x, veqn n (shifted sign n H GE z x) vzero -> veqn n x vzero.
(** g = <a| (z -/+ (H - GE))^-1 |b>. *)
Definition green (sign : string) (n : nat) (H : cmat) (GE : R) (z : C) (a b : vec) (g : C) : Prop :=
  exists x, veqn n (shifted sign n H GE z x) b /\ g = inner n a x.
(** omega + i eta. *)
Definition frequency (omega eta : R) : C := (omega, eta).

(** The value stored under the pair (A, B) of a dictionary keyed by pairs. *)
Fixpoint dict_get {K V : Type} (keqb : K -> K -> bool) (A B : K) (d : list ((K * K) * V)) : option V :=
  match d with
  | nil => None
  | cons ((a, b), v) r => if (keqb a A && keqb b B)%bool then Some v else dict_get keqb A B r
  end.

(** The result [r] of a Multiple solver holds, for every A in As, B in Bs and
    omega in omegas, the number [f omega A B]: an array of shape
    (len(As), len(Bs), len(omegas)) indexed by positions, or, for
    structure = "dict", a dictionary with exactly the keys (A, B) and values
    listed along omegas. *)
Definition holds {K : Type} (keqb : K -> K -> bool) (structure : string) (omegas : list R) (As Bs : list K)
  (f : R -> K -> K -> C) (r : @gfs K) : Prop :=
  if String.eqb structure "dict" then
    exists d, r = GDict d /\
      (forall A B, In A As -> In B Bs -> dict_get keqb A B d = Some (map (fun omega => f omega A B) omegas)) /\
      (forall A B l, dict_get keqb A B d = Some l -> In A As /\ In B Bs)
  else
    exists arr, r = GArray arr /\ a3_0 arr = length As /\ a3_1 arr = length Bs /\ a3_2 arr = length omegas /\
      forall i j k A B omega, nth_error As i = Some A -> nth_error Bs j = Some B -> nth_error omegas k = Some omega ->
        a3_el arr i j k = f omega A B.

(** M maps the span of f_0 ... f_(d-1) into itself. *)
Definition invariant_span (n : nat) (M : cmat) (d : nat) (f : nat -> vec) : Prop :=
  forall v, in_span n d f v -> in_span n d f (mv n M v).
(** The first unit vector. *)
Definition e0 : vec := fun i => match i with O => c1 | _ => c0 end.
