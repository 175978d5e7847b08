(** Vocabulary for C61: the Heisenberg model on n spins 1/2. *)
From Coq Require Import Reals String List ZArith Bool Arith.
From Coquelicot Require Import Complex.
From Verif Require Import Py GQ Mat CVec Spin_Model Spin_Spec Lattice_Model LatticeBonds_Spec Free_Spec.
Import ListNotations.
Local Open Scope nat_scope.

(** the two sites a bond connects *)
Definition ends (k : link) : nat * nat := (from k, to k).

(** S_i . S_j = SxSx + SySy + SzSz *)
Definition site_dot (n i j : nat) : mat :=
  let d := 2 ^ n in
  madd (mmul d (spin_at n i SX) (spin_at n j SX))
       (madd (mmul d (spin_at n i SY) (spin_at n j SY)) (mmul d (spin_at n i SZ) (spin_at n j SZ))).
(** J times the sum of S_i . S_j over the listed pairs *)
Definition exchange (n : nat) (J : GQ) (pairs : list (nat * nat)) : mat :=
  fun r c => gmul J (lsum (fun p => site_dot n (fst p) (snd p) r c) pairs).
(** J times the sum of Sz_i over the listed pairs (i, i) *)
Definition self_field (n : nat) (J : GQ) (pairs : list (nat * nat)) : mat :=
  fun r c => gmul J (lsum (fun p => if Nat.eqb (fst p) (snd p) then spin_at n (fst p) SZ r c else g0) pairs).
(** J times the sum of S_i . S_(i+1 mod n) *)
Definition ring_exchange (n : nat) (J : GQ) : mat :=
  fun r c => gmul J (bigsum n (fun i => site_dot n i (next n i) r c)).
(** gs is a normalised eigenvector of H with energy GE *)
Definition eigenvector (d : nat) (H : cmat) (GE : R) (gs : vec) : Prop :=
  inner d gs gs = c1 /\ veqn d (mv d H gs) (fun i => (RtoC GE * gs i)%C).
(** <gs|S|gs> *)
Definition expectation (n : nat) (S : mat) (gs : vec) : C := inner (2 ^ n) gs (mv (2 ^ n) (cm S) gs).
(** S-_i |gs> *)
Definition lowered (n : nat) (gs : vec) (i : nat) : vec := mv (2 ^ n) (cm (spin_at n i SM)) gs.
(** [rows]: one row per omega, one entry per momentum; the entry x satisfies P omega k x. *)
Definition rows_of {X Y V : Type} (omegas : list X) (kpoints : list Y) (rows : list (list V)) (P : X -> Y -> V -> Prop) : Prop :=
  length rows = length omegas /\
  forall w omega, nth_error omegas w = Some omega -> exists row, nth_error rows w = Some row /\ length row = length kpoints /\
    forall a k, nth_error kpoints a = Some k -> exists x, nth_error row a = Some x /\ P omega k x.
(** SpinOperator objects as keys: two are equal when they are the same operator, S+ and S-
    of a site are adjoint, and the site can be read off. *)
Record spin_keys {K P : Type} (keqb : K -> K -> bool) (dagger : K -> K) (site_of : K -> P) (mk : string -> P -> K) : Prop := {
  sk_eq : forall a b, keqb a b = true <-> a = b;
  sk_dagger : forall p, dagger (mk "p"%string p) = mk "m"%string p;
  sk_site : forall o p, site_of (mk o p) = p }.
