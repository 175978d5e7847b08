(** Vocabulary for C61: the ferromagnetic state and its spin waves. *)
From Coq Require Import Reals String List ZArith Arith.
From Coquelicot Require Import Complex.
From Verif Require Import GQ CVec Lattice_Model Lattice_Spec LatticeGen_Model LatticeGen_Spec Free_Spec Bloch_Spec HeisenbergBonds_Spec.
Import ListNotations.
Local Open Scope nat_scope.

(** all spins up (the basis state with no bit set) *)
Definition all_up : vec := fun r => if Nat.eqb r 0 then c1 else c0.
(** the coupling as a real number *)
Definition coupling (J : GQ) : R := Re (gc J).
(** how often the pairs contain the site i; how often they connect i and j *)
Definition touches (i : nat) (p : nat * nat) : bool := (Nat.eqb (fst p) i || Nat.eqb (snd p) i)%bool.
Definition connects (i j : nat) (p : nat * nat) : bool := (touches i p && touches j p)%bool.
Definition degree (pairs : list (nat * nat)) (i : nat) : nat := length (filter (touches i) pairs).
Definition multiplicity (pairs : list (nat * nat)) (i j : nat) : nat := length (filter (connects i j) pairs).
(** One spin down in the ferromagnetic state: it hops with amplitude J/2 along the bonds, and has the
    energy -J/2 for every bond it cuts. *)
Definition magnon_matrix (J : R) (pairs : list (nat * nat)) : cmat := fun i j =>
  if Nat.eqb i j then RtoC (- (J / 2 * INR (degree pairs i))) else RtoC (J / 2 * INR (multiplicity pairs i j)).
(** The momenta that the periodic boundary conditions of the cluster allow. *)
Definition allowed (L : lattice) (k : point) : Prop := forall R, In R (vectors L) -> exists m : Z, vdot k R = (2 * PI * IZR m)%R.
(** The same for a plane wave of momentum k with one amplitude for each point of the cell; D lists the neighbours. *)
Definition spin_wave_matrix (c : cell) (D : nat -> list (nat * list Z)) (J : R) (k : point) : cmat := fun a b =>
  (bloch_matrix c J D k a b - RtoC (J * INR (length (D a))) * delta a b)%C.
(** The energy of a spin wave: -J/2 times the sum of 1 - cos k.d over the nearest neighbours d of a site. *)
Definition spin_wave (name : string) (c : cell) (J : R) (k : point) : R :=
  fold_right (fun e s => - (J / 2) * (1 - cos (vdot k (shift (snd e) (cvectors c)))) + s)%R 0%R (nearest_sites name 0).
