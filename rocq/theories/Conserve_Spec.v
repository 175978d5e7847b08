(** Specification vocabulary for C56: Hamiltonians put together from the terms
    the factories return, and the quantities they conserve. *)
From Coq Require Import String List ZArith NArith Bool Arith.
From Verif Require Import Py GQ Mat State_Model State_Spec MatrixRepr_Model Fock_Spec Particle_Model Particle_Spec Spin_Model Spin_Spec.
Import ListNotations.
Local Open Scope nat_scope.
Local Open Scope gq_scope.

(** ** Spins *)

(** A user's loop [H += term.matrix_repr(table)] over a list of interactions. *)
Definition sum_reprs (tbl : state_table) (ts : list sinter) : res mat :=
  match mapM (fun t => fst (inter_matrix_repr tbl t None)) ts with
  | Ok ms => Ok (fun r c => lsum (fun m => s_ent m r c) ms)
  | Err e => Err e
  end.
(** All terms of a list of bonds, a bond giving a list of terms. *)
Definition all_terms {B} (f : B -> res (list sinter)) (bonds : list B) : res (list sinter) :=
  match mapM f bonds with Ok l => Ok (concat l) | Err e => Err e end.

(** A bond: the coordinates of two sites and a coupling. *)
Definition bond : Type := (list pynum * list pynum * GQ)%type.
Definition heisenberg_terms (zoom : Z) (b : bond) : res (list sinter) :=
  let '(site0, site1, c) := b in HeisenbergFactory zoom site0 site1 (CNum c).
Definition ising_terms (zoom : Z) (o : sotype) (b : bond) : res (list sinter) :=
  let '(site0, site1, c) := b in
  match IsingFactory zoom site0 site1 (otype_name o) (CNum c) with Ok t => Ok [t] | Err e => Err e end.
(** The anisotropic model: coupling c in the plane, c' along z. *)
Definition xxz_terms (zoom : Z) (b : bond * GQ) : res (list sinter) :=
  let '(site0, site1, c, c') := b in
  mapM (fun p => IsingFactory zoom site0 site1 (otype_name (fst p)) (CNum (snd p))) [(SX, c); (SY, c); (SZ, c')].

(** Both ends of a bond are sites of the table. *)
Definition on_table (zoom : Z) (tbl : state_table) (site0 site1 : list pynum) : Prop :=
  exists s0 s1 i0 i1, make_site zoom site0 = Ok s0 /\ make_site zoom site1 = Ok s1 /\
    site_index tbl s0 = Ok i0 /\ site_index tbl s1 = Ok i1.
Definition bond_on_table (zoom : Z) (tbl : state_table) (b : bond) : Prop := on_table zoom tbl (fst (fst b)) (snd (fst b)).

(** Number of down spins in a basis state. *)
Definition downs (n r : nat) : nat := List.length (filter (fun k => Nat.testbit r k) (seq 0 n)).

(** ** Particles *)

(** Number of occupied states among those selected by [sel] (states 0 .. n-1). *)
Definition occupied (sel : nat -> bool) (n : nat) (ket : N) : nat :=
  List.length (filter (fun p => sel p && N.testbit ket (N.of_nat p))%bool (seq 0 n)).
(** Creators minus annihilators among the operators of a term whose state
    satisfies [p]. *)
Definition net_created (p : stateid -> bool) (l : list aoc) : Z :=
  fold_right (fun x z => if p (a_state x) then match a_otype x with CREATION => z + 1 | ANNIHILATION => z - 1 end else z)%Z 0%Z l.
(** [sel] selects, by index, exactly the states of the table satisfying [p]. *)
Definition selects (tbl : state_table) (p : stateid -> bool) (sel : nat -> bool) : Prop :=
  forall s i, state_index tbl s = Ok i -> sel (Z.to_nat i) = p s.
(** A loop [H += term.matrix_repr(table, bases)] over a list of particle terms. *)
Definition sum_terms (tbl : state_table) (bases : list N) (ts : list pterm) : res mat :=
  match mapM (fun t => fst (pterm_matrix_repr tbl t bases None None)) ts with
  | Ok ms => Ok (fun r c => lsum (fun m => entry m r c) ms)
  | Err e => Err e
  end.
(** The terms a Hamiltonian without spin flips and pairings is made of: chemical
    potentials, density interactions, and hoppings whose second spin is left out
    or equal to the first. *)
Definition spin_conserving (zoom : Z) (t : pterm) : Prop :=
  (exists site spin orbit c, CPFactory zoom site spin orbit c = Ok t) \/
  (exists site orbit c, HubbardFactory zoom site orbit c = Ok t) \/
  (exists site0 site1 spin0 spin1 orbit0 orbit1 c, CoulombFactory zoom site0 site1 spin0 spin1 orbit0 orbit1 c = Ok t) \/
  (exists site0 site1 spin0 spin1 orbit0 orbit1 c, HoppingFactory zoom site0 site1 spin0 spin1 orbit0 orbit1 c = Ok t /\
     (spin1 = None \/ spin1 = Some spin0)).
