(** Vocabulary for C59: cluster perturbation theory. *)
From Coq Require Import Reals String List Arith ZArith.
From Coquelicot Require Import Complex.
From Verif Require Import Py CVec MatrixRepr_Model Lattice_Model GF_Model GF_Spec Free_Spec.
Local Open Scope C_scope.

(** Y is the inverse of the n x n matrix M. *)
Definition inverse_of (n : nat) (M Y : cmat) : Prop :=
  forall i j, (i < n)%nat -> (j < n)%nat ->
    csum n (fun k => M i k * Y k j) = delta i j /\ csum n (fun k => Y i k * M k j) = delta i j.

(** G' = G + G V G' and G' = G + G' V G. *)
Definition dyson (d : nat) (G V G' : cmat) : Prop :=
  forall i j, (i < d)%nat -> (j < d)%nat ->
    G' i j = G i j + csum d (fun k => csum d (fun l => G i k * V k l * G' l j)) /\
    G' i j = G i j + csum d (fun k => csum d (fun l => G' i k * V k l * G l j)).

(** G(omega) is the retarded function of d orthonormal states under some Hermitian
    matrix M: G_ij = <b_i| (omega + i eta - M)^-1 |b_j>. *)
Definition lehmann (d : nat) (eta : R) (G : R -> cmat) : Prop :=
  exists n M b, hermitian n M /\
    (forall i j, (i < d)%nat -> (j < d)%nat -> inner n (b i) (b j) = delta i j) /\
    forall omega i j, (i < d)%nat -> (j < d)%nat -> green "-" n M 0 (frequency omega eta) (b i) (b j) (G omega i j).

(** Two independent families of states: no function connects them. *)
Definition direct_sum (d1 : nat) (G1 G2 : cmat) : cmat := fun i j =>
  if Nat.ltb i d1 then (if Nat.ltb j d1 then G1 i j else c0)
  else (if Nat.ltb j d1 then c0 else G2 (i - d1)%nat (j - d1)%nat).

Definition add (A B : cmat) : cmat := fun i j => A i j + B i j.

(** What is used of the operator objects AoC (quantumoperator/particlesystem.py):
    [same p q] stands for "equal coordinates" in the sense of StateID. *)
Record operators {K : Type} (keqb : K -> K -> bool) (dagger : K -> K) (site_of : K -> point) (derive : K -> point -> K)
    (mk : otype -> Z -> point -> K) (same : point -> point -> bool) : Prop := {
  op_site : forall o s p, site_of (mk o s p) = p;
  op_derive : forall o s p q, derive (mk o s p) q = mk o s q;
  op_dagger : forall s p, dagger (mk CREATION s p) = mk ANNIHILATION s p /\ dagger (mk ANNIHILATION s p) = mk CREATION s p;
  op_same : forall p, same p p = true;
  op_eq : forall o s p o' s' p', keqb (mk o s p) (mk o' s' p') = true <-> o = o' /\ s = s' /\ same p p' = true }.

(** d.update(d') for dictionaries keyed by pairs. *)
Definition pairs_updated {K V : Type} (keqb : K -> K -> bool) (d d' dd : list ((K * K) * V)) : Prop :=
  forall a b, dict_get keqb a b dd = match dict_get keqb a b d' with Some v => Some v | None => dict_get keqb a b d end.

(** The dictionary [dd] holds the functions g0 of the operators with spin s0 and g1 of
    those with spin s1, on the sites [pts], listed along omegas, and nothing between
    different spins. *)
Definition two_spins {K : Type} (keqb : K -> K -> bool) (mk : otype -> Z -> point -> K) (pts : list point) (omegas : list R) (s0 s1 : Z)
    (g0 g1 : R -> cmat) (dd : list ((K * K) * list C)) : Prop :=
  forall i j p q, nth_error pts i = Some p -> nth_error pts j = Some q ->
    dict_get keqb (mk ANNIHILATION s0 p) (mk CREATION s0 q) dd = Some (List.map (fun omega => g0 omega i j) omegas) /\
    dict_get keqb (mk ANNIHILATION s1 p) (mk CREATION s1 q) dd = Some (List.map (fun omega => g1 omega i j) omegas) /\
    dict_get keqb (mk ANNIHILATION s0 p) (mk CREATION s1 q) dd = None /\
    dict_get keqb (mk ANNIHILATION s1 p) (mk CREATION s0 q) dd = None.

(** [rows]: one row per kpoint, one entry per omega; the entry x satisfies P k omega x. *)
Definition tabulates {V : Type} (omegas : list R) (kpoints : list point) (rows : list (list V)) (P : point -> R -> V -> Prop) : Prop :=
  length rows = length kpoints /\
  forall a k, nth_error kpoints a = Some k -> exists row, nth_error rows a = Some row /\ length row = length omegas /\
    forall w omega, nth_error omegas w = Some omega -> exists x, nth_error row w = Some x /\ P k omega x.
