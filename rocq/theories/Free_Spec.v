(** Vocabulary for C57: tight-binding Hamiltonians, their hopping matrix and its
    resolvent. *)
From Coq Require Import Reals Qreals String List ZArith NArith Bool Arith.
From Coquelicot Require Import Complex.
From Verif Require Import Py GQ Mat State_Model State_Spec MatrixRepr_Model Fock_Spec Particle_Model Particle_Spec Conserve_Spec
  CVec GF_Model GF_Spec.
Import ListNotations.
Local Open Scope C_scope.

(** A Gaussian rational as a complex number; a matrix entry by entry. *)
Definition gc (a : GQ) : C := (Q2R (Qcanon.this (re a)), Q2R (Qcanon.this (im a))).
Definition cm (m : mat) : cmat := fun r c => gc (m r c).
(** HM + HM.getH() *)
Definition with_hc (S : mat) : cmat := fun r c => gc (S r c) + Cj (gc (S c r)).

(** Terms c_s^dagger c_s' (HoppingFactory and CPFactory return such terms). *)
Definition one_body (zoom : Z) (t : pterm) : Prop :=
  check_compatibility t = true /\ Forall (built zoom) (t_aocs t) /\
  exists s s', t_aocs t = [MkAoc CREATION s; MkAoc ANNIHILATION s'].
(** The sum of the coefficients of the terms c_s^dagger c_s'. *)
Definition amplitude (ts : list pterm) (s s' : stateid) : GQ :=
  lsum (fun t => match t_aocs t with
                 | [x; y] => if (state_eq (a_state x) s && state_eq (a_state y) s')%bool then t_coeff t else g0
                 | _ => g0
                 end) ts.
(** The hopping matrix of terms + h.c. between the states st 0, st 1, ... *)
Definition hopping (ts : list pterm) (st : nat -> stateid) : cmat :=
  fun i j => gc (amplitude ts (st i) (st j)) + Cj (gc (amplitude ts (st j) (st i))).

(** The d states are pairwise different, belong to the table, and no term
    connects one of them to another state. *)
Definition closed_states (tbl : state_table) (ts : list pterm) (d : nat) (st : nat -> stateid) : Prop :=
  (forall k, (k < d)%nat -> exists i, state_index tbl (st k) = Ok i) /\
  (forall k l, (k < d)%nat -> (l < d)%nat -> same_st (st k) (st l) -> k = l) /\
  (forall t x y, In t ts -> t_aocs t = [x; y] ->
     ((exists k, (k < d)%nat /\ same_st (a_state x) (st k)) <-> (exists k, (k < d)%nat /\ same_st (a_state y) (st k)))).

(** gs is a normalised eigenvector of the matrix of terms + h.c. on the basis;
    the basis holds everything the terms and their daggers lead to. *)
Definition eigenstate (zoom : Z) (tbl : state_table) (ts : list pterm) (basis : list N) (gs : vec) (GE : R) : Prop :=
  sorted_bases basis /\
  (exists S, sum_terms tbl basis ts = Ok S /\
     veqn (length basis) (mv (length basis) (with_hc S) gs) (fun i => RtoC GE * gs i)) /\
  Forall (fun t => exists t' m, pterm_dagger zoom t = Ok t' /\ fst (pterm_matrix_repr tbl t' basis None None) = Ok m) ts /\
  inner (length basis) gs gs = c1.
(** HM is the matrix of terms + h.c. on the basis. *)
Definition hamiltonian (tbl : state_table) (ts : list pterm) (basis : list N) (HM : cmat) : Prop :=
  sorted_bases basis /\ exists S, sum_terms tbl basis ts = Ok S /\ HM = with_hc S.

(** The dictionary [es] holds, under each of the keys key 0 ... key (d-1), the state
    x.matrix_repr(table, basis, left_bases=left).dot(gs) where x = op (key k). *)
Definition holds_excited {K : Type} (keqb : K -> K -> bool) (op : K -> aoc) (tbl : state_table) (basis : list N) (left : option (list N)) (gs : vec)
  (es : list (K * vec)) (d : nat) (key : nat -> K) : Prop :=
  forall k, (k < d)%nat -> exists m v, aoc_matrix_repr tbl (op (key k)) basis left = Ok m /\
    lookup keqb (key k) es = Ok v /\ veqn (nrows m) v (mv (length basis) (cm (entry m)) gs).
(** An k, Cr k: the keys of the annihilator and the creator of state st k. *)
Definition ladder_keys {K : Type} (dagger : K -> K) (op : K -> aoc) (d : nat) (st : nat -> stateid) (An Cr : nat -> K) : Prop :=
  forall k, (k < d)%nat -> op (An k) = MkAoc ANNIHILATION (st k) /\ op (Cr k) = MkAoc CREATION (st k) /\
    dagger (An k) = Cr k /\ dagger (Cr k) = An k.

(** G = (z - t)^-1, from both sides. *)
Definition delta (i j : nat) : C := if Nat.eqb i j then c1 else c0.
Definition resolvent (d : nat) (t : cmat) (z : C) (G : cmat) : Prop :=
  forall i j, (i < d)%nat -> (j < d)%nat ->
    csum d (fun k => (z * delta i k - t i k) * G k j) = delta i j /\
    csum d (fun k => G i k * (z * delta k j - t k j)) = delta i j.

(** The dictionary d.update(d'). *)
Definition updated {K V : Type} (keqb : K -> K -> bool) (d d' dd : list (K * V)) : Prop :=
  forall k, lookup keqb k dd = match lookup keqb k d' with Ok v => Ok v | Err _ => lookup keqb k d end.

(** NNTBChain1.py:81-88: (1/N) sum over the sites i, j of G_ij e^(ik(r_j - r_i)),
    for given phase factors v_j = e^(ik r_j). *)
Definition kspace (d : nat) (G : cmat) (v : nat -> C) : C :=
  csum d (fun i => csum d (fun j => G i j * (v j * Cj (v i)))) / RtoC (INR d).

(** The ring of the demos NNTBChain1-4: site j is connected to site j + 1 modulo N
    by HoppingFactory(site j, site j + 1, coeff=a); h.c. is added to the matrix. *)
Definition next (N i : nat) : nat := (S i mod N)%nat.
Definition ring_terms (zoom : Z) (N : nat) (site : nat -> list pynum) (spin orbit : pynum) (a : GQ) : res (list pterm) :=
  mapM (fun j => HoppingFactory zoom (site j) (site (next N j)) spin None orbit None (CNum a)) (seq 0 N).
(** e^(ikj); the momenta 2 pi m / N. *)
Definition phase (k : R) (j : nat) : C := (cos (k * INR j), sin (k * INR j)).
Definition bloch (N m : nat) : R := (2 * PI * INR m / INR N)%R.
