(** Model of the cluster perturbation step of
    HamiltonianPy/GreenFunction/demo/HubbardChain.py (lines 146-216), the last part
    of the program: from the dictionaries of cluster Green functions to the
    spectrum.  Exact arithmetic; np.linalg.inv solves for the unit vectors.

    The operator objects (AoC) are values of a type K, given with their equality,
    dagger(), site and derive(site=...); [mk o s p] is
    AoC(otype=o, site=p, spin=s).  Whether [mk] is injective on the sites of a
    lattice is C02/C48's subject. *)
From Coq Require Import Reals List Bool Arith ZArith.
From Coquelicot Require Import Complex.
From Verif Require Import Py CVec LinSolve MatrixRepr_Model Particle_Model Lattice_Model.
From Verif Require GF_Spec.
Import ListNotations.
Local Open Scope C_scope.

(** np.linalg.inv(M) for one n x n matrix (gesv with the identity). *)
Definition unit_vec (j : nat) : vec := fun i => if Nat.eqb i j then c1 else c0.
Definition np_inv (n : nat) (M : cmat) : res cmat :=
  match mapM (fun j => solve n M (unit_vec j)) (seq 0 n) with
  | Ok cols => Ok (fun i j => nth j cols vzero i)
  | Err e => Err e
  end.

(** A computation that may still be running (the search loop of Lattice.decompose). *)
Definition obind {A B : Type} (x : option (res A)) (k : A -> option (res B)) : option (res B) :=
  match x with
  | None => None
  | Some (Err e) => Some (Err e)
  | Some (Ok a) => k a
  end.
Definition owrap {A : Type} (x : res A) : option (res A) := Some x.
Fixpoint omap {A B : Type} (f : A -> option (res B)) (l : list A) : option (res (list B)) :=
  match l with
  | [] => Some (Ok [])
  | x :: l' => obind (f x) (fun y => obind (omap f l') (fun ys => Some (Ok (y :: ys))))
  end.

(** list.index: the first equal element; ValueError if there is none. *)
Fixpoint list_index {A : Type} (eqb : A -> A -> bool) (x : A) (l : list A) : res nat :=
  match l with
  | [] => Err ValueError
  | y :: l' => if eqb y x then Ok O else match list_index eqb x l' with Ok i => Ok (S i) | Err e => Err e end
  end.
Definition enumerate {A : Type} (l : list A) : list (nat * A) := combine (seq 0 (length l)) l.

(** np.exp(1j * np.dot(kpoint, dR)) *)
Definition cexp (k dR : point) : C := (cos (vdot k dR), sin (vdot k dR)).

Section Program.
  Context {K : Type}.
  Variables (keqb : K -> K -> bool) (dagger : K -> K) (site_of : K -> point) (derive : K -> point -> K) (mk : otype -> Z -> point -> K).

  (** HubbardChain.py:146-155: Cell_Cs/Cell_As and Cluster_Cs/Cluster_As. *)
  Definition creators (spins : list Z) (L : lattice) : list K :=
    flat_map (fun spin => map (fun site => mk CREATION spin site) (points L)) spins.
  Definition annihilators (spins : list Z) (L : lattice) : list K := map dagger (creators spins L).

  (** HubbardChain.py:157-167: cluster_gfs_array[w]; a missing key leaves the zeros.
      The values of the dictionary are listed along omegas. *)
  Definition gfs_array (d : list ((K * K) * list C)) (Cs As : list K) (w row col : nat) : C :=
    match nth_error Cs row, nth_error As col with
    | Some c, Some a => match GF_Spec.dict_get keqb (dagger c) (dagger a) d with Some l => nth w l c0 | None => c0 end
    | _, _ => c0
    end.

  (** HubbardChain.py:170-179: FTs, the entries (i, j, index0, index1, dR1 - dR0). *)
  Definition fourier_terms (fuel prec : nat) (cell : lattice) (Cs As cell_Cs cell_As : list K)
    : option (res (list (nat * nat * nat * nat * point))) :=
    obind (omap (fun ic : nat * K =>
             let (i, c) := ic in
             obind (decompose cell fuel prec (Site (space_dim cell) (site_of c))) (fun pd0 =>
             obind (owrap (list_index keqb (derive c (fst pd0)) cell_Cs)) (fun index0 =>
             omap (fun ja : nat * K =>
               let (j, a) := ja in
               obind (decompose cell fuel prec (Site (space_dim cell) (site_of a))) (fun pd1 =>
               obind (owrap (list_index keqb (derive a (fst pd1)) cell_As)) (fun index1 =>
               Some (Ok (i, j, index0, index1, vsub (snd pd1) (snd pd0)))))) (enumerate As))))
           (enumerate Cs)) (fun ll => Some (Ok (concat ll))).

  (** HubbardChain.py:181-191: VTerms, the entries (index0, index1, t, dR1 - dR0). *)
  Definition v_terms (fuel prec : nat) (cluster : lattice) (spins : list Z) (Cs As : list K) (t : C) (inter_bonds : list (point * point))
    : option (res (list (nat * nat * C * point))) :=
    obind (omap (fun bond : point * point =>
             let (p0, p1) := bond in
             obind (decompose cluster fuel prec (Site (space_dim cluster) p0)) (fun pd0 =>
             obind (decompose cluster fuel prec (Site (space_dim cluster) p1)) (fun pd1 =>
             omap (fun spin =>
               let c := mk CREATION spin (fst pd0) in
               let a := mk ANNIHILATION spin (fst pd1) in
               obind (owrap (list_index keqb c Cs)) (fun index0 =>
               obind (owrap (list_index keqb a As)) (fun index1 =>
               Some (Ok (index0, index1, t, vsub (snd pd1) (snd pd0)))))) spins)))
           inter_bonds) (fun ll => Some (Ok (concat ll))).
End Program.

(** HubbardChain.py:196-199: VMatrix; then VMatrix += VMatrix.T.conj(). *)
Definition v_upper (k : point) (VTerms : list (nat * nat * C * point)) : cmat :=
  fold_left (fun V e => let '(i, j, coeff, dR) := e in
                        fun r c => if (Nat.eqb r i && Nat.eqb c j)%bool then V r c + coeff * cexp k dR else V r c)
            VTerms (fun _ _ => c0).
Definition v_matrix (k : point) (VTerms : list (nat * nat * C * point)) : cmat :=
  fun r c => v_upper k VTerms r c + Cj (v_upper k VTerms c r).

(** HubbardChain.py:200: np.linalg.inv(np.linalg.inv(cluster_gfs_array) - VMatrix), at one omega. *)
Definition cpt (n : nat) (G V : cmat) : res cmat :=
  match np_inv n G with
  | Ok X => np_inv n (fun r c => X r c - V r c)
  | Err e => Err e
  end.

(** HubbardChain.py:202-206: temp[w] and its trace. *)
Definition periodise (k : point) (FTs : list (nat * nat * nat * nat * point)) (G : cmat) : cmat :=
  fold_left (fun T e => let '(i0, j0, i1, j1, dR) := e in
                        fun r c => if (Nat.eqb r i1 && Nat.eqb c j1)%bool then T r c + G i0 j0 * cexp k dR else T r c)
            FTs (fun _ _ => c0).
Definition trace (m : nat) (T : cmat) : C := csum m (fun a => T a a).

(** HubbardChain.py:193-209: one row per kpoint, one entry per omega (the script stores
    the transposed array); n = len(Cluster_Cs), m = len(Cell_Cs). *)
Definition final_gfs (n m site_num nomega : nat) (arr : nat -> cmat) (VTerms : list (nat * nat * C * point))
    (FTs : list (nat * nat * nat * nat * point)) (kpoints : list point) : res (list (list C)) :=
  mapM (fun k =>
    match mapM (fun w => cpt n (arr w) (v_matrix k VTerms)) (seq 0 nomega) with
    | Ok gs => Ok (map (fun G => trace m (periodise k FTs G) / RtoC (INR site_num)) gs)
    | Err e => Err e
    end) kpoints.
