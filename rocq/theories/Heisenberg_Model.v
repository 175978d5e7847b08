(** Model of HamiltonianPy/GreenFunction/demo/HeisenbergChain1.py and
    HeisenbergChain2.py: the spin excitation spectrum of the Heisenberg model.
    Couplings and matrix elements of the Hamiltonian are Gaussian rationals, the
    Green functions complex numbers with exact arithmetic.  np.linalg.eigh / eigsh
    are not modelled: the state GS and the energy GE are arguments. *)
From Coq Require Import Reals String List ZArith Bool Arith.
From Coquelicot Require Import Complex.
From Verif Require Import Py GQ Mat CVec State_Model MatrixRepr_Model Particle_Model Spin_Model Lattice_Model Lanczos_Model GF_Model Free_Spec CPT_Model.
Import ListNotations.
Local Open Scope nat_scope.
Local Open Scope string_scope.
Local Open Scope res_scope.

(** [HM += m]: HM starts as the number 0.0 (None); 0.0 + a sparse matrix is a copy of it. *)
Definition add_to (HM : option smat) (m : smat) : res (option smat) :=
  match HM with
  | None => Ok (Some m)
  | Some a => s <- plus a m ;; Ok (Some s)
  end.
(** [a.getH()] *)
Definition getH (a : smat) : smat := MkS (s_cols a) (s_rows a) (mdag (s_ent a)).

(** HeisenbergChain1.py:41-46: the two contributions of one bond; [half] is J / 2. *)
Definition bond_step (site_num : Z) (half : GQ) (HM : option smat) (index0 index1 : Z) : res (option smat) :=
  m <- inter_matrix_function [(index0, "z"); (index1, "z")] (NInt site_num) (CNum half) ;;
  HM <- add_to HM m ;;
  m <- inter_matrix_function [(index0, "p"); (index1, "m")] (NInt site_num) (CNum half) ;;
  add_to HM m.

(** HeisenbergChain1.py:37-46: the loop over the bonds. *)
Fixpoint bond_loop (cluster : lattice) (nearest : list point -> point -> nat) (fuel prec : nat) (site_num : Z) (half : GQ)
    (HM : option smat) (bonds : list (point * point)) : option (res (option smat)) :=
  match bonds with
  | [] => Some (Ok HM)
  | (p0, p1) :: rest =>
      obind (getIndex cluster nearest fuel prec (Site (space_dim cluster) p0) true) (fun index0 =>
      obind (getIndex cluster nearest fuel prec (Site (space_dim cluster) p1) true) (fun index1 =>
      obind (owrap (bond_step site_num half HM index0 index1)) (fun HM =>
      bond_loop cluster nearest fuel prec site_num half HM rest)))
  end.

(** HeisenbergChain1.py:35-47: HM; without bonds 0.0 has no getH (AttributeError). *)
Definition heisenberg_matrix (cluster : lattice) (nearest : list point -> point -> nat) (fuel prec : nat) (site_num : Z) (J : GQ)
    (intra_bonds inter_bonds : list (point * point)) : option (res smat) :=
  obind (bond_loop cluster nearest fuel prec site_num (gmul J ghalf) None (intra_bonds ++ inter_bonds)) (fun HM =>
  match HM with
  | None => Some (Err AttributeError)
  | Some HM => owrap (plus HM (getH HM))
  end).

Section Spectrum.
  Context {K : Type}.
  (** SpinOperator objects: equality, dagger(), site; [mk o p] is SpinOperator(o, site=p). *)
  Variables (keqb : K -> K -> bool) (dagger : K -> K) (site_of : K -> point) (mk : string -> point -> K).

  (** [d[key] = v] *)
  Fixpoint es_set {V : Type} (key : K) (v : V) (d : list (K * V)) : list (K * V) :=
    match d with
    | [] => [(key, v)]
    | (k, w) :: r => if keqb k key then (k, v) :: r else (k, w) :: es_set key v r
    end.

  (** HeisenbergChain1.py:59-72: As, Bs, excited_states. *)
  Fixpoint excited_loop (cluster : lattice) (nearest : list point -> point -> nat) (fuel prec : nat) (site_num : Z) (GS : vec)
      (sites : list point) (acc : list K * list K * list (K * vec)) : option (res (list K * list K * list (K * vec))) :=
    match sites with
    | [] => Some (Ok acc)
    | site :: rest =>
        let '(As, Bs, es) := acc in
        obind (getIndex cluster nearest fuel prec (Site (space_dim cluster) site) false) (fun index =>
        let Sp := mk "p" site in
        let Sm := mk "m" site in
        obind (owrap (spin_matrix_function (index, "m") site_num)) (fun m =>
        excited_loop cluster nearest fuel prec site_num GS rest
          (app As [Sp], app Bs [Sm], es_set Sm (mv (s_cols m) (cm (s_ent m)) GS) es)))
    end.
  Definition excited_states (cluster : lattice) (nearest : list point -> point -> nat) (fuel prec : nat) (site_num : Z) (GS : vec) :=
    excited_loop cluster nearest fuel prec site_num GS (points cluster) ([], [], []).

  (** HeisenbergChain1.py:88-96: kspace_gfs at the omega of index [w] and the momentum [k]. *)
  Definition kspace_gfs (gfs : list ((K * K) * list C)) (site_num : Z) (w : nat) (k : point) : C :=
    (fold_left (fun acc (e : (K * K) * list C) =>
                  let '((A, B), values) := e in
                  acc + nth w values c0 * cexp k (vsub (site_of B) (site_of A)))%C gfs c0 / RtoC (IZR site_num))%C.
  (** HeisenbergChain1.py:96-97: spectrum = -kspace_gfs.imag / pi; one row per omega. *)
  Definition spectrum_rows (gfs : list ((K * K) * list C)) (site_num : Z) (nomega : nat) (kpoints : list point) : list (list R) :=
    map (fun w => map (fun k => (- Im (kspace_gfs gfs site_num w k) / PI)%R) kpoints) (seq 0 nomega).

  (** HeisenbergChain1.py:59-97 *)
  Definition exact_spectrum (cluster : lattice) (nearest : list point -> point -> nat) (fuel prec : nat) (site_num : Z)
      (HM : smat) (GE : R) (GS : vec) (eta : R) (junk : nat -> nat -> nat -> C) (omegas : list R) (kpoints : list point) : option (res (list (list R))) :=
    obind (excited_states cluster nearest fuel prec site_num GS) (fun abe =>
    let '(As, Bs, es) := abe in
    obind (owrap (GFSolverExactMultiple keqb dagger (s_rows HM) GE (cm (s_ent HM)) es eta junk omegas As Bs "-" "dict")) (fun r =>
    match r with
    | GDict d => Some (Ok (spectrum_rows d site_num (length omegas) kpoints))
    | GArray _ => Some (Err TypeError)
    end)).
  (** HeisenbergChain2.py:60-104: the same with MultiKrylov and the Lanczos solver; [dim] is
      krylov_space_dim, [thr] the threshold of MultiKrylov. *)
  Definition lanczos_spectrum (cluster : lattice) (nearest : list point -> point -> nat) (fuel prec : nat) (site_num : Z)
      (HM : smat) (GE : R) (GS : vec) (eta : R) (junk : nat -> nat -> nat -> C) (omegas : list R) (kpoints : list point) (thr : R) (dim : Z) : option (res (list (list R))) :=
    obind (excited_states cluster nearest fuel prec site_num GS) (fun abe =>
    let '(As, Bs, es) := abe in
    obind (owrap (MultiKrylov (s_rows HM) (cm (s_ent HM)) thr es dim)) (fun mv_ =>
    let '(ms, vs) := mv_ in
    obind (owrap (GFSolverLanczosMultiple keqb dagger GE ms vs eta junk omegas As Bs "-" "dict")) (fun r =>
    match r with
    | GDict d => Some (Ok (spectrum_rows d site_num (length omegas) kpoints))
    | GArray _ => Some (Err TypeError)
    end))).
End Spectrum.
