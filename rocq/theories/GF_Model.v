(** Model of HamiltonianPy/GreenFunction/_GFSolver.py (all eight solvers), in
    exact complex arithmetic.  Operators are elements of a type [K] with the
    equality [keqb] used by dictionaries and the method [dagger]; dictionaries
    are lists of (key, value) in insertion order.  [np.linalg.solve] is
    LinSolve.solve (Gaussian elimination; LinAlgError for a singular matrix).
    In the Exact solvers HM is n x n and all states have length n (other shapes
    are not modelled); the Lanczos solvers carry the lengths of the projected
    vectors and check them. *)
From Coq Require Import Reals String List ZArith Bool Arith.
From Coquelicot Require Import Complex.
From Verif Require Import Py CVec LinSolve Lanczos_Model.
Import ListNotations.
Local Open Scope res_scope.
Local Open Scope nat_scope.

(** [for i, x in enumerate(l)] with a body that updates a state and may raise. *)
Fixpoint for_from {X S : Type} (i : nat) (l : list X) (body : S -> nat -> X -> res S) (s : S) : res S :=
  match l with
  | [] => Ok s
  | x :: r => s' <- body s i x ;; for_from (Datatypes.S i) r body s'
  end.
Definition for_enum {X S : Type} (l : list X) (body : S -> nat -> X -> res S) (s : S) : res S := for_from 0 l body s.

(** A 3-D array: its shape and elements; [a[i, j, k] = v] and [a[i, j] = row]. *)
Record array3 := MkA3 { a3_0 : nat; a3_1 : nat; a3_2 : nat; a3_el : nat -> nat -> nat -> C }.
Definition a3_set (a : array3) (i j k : nat) (v : C) : array3 :=
  MkA3 (a3_0 a) (a3_1 a) (a3_2 a)
       (fun i' j' k' => if Nat.eqb i' i && Nat.eqb j' j && Nat.eqb k' k then v else a3_el a i' j' k').
Definition a3_set_row (a : array3) (i j : nat) (row : nat -> C) : array3 :=
  MkA3 (a3_0 a) (a3_1 a) (a3_2 a)
       (fun i' j' k' => if Nat.eqb i' i && Nat.eqb j' j then row k' else a3_el a i' j' k').
(** [a[i, j]] as a list. *)
Definition a3_row (a : array3) (i j : nat) : list C := map (a3_el a i j) (seq 0 (a3_2 a)).

(** The matrix M: [(z - GE) * I + HM if sign == "+" else (z + GE) * I - HM], z = omega + 1j * eta. *)
Definition gf_z (omega eta : R) : C := (RtoC omega + Ci * RtoC eta)%C.
Definition eye (i j : nat) : C := if Nat.eqb i j then c1 else c0.
Definition gf_matrix (sign : string) (z : C) (GE : R) (HM : cmat) : cmat :=
  if String.eqb sign "+" then fun i j => ((z - RtoC GE) * eye i j + HM i j)%C
  else fun i j => ((z + RtoC GE) * eye i j - HM i j)%C.

Section GF.
  Context {K : Type}.
  Variable keqb : K -> K -> bool.
  Variable dagger : K -> K.

  (** [d[key]] *)
  Fixpoint lookup {V : Type} (key : K) (d : list (K * V)) : res V :=
    match d with
    | [] => Err KeyError
    | (k, v) :: r => if keqb k key then Ok v else lookup key r
    end.
  (** [d[(A, B)] = v]: replace the value of an equal key or append. *)
  Fixpoint dict_set {V : Type} (key : K * K) (v : V) (d : list ((K * K) * V)) : list ((K * K) * V) :=
    match d with
    | [] => [(key, v)]
    | (k, w) :: r => if keqb (fst k) (fst key) && keqb (snd k) (snd key) then (k, v) :: r else (k, w) :: dict_set key v r
    end.

  (** What the Multiple solvers return. *)
  Inductive gfs := GDict (d : list ((K * K) * list C)) | GArray (a : array3).

  (** _GFSolver.py:126-131 and 240-245: the conversion to a dict. *)
  Definition to_dict (As Bs : list K) (a : array3) : res (list ((K * K) * list C)) :=
    for_enum As (fun d i A => for_enum Bs (fun d j B => Ok (dict_set (A, B) (a3_row a i j) d)) d) [].
  Definition finish (structure : string) (As Bs : list K) (a : array3) : res gfs :=
    if String.eqb structure "dict" then d <- to_dict As Bs a ;; Ok (GDict d) else Ok (GArray a).

  Section Exact.
    Variable n : nat.
    Variable GE : R.
    Variable HM : cmat.
    Variable excited_states : list (K * vec).
    Variable eta : R.

    (** _GFSolver.py:31-71 [GFSolverExactSingle] *)
    Definition GFSolverExactSingle (omega : R) (A B : K) (sign : string) : res C :=
      let z := gf_z omega eta in
      let M := gf_matrix sign z GE HM in
      B_dot_GS <- lookup B excited_states ;;
      A_dagger_dot_GS <- lookup (dagger A) excited_states ;;
      x <- solve n M B_dot_GS ;;
      Ok (inner n A_dagger_dot_GS x).

    (** _GFSolver.py:74-135 [GFSolverExactMultiple]; [junk]: the contents of np.empty. *)
    Definition GFSolverExactMultiple (junk : nat -> nat -> nat -> C) (omegas : list R) (As Bs : list K)
      (sign structure : string) : res gfs :=
      let zs := map (fun omega => gf_z omega eta) omegas in
      arr <- for_enum zs (fun arr ZIndex z =>
               let M := gf_matrix sign z GE HM in
               for_enum Bs (fun arr BIndex B =>
                 b <- lookup B excited_states ;;
                 ket <- solve n M b ;;
                 for_enum As (fun arr AIndex A =>
                   a <- lookup (dagger A) excited_states ;;
                   Ok (a3_set arr AIndex BIndex ZIndex (inner n a ket))) arr) arr)
             (MkA3 (length As) (length Bs) (length zs) junk) ;;
      finish structure As Bs arr.

    (** _GFSolver.py:251-296 [RGFSolverExactSingle] *)
    Definition RGFSolverExactSingle (omega : R) (A B : K) (sign : string) : res C :=
      let z := gf_z omega eta in
      let M1 := fun i j => ((z + RtoC GE) * eye i j - HM i j)%C in
      let M2 := fun i j => ((z - RtoC GE) * eye i j + HM i j)%C in
      A_dot_GS <- lookup A excited_states ;;
      B_dot_GS <- lookup B excited_states ;;
      A_dagger_dot_GS <- lookup (dagger A) excited_states ;;
      B_dagger_dot_GS <- lookup (dagger B) excited_states ;;
      x <- solve n M1 B_dot_GS ;;
      y <- solve n M2 A_dot_GS ;;
      let GF_AB := inner n A_dagger_dot_GS x in
      let GF_BA := inner n B_dagger_dot_GS y in
      Ok (if String.eqb sign "+" then (GF_AB + GF_BA)%C else (GF_AB - GF_BA)%C).
  End Exact.

  (** An array of complex numbers as an entry function. *)
  Definition as_vec (l : list C) : vec := fun i => nth i l c0.

  Section Lanczos.
    Variable GE : R.
    Variable projected_matrices : list (K * ndarray2).
    Variable projected_vectors : list (K * list (K * list C)).
    Variable eta : R.

    (** [B_dot_GS = np.zeros_like(temp); B_dot_GS[0] = temp[0]] *)
    Definition first_only (temp : list C) : res (list C) :=
      match temp with [] => Err IndexError | t :: r => Ok (t :: map (fun _ => c0) r) end.
    (** [np.linalg.solve(M, b)]: M is square of side [d] by construction for the
        square arrays MultiKrylov returns; ValueError if b has another length. *)
    Definition solve_len (d : nat) (M : cmat) (b : list C) : res vec :=
      if Nat.eqb (length b) d then solve d M (as_vec b) else Err ValueError.
    (** [np.vdot(a, x)] with x of length d. *)
    Definition vdot_len (d : nat) (a : list C) (x : vec) : res C :=
      if Nat.eqb (length a) d then Ok (inner d (as_vec a) x) else Err ValueError.
    Definition nd_cmat (m : ndarray2) : cmat := fun i j => RtoC (nd_el m i j).

    (** _GFSolver.py:138-182 [GFSolverLanczosSingle] *)
    Definition GFSolverLanczosSingle (omega : R) (A B : K) (sign : string) : res C :=
      let z := gf_z omega eta in
      HM <- lookup B projected_matrices ;;
      pvB <- lookup B projected_vectors ;;
      temp <- lookup B pvB ;;
      B_dot_GS <- first_only temp ;;
      A_dagger_dot_GS <- lookup (dagger A) pvB ;;
      let M := gf_matrix sign z GE (nd_cmat HM) in
      x <- solve_len (nd_rows HM) M B_dot_GS ;;
      vdot_len (nd_rows HM) A_dagger_dot_GS x.

    (** _GFSolver.py:185-248 [GFSolverLanczosMultiple] *)
    Definition GFSolverLanczosMultiple (junk : nat -> nat -> nat -> C) (omegas : list R) (As Bs : list K)
      (sign structure : string) : res gfs :=
      let zs := map (fun omega => gf_z omega eta) omegas in
      arr <- for_enum Bs (fun arr BIndex B =>
               HM <- lookup B projected_matrices ;;
               pvB <- lookup B projected_vectors ;;
               temp <- lookup B pvB ;;
               B_dot_GS <- first_only temp ;;
               for_enum zs (fun arr ZIndex z =>
                 let M := gf_matrix sign z GE (nd_cmat HM) in
                 ket <- solve_len (nd_rows HM) M B_dot_GS ;;
                 for_enum As (fun arr AIndex A =>
                   pvB' <- lookup B projected_vectors ;;
                   a <- lookup (dagger A) pvB' ;;
                   v <- vdot_len (nd_rows HM) a ket ;;
                   Ok (a3_set arr AIndex BIndex ZIndex v)) arr) arr)
             (MkA3 (length As) (length Bs) (length zs) junk) ;;
      finish structure As Bs arr.

    (** _GFSolver.py:373-414 [RGFSolverLanczosSingle] *)
    Definition RGFSolverLanczosSingle (omega : R) (A B : K) (sign : string) : res C :=
      GF_AB <- GFSolverLanczosSingle omega A B "-" ;;
      GF_BA <- GFSolverLanczosSingle omega B A "+" ;;
      Ok (if String.eqb sign "+" then (GF_AB + GF_BA)%C else (GF_AB - GF_BA)%C).
  End Lanczos.

  (** _GFSolver.py:356-370 and 472-486: the last part of the RGF*Multiple solvers. *)
  Definition combine_rgf (junk : nat -> nat -> nat -> C) (As Bs : list K) (sign structure : string) (GFs_AB GFs_BA : gfs) : res gfs :=
    match GFs_AB, GFs_BA with
    | GArray ab, GArray ba =>
        let row := fun i j k => if String.eqb sign "+" then (a3_el ab i j k + a3_el ba j i k)%C else (a3_el ab i j k - a3_el ba j i k)%C in
        if String.eqb structure "dict" then
          d <- for_enum As (fun d i A => for_enum Bs (fun d j B =>
                 Ok (dict_set (A, B) (map (row i j) (seq 0 (a3_2 ab))) d)) d) [] ;;
          Ok (GDict d)
        else
          a <- for_enum As (fun a i A => for_enum Bs (fun a j B => Ok (a3_set_row a i j (row i j))) a)
                 (MkA3 (a3_0 ab) (a3_1 ab) (a3_2 ab) junk) ;;
          Ok (GArray a)
    | _, _ => Err TypeError
    end.
  (** _GFSolver.py:299-370 [RGFSolverExactMultiple]; [j1], [j2], [j3]: the three np.empty arrays. *)
  Definition RGFSolverExactMultiple (n : nat) (GE : R) (HM : cmat) (excited_states : list (K * vec)) (eta : R)
    (j1 j2 j3 : nat -> nat -> nat -> C) (omegas : list R) (As Bs : list K) (sign structure : string) : res gfs :=
    GFs_AB <- GFSolverExactMultiple n GE HM excited_states eta j1 omegas As Bs "-" "array" ;;
    GFs_BA <- GFSolverExactMultiple n GE HM excited_states eta j2 omegas Bs As "+" "array" ;;
    combine_rgf j3 As Bs sign structure GFs_AB GFs_BA.
  (** _GFSolver.py:417-486 [RGFSolverLanczosMultiple] *)
  Definition RGFSolverLanczosMultiple (GE : R) (projected_matrices : list (K * ndarray2))
    (projected_vectors : list (K * list (K * list C))) (eta : R)
    (j1 j2 j3 : nat -> nat -> nat -> C) (omegas : list R) (As Bs : list K) (sign structure : string) : res gfs :=
    GFs_AB <- GFSolverLanczosMultiple GE projected_matrices projected_vectors eta j1 omegas As Bs "-" "array" ;;
    GFs_BA <- GFSolverLanczosMultiple GE projected_matrices projected_vectors eta j2 omegas Bs As "+" "array" ;;
    combine_rgf j3 As Bs sign structure GFs_AB GFs_BA.
End GF.
