(** Model of HamiltonianPy/lanczos.py.  Exact complex arithmetic (rounding is
    not modelled); [n] is the dimension of the square matrix [M] and of every
    vector (mismatched shapes are not modelled); logging is not modelled. *)
From Coq Require Import Reals List ZArith Bool Arith.
From Coquelicot Require Import Complex.
From Verif Require Import Py CVec.
Import ListNotations.
Local Open Scope res_scope.

(** lanczos.py:33 [_VIEW_AS_ZERO] = 1E-4 (the decimal number; the float next to it is not distinguished). *)
Definition default_threshold : R := (1 / 10000)%R.
(** lanczos.py:39-55 [set_threshold] with a float argument: the new value of the global. *)
Definition set_threshold (threshold : R) : res R :=
  if Rle_dec 0 threshold then Ok threshold else Err AssertionError.

(** A 2-D array. *)
Record ndarray2 := MkNd { nd_rows : nat; nd_cols : nat; nd_el : nat -> nat -> R }.
(** [np.diag(v, k)] of a 1-D array for k = 0, 1, -1: a square array of side
    len(v) + |k| with v on the k-th diagonal. *)
Definition np_diag (v : list R) (up down : nat) : ndarray2 :=
  let s := (length v + up + down)%nat in
  MkNd s s (fun i j => if Nat.eqb (i + up) (j + down) then nth (Nat.min i j) v 0%R else 0%R).
(** Broadcasting of one axis. *)
Definition bcast (a b : nat) : option nat :=
  if Nat.eqb a b then Some a else if Nat.eqb a 1 then Some b else if Nat.eqb b 1 then Some a else None.
Definition bidx (a i : nat) : nat := if Nat.eqb a 1 then 0%nat else i.
(** [x + y] of 2-D arrays, with broadcasting; ValueError if the shapes do not fit. *)
Definition nd_add (x y : ndarray2) : res ndarray2 :=
  match bcast (nd_rows x) (nd_rows y), bcast (nd_cols x) (nd_cols y) with
  | Some r, Some c =>
      Ok (MkNd r c (fun i j => (nd_el x (bidx (nd_rows x) i) (bidx (nd_cols x) j) +
                                nd_el y (bidx (nd_rows y) i) (bidx (nd_cols y) j))%R))
  | _, _ => Err ValueError
  end.

Section Krylov.
  (** [K]: the type of the dictionary keys. *)
  Context {K : Type}.
  Variable n : nat.
  Variable M : cmat.
  Variable threshold : R.

  (** One pass of the loop: A.real, B.real and the projections of the vectors. *)
  Record step := MkStep { st_A : R; st_B : R; st_proj : list (K * C) }.

  (** lanczos.py:107-132: the loop; [fuel] counts the remaining iterations. *)
  Fixpoint loop (fuel : nat) (vectors : list (K * vec)) (ket ket_old : vec) : list step :=
    match fuel with
    | O => []
    | S f =>
        let M_dot_ket := mv n M ket in
        let A := inner n ket M_dot_ket in
        let B := inner n ket_old M_dot_ket in
        let this := MkStep (Re A) (Re B) (map (fun p => (fst p, inner n ket (snd p))) vectors) in
        let M_dot_ket := vsub M_dot_ket (vscale A ket) in
        let M_dot_ket := vsub M_dot_ket (vscale B ket_old) in
        let nrm := norm n M_dot_ket in
        if Rlt_dec threshold nrm then
          this :: loop f vectors (fun i => (M_dot_ket i / RtoC nrm)%C) ket
        else [this]
    end.

  (** lanczos.py:58-140 [KrylovRepresentation]; a negative krylov_space_dim gives
      an empty range.  The dictionaries are lists of (key, value) in insertion
      order; the projected vector of the k-th key collects the k-th projections. *)
  Definition KrylovRepresentation (vectors : list (K * vec)) (v0 : vec) (krylov_space_dim : Z) :
    res (ndarray2 * list (K * list C)) :=
    let v0_norm := norm n v0 in
    if Rlt_dec threshold v0_norm then
      let ket := fun i => (v0 i / RtoC v0_norm)%C in
      let steps := loop (Z.to_nat krylov_space_dim) vectors ket vzero in
      let As := map st_A steps in
      let Bs := tl (map st_B steps) in
      let projected := map (fun '(pos, p) => (fst p, map (fun s => snd (nth pos (st_proj s) (fst p, c0))) steps))
                           (combine (seq 0 (length vectors)) vectors) in
      a <- nd_add (np_diag As 0 0) (np_diag Bs 0 1) ;;
      m <- nd_add a (np_diag Bs 1 0) ;;
      Ok (m, projected)
    else Err ValueError.
End Krylov.

(** lanczos.py:143-185 [MultiKrylov]: two dictionaries keyed by the vectors' keys. *)
Definition MultiKrylov {K} (n : nat) (M : cmat) (threshold : R) (vectors : list (K * vec)) (krylov_space_dim : Z) :
  res (list (K * ndarray2) * list (K * list (K * list C))) :=
  fold_left
    (fun acc p =>
       '(ms, vs) <- acc ;;
       '(m, v) <- KrylovRepresentation n M threshold vectors (snd p) krylov_space_dim ;;
       Ok (ms ++ [(fst p, m)], vs ++ [(fst p, v)]))
    vectors (Ok ([], [])).
