(** Model of HamiltonianPy/averages.py ([QuantumAverages], [TotalSpinAverages];
    [TotalSpinMatrices] is in Spin_Model.v).  Exact complex arithmetic; kets are
    one-dimensional arrays (for two-dimensional ones see Averages2_Model.v); logging is
    not modelled. *)
From Coq Require Import Reals List ZArith Bool Arith Qreals.
From Coquelicot Require Import Complex.
From Verif Require Import Py GQ Mat CVec State_Model Spin_Model.
Local Open Scope res_scope.

(** The complex number denoted by a Gaussian rational (matrix elements of the
    spin matrices). *)
Definition emb (z : GQ) : C := (Q2R (Qcanon.this (re z)), Q2R (Qcanon.this (im z))).
(** A 1-D numpy array; a matrix (dense or csr). *)
Record arr := MkArr { a_len : nat; a_el : vec }.
Record marr := MkM { m_rows : nat; m_cols : nat; m_el : cmat }.
Definition of_smat (m : smat) : marr := MkM (s_rows m) (s_cols m) (fun i j => emb (s_ent m i j)).
(** A numpy complex scalar: a number or nan. *)
Inductive npc := Nan | Num (z : C).

(** [operator.dot(ket)], [np.vdot(a, b)]: ValueError if the shapes do not match. *)
Definition dot_ket (op : marr) (ket : arr) : res arr :=
  if Nat.eqb (m_cols op) (a_len ket) then Ok (MkArr (m_rows op) (mv (m_cols op) (m_el op) (a_el ket))) else Err ValueError.
Definition vdot (a b : arr) : res C :=
  if Nat.eqb (a_len a) (a_len b) then Ok (inner (a_len a) (a_el a) (a_el b)) else Err ValueError.
(** Division of numpy scalars: 0/0 is nan; x/0 with x non-zero does not occur
    below (the denominator is <ket|ket>). *)
Definition np_div (a b : C) : npc := if Req_EM_T (fst b) 0 then (if Req_EM_T (snd b) 0 then Nan else Num (a / b)%C) else Num (a / b)%C.

(** averages.py:31-48 [QuantumAverages]. *)
Definition QuantumAverages (ket : arr) (op : marr) : res npc :=
  y <- dot_ket op ket ;;
  a <- vdot ket y ;;
  b <- vdot ket ket ;;
  Ok (np_div a b).

(** averages.py:110-151, the function returned by [TotalSpinAverages]: None for
    a component that is nan.  A zero ket divided by its norm is an array of nan
    (0/0), which makes every result nan. *)
Definition averages_calculator (sx sy_imag sz : marr) (ket : arr) : res (npc * npc * npc * npc) :=
  let nrm := norm (a_len ket) (a_el ket) in
  if Req_EM_T nrm 0 then
    (* the shapes are still checked by the products *)
    _ <- dot_ket sx ket ;; Ok (Nan, Nan, Nan, Nan)
  else
    let ket := MkArr (a_len ket) (fun i => (a_el ket i / RtoC nrm)%C) in
    x <- dot_ket sx ket ;;
    y <- dot_ket sy_imag ket ;;
    z <- dot_ket sz ket ;;
    sx_avg <- vdot ket x ;;
    sz_avg <- vdot ket z ;;
    sy0 <- vdot ket y ;;
    let sy_avg := (Ci * sy0)%C in
    s2a <- vdot y y ;;
    s2b <- vdot x x ;;
    s2c <- vdot z z ;;
    Ok (Num (s2a + s2b + s2c)%C, Num sx_avg, Num sy_avg, Num sz_avg).

(** averages.py:92-153 [TotalSpinAverages]. *)
Definition TotalSpinAverages (spin_num : pynum) : res (arr -> res (npc * npc * npc * npc)) :=
  ms <- TotalSpinMatrices spin_num ;;
  match ms with
  | (Some sx, Some sy_imag, Some sz) => Ok (averages_calculator (of_smat sx) (of_smat sy_imag) (of_smat sz))
  | _ => Err AttributeError   (* the float 0.0 has no method [dot]; unreachable since spin_num > 0 *)
  end.
