(** Model of HamiltonianPy/averages.py for two-dimensional kets: the columns of an
    (n, m) array (the script at averages.py:156-178 uses m = 1). *)
From Coq Require Import Reals List ZArith Bool Arith.
From Coquelicot Require Import Complex.
From Verif Require Import Py GQ Mat CVec State_Model Spin_Model Averages_Model.
Local Open Scope res_scope.

Record karr := MkK { k_rows : nat; k_cols : nat; k_el : nat -> nat -> C }.
(** np.vdot and np.linalg.norm read the entries row by row. *)
Definition ravel (k : karr) : arr := MkArr (k_rows k * k_cols k) (fun p => k_el k (p / k_cols k) (p mod k_cols k)).
(** [operator.dot(ket)], the matrix product; ValueError if the shapes do not match. *)
Definition dot_block (op : marr) (k : karr) : res karr :=
  if Nat.eqb (m_cols op) (k_rows k)
  then Ok (MkK (m_rows op) (k_cols k) (fun i c => csum (m_cols op) (fun j => m_el op i j * k_el k j c)%C)) else Err ValueError.
Definition vdot_block (a b : karr) : res C := vdot (ravel a) (ravel b).

(** averages.py:31-48 [QuantumAverages]. *)
Definition QuantumAverages2 (ket : karr) (op : marr) : res npc :=
  y <- dot_block op ket ;;
  a <- vdot_block ket y ;;
  b <- vdot_block ket ket ;;
  Ok (np_div a b).

(** averages.py:110-151, the function returned by [TotalSpinAverages]; nan as in
    Averages_Model, except that an array without columns stays empty and gives zeros. *)
Definition averages_calculator2 (sx sy_imag sz : marr) (ket : karr) : res (npc * npc * npc * npc) :=
  let nrm := norm (a_len (ravel ket)) (a_el (ravel ket)) in
  if Nat.eqb (k_cols ket) 0 then
    _ <- dot_block sx ket ;; Ok (Num c0, Num c0, Num c0, Num c0)
  else if Req_EM_T nrm 0 then
    _ <- dot_block sx ket ;; Ok (Nan, Nan, Nan, Nan)
  else
    let ket := MkK (k_rows ket) (k_cols ket) (fun i c => (k_el ket i c / RtoC nrm)%C) in
    x <- dot_block sx ket ;;
    y <- dot_block sy_imag ket ;;
    z <- dot_block sz ket ;;
    sx_avg <- vdot_block ket x ;;
    sz_avg <- vdot_block ket z ;;
    sy0 <- vdot_block ket y ;;
    let sy_avg := (Ci * sy0)%C in
    s2a <- vdot_block y y ;;
    s2b <- vdot_block x x ;;
    s2c <- vdot_block z z ;;
    Ok (Num (s2a + s2b + s2c)%C, Num sx_avg, Num sy_avg, Num sz_avg).

(** averages.py:92-153 [TotalSpinAverages]. *)
Definition TotalSpinAverages2 (spin_num : pynum) : res (karr -> res (npc * npc * npc * npc)) :=
  ms <- TotalSpinMatrices spin_num ;;
  match ms with
  | (Some sx, Some sy_imag, Some sz) => Ok (averages_calculator2 (of_smat sx) (of_smat sy_imag) (of_smat sz))
  | _ => Err AttributeError
  end.
