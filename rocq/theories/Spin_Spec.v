(** Specification vocabulary for spin operators.
    A basis state of n spins 1/2 is an integer below 2^n; bit k = 0 means spin k
    is up, bit k = 1 means it is down. *)
From Coq Require Import List ZArith NArith Bool Arith String.
From Verif Require Import Py GQ Mat State_Model State_Spec MatrixRepr_Model Fock_Spec Particle_Model Spin_Model.
Import ListNotations.
Local Open Scope nat_scope.
Local Open Scope gq_scope.

(** Spin-1/2 matrix elements <a|S|b>; false = up, true = down. *)
Definition half_elem (o : sotype) (a b : bool) : GQ :=
  match o, a, b with
  | SZ, false, false => ghalf
  | SZ, true, true => - ghalf
  | SP, false, true => 1
  | SM, true, false => 1
  | SX, false, true | SX, true, false => ghalf
  | SY, false, true => - (gi * ghalf)
  | SY, true, false => gi * ghalf
  | _, _, _ => 0
  end.

(** The operator acting with [f] on spin [i] and as the identity on the other
    spins of an n-spin system. *)
Definition on_site (n i : nat) (f : bool -> bool -> GQ) : mat :=
  fun r c => if forallb (fun p => Nat.eqb p i || Bool.eqb (Nat.testbit r p) (Nat.testbit c p)) (seq 0 n)
             then f (Nat.testbit r i) (Nat.testbit c i) else 0.
Definition spin_at (n i : nat) (o : sotype) : mat := on_site n i (half_elem o).

(** A product of single-spin operators, in the given order. *)
Definition spin_word (n : nat) (w : list (nat * sotype)) : mat :=
  fold_right (fun p m => mmul (2 ^ n) (spin_at n (fst p) (snd p)) m) mid w.

(** Commutator. *)
Definition comm (d : nat) (a b : mat) : mat := msub (mmul d a b) (mmul d b a).

(** Sum over all spins. *)
Definition total_spin (n : nat) (o : sotype) : mat := fun r c => bigsum n (fun i => spin_at n i o r c).
Definition total_s2 (n : nat) : mat :=
  let d := (2 ^ n)%nat in
  madd (mmul d (total_spin n SX) (total_spin n SX))
       (madd (mmul d (total_spin n SY) (total_spin n SY)) (mmul d (total_spin n SZ) (total_spin n SZ))).

(** [m] is a square matrix of an n-spin system equal to [e]. *)
Definition represents (n : nat) (m : smat) (e : mat) : Prop :=
  s_rows m = (2 ^ n)%nat /\ s_cols m = (2 ^ n)%nat /\ meq (2 ^ n) (2 ^ n) (s_ent m) e.

(** The pairs (site index, otype) of a list of operators under a table. *)
Definition op_index (tbl : state_table) (x : spinop) (p : nat * sotype) : Prop :=
  site_index tbl (so_site x) = Ok (Z.of_nat (fst p)) /\ snd p = so_otype x.

(** The result of [matrix_repr]: a number stands for a multiple of the identity. *)
Definition spin_matrix_of (n : nat) (tbl : state_table) (x : soperand) (m : mat) : Prop :=
  match x with
  | SOp s => exists r, spin_matrix_repr tbl s = Ok r /\ m = s_ent r
  | SInter t => exists r, fst (inter_matrix_repr tbl t None) = Ok r /\ m = s_ent r
  | SScalar c => m = mscale c mid
  | SForeign => False
  end.
(** Every operator of the operand acts on a site of the table. *)
Definition spin_known (tbl : state_table) (x : soperand) : Prop :=
  match x with
  | SOp s => exists i, site_index tbl (so_site s) = Ok i
  | SInter t => Forall (fun s => exists i, site_index tbl (so_site s) = Ok i) (i_ops t)
  | _ => True
  end.
Definition soperand_ops (x : soperand) : list spinop :=
  match x with SOp s => [s] | SInter t => i_ops t | _ => [] end.
Definition soperand_coeff (x : soperand) : GQ :=
  match x with SInter t => i_coeff t | SScalar c => c | _ => 1 end.

(** Operators returned by the constructor at precision [zoom]. *)
Definition built_spin (zoom : Z) (x : spinop) : Prop := exists otype site, make_spin zoom otype site = Ok x.

(** Hermitian conjugate of an operator type. *)
Definition adj_otype (o : sotype) : sotype := match o with SP => SM | SM => SP | o => o end.

(** Order of spin operators: by type name, then by quantised coordinates. *)
Definition spin_key_lt (x y : spinop) : Prop :=
  String.compare (otype_name (so_otype x)) (otype_name (so_otype y)) = Lt \/
  (so_otype x = so_otype y /\ lex_lt (s_form (so_site x)) (s_form (so_site y))).
Definition same_spin (x y : spinop) : Prop :=
  so_otype x = so_otype y /\ s_form (so_site x) = s_form (so_site y).

(** The most recent valid coefficient of a history. *)
Definition igiven (k : inter_call) : option GQ :=
  match k with
  | ISetCoeff (CNum c) => Some c
  | IMatrixRepr _ (Some (CNum c)) => Some c
  | _ => None
  end.
Fixpoint last_igiven (c0 : GQ) (ks : list inter_call) : GQ :=
  match ks with
  | [] => c0
  | k :: r => last_igiven (match igiven k with Some c => c | None => c0 end) r
  end.

(** ** Fermions with one particle per site *)

(** The ket in which every site holds exactly one fermion with the spin of the
    corresponding bit; [idx k s] is the fermion state of site k and spin s. *)
Definition spin_ket (idx : nat -> bool -> nat) (n : nat) (r : nat) : N :=
  fold_right (fun k ket => N.setbit ket (N.of_nat (idx k (Nat.testbit r k)))) 0%N (seq 0 n).

(** The sign of the permutation that sorts a list of distinct numbers. *)
Fixpoint list_inversions (l : list nat) : nat :=
  match l with [] => O | x :: r => (List.length (filter (fun y => Nat.ltb y x) r) + list_inversions r)%nat end.
Definition order_sign (l : list nat) : GQ := if Nat.odd (list_inversions l) then gopp g1 else g1.
(** The occupied states of [spin_ket], site by site. *)
Definition spin_path (idx : nat -> bool -> nat) (n r : nat) : list nat :=
  map (fun k => idx k (Nat.testbit r k)) (seq 0 n).
Definition ket_sign (idx : nat -> bool -> nat) (n r : nat) : GQ := order_sign (spin_path idx n r).

(** [idx] gives the fermion table's index of each site of the spin table (by
    position) and spin (false = up = 1, true = down = 0), orbit 0. *)
Definition fermion_index (sites : list loc) (ftbl : state_table) (idx : nat -> bool -> nat) : Prop :=
  forall k, (k < List.length sites)%nat -> exists site, nth_error sites k = Some (LSite site) /\
    forall down : bool, state_index ftbl (MkState site (if down then 0 else 1) 0) = Ok (Z.of_nat (idx k down)).
