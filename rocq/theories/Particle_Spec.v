(** Specification vocabulary for creation/annihilation operators. *)
From Coq Require Import List ZArith NArith Bool Sorted.
From Verif Require Import Py GQ Mat State_Model State_Spec MatrixRepr_Model Fock_Spec Particle_Model.
Import ListNotations.

(** Same single-particle state: same quantised coordinates, spin and orbit. *)
Definition same_st (s t : stateid) : Prop := same_key (LState s) (LState t).
(** The order of states. *)
Definition st_lt (s t : stateid) : Prop := key_lt (LState s) (LState t).

(** Documented order: creators before annihilators; creators by ascending,
    annihilators by descending state. *)
Definition before (x y : aoc) : Prop :=
  match a_otype x, a_otype y with
  | CREATION, CREATION => st_lt (a_state x) (a_state y)
  | CREATION, ANNIHILATION => True
  | ANNIHILATION, CREATION => False
  | ANNIHILATION, ANNIHILATION => st_lt (a_state y) (a_state x)
  end.
(** Same operator. *)
Definition same_op (x y : aoc) : Prop := a_otype x = a_otype y /\ same_st (a_state x) (a_state y).

(** Objects the constructors return while the precision is [zoom]. *)
Definition built_state (zoom : Z) (s : stateid) : Prop :=
  exists site spin orbit, make_state zoom site spin orbit = Ok s.
Definition built (zoom : Z) (x : aoc) : Prop :=
  exists ot site spin orbit, make_aoc zoom ot site spin orbit = Ok x.
Definition built_num (zoom : Z) (x : numop) : Prop :=
  exists site spin orbit, make_numop zoom site spin orbit = Ok x.

(** Normal order: no operator precedes one that should stand before it. *)
Definition normal_ordered (l : list aoc) : Prop := StronglySorted (fun x y => ~ before y x) l.

(** Number of pairs standing in the wrong order. *)
Definition gt_bool (x y : aoc) : bool := match aoc_gt x y with Ok true => true | _ => false end.
Fixpoint inversions (l : list aoc) : nat :=
  match l with [] => 0 | x :: r => length (filter (gt_bool x) r) + inversions r end.

(** An annihilator somewhere before a creator of the same state. *)
Definition crossing (l : list aoc) : Prop :=
  exists u x v y w, l = u ++ x :: v ++ y :: w /\
    a_otype x = ANNIHILATION /\ a_otype y = CREATION /\ same_st (a_state x) (a_state y).

(** (-1)^n *)
Definition sign (n : nat) : GQ := if Nat.odd n then gopp g1 else g1.

(** The operator sequence and the coefficient an operand denotes. *)
Definition operand_ops (zoom : Z) (x : operand) : list (otype * stateid) :=
  match x with
  | OAoc a => [(a_otype a, a_state a)]
  | ONum n => [(CREATION, n_state n); (ANNIHILATION, n_state n)]
  | OTerm t => map (fun a => (a_otype a, a_state a)) (t_aocs t)
  | _ => []
  end.
Definition operand_coeff (x : operand) : GQ :=
  match x with OTerm t => t_coeff t | OScalar c => c | _ => g1 end.

(** The matrix of an operand on one basis: matrix_repr for the operators, a
    multiple of the identity for a number. *)
Definition matrix_of (tbl : state_table) (bases : list N) (x : operand) (m : mat) : Prop :=
  match x with
  | OAoc a => exists c, aoc_matrix_repr tbl a bases None = Ok c /\ m = entry c
  | ONum n => exists c, numop_matrix_repr tbl n bases = Ok c /\ m = entry c
  | OTerm t => exists c, fst (pterm_matrix_repr tbl t bases None None) = Ok c /\ m = entry c
  | OScalar z => m = mscale z mid
  | OForeign => False
  end.

(** The most recent valid coefficient of a history. *)
Definition given (k : term_call) : option GQ :=
  match k with
  | SetCoeff (CNum c) => Some c
  | MatrixRepr _ _ _ (Some (CNum c)) => Some c
  | _ => None
  end.
Fixpoint last_given (c0 : GQ) (ks : list term_call) : GQ :=
  match ks with
  | [] => c0
  | k :: r => last_given (match given k with Some c => c | None => c0 end) r
  end.

(** Operands as users get them: a number operator comes from its constructor
    at the current precision; a term's classification fits its operators. *)
Definition good_operand (zoom : Z) (x : operand) : Prop :=
  match x with ONum n => built_num zoom n | OTerm t => check_compatibility t = true | _ => True end.
Definition is_scalar (x : operand) : Prop := match x with OScalar _ => True | _ => False end.
