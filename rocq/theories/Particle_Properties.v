(** C05-C12, C14, C17: creation/annihilation operators, number operators and
    particle terms (HamiltonianPy/quantumoperator/particlesystem.py, factory.py). *)
From Coq Require Import List ZArith NArith QArith Bool Arith Lia Permutation Sorted.
From Verif Require Import Py GQ Mat IndexTable_Model State_Model State_Spec MatrixRepr_Model Fock_Spec Fock_Proofs
  MatrixRepr_Proofs MatrixRepr_Proofs2 Particle_Model Particle_Spec Particle_Proofs Particle_Proofs2 Particle_Proofs3.
Import ListNotations.
Open Scope Z_scope.

(** ** Concrete operators used to show that hypotheses are met. *)
Definition st (x : Z) (spin : Z) : stateid := MkState (MkSite [NInt x] [default_zoom * x]) spin 0.
Definition cr (x spin : Z) : aoc := MkAoc CREATION (st x spin).
Definition an (x spin : Z) : aoc := MkAoc ANNIHILATION (st x spin).
Example built_cr : built default_zoom (cr 3 1).
Proof. exists 1, [NInt 3], (NInt 1), (NInt 0). reflexivity. Qed.
Example built_an : built default_zoom (an 3 1).
Proof. exists 0, [NInt 3], (NInt 1), (NInt 0). reflexivity. Qed.
Definition tbl3 : state_table :=
  match make_state_table [LState (st 0 0); LState (st 0 1); LState (st 1 0)] 0 with
  | Ok t => t | Err _ => MkTable [] [] CState 0 end.
Example tbl3_made : make_state_table [LState (st 0 0); LState (st 0 1); LState (st 1 0)] 0 = Ok tbl3.
Proof. vm_compute. reflexivity. Qed.

(** ** C05 *)
(** The six comparison operators decide the documented order: creators before
    annihilators, creators by ascending and annihilators by descending state;
    exactly one of <, ==, > holds; <= and >= are "< or ==", "> or =="; no
    comparison of two AoC raises. *)
Theorem C05_total_order : forall x y : aoc,
  (aoc_lt x y = Ok true <-> before x y) /\ (aoc_gt x y = Ok true <-> before y x) /\
  (aoc_eq x y = true <-> same_op x y) /\
  (before x y \/ same_op x y \/ before y x) /\
  ~ (before x y /\ same_op x y) /\ ~ (before x y /\ before y x) /\
  (aoc_le x y = Ok true <-> before x y \/ same_op x y) /\
  (aoc_ge x y = Ok true <-> before y x \/ same_op x y) /\
  aoc_ne x y = negb (aoc_eq x y) /\
  (exists b1 b2 b3 b4, aoc_lt x y = Ok b1 /\ aoc_gt x y = Ok b2 /\ aoc_le x y = Ok b3 /\ aoc_ge x y = Ok b4).
Proof. exact aoc_order. Qed.
Print Assumptions C05_total_order.

Theorem C05_transitive : forall x y z : aoc,
  aoc_lt x y = Ok true -> aoc_lt y z = Ok true -> aoc_lt x z = Ok true.
Proof.
  intros x y z Hxy Hyz. apply (aoc_order x y) in Hxy. apply (aoc_order y z) in Hyz. apply (aoc_order x z).
  eapply before_trans; eauto.
Qed.
Print Assumptions C05_transitive.

Theorem C05_creators_first : forall x y : aoc,
  (a_otype x = CREATION -> a_otype y = ANNIHILATION -> aoc_lt x y = Ok true) /\
  (a_otype x = CREATION -> a_otype y = CREATION ->
     (aoc_lt x y = Ok true <-> py_cmp CLt (LState (a_state x)) (LState (a_state y)) = Ok true)) /\
  (a_otype x = ANNIHILATION -> a_otype y = ANNIHILATION ->
     (aoc_lt x y = Ok true <-> py_cmp CLt (LState (a_state y)) (LState (a_state x)) = Ok true)).
Proof.
  intros x y. split; [|split].
  - intros Hx Hy. apply (aoc_order x y). unfold before. now rewrite Hx, Hy.
  - intros Hx Hy. unfold aoc_lt. rewrite Hx, Hy. tauto.
  - intros Hx Hy. rewrite (proj1 (aoc_order x y)). unfold before. rewrite Hx, Hy.
    pose proof (aoc_order (MkAoc CREATION (a_state y)) (MkAoc CREATION (a_state x))) as [H _].
    unfold aoc_lt, before in H. cbn [a_otype a_state] in H. now rewrite H.
Qed.
Print Assumptions C05_creators_first.

Example C05_example : aoc_lt (cr 0 1) (cr 1 0) = Ok true /\ aoc_lt (an 1 0) (an 0 1) = Ok true /\
  aoc_lt (cr 5 0) (an 9 0) = Ok true /\ aoc_lt (an 0 1) (an 1 0) = Ok false.
Proof. repeat split; reflexivity. Qed.

(** ** C06 *)
(** For every operator built at the current precision, dagger() succeeds,
    flips the type, keeps the state, and applied twice gives the operator back. *)
Theorem C06_dagger_involution : forall zoom x, built zoom x ->
  exists y, aoc_dagger zoom x = Ok y /\ a_otype y <> a_otype x /\ a_state y = a_state x /\
    aoc_dagger zoom y = Ok x.
Proof.
  intros zoom x H. eexists. split; [now apply dagger_ok|]. cbn. split; [now destruct (a_otype x)|]. split; auto.
  rewrite dagger_ok by now apply built_flip. cbn. rewrite flip_otype_invol. now destruct x.
Qed.
Print Assumptions C06_dagger_involution.

Theorem C06_dagger_reverses_order : forall zoom x y x' y', built zoom x -> built zoom y ->
  aoc_dagger zoom x = Ok x' -> aoc_dagger zoom y = Ok y' ->
  (aoc_lt x y = Ok true <-> aoc_lt y' x' = Ok true) /\ (aoc_eq x y = true <-> aoc_eq x' y' = true).
Proof.
  intros zoom x y x' y' Hx Hy. rewrite !dagger_ok by auto. intros [= <-] [= <-]. split.
  - rewrite (proj1 (aoc_order x y)). rewrite (proj1 (aoc_order _ _)). symmetry. apply before_flip.
  - rewrite (proj1 (proj2 (proj2 (aoc_order x y)))), (proj1 (proj2 (proj2 (aoc_order _ _)))).
    unfold same_op; cbn. destruct (a_otype x), (a_otype y); cbn; intuition discriminate.
Qed.
Print Assumptions C06_dagger_reverses_order.

Theorem C06_conjugate_of : forall zoom x y x', built zoom x -> aoc_dagger zoom x = Ok x' ->
  conjugate_of x (Some y) = Ok (aoc_eq x' y) /\ conjugate_of x None = Err TypeError /\ same_state x None = Err TypeError.
Proof.
  intros zoom x y x' Hx. rewrite dagger_ok by auto. intros [= <-]. split; [|split; reflexivity]. cbn [conjugate_of].
  f_equal. match goal with |- ?a = ?b => assert (Q : a = true <-> b = true) end.
  - rewrite (proj1 (proj2 (proj2 (aoc_order _ _)))), andb_true_iff, state_eq_iff. unfold same_op; cbn.
    destruct (a_otype x), (a_otype y); cbn; intuition discriminate.
  - destruct (_ && _), (aoc_eq _ _); intuition congruence.
Qed.
Print Assumptions C06_conjugate_of.

Theorem C06_same_state : forall x y, same_state x (Some y) = Ok true <-> same_st (a_state x) (a_state y).
Proof.
  intros x y. cbn [same_state]. rewrite <- state_eq_iff. split; [intros [= H]; exact H|intros ->; reflexivity].
Qed.
Print Assumptions C06_same_state.

(** derive() returns the operator the constructor would return with the given
    attributes replaced and the others kept. *)
Theorem C06_derive : forall zoom x ot site spin orbit y,
  derive zoom x ot site spin orbit = Ok y ->
  int_of_otype (a_otype y) = get ot (int_of_otype (a_otype x)) /\
  s_coord (st_site (a_state y)) = get site (s_coord (st_site (a_state x))) /\
  NInt (st_spin (a_state y)) = get spin (NInt (st_spin (a_state x))) /\
  NInt (st_orbit (a_state y)) = get orbit (NInt (st_orbit (a_state x))).
Proof.
  intros zoom x ot site spin orbit y H. apply make_aoc_inv in H as [E H]. apply make_state_inv in H as (H1 & H2 & H3 & _).
  auto.
Qed.
Print Assumptions C06_derive.
Theorem C06_derive_nothing : forall zoom x, built zoom x -> derive zoom x None None None None = Ok x.
Proof.
  intros zoom x H. apply built_wf in H. unfold derive. cbn [get]. rewrite make_aoc_split. unfold wf_state in H.
  rewrite H. now destruct x.
Qed.
Print Assumptions C06_derive_nothing.

(** The precision is re-read: an operator built before set_float_point_precision(1)
    is not equal to its own dagger().dagger() afterwards. *)
Theorem C06_precision_change_refuted : exists zoom zoom' x y z,
  set_float_point_precision (NInt 4) = Ok zoom /\ set_float_point_precision (NInt 1) = Ok zoom' /\
  built zoom x /\ aoc_dagger zoom' x = Ok y /\ aoc_dagger zoom' y = Ok z /\ aoc_eq z x = false.
Proof.
  exists 10000, 10, (cr 1 0). do 2 eexists. split; [reflexivity|]. split; [reflexivity|].
  split; [exists 1, [NInt 1], (NInt 0), (NInt 0); reflexivity|]. split; [reflexivity|]. split; reflexivity.
Qed.
Print Assumptions C06_precision_change_refuted.

(** ** C07 *)
Theorem C07_equality : forall x y : aoc,
  (aoc_eq x y = true <-> a_otype x = a_otype y /\ same_st (a_state x) (a_state y)) /\
  (aoc_eq x y = true <-> aoc_hash_key x = aoc_hash_key y).
Proof.
  intros x y. split; [apply (aoc_order x y)|]. apply veq_eq.
Qed.
Print Assumptions C07_equality.
Theorem C07_number_operator : forall (x y : numop) (a : aoc),
  (numop_eq x y = true <-> same_st (n_state x) (n_state y)) /\
  (numop_eq x y = true <-> numop_hash_key x = numop_hash_key y) /\
  numop_ne x y = negb (numop_eq x y) /\
  aoc_eq_numop a x = false /\ numop_hash_key x <> aoc_hash_key a.
Proof.
  intros x y a. split; [|split; [apply veq_eq|split; [reflexivity|split; [reflexivity|discriminate]]]].
  unfold numop_eq. rewrite veq_eq. unfold numop_form.
  assert (S : state_form (n_state x) = state_form (n_state y) <-> same_st (n_state x) (n_state y)).
  { rewrite <- state_eq_iff, <- veq_eq. reflexivity. }
  rewrite <- S. split; [|intros ->; reflexivity].
  generalize (state_form (n_state x)) (state_form (n_state y)). intros u v H. now injection H.
Qed.
Print Assumptions C07_number_operator.
(** The order of number operators is the order of their states. *)
Theorem C07_number_order : forall (x y : numop) o,
  numop_cmp o x y = py_cmp o (LState (n_state x)) (LState (n_state y)).
Proof. intros [s] [t] o. unfold numop_cmp, numop_form, py_cmp; cbn -[state_form veq].
  destruct (veq (state_form s) (state_form t)) eqn:E; [|reflexivity].
  apply veq_eq in E. cbn [n_state]. unfold form. rewrite E.
  assert (R : forall o l, vcmp o (VTup l) (VTup l) = Ok (zop o 0 0)).
  { clear. intros o l. cbn. induction l as [|a l IH]; [reflexivity|].
    replace (veq a a) with true by (symmetry; now apply veq_eq). exact IH. }
  unfold state_form. rewrite R. reflexivity.
Qed.
Print Assumptions C07_number_order.

(** ** C08 *)
(** Whatever __mul__/__rmul__ branch Python takes: a product of two numbers is a
    number; any other product of AoC, NumberOperator, ParticleTerm and numbers
    is a general ParticleTerm with the concatenated operators and the product
    coefficient; unrelated objects give TypeError. *)
Theorem C08_product_structure : forall zoom x y, good_operand zoom x -> good_operand zoom y ->
  x <> OForeign -> y <> OForeign -> ~ (is_scalar x /\ is_scalar y) ->
  exists t, py_mul zoom x y = Ok (OTerm t) /\
     map (fun a => (a_otype a, a_state a)) (t_aocs t) = operand_ops zoom x ++ operand_ops zoom y /\
     t_coeff t = gmul (operand_coeff x) (operand_coeff y) /\ t_class t = Tgeneral.
Proof. exact mul_structure. Qed.
Print Assumptions C08_product_structure.
Theorem C08_product_of_numbers : forall zoom c d, py_mul zoom (OScalar c) (OScalar d) = Ok (OScalar (gmul c d)).
Proof. exact mul_scalars. Qed.
Print Assumptions C08_product_of_numbers.
Theorem C08_foreign_operand : forall zoom x y, good_operand zoom x -> good_operand zoom y ->
  x = OForeign \/ y = OForeign -> py_mul zoom x y = Err TypeError.
Proof. exact mul_foreign. Qed.
Print Assumptions C08_foreign_operand.
(** If both factors have a matrix on a (sorted) basis, so has the product, and
    it is the matrix product. *)
Theorem C08_product_matrix : forall objs start tbl bases zoom x y mx my,
  make_state_table objs start = Ok tbl -> sorted_bases bases ->
  good_operand zoom x -> good_operand zoom y ->
  matrix_of tbl bases x mx -> matrix_of tbl bases y my ->
  exists r m, py_mul zoom x y = Ok r /\ matrix_of tbl bases r m /\
    meq (length bases) (length bases) m (mmul (length bases) mx my).
Proof. exact product_matrix. Qed.
Print Assumptions C08_product_matrix.
(** On the full Fock space of n <= 64 states holding the table, every operand
    with at least one operator and known states has a matrix. *)
Theorem C08_full_space_matrix_exists : forall objs start tbl n zoom x,
  make_state_table objs start = Ok tbl -> 0 <= start ->
  start + Z.of_nat (length objs) <= Z.of_nat n -> (n <= 64)%nat ->
  good_operand zoom x -> x <> OForeign ->
  Forall (fun p => exists i, state_index tbl (snd p) = Ok i) (operand_ops zoom x) ->
  is_scalar x \/ operand_ops zoom x <> [] ->
  exists m, matrix_of tbl (full_bases n) x m.
Proof. intros. eapply full_matrix_of; eauto. Qed.
Print Assumptions C08_full_space_matrix_exists.
Example C08_example : exists t m, 
  py_mul default_zoom (OScalar (gz 2)) (ONum (MkNum (st 0 1))) = Ok (OTerm t) /\
  py_mul default_zoom (OTerm t) (OAoc (cr 1 0)) = Ok (OTerm (MkTerm [cr 0 1; an 0 1; cr 1 0] (gz 2) Tgeneral)) /\
  matrix_of tbl3 (full_bases 3) (OTerm (MkTerm [cr 0 1; an 0 1; cr 1 0] (gz 2) Tgeneral)) (entry m) /\
  entry m 6 2 = gz (-2) /\ entry m 2 2 = g0.
Proof.
  do 2 eexists. split; [reflexivity|]. split; [cbn; do 3 f_equal; apply gq_eq; reflexivity|].
  split; [eexists; split; [vm_compute; reflexivity|reflexivity]|]. split; apply gq_eq; reflexivity.
Qed.

(** ** C09 *)
Theorem C09_dagger_of_term : forall zoom t, Forall (built zoom) (t_aocs t) ->
  exists t', pterm_dagger zoom t = Ok t' /\ t_coeff t' = gconj (t_coeff t) /\
    t_aocs t' = rev (map (fun a => MkAoc (flip_otype (a_otype a)) (a_state a)) (t_aocs t)) /\
    exists t'', pterm_dagger zoom t' = Ok t'' /\ t_aocs t'' = t_aocs t /\ t_coeff t'' = t_coeff t.
Proof.
  intros zoom t H. pose proof (pterm_dagger_ok zoom t H) as E. eexists. split; [exact E|].
  split; [reflexivity|]. split; [reflexivity|]. eapply pterm_dagger_twice; eauto.
Qed.
Print Assumptions C09_dagger_of_term.
(** The matrix of dagger() from the left to the right basis is the conjugate
    transpose of the term's matrix. *)
Theorem C09_dagger_matrix : forall objs start tbl zoom t t' right left m m',
  make_state_table objs start = Ok tbl -> Forall (built zoom) (t_aocs t) ->
  sorted_bases right -> sorted_bases (the_left right left) ->
  check_compatibility t = true ->
  (t_class t = Tgeneral \/ t_class t = Thopping \/ left = None) ->
  pterm_dagger zoom t = Ok t' ->
  fst (pterm_matrix_repr tbl t right left None) = Ok m ->
  fst (pterm_matrix_repr tbl t' (the_left right left) (Some right) None) = Ok m' ->
  nrows m' = ncols m /\ ncols m' = nrows m /\
  forall i j, (i < nrows m')%nat -> (j < ncols m')%nat -> entry m' i j = gconj (entry m j i).
Proof.
  intros. destruct (dagger_matrix objs start tbl zoom t t' right left m m') as (A & B & C); auto.
Qed.
Print Assumptions C09_dagger_matrix.
(** On the full Fock space both matrices exist (not-only-conditional form). *)
Theorem C09_dagger_full_space : forall objs start tbl n zoom t,
  make_state_table objs start = Ok tbl -> 0 <= start ->
  start + Z.of_nat (length objs) <= Z.of_nat n -> (n <= 64)%nat ->
  Forall (built zoom) (t_aocs t) -> check_compatibility t = true -> t_aocs t <> [] ->
  Forall (fun a => exists i, state_index tbl (a_state a) = Ok i) (t_aocs t) ->
  exists t' m m', pterm_dagger zoom t = Ok t' /\
    fst (pterm_matrix_repr tbl t (full_bases n) None None) = Ok m /\
    fst (pterm_matrix_repr tbl t' (full_bases n) None None) = Ok m' /\
    meq (2 ^ n) (2 ^ n) (entry m') (mdag (entry m)).
Proof.
  intros objs start tbl n zoom t Ht H0 H1 Hn Hb Hc Hne Hk.
  assert (K : Forall (fun p => exists i, state_index tbl (snd p) = Ok i) (operand_ops zoom (OTerm t))).
  { apply Forall_map. exact Hk. }
  pose proof (pterm_dagger_ok zoom t Hb) as E. eexists.
  destruct (full_matrix_of _ _ _ _ zoom (OTerm t) Ht H0 H1 Hn) as (mm & m & Hm & _); auto; try discriminate.
  { right. cbn. destruct (t_aocs t); [contradiction|discriminate]. }
  rewrite E. match goal with E : pterm_dagger _ _ = Ok ?u |- _ => set (t' := u) in * end.
  destruct (full_matrix_of _ _ _ _ zoom (OTerm t') Ht H0 H1 Hn) as (mm' & m' & Hm' & _); auto; try discriminate.
  { exact (eq_refl : check_compatibility t' = true). }
  { cbn. apply Forall_map. cbn. unfold t'; cbn [t_aocs]. apply Forall_rev, Forall_map. exact Hk. }
  { right. cbn. unfold t'; cbn [t_aocs]. destruct (t_aocs t) as [|a l]; [contradiction|]. cbn.
    intros H. apply map_eq_nil, app_eq_nil in H as [_ H]. discriminate. }
  exists m, m'. split; [reflexivity|]. split; auto. split; auto.
  assert (Hm'' : fst (pterm_matrix_repr tbl t' (full_bases n) (Some (full_bases n)) None) = Ok m').
  { rewrite <- Hm', !term_repr. destruct (term_of _ _); reflexivity. }
  destruct (dagger_matrix objs start tbl zoom t t' (full_bases n) None m m') as (A & B & C); auto.
  - apply sorted_full.
  - apply sorted_full.
  - assert (R : nrows m = (2 ^ n)%nat /\ ncols m = (2 ^ n)%nat).
    { rewrite (compatible_general _ _ _ _ _ _ Ht Hc) in Hm by (right; right; split; [reflexivity|apply sorted_full]).
      rewrite term_repr in Hm. destruct (term_of tbl _); [|discriminate].
      apply general_inv in Hm as (_ & _ & _ & _ & R1 & R2 & _); [|apply sorted_full]. cbn [the_left] in R1.
      now rewrite full_length in R1, R2. }
    rewrite A, B in C. destruct R as [R1 R2]. rewrite R1, R2 in C. exact C.
Qed.
Print Assumptions C09_dagger_full_space.
Theorem C09_dagger_aoc : forall objs start tbl zoom x x' right left m m',
  make_state_table objs start = Ok tbl -> built zoom x ->
  sorted_bases right -> sorted_bases (the_left right left) ->
  aoc_dagger zoom x = Ok x' ->
  aoc_matrix_repr tbl x right left = Ok m ->
  aoc_matrix_repr tbl x' (the_left right left) (Some right) = Ok m' ->
  nrows m' = ncols m /\ ncols m' = nrows m /\ meq (nrows m') (ncols m') (entry m') (mdag (entry m)).
Proof.
  intros objs start tbl zoom x x' right left m m' Ht Hb HR HL Hd Hm Hm'.
  rewrite dagger_ok in Hd by auto. injection Hd as <-. unfold aoc_matrix_repr in *. cbn [a_state a_otype] in *.
  destruct (state_index tbl (a_state x)) as [i|]; [|discriminate].
  eapply (adjoint_ok [(i, a_otype x)] (the_left right left) right g1); eauto.
Qed.
Print Assumptions C09_dagger_aoc.
(** A NumberOperator is its own dagger and its matrix is Hermitian. *)
Theorem C09_dagger_number : forall objs start tbl x bases m,
  make_state_table objs start = Ok tbl -> sorted_bases bases ->
  numop_matrix_repr tbl x bases = Ok m ->
  numop_dagger x = x /\ nrows m = ncols m /\ meq (nrows m) (ncols m) (entry m) (mdag (entry m)).
Proof.
  intros objs start tbl x bases m Ht Hs Hm. split; [reflexivity|].
  unfold numop_matrix_repr in Hm. destruct (state_index tbl (n_state x)) as [i|]; [|discriminate].
  rewrite number_general in Hm by auto. pose proof Hm as Hm0.
  apply general_inv in Hm0 as (_ & _ & _ & _ & R1 & R2 & _); auto. cbn [the_left] in R1.
  split; [congruence|].
  eapply (adjoint_ok [(i, CREATION); (i, ANNIHILATION)] bases bases g1); eauto.
Qed.
Print Assumptions C09_dagger_number.
Example C09_example : exists t' m m',
  pterm_dagger default_zoom (MkTerm [cr 0 0; an 1 0] gi Thopping) = Ok t' /\
  fst (pterm_matrix_repr tbl3 (MkTerm [cr 0 0; an 1 0] gi Thopping) (full_bases 3) None None) = Ok m /\
  fst (pterm_matrix_repr tbl3 t' (full_bases 3) None None) = Ok m' /\
  entry m 1 4 = gi /\ entry m' 4 1 = gopp gi.
Proof.
  do 3 eexists. split; [reflexivity|]. split; [vm_compute; reflexivity|]. split; [vm_compute; reflexivity|].
  split; apply gq_eq; reflexivity.
Qed.

(** ** C10 *)
Theorem C10_normal_ordered_permutation : forall l l' n, normalize l = Ok (l', n) ->
  normal_ordered l' /\ Permutation l l'.
Proof.
  intros l l' n H. split; [eapply normalize_sorted; eauto|]. eapply steps_perm, normalize_steps; eauto.
Qed.
Print Assumptions C10_normal_ordered_permutation.
(** (-1)^swap_count times the reordered product is the same operator: wherever
    the original product has a matrix, so has the other one, with equal entries. *)
Theorem C10_same_operator : forall objs start tbl l l' n c right left m,
  make_state_table objs start = Ok tbl -> sorted_bases (the_left right left) ->
  normalize l = Ok (l', n) ->
  fst (pterm_matrix_repr tbl (MkTerm l c Tgeneral) right left None) = Ok m ->
  exists m', fst (pterm_matrix_repr tbl (MkTerm l' (gmul (sign n) c) Tgeneral) right left None) = Ok m' /\
    nrows m' = nrows m /\ ncols m' = ncols m /\ meq (nrows m) (ncols m) (entry m') (entry m).
Proof. exact normalize_matrix. Qed.
Print Assumptions C10_same_operator.
(** It fails exactly when an annihilator precedes a creator of the same state. *)
Theorem C10_failure : forall l,
  (normalize l = Err SwapFermionError <-> crossing l) /\
  (~ crossing l -> exists l' n, normalize l = Ok (l', n)) /\
  (forall e, normalize l = Err e -> e = SwapFermionError).
Proof.
  intros l. destruct (normalize_error l) as [E1 E2]. split; auto. split; auto.
  intros H. destruct (normalize l) as [[l' n]|e]; [eauto|]. exfalso. apply H, E2. f_equal. now apply E1.
Qed.
Print Assumptions C10_failure.
Example C10_example :
  normalize [an 1 0; cr 0 0; an 0 1; cr 2 0] = Ok ([cr 0 0; cr 2 0; an 1 0; an 0 1], 3%nat) /\
  normalize [an 1 0; cr 0 0; cr 1 0] = Err SwapFermionError.
Proof. split; reflexivity. Qed.

(** ** C11 *)
Theorem C11_swap_count : forall l l' n, normalize l = Ok (l', n) -> n = inversions l.
Proof. exact normalize_count. Qed.
Print Assumptions C11_swap_count.
Theorem C11_stable : forall l l' n z, normalize l = Ok (l', n) -> filter (aoc_eq z) l' = filter (aoc_eq z) l.
Proof. exact normalize_stable. Qed.
Print Assumptions C11_stable.
Theorem C11_idempotent : forall l l' n, normalize l = Ok (l', n) -> normalize l' = Ok (l', 0%nat).
Proof. exact normalize_again. Qed.
Print Assumptions C11_idempotent.

(** ** C12 *)
Theorem C12_check_compatibility : forall t, check_compatibility t = true <->
  match t_class t with
  | Thopping => exists s u, t_aocs t = [MkAoc CREATION s; MkAoc ANNIHILATION u] /\ ~ same_st s u
  | Tnumber => exists s u, t_aocs t = [MkAoc CREATION s; MkAoc ANNIHILATION u] /\ same_st s u
  | TCoulomb => exists s s' u u', same_st s s' /\ same_st u u' /\
      t_aocs t = [MkAoc CREATION s; MkAoc ANNIHILATION s'; MkAoc CREATION u; MkAoc ANNIHILATION u']
  | Tgeneral => True
  end.
Proof.
  assert (N2 : forall s u, state_ne s u = true <-> ~ same_st s u).
  { intros s u. rewrite state_ne_eq, negb_true_iff, <- state_eq_iff. destruct (state_eq s u); intuition congruence. }
  intros [l c cls]. unfold check_compatibility. cbn [t_class t_aocs]. destruct cls; [tauto| | |].
  - destruct l as [|[o s] [|[o' u] [|]]]; try (split; [discriminate|intros (? & ? & ? & _); discriminate]).
    unfold is_creation, is_annihilation. rewrite !andb_true_iff. cbn [a_otype a_state]. rewrite N2.
    destruct o, o'; cbn [otype_eqb]; (split; [intros [[? ?] ?]; try discriminate|intros (s' & u' & E & H); try discriminate]).
    + eauto.
    + injection E as <- <-. auto.
  - destruct l as [|[o s] [|[o' u] [|]]]; try (split; [discriminate|intros (? & ? & ? & _); discriminate]).
    unfold is_creation, is_annihilation. rewrite !andb_true_iff. cbn [a_otype a_state]. rewrite state_eq_iff.
    destruct o, o'; cbn; (split; [intros [[? ?] ?]; try discriminate|intros (s' & u' & E & H); try discriminate]).
    + eauto.
    + injection E as <- <-. auto.
  - destruct l as [|[o s] [|[o' u] [|[o2 s2] [|[o3 u2] [|]]]]];
      try (split; [discriminate|intros (? & ? & ? & ? & _ & _ & ?); discriminate]).
    unfold is_creation, is_annihilation. rewrite !andb_true_iff. cbn [a_otype a_state]. rewrite !state_eq_iff.
    split.
    + intros [[[[[E1 E2] E3] E4] H] H']. destruct o, o', o2, o3; try discriminate. eauto 9.
    + intros (x & x' & y & y' & H & H' & E). injection E as -> -> -> -> -> -> -> ->. auto 9.
Qed.
Print Assumptions C12_check_compatibility.
(** A compatible term's matrix is the one of the same operators in general form. *)
Theorem C12_classification_sound : forall objs start tbl t right left,
  make_state_table objs start = Ok tbl -> check_compatibility t = true ->
  (t_class t = Tgeneral \/ t_class t = Thopping \/ (left = None /\ sorted_bases right)) ->
  fst (pterm_matrix_repr tbl t right left None) =
  fst (pterm_matrix_repr tbl (MkTerm (t_aocs t) (t_coeff t) Tgeneral) right left None).
Proof. exact compatible_general. Qed.
Print Assumptions C12_classification_sound.

Theorem C12_CPFactory : forall zoom site spin orbit coeff t,
  (CPFactory zoom site spin orbit coeff = Ok t <->
   exists c s, coeff = CNum c /\ make_state zoom site spin orbit = Ok s /\
    t = MkTerm [MkAoc CREATION s; MkAoc ANNIHILATION s] c Tnumber) /\
  (CPFactory zoom site spin orbit coeff = Ok t -> check_compatibility t = true).
Proof.
  intros. split; [apply CP_ok|]. intros H. apply CP_ok in H as (c & s & _ & _ & ->).
  cbn -[state_eq]. apply state_eq_iff, same_st_refl.
Qed.
Print Assumptions C12_CPFactory.
Theorem C12_HoppingFactory : forall zoom site0 site1 spin0 spin1 orbit0 orbit1 coeff t,
  (HoppingFactory zoom site0 site1 spin0 spin1 orbit0 orbit1 coeff = Ok t <->
   exists c s0 s1, coeff = CNum c /\ make_state zoom site0 spin0 orbit0 = Ok s0 /\
    make_state zoom site1 (get spin1 spin0) (get orbit1 orbit0) = Ok s1 /\
    t = MkTerm [MkAoc CREATION s0; MkAoc ANNIHILATION s1] c (if state_eq s0 s1 then Tnumber else Thopping)) /\
  (HoppingFactory zoom site0 site1 spin0 spin1 orbit0 orbit1 coeff = Ok t -> check_compatibility t = true).
Proof.
  intros. split; [apply Hopping_ok|]. intros H. apply Hopping_ok in H as (c & s0 & s1 & _ & _ & _ & ->).
  apply C12_check_compatibility. cbn [t_class t_aocs]. destruct (state_eq s0 s1) eqn:E.
  - exists s0, s1. split; auto. now apply state_eq_iff.
  - exists s0, s1. split; auto. intros H. apply state_eq_iff in H. congruence.
Qed.
Print Assumptions C12_HoppingFactory.
Theorem C12_PairingFactory : forall zoom site0 site1 spin0 spin1 orbit0 orbit1 coeff which t,
  PairingFactory zoom site0 site1 spin0 spin1 orbit0 orbit1 coeff which = Ok t <->
  exists o c s0 s1, 
    ((which = WhichH \/ which = WhichHole) /\ o = ANNIHILATION \/ (which = WhichP \/ which = WhichParticle) /\ o = CREATION) /\
    coeff = CNum c /\ make_state zoom site0 spin0 orbit0 = Ok s0 /\
    make_state zoom site1 spin1 orbit1 = Ok s1 /\
    t = MkTerm [MkAoc o s0; MkAoc o s1] c Tgeneral.
Proof. exact Pairing_ok. Qed.
Print Assumptions C12_PairingFactory.
Theorem C12_HubbardFactory : forall zoom site orbit coeff t,
  (HubbardFactory zoom site orbit coeff = Ok t <->
  exists c up down, coeff = CNum c /\ make_state zoom site (NInt 1) orbit = Ok up /\
    make_state zoom site (NInt 0) orbit = Ok down /\
    t = MkTerm [MkAoc CREATION up; MkAoc ANNIHILATION up; MkAoc CREATION down; MkAoc ANNIHILATION down] c TCoulomb) /\
  (HubbardFactory zoom site orbit coeff = Ok t -> check_compatibility t = true).
Proof.
  intros. split; [apply Hubbard_ok|]. intros H. apply Hubbard_ok in H as (c & s & u & _ & _ & _ & ->).
  apply C12_check_compatibility. cbn [t_class t_aocs]. exists s, s, u, u. auto using same_st_refl.
Qed.
Print Assumptions C12_HubbardFactory.
Theorem C12_CoulombFactory : forall zoom site0 site1 spin0 spin1 orbit0 orbit1 coeff t,
  (CoulombFactory zoom site0 site1 spin0 spin1 orbit0 orbit1 coeff = Ok t <->
  exists c s0 s1, coeff = CNum c /\ make_state zoom site0 spin0 orbit0 = Ok s0 /\
    make_state zoom site1 spin1 orbit1 = Ok s1 /\
    t = MkTerm [MkAoc CREATION s0; MkAoc ANNIHILATION s0; MkAoc CREATION s1; MkAoc ANNIHILATION s1] c TCoulomb) /\
  (CoulombFactory zoom site0 site1 spin0 spin1 orbit0 orbit1 coeff = Ok t -> check_compatibility t = true).
Proof.
  intros. split; [apply Coulomb_ok|]. intros H. apply Coulomb_ok in H as (c & s & u & _ & _ & _ & ->).
  apply C12_check_compatibility. cbn [t_class t_aocs]. exists s, s, u, u. auto using same_st_refl.
Qed.
Print Assumptions C12_CoulombFactory.
Example C12_example : exists t t',
  HoppingFactory default_zoom [NInt 0] [NInt 1] (NInt 0) None (NInt 0) None (CNum (gz 3)) = Ok t /\ t_class t = Thopping /\
  HoppingFactory default_zoom [NInt 0] [NInt 0] (NInt 0) None (NInt 0) None (CNum (gz 3)) = Ok t' /\ t_class t' = Tnumber.
Proof. do 2 eexists. split; [reflexivity|]. split; [reflexivity|]. split; reflexivity. Qed.

(** ** C14 *)
(** For every table (indices within n <= 64 bits) and any two operators on
    states of the table: x y + y x is 0, or the identity when one creates what
    the other annihilates. *)
Theorem C14_anticommutation : forall objs start tbl n x y i j, make_state_table objs start = Ok tbl ->
  0 <= start -> start + Z.of_nat (length objs) <= Z.of_nat n -> (n <= 64)%nat ->
  state_index tbl (a_state x) = Ok i -> state_index tbl (a_state y) = Ok j ->
  exists mx my, aoc_matrix_repr tbl x (full_bases n) None = Ok mx /\
    aoc_matrix_repr tbl y (full_bases n) None = Ok my /\
    (a_otype x = a_otype y \/ ~ same_st (a_state x) (a_state y) ->
       meq (2 ^ n) (2 ^ n) (madd (mmul (2 ^ n) (entry mx) (entry my)) (mmul (2 ^ n) (entry my) (entry mx))) mzero) /\
    (a_otype x <> a_otype y -> same_st (a_state x) (a_state y) ->
       meq (2 ^ n) (2 ^ n) (madd (mmul (2 ^ n) (entry mx) (entry my)) (mmul (2 ^ n) (entry my) (entry mx))) mid).
Proof. exact car. Qed.
Print Assumptions C14_anticommutation.
Example C14_example : state_index tbl3 (st 0 1) = Ok 1 /\ state_index tbl3 (st 1 0) = Ok 2.
Proof. split; reflexivity. Qed.

(** ** C17 *)
(** After any history of assignments and matrix_repr calls the term has its
    original operators and classification and the last coefficient given. *)
Theorem C17_coefficient_persists : forall ks t,
  snd (do_calls t ks) = MkTerm (t_aocs t) (last_given (t_coeff t) ks) (t_class t).
Proof. exact do_calls_state. Qed.
Print Assumptions C17_coefficient_persists.
(** Each matrix_repr call in a history returns what a fresh term carrying the
    most recent coefficient (its own argument included) returns. *)
Theorem C17_each_call : forall t pre tbl rb lb c post,
  nth_error (fst (do_calls t (pre ++ MatrixRepr tbl rb lb c :: post))) (length pre) =
  Some (Some (match c with
        | Some CBad => Err AssertionError
        | _ => fst (pterm_matrix_repr tbl (MkTerm (t_aocs t)
                 (last_given (t_coeff t) (pre ++ [MatrixRepr tbl rb lb c])) (t_class t)) rb lb None)
        end)).
Proof.
  intros. rewrite history_result, repr_call. cbn [t_aocs t_coeff t_class]. do 2 f_equal.
  assert (L : forall l c0, last_given c0 (l ++ [MatrixRepr tbl rb lb c]) =
    match c with Some (CNum z) => z | _ => last_given c0 l end).
  { induction l as [|k l IH]; intros c0; cbn [app last_given]; [destruct c as [[|]|]; reflexivity|apply IH]. }
  rewrite L. destruct c as [[z|]|]; reflexivity.
Qed.
Print Assumptions C17_each_call.
(** A compatible term's matrix is the coefficient times that of the bare product. *)
Theorem C17_scaled_by_coefficient : forall objs start tbl t right left m,
  make_state_table objs start = Ok tbl -> check_compatibility t = true ->
  sorted_bases (the_left right left) ->
  (t_class t = Tgeneral \/ t_class t = Thopping \/ left = None) ->
  fst (pterm_matrix_repr tbl t right left None) = Ok m ->
  exists m1, fst (pterm_matrix_repr tbl (MkTerm (t_aocs t) g1 Tgeneral) right left None) = Ok m1 /\
    nrows m1 = nrows m /\ ncols m1 = ncols m /\ meq (nrows m) (ncols m) (entry m) (mscale (t_coeff t) (entry m1)).
Proof. exact repr_scale. Qed.
Print Assumptions C17_scaled_by_coefficient.
Example C17_example :
  map (option_map (fun r => match r with Ok m => Some (entry m 1 4) | Err _ => None end))
   (fst (do_calls (MkTerm [cr 0 0; an 1 0] g1 Thopping)
     [MatrixRepr tbl3 (full_bases 3) None (Some (CNum (gz 5))); MatrixRepr tbl3 (full_bases 3) None (Some CBad);
      MatrixRepr tbl3 (full_bases 3) None None]))
  = [Some (Some (gz 5)); Some None; Some (Some (gz 5))].
Proof. vm_compute. reflexivity. Qed.
