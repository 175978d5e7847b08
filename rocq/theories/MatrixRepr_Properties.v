(** C13, C15, C16, C18: matrix_function (HamiltonianPy/quantumoperator/matrixrepr.py). *)
From Coq Require Import List NArith ZArith Bool Arith Lia Permutation.
From Verif Require Import Py GQ Mat MatrixRepr_Model Fock_Spec Fock_Proofs MatrixRepr_Proofs MatrixRepr_Proofs2.
Import ListNotations.

(** C13: the "hopping" path returns, for every two distinct indices (also bad
    ones), every pair of bases arrays (sorted or not) and every coefficient,
    exactly what the general path returns, exceptions included. *)
Theorem C13_hopping_is_general : forall i j right left coeff, i <> j ->
  matrix_function [(i, CREATION); (j, ANNIHILATION)] right left coeff Thopping =
  matrix_function [(i, CREATION); (j, ANNIHILATION)] right left coeff Tgeneral.
Proof. exact hopping_general. Qed.
Print Assumptions C13_hopping_is_general.

(** C13: the diagonal paths, when no separate left_bases is given. *)
Theorem C13_number_is_general : forall i bases coeff, sorted_bases bases ->
  matrix_function [(i, CREATION); (i, ANNIHILATION)] bases None coeff Tnumber =
  matrix_function [(i, CREATION); (i, ANNIHILATION)] bases None coeff Tgeneral.
Proof. exact number_general. Qed.
Print Assumptions C13_number_is_general.

Theorem C13_coulomb_is_general : forall i j bases coeff, sorted_bases bases ->
  matrix_function [(i, CREATION); (i, ANNIHILATION); (j, CREATION); (j, ANNIHILATION)] bases None coeff TCoulomb =
  matrix_function [(i, CREATION); (i, ANNIHILATION); (j, CREATION); (j, ANNIHILATION)] bases None coeff Tgeneral.
Proof. exact coulomb_general. Qed.
Print Assumptions C13_coulomb_is_general.

(** C13: with a different left_bases the diagonal paths are wrong: right basis
    {1}, left basis {0, 1}: n_0|1> = |1> is row 1, but "number" puts it in row 0. *)
Theorem C13_number_left_bases_refuted :
  exists i right left coeff m m',
    sorted_bases right /\ sorted_bases left /\
    matrix_function [(i, CREATION); (i, ANNIHILATION)] right (Some left) coeff Tnumber = Ok m /\
    matrix_function [(i, CREATION); (i, ANNIHILATION)] right (Some left) coeff Tgeneral = Ok m' /\
    entry m 0 0 = g1 /\ entry m' 0 0 = g0 /\ entry m' 1 0 = g1.
Proof.
  exists 0%Z, [1%N], [0%N; 1%N], g1. do 2 eexists.
  split; [cbn; auto|]. split; [cbn; repeat constructor|].
  split; [reflexivity|]. split; [reflexivity|]. repeat split; apply gq_eq; reflexivity.
Qed.
Print Assumptions C13_number_left_bases_refuted.

Theorem C13_coulomb_left_bases_refuted :
  exists i j right left coeff m m',
    sorted_bases right /\ sorted_bases left /\
    matrix_function [(i, CREATION); (i, ANNIHILATION); (j, CREATION); (j, ANNIHILATION)] right (Some left) coeff TCoulomb = Ok m /\
    matrix_function [(i, CREATION); (i, ANNIHILATION); (j, CREATION); (j, ANNIHILATION)] right (Some left) coeff Tgeneral = Ok m' /\
    entry m 0 0 = g1 /\ entry m' 0 0 = g0 /\ entry m' 1 0 = g1.
Proof.
  exists 0%Z, 1%Z, [3%N], [0%N; 3%N], g1. do 2 eexists.
  split; [cbn; auto|]. split; [cbn; repeat constructor|].
  split; [reflexivity|]. split; [reflexivity|]. repeat split; apply gq_eq; reflexivity.
Qed.
Print Assumptions C13_coulomb_left_bases_refuted.

(** C13 needs i <> j: a "hopping" with i = j gives the zero matrix. *)
Theorem C13_hopping_equal_states_refuted :
  exists i right coeff m m',
    matrix_function [(i, CREATION); (i, ANNIHILATION)] right None coeff Thopping = Ok m /\
    matrix_function [(i, CREATION); (i, ANNIHILATION)] right None coeff Tgeneral = Ok m' /\
    sorted_bases right /\ entry m 1 1 = g0 /\ entry m' 1 1 = g1.
Proof.
  exists 0%Z, [0%N; 1%N], g1. do 2 eexists.
  split; [reflexivity|]. split; [reflexivity|]. split; [cbn; repeat constructor|].
  split; apply gq_eq; reflexivity.
Qed.
Print Assumptions C13_hopping_equal_states_refuted.

(** C18 (and the correctness of the general path): whenever matrix_function
    succeeds, its entries are coeff times the Fock-space matrix elements
    <left_i| o_1 o_2 ... o_k |right_j>. *)
Theorem C18_general_matrix_elements : forall term right left coeff m,
  sorted_bases (the_left right left) ->
  matrix_function term right left coeff Tgeneral = Ok m ->
  nrows m = length (the_left right left) /\ ncols m = length right /\
  forall i j, (i < nrows m)%nat -> (j < ncols m)%nat ->
    entry m i j = gmul coeff (gz (amp (map (fun p => (Z.to_nat (fst p), snd p)) term)
                                      (nth i (the_left right left) 0%N) (nth j right 0%N))).
Proof.
  intros term right left coeff m Hs Hm.
  destruct (general_inv _ _ _ _ _ Hs Hm) as (_ & _ & _ & _ & E1 & E2 & E3).
  repeat split; auto.
Qed.
Print Assumptions C18_general_matrix_elements.

(** C18: each column has at most one non-zero entry, equal to coeff or -coeff. *)
Theorem C18_one_entry_per_column : forall term right left coeff m,
  sorted_bases (the_left right left) ->
  matrix_function term right left coeff Tgeneral = Ok m ->
  forall i j, (i < nrows m)%nat -> (j < ncols m)%nat -> entry m i j <> g0 ->
    (entry m i j = coeff \/ entry m i j = gopp coeff) /\
    forall i', (i' < nrows m)%nat -> entry m i' j <> g0 -> i' = i.
Proof.
  intros term right left coeff m Hs Hm i j Hi Hj Hne.
  destruct (general_inv _ _ _ _ _ Hs Hm) as (_ & _ & _ & _ & E1 & E2 & E3).
  assert (Z0 : gmul coeff (gz 0) = g0) by (change (gz 0) with g0; ring).
  assert (NZ : forall r, (r < nrows m)%nat -> entry m r j <> g0 ->
           amp (word_of term) (nth r (the_left right left) 0%N) (nth j right 0%N) <> 0%Z).
  { intros r Hr He Ha. apply He. rewrite E3 by auto. unfold word_mat. now rewrite Ha. }
  split.
  - rewrite E3 by auto. unfold word_mat.
    destruct (amp_cases (word_of term) (nth i (the_left right left) 0%N) (nth j right 0%N)) as [A|[A|A]].
    + exfalso. apply (NZ i); auto.
    + left. rewrite A. change (gz 1) with g1. ring.
    + right. rewrite A. change (gz (-1)) with (gopp g1). ring.
  - intros i' Hi' Hne'. pose proof (amp_unique _ _ _ _ (NZ i' Hi' Hne') (NZ i Hi Hne)) as E.
    apply (proj1 (NoDup_nth (the_left right left) 0%N)); auto; try congruence.
    now apply sorted_NoDup.
Qed.
Print Assumptions C18_one_entry_per_column.

(** C18: exactly when the general path fails, and how. *)
Theorem C18_failures : forall term right left coeff,
  sorted_bases (the_left right left) ->
  (Exists (fun p => (fst p < 0)%Z) term ->
     matrix_function term right left coeff Tgeneral = Err ValueError) /\
  (Forall (fun p => (0 <= fst p)%Z) term -> Exists (fun p => (64 <= fst p)%Z) term ->
     matrix_function term right left coeff Tgeneral = Err OverflowError) /\
  (term = [] -> matrix_function term right left coeff Tgeneral = Err TypeError) /\
  (term <> [] -> Forall good_index term -> ~ closed_on (word_of term) right (the_left right left) ->
     matrix_function term right left coeff Tgeneral = Err KeyError) /\
  (term <> [] -> Forall good_index term -> closed_on (word_of term) right (the_left right left) ->
     the_left right left = [] -> right <> [] ->
     matrix_function term right left coeff Tgeneral = Err ValueError) /\
  (term <> [] -> Forall good_index term -> closed_on (word_of term) right (the_left right left) ->
     the_left right left <> [] \/ right = [] ->
     exists m, matrix_function term right left coeff Tgeneral = Ok m).
Proof.
  intros term right left coeff Hs.
  destruct (general_errors term right left coeff Hs) as (E1 & E2 & E3 & E4 & E5).
  repeat (split; [assumption|]). intros H1 H2 H3 H4.
  destruct (general_ok term right left coeff Hs H1 H2 H3 H4) as (m & Hm & _). eauto.
Qed.
Print Assumptions C18_failures.

(** C15: from the complete p-particle sector of n <= 64 states to the complete
    (p + creators - annihilators)-particle sector no lookup fails. *)
Theorem C15_sector_to_sector : forall n p q term coeff,
  (n <= 64)%nat -> term <> [] ->
  Forall (fun x => (0 <= fst x < Z.of_nat n)%Z) term ->
  Z.of_nat q = (Z.of_nat p + word_charge (word_of term))%Z ->
  sector_bases n q <> [] \/ sector_bases n p = [] ->
  exists m, matrix_function term (sector_bases n p) (Some (sector_bases n q)) coeff Tgeneral = Ok m /\
    nrows m = length (sector_bases n q) /\ ncols m = length (sector_bases n p).
Proof.
  intros n p q term coeff Hn Hne Hi Hq Hs.
  assert (Hw : indices_below n (word_of term)).
  { apply Forall_forall. intros x Hx. apply in_map_iff in Hx as (y & <- & Hy).
    rewrite Forall_forall in Hi. specialize (Hi y Hy). cbn. lia. }
  destruct (general_ok term (sector_bases n p) (Some (sector_bases n q)) coeff) as (m & Hm & R1 & R2 & _); cbn [the_left]; auto.
  - apply sorted_sector.
  - eapply Forall_impl; [|exact Hi]. unfold good_index. cbn. lia.
  - now apply closed_sector.
  - exists m; auto.
Qed.
Print Assumptions C15_sector_to_sector.

(** C15: whatever the bases, a term only connects kets whose particle numbers
    differ by (creators - annihilators). *)
Theorem C15_charge_conserved : forall n term right left coeff m i j,
  sorted_bases (the_left right left) ->
  Forall (fun x => (fst x < Z.of_nat n)%Z) term ->
  matrix_function term right left coeff Tgeneral = Ok m ->
  (i < nrows m)%nat -> (j < ncols m)%nat -> entry m i j <> g0 ->
  Z.of_nat (below n (nth i (the_left right left) 0%N)) =
  (Z.of_nat (below n (nth j right 0%N)) + word_charge (word_of term))%Z.
Proof.
  intros n term right left coeff m i j Hs Hi Hm Hr Hc Hne.
  destruct (general_inv _ _ _ _ _ Hs Hm) as (_ & G & _ & _ & E1 & E2 & E3).
  rewrite E3 in Hne by auto. unfold word_mat, amp in Hne.
  destruct (word_act (word_of term) (nth j right 0%N)) as [[s k]|] eqn:E.
  2:{ exfalso. apply Hne. change (gz 0) with g0. ring. }
  destruct (N.eqb_spec k (nth i (the_left right left) 0%N)) as [<-|].
  2:{ exfalso. apply Hne. change (gz 0) with g0. ring. }
  eapply word_act_count; eauto. apply Forall_forall. intros x Hx.
  apply in_map_iff in Hx as (y & <- & Hy). rewrite Forall_forall in Hi, G.
  specialize (Hi y Hy). specialize (G y Hy). unfold good_index in G. cbn. lia.
Qed.
Print Assumptions C15_charge_conserved.

(** C15: and the full Fock space is closed under every term. *)
Theorem C15_full_space : forall n term coeff,
  (n <= 64)%nat -> term <> [] -> Forall (fun x => (0 <= fst x < Z.of_nat n)%Z) term ->
  exists m, matrix_function term (full_bases n) None coeff Tgeneral = Ok m /\
    nrows m = (2 ^ n)%nat /\ ncols m = (2 ^ n)%nat.
Proof.
  intros n term coeff Hn Hne Hi.
  assert (Hw : indices_below n (word_of term)).
  { apply Forall_forall. intros x Hx. apply in_map_iff in Hx as (y & <- & Hy).
    rewrite Forall_forall in Hi. specialize (Hi y Hy). cbn. lia. }
  assert (HL : length (full_bases n) = (2 ^ n)%nat) by (unfold full_bases; now rewrite map_length, seq_length).
  destruct (general_ok term (full_bases n) None coeff) as (m & Hm & R1 & R2 & _); cbn [the_left] in *; auto.
  - apply sorted_full.
  - eapply Forall_impl; [|exact Hi]. unfold good_index. cbn. lia.
  - now apply closed_full.
  - left. intros E. rewrite E in HL. cbn in HL. pose proof (Nat.pow_nonzero 2 n). lia.
  - exists m. repeat split; auto; congruence.
Qed.
Print Assumptions C15_full_space.

(** C16: for a non-zero coefficient, the coordinate form lists each stored
    element of the csr matrix exactly once and nothing else, whatever the tag. *)
Theorem C16_coordinate_form : forall term right left coeff t m, coeff <> g0 ->
  matrix_function term right left coeff t = Ok m ->
  exists l, matrix_function_coo term right left coeff t = Ok l /\
    Permutation l (stored m) /\ NoDup (map fst l) /\
    nrows m = length (the_left right left) /\ ncols m = length right /\
    (forall i j v, In (i, j, v) l <-> entry m i j = v /\ v <> g0).
Proof.
  intros term right left coeff t m Hc Hm. destruct (coo_ok _ _ _ _ _ _ Hm) as [l Hl].
  destruct (coo_csr _ _ _ _ _ _ _ Hc Hm Hl) as [P N].
  exists l. repeat (split; [assumption|]).
  unfold matrix_function in Hm. destruct (matrix_data _ _ _ _) as [data|]; [|discriminate].
  destruct (csr_shape _ _ _ _ Hm) as [-> ->]. repeat (split; [reflexivity|]).
  intros i j v. rewrite <- (csr_stored_iff _ _ _ _ Hm). split; apply Permutation_in; auto.
  now apply Permutation_sym.
Qed.
Print Assumptions C16_coordinate_form.

(** C16: with coefficient 0 the coordinate form still lists (explicit zero)
    entries while the csr matrix stores none. *)
Theorem C16_zero_coefficient_refuted :
  exists term right m l, sorted_bases right /\
    matrix_function term right None g0 Tgeneral = Ok m /\
    matrix_function_coo term right None g0 Tgeneral = Ok l /\
    stored m = [] /\ l = [(1%nat, 1%nat, g0)].
Proof.
  exists [(0%Z, CREATION); (0%Z, ANNIHILATION)], [0%N; 1%N]. do 2 eexists.
  split; [cbn; repeat constructor|]. split; [reflexivity|]. split; [reflexivity|].
  split; reflexivity.
Qed.
Print Assumptions C16_zero_coefficient_refuted.

(** Non-vacuity: c_2^+ c_0 on the 1-particle sector of 3 states. *)
Example ex_sector : sector_bases 3 1 = [1%N; 2%N; 4%N].
Proof. reflexivity. Qed.
Example ex_hop : exists m,
  matrix_function [(2%Z, CREATION); (0%Z, ANNIHILATION)] (sector_bases 3 1) None (gz 5) Tgeneral = Ok m /\
  entry m 2 0 = gz 5 /\ entry m 0 0 = g0 /\ length (stored m) = 1%nat.
Proof. eexists. split; [reflexivity|]. now repeat split. Qed.
(** A negative sign: c_2^+ c_0 |011> = -|110>. *)
Example ex_sign : exists m,
  matrix_function [(2%Z, CREATION); (0%Z, ANNIHILATION)] [3%N; 6%N] None g1 Thopping = Ok m /\
  entry m 1 0 = gopp g1.
Proof. eexists. split; [reflexivity|]. apply gq_eq; reflexivity. Qed.
(** A failing lookup. *)
Example ex_missing :
  matrix_function [(2%Z, CREATION)] [0%N; 1%N] None g1 Tgeneral = Err KeyError.
Proof. reflexivity. Qed.
