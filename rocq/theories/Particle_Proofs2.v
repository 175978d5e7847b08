(** Matrices of operators and terms. *)
From Coq Require Import List ZArith NArith Bool Sorted Permutation Arith Lia.
From Verif Require Import Py GQ Mat IndexTable_Model IndexTable_Spec IndexTable_Proofs State_Model State_Spec State_Proofs
  MatrixRepr_Model Fock_Spec Fock_Proofs MatrixRepr_Proofs MatrixRepr_Proofs2 Particle_Model Particle_Spec Particle_Proofs.
Import ListNotations.

(** ** py_eq is an equivalence *)
Lemma py_eq_mixed1 s t : py_eq (LSite s) (LState t) = false.
Proof. unfold py_eq; cbn. destruct (s_form s); reflexivity. Qed.
Lemma py_eq_mixed2 s t : py_eq (LState t) (LSite s) = false.
Proof. unfold py_eq; cbn. destruct (s_form s); reflexivity. Qed.
Lemma py_eq_iff a b : py_eq a b = true <-> same_key a b.
Proof.
  destruct a as [s|s], b as [t|t].
  - apply (order_char (LSite s) (LSite t) I).
  - rewrite py_eq_mixed1. cbn. intuition discriminate.
  - rewrite py_eq_mixed2. cbn. intuition discriminate.
  - apply (order_char (LState s) (LState t) I).
Qed.
Lemma same_key_refl a : same_key a a.
Proof. destruct a; cbn; auto. Qed.
Lemma same_key_sym a b : same_key a b -> same_key b a.
Proof. destruct a, b; cbn; intuition. Qed.
Lemma same_key_trans a b c : same_key a b -> same_key b c -> same_key a c.
Proof. destruct a, b, c; cbn; try tauto; try congruence. intros (->&->&->); auto. Qed.
Lemma py_eq_refl a : py_eq a a = true.
Proof. apply py_eq_iff, same_key_refl. Qed.
Lemma py_eq_sym a b : py_eq a b = py_eq b a.
Proof.
  destruct (py_eq b a) eqn:E.
  - apply py_eq_iff, same_key_sym, py_eq_iff, E.
  - destruct (py_eq a b) eqn:E'; auto.
    apply py_eq_iff, same_key_sym, py_eq_iff in E'. congruence.
Qed.
Lemma py_eq_trans a b c : py_eq a b = true -> py_eq b c = true -> py_eq a c = true.
Proof. rewrite !py_eq_iff. apply same_key_trans. Qed.
Lemma loc_isinst_refl x : loc_isinst x (loc_type x) = true.
Proof. now destruct x. Qed.

Lemma table_facts objs start tbl : make_state_table objs start = Ok tbl ->
  (forall s t i j, state_index tbl s = Ok i -> state_index tbl t = Ok j -> (i = j <-> same_st s t)) /\
  (forall s t i, state_index tbl s = Ok i -> same_st s t -> state_index tbl t = Ok i) /\
  (forall s i, state_index tbl s = Ok i -> (start <= i < start + Z.of_nat (length objs))%Z) /\
  (forall k s, nth_error objs k = Some (LState s) -> state_index tbl s = Ok (start + Z.of_nat k)%Z).
Proof.
  intros H. unfold make_state_table in H.
  destruct (make_bijection py_eq loc_type loc_isinst py_eq_refl py_eq_sym py_eq_trans loc_isinst_refl objs start tbl H)
    as (B1 & B2 & B3 & B4 & _).
  assert (Q : forall s i, state_index tbl s = Ok i -> exists k x, i = (start + Z.of_nat k)%Z /\
            nth_error objs k = Some x /\ py_eq x (LState s) = true /\ query_object tbl (PyInt i) = Ok x).
  { intros s i Hs. apply B3 in Hs as (x & Hx & E). pose proof Hx as Hx'. apply B4 in Hx as (k & -> & Hk). eauto 7. }
  assert (F2 : forall s t i, state_index tbl s = Ok i -> same_st s t -> state_index tbl t = Ok i).
  { intros s t i Hs E. destruct (Q _ _ Hs) as (k & x & -> & Hk & Hx & _).
    destruct (B1 k x Hk) as (_ & B & _). apply B.
    - eapply py_eq_trans; eauto. now apply py_eq_iff.
    - unfold state_index, query_index in Hs. destruct (loc_isinst (LState s) (object_type tbl)) eqn:EI; [|discriminate].
      destruct (object_type tbl); reflexivity. }
  split; [|split; [|split]]; auto.
  - intros s t i j Hs Ht. split.
    + intros <-. destruct (Q _ _ Hs) as (k & x & _ & _ & Hx & O). destruct (Q _ _ Ht) as (k' & x' & _ & _ & Hx' & O').
      assert (x' = x) by congruence. subst x'. apply py_eq_iff. eapply py_eq_trans; [|exact Hx']. now rewrite py_eq_sym.
    + intros E. eapply F2 in E; eauto. unfold state_index in *. congruence.
  - intros s i Hs. destruct (Q _ _ Hs) as (k & x & -> & Hk & _).
    assert (k < length objs)%nat by (apply nth_error_Some; congruence). lia.
  - intros k s Hk. now apply (B1 k).
Qed.

(** ** Terms as lists of (index, otype) *)
Definition term_of (tbl : state_table) (l : list (otype * stateid)) : res (list (Z * otype)) :=
  mapM (fun x => match state_index tbl (snd x) with Ok i => Ok (i, fst x) | Err e => Err e end) l.
Definition ops (l : list aoc) : list (otype * stateid) := map (fun a => (a_otype a, a_state a)) l.

Lemma mapM_map {A B C} (f : B -> res C) (h : A -> B) l : mapM f (map h l) = mapM (fun x => f (h x)) l.
Proof. induction l as [|x l IH]; cbn; auto. now rewrite IH. Qed.
Lemma mapM_app {A B} (f : A -> res B) l m :
  mapM f (l ++ m) = match mapM f l with
                    | Ok a => match mapM f m with Ok b => Ok (a ++ b) | Err e => Err e end
                    | Err e => Err e end.
Proof.
  induction l as [|x l IH]; cbn; [destruct (mapM f m); reflexivity|].
  destruct (f x); auto. rewrite IH. destruct (mapM f l); auto. destruct (mapM f m); auto.
Qed.
Lemma mapM_app_ok {A B} (f : A -> res B) l m r : mapM f (l ++ m) = Ok r <->
  exists a b, mapM f l = Ok a /\ mapM f m = Ok b /\ r = a ++ b.
Proof.
  rewrite mapM_app. split.
  - destruct (mapM f l); [|discriminate]. destruct (mapM f m); [|discriminate]. intros [= <-]. eauto 6.
  - intros (x & y & -> & -> & ->). reflexivity.
Qed.
Lemma mapM_cons_ok {A B} (f : A -> res B) x l r : mapM f (x :: l) = Ok r <->
  exists a b, f x = Ok a /\ mapM f l = Ok b /\ r = a :: b.
Proof.
  cbn. split.
  - destruct (f x); [|discriminate]. destruct (mapM f l); [|discriminate]. intros [= <-]. eauto 6.
  - intros (a & b & -> & -> & ->). reflexivity.
Qed.

Lemma term_repr tbl t right left : 
  fst (pterm_matrix_repr tbl t right left None) =
  match term_of tbl (ops (t_aocs t)) with
  | Ok term => matrix_function term right left (t_coeff t) (t_class t)
  | Err e => Err e
  end.
Proof. unfold pterm_matrix_repr, term_of, ops. cbn. rewrite mapM_map. reflexivity. Qed.

(** Compatible terms: any tag gives what the general path gives. *)
Lemma compatible_general objs start tbl t right left :
  make_state_table objs start = Ok tbl -> check_compatibility t = true ->
  (t_class t = Tgeneral \/ t_class t = Thopping \/ (left = None /\ sorted_bases right)) ->
  fst (pterm_matrix_repr tbl t right left None) =
  fst (pterm_matrix_repr tbl (MkTerm (t_aocs t) (t_coeff t) Tgeneral) right left None).
Proof.
  intros Ht Hc Hl. destruct (table_facts _ _ _ Ht) as (T1 & T2 & _).
  rewrite !term_repr. cbn [t_aocs t_coeff t_class].
  destruct (term_of tbl (ops (t_aocs t))) as [term|] eqn:E; [|reflexivity].
  destruct t as [aocs c cls]. unfold check_compatibility in Hc. cbn [t_aocs t_coeff t_class] in *.
  destruct cls; [reflexivity| | |].
  - destruct aocs as [|x [|y [|? ?]]]; try discriminate.
    apply andb_prop in Hc as [Hc Hs]. apply andb_prop in Hc as [Hx Hy].
    unfold is_creation, is_annihilation in *. destruct x as [[] sx]; try discriminate. destruct y as [[] sy]; try discriminate.
    cbn -[state_ne state_eq state_index matrix_function] in *. destruct (state_index tbl sx) as [i|] eqn:Ei; [|discriminate].
    destruct (state_index tbl sy) as [j|] eqn:Ej; [|discriminate]. injection E as <-.
    apply hopping_general. intros Hij. apply (T1 _ _ _ _ Ei Ej) in Hij.
    apply state_eq_iff in Hij. rewrite state_ne_eq, Hij in Hs. discriminate.
  - destruct Hl as [Hl|[Hl|[-> Hs]]]; try discriminate.
    destruct aocs as [|x [|y [|? ?]]]; try discriminate.
    apply andb_prop in Hc as [Hc Hst]. apply andb_prop in Hc as [Hx Hy].
    unfold is_creation, is_annihilation in *. destruct x as [[] sx]; try discriminate. destruct y as [[] sy]; try discriminate.
    cbn -[state_ne state_eq state_index matrix_function] in *. destruct (state_index tbl sx) as [i|] eqn:Ei; [|discriminate].
    apply state_eq_iff in Hst. rewrite (T2 _ _ _ Ei Hst) in E. injection E as <-. now apply number_general.
  - destruct Hl as [Hl|[Hl|[-> Hs]]]; try discriminate.
    destruct aocs as [|x [|y [|z [|w [|? ?]]]]]; try discriminate.
    apply andb_prop in Hc as [Hc Hst2]. apply andb_prop in Hc as [Hc Hst]. apply andb_prop in Hc as [Hc Hw].
    apply andb_prop in Hc as [Hc Hz]. apply andb_prop in Hc as [Hx Hy].
    unfold is_creation, is_annihilation in *. destruct x as [[] sx]; try discriminate. destruct y as [[] sy]; try discriminate.
    destruct z as [[] sz]; try discriminate. destruct w as [[] sw]; try discriminate.
    cbn -[state_ne state_eq state_index matrix_function] in *. destruct (state_index tbl sx) as [i|] eqn:Ei; [|discriminate].
    apply state_eq_iff in Hst, Hst2. rewrite (T2 _ _ _ Ei Hst) in E.
    destruct (state_index tbl sz) as [j|] eqn:Ej; [|discriminate].
    rewrite (T2 _ _ _ Ej Hst2) in E. injection E as <-. now apply coulomb_general.
Qed.

(** ** normalize preserves the operator *)
Lemma xor_out_comp a b o : xor_out a (xor_out b o) = xor_out (xorb a b) o.
Proof. destruct o as [[s k]|]; cbn; [|reflexivity]. now rewrite xorb_assoc. Qed.
Lemma neg_xor o : neg_out o = xor_out true o.
Proof. destruct o as [[[] k]|]; reflexivity. Qed.

Lemma steps_term objs start tbl l n l' : make_state_table objs start = Ok tbl -> steps l n l' ->
  forall t, term_of tbl (ops l) = Ok t -> exists t', term_of tbl (ops l') = Ok t' /\ Permutation t t' /\
    (Forall good_index t -> forall ket, word_act (word_of t') ket = xor_out (Nat.odd n) (word_act (word_of t) ket)).
Proof.
  intros Ht. destruct (table_facts _ _ _ Ht) as (T1 & T2 & _).
  induction 1 as [l|u x y v n l' B NS Hs IH]; intros t E.
  - exists t. repeat split; auto. intros _ ket. cbn. destruct (word_act (word_of t) ket) as [[[] k]|]; reflexivity.
  - unfold term_of, ops in E. rewrite map_app in E. apply mapM_app_ok in E as (tu & t1 & Eu & E1 & ->).
    cbn [map] in E1. apply mapM_cons_ok in E1 as (px & t2 & Ex & E2 & ->).
    apply mapM_cons_ok in E2 as (py & tv & Ey & Ev & ->). cbn [fst snd] in Ex, Ey.
    assert (E' : term_of tbl (ops (u ++ y :: x :: v)) = Ok (tu ++ py :: px :: tv)).
    { unfold term_of, ops. rewrite map_app. apply mapM_app_ok. do 2 eexists. split; [exact Eu|]. split; [|reflexivity].
      cbn [map]. apply mapM_cons_ok. do 2 eexists. split; [exact Ey|]. split; [|reflexivity].
      apply mapM_cons_ok. do 2 eexists. split; [exact Ex|]. split; [exact Ev|reflexivity]. }
    destruct (IH _ E') as (t' & Et' & P & W). exists t'. split; auto.
    assert (P0 : Permutation (tu ++ px :: py :: tv) (tu ++ py :: px :: tv)).
    { apply Permutation_app_head. constructor. }
    split; [etransitivity; eauto|]. intros G ket. rewrite W; [|eapply Permutation_Forall; eauto].
    destruct (state_index tbl (a_state x)) as [i|] eqn:Ei; [|discriminate]. injection Ex as <-.
    destruct (state_index tbl (a_state y)) as [j|] eqn:Ej; [|discriminate]. injection Ey as <-.
    assert (Hij : i <> j) by (intros Hij; apply (T1 _ _ _ _ Ei Ej) in Hij; auto).
    apply Forall_app in G as [_ G]. inversion G as [|? ? G1 G2]; subst. inversion G2 as [|? ? G3 G4]; subst.
    unfold good_index in G1, G3; cbn in G1, G3.
    rewrite !word_of_app. cbn [word_of map fst snd].
    change (map (fun p : Z * otype => (Z.to_nat (fst p), snd p)) tv) with (word_of tv).
    rewrite (word_swap (word_of tu) (Z.to_nat j) (a_otype y)) by lia.
    rewrite neg_xor, xor_out_comp. f_equal. rewrite xorb_true_r, Nat.odd_succ, <- Nat.negb_odd. reflexivity.
Qed.

Lemma amp_xor b w w' : (forall ket, word_act w' ket = xor_out b (word_act w ket)) -> forall bra ket,
  gz (amp w' bra ket) = gmul (if b then gopp g1 else g1) (gz (amp w bra ket)).
Proof.
  intros H bra ket. unfold amp. rewrite H. destruct (word_act w ket) as [[s k]|]; cbn [xor_out].
  - destruct (k =? bra)%N; [|change (gz 0) with g0; ring].
    destruct b, s; cbn [xorb]; change (gz 1) with g1; change (gz (-1)) with (gopp g1); ring.
  - change (gz 0) with g0. ring.
Qed.
Lemma closed_xor b w w' right left : (forall ket, word_act w' ket = xor_out b (word_act w ket)) ->
  closed_on w right left -> closed_on w' right left.
Proof.
  intros H. apply Forall_impl. intros ket. rewrite H. now destruct (word_act w ket) as [[s k]|].
Qed.

Lemma normalize_matrix objs start tbl l l' n c right left m :
  make_state_table objs start = Ok tbl -> sorted_bases (the_left right left) ->
  normalize l = Ok (l', n) ->
  fst (pterm_matrix_repr tbl (MkTerm l c Tgeneral) right left None) = Ok m ->
  exists m', fst (pterm_matrix_repr tbl (MkTerm l' (gmul (sign n) c) Tgeneral) right left None) = Ok m' /\
    nrows m' = nrows m /\ ncols m' = ncols m /\ meq (nrows m) (ncols m) (entry m') (entry m).
Proof.
  intros Ht Hs Hn Hm. rewrite term_repr in *. cbn [t_aocs t_coeff t_class] in *.
  destruct (term_of tbl (ops l)) as [t|] eqn:E; [|discriminate].
  apply normalize_steps in Hn. destruct (steps_term _ _ _ _ _ _ Ht Hn _ E) as (t' & E' & P & W).
  rewrite E'. apply general_inv in Hm as (H1 & H2 & H3 & H4 & H5 & H6 & H7); auto.
  specialize (W H2).
  destruct (general_ok t' right left (gmul (sign n) c)) as (m' & Hm' & R1 & R2 & R3); auto.
  - intros ->. apply Permutation_sym, Permutation_nil in P. auto.
  - eapply Permutation_Forall; eauto.
  - eapply closed_xor; eauto.
  - exists m'. split; auto. split; [congruence|]. split; [congruence|].
    intros i j Hi Hj. rewrite R3, H7 by congruence. unfold word_mat.
    rewrite (amp_xor _ _ _ W). unfold sign. destruct (Nat.odd n); ring.
Qed.

(** ** Products *)
Lemma toterm_ok zoom n : built_num zoom n ->
  toterm zoom n = Ok (MkTerm [MkAoc CREATION (n_state n); MkAoc ANNIHILATION (n_state n)] g1 Tgeneral).
Proof.
  intros H. apply built_num_wf in H. unfold toterm, make_aoc; cbn. unfold wf_state in H. now rewrite H.
Qed.

Lemma mul_structure zoom x y : good_operand zoom x -> good_operand zoom y ->
  x <> OForeign -> y <> OForeign -> ~ (is_scalar x /\ is_scalar y) ->
  exists t, py_mul zoom x y = Ok (OTerm t) /\
     ops (t_aocs t) = operand_ops zoom x ++ operand_ops zoom y /\
     t_coeff t = gmul (operand_coeff x) (operand_coeff y) /\ t_class t = Tgeneral.
Proof.
  intros Hx Hy Fx Fy NS.
  destruct x as [a|n|u|c|], y as [b|m|v|d|]; try contradiction; try (exfalso; apply NS; split; exact I);
    cbn [good_operand] in Hx, Hy;
    try (pose proof (toterm_ok _ _ Hx) as Ex); try (pose proof (toterm_ok _ _ Hy) as Ey);
    eexists; unfold py_mul; cbn -[toterm]; rewrite ?Ex, ?Ey; cbn -[toterm]; rewrite ?Ey; cbn -[toterm];
    (split; [reflexivity|]); cbn [t_aocs t_coeff t_class];
    (split; [unfold ops; cbn [operand_ops]; rewrite ?map_app, ?app_nil_r; reflexivity|]); (split; [cbn [operand_coeff]; ring|reflexivity]).
Qed.
Lemma mul_scalars zoom c d : py_mul zoom (OScalar c) (OScalar d) = Ok (OScalar (gmul c d)).
Proof. reflexivity. Qed.
Lemma mul_foreign zoom x y : good_operand zoom x -> good_operand zoom y -> x = OForeign \/ y = OForeign ->
  py_mul zoom x y = Err TypeError.
Proof.
  intros Hx Hy [->| ->].
  - destruct y as [b|m|v|d|]; try reflexivity. cbn in Hy. unfold py_mul; cbn -[toterm].
    rewrite (toterm_ok _ _ Hy). reflexivity.
  - destruct x as [b|m|v|d|]; try reflexivity. cbn in Hx. unfold py_mul; cbn -[toterm].
    rewrite (toterm_ok _ _ Hx). reflexivity.
Qed.

(** What having a matrix on a sorted basis means. *)
Lemma amp_nil bra ket : amp [] bra ket = if (ket =? bra)%N then 1%Z else 0%Z.
Proof. reflexivity. Qed.

Lemma word_mat_nil c bases : sorted_bases bases ->
  meq (length bases) (length bases) (mscale c mid) (word_mat c [] bases bases).
Proof.
  intros Hs i j Hi Hj. unfold mscale, mid, word_mat. rewrite amp_nil.
  destruct (Nat.eqb_spec i j) as [->|H].
  - rewrite N.eqb_refl. reflexivity.
  - destruct (N.eqb_spec (nth j bases 0%N) (nth i bases 0%N)) as [E|E]; [|reflexivity].
    exfalso. apply H. apply (proj1 (NoDup_nth bases 0%N) (sorted_NoDup _ Hs)); auto.
Qed.

Lemma matrix_of_repr objs start tbl bases zoom x m :
  make_state_table objs start = Ok tbl -> sorted_bases bases -> good_operand zoom x ->
  matrix_of tbl bases x m ->
  exists term, term_of tbl (operand_ops zoom x) = Ok term /\ Forall good_index term /\
    closed_on (word_of term) bases bases /\ (is_scalar x \/ term <> []) /\
    meq (length bases) (length bases) m (word_mat (operand_coeff x) (word_of term) bases bases).
Proof.
  intros Ht Hs Hg Hm. destruct x as [a|n|u|c|]; cbn [matrix_of] in Hm.
  - destruct Hm as (k & Hk & ->). unfold aoc_matrix_repr in Hk. unfold term_of; cbn.
    destruct (state_index tbl (a_state a)) as [i|]; [|discriminate].
    exists [(i, a_otype a)]. split; auto.
    apply general_inv in Hk as (H1 & H2 & H3 & H4 & H5 & H6 & H7); auto. cbn [the_left] in *.
    rewrite H5, H6 in H7. auto.
  - destruct Hm as (k & Hk & ->). unfold numop_matrix_repr in Hk. unfold term_of; cbn.
    destruct (state_index tbl (n_state n)) as [i|]; [|discriminate].
    exists [(i, CREATION); (i, ANNIHILATION)]. split; auto.
    rewrite number_general in Hk by auto.
    apply general_inv in Hk as (H1 & H2 & H3 & H4 & H5 & H6 & H7); auto. cbn [the_left] in *.
    rewrite H5, H6 in H7. auto.
  - destruct Hm as (k & Hk & ->). cbn [good_operand] in Hg.
    rewrite (compatible_general _ _ _ _ _ _ Ht Hg) in Hk by auto.
    rewrite term_repr in Hk. cbn [t_aocs t_coeff t_class] in Hk.
    cbn [operand_ops]. fold (ops (t_aocs u)).
    destruct (term_of tbl (ops (t_aocs u))) as [term|]; [|discriminate]. exists term. split; auto.
    apply general_inv in Hk as (H1 & H2 & H3 & H4 & H5 & H6 & H7); auto. cbn [the_left] in *.
    rewrite H5, H6 in H7. auto.
  - subst m. exists []. split; [reflexivity|]. split; [constructor|]. split; [|split; [left; exact I|]].
    + apply Forall_forall. intros k Hk. exact Hk.
    + now apply word_mat_nil.
  - contradiction.
Qed.

Lemma product_matrix objs start tbl bases zoom x y mx my :
  make_state_table objs start = Ok tbl -> sorted_bases bases ->
  good_operand zoom x -> good_operand zoom y ->
  matrix_of tbl bases x mx -> matrix_of tbl bases y my ->
  exists r m, py_mul zoom x y = Ok r /\ matrix_of tbl bases r m /\
    meq (length bases) (length bases) m (mmul (length bases) mx my).
Proof.
  intros Ht Hs Gx Gy Mx My.
  assert (Fx : x <> OForeign) by (intros ->; exact Mx).
  assert (Fy : y <> OForeign) by (intros ->; exact My).
  destruct (matrix_of_repr _ _ _ _ zoom _ _ Ht Hs Gx Mx) as (tx & X1 & X2 & X3 & X4 & X5).
  destruct (matrix_of_repr _ _ _ _ zoom _ _ Ht Hs Gy My) as (ty & Y1 & Y2 & Y3 & Y4 & Y5).
  assert (MM : meq (length bases) (length bases) (mmul (length bases) mx my)
             (word_mat (gmul (operand_coeff x) (operand_coeff y)) (word_of (tx ++ ty)) bases bases)).
  { intros i j Hi Hj. rewrite word_of_app.
    rewrite <- (word_mat_mul _ _ _ _ bases bases bases); auto using sorted_NoDup.
    apply (mmul_ext _ _ _ _ _ _ _ X5 Y5); auto. }
  assert (D : (is_scalar x /\ is_scalar y) \/ ~ (is_scalar x /\ is_scalar y)) by (destruct x, y; cbn; tauto).
  destruct D as [D|D].
  - destruct x as [| | |c|], y as [| | |d|]; try (destruct D as [[] []]; fail); try (destruct D as [? []]; fail); try (destruct D as [[] ?]; fail).
    exists (OScalar (gmul c d)), (mscale (gmul c d) mid). split; [reflexivity|]. split; [reflexivity|].
    intros i j Hi Hj. rewrite MM by auto. cbn in X1, Y1. injection X1 as <-. injection Y1 as <-.
    now apply word_mat_nil.
  - destruct (mul_structure zoom x y Gx Gy Fx Fy D) as (t & Et & O & C & K).
    assert (TO : term_of tbl (ops (t_aocs t)) = Ok (tx ++ ty)).
    { rewrite O. unfold term_of. apply mapM_app_ok. eauto. }
    destruct (general_ok (tx ++ ty) bases None (t_coeff t)) as (m & Hm & R1 & R2 & R3); cbn [the_left] in *; auto.
    + intros E. apply app_eq_nil in E as [-> ->]. destruct X4; try contradiction. destruct Y4; try contradiction. auto.
    + apply Forall_app; auto.
    + rewrite word_of_app. eapply closed_app; eauto.
    + destruct bases; [now right|left; discriminate].
    + exists (OTerm t), (entry m). split; auto. split.
      * cbn [matrix_of]. exists m. split; auto. change (fst (pterm_matrix_repr tbl t bases None None) = Ok m).
        rewrite term_repr, TO, K. exact Hm.
      * rewrite R1, R2 in R3. intros i j Hi Hj. rewrite R3, MM, C by auto. reflexivity.
Qed.

(** ** dagger of terms *)
Lemma mapM_dagger zoom l : Forall (built zoom) l ->
  mapM (aoc_dagger zoom) l = Ok (map (fun a => MkAoc (flip_otype (a_otype a)) (a_state a)) l).
Proof.
  induction 1 as [|x l Hx Hl IH]; [reflexivity|]. cbn [mapM map]. now rewrite (dagger_ok _ _ Hx), IH.
Qed.
Lemma pterm_dagger_ok zoom t : Forall (built zoom) (t_aocs t) ->
  pterm_dagger zoom t = Ok (MkTerm (rev (map (fun a => MkAoc (flip_otype (a_otype a)) (a_state a)) (t_aocs t)))
                                   (gconj (t_coeff t)) Tgeneral).
Proof.
  intros H. unfold pterm_dagger. rewrite mapM_dagger; [cbn; now rewrite map_rev|]. now apply Forall_rev.
Qed.
Lemma built_flips zoom l : Forall (built zoom) l ->
  Forall (built zoom) (rev (map (fun a => MkAoc (flip_otype (a_otype a)) (a_state a)) l)).
Proof.
  intros H. apply Forall_rev. apply Forall_forall. intros x Hx. apply in_map_iff in Hx as (a & <- & Ha).
  rewrite Forall_forall in H. now apply built_flip, H.
Qed.
Lemma pterm_dagger_twice zoom t t' : Forall (built zoom) (t_aocs t) -> pterm_dagger zoom t = Ok t' ->
  exists t'', pterm_dagger zoom t' = Ok t'' /\ t_aocs t'' = t_aocs t /\ t_coeff t'' = t_coeff t.
Proof.
  intros H E. rewrite pterm_dagger_ok in E by auto. injection E as <-.
  rewrite pterm_dagger_ok by (cbn; now apply built_flips). eexists. split; [reflexivity|]. cbn.
  rewrite map_rev, rev_involutive, map_map, gconj_invol. split; auto.
  rewrite <- map_id. apply map_ext. intros [o s]; cbn. now rewrite flip_otype_invol.
Qed.

Lemma term_of_flips tbl l t : term_of tbl (ops l) = Ok t ->
  term_of tbl (ops (rev (map (fun a => MkAoc (flip_otype (a_otype a)) (a_state a)) l))) = Ok (term_dagger t).
Proof.
  revert t. induction l as [|x l IH]; intros t E.
  - cbn in E. injection E as <-. reflexivity.
  - cbn [ops map] in E. unfold term_of in E. apply mapM_cons_ok in E as (p & t' & Ex & Et & ->).
    cbn [map rev]. unfold ops, term_of. rewrite map_app. apply mapM_app_ok.
    do 2 eexists. split; [apply IH; exact Et|]. split; [|reflexivity].
    cbn in *. destruct (state_index tbl (a_state x)); [|discriminate]. injection Ex as <-. reflexivity.
Qed.

Lemma dagger_matrix objs start tbl zoom t t' right left m m' :
  make_state_table objs start = Ok tbl -> Forall (built zoom) (t_aocs t) ->
  sorted_bases right -> sorted_bases (the_left right left) ->
  check_compatibility t = true ->
  (t_class t = Tgeneral \/ t_class t = Thopping \/ left = None) ->
  pterm_dagger zoom t = Ok t' ->
  fst (pterm_matrix_repr tbl t right left None) = Ok m ->
  fst (pterm_matrix_repr tbl t' (the_left right left) (Some right) None) = Ok m' ->
  nrows m' = ncols m /\ ncols m' = nrows m /\ meq (nrows m') (ncols m') (entry m') (mdag (entry m)).
Proof.
  intros Ht Hb HR HL Hc Hl Hd Hm Hm'. rewrite pterm_dagger_ok in Hd by auto. injection Hd as <-.
  rewrite (compatible_general _ _ _ _ _ _ Ht Hc) in Hm by (destruct Hl as [|[|]]; auto).
  rewrite term_repr in Hm, Hm'. cbn [t_aocs t_coeff t_class] in *.
  destruct (term_of tbl (ops (t_aocs t))) as [term|] eqn:E; [|discriminate].
  rewrite (term_of_flips _ _ _ E) in Hm'.
  eapply (adjoint_ok term (the_left right left) right (t_coeff t)); eauto.
Qed.

(** Existence on the full Fock space. *)
Lemma term_of_bounds objs start tbl l t : make_state_table objs start = Ok tbl ->
  term_of tbl l = Ok t -> Forall (fun p => (start <= fst p < start + Z.of_nat (length objs))%Z) t.
Proof.
  intros Ht. destruct (table_facts _ _ _ Ht) as (_ & _ & T3 & _). revert t.
  induction l as [|x l IH]; intros t E.
  - cbn in E. injection E as <-. constructor.
  - unfold term_of in E. apply mapM_cons_ok in E as (p & t' & Ex & Et & ->).
    destruct (state_index tbl (snd x)) eqn:Ei; [|discriminate]. injection Ex as <-.
    constructor; auto. cbn. eauto.
Qed.

Lemma full_length n : length (full_bases n) = (2 ^ n)%nat.
Proof. unfold full_bases. now rewrite map_length, seq_length. Qed.
Lemma full_nonempty n : full_bases n <> [].
Proof. intros E. pose proof (full_length n) as H. rewrite E in H. cbn in H. pose proof (Nat.pow_nonzero 2 n). lia. Qed.

Lemma full_ok n term coeff : (n <= 64)%nat -> term <> [] ->
  Forall (fun p => (0 <= fst p < Z.of_nat n)%Z) term ->
  exists m, matrix_function term (full_bases n) None coeff Tgeneral = Ok m /\
    nrows m = (2 ^ n)%nat /\ ncols m = (2 ^ n)%nat /\
    meq (2 ^ n) (2 ^ n) (entry m) (word_mat coeff (word_of term) (full_bases n) (full_bases n)).
Proof.
  intros Hn Hne Hi.
  assert (Hw : indices_below n (word_of term)).
  { apply Forall_forall. intros x Hx. apply in_map_iff in Hx as (y & <- & Hy).
    rewrite Forall_forall in Hi. specialize (Hi y Hy). cbn. lia. }
  destruct (general_ok term (full_bases n) None coeff) as (m & Hm & R1 & R2 & R3); cbn [the_left] in *; auto.
  - apply sorted_full.
  - eapply Forall_impl; [|exact Hi]. unfold good_index. cbn. lia.
  - now apply closed_full.
  - left. apply full_nonempty.
  - exists m. rewrite R1, R2, full_length in R3. rewrite R1, R2, full_length. auto.
Qed.

Lemma state_bounds objs start tbl n s i : make_state_table objs start = Ok tbl ->
  (0 <= start)%Z -> (start + Z.of_nat (length objs) <= Z.of_nat n)%Z -> state_index tbl s = Ok i ->
  (0 <= i < Z.of_nat n)%Z.
Proof.
  intros Ht H0 H1 Hi. destruct (table_facts _ _ _ Ht) as (_ & _ & T3 & _). specialize (T3 _ _ Hi). lia.
Qed.

(** ** Anticommutators *)
Lemma car_word n i oi j oj :
  meq (2 ^ n) (2 ^ n)
    (madd (word_mat g1 [(i, oi); (j, oj)] (full_bases n) (full_bases n))
          (word_mat g1 [(j, oj); (i, oi)] (full_bases n) (full_bases n)))
    (if Nat.eqb i j && negb (otype_eqb oi oj) then mid else mzero).
Proof.
  intros a b Ha Hb. unfold madd.
  destruct (Nat.eqb_spec i j) as [<-|Hij]; cbn [andb].
  - assert (D : oi = oj \/ oi = flip_otype oj) by (destruct oi, oj; auto).
    destruct D as [<-|D].
    + replace (negb (otype_eqb oi oi)) with false by now destruct oi.
      unfold word_mat, amp. rewrite word_same_otype. change (gz 0) with g0. unfold mzero. ring.
    + replace (negb (otype_eqb oi oj)) with true by (subst oi; now destruct oj).
      assert (S : madd (word_mat g1 [(i, CREATION); (i, ANNIHILATION)] (full_bases n) (full_bases n))
          (word_mat g1 [(i, ANNIHILATION); (i, CREATION)] (full_bases n) (full_bases n)) a b = mid a b).
      { unfold madd. unfold mid.
        pose proof (word_mat_nil g1 (full_bases n) (sorted_full n) a b) as W. rewrite full_length in W.
        specialize (W Ha Hb). unfold mscale, mid in W.
        assert (W' : (if Nat.eqb a b then g1 else g0) = word_mat g1 [] (full_bases n) (full_bases n) a b) by (rewrite <- W; ring).
        rewrite W'. unfold word_mat, amp. rewrite word_number, word_hole.
        cbn [word_act]. destruct (occ (nth b (full_bases n) 0%N) i); change (gz 0) with g0; ring. }
      unfold madd in S. subst oi. destruct oj; cbn [flip_otype]; [exact S|].
      rewrite <- S. ring.
  - unfold word_mat, amp. rewrite word_swap2 by auto.
    destruct (word_act [(j, oj); (i, oi)] (nth b (full_bases n) 0%N)) as [[s k]|]; cbn [neg_out].
    + destruct (k =? _)%N; [|change (gz 0) with g0; unfold mzero; ring].
      destruct s; cbn [negb]; change (gz 1) with g1; change (gz (-1)) with (gopp g1); unfold mzero; ring.
    + change (gz 0) with g0. unfold mzero. ring.
Qed.

Lemma aoc_full objs start tbl n x i : make_state_table objs start = Ok tbl ->
  (0 <= start)%Z -> (start + Z.of_nat (length objs) <= Z.of_nat n)%Z -> (n <= 64)%nat ->
  state_index tbl (a_state x) = Ok i ->
  exists m, aoc_matrix_repr tbl x (full_bases n) None = Ok m /\
    nrows m = (2 ^ n)%nat /\ ncols m = (2 ^ n)%nat /\
    meq (2 ^ n) (2 ^ n) (entry m) (word_mat g1 [(Z.to_nat i, a_otype x)] (full_bases n) (full_bases n)).
Proof.
  intros Ht H0 H1 Hn Hi. unfold aoc_matrix_repr. rewrite Hi.
  destruct (full_ok n [(i, a_otype x)] g1) as (m & Hm); auto; try discriminate.
  - constructor; auto. cbn. eapply state_bounds; eauto.
  - exists m. exact Hm.
Qed.

Lemma car objs start tbl n x y i j : make_state_table objs start = Ok tbl ->
  (0 <= start)%Z -> (start + Z.of_nat (length objs) <= Z.of_nat n)%Z -> (n <= 64)%nat ->
  state_index tbl (a_state x) = Ok i -> state_index tbl (a_state y) = Ok j ->
  exists mx my, aoc_matrix_repr tbl x (full_bases n) None = Ok mx /\
    aoc_matrix_repr tbl y (full_bases n) None = Ok my /\
    (a_otype x = a_otype y \/ ~ same_st (a_state x) (a_state y) ->
       meq (2 ^ n) (2 ^ n) (madd (mmul (2 ^ n) (entry mx) (entry my)) (mmul (2 ^ n) (entry my) (entry mx))) mzero) /\
    (a_otype x <> a_otype y -> same_st (a_state x) (a_state y) ->
       meq (2 ^ n) (2 ^ n) (madd (mmul (2 ^ n) (entry mx) (entry my)) (mmul (2 ^ n) (entry my) (entry mx))) mid).
Proof.
  intros Ht H0 H1 Hn Hi Hj.
  destruct (aoc_full _ _ _ n x i Ht H0 H1 Hn Hi) as (mx & X1 & X2 & X3 & X4).
  destruct (aoc_full _ _ _ n y j Ht H0 H1 Hn Hj) as (my & Y1 & Y2 & Y3 & Y4).
  exists mx, my. split; auto. split; auto.
  pose proof (state_bounds _ _ _ _ _ _ Ht H0 H1 Hi) as Bi. pose proof (state_bounds _ _ _ _ _ _ Ht H0 H1 Hj) as Bj.
  destruct (table_facts _ _ _ Ht) as (T1 & _). specialize (T1 _ _ _ _ Hi Hj).
  assert (M : forall p q mp mq, (fst p < n)%nat -> (fst q < n)%nat ->
    meq (2 ^ n) (2 ^ n) mp (word_mat g1 [p] (full_bases n) (full_bases n)) ->
    meq (2 ^ n) (2 ^ n) mq (word_mat g1 [q] (full_bases n) (full_bases n)) ->
    meq (2 ^ n) (2 ^ n) (mmul (2 ^ n) mp mq) (word_mat g1 [p; q] (full_bases n) (full_bases n))).
  { intros p q mp mq Hp Hq Mp Mq a b Ha Hb. rewrite (mmul_ext _ _ _ _ _ _ _ Mp Mq a b Ha Hb).
    pose proof (word_mat_mul g1 g1 [p] [q] (full_bases n) (full_bases n) (full_bases n)) as W.
    rewrite full_length in W. rewrite W; auto.
    - apply sorted_NoDup, sorted_full.
    - apply closed_full. constructor; auto. }
  assert (Q : meq (2 ^ n) (2 ^ n) (madd (mmul (2 ^ n) (entry mx) (entry my)) (mmul (2 ^ n) (entry my) (entry mx)))
     (if Nat.eqb (Z.to_nat i) (Z.to_nat j) && negb (otype_eqb (a_otype x) (a_otype y)) then mid else mzero)).
  { intros a b Ha Hb. rewrite <- (car_word n) by auto. unfold madd. f_equal.
    - apply (M (Z.to_nat i, a_otype x) (Z.to_nat j, a_otype y)); auto; cbn; lia.
    - apply (M (Z.to_nat j, a_otype y) (Z.to_nat i, a_otype x)); auto; cbn; lia. }
  split.
  - intros C. destruct (Nat.eqb_spec (Z.to_nat i) (Z.to_nat j)) as [E|E]; [|exact Q].
    destruct C as [C|C].
    + rewrite C in Q. destruct (a_otype y); exact Q.
    + exfalso. apply C, T1. lia.
  - intros C S. apply T1 in S. subst j. rewrite Nat.eqb_refl in Q. destruct (a_otype x), (a_otype y); try contradiction; exact Q.
Qed.

(** ** Histories *)
Lemma do_call_state t k : 
  snd (do_call t k) = MkTerm (t_aocs t) (match given k with Some c => c | None => t_coeff t end) (t_class t).
Proof.
  destruct k as [[c|]|tbl rb lb [[c|]|]]; cbn; try (destruct t; reflexivity).
Qed.
Lemma do_calls_state ks : forall t,
  snd (do_calls t ks) = MkTerm (t_aocs t) (last_given (t_coeff t) ks) (t_class t).
Proof.
  induction ks as [|k ks IH]; intros t; cbn [do_calls last_given]; [now destruct t|].
  pose proof (do_call_state t k) as E. destruct (do_call t k) as [o t']. cbn [snd] in E. subst t'.
  match goal with |- context [do_calls ?u ks] => specialize (IH u); destruct (do_calls u ks) end.
  cbn [snd] in *. exact IH.
Qed.
Lemma do_calls_app ks ks' t :
  do_calls t (ks ++ ks') = (fst (do_calls t ks) ++ fst (do_calls (snd (do_calls t ks)) ks'),
                            snd (do_calls (snd (do_calls t ks)) ks')).
Proof.
  revert t. induction ks as [|k ks IH]; intros t; cbn [app do_calls].
  - cbn [fst snd app]. now destruct (do_calls t ks').
  - destruct (do_call t k) as [o t']. rewrite IH. destruct (do_calls t' ks) as [os t'']. cbn [fst snd].
    destruct (do_calls t'' ks'). reflexivity.
Qed.
Lemma do_calls_length ks t : length (fst (do_calls t ks)) = length ks.
Proof.
  revert t. induction ks as [|k ks IH]; intros t; cbn [do_calls]; [reflexivity|].
  destruct (do_call t k) as [o t']. specialize (IH t'). destruct (do_calls t' ks). cbn in *. lia.
Qed.
Lemma history_result t pre k post :
  nth_error (fst (do_calls t (pre ++ k :: post))) (length pre) =
  Some (fst (do_call (MkTerm (t_aocs t) (last_given (t_coeff t) pre) (t_class t)) k)).
Proof.
  rewrite do_calls_app. cbn [fst]. rewrite nth_error_app2; rewrite do_calls_length; [|lia].
  rewrite Nat.sub_diag, do_calls_state. cbn [do_calls].
  destruct (do_call _ k) as [o t']. destruct (do_calls t' post). reflexivity.
Qed.
Lemma repr_call t tbl rb lb c :
  fst (do_call t (MatrixRepr tbl rb lb c)) =
  Some (match c with
        | Some CBad => Err AssertionError
        | _ => fst (pterm_matrix_repr tbl (MkTerm (t_aocs t)
                 (match c with Some (CNum z) => z | _ => t_coeff t end) (t_class t)) rb lb None)
        end).
Proof. destruct c as [[z|]|]; cbn; reflexivity. Qed.
