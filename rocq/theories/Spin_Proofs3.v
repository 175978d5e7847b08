(** Spin operators and interactions through a site table; factories; total spin. *)
From Coq Require Import String List ZArith NArith Bool Arith Lia Ring Setoid Morphisms Permutation.
From Verif Require Import Py GQ Mat IndexTable_Model IndexTable_Spec IndexTable_Proofs State_Model State_Spec State_Proofs
  MatrixRepr_Model Fock_Spec MatrixRepr_Proofs Particle_Model Particle_Spec Particle_Proofs Particle_Proofs2 Particle_Proofs3
  Spin_Model Spin_Spec Spin_Proofs Spin_Proofs2.
Import ListNotations.
Local Open Scope nat_scope.
Local Open Scope gq_scope.

(** ** Site tables *)
Lemma site_facts objs start tbl : make_state_table objs start = Ok tbl ->
  (forall s t i j, site_index tbl s = Ok i -> site_index tbl t = Ok j -> (i = j <-> s_form s = s_form t)) /\
  (forall s t i, site_index tbl s = Ok i -> s_form s = s_form t -> site_index tbl t = Ok i) /\
  (forall s i, site_index tbl s = Ok i -> (start <= i < start + Z.of_nat (length objs))%Z) /\
  (forall k s, nth_error objs k = Some (LSite s) -> site_index tbl s = Ok (start + Z.of_nat k)%Z) /\
  len tbl = Z.of_nat (length objs) /\ (0 < length objs)%nat.
Proof.
  intros H. unfold make_state_table in H.
  destruct (make_bijection py_eq loc_type loc_isinst py_eq_refl py_eq_sym py_eq_trans loc_isinst_refl objs start tbl H)
    as (B1 & B2 & B3 & B4 & B5 & _).
  assert (Q : forall s i, site_index tbl s = Ok i -> exists k x, i = (start + Z.of_nat k)%Z /\
            nth_error objs k = Some x /\ py_eq x (LSite s) = true /\ query_object tbl (PyInt i) = Ok x).
  { intros s i Hs. apply B3 in Hs as (x & Hx & E). pose proof Hx as Hx'. apply B4 in Hx as (k & -> & Hk). eauto 7. }
  assert (F2 : forall s t i, site_index tbl s = Ok i -> s_form s = s_form t -> site_index tbl t = Ok i).
  { intros s t i Hs E. destruct (Q _ _ Hs) as (k & x & -> & Hk & Hx & _).
    destruct (B1 k x Hk) as (_ & B & _). apply B.
    - eapply py_eq_trans; eauto. now apply py_eq_iff.
    - unfold site_index, query_index in Hs. destruct (loc_isinst (LSite s) (object_type tbl)) eqn:EI; [|discriminate].
      destruct (object_type tbl); [reflexivity|discriminate]. }
  split; [|split; [|split; [|split; [|split]]]]; auto.
  - intros s t i j Hs Ht. split.
    + intros <-. destruct (Q _ _ Hs) as (k & x & _ & _ & Hx & O). destruct (Q _ _ Ht) as (k' & x' & _ & _ & Hx' & O').
      assert (x' = x) by congruence. subst x'.
      assert (E : same_key (LSite s) (LSite t)); [|exact E].
      apply py_eq_iff. eapply py_eq_trans; [|exact Hx']. now rewrite py_eq_sym.
    + intros E. eapply F2 in E; eauto. unfold site_index in *. congruence.
  - intros s i Hs. destruct (Q _ _ Hs) as (k & x & -> & Hk & _).
    assert (k < length objs)%nat by (apply nth_error_Some; congruence). lia.
  - intros k s Hk. now apply (B1 k).
  - destruct objs; [discriminate H|cbn; lia].
Qed.

Definition idx_of (tbl : state_table) (x : spinop) : nat :=
  match site_index tbl (so_site x) with Ok i => Z.to_nat i | Err _ => O end.
Definition pairs_of (tbl : state_table) (l : list spinop) : list (nat * sotype) := map (fun x => (idx_of tbl x, so_otype x)) l.
Definition known (tbl : state_table) (x : spinop) : Prop := exists i, site_index tbl (so_site x) = Ok i.

Section Table.
  Variable objs : list loc.
  Variable tbl : state_table.
  Hypothesis Ht : make_state_table objs 0 = Ok tbl.
  Let n := length objs.

  Lemma known_idx x : known tbl x -> site_index tbl (so_site x) = Ok (Z.of_nat (idx_of tbl x)) /\ (idx_of tbl x < n)%nat.
  Proof.
    intros [i Hi]. destruct (site_facts _ _ _ Ht) as (_ & _ & B & _). apply B in Hi as Hb.
    unfold idx_of. rewrite Hi, Z2Nat.id by lia. split; [reflexivity|]. unfold n. lia.
  Qed.
  Lemma known_range l : Forall (known tbl) l -> Forall (fun p => (fst p < n)%nat) (pairs_of tbl l).
  Proof. intros H. apply Forall_map. eapply Forall_impl; [|exact H]. intros x Hx. cbn. now apply known_idx. Qed.
  Lemma known_mapM l : Forall (known tbl) l ->
    mapM (fun x => bind (site_index tbl (so_site x)) (fun i => Ok (i, otype_name (so_otype x)))) l = Ok (zpairs (pairs_of tbl l)).
  Proof.
    induction 1 as [|x l Hx _ IH]; [reflexivity|]. cbn [mapM].
    destruct (known_idx x Hx) as [-> _]. cbn [bind]. rewrite IH. reflexivity.
  Qed.
  Lemma tbl_len : len tbl = Z.of_nat n.
  Proof. now destruct (site_facts _ _ _ Ht) as (_ & _ & _ & _ & B & _). Qed.
  Lemma n_pos : (0 < n)%nat.
  Proof. now destruct (site_facts _ _ _ Ht) as (_ & _ & _ & _ & _ & B). Qed.

  Lemma spin_repr_ok x : known tbl x ->
    exists m, spin_matrix_repr tbl x = Ok m /\ represents n m (spin_at n (idx_of tbl x) (so_otype x)).
  Proof.
    intros Hx. unfold spin_matrix_repr. destruct (known_idx x Hx) as [-> Hr]. cbn [bind]. rewrite tbl_len. now apply single_ok.
  Qed.
  Lemma inter_repr_ok t : Forall (known tbl) (i_ops t) ->
    exists m, fst (inter_matrix_repr tbl t None) = Ok m /\
              represents n m (mscale (i_coeff t) (spin_word n (pairs_of tbl (i_ops t)))).
  Proof.
    intros Hx. unfold inter_matrix_repr. cbn [fst]. rewrite known_mapM by auto. cbn [bind]. rewrite tbl_len.
    apply inter_fun_ok; [apply n_pos|now apply known_range].
  Qed.
  Lemma site_less_form x y : site_less x y = true -> s_form (so_site x) <> s_form (so_site y).
  Proof.
    unfold site_less. rewrite py_cmp_same by exact I. intros H E.
    assert (E' : locc (LSite (so_site x)) (LSite (so_site y)) = Eq) by (now apply locc_eq).
    rewrite E' in H. discriminate.
  Qed.
  Lemma sort_word l : Forall (known tbl) l ->
    eqm (2 ^ n) (spin_word n (pairs_of tbl (stable_sort site_less l))) (spin_word n (pairs_of tbl l)).
  Proof.
    intros HF. pose proof (sort_swaps site_less l) as S. revert HF. induction S as [|u x y v l' H S IH]; intros HF; [reflexivity|].
    assert (HF' : Forall (known tbl) (u ++ y :: x :: v)).
    { eapply Permutation_Forall; [|exact HF]. apply Permutation_app_head. constructor. }
    rewrite IH by auto. apply Forall_app in HF as [Hu HF]. inversion HF as [|? ? Hx HF1]; subst. inversion HF1 as [|? ? Hy HF2]; subst.
    unfold pairs_of. rewrite !map_app. cbn [map].
    destruct (known_idx x Hx) as [Ex Rx], (known_idx y Hy) as [Ey Ry].
    apply spin_word_swap; cbn [fst]; auto. intros E. apply site_less_form in H. apply H.
    destruct (site_facts _ _ _ Ht) as (B & _). apply (B _ _ _ _ Ey Ex). now rewrite E.
  Qed.
  Lemma sort_known l : Forall (known tbl) l <-> Forall (known tbl) (stable_sort site_less l).
  Proof. split; intros H; (eapply Permutation_Forall; [|exact H]); [|symmetry]; apply sort_perm. Qed.

  (** An operand denotes coefficient times word. *)
  Lemma operand_matrix x m : spin_known tbl x -> spin_matrix_of n tbl x m ->
    Forall (known tbl) (soperand_ops x) /\ eqm (2 ^ n) m (mscale (soperand_coeff x) (spin_word n (pairs_of tbl (soperand_ops x)))).
  Proof.
    destruct x as [s|t|c|]; cbn [spin_known spin_matrix_of soperand_ops soperand_coeff]; intros Hk Hm.
    - split; [repeat constructor; exact Hk|]. destruct Hm as (r & E & ->).
      destruct (spin_repr_ok s Hk) as (r' & E' & (_ & _ & R)). assert (r' = r) by congruence. subst r'.
      etransitivity; [exact R|]. cbn [pairs_of map]. change (spin_word n [(idx_of tbl s, so_otype s)]) with
        (mmul (2 ^ n) (spin_at n (idx_of tbl s) (so_otype s)) mid). rewrite mmul_1r. intros i j _ _. unfold mscale. ring.
    - split; [exact Hk|]. destruct Hm as (r & E & ->).
      destruct (inter_repr_ok t Hk) as (r' & E' & (_ & _ & R)). assert (r' = r) by congruence. subst r'. exact R.
    - subst m. split; [constructor|]. reflexivity.
    - contradiction.
  Qed.
  Lemma operand_has x : x <> SForeign -> spin_known tbl x -> exists m, spin_matrix_of n tbl x m.
  Proof.
    destruct x as [s|t|c|]; intros Hf Hk; cbn.
    - destruct (spin_repr_ok s Hk) as (r & E & _). eauto.
    - destruct (inter_repr_ok t Hk) as (r & E & _). eauto.
    - eauto.
    - congruence.
  Qed.
End Table.

(** ** Products *)
Definition is_sscalar (x : soperand) : Prop := match x with SScalar _ => True | _ => False end.
Lemma stable_sort_single {A} (less : A -> A -> bool) x : stable_sort less [x] = [x].
Proof. reflexivity. Qed.
Lemma smul_structure x y : x <> SForeign -> y <> SForeign ->
  (is_sscalar x /\ is_sscalar y /\ spin_py_mul x y = Ok (SScalar (soperand_coeff x * soperand_coeff y))) \/
  exists c l, spin_py_mul x y = Ok (SInter (MkInter (stable_sort site_less l) c)) /\
    l = soperand_ops x ++ soperand_ops y /\ c = soperand_coeff x * soperand_coeff y.
Proof.
  intros Hx Hy. destruct x as [s|t|c|], y as [s'|t'|c'|]; try congruence;
    [right|right|right|right|right|right|right|right|left];
    cbn [spin_py_mul spin_mul spin_rmul inter_mul inter_rmul as_operand make_inter bind soperand_ops soperand_coeff];
    try (do 2 eexists; split; [reflexivity|]; split; [reflexivity|ring]).
  - do 2 eexists. split; [reflexivity|]. split; [now rewrite app_nil_r|ring].
  - split; [exact I|]. split; [exact I|]. reflexivity.
Qed.
Lemma smul_foreign x y : x = SForeign \/ y = SForeign -> spin_py_mul x y = Err TypeError.
Proof. intros [->| ->]; [destruct y|destruct x]; reflexivity. Qed.

Lemma smul_matrix objs tbl x y mx my : make_state_table objs 0 = Ok tbl ->
  spin_known tbl x -> spin_known tbl y ->
  spin_matrix_of (length objs) tbl x mx -> spin_matrix_of (length objs) tbl y my ->
  exists z mz, spin_py_mul x y = Ok z /\ spin_matrix_of (length objs) tbl z mz /\
    eqm (2 ^ length objs) mz (mmul (2 ^ length objs) mx my).
Proof.
  intros Ht Kx Ky Mx My. set (n := length objs).
  destruct (operand_matrix objs tbl Ht x mx Kx Mx) as [Fx Ex]. destruct (operand_matrix objs tbl Ht y my Ky My) as [Fy Ey].
  fold n in Ex, Ey. assert (E0 : eqm (2 ^ n) (mmul (2 ^ n) mx my) (mscale (soperand_coeff x * soperand_coeff y)
     (spin_word n (pairs_of tbl (soperand_ops x ++ soperand_ops y))))).
  { rewrite Ex, Ey. unfold pairs_of at 3. rewrite map_app. fold (pairs_of tbl (soperand_ops x)) (pairs_of tbl (soperand_ops y)).
    rewrite spin_word_app. intros i j Hi Hj. rewrite mmul_scale_l. unfold mscale at 1. rewrite mmul_scale_r. unfold mscale. ring. }
  assert (Nx : x <> SForeign) by (intros ->; exact Mx). assert (Ny : y <> SForeign) by (intros ->; exact My).
  destruct (smul_structure x y Nx Ny) as [(Sx & Sy & E)|(c & l & E & El & Ec)].
  - do 2 eexists. split; [exact E|]. split; [reflexivity|]. rewrite E0.
    destruct x; try contradiction. destruct y; try contradiction. reflexivity.
  - assert (Fl : Forall (known tbl) l) by (subst l; apply Forall_app; auto).
    assert (Fs : Forall (known tbl) (stable_sort site_less l)) by (now apply (proj1 (sort_known _ _))).
    destruct (inter_repr_ok objs tbl Ht (MkInter (stable_sort site_less l) c) Fs) as (r & Er & (_ & _ & R)).
    exists (SInter (MkInter (stable_sort site_less l) c)), (s_ent r). split; [exact E|]. split; [exists r; auto|].
    fold n in R. rewrite E0. etransitivity; [exact R|]. cbn [i_coeff i_ops]. subst l c.
    apply mscale_proper. exact (sort_word objs tbl Ht _ Fl).
Qed.

(** ** Construction *)
Lemma inter_matrix_word objs tbl ops c t : make_state_table objs 0 = Ok tbl ->
  Forall (known tbl) ops -> make_inter ops (CNum c) = Ok t ->
  exists m, fst (inter_matrix_repr tbl t None) = Ok m /\
    represents (length objs) m (mscale c (spin_word (length objs) (pairs_of tbl ops))).
Proof.
  intros Ht HF H. cbn in H. injection H as <-.
  assert (Fs : Forall (known tbl) (stable_sort site_less ops)) by (now apply (proj1 (sort_known _ _))).
  destruct (inter_repr_ok objs tbl Ht (MkInter (stable_sort site_less ops) c) Fs) as (r & Er & (R1 & R2 & R3)).
  exists r. split; [exact Er|]. split; [exact R1|]. split; [exact R2|].
  refine (_ : eqm _ _ _). etransitivity; [exact R3|]. cbn [i_coeff i_ops].
  apply mscale_proper. exact (sort_word objs tbl Ht ops HF).
Qed.
Definition site_le (x y : spinop) : Prop := ~ lex_lt (s_form (so_site y)) (s_form (so_site x)).
Lemma site_less_iff x y : site_less x y = true <-> lex_lt (s_form (so_site x)) (s_form (so_site y)).
Proof.
  unfold site_less. rewrite py_cmp_same by exact I. rewrite <- (locc_lt (LSite (so_site x)) (LSite (so_site y)) I).
  destruct (locc _ _); cbn; intuition discriminate.
Qed.
Lemma lex_total l m : lex_lt l m \/ l = m \/ lex_lt m l.
Proof.
  destruct (lexc l m) eqn:E.
  - right; left. now apply lexc_eq.
  - left. now apply lexc_lt.
  - right; right. apply lexc_lt. now rewrite lexc_antisym, E.
Qed.
Lemma lex_irrefl l : ~ lex_lt l l.
Proof. intros H. apply lexc_lt in H. assert (lexc l l = Eq) by now apply lexc_eq. congruence. Qed.
Lemma site_less_false x y : site_less x y = false <-> ~ lex_lt (s_form (so_site x)) (s_form (so_site y)).
Proof. rewrite <- site_less_iff. destruct (site_less x y); intuition discriminate. Qed.
Lemma make_inter_sorted ops c t : make_inter ops (CNum c) = Ok t ->
  Permutation ops (i_ops t) /\
  Sorted.StronglySorted (fun x y => ~ lex_lt (s_form (so_site y)) (s_form (so_site x))) (i_ops t) /\
  (forall s, filter (fun x => py_eq (LSite (so_site x)) (LSite s)) (i_ops t) = filter (fun x => py_eq (LSite (so_site x)) (LSite s)) ops) /\
  i_coeff t = c.
Proof.
  intros H. cbn in H. injection H as <-. cbn [i_ops i_coeff]. split; [apply sort_perm|]. split; [|split; [|reflexivity]].
  - assert (O : in_order site_less (stable_sort site_less ops)).
    { apply sort_order.
      2:{ intros x y. rewrite site_less_iff, site_less_false. intros H1 H2. apply (lex_irrefl (s_form (so_site x))). eapply lex_lt_trans; eauto. }
      intros x y z. rewrite !site_less_false. intros H1 H2 H3.
      destruct (lex_total (s_form (so_site z)) (s_form (so_site y))) as [H|[H|H]]; [auto| |].
      - rewrite H in H3. auto.
      - apply H1. eapply lex_lt_trans; eauto. }
    unfold in_order in O. induction O as [|x l O IH HF]; constructor; auto.
    eapply Forall_impl; [|exact HF]. intros y Hy. now apply site_less_false.
  - intros s. symmetry. eapply swaps_filter; [|apply sort_swaps]. intros x y HL. apply site_less_iff in HL.
    destruct (py_eq (LSite (so_site x)) (LSite s)) eqn:E1; [|reflexivity].
    destruct (py_eq (LSite (so_site y)) (LSite s)) eqn:E2; [|reflexivity].
    apply py_eq_iff in E1, E2. cbn in E1, E2. rewrite E1, E2 in HL. now apply lex_irrefl in HL.
Qed.

(** ** Dagger *)
Lemma make_site_inv zoom c s : make_site zoom c = Ok s -> s_coord s = c.
Proof.
  unfold make_site. destruct (_ && _); [|discriminate]. destruct (mapM _ _); [|discriminate]. now intros [= <-].
Qed.
Lemma spin_dagger_ok zoom x : built_spin zoom x -> spin_dagger zoom x = Ok (MkSpin (adj_otype (so_otype x)) (so_site x)).
Proof.
  intros (o & c & H). unfold make_spin in H. destruct (otype_of_name o) as [o'|]; [|discriminate].
  destruct (make_site zoom c) as [s|] eqn:E; [|discriminate]. cbn in H. injection H as <-.
  pose proof (make_site_inv _ _ _ E) as Ec.
  destruct o'; cbn; auto; unfold spin_derive, make_spin; cbn; rewrite Ec, E; reflexivity.
Qed.
Lemma built_adj zoom x o : built_spin zoom x -> built_spin zoom (MkSpin o (so_site x)).
Proof.
  intros (o0 & c & H). unfold make_spin in H. destruct (otype_of_name o0) as [o'|]; [|discriminate].
  destruct (make_site zoom c) as [s|] eqn:E; [|discriminate]. cbn in H. injection H as <-.
  exists (otype_name o), c. unfold make_spin. rewrite otype_roundtrip, E. reflexivity.
Qed.
Definition adj_op (x : spinop) : spinop := MkSpin (adj_otype (so_otype x)) (so_site x).
Lemma mapM_sdagger zoom l : Forall (built_spin zoom) l -> mapM (spin_dagger zoom) l = Ok (map adj_op l).
Proof. induction 1 as [|x l Hx _ IH]; [reflexivity|]. cbn [mapM map]. now rewrite spin_dagger_ok, IH. Qed.
Lemma adj_otype_invol o : adj_otype (adj_otype o) = o.
Proof. now destruct o. Qed.
Lemma mmul_dag d a b : eqm d (mdag (mmul d a b)) (mmul d (mdag b) (mdag a)).
Proof. intros i j _ _. apply mdag_mul. Qed.
Lemma spin_word_dag n w : eqm (2 ^ n) (mdag (spin_word n w)) (spin_word n (rev (map (fun p => (fst p, adj_otype (snd p))) w))).
Proof.
  induction w as [|[i o] w IH].
  - cbn. intros r c _ _. unfold mdag, mid. rewrite Nat.eqb_sym. destruct (Nat.eqb r c); [apply gconj_1|apply gconj_0].
  - cbn [map rev fst snd]. rewrite spin_word_cons, mmul_dag, IH, spin_word_app.
    change (spin_word n [(i, adj_otype o)]) with (mmul (2 ^ n) (spin_at n i (adj_otype o)) mid). rewrite mmul_1r.
    cbn [fst snd]. assert (E : eqm (2 ^ n) (mdag (spin_at n i o)) (spin_at n i (adj_otype o))).
    { intros r c _ _. apply spin_at_dag. }
    now rewrite E.
Qed.
Lemma inter_dagger_ok zoom t : Forall (built_spin zoom) (i_ops t) ->
  inter_dagger zoom t = Ok (MkInter (stable_sort site_less (map adj_op (rev (i_ops t)))) (gconj (i_coeff t))).
Proof.
  intros H. unfold inter_dagger. rewrite mapM_sdagger; [reflexivity|]. now apply Forall_rev.
Qed.
Lemma known_adj tbl x : known tbl x <-> known tbl (adj_op x).
Proof. reflexivity. Qed.
Lemma dagger_inter_matrix objs tbl zoom t m : make_state_table objs 0 = Ok tbl ->
  Forall (built_spin zoom) (i_ops t) -> Forall (known tbl) (i_ops t) ->
  fst (inter_matrix_repr tbl t None) = Ok m ->
  exists t' m', inter_dagger zoom t = Ok t' /\ fst (inter_matrix_repr tbl t' None) = Ok m' /\
    represents (length objs) m' (mdag (s_ent m)).
Proof.
  intros Ht HB HK Hm. rewrite inter_dagger_ok by auto.
  set (l := map adj_op (rev (i_ops t))).
  assert (HK' : Forall (known tbl) l).
  { apply Forall_map, Forall_rev. exact HK. }
  destruct (inter_matrix_word objs tbl l (gconj (i_coeff t)) _ Ht HK' eq_refl) as (m' & Em' & (R1 & R2 & R3)).
  do 2 eexists. split; [reflexivity|]. split; [exact Em'|]. split; [exact R1|]. split; [exact R2|].
  destruct (inter_repr_ok objs tbl Ht t HK) as (m0 & Em0 & (_ & _ & R0)).
  assert (m0 = m) by congruence. subst m0.
  refine (_ : eqm _ _ _). etransitivity; [exact R3|]. rewrite (R0 : eqm _ _ _).
  set (n := length objs).
  transitivity (mscale (gconj (i_coeff t)) (mdag (spin_word n (pairs_of tbl (i_ops t))))).
  - rewrite spin_word_dag. unfold l, pairs_of. rewrite !map_map, map_rev. reflexivity.
  - intros i j _ _. unfold mscale, mdag. now rewrite gconj_mul.
Qed.

(** Stable sorting is determined by its result's order and groups. *)
Lemma filter_hd {A} (p : A -> bool) l x r : filter p l = x :: r -> p x = true.
Proof. intros H. assert (I : In x (filter p l)) by (rewrite H; now left). now apply filter_In in I. Qed.
Definition same_site_b (s : siteid) (x : spinop) : bool := py_eq (LSite (so_site x)) (LSite s).
Lemma sorted_unique_groups l : forall m,
  Sorted.StronglySorted (fun x y => ~ lex_lt (s_form (so_site y)) (s_form (so_site x))) l ->
  Sorted.StronglySorted (fun x y => ~ lex_lt (s_form (so_site y)) (s_form (so_site x))) m ->
  (forall s, filter (same_site_b s) l = filter (same_site_b s) m) -> l = m.
Proof.
  assert (SE : forall x y, same_site_b (so_site y) x = true <-> s_form (so_site x) = s_form (so_site y)).
  { intros x y. unfold same_site_b. rewrite py_eq_iff. reflexivity. }
  assert (SR : forall x, same_site_b (so_site x) x = true) by (intros; now apply SE).
  induction l as [|x l IH]; intros m Sl Sm H.
  - destruct m as [|y m]; [reflexivity|]. specialize (H (so_site y)). cbn [filter] in H. rewrite SR in H. discriminate.
  - destruct m as [|y m].
    { specialize (H (so_site x)). cbn [filter] in H. rewrite SR in H. discriminate. }
    inversion Sl as [|? ? Sl' Fl]; subst. inversion Sm as [|? ? Sm' Fm]; subst.
    assert (E : s_form (so_site x) = s_form (so_site y)).
    { destruct (lex_total (s_form (so_site x)) (s_form (so_site y))) as [L|[L|L]]; auto; exfalso.
      - assert (I : In x (y :: m)).
        { assert (I : In x (filter (same_site_b (so_site x)) (y :: m))); [|now apply filter_In in I].
          rewrite <- H. cbn [filter]. rewrite SR. now left. }
        destruct I as [->|I]; [now apply lex_irrefl in L|]. rewrite Forall_forall in Fm. now apply (Fm x I).
      - assert (I : In y (x :: l)).
        { assert (I : In y (filter (same_site_b (so_site y)) (x :: l))); [|now apply filter_In in I].
          rewrite H. cbn [filter]. rewrite SR. now left. }
        destruct I as [->|I]; [now apply lex_irrefl in L|]. rewrite Forall_forall in Fl. now apply (Fl y I). }
    pose proof (H (so_site x)) as Hx. cbn [filter] in Hx. rewrite SR in Hx.
    rewrite (proj2 (SE y x)) in Hx by congruence. injection Hx as -> Hx. f_equal. apply IH; auto.
    intros s. specialize (H s). cbn [filter] in H. destruct (same_site_b s y); congruence.
Qed.
Lemma filter_rev {A} (p : A -> bool) l : filter p (rev l) = rev (filter p l).
Proof.
  induction l as [|x l IH]; [reflexivity|]. cbn. rewrite filter_app, IH. cbn.
  destruct (p x); cbn; [reflexivity|now rewrite app_nil_r].
Qed.
Lemma filter_map_adj s l : filter (same_site_b s) (map adj_op l) = map adj_op (filter (same_site_b s) l).
Proof. induction l as [|x l IH]; [reflexivity|]. cbn [map filter]. rewrite IH.
  change (same_site_b s (adj_op x)) with (same_site_b s x). destruct (same_site_b s x); reflexivity. Qed.
Lemma inter_dagger_twice zoom t ops c t' : Forall (built_spin zoom) ops -> make_inter ops (CNum c) = Ok t ->
  inter_dagger zoom t = Ok t' -> inter_dagger zoom t' = Ok t.
Proof.
  intros HB Hm Hd. pose proof (make_inter_sorted _ _ _ Hm) as (P & S & F & C).
  assert (HB' : Forall (built_spin zoom) (i_ops t)) by (eapply Permutation_Forall; eauto).
  rewrite inter_dagger_ok in Hd by auto. injection Hd as <-.
  set (l1 := map adj_op (rev (i_ops t))).
  destruct (make_inter_sorted l1 (gconj (i_coeff t)) _ eq_refl) as (P1 & S1 & F1 & _). cbn [i_ops] in P1, S1, F1.
  assert (HB1 : Forall (built_spin zoom) (stable_sort site_less l1)).
  { eapply Permutation_Forall; [exact P1|]. apply Forall_map, Forall_rev.
    eapply Forall_impl; [|exact HB']. intros x Hx. now apply built_adj. }
  rewrite inter_dagger_ok by exact HB1. cbn [i_ops i_coeff]. rewrite gconj_invol.
  set (l2 := map adj_op (rev (stable_sort site_less l1))).
  destruct (make_inter_sorted l2 (i_coeff t) _ eq_refl) as (P2 & S2 & F2 & _). cbn [i_ops] in P2, S2, F2.
  destruct t as [lt ct]. cbn [i_ops i_coeff] in *. f_equal. f_equal.
  apply sorted_unique_groups; auto. intros s.
  etransitivity; [exact (F2 s)|]. change (filter (same_site_b s) l2 = filter (same_site_b s) lt).
  unfold l2. rewrite filter_map_adj, filter_rev.
  transitivity (map adj_op (rev (filter (same_site_b s) l1))); [f_equal; f_equal; exact (F1 s)|].
  unfold l1. rewrite filter_map_adj, filter_rev, !map_rev, rev_involutive, map_map.
  rewrite <- (map_id (filter (same_site_b s) lt)) at 2. apply map_ext. intros [o si]. unfold adj_op. cbn. now rewrite adj_otype_invol.
Qed.

(** ** Histories *)
Lemma do_icall_state t k : snd (do_icall t k) = MkInter (i_ops t) (match igiven k with Some c => c | None => i_coeff t end).
Proof. destruct t as [l c], k as [[]|tbl [[]|]]; reflexivity. Qed.
Lemma do_icalls_state ks : forall t, snd (do_icalls t ks) = MkInter (i_ops t) (last_igiven (i_coeff t) ks).
Proof.
  induction ks as [|k ks IH]; intros t; [now destruct t|]. cbn [do_icalls last_igiven].
  pose proof (do_icall_state t k) as E. destruct (do_icall t k) as [o t1] eqn:Ek. cbn [snd] in E.
  specialize (IH t1). destruct (do_icalls t1 ks) as [os t2]. cbn [snd] in *. rewrite IH, E. reflexivity.
Qed.
Lemma do_icalls_app ks ks' t : fst (do_icalls t (ks ++ ks')) = fst (do_icalls t ks) ++ fst (do_icalls (snd (do_icalls t ks)) ks').
Proof.
  revert t. induction ks as [|k ks IH]; intros t; [reflexivity|]. cbn [app do_icalls].
  destruct (do_icall t k) as [o t1]. specialize (IH t1).
  destruct (do_icalls t1 (ks ++ ks')) as [os t2]. destruct (do_icalls t1 ks) as [os' t2']. cbn [fst snd] in *. now rewrite IH.
Qed.
Lemma do_icalls_length ks t : length (fst (do_icalls t ks)) = length ks.
Proof.
  revert t. induction ks as [|k ks IH]; intros t; [reflexivity|]. cbn [do_icalls]. destruct (do_icall t k) as [o t1].
  specialize (IH t1). destruct (do_icalls t1 ks). cbn in *. now rewrite IH.
Qed.
Lemma ihistory t pre tbl c post :
  nth_error (fst (do_icalls t (pre ++ IMatrixRepr tbl c :: post))) (length pre) =
  Some (Some (match c with
              | Some CBad => Err AssertionError
              | _ => fst (inter_matrix_repr tbl (MkInter (i_ops t) (last_igiven (i_coeff t) (pre ++ [IMatrixRepr tbl c]))) None)
              end)).
Proof.
  rewrite do_icalls_app, nth_error_app2 by (rewrite do_icalls_length; lia).
  rewrite do_icalls_length, Nat.sub_diag. rewrite do_icalls_state.
  set (t1 := MkInter _ _). cbn [do_icalls do_icall].
  assert (L : forall c0, last_igiven c0 (pre ++ [IMatrixRepr tbl c]) =
    match c with Some (CNum z) => z | _ => last_igiven c0 pre end).
  { induction pre as [|k pre IH]; intros c0; [destruct c as [[]|]; reflexivity|]. cbn. apply IH. }
  rewrite L. destruct (inter_matrix_repr tbl t1 c) as [r t2] eqn:E. destruct (do_icalls t2 post) as [os t3]. cbn [nth_error fst].
  f_equal. f_equal. assert (E' : r = fst (inter_matrix_repr tbl t1 c)) by now rewrite E. rewrite E'.
  unfold t1. destruct c as [[]|]; reflexivity.
Qed.

(** ** Factories *)
Lemma make_spin_ok zoom o site x : make_spin zoom (otype_name o) site = Ok x <->
  exists s, make_site zoom site = Ok s /\ x = MkSpin o s.
Proof.
  unfold make_spin. rewrite otype_roundtrip. destruct (make_site zoom site) as [s|]; cbn; split.
  - intros [= <-]. eauto.
  - intros (s' & [= ->] & ->). reflexivity.
  - discriminate.
  - intros (s' & H & _). discriminate.
Qed.
Lemma is_xyz_inv a : is_xyz a = true -> exists o, a = otype_name o /\ (o = SX \/ o = SY \/ o = SZ).
Proof.
  unfold is_xyz. destruct (String.eqb_spec a "x") as [->|]; [exists SX; auto|].
  destruct (String.eqb_spec a "y") as [->|]; [exists SY; auto|].
  destruct (String.eqb_spec a "z") as [->|]; [exists SZ; auto|discriminate].
Qed.
Lemma two_spin_matrix objs tbl s0 s1 i0 i1 o0 o1 c t : make_state_table objs 0 = Ok tbl ->
  site_index tbl s0 = Ok (Z.of_nat i0) -> site_index tbl s1 = Ok (Z.of_nat i1) ->
  make_inter [MkSpin o0 s0; MkSpin o1 s1] (CNum c) = Ok t ->
  exists m, fst (inter_matrix_repr tbl t None) = Ok m /\
    represents (length objs) m (mscale c (mmul (2 ^ length objs) (spin_at (length objs) i0 o0) (spin_at (length objs) i1 o1))).
Proof.
  intros Ht H0 H1 Hm. set (n := length objs).
  assert (HK : Forall (known tbl) [MkSpin o0 s0; MkSpin o1 s1]).
  { constructor; [eexists; exact H0|]. constructor; [eexists; exact H1|constructor]. }
  destruct (inter_matrix_word objs tbl _ c t Ht HK Hm) as (m & Em & (R1 & R2 & R3)).
  exists m. split; [exact Em|]. split; [exact R1|]. split; [exact R2|]. refine (_ : eqm _ _ _).
  etransitivity; [exact R3|]. cbn [pairs_of map so_otype]. unfold idx_of. cbn [so_site]. rewrite H0, H1, !Nat2Z.id.
  fold n. change (spin_word n [(i0, o0); (i1, o1)]) with (mmul (2 ^ n) (spin_at n i0 o0) (mmul (2 ^ n) (spin_at n i1 o1) mid)).
  rewrite mmul_1r. reflexivity.
Qed.

Lemma Two_ok zoom site0 site1 a0 a1 coeff t : TwoSpinTermFactory zoom site0 site1 a0 a1 coeff = Ok t <->
  exists o0 o1 s0 s1 c, a0 = otype_name o0 /\ a1 = otype_name o1 /\ (o0 = SX \/ o0 = SY \/ o0 = SZ) /\ (o1 = SX \/ o1 = SY \/ o1 = SZ) /\
    make_site zoom site0 = Ok s0 /\ make_site zoom site1 = Ok s1 /\ coeff = CNum c /\
    make_inter [MkSpin o0 s0; MkSpin o1 s1] (CNum c) = Ok t.
Proof.
  unfold TwoSpinTermFactory. split.
  - destruct (is_xyz a0) eqn:E0; [|discriminate]. destruct (is_xyz a1) eqn:E1; [|discriminate].
    apply is_xyz_inv in E0 as (o0 & -> & H0). apply is_xyz_inv in E1 as (o1 & -> & H1).
    destruct (make_spin zoom (otype_name o0) site0) as [x0|] eqn:M0; [|discriminate].
    destruct (make_spin zoom (otype_name o1) site1) as [x1|] eqn:M1; [|discriminate]. cbn [bind].
    apply make_spin_ok in M0 as (s0 & M0 & ->). apply make_spin_ok in M1 as (s1 & M1 & ->).
    intros H. destruct coeff as [c|]; [|discriminate]. exists o0, o1, s0, s1, c. auto 10.
  - intros (o0 & o1 & s0 & s1 & c & -> & -> & H0 & H1 & M0 & M1 & -> & H).
    replace (is_xyz (otype_name o0)) with true by (destruct H0 as [->|[->| ->]]; reflexivity).
    replace (is_xyz (otype_name o1)) with true by (destruct H1 as [->|[->| ->]]; reflexivity).
    rewrite (proj2 (make_spin_ok zoom o0 site0 (MkSpin o0 s0))) by eauto.
    rewrite (proj2 (make_spin_ok zoom o1 site1 (MkSpin o1 s1))) by eauto. exact H.
Qed.
Lemma Ising_Two zoom site0 site1 a coeff : IsingFactory zoom site0 site1 a coeff = TwoSpinTermFactory zoom site0 site1 a a coeff.
Proof. unfold IsingFactory, TwoSpinTermFactory. now destruct (is_xyz a). Qed.

Lemma Heis_ok zoom site0 site1 coeff l : HeisenbergFactory zoom site0 site1 coeff = Ok l <->
  exists s0 s1 c, make_site zoom site0 = Ok s0 /\ make_site zoom site1 = Ok s1 /\ coeff = CNum c /\
    exists t0 t1 t2, l = [t0; t1; t2] /\
      make_inter [MkSpin SZ s0; MkSpin SZ s1] (CNum c) = Ok t0 /\
      make_inter [MkSpin SP s0; MkSpin SM s1] (CNum (c * ghalf)) = Ok t1 /\
      make_inter [MkSpin SM s0; MkSpin SP s1] (CNum (c * ghalf)) = Ok t2.
Proof.
  unfold HeisenbergFactory, make_spin. cbn [otype_of_name String.eqb Ascii.eqb Bool.eqb].
  destruct (make_site zoom site0) as [s0|] eqn:E0; [|split; [discriminate|intros (? & ? & ? & H & _); discriminate]].
  destruct (make_site zoom site1) as [s1|] eqn:E1; [|split; [discriminate|intros (? & ? & ? & _ & H & _); discriminate]].
  cbn [bind]. destruct coeff as [c|]; [|split; [discriminate|intros (? & ? & ? & _ & _ & H & _); discriminate]].
  cbn [make_inter half_coeff bind]. split.
  - intros [= <-]. exists s0, s1, c. do 3 (split; [reflexivity|]). do 3 eexists. split; [reflexivity|]. auto.
  - intros (s0' & s1' & c' & [= <-] & [= <-] & [= <-] & t0 & t1 & t2 & -> & [= <-] & [= <-] & [= <-]). reflexivity.
Qed.
Lemma mmul_lin d a b c e : eqm d (mmul d (madd a b) (msub c e))
  (madd (msub (mmul d a c) (mmul d a e)) (msub (mmul d b c) (mmul d b e))).
Proof. intros i j _ _. rewrite mmul_add_l. unfold madd. rewrite !mmul_sub_r. reflexivity. Qed.
Lemma mmul_lin' d a b c e : eqm d (mmul d (msub a b) (madd c e))
  (msub (madd (mmul d a c) (mmul d a e)) (madd (mmul d b c) (mmul d b e))).
Proof. intros i j _ _. rewrite mmul_sub_l. unfold msub. rewrite !mmul_add_r. reflexivity. Qed.
Lemma heisenberg_identity n i j k :
  eqm (2 ^ n) (madd (mscale k (mmul (2 ^ n) (spin_at n i SZ) (spin_at n j SZ)))
              (madd (mscale (k * ghalf) (mmul (2 ^ n) (spin_at n i SP) (spin_at n j SM)))
                    (mscale (k * ghalf) (mmul (2 ^ n) (spin_at n i SM) (spin_at n j SP)))))
      (mscale k (madd (mmul (2 ^ n) (spin_at n i SX) (spin_at n j SX))
                (madd (mmul (2 ^ n) (spin_at n i SY) (spin_at n j SY)) (mmul (2 ^ n) (spin_at n i SZ) (spin_at n j SZ))))).
Proof.
  assert (P : forall i, eqm (2 ^ n) (spin_at n i SP) (madd (spin_at n i SX) (mscale gi (spin_at n i SY)))).
  { intros q r c _ _. apply spin_ladder. }
  assert (M : forall i, eqm (2 ^ n) (spin_at n i SM) (msub (spin_at n i SX) (mscale gi (spin_at n i SY)))).
  { intros q r c _ _. apply spin_ladder. }
  rewrite !P, !M, mmul_lin, mmul_lin'. intros r c _ _. unfold madd, msub.
  repeat match goal with
  | |- context [mscale ?q ?m r c] => change (mscale q m r c) with (q * m r c); cbv beta
  | |- context [mmul ?d (mscale ?q ?m) ?p r c] => rewrite (mmul_scale_l d q m p r c)
  | |- context [mmul ?d ?m (mscale ?q ?p) r c] => rewrite (mmul_scale_r d q m p r c)
  end.
  cbv beta.
  set (xx := mmul (2 ^ n) (spin_at n i SX) (spin_at n j SX) r c). set (yy := mmul (2 ^ n) (spin_at n i SY) (spin_at n j SY) r c).
  set (zz := mmul (2 ^ n) (spin_at n i SZ) (spin_at n j SZ) r c). set (xy := mmul (2 ^ n) (spin_at n i SX) (spin_at n j SY) r c).
  set (yx := mmul (2 ^ n) (spin_at n i SY) (spin_at n j SX) r c).
  replace (k * (xx + (yy + zz))) with (k * (((ghalf + ghalf) * xx) + (- (gi * gi) * (ghalf + ghalf) * yy + zz))); [ring|].
  rewrite ghalf_double, gi_sq. ring.
Qed.

(** ** Total spin *)
Lemma total_ok S f n : (0 < n)%nat -> s_rows S = 2%nat -> s_cols S = 2%nat -> meq 2 2 (s_ent S) (bmat f) ->
  exists m, total_of S (Z.of_nat n) = Ok (Some m) /\
    represents n m (fun r c => bigsum n (fun i => on_site n i f r c)).
Proof.
  intros Hn D1 D2 HE. unfold total_of. rewrite Nat2Z.id.
  assert (G : forall k, (k <= n)%nat -> exists mo,
    fold_left (fun (acc : res (option smat)) index =>
               bind acc (fun total => bind (shl1 index) (fun d0 => bind (shl1 (Z.of_nat n - index - 1)) (fun d1 =>
               accum total (kron (identity d1) (kron S (identity d0)))))))
            (map Z.of_nat (seq 0 k)) (Ok None) = Ok mo /\
    match mo with None => k = O | Some m => represents n m (fun r c => bigsum k (fun i => on_site n i f r c)) end).
  { induction k as [|k IH]; intros Hk; [exists None; auto|].
    destruct IH as (mo & E & R); [lia|]. rewrite seq_S, map_app, fold_left_app, E. cbn [map fold_left plus Nat.add bind].
    rewrite shl1_ok. replace (Z.of_nat n - Z.of_nat k - 1)%Z with (Z.of_nat (n - k - 1)) by lia. rewrite shl1_ok. cbn [bind].
    set (t := kron _ _).
    assert (Rt : represents n t (on_site n k f)).
    { unfold t, represents, kron. cbn [s_rows s_cols s_ent identity]. rewrite D1, D2, <- (pow_split n k) by lia.
      split; [reflexivity|]. split; [reflexivity|]. intros r c Hr Hc. rewrite <- (emb_bits n k f) by (auto; lia).
      rewrite (pow_split n k) in Hr, Hc by lia.
      change (kr (2 * 2 ^ k) mid (kr (2 ^ k) (s_ent S) mid) r c = emb k (bmat f) r c).
      refine (kr_ext _ _ _ _ _ _ (pow2_nz k) _ _ r c Hr Hc); [intros ? ? ? ?; reflexivity|].
      apply kr_ext; [auto|auto|intros ? ? ? ?; reflexivity]. }
    destruct mo as [m|]; cbn [accum].
    - destruct R as (R1 & R2 & R3), Rt as (T1 & T2 & T3). unfold plus. rewrite R1, R2, T1, T2, !Nat.eqb_refl. cbn [andb bind].
      eexists. split; [reflexivity|]. split; [reflexivity|]. split; [reflexivity|]. cbn [s_ent]. intros r c Hr Hc. rewrite R3, T3 by auto.
      unfold bigsum. rewrite seq_S, lsum_app. cbn [lsum plus Nat.add]. ring.
    - subst k. eexists. split; [reflexivity|]. destruct Rt as (T1 & T2 & T3). split; [exact T1|]. split; [exact T2|].
      intros r c Hr Hc. rewrite T3 by auto. unfold bigsum. cbn. ring. }
  destruct (G n (le_n n)) as (mo & E & R). rewrite E. destruct mo as [m|]; [eauto|lia].
Qed.
Definition sy_imag (a b : bool) : GQ := match a, b with false, true => - ghalf | true, false => ghalf | _, _ => 0 end.
Lemma TotalSpin_ok n : (0 < n)%nat -> exists sx sy sz,
  TotalSpinMatrices (NInt (Z.of_nat n)) = Ok (Some sx, Some sy, Some sz) /\
  represents n sx (total_spin n SX) /\
  (s_rows sy = (2 ^ n)%nat /\ s_cols sy = (2 ^ n)%nat /\ eqm (2 ^ n) (mscale gi (s_ent sy)) (total_spin n SY)) /\
  represents n sz (total_spin n SZ).
Proof.
  intros Hn. unfold TotalSpinMatrices. destruct (Z.ltb_spec 0 (Z.of_nat n)) as [_|]; [|lia].
  destruct (total_ok SX_MATRIX (half_elem SX) n Hn eq_refl eq_refl (SPIN_MATRIX_ent SX)) as (sx & Ex & Rx).
  destruct (total_ok SZ_MATRIX (half_elem SZ) n Hn eq_refl eq_refl (SPIN_MATRIX_ent SZ)) as (sz & Ez & Rz).
  destruct (total_ok SY_MATRIX_IMAG sy_imag n Hn eq_refl eq_refl) as (sy & Ey & (Y1 & Y2 & Y3)).
  { intros i j Hi Hj. destruct i as [|[|i]]; [| |lia]; (destruct j as [|[|j]]; [| |lia]); reflexivity. }
  rewrite Ex, Ey, Ez. cbn [bind]. exists sx, sy, sz. split; [reflexivity|]. split; [exact Rx|]. split; [|exact Rz].
  split; [exact Y1|]. split; [exact Y2|]. intros r c Hr Hc. unfold mscale. rewrite Y3 by auto. unfold total_spin, bigsum.
  rewrite <- lsum_mul_l. apply lsum_ext. intros i _. unfold spin_at.
  rewrite <- (on_site_scale n i gi sy_imag r c : _ = gi * _). apply on_site_ext. intros [] []; cbn; ring.
Qed.
Lemma mmul_bigsum_l d n f b i j : mmul d (fun r c => bigsum n (fun k => f k r c)) b i j = bigsum n (fun k => mmul d (f k) b i j).
Proof.
  unfold mmul, bigsum. rewrite <- lsum_swap. apply lsum_ext. intros x _. rewrite <- lsum_mul_r. reflexivity.
Qed.
Lemma mmul_bigsum_r d n f a i j : mmul d a (fun r c => bigsum n (fun k => f k r c)) i j = bigsum n (fun k => mmul d a (f k) i j).
Proof.
  unfold mmul, bigsum. rewrite <- lsum_swap. apply lsum_ext. intros x _. rewrite <- lsum_mul_l. reflexivity.
Qed.
Lemma total_comm n o1 o2 o3 : (forall i, (i < n)%nat -> eqm (2 ^ n) (comm (2 ^ n) (spin_at n i o1) (spin_at n i o2)) (mscale gi (spin_at n i o3))) ->
  eqm (2 ^ n) (comm (2 ^ n) (total_spin n o1) (total_spin n o2)) (mscale gi (total_spin n o3)).
Proof.
  intros H r c Hr Hc.
  assert (P : forall o o', mmul (2 ^ n) (total_spin n o) (total_spin n o') r c =
    bigsum n (fun i => bigsum n (fun j => mmul (2 ^ n) (spin_at n i o) (spin_at n j o') r c))).
  { intros o o'. unfold total_spin. rewrite mmul_bigsum_l. apply bigsum_ext. intros i _. apply mmul_bigsum_r. }
  unfold comm, msub. rewrite !P.
  assert (S : bigsum n (fun i => bigsum n (fun j => mmul (2 ^ n) (spin_at n i o2) (spin_at n j o1) r c)) =
              bigsum n (fun j => bigsum n (fun i => mmul (2 ^ n) (spin_at n i o2) (spin_at n j o1) r c))).
  { unfold bigsum. apply lsum_swap. }
  rewrite S. clear S P. unfold mscale, total_spin, bigsum at 1 3. rewrite <- lsum_sub.
  unfold bigsum at 3. rewrite <- lsum_mul_l.
  apply bigsum_ext. intros i Hi. unfold bigsum. rewrite <- lsum_sub.
  change (lsum ?f (seq 0 n)) with (bigsum n f). rewrite (bigsum_single n _ i Hi).
  - exact (H i Hi r c Hr Hc).
  - intros j Hj Hn. rewrite (spin_at_comm_diff n i j o1 o2) by auto. ring.
Qed.
Lemma total_algebra n :
  eqm (2 ^ n) (comm (2 ^ n) (total_spin n SX) (total_spin n SY)) (mscale gi (total_spin n SZ)) /\
  eqm (2 ^ n) (comm (2 ^ n) (total_spin n SY) (total_spin n SZ)) (mscale gi (total_spin n SX)) /\
  eqm (2 ^ n) (comm (2 ^ n) (total_spin n SZ) (total_spin n SX)) (mscale gi (total_spin n SY)).
Proof.
  split; [|split]; apply total_comm; intros i Hi; destruct (spin_algebra n i Hi) as (A & B & C); [exact A|exact B|exact C].
Qed.
(** A derivation identity. *)
Lemma comm_square d a b : eqm d (comm d (mmul d a a) b) (madd (mmul d a (comm d a b)) (mmul d (comm d a b) a)).
Proof.
  unfold comm. intros i j Hi Hj. unfold msub at 1, madd. rewrite mmul_sub_r, mmul_sub_l. unfold msub.
  rewrite (mmul_A d a a b i j Hi Hj), (mmul_A d b a a i j Hi Hj), (mmul_A d a b a i j Hi Hj) by auto. ring.
Qed.
Lemma comm_flip d a b i j : comm d a b i j = gopp g1 * comm d b a i j.
Proof. unfold comm, msub. ring. Qed.
Lemma comm_self d a i j : comm d a a i j = 0.
Proof. unfold comm, msub. ring. Qed.
Lemma casimir_generic d x y z :
  eqm d (comm d x y) (mscale gi z) -> eqm d (comm d y z) (mscale gi x) -> eqm d (comm d z x) (mscale gi y) ->
  eqm d (comm d (madd (mmul d x x) (madd (mmul d y y) (mmul d z z))) z) mzero.
Proof.
  intros Hxy Hyz Hzx i j Hi Hj.
  assert (E : comm d (madd (mmul d x x) (madd (mmul d y y) (mmul d z z))) z i j =
    comm d (mmul d x x) z i j + comm d (mmul d y y) z i j + comm d (mmul d z z) z i j).
  { assert (M : forall a b r c, madd a b r c = a r c + b r c) by reflexivity.
    unfold comm, msub. rewrite mmul_add_l, M, mmul_add_l, M, mmul_add_r, M, mmul_add_r, M. ring. }
  rewrite E. rewrite !(comm_square d _ z i j Hi Hj). unfold madd.
  assert (X : eqm d (comm d x z) (mscale (- gi) y)).
  { intros r c Hr Hc. rewrite comm_flip, (Hzx r c Hr Hc). unfold mscale. ring. }
  assert (Z : eqm d (comm d z z) mzero).
  { intros r c _ _. apply comm_self. }
  rewrite (mmul_proper d x x ltac:(reflexivity) _ _ X i j Hi Hj), (mmul_proper d _ _ X x x ltac:(reflexivity) i j Hi Hj).
  rewrite (mmul_proper d y y ltac:(reflexivity) _ _ Hyz i j Hi Hj), (mmul_proper d _ _ Hyz y y ltac:(reflexivity) i j Hi Hj).
  rewrite (mmul_proper d z z ltac:(reflexivity) _ _ Z i j Hi Hj), (mmul_proper d _ _ Z z z ltac:(reflexivity) i j Hi Hj).
  rewrite !mmul_scale_l, !mmul_scale_r. unfold mscale.
  replace (mmul d z mzero i j) with g0; [|unfold mmul, mzero, bigsum; symmetry; apply lsum_zero; intros; ring].
  replace (mmul d mzero z i j) with g0; [|unfold mmul, mzero, bigsum; symmetry; apply lsum_zero; intros; ring].
  unfold mzero. ring.
Qed.
Lemma total_s2_comm n o : o = SX \/ o = SY \/ o = SZ -> eqm (2 ^ n) (comm (2 ^ n) (total_s2 n) (total_spin n o)) mzero.
Proof.
  destruct (total_algebra n) as (A & B & C).
  assert (R : forall x y, eqm (2 ^ n) x y -> forall z, eqm (2 ^ n) (comm (2 ^ n) x z) (comm (2 ^ n) y z)).
  { intros x y H z. unfold comm. now rewrite H. }
  set (X := mmul (2 ^ n) (total_spin n SX) (total_spin n SX)). set (Y := mmul (2 ^ n) (total_spin n SY) (total_spin n SY)).
  set (Zz := mmul (2 ^ n) (total_spin n SZ) (total_spin n SZ)).
  intros [->|[->| ->]].
  - rewrite (R (total_s2 n) (madd Y (madd Zz X))) by (intros i j _ _; unfold total_s2, madd; fold X Y Zz; ring).
    exact (casimir_generic _ _ _ _ B C A).
  - rewrite (R (total_s2 n) (madd Zz (madd X Y))) by (intros i j _ _; unfold total_s2, madd; fold X Y Zz; ring).
    exact (casimir_generic _ _ _ _ C A B).
  - exact (casimir_generic _ _ _ _ A B C).
Qed.

(** ** Order of spin operators *)
Definition scompare (x y : spinop) : comparison :=
  match String.compare (otype_name (so_otype x)) (otype_name (so_otype y)) with
  | Eq => lexc (s_form (so_site x)) (s_form (so_site y)) | c => c end.
Lemma name_compare_eq o o' : String.compare (otype_name o) (otype_name o') = Eq <-> o = o'.
Proof. destruct o, o'; cbn; split; try discriminate; auto. Qed.
Lemma spin_form_eq x y : veq (spin_form x) (spin_form y) = match scompare x y with Eq => true | _ => false end.
Proof.
  unfold spin_form, scompare. cbn -[String.compare String.eqb site_form].
  destruct (String.eqb_spec (otype_name (so_otype x)) (otype_name (so_otype y))) as [E|E].
  - rewrite E. rewrite (proj2 (name_compare_eq _ _) eq_refl). cbn [andb].
    change (veq (site_form (so_site x)) (site_form (so_site y)) && true =
      match lexc (s_form (so_site x)) (s_form (so_site y)) with Eq => true | _ => false end)%bool.
    unfold site_form. rewrite veq_ints. now destruct (lexc _ _).
  - destruct (String.compare _ _) eqn:C; auto. apply name_compare_eq in C. congruence.
Qed.
Lemma spin_cmp_c o x y : spin_cmp o x y = Ok (opc o (scompare x y)).
Proof.
  unfold spin_cmp, spin_form, scompare. cbn -[String.compare String.eqb site_form veq].
  change (veq (VStr (otype_name (so_otype x))) (VStr (otype_name (so_otype y)))) with
    (String.eqb (otype_name (so_otype x)) (otype_name (so_otype y))).
  destruct (String.eqb_spec (otype_name (so_otype x)) (otype_name (so_otype y))) as [E|E].
  - rewrite E, (proj2 (name_compare_eq _ _) eq_refl).
    unfold site_form at 1 2. rewrite veq_ints. destruct (lexc (s_form (so_site x)) (s_form (so_site y))) eqn:L.
    + now destruct o.
    + change (vcmp o (site_form (so_site x)) (site_form (so_site y)) = Ok (opc o Lt)). unfold site_form. now rewrite vcmp_ints, L.
    + change (vcmp o (site_form (so_site x)) (site_form (so_site y)) = Ok (opc o Gt)). unfold site_form. now rewrite vcmp_ints, L.
  - unfold sop. destruct (String.compare _ _) eqn:C.
    + apply name_compare_eq in C. congruence.
    + now destruct o.
    + now destruct o.
Qed.
Lemma scompare_eq x y : scompare x y = Eq <-> same_spin x y.
Proof.
  unfold scompare, same_spin. destruct (String.compare _ _) eqn:C.
  - apply name_compare_eq in C. rewrite lexc_eq. intuition.
  - split; [discriminate|]. intros [E _]. apply name_compare_eq in E. congruence.
  - split; [discriminate|]. intros [E _]. apply name_compare_eq in E. congruence.
Qed.
Lemma scompare_lt x y : scompare x y = Lt <-> spin_key_lt x y.
Proof.
  unfold scompare, spin_key_lt. destruct (String.compare _ _) eqn:C.
  - apply name_compare_eq in C. rewrite lexc_lt. split; [auto|]. intros [H|[_ H]]; [discriminate|auto].
  - intuition.
  - split; [discriminate|]. intros [H|[E _]]; [discriminate|]. apply name_compare_eq in E. congruence.
Qed.
Lemma scompare_antisym x y : scompare y x = CompOpp (scompare x y).
Proof.
  unfold scompare. rewrite lexc_antisym. destruct (so_otype x), (so_otype y); reflexivity.
Qed.
Lemma spin_order x y :
  (spin_eq x y = true <-> same_spin x y) /\ (spin_ne x y = negb (spin_eq x y)) /\
  (spin_cmp CLt x y = Ok true <-> spin_key_lt x y) /\
  (spin_cmp CLe x y = Ok true <-> spin_key_lt x y \/ same_spin x y) /\
  (spin_cmp CGt x y = Ok true <-> spin_key_lt y x) /\
  (spin_cmp CGe x y = Ok true <-> spin_key_lt y x \/ same_spin x y) /\
  (forall o, exists b, spin_cmp o x y = Ok b) /\
  (spin_key_lt x y \/ same_spin x y \/ spin_key_lt y x) /\ ~ (spin_key_lt x y /\ spin_key_lt y x) /\
  (spin_hash_key x = spin_hash_key y <-> spin_eq x y = true).
Proof.
  rewrite !spin_cmp_c. unfold spin_eq at 1. unfold spin_ne, spin_eq at 1. rewrite !spin_form_eq.
  rewrite <- !scompare_lt, <- scompare_eq, (scompare_antisym x y).
  unfold spin_hash_key, spin_eq. rewrite (veq_eq (spin_form x) (spin_form y)).
  destruct (scompare x y); cbn; repeat split; auto; intros; try discriminate; intuition (try discriminate; eauto).
  all: try (eexists; apply spin_cmp_c).
Qed.
Lemma spin_key_lt_trans x y z : spin_key_lt x y -> spin_key_lt y z -> spin_key_lt x z.
Proof.
  unfold spin_key_lt. intros [H1|[E1 H1]] [H2|[E2 H2]].
  - left. destruct (so_otype x), (so_otype y); try discriminate; destruct (so_otype z); try discriminate; reflexivity.
  - left. now rewrite <- E2.
  - left. now rewrite E1.
  - right. split; [congruence|]. eapply lex_lt_trans; eauto.
Qed.
