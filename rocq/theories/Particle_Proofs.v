(** Order, equality, dagger and normal ordering of AoC. *)
From Coq Require Import List ZArith NArith Bool Sorted Permutation Arith Lia.
From Verif Require Import Py GQ Mat IndexTable_Model IndexTable_Proofs State_Model State_Spec State_Proofs
  MatrixRepr_Model Fock_Spec Fock_Proofs MatrixRepr_Proofs MatrixRepr_Proofs2 Particle_Model Particle_Spec.
Import ListNotations.

(** ** Order *)
Definition stc (s t : stateid) : comparison := locc (LState s) (LState t).
Lemma state_eq_stc s t : state_eq s t = match stc s t with Eq => true | _ => false end.
Proof. apply (py_eq_same (LState s) (LState t) I). Qed.
Lemma state_ne_stc s t : state_ne s t = match stc s t with Eq => false | _ => true end.
Proof. apply (py_eq_same (LState s) (LState t) I). Qed.
Lemma state_ne_eq s t : state_ne s t = negb (state_eq s t).
Proof. rewrite state_ne_stc, state_eq_stc. now destruct (stc s t). Qed.
Lemma stc_eq s t : stc s t = Eq <-> same_st s t.
Proof. apply (locc_eq (LState s) (LState t) I). Qed.
Lemma stc_lt s t : stc s t = Lt <-> st_lt s t.
Proof. apply (locc_lt (LState s) (LState t) I). Qed.
Lemma stc_antisym s t : stc t s = CompOpp (stc s t).
Proof. apply (locc_antisym (LState s) (LState t) I). Qed.
Lemma st_lt_trans s t u : st_lt s t -> st_lt t u -> st_lt s u.
Proof. apply key_lt_trans. Qed.
Lemma same_st_refl s : same_st s s.
Proof. unfold same_st; cbn; auto. Qed.
Lemma same_st_sym s t : same_st s t -> same_st t s.
Proof. unfold same_st; cbn; intuition. Qed.
Lemma same_st_trans s t u : same_st s t -> same_st t u -> same_st s u.
Proof. unfold same_st; cbn. intros (->&->&->) (->&->&->); auto. Qed.
Lemma state_eq_iff s t : state_eq s t = true <-> same_st s t.
Proof. rewrite state_eq_stc, <- stc_eq. destruct (stc s t); intuition discriminate. Qed.
Lemma st_lt_same_l s s' t : same_st s s' -> st_lt s t -> st_lt s' t.
Proof. unfold same_st, st_lt; cbn. intros (->&->&->); auto. Qed.
Lemma st_lt_same_r s t t' : same_st t t' -> st_lt s t -> st_lt s t'.
Proof. unfold same_st, st_lt; cbn. intros (->&->&->); auto. Qed.

(** comparison of operators as a three-way comparison *)
Definition aocc (x y : aoc) : comparison :=
  match a_otype x, a_otype y with
  | CREATION, CREATION => stc (a_state x) (a_state y)
  | CREATION, ANNIHILATION => Lt
  | ANNIHILATION, CREATION => Gt
  | ANNIHILATION, ANNIHILATION => stc (a_state y) (a_state x)
  end.
Lemma aoc_lt_c x y : aoc_lt x y = Ok (match aocc x y with Lt => true | _ => false end).
Proof.
  unfold aoc_lt, aocc. destruct (a_otype x), (a_otype y); try reflexivity.
  - rewrite py_cmp_same by exact I. fold (stc (a_state x) (a_state y)). rewrite (stc_antisym (a_state x)).
    now destruct (stc _ _).
  - rewrite py_cmp_same by exact I. fold (stc (a_state x) (a_state y)). now destruct (stc _ _).
Qed.
Lemma aoc_gt_c x y : aoc_gt x y = Ok (match aocc x y with Gt => true | _ => false end).
Proof.
  unfold aoc_gt, aocc. destruct (a_otype x), (a_otype y); try reflexivity.
  - rewrite py_cmp_same by exact I. fold (stc (a_state x) (a_state y)). rewrite (stc_antisym (a_state x)).
    now destruct (stc _ _).
  - rewrite py_cmp_same by exact I. fold (stc (a_state x) (a_state y)). now destruct (stc _ _).
Qed.
Lemma aoc_form_eq x y : veq (aoc_form x) (aoc_form y) = match aocc x y with Eq => true | _ => false end.
Proof.
  unfold aoc_form, aocc. cbn -[state_form veq]. 
  change (veq (VTup [VInt (int_of_otype (a_otype x)); state_form (a_state x)])
              (VTup [VInt (int_of_otype (a_otype y)); state_form (a_state y)]))
    with ((int_of_otype (a_otype x) =? int_of_otype (a_otype y))%Z &&
          (veq (state_form (a_state x)) (state_form (a_state y)) && true)).
  rewrite andb_true_r, state_veq. change (statec (a_state x) (a_state y)) with (stc (a_state x) (a_state y)).
  destruct (a_otype x), (a_otype y); cbn [int_of_otype]; try reflexivity.
  rewrite (stc_antisym (a_state x)). now destruct (stc _ _).
Qed.
Lemma aocc_eq x y : aocc x y = Eq <-> same_op x y.
Proof.
  unfold aocc, same_op. destruct (a_otype x), (a_otype y); try (intuition discriminate).
  - rewrite stc_eq. split; [intros; split; auto using same_st_sym|intros [_ ?]; auto using same_st_sym].
  - rewrite stc_eq. tauto.
Qed.
Lemma aocc_lt x y : aocc x y = Lt <-> before x y.
Proof.
  unfold aocc, before. destruct (a_otype x), (a_otype y); try (rewrite stc_lt; tauto); intuition discriminate.
Qed.
Lemma aocc_antisym x y : aocc y x = CompOpp (aocc x y).
Proof. unfold aocc. destruct (a_otype x), (a_otype y); auto; apply stc_antisym. Qed.
Lemma aocc_gt x y : aocc x y = Gt <-> before y x.
Proof. rewrite <- aocc_lt, aocc_antisym. destruct (aocc y x); cbn; intuition discriminate. Qed.
Lemma before_trans x y z : before x y -> before y z -> before x z.
Proof.
  unfold before. destruct (a_otype x), (a_otype y), (a_otype z); try tauto; eauto using st_lt_trans.
Qed.
Lemma before_irrefl x y : before x y -> before y x -> False.
Proof. rewrite <- !aocc_lt, aocc_antisym. destruct (aocc y x); cbn; congruence. Qed.
Lemma before_same_l x x' y : same_op x x' -> before x y -> before x' y.
Proof.
  unfold before, same_op. intros [-> H]. destruct (a_otype x'), (a_otype y); auto;
    eauto using st_lt_same_l, st_lt_same_r.
Qed.
Lemma before_same_r x y y' : same_op y y' -> before x y -> before x y'.
Proof.
  unfold before, same_op. intros [-> H]. destruct (a_otype x), (a_otype y'); auto;
    eauto using st_lt_same_l, st_lt_same_r.
Qed.

Lemma aoc_order x y :
  (aoc_lt x y = Ok true <-> before x y) /\ (aoc_gt x y = Ok true <-> before y x) /\
  (aoc_eq x y = true <-> same_op x y) /\
  (before x y \/ same_op x y \/ before y x) /\
  ~ (before x y /\ same_op x y) /\ ~ (before x y /\ before y x) /\
  (aoc_le x y = Ok true <-> before x y \/ same_op x y) /\
  (aoc_ge x y = Ok true <-> before y x \/ same_op x y) /\
  aoc_ne x y = negb (aoc_eq x y) /\
  (exists b1 b2 b3 b4, aoc_lt x y = Ok b1 /\ aoc_gt x y = Ok b2 /\ aoc_le x y = Ok b3 /\ aoc_ge x y = Ok b4).
Proof.
  unfold aoc_le, aoc_ge, aoc_ne, aoc_eq. rewrite aoc_lt_c, aoc_gt_c, aoc_form_eq.
  rewrite <- aocc_lt, <- (aocc_lt y x), <- aocc_eq, (aocc_antisym x y).
  destruct (aocc x y); cbn;
    (split; [|split; [|split; [|split; [|split; [|split; [|split; [|split; [|split]]]]]]]]);
    try (intuition congruence); repeat eexists.
Qed.

(** ** wf *)
Lemma make_state_inv zoom site spin orbit s : make_state zoom site spin orbit = Ok s ->
  s_coord (st_site s) = site /\ spin = NInt (st_spin s) /\ orbit = NInt (st_orbit s) /\
  make_state zoom (s_coord (st_site s)) (NInt (st_spin s)) (NInt (st_orbit s)) = Ok s.
Proof.
  intros H. pose proof H as H0. unfold make_state in H.
  destruct spin as [z| |]; cbn [nonneg_int] in H; try discriminate.
  destruct (0 <=? z)%Z; [|discriminate].
  destruct orbit as [w| |]; cbn [nonneg_int] in H; try discriminate.
  destruct (0 <=? w)%Z; [|discriminate].
  destruct (make_site zoom site) as [st|] eqn:E; [|discriminate]. injection H as <-. cbn.
  assert (Hc : s_coord st = site).
  { unfold make_site in E. destruct (_ && _); [|discriminate]. destruct (mapM _ _); [|discriminate].
    now injection E as <-. }
  rewrite Hc. auto.
Qed.

Lemma make_aoc_inv zoom ot site spin orbit x : make_aoc zoom ot site spin orbit = Ok x ->
  ot = int_of_otype (a_otype x) /\ make_state zoom site spin orbit = Ok (a_state x).
Proof.
  unfold make_aoc, otype_of_int. destruct (Z.eqb_spec ot 0); [|destruct (Z.eqb_spec ot 1)]; try discriminate;
    destruct (make_state _ _ _ _); try discriminate; intros [= <-]; cbn; auto.
Qed.

Definition wf_state (zoom : Z) (s : stateid) : Prop :=
  make_state zoom (s_coord (st_site s)) (NInt (st_spin s)) (NInt (st_orbit s)) = Ok s.

Lemma built_wf zoom x : built zoom x <-> wf_state zoom (a_state x).
Proof.
  split.
  - intros (ot & site & spin & orbit & H). apply make_aoc_inv in H as [_ H].
    now apply make_state_inv in H.
  - intros H. exists (int_of_otype (a_otype x)). do 3 eexists. unfold make_aoc.
    replace (otype_of_int (int_of_otype (a_otype x))) with (Some (a_otype x)) by now destruct (a_otype x).
    rewrite H. now destruct x.
Qed.
Lemma built_num_wf zoom n : built_num zoom n <-> wf_state zoom (n_state n).
Proof.
  split.
  - intros (site & spin & orbit & H). unfold make_numop in H.
    destruct (make_state _ _ _ _) as [s|] eqn:E; [|discriminate]. injection H as <-. cbn.
    now apply make_state_inv in E.
  - intros H. do 3 eexists. unfold make_numop. rewrite H. now destruct n.
Qed.

(** ** dagger *)
Lemma dagger_ok zoom x : built zoom x ->
  aoc_dagger zoom x = Ok (MkAoc (flip_otype (a_otype x)) (a_state x)).
Proof.
  intros H. apply built_wf in H. unfold aoc_dagger, derive, make_aoc; cbn [get].
  rewrite H. destruct (a_otype x); reflexivity.
Qed.
Lemma built_flip zoom x o : built zoom x -> built zoom (MkAoc o (a_state x)).
Proof. rewrite !built_wf. auto. Qed.

Lemma before_flip x y :
  before (MkAoc (flip_otype (a_otype y)) (a_state y)) (MkAoc (flip_otype (a_otype x)) (a_state x)) <-> before x y.
Proof. unfold before; cbn. destruct (a_otype x), (a_otype y); cbn; tauto. Qed.

(** ** Bubble sort *)
Definition gtb := gt_bool.
Lemma aoc_gt_gtb x y : aoc_gt x y = Ok (gtb x y).
Proof. unfold gtb, gt_bool. rewrite aoc_gt_c. now destruct (aocc x y). Qed.
Lemma gtb_before x y : gtb x y = true <-> before y x.
Proof. unfold gtb, gt_bool. rewrite aoc_gt_c, <- aocc_gt. destruct (aocc x y); intuition discriminate. Qed.
Lemma gtb_false x y : gtb x y = false <-> ~ before y x.
Proof. rewrite <- gtb_before. destruct (gtb x y); intuition congruence. Qed.
Lemma not_before_trans x y z : ~ before y x -> ~ before z y -> ~ before z x.
Proof.
  rewrite <- !aocc_gt. intros H1 H2 H3.
  destruct (aocc x y) eqn:E1; [| |congruence].
  - apply aocc_eq in E1. apply H2. apply aocc_gt. apply aocc_gt in H3. eapply before_same_r; eauto.
  - destruct (aocc y z) eqn:E2; [| |congruence].
    + apply aocc_eq in E2. apply aocc_lt in E1. apply aocc_gt in H3.
      eapply before_irrefl; [exact E1|]. eapply before_same_l; [|exact H3].
      destruct E2; split; auto using same_st_sym.
    + apply aocc_lt in E1, E2. apply aocc_gt in H3.
      eapply before_irrefl; [exact H3|]. eapply before_trans; eauto.
Qed.

(** n legitimate adjacent swaps *)
Inductive steps : list aoc -> nat -> list aoc -> Prop :=
| st_refl l : steps l 0 l
| st_swap u x y v n l' : before y x -> ~ same_st (a_state x) (a_state y) ->
    steps (u ++ y :: x :: v) n l' -> steps (u ++ x :: y :: v) (S n) l'.

Lemma steps_trans l n l' m l'' : steps l n l' -> steps l' m l'' -> steps l (n + m) l''.
Proof. induction 1; cbn; auto. intros. econstructor; eauto. Qed.
Lemma steps_cons a l n l' : steps l n l' -> steps (a :: l) n (a :: l').
Proof.
  induction 1; [constructor|]. change (a :: u ++ x :: y :: v) with ((a :: u) ++ x :: y :: v).
  econstructor; eauto.
Qed.
Lemma steps_perm l n l' : steps l n l' -> Permutation l l'.
Proof.
  induction 1; auto. etransitivity; [|exact IHsteps]. apply Permutation_app_head. constructor.
Qed.

Lemma pass_steps n : forall l c,
  match bubble_pass n l c with
  | Ok (l', c') => exists k, c' = (c + k)%nat /\ steps l k l'
  | Err e => e = SwapFermionError /\ exists k u x y v, steps l k (u ++ x :: y :: v) /\
               before y x /\ same_st (a_state x) (a_state y)
  end.
Proof.
  induction n as [|n IH]; intros l c; cbn [bubble_pass].
  - exists 0%nat. split; [lia|constructor].
  - destruct l as [|x [|y r]]; try (exists 0%nat; split; [lia|constructor]).
    rewrite aoc_gt_gtb. destruct (gtb x y) eqn:G.
    + apply gtb_before in G. rewrite state_ne_eq. destruct (state_eq (a_state x) (a_state y)) eqn:E; cbn [negb].
      * apply state_eq_iff in E. split; auto. exists 0%nat, [], x, y, r. split; [constructor|auto].
      * assert (NE : ~ same_st (a_state x) (a_state y)) by (rewrite <- state_eq_iff; congruence).
        specialize (IH (x :: r) (S c)). destruct (bubble_pass n (x :: r) (S c)) as [[l' c']|e].
        -- destruct IH as (k & -> & Hk). exists (S k). split; [lia|].
           apply (st_swap [] x y r); auto. cbn. now apply steps_cons.
        -- destruct IH as (-> & k & u & x' & y' & v & Hk & Hb). split; auto.
           exists (S k), (y :: u), x', y', v. split; auto.
           apply (st_swap [] x y r); auto. cbn. now apply steps_cons.
    + specialize (IH (y :: r) c). destruct (bubble_pass n (y :: r) c) as [[l' c']|e].
      * destruct IH as (k & -> & Hk). exists k. split; auto. now apply steps_cons.
      * destruct IH as (-> & k & u & x' & y' & v & Hk & Hb). split; auto.
        exists k, (x :: u), x', y', v. split; auto. now apply (steps_cons x) in Hk.
Qed.

Lemma passes_steps r : forall l c,
  match bubble_passes r l c with
  | Ok (l', c') => exists k, c' = (c + k)%nat /\ steps l k l'
  | Err e => e = SwapFermionError /\ exists k u x y v, steps l k (u ++ x :: y :: v) /\
               before y x /\ same_st (a_state x) (a_state y)
  end.
Proof.
  induction r as [|r IH]; intros l c; [exists 0%nat; split; [lia|constructor]|].
  destruct r as [|r]; [exists 0%nat; split; [lia|constructor]|].
  change (bubble_passes (S (S r)) l c) with
    (match bubble_pass (S r) l c with Ok (l0, c0) => bubble_passes (S r) l0 c0 | Err e => Err e end).
  pose proof (pass_steps (S r) l c) as P. destruct (bubble_pass (S r) l c) as [[l0 c0]|e]; [|exact P].
  destruct P as (k & -> & Hk). specialize (IH l0 (c + k)%nat).
  destruct (bubble_passes (S r) l0 (c + k)) as [[l1 c1]|e].
  - destruct IH as (k' & -> & Hk'). exists (k + k')%nat. split; [lia|]. eapply steps_trans; eauto.
  - destruct IH as (-> & k' & u & x & y & v & Hk' & Hb). split; auto.
    exists (k + k')%nat, u, x, y, v. split; auto. eapply steps_trans; eauto.
Qed.

(** Sortedness. *)
Definition leq (x y : aoc) : Prop := ~ before y x.
Lemma pass_max n : forall front tail c l' c', length front = S n ->
  bubble_pass n (front ++ tail) c = Ok (l', c') ->
  exists front' m, l' = front' ++ m :: tail /\ length front' = n /\ Permutation front (front' ++ [m]) /\
    Forall (fun x => leq x m) front'.
Proof.
  induction n as [|n IH]; intros front tail c l' c' Hl; cbn [bubble_pass].
  - intros [= <- <-]. destruct front as [|x [|? ?]]; try discriminate. exists [], x. cbn. auto.
  - destruct front as [|x [|y r]]; try discriminate. cbn [app]. rewrite aoc_gt_gtb.
    destruct (gtb x y) eqn:G.
    + destruct (state_ne _ _); [|discriminate].
      destruct (bubble_pass n (x :: r ++ tail) (S c)) as [[l0 c0]|] eqn:E; [|discriminate].
      intros [= <- <-]. change (x :: r ++ tail) with ((x :: r) ++ tail) in E.
      apply IH in E as (f' & m & -> & Hf & Hp & Ha); [|cbn in *; lia].
      exists (y :: f'), m. cbn. repeat split; auto.
      * rewrite perm_swap. now constructor.
      * constructor; auto. apply gtb_before in G.
        assert (Hx : In x (f' ++ [m])) by (eapply Permutation_in; [exact Hp|now left]).
        assert (Hxm : leq x m).
        { apply in_app_iff in Hx as [Hx|[<-|[]]]; [rewrite Forall_forall in Ha; auto|].
          intros Hb. eapply before_irrefl; eauto. }
        eapply not_before_trans; [|exact Hxm]. intros Hb. eapply before_irrefl; eauto.
    + destruct (bubble_pass n (y :: r ++ tail) c) as [[l0 c0]|] eqn:E; [|discriminate].
      intros [= <- <-]. change (y :: r ++ tail) with ((y :: r) ++ tail) in E.
      apply IH in E as (f' & m & -> & Hf & Hp & Ha); [|cbn in *; lia].
      exists (x :: f'), m. cbn. repeat split; auto.
      constructor; auto. apply gtb_false in G.
      assert (Hy : In y (f' ++ [m])) by (eapply Permutation_in; [exact Hp|now left]).
      assert (Hym : leq y m).
      { apply in_app_iff in Hy as [Hy|[<-|[]]]; [rewrite Forall_forall in Ha; auto|].
        intros Hb. eapply before_irrefl; eauto. }
      eapply not_before_trans; eauto.
Qed.

Lemma passes_sorted r : forall front tail c l' c', length front = r ->
  StronglySorted leq tail -> Forall (fun x => Forall (leq x) tail) front ->
  bubble_passes r (front ++ tail) c = Ok (l', c') -> StronglySorted leq l'.
Proof.
  induction r as [|r IH]; intros front tail c l' c' Hl Hs Ha.
  - cbn. intros [= <- _]. destruct front; [exact Hs|discriminate].
  - destruct r as [|r].
    + cbn. intros [= <- _]. destruct front as [|x [|? ?]]; try discriminate. cbn.
      inversion Ha; subst. constructor; auto.
    + change (bubble_passes (S (S r)) (front ++ tail) c) with
        (match bubble_pass (S r) (front ++ tail) c with Ok (l0, c0) => bubble_passes (S r) l0 c0 | Err e => Err e end).
      destruct (bubble_pass (S r) (front ++ tail) c) as [[l0 c0]|] eqn:E; [|discriminate].
      apply pass_max in E as (f' & m & -> & Hf & Hp & Hm); auto.
      apply IH; auto.
      * constructor; auto. rewrite Forall_forall in Ha. apply Ha.
        eapply Permutation_in; [apply Permutation_sym; exact Hp|]. apply in_or_app. right; now left.
      * rewrite Forall_forall in *. intros x Hx. constructor; [auto|]. apply Ha.
        eapply Permutation_in; [apply Permutation_sym; exact Hp|]. apply in_or_app. now left.
Qed.

Lemma normalize_sorted l l' n : normalize l = Ok (l', n) -> normal_ordered l'.
Proof.
  unfold normalize. intros H. rewrite <- (app_nil_r l) in H at 2.
  eapply passes_sorted in H; eauto; [constructor|]. apply Forall_forall. constructor.
Qed.

(** Inversions. *)
Lemma inversions_cons x l : inversions (x :: l) = (length (filter (gtb x) l) + inversions l)%nat.
Proof. reflexivity. Qed.
Lemma inversions_swap u x y v : before y x ->
  inversions (u ++ x :: y :: v) = S (inversions (u ++ y :: x :: v)).
Proof.
  intros H. induction u as [|a u IH]; cbn [app].
  - rewrite !inversions_cons. cbn [filter].
    rewrite (proj2 (gtb_before x y) H).
    replace (gtb y x) with false by (symmetry; apply gtb_false; intros B; eapply before_irrefl; eauto).
    cbn [length]. lia.
  - rewrite !inversions_cons, IH.
    replace (length (filter (gtb a) (u ++ x :: y :: v))) with (length (filter (gtb a) (u ++ y :: x :: v))); [lia|].
    rewrite !filter_app, !app_length. f_equal. cbn [filter]. destruct (gtb a x), (gtb a y); reflexivity.
Qed.
Lemma steps_inversions l n l' : steps l n l' -> inversions l = (n + inversions l')%nat.
Proof. induction 1; [reflexivity|]. rewrite inversions_swap by auto. lia. Qed.
Lemma sorted_inversions l : normal_ordered l -> inversions l = 0%nat.
Proof.
  induction 1 as [|x l Hs IH Hf]; [reflexivity|]. rewrite inversions_cons, IH, Nat.add_0_r.
  replace (filter (gtb x) l) with (@nil aoc); [reflexivity|]. symmetry.
  induction l as [|y l IHl]; [reflexivity|]. cbn. inversion Hf; subst.
  rewrite (proj2 (gtb_false x y)) by auto. apply IHl; auto.
  - now inversion Hs.
  - cbn in IH. lia.
Qed.

(** Crossing. *)
Definition crosses (x y : aoc) : Prop :=
  a_otype x = ANNIHILATION /\ a_otype y = CREATION /\ same_st (a_state x) (a_state y).
Fixpoint crossing' (l : list aoc) : Prop :=
  match l with [] => False | x :: r => Exists (crosses x) r \/ crossing' r end.
Lemma crossing_iff l : crossing l <-> crossing' l.
Proof.
  split.
  - intros (u & x & v & y & w & -> & H). induction u as [|a u IH]; cbn; [|now right].
    left. apply Exists_app. right. now left.
  - induction l as [|x l IH]; cbn; [contradiction|]. intros [H|H].
    + apply Exists_exists in H as (y & Hy & Hc). apply in_split in Hy as (v & w & ->).
      exists [], x, v, y, w. auto.
    + destruct (IH H) as (u & a & v & b & w & -> & Hc). exists (x :: u), a, v, b, w. auto.
Qed.
Lemma crosses_before x y : crosses x y <-> before y x /\ same_st (a_state x) (a_state y).
Proof.
  unfold crosses, before. split.
  - intros (-> & -> & H). auto.
  - intros [B S]. destruct (a_otype x), (a_otype y); auto; try contradiction; exfalso.
    + apply stc_lt in B. apply stc_eq in S. congruence.
    + apply stc_lt in B. apply same_st_sym, stc_eq in S. congruence.
Qed.
Lemma crossing_swap u x y v : before y x -> ~ same_st (a_state x) (a_state y) ->
  (crossing' (u ++ x :: y :: v) <-> crossing' (u ++ y :: x :: v)).
Proof.
  intros B NS. induction u as [|a u IH]; cbn.
  - rewrite !Exists_cons.
    assert (~ crosses x y) by (intros C; apply crosses_before in C; tauto).
    assert (~ crosses y x).
    { intros C. apply crosses_before in C. eapply before_irrefl; [exact B|tauto]. }
    tauto.
  - rewrite IH. rewrite !Exists_app, !Exists_cons. tauto.
Qed.
Lemma steps_crossing l n l' : steps l n l' -> (crossing' l <-> crossing' l').
Proof. induction 1; [tauto|]. rewrite crossing_swap; auto. Qed.
Lemma sorted_no_crossing l : normal_ordered l -> ~ crossing' l.
Proof.
  induction 1 as [|x l Hs IH Hf]; cbn; [auto|]. intros [H|H]; auto.
  apply Exists_exists in H as (y & Hy & Hc). rewrite Forall_forall in Hf. apply (Hf y Hy).
  now apply crosses_before in Hc.
Qed.

Lemma normalize_error l : (forall e, normalize l = Err e -> e = SwapFermionError) /\
  (normalize l = Err SwapFermionError <-> crossing l).
Proof.
  unfold normalize. pose proof (passes_steps (length l) l 0) as P.
  destruct (bubble_passes (length l) l 0) as [[l' c]|e] eqn:E.
  - split; [discriminate|]. split; [discriminate|]. intros C. exfalso.
    destruct P as (k & _ & Hk). apply crossing_iff in C. apply (steps_crossing _ _ _ Hk) in C.
    revert C. apply sorted_no_crossing. eapply normalize_sorted. exact E.
  - destruct P as (-> & k & u & x & y & v & Hk & B & S). split; [congruence|]. split; auto.
    intros _. apply crossing_iff, (steps_crossing _ _ _ Hk), crossing_iff.
    exists u, x, [], y, v. split; auto. apply crosses_before. auto.
Qed.

Lemma normalize_steps l l' n : normalize l = Ok (l', n) -> steps l n l'.
Proof.
  intros E. pose proof (passes_steps (length l) l 0) as P. unfold normalize in E. rewrite E in P.
  destruct P as (k & -> & Hk). exact Hk.
Qed.
Lemma normalize_count l l' n : normalize l = Ok (l', n) -> n = inversions l.
Proof.
  intros E. rewrite (steps_inversions _ _ _ (normalize_steps _ _ _ E)).
  rewrite (sorted_inversions l'); [lia|]. eapply normalize_sorted; eauto.
Qed.

(** Stability: equal operators keep their relative order. *)
Lemma steps_stable (p : aoc -> bool) l n l' :
  (forall x y, p x = true -> p y = true -> ~ before y x) -> steps l n l' -> filter p l = filter p l'.
Proof.
  intros Hp. induction 1; auto. rewrite <- IHsteps, !filter_app. f_equal. cbn.
  destruct (p x) eqn:Ex, (p y) eqn:Ey; auto. exfalso. now apply (Hp x y).
Qed.
Lemma normalize_stable l l' n z : normalize l = Ok (l', n) -> filter (aoc_eq z) l' = filter (aoc_eq z) l.
Proof.
  intros E. symmetry. eapply steps_stable; [|eapply normalize_steps; eauto].
  intros x y Hx Hy B. apply (aoc_order z x) in Hx. apply (aoc_order z y) in Hy.
  assert (S : same_op y x).
  { destruct Hx, Hy. split; [congruence|]. eauto using same_st_sym, same_st_trans. }
  eapply (proj1 (proj2 (proj2 (proj2 (proj2 (aoc_order y x)))))). split; eauto.
Qed.
