(** Further facts: scaling, existence on the full Fock space, factories. *)
From Coq Require Import List ZArith NArith Bool Arith Lia Permutation Sorted.
From Verif Require Import Py GQ Mat IndexTable_Model State_Model State_Spec MatrixRepr_Model Fock_Spec Fock_Proofs
  MatrixRepr_Proofs MatrixRepr_Proofs2 Particle_Model Particle_Spec Particle_Proofs Particle_Proofs2.
Import ListNotations.

Lemma veq_eq a : forall b, veq a b = true <-> a = b.
Proof.
  induction a as [x|s|l IH] using
    (fix F (P : pv -> Prop) (HI : forall z, P (VInt z)) (HS : forall s, P (VStr s))
         (HT : forall l, Forall P l -> P (VTup l)) (a : pv) {struct a} : P a :=
       match a with
       | VInt z => HI z
       | VStr s => HS s
       | VTup l => HT l ((fix G l : Forall P l := match l with [] => Forall_nil _
                             | x :: r => Forall_cons x (F P HI HS HT x) (G r) end) l)
       end).
  - intros [y|t|m]; cbn; split; intros H; try discriminate.
    + apply Z.eqb_eq in H. congruence.
    + injection H as ->. apply Z.eqb_refl.
  - intros [y|t|m]; cbn; split; intros H; try discriminate.
    + apply String.eqb_eq in H. congruence.
    + injection H as ->. apply String.eqb_refl.
  - intros [y|t|m]; cbn; try (split; intros H; discriminate). revert m. induction IH as [|x l Hx Hl IHl]; intros [|y m].
    + split; auto.
    + split; intros H; discriminate.
    + split; intros H; discriminate.
    + rewrite andb_true_iff, Hx. specialize (IHl m). split.
      * intros [-> H]. apply IHl in H. injection H as ->. reflexivity.
      * intros [= -> ->]. split; auto. now apply IHl.
Qed.

Lemma normalize_again l l' n : normalize l = Ok (l', n) -> normalize l' = Ok (l', 0%nat).
Proof.
  intros H. pose proof (normalize_sorted _ _ _ H) as S.
  destruct (normalize l') as [[l'' k]|e] eqn:E.
  - pose proof (normalize_count _ _ _ E) as C. rewrite (sorted_inversions _ S) in C. subst k.
    pose proof (normalize_steps _ _ _ E) as T. inversion T; subst; auto.
  - pose proof E as E'. destruct (normalize_error l') as [E1 E2]. apply E1 in E. subst e.
    apply E2, crossing_iff in E'. exfalso. now apply (sorted_no_crossing l').
Qed.

(** Any compatible term's matrix is its coefficient times the matrix with coefficient 1. *)
Lemma repr_scale objs start tbl t right left m :
  make_state_table objs start = Ok tbl -> check_compatibility t = true ->
  sorted_bases (the_left right left) ->
  (t_class t = Tgeneral \/ t_class t = Thopping \/ left = None) ->
  fst (pterm_matrix_repr tbl t right left None) = Ok m ->
  exists m1, fst (pterm_matrix_repr tbl (MkTerm (t_aocs t) g1 Tgeneral) right left None) = Ok m1 /\
    nrows m1 = nrows m /\ ncols m1 = ncols m /\ meq (nrows m) (ncols m) (entry m) (mscale (t_coeff t) (entry m1)).
Proof.
  intros Ht Hc Hs Hl Hm.
  rewrite (compatible_general _ _ _ _ _ _ Ht Hc) in Hm
    by (destruct Hl as [H|[H| ->]]; auto).
  rewrite term_repr in Hm. rewrite term_repr. cbn [t_aocs t_coeff t_class] in *.
  destruct (term_of tbl (ops (t_aocs t))) as [term|]; [|discriminate].
  apply general_inv in Hm as (A1 & A2 & A3 & A4 & A5 & A6 & A7); auto.
  destruct (general_ok term right left g1 Hs A1 A2 A3 A4) as (m1 & M1 & M2 & M3 & M4).
  exists m1. split; auto. split; [congruence|]. split; [congruence|].
  intros i j Hi Hj. rewrite A7 by auto. unfold mscale. rewrite M4 by congruence. unfold word_mat. ring.
Qed.

(** Every operand whose states are in the table has a matrix on the full Fock space. *)
Definition operand_known (tbl : state_table) (x : operand) : Prop :=
  Forall (fun p => exists i, state_index tbl (snd p) = Ok i) (operand_ops 0 x).
Lemma known_term tbl l : Forall (fun p : otype * stateid => exists i, state_index tbl (snd p) = Ok i) l ->
  exists t, term_of tbl l = Ok t /\ length t = length l.
Proof.
  induction 1 as [|x l [i Hx] Hl (t & IH & L)]; [exists []; split; reflexivity|].
  exists ((i, fst x) :: t). split; [|cbn; lia]. unfold term_of in *. apply mapM_cons_ok. exists (i, fst x), t.
  rewrite Hx. auto.
Qed.
Lemma full_matrix_of objs start tbl n zoom x :
  make_state_table objs start = Ok tbl -> (0 <= start)%Z ->
  (start + Z.of_nat (length objs) <= Z.of_nat n)%Z -> (n <= 64)%nat ->
  good_operand zoom x -> x <> OForeign -> operand_known tbl x -> (is_scalar x \/ operand_ops zoom x <> []) ->
  exists m, matrix_of tbl (full_bases n) x m.
Proof.
  intros Ht H0 H1 Hn Hg Hf Hk Hs. unfold operand_known in Hk.
  destruct (known_term _ _ Hk) as (term & E & L).
  pose proof (term_of_bounds _ _ _ _ _ Ht E) as B.
  assert (B' : Forall (fun p => (0 <= fst p < Z.of_nat n)%Z) term).
  { eapply Forall_impl; [|exact B]. cbn. lia. }
  destruct x as [a|nn|u|c|].
  - cbn in E. destruct (state_index tbl (a_state a)) as [i|] eqn:Ei; [|discriminate]. injection E as <-.
    destruct (full_ok n [(i, a_otype a)] g1) as (m & Hm & _); auto; try discriminate.
    exists (entry m). exists m. unfold aoc_matrix_repr. now rewrite Ei.
  - cbn in E. destruct (state_index tbl (n_state nn)) as [i|] eqn:Ei; [|discriminate]. injection E as <-.
    destruct (full_ok n [(i, CREATION); (i, ANNIHILATION)] g1) as (m & Hm & _); auto; try discriminate.
    exists (entry m). exists m. unfold numop_matrix_repr. rewrite Ei.
    rewrite number_general by apply sorted_full. auto.
  - cbn [operand_ops] in *. destruct Hs as [[]|Hs].
    destruct (full_ok n term (t_coeff u)) as (m & Hm & _); auto.
    { intros ->. apply Hs. now destruct (map _ _). }
    exists (entry m). exists m. split; auto. cbn [good_operand] in Hg.
    rewrite (compatible_general _ _ _ _ _ _ Ht Hg) by (right; right; split; [auto|apply sorted_full]).
    rewrite term_repr. cbn [t_aocs t_coeff t_class]. unfold ops. now rewrite E.
  - exists (mscale c mid). reflexivity.
  - contradiction.
Qed.

(** Factories. *)
Lemma make_aoc_split zoom ot site spin orbit :
  make_aoc zoom (int_of_otype ot) site spin orbit =
  match make_state zoom site spin orbit with Ok s => Ok (MkAoc ot s) | Err e => Err e end.
Proof. unfold make_aoc. now destruct ot. Qed.
Lemma make_pterm_ok l c t r : make_pterm l c (Some t) = Ok r <-> exists z, c = CNum z /\ r = MkTerm l z t.
Proof.
  destruct c as [z|]; cbn; split.
  - intros [= <-]. eauto.
  - intros (w & [= <-] & ->). reflexivity.
  - discriminate.
  - intros (w & H & _). discriminate.
Qed.

Lemma CP_ok zoom site spin orbit coeff t : CPFactory zoom site spin orbit coeff = Ok t <->
  exists c s, coeff = CNum c /\ make_state zoom site spin orbit = Ok s /\
    t = MkTerm [MkAoc CREATION s; MkAoc ANNIHILATION s] c Tnumber.
Proof.
  unfold CPFactory. change 1%Z with (int_of_otype CREATION). change 0%Z with (int_of_otype ANNIHILATION).
  rewrite !make_aoc_split. destruct (make_state zoom site spin orbit) as [s|]; cbn [bind].
  - rewrite make_pterm_ok. split; [intros (c & -> & ->); eauto|].
    intros (c & s' & -> & [= <-] & ->). eauto.
  - split; [discriminate|]. intros (c & s' & _ & H & _). discriminate.
Qed.
Lemma Hopping_ok zoom site0 site1 spin0 spin1 orbit0 orbit1 coeff t :
  HoppingFactory zoom site0 site1 spin0 spin1 orbit0 orbit1 coeff = Ok t <->
  exists c s0 s1, coeff = CNum c /\ make_state zoom site0 spin0 orbit0 = Ok s0 /\
    make_state zoom site1 (get spin1 spin0) (get orbit1 orbit0) = Ok s1 /\
    t = MkTerm [MkAoc CREATION s0; MkAoc ANNIHILATION s1] c (if state_eq s0 s1 then Tnumber else Thopping).
Proof.
  unfold HoppingFactory. change 1%Z with (int_of_otype CREATION). change 0%Z with (int_of_otype ANNIHILATION).
  rewrite !make_aoc_split. destruct (make_state zoom site0 spin0 orbit0) as [s0|]; cbn [bind].
  2:{ split; [discriminate|]. intros (c & a & b & _ & H & _). discriminate. }
  destruct (make_state zoom site1 _ _) as [s1|]; cbn [bind].
  2:{ split; [discriminate|]. intros (c & a & b & _ & _ & H & _). discriminate. }
  cbn [a_state]. rewrite make_pterm_ok, state_ne_eq.
  replace (if negb (state_eq s0 s1) then Thopping else Tnumber) with (if state_eq s0 s1 then Tnumber else Thopping)
    by now destruct (state_eq s0 s1).
  split; [intros (c & -> & ->); eauto 8|].
  intros (c & a & b & -> & [= <-] & [= <-] & ->). eauto.
Qed.
Lemma Pairing_ok zoom site0 site1 spin0 spin1 orbit0 orbit1 coeff which t :
  PairingFactory zoom site0 site1 spin0 spin1 orbit0 orbit1 coeff which = Ok t <->
  exists o c s0 s1, 
    ((which = WhichH \/ which = WhichHole) /\ o = ANNIHILATION \/ (which = WhichP \/ which = WhichParticle) /\ o = CREATION) /\
    coeff = CNum c /\ make_state zoom site0 spin0 orbit0 = Ok s0 /\
    make_state zoom site1 spin1 orbit1 = Ok s1 /\
    t = MkTerm [MkAoc o s0; MkAoc o s1] c Tgeneral.
Proof.
  assert (Q : forall o, (bind (make_aoc zoom (int_of_otype o) site0 spin0 orbit0) (fun x => 
    bind (make_aoc zoom (int_of_otype o) site1 spin1 orbit1) (fun y => make_pterm [x; y] coeff (Some Tgeneral))) = Ok t <->
   exists c s0 s1, coeff = CNum c /\ make_state zoom site0 spin0 orbit0 = Ok s0 /\
    make_state zoom site1 spin1 orbit1 = Ok s1 /\ t = MkTerm [MkAoc o s0; MkAoc o s1] c Tgeneral)).
  { intros o. rewrite !make_aoc_split. destruct (make_state zoom site0 spin0 orbit0) as [s0|]; cbn [bind].
    2:{ split; [discriminate|]. intros (c & a & b & _ & H & _). discriminate. }
    destruct (make_state zoom site1 _ _) as [s1|]; cbn [bind].
    2:{ split; [discriminate|]. intros (c & a & b & _ & _ & H & _). discriminate. }
    rewrite make_pterm_ok. split; [intros (c & -> & ->); eauto 8|].
    intros (c & a & b & -> & [= <-] & [= <-] & ->). eauto. }
  destruct which; unfold PairingFactory.
  1,2: pose proof (Q ANNIHILATION) as Q'; cbn [int_of_otype] in Q'; rewrite Q';
    (split; [intros (c & a & b & H1 & H2 & H3 & H4); exists ANNIHILATION, c, a, b; auto 8|]);
    intros (o & c & a & b & [[[E|E] ->]|[[E|E] ->]] & H1 & H2 & H3 & H4); try discriminate; exists c, a, b; auto.
  1,2: pose proof (Q CREATION) as Q'; cbn [int_of_otype] in Q'; rewrite Q';
    (split; [intros (c & a & b & H1 & H2 & H3 & H4); exists CREATION, c, a, b; auto 8|]);
    intros (o & c & a & b & [[[E|E] ->]|[[E|E] ->]] & H1 & H2 & H3 & H4); try discriminate; exists c, a, b; auto.
  split; [discriminate|]. intros (o & c & a & b & [[[E|E] _]|[[E|E] _]] & _); discriminate.
Qed.
Lemma Coulomb_ok zoom site0 site1 spin0 spin1 orbit0 orbit1 coeff t :
  CoulombFactory zoom site0 site1 spin0 spin1 orbit0 orbit1 coeff = Ok t <->
  exists c s0 s1, coeff = CNum c /\ make_state zoom site0 spin0 orbit0 = Ok s0 /\
    make_state zoom site1 spin1 orbit1 = Ok s1 /\
    t = MkTerm [MkAoc CREATION s0; MkAoc ANNIHILATION s0; MkAoc CREATION s1; MkAoc ANNIHILATION s1] c TCoulomb.
Proof.
  unfold CoulombFactory. change 1%Z with (int_of_otype CREATION). change 0%Z with (int_of_otype ANNIHILATION).
  rewrite !make_aoc_split. destruct (make_state zoom site0 spin0 orbit0) as [s0|]; cbn [bind].
  2:{ split; [discriminate|]. intros (c & a & b & _ & H & _). discriminate. }
  destruct (make_state zoom site1 _ _) as [s1|]; cbn [bind].
  2:{ split; [discriminate|]. intros (c & a & b & _ & _ & H & _). discriminate. }
  rewrite make_pterm_ok. split; [intros (c & -> & ->); eauto 8|].
  intros (c & a & b & -> & [= <-] & [= <-] & ->). eauto.
Qed.
Lemma Hubbard_ok zoom site orbit coeff t :
  HubbardFactory zoom site orbit coeff = Ok t <->
  exists c up down, coeff = CNum c /\ make_state zoom site (NInt 1) orbit = Ok up /\
    make_state zoom site (NInt 0) orbit = Ok down /\
    t = MkTerm [MkAoc CREATION up; MkAoc ANNIHILATION up; MkAoc CREATION down; MkAoc ANNIHILATION down] c TCoulomb.
Proof.
  unfold HubbardFactory. change (make_aoc zoom 1) with (make_aoc zoom (int_of_otype CREATION)).
  change (make_aoc zoom 0) with (make_aoc zoom (int_of_otype ANNIHILATION)).
  rewrite !make_aoc_split. destruct (make_state zoom site (NInt 1) orbit) as [s0|]; cbn [bind].
  2:{ split; [discriminate|]. intros (c & a & b & _ & H & _). discriminate. }
  destruct (make_state zoom site (NInt 0) orbit) as [s1|]; cbn [bind].
  2:{ split; [discriminate|]. intros (c & a & b & _ & _ & H & _). discriminate. }
  rewrite make_pterm_ok. split; [intros (c & -> & ->); eauto 8|].
  intros (c & a & b & -> & [= <-] & [= <-] & ->). eauto.
Qed.
