(** C23-C26, C28, C29, C50 and C17 for spins: HamiltonianPy/quantumoperator/spinsystem.py,
    the spin factories of factory.py, and TotalSpinMatrices of averages.py. *)
From Coq Require Import String List ZArith NArith QArith Bool Arith Lia Permutation Sorted.
From Verif Require Import Py GQ Mat IndexTable_Model State_Model State_Spec State_Proofs MatrixRepr_Model Fock_Spec
  Particle_Model Particle_Proofs2 Spin_Model Spin_Spec Spin_Proofs Spin_Proofs2 Spin_Proofs3.
Import ListNotations.
Local Open Scope nat_scope.
Local Open Scope gq_scope.

(** ** Concrete data *)
Definition sid (x : Z) : siteid := MkSite [NInt x] [(default_zoom * x)%Z].
Definition sop (o : sotype) (x : Z) : spinop := MkSpin o (sid x).
Definition sites3 : list loc := [LSite (sid 0); LSite (sid 1); LSite (sid 2)].
Definition stbl : state_table :=
  match make_state_table sites3 0 with Ok t => t | Err _ => MkTable [] [] CSite 0 end.
Example stbl_made : make_state_table sites3 0 = Ok stbl.
Proof. vm_compute. reflexivity. Qed.
Example sop_built : forall o x, built_spin default_zoom (sop o x).
Proof.
  intros o x. exists (otype_name o), [NInt x]. apply make_spin_ok. exists (sid x). split; auto.
Qed.
Example sop_known : forall o, Forall (fun s => exists i, site_index stbl (so_site s) = Ok i) [sop o 0; sop SP 2; sop o 1].
Proof. intros o. repeat constructor; eexists; vm_compute; reflexivity. Qed.

(** ** C23 *)
(** matrix_function((i, otype), n) is the 2^n-dimensional matrix that acts with the
    spin-1/2 matrix on bit i and as the identity on every other bit. *)
Theorem C23_matrix_function : forall n i o, (i < n)%nat ->
  exists m, spin_matrix_function (Z.of_nat i, otype_name o) (Z.of_nat n) = Ok m /\
    s_rows m = (2 ^ n)%nat /\ s_cols m = (2 ^ n)%nat /\
    forall r c, (r < 2 ^ n)%nat -> (c < 2 ^ n)%nat ->
      ((exists p, (p < n)%nat /\ p <> i /\ Nat.testbit r p <> Nat.testbit c p) -> s_ent m r c = 0) /\
      ((forall p, (p < n)%nat -> p <> i -> Nat.testbit r p = Nat.testbit c p) ->
       s_ent m r c = half_elem o (Nat.testbit r i) (Nat.testbit c i)).
Proof.
  intros n i o Hi. destruct (single_ok n i o Hi) as (m & E & R & C & M). exists m.
  split; [exact E|]. split; [exact R|]. split; [exact C|]. intros r c Hr Hc. rewrite (M r c Hr Hc). unfold spin_at, on_site. split.
  - intros (p & Hp & Hpi & D).
    destruct (forallb _ (seq 0 n)) eqn:F; [|reflexivity]. exfalso. rewrite forallb_forall in F.
    specialize (F p (proj2 (in_seq _ _ _) (conj (Nat.le_0_l _) Hp))). apply orb_true_iff in F as [F|F].
    + apply Nat.eqb_eq in F. congruence.
    + apply eqb_prop in F. congruence.
  - intros H. replace (forallb _ (seq 0 n)) with true; [reflexivity|]. symmetry. apply forallb_forall. intros p Hp.
    apply in_seq in Hp. destruct (Nat.eqb_spec p i) as [|Hn]; [reflexivity|]. cbn. rewrite H by lia. apply eqb_reflx.
Qed.
Print Assumptions C23_matrix_function.
(** Outside the range the call raises ValueError; an unknown type, KeyError. *)
Theorem C23_matrix_function_errors : forall i n o s,
  (~ (0 <= i < n)%Z -> spin_matrix_function (i, otype_name o) n = Err ValueError) /\
  ((0 <= i)%Z -> otype_of_name s = None -> spin_matrix_function (i, s) n = Err KeyError).
Proof.
  intros i n o s. split; [apply single_err|]. intros Hi Hs. unfold spin_matrix_function. rewrite shl1_nonneg by lia.
  cbn [bind]. unfold SPIN_MATRICES. now rewrite Hs.
Qed.
Print Assumptions C23_matrix_function_errors.
(** matrix_repr with a table of n sites acts on the site's position in the table. *)
Theorem C23_matrix_repr : forall objs tbl x k,
  make_state_table objs 0 = Ok tbl -> nth_error objs k = Some (LSite (so_site x)) ->
  exists m, spin_matrix_repr tbl x = Ok m /\ represents (length objs) m (spin_at (length objs) k (so_otype x)).
Proof.
  intros objs tbl x k Ht Hk. destruct (site_facts _ _ _ Ht) as (_ & _ & _ & F & _ & _). specialize (F _ _ Hk).
  rewrite Z.add_0_l in F. assert (Kn : known tbl x) by (eexists; exact F).
  destruct (spin_repr_ok objs tbl Ht x Kn) as (m & E & R). exists m. split; [exact E|].
  unfold idx_of in R. rewrite F, Nat2Z.id in R. exact R.
Qed.
Print Assumptions C23_matrix_repr.
Example C23_example :
  match spin_matrix_repr stbl (sop SP 1) with
  | Ok m => (s_ent m 1%nat 3%nat, s_ent m 3%nat 1%nat, s_ent m 5%nat 7%nat, s_ent m 0%nat 3%nat, s_rows m) | Err _ => (g0, g0, g0, g0, O) end
  = (g1, g0, g1, g0, 8%nat).
Proof. vm_compute. reflexivity. Qed.

(** ** C24 *)
(** The matrices that matrix_function returns for one site satisfy the
    angular-momentum algebra. *)
Definition spin_mats (n : nat) (i : nat) (sx sy sz sp sm : smat) : Prop :=
  spin_matrix_function (Z.of_nat i, "x"%string) (Z.of_nat n) = Ok sx /\
  spin_matrix_function (Z.of_nat i, "y"%string) (Z.of_nat n) = Ok sy /\
  spin_matrix_function (Z.of_nat i, "z"%string) (Z.of_nat n) = Ok sz /\
  spin_matrix_function (Z.of_nat i, "p"%string) (Z.of_nat n) = Ok sp /\
  spin_matrix_function (Z.of_nat i, "m"%string) (Z.of_nat n) = Ok sm.
Lemma mats_of n i : (i < n)%nat -> exists sx sy sz sp sm, spin_mats n i sx sy sz sp sm.
Proof.
  intros H. destruct (single_ok n i SX H) as (x & Ex & _), (single_ok n i SY H) as (y & Ey & _),
    (single_ok n i SZ H) as (z & Ez & _), (single_ok n i SP H) as (p & Ep & _), (single_ok n i SM H) as (m & Em & _).
  exists x, y, z, p, m. repeat split; assumption.
Qed.
Lemma mats_eqm n i sx sy sz sp sm : (i < n)%nat -> spin_mats n i sx sy sz sp sm ->
  eqm (2 ^ n) (s_ent sx) (spin_at n i SX) /\ eqm (2 ^ n) (s_ent sy) (spin_at n i SY) /\
  eqm (2 ^ n) (s_ent sz) (spin_at n i SZ) /\ eqm (2 ^ n) (s_ent sp) (spin_at n i SP) /\
  eqm (2 ^ n) (s_ent sm) (spin_at n i SM).
Proof.
  intros H (Ex & Ey & Ez & Ep & Em).
  destruct (single_ok n i SX H) as (x & Ex' & _ & _ & Rx), (single_ok n i SY H) as (y & Ey' & _ & _ & Ry),
    (single_ok n i SZ H) as (z & Ez' & _ & _ & Rz), (single_ok n i SP H) as (p & Ep' & _ & _ & Rp),
    (single_ok n i SM H) as (m & Em' & _ & _ & Rm). cbn [otype_name] in *.
  assert (x = sx) by congruence. assert (y = sy) by congruence. assert (z = sz) by congruence.
  assert (p = sp) by congruence. assert (m = sm) by congruence. subst. repeat split; assumption.
Qed.
Theorem C24_algebra : forall n i sx sy sz sp sm, (i < n)%nat -> spin_mats n i sx sy sz sp sm ->
  let d := (2 ^ n)%nat in
  meq d d (comm d (s_ent sx) (s_ent sy)) (mscale gi (s_ent sz)) /\
  meq d d (comm d (s_ent sy) (s_ent sz)) (mscale gi (s_ent sx)) /\
  meq d d (comm d (s_ent sz) (s_ent sx)) (mscale gi (s_ent sy)) /\
  meq d d (madd (mmul d (s_ent sx) (s_ent sx)) (madd (mmul d (s_ent sy) (s_ent sy)) (mmul d (s_ent sz) (s_ent sz))))
          (mscale (mkGQ (Qcanon.Q2Qc (3 # 4)) (Qcanon.Q2Qc (inject_Z 0))) mid) /\
  meq d d (s_ent sp) (madd (s_ent sx) (mscale gi (s_ent sy))) /\
  meq d d (s_ent sm) (msub (s_ent sx) (mscale gi (s_ent sy))) /\
  meq d d (mdag (s_ent sx)) (s_ent sx) /\ meq d d (mdag (s_ent sy)) (s_ent sy) /\
  meq d d (mdag (s_ent sz)) (s_ent sz) /\ meq d d (mdag (s_ent sp)) (s_ent sm).
Proof.
  intros n i sx sy sz sp sm Hi HM d. destruct (mats_eqm _ _ _ _ _ _ _ Hi HM) as (Ex & Ey & Ez & Ep & Em).
  destruct (spin_algebra n i Hi) as (A1 & A2 & A3).
  pose proof (spin_casimir n i Hi) as Cas.
  assert (CE : forall a a' b b', eqm d a a' -> eqm d b b' -> eqm d (comm d a b) (comm d a' b')).
  { intros a a' b b' Ha Hb r c Hr Hc. unfold comm, msub.
    now rewrite (mmul_proper d a a' Ha b b' Hb r c Hr Hc), (mmul_proper d b b' Hb a a' Ha r c Hr Hc). }
  assert (DE : forall a a', eqm d a a' -> eqm d (mdag a) (mdag a')).
  { intros a a' Ha r c Hr Hc. unfold mdag. now rewrite (Ha c r Hc Hr). }
  assert (SE : forall k a a', eqm d a a' -> eqm d (mscale k a) (mscale k a')).
  { intros k a a' Ha r c Hr Hc. unfold mscale. now rewrite (Ha r c Hr Hc). }
  split; [etransitivity; [apply CE; eassumption|]; etransitivity; [exact A1|]; symmetry; now apply SE|].
  split; [etransitivity; [apply CE; eassumption|]; etransitivity; [exact A2|]; symmetry; now apply SE|].
  split; [etransitivity; [apply CE; eassumption|]; etransitivity; [exact A3|]; symmetry; now apply SE|].
  split. { intros r c Hr Hc. rewrite <- (Cas r c Hr Hc). unfold madd.
    now rewrite (mmul_proper d _ _ Ex _ _ Ex r c Hr Hc), (mmul_proper d _ _ Ey _ _ Ey r c Hr Hc), (mmul_proper d _ _ Ez _ _ Ez r c Hr Hc). }
  split. { intros r c Hr Hc. unfold madd, mscale. rewrite (Ex r c Hr Hc), (Ey r c Hr Hc), (Ep r c Hr Hc). apply (spin_ladder n i r c). }
  split. { intros r c Hr Hc. unfold msub, mscale. rewrite (Ex r c Hr Hc), (Ey r c Hr Hc), (Em r c Hr Hc). apply (spin_ladder n i r c). }
  assert (D : forall o s s', eqm d s (spin_at n i o) -> eqm d s' (spin_at n i (adj_otype o)) -> meq d d (mdag s) s').
  { intros o s s' H H' r c Hr Hc. rewrite (DE _ _ H r c Hr Hc), spin_at_dag. symmetry. now apply H'. }
  split; [now apply (D SX)|]. split; [now apply (D SY)|]. split; [now apply (D SZ)|]. now apply (D SP).
Qed.
Print Assumptions C24_algebra.
Theorem C24_different_sites_commute : forall n i j o o' a b, (i < n)%nat -> (j < n)%nat -> i <> j ->
  spin_matrix_function (Z.of_nat i, otype_name o) (Z.of_nat n) = Ok a ->
  spin_matrix_function (Z.of_nat j, otype_name o') (Z.of_nat n) = Ok b ->
  meq (2 ^ n) (2 ^ n) (mmul (2 ^ n) (s_ent a) (s_ent b)) (mmul (2 ^ n) (s_ent b) (s_ent a)).
Proof.
  intros n i j o o' a b Hi Hj Hij Ea Eb.
  destruct (single_ok n i o Hi) as (a' & Ea' & _ & _ & Ra), (single_ok n j o' Hj) as (b' & Eb' & _ & _ & Rb).
  assert (a' = a) by congruence. assert (b' = b) by congruence. subst.
  intros r c Hr Hc. rewrite (mmul_proper _ _ _ Ra _ _ Rb r c Hr Hc), (mmul_proper _ _ _ Rb _ _ Ra r c Hr Hc).
  now apply spin_at_comm_diff.
Qed.
Print Assumptions C24_different_sites_commute.
(** dagger(): the matrix of the returned operator is the conjugate transpose. *)
Theorem C24_dagger : forall objs tbl zoom x m,
  make_state_table objs 0 = Ok tbl -> built_spin zoom x -> spin_matrix_repr tbl x = Ok m ->
  exists x' m', spin_dagger zoom x = Ok x' /\ spin_matrix_repr tbl x' = Ok m' /\
    represents (length objs) m' (mdag (s_ent m)) /\ spin_dagger zoom x' = Ok x.
Proof.
  intros objs tbl zoom x m Ht Hb Em. pose proof (spin_dagger_ok zoom x Hb) as D.
  exists (adj_op x). assert (Kn : known tbl x).
  { unfold spin_matrix_repr in Em. destruct (site_index tbl (so_site x)) as [i|] eqn:E; [|discriminate]. eexists; exact E. }
  destruct (spin_repr_ok objs tbl Ht x Kn) as (m0 & E0 & _ & _ & R0). assert (m0 = m) by congruence. subst m0.
  destruct (spin_repr_ok objs tbl Ht (adj_op x) (proj1 (known_adj tbl x) Kn)) as (m' & E' & R1 & R2 & R').
  exists m'. split; [exact D|]. split; [exact E'|]. split.
  - split; [exact R1|]. split; [exact R2|]. intros r c Hr Hc. rewrite (R' r c Hr Hc). unfold mdag. rewrite (R0 c r Hc Hr).
    symmetry. apply (spin_at_dag (length objs) (idx_of tbl x) (so_otype x) r c).
  - rewrite (spin_dagger_ok zoom (adj_op x)) by (now apply built_adj). cbn. rewrite adj_otype_invol. now destruct x.
Qed.
Print Assumptions C24_dagger.
(** conjugate_of: the other operator has the adjoint type on the same site; same_site:
    the same quantised coordinates; both return a bool for every SpinOperator and raise
    TypeError for anything else. *)
Theorem C24_predicates : forall zoom x y, built_spin zoom x ->
  (exists b, spin_conjugate_of zoom x (Some y) = Ok b /\
     (b = true <-> so_otype y = adj_otype (so_otype x) /\ s_form (so_site y) = s_form (so_site x))) /\
  (exists b, same_site x (Some y) = Ok b /\ (b = true <-> s_form (so_site x) = s_form (so_site y))) /\
  spin_conjugate_of zoom x None = Err TypeError /\ same_site x None = Err TypeError.
Proof.
  intros zoom x y Hb. split; [|split; [|split; reflexivity]].
  - unfold spin_conjugate_of. rewrite (spin_dagger_ok zoom x Hb). cbn [bind]. eexists. split; [reflexivity|].
    unfold spin_eq. rewrite spin_form_eq. pose proof (scompare_eq (MkSpin (adj_otype (so_otype x)) (so_site x)) y) as E. unfold same_spin in E. cbn [so_otype so_site] in E.
    destruct (scompare _ y); (split; [intros X|intros [X1 X2]]); try discriminate; try reflexivity.
    + destruct (proj1 E eq_refl). auto.
    + exfalso. assert (Lt = Eq) by (apply E; auto). discriminate.
    + exfalso. assert (Gt = Eq) by (apply E; auto). discriminate.
  - cbn [same_site]. eexists. split; [reflexivity|]. exact (Particle_Proofs2.py_eq_iff (LSite (so_site x)) (LSite (so_site y))).
Qed.
Print Assumptions C24_predicates.
Example C24_example : exists sx sy sz sp sm, spin_mats 3%nat 1%nat sx sy sz sp sm.
Proof. apply mats_of. lia. Qed.

(** ** C25 *)
(** matrix_function(operators, total_spin, coeff) for operators given in any
    order, with any repeats: coeff times the product in the given order. *)
Theorem C25_matrix_function : forall n w c, (0 < n)%nat -> Forall (fun p => (fst p < n)%nat) w ->
  exists m, inter_matrix_function (map (fun p => (Z.of_nat (fst p), otype_name (snd p))) w) (NInt (Z.of_nat n)) (CNum c) = Ok m /\
    represents n m (mscale c (spin_word n w)).
Proof. exact inter_fun_ok. Qed.
Print Assumptions C25_matrix_function.
(** The same statement in terms of the matrices of the single operators that
    SpinOperator.matrix_function returns. *)
Theorem C25_product_of_matrices : forall n w ms c, (0 < n)%nat -> Forall (fun p => (fst p < n)%nat) w ->
  Forall2 (fun p m => spin_matrix_function (Z.of_nat (fst p), otype_name (snd p)) (Z.of_nat n) = Ok m) w ms ->
  exists m, inter_matrix_function (map (fun p => (Z.of_nat (fst p), otype_name (snd p))) w) (NInt (Z.of_nat n)) (CNum c) = Ok m /\
    represents n m (mscale c (fold_right (fun a b => mmul (2 ^ n) (s_ent a) b) mid ms)).
Proof.
  intros n w ms c Hn Hw HF. destruct (inter_fun_ok n w c Hn Hw) as (m & E & R1 & R2 & R). exists m.
  split; [exact E|]. split; [exact R1|]. split; [exact R2|]. etransitivity; [exact R|]. clear E R R1 R2 m.
  intros r k Hr Hk. unfold mscale. f_equal. revert r k Hr Hk.
  induction HF as [|p m w ms Hp HF IH]; [reflexivity|].
  inversion Hw as [|? ? Hp' Hw']; subst. specialize (IH Hw'). cbn [fold_right]. rewrite spin_word_cons.
  destruct (single_ok n (fst p) (snd p) Hp') as (m' & Em & _ & _ & R). assert (m' = m) by congruence. subst m'.
  apply mmul_proper; [|exact IH]. symmetry. exact R.
Qed.
Print Assumptions C25_product_of_matrices.
(** What is rejected: a coefficient that is not a number or a spin count that is
    not a positive integer (AssertionError); an index out of range (ValueError). *)
Theorem C25_rejects : forall ops total coeff,
  (coeff = CBad \/ (forall n, total = NInt n -> (n <= 0)%Z)) -> inter_matrix_function ops total coeff = Err AssertionError.
Proof.
  intros ops total coeff [->|H].
  - destruct total as [n| |]; try reflexivity. cbn. now destruct (0 <? n)%Z.
  - destruct total as [n| |]; try reflexivity. specialize (H n eq_refl). cbn.
    destruct (Z.ltb_spec 0 n) as [Hn|]; [lia|reflexivity].
Qed.
Print Assumptions C25_rejects.
Theorem C25_out_of_range : forall ops n c, (0 < n)%Z ->
  Forall (fun p => exists o, snd p = otype_name o) ops ->
  Exists (fun p => ~ (0 <= fst p < n)%Z) ops ->
  inter_matrix_function ops (NInt n) (CNum c) = Err ValueError.
Proof. exact inter_fun_range. Qed.
Print Assumptions C25_out_of_range.
(** A same-site product (generic path, order matters) and the fast path. *)
Example C25_example :
  (match inter_matrix_function [(0%Z, "p"%string); (0%Z, "m"%string)] (NInt 2) (CNum (gz 3)) with
   | Ok m => (s_ent m 0%nat 0%nat, s_ent m 1%nat 1%nat) | Err _ => (g0, g0) end) = (gz 3, g0) /\
  (match inter_matrix_function [(0%Z, "m"%string); (0%Z, "p"%string)] (NInt 2) (CNum (gz 3)) with
   | Ok m => (s_ent m 0%nat 0%nat, s_ent m 1%nat 1%nat) | Err _ => (g0, g0) end) = (g0, gz 3) /\
  (match inter_matrix_function [(0%Z, "p"%string); (2%Z, "m"%string)] (NInt 3) (CNum (gz 3)) with
   | Ok m => (s_ent m 4%nat 1%nat, s_ent m 6%nat 3%nat, s_ent m 1%nat 4%nat) | Err _ => (g0, g0, g0) end) = (gz 3, gz 3, g0).
Proof. vm_compute. repeat split. Qed.

(** ** C26 *)
(** The constructor sorts by site; it permutes the operators, keeps the
    relative order of the operators of one site, and keeps the coefficient. *)
Theorem C26_constructor : forall ops c t, make_inter ops (CNum c) = Ok t ->
  Permutation ops (i_ops t) /\
  StronglySorted (fun x y => ~ lex_lt (s_form (so_site y)) (s_form (so_site x))) (i_ops t) /\
  (forall s, filter (fun x => py_eq (LSite (so_site x)) (LSite s)) (i_ops t) =
             filter (fun x => py_eq (LSite (so_site x)) (LSite s)) ops) /\
  i_coeff t = c.
Proof. exact make_inter_sorted. Qed.
Print Assumptions C26_constructor.
(** Sorting does not change the operator: matrix_repr is the coefficient times
    the product of the operators in the order given to the constructor. *)
Theorem C26_constructor_matrix : forall objs tbl ops c w,
  make_state_table objs 0 = Ok tbl -> Forall2 (op_index tbl) ops w ->
  exists t m, make_inter ops (CNum c) = Ok t /\ fst (inter_matrix_repr tbl t None) = Ok m /\
    represents (length objs) m (mscale c (spin_word (length objs) w)).
Proof.
  intros objs tbl ops c w Ht HF. assert (Kn : Forall (known tbl) ops /\ pairs_of tbl ops = w).
  { induction HF as [|x p ops w [H1 H2] _ [IH1 IH2]]; [repeat constructor|]. split; [constructor; [eexists; exact H1|exact IH1]|].
    change (pairs_of tbl (x :: ops)) with ((idx_of tbl x, so_otype x) :: pairs_of tbl ops). rewrite IH2. f_equal.
    unfold idx_of. rewrite H1, Nat2Z.id, <- H2. now destruct p. }
  destruct Kn as [Kn <-]. destruct (make_inter ops (CNum c)) as [t|] eqn:E; [|discriminate].
  destruct (inter_matrix_word objs tbl ops c t Ht Kn E) as (m & Em & R). exists t, m. repeat split; auto; apply R.
Qed.
Print Assumptions C26_constructor_matrix.
(** Multiplication of operators, interactions and numbers. *)
Theorem C26_product : forall objs tbl x y mx my, make_state_table objs 0 = Ok tbl ->
  spin_known tbl x -> spin_known tbl y ->
  spin_matrix_of (length objs) tbl x mx -> spin_matrix_of (length objs) tbl y my ->
  exists z mz, spin_py_mul x y = Ok z /\ spin_matrix_of (length objs) tbl z mz /\
    meq (2 ^ length objs) (2 ^ length objs) mz (mmul (2 ^ length objs) mx my).
Proof. exact smul_matrix. Qed.
Print Assumptions C26_product.
Theorem C26_foreign_operand : forall x y, x = SForeign \/ y = SForeign -> spin_py_mul x y = Err TypeError.
Proof. exact smul_foreign. Qed.
Print Assumptions C26_foreign_operand.
(** dagger: the conjugate transpose, and an involution. *)
Theorem C26_dagger_matrix : forall objs tbl zoom t m, make_state_table objs 0 = Ok tbl ->
  Forall (built_spin zoom) (i_ops t) -> spin_known tbl (SInter t) ->
  fst (inter_matrix_repr tbl t None) = Ok m ->
  exists t' m', inter_dagger zoom t = Ok t' /\ fst (inter_matrix_repr tbl t' None) = Ok m' /\
    represents (length objs) m' (mdag (s_ent m)).
Proof. exact dagger_inter_matrix. Qed.
Print Assumptions C26_dagger_matrix.
Theorem C26_dagger_involution : forall zoom t ops c t', Forall (built_spin zoom) ops -> make_inter ops (CNum c) = Ok t ->
  inter_dagger zoom t = Ok t' -> inter_dagger zoom t' = Ok t.
Proof. exact inter_dagger_twice. Qed.
Print Assumptions C26_dagger_involution.
Example C26_example :
  (match spin_py_mul (SOp (sop SP 2)) (SOp (sop SM 0)) with Ok (SInter t) => i_ops t | _ => [] end) = [sop SM 0; sop SP 2] /\
  (match spin_py_mul (SOp (sop SP 1)) (SOp (sop SM 1)) with Ok (SInter t) => i_ops t | _ => [] end) = [sop SP 1; sop SM 1] /\
  spin_known stbl (SInter (MkInter [sop SP 1; sop SM 1] gi)) /\
  inter_dagger default_zoom (MkInter [sop SP 1; sop SP 1; sop SX 2] gi) = Ok (MkInter [sop SM 1; sop SM 1; sop SX 2] (gopp gi)).
Proof. vm_compute. repeat split; repeat constructor; eexists; reflexivity. Qed.

(** ** C28 *)
(** The number of sites the table maps is n; [k0], [k1] are the positions of the
    two sites. *)
Definition sites_at (zoom : Z) (tbl : state_table) (site0 site1 : list pynum) (k0 k1 : nat) : Prop :=
  exists s0 s1, make_site zoom site0 = Ok s0 /\ make_site zoom site1 = Ok s1 /\
    site_index tbl s0 = Ok (Z.of_nat k0) /\ site_index tbl s1 = Ok (Z.of_nat k1).
Theorem C28_two_spin : forall objs tbl zoom site0 site1 k0 k1 o0 o1 c,
  make_state_table objs 0 = Ok tbl -> sites_at zoom tbl site0 site1 k0 k1 ->
  In o0 [SX; SY; SZ] -> In o1 [SX; SY; SZ] ->
  let n := length objs in
  exists t m, TwoSpinTermFactory zoom site0 site1 (otype_name o0) (otype_name o1) (CNum c) = Ok t /\
    fst (inter_matrix_repr tbl t None) = Ok m /\
    represents n m (mscale c (mmul (2 ^ n) (spin_at n k0 o0) (spin_at n k1 o1))).
Proof.
  intros objs tbl zoom site0 site1 k0 k1 o0 o1 c Ht (s0 & s1 & E0 & E1 & I0 & I1) H0 H1 n.
  assert (X : forall o, In o [SX; SY; SZ] -> o = SX \/ o = SY \/ o = SZ) by (cbn; intuition congruence).
  destruct (make_inter [MkSpin o0 s0; MkSpin o1 s1] (CNum c)) as [t|] eqn:E; [|discriminate].
  destruct (two_spin_matrix objs tbl s0 s1 k0 k1 o0 o1 c t Ht I0 I1 E) as (m & Em & R). exists t, m.
  split; [|split; assumption]. apply Two_ok. exists o0, o1, s0, s1, c. repeat split; auto.
Qed.
Print Assumptions C28_two_spin.
Theorem C28_ising : forall objs tbl zoom site0 site1 k0 k1 o c,
  make_state_table objs 0 = Ok tbl -> sites_at zoom tbl site0 site1 k0 k1 -> In o [SX; SY; SZ] ->
  let n := length objs in
  exists t m, IsingFactory zoom site0 site1 (otype_name o) (CNum c) = Ok t /\
    fst (inter_matrix_repr tbl t None) = Ok m /\
    represents n m (mscale c (mmul (2 ^ n) (spin_at n k0 o) (spin_at n k1 o))).
Proof. intros. rewrite Ising_Two. now apply C28_two_spin. Qed.
Print Assumptions C28_ising.
(** The three returned interactions sum to c (S0x S1x + S0y S1y + S0z S1z). *)
Theorem C28_heisenberg : forall objs tbl zoom site0 site1 k0 k1 c,
  make_state_table objs 0 = Ok tbl -> sites_at zoom tbl site0 site1 k0 k1 ->
  let n := length objs in let d := (2 ^ n)%nat in
  exists t0 t1 t2 m0 m1 m2, HeisenbergFactory zoom site0 site1 (CNum c) = Ok [t0; t1; t2] /\
    fst (inter_matrix_repr tbl t0 None) = Ok m0 /\ fst (inter_matrix_repr tbl t1 None) = Ok m1 /\
    fst (inter_matrix_repr tbl t2 None) = Ok m2 /\
    meq d d (madd (s_ent m0) (madd (s_ent m1) (s_ent m2)))
      (mscale c (madd (mmul d (spin_at n k0 SX) (spin_at n k1 SX))
                (madd (mmul d (spin_at n k0 SY) (spin_at n k1 SY)) (mmul d (spin_at n k0 SZ) (spin_at n k1 SZ))))).
Proof.
  intros objs tbl zoom site0 site1 k0 k1 c Ht (s0 & s1 & E0 & E1 & I0 & I1) n d.
  destruct (make_inter [MkSpin SZ s0; MkSpin SZ s1] (CNum c)) as [t0|] eqn:F0; [|discriminate].
  destruct (make_inter [MkSpin SP s0; MkSpin SM s1] (CNum (c * ghalf))) as [t1|] eqn:F1; [|discriminate].
  destruct (make_inter [MkSpin SM s0; MkSpin SP s1] (CNum (c * ghalf))) as [t2|] eqn:F2; [|discriminate].
  destruct (two_spin_matrix objs tbl s0 s1 k0 k1 _ _ _ t0 Ht I0 I1 F0) as (m0 & G0 & _ & _ & R0).
  destruct (two_spin_matrix objs tbl s0 s1 k0 k1 _ _ _ t1 Ht I0 I1 F1) as (m1 & G1 & _ & _ & R1).
  destruct (two_spin_matrix objs tbl s0 s1 k0 k1 _ _ _ t2 Ht I0 I1 F2) as (m2 & G2 & _ & _ & R2).
  exists t0, t1, t2, m0, m1, m2. split; [|repeat split; auto].
  - apply Heis_ok. exists s0, s1, c. repeat split; auto. exists t0, t1, t2. auto.
  - etransitivity; [|exact (heisenberg_identity n k0 k1 c)]. intros r k Hr Hk. unfold madd.
    now rewrite (R0 r k Hr Hk), (R1 r k Hr Hk), (R2 r k Hr Hk).
Qed.
Print Assumptions C28_heisenberg.
(** Operator types other than x, y, z are rejected. *)
Theorem C28_rejects : forall zoom site0 site1 a0 a1 coeff t,
  TwoSpinTermFactory zoom site0 site1 a0 a1 coeff = Ok t ->
  (a0 = "x" \/ a0 = "y" \/ a0 = "z")%string /\ (a1 = "x" \/ a1 = "y" \/ a1 = "z")%string.
Proof.
  intros zoom site0 site1 a0 a1 coeff t H. apply Two_ok in H as (o0 & o1 & s0 & s1 & c & -> & -> & H0 & H1 & _).
  split; [destruct H0 as [->|[->| ->]]|destruct H1 as [->|[->| ->]]]; cbn; auto.
Qed.
Print Assumptions C28_rejects.
Example C28_example : sites_at default_zoom stbl [NInt 2] [NInt 0] 2%nat 0%nat.
Proof. exists (sid 2), (sid 0). vm_compute. repeat split. Qed.

(** ** C29 *)
(** For every n > 0 the three matrices are the total Sx, the imaginary part of
    the total Sy (Sy = i times it), and the total Sz. *)
Theorem C29_total_spin : forall n, (0 < n)%nat -> exists sx sy sz,
  TotalSpinMatrices (NInt (Z.of_nat n)) = Ok (Some sx, Some sy, Some sz) /\
  represents n sx (total_spin n SX) /\
  (s_rows sy = (2 ^ n)%nat /\ s_cols sy = (2 ^ n)%nat /\
   meq (2 ^ n) (2 ^ n) (mscale gi (s_ent sy)) (total_spin n SY)) /\
  represents n sz (total_spin n SZ).
Proof. exact TotalSpin_ok. Qed.
Print Assumptions C29_total_spin.
(** They satisfy the algebra, and the square of the total spin, which in terms
    of the returned matrices is Sx Sx - Sy' Sy' + Sz Sz, commutes with each. *)
Theorem C29_algebra : forall n sx sy sz, (0 < n)%nat ->
  TotalSpinMatrices (NInt (Z.of_nat n)) = Ok (Some sx, Some sy, Some sz) ->
  let d := (2 ^ n)%nat in let X := s_ent sx in let Y := mscale gi (s_ent sy) in let Z := s_ent sz in
  let S2 := msub (madd (mmul d X X) (mmul d Z Z)) (mmul d (s_ent sy) (s_ent sy)) in
  meq d d (comm d X Y) (mscale gi Z) /\ meq d d (comm d Y Z) (mscale gi X) /\ meq d d (comm d Z X) (mscale gi Y) /\
  meq d d (comm d S2 X) mzero /\ meq d d (comm d S2 Y) mzero /\ meq d d (comm d S2 Z) mzero.
Proof.
  intros n sx sy sz Hn E d X Y Z S2.
  destruct (TotalSpin_ok n Hn) as (sx' & sy' & sz' & E' & (_ & _ & RX) & (_ & _ & RY) & (_ & _ & RZ)).
  rewrite E' in E. injection E as -> -> ->. fold d in RX, RY, RZ. fold X in RX. fold Y in RY. fold Z in RZ.
  assert (CE : forall a a' b b', eqm d a a' -> eqm d b b' -> eqm d (comm d a b) (comm d a' b')).
  { intros a a' b b' Ha Hb r c Hr Hc. unfold comm, msub.
    now rewrite (mmul_proper d a a' Ha b b' Hb r c Hr Hc), (mmul_proper d b b' Hb a a' Ha r c Hr Hc). }
  assert (SE : forall k a a', eqm d a a' -> eqm d (mscale k a) (mscale k a')).
  { intros k a a' Ha r c Hr Hc. unfold mscale. now rewrite (Ha r c Hr Hc). }
  assert (R2 : eqm d S2 (total_s2 n)).
  { intros r c Hr Hc. unfold S2, total_s2, madd, msub. fold d.
    rewrite <- (mmul_proper d _ _ RX _ _ RX r c Hr Hc), <- (mmul_proper d _ _ RY _ _ RY r c Hr Hc),
            <- (mmul_proper d _ _ RZ _ _ RZ r c Hr Hc). unfold Y. rewrite mmul_scale_l. unfold mscale at 1. rewrite mmul_scale_r.
    unfold mscale. assert (I2 : gi * gi = gopp g1) by (apply gq_eq; apply Qcanon.Qc_is_canon; reflexivity).
    replace (gi * (gi * mmul d (s_ent sy) (s_ent sy) r c)) with ((gi * gi) * mmul d (s_ent sy) (s_ent sy) r c) by ring.
    rewrite I2. ring. }
  destruct (total_algebra n) as (A1 & A2 & A3).
  split; [etransitivity; [apply CE; eassumption|]; etransitivity; [exact A1|]; symmetry; now apply SE|].
  split; [etransitivity; [apply CE; eassumption|]; etransitivity; [exact A2|]; symmetry; now apply SE|].
  split; [etransitivity; [apply CE; eassumption|]; etransitivity; [exact A3|]; symmetry; now apply SE|].
  split; [etransitivity; [apply CE; eassumption|]; apply total_s2_comm; auto|].
  split; [etransitivity; [apply CE; eassumption|]; apply total_s2_comm; auto|].
  etransitivity; [apply CE; eassumption|]; apply total_s2_comm; auto.
Qed.
Print Assumptions C29_algebra.
(** Any other argument raises AssertionError. *)
Theorem C29_rejects : forall v, (forall n, v = NInt n -> (n <= 0)%Z) -> TotalSpinMatrices v = Err AssertionError.
Proof.
  intros [n| |] H; try reflexivity. specialize (H n eq_refl). cbn. destruct (Z.ltb_spec 0 n); [lia|reflexivity].
Qed.
Print Assumptions C29_rejects.
Example C29_example :
  match TotalSpinMatrices (NInt 2) with
  | Ok (Some sx, Some sy, Some sz) =>
      [geqb (s_ent sx 0%nat 1%nat) ghalf; geqb (s_ent sy 1%nat 0%nat) ghalf; geqb (s_ent sz 0%nat 0%nat) g1;
       geqb (s_ent sz 3%nat 3%nat) (gopp g1); geqb (s_ent sz 1%nat 1%nat) g0; Nat.eqb (s_rows sx) 4]
  | _ => [] end = [true; true; true; true; true; true].
Proof. vm_compute. reflexivity. Qed.

(** ** C17, SpinInteraction *)
Theorem C17_spin_coefficient_persists : forall ks t,
  snd (do_icalls t ks) = MkInter (i_ops t) (last_igiven (i_coeff t) ks).
Proof. exact do_icalls_state. Qed.
Print Assumptions C17_spin_coefficient_persists.
(** A matrix_repr call anywhere in a history returns what a fresh interaction
    carrying the most recent coefficient (its own argument included) returns. *)
Theorem C17_spin_each_call : forall t pre tbl c post,
  nth_error (fst (do_icalls t (pre ++ IMatrixRepr tbl c :: post))) (length pre) =
  Some (Some (match c with
              | Some CBad => Err AssertionError
              | _ => fst (inter_matrix_repr tbl (MkInter (i_ops t) (last_igiven (i_coeff t) (pre ++ [IMatrixRepr tbl c]))) None)
              end)).
Proof. exact ihistory. Qed.
Print Assumptions C17_spin_each_call.
Theorem C17_spin_scaled : forall objs tbl t m, make_state_table objs 0 = Ok tbl -> spin_known tbl (SInter t) ->
  fst (inter_matrix_repr tbl t None) = Ok m ->
  exists m1, fst (inter_matrix_repr tbl (MkInter (i_ops t) g1) None) = Ok m1 /\
    represents (length objs) m (mscale (i_coeff t) (s_ent m1)).
Proof.
  intros objs tbl t m Ht Hk E. destruct (inter_repr_ok objs tbl Ht t Hk) as (m' & E' & R1 & R2 & R).
  assert (m' = m) by congruence. subst m'.
  destruct (inter_repr_ok objs tbl Ht (MkInter (i_ops t) g1) Hk) as (m1 & E1 & _ & _ & R3).
  exists m1. split; [exact E1|]. split; [exact R1|]. split; [exact R2|]. intros r c Hr Hc. rewrite (R r c Hr Hc).
  unfold mscale. rewrite (R3 r c Hr Hc). unfold mscale. cbn [i_coeff i_ops]. ring.
Qed.
Print Assumptions C17_spin_scaled.
Example C17_spin_example :
  map (option_map (fun r => match r with Ok m => Some (s_ent m 1%nat 2%nat) | Err _ => None end))
   (fst (do_icalls (MkInter [sop SP 1; sop SM 0] g1)
     [IMatrixRepr stbl (Some (CNum (gz 5))); IMatrixRepr stbl (Some CBad); IMatrixRepr stbl None; ISetCoeff (CNum gi); IMatrixRepr stbl None]))
  = [Some (Some (gz 5)); Some None; Some (Some (gz 5)); None; Some (Some gi)].
Proof. vm_compute. reflexivity. Qed.

(** ** C50 *)
(** Comparisons of spin operators: by type name ("m" < "p" < "x" < "y" < "z"),
    then by quantised coordinates; total, consistent with == and with the hash. *)
Theorem C50_order : forall x y,
  (spin_eq x y = true <-> same_spin x y) /\ (spin_ne x y = negb (spin_eq x y)) /\
  (spin_cmp CLt x y = Ok true <-> spin_key_lt x y) /\
  (spin_cmp CLe x y = Ok true <-> spin_key_lt x y \/ same_spin x y) /\
  (spin_cmp CGt x y = Ok true <-> spin_key_lt y x) /\
  (spin_cmp CGe x y = Ok true <-> spin_key_lt y x \/ same_spin x y) /\
  (forall o, exists b, spin_cmp o x y = Ok b) /\
  (spin_key_lt x y \/ same_spin x y \/ spin_key_lt y x) /\ ~ (spin_key_lt x y /\ spin_key_lt y x) /\
  (spin_hash_key x = spin_hash_key y <-> spin_eq x y = true).
Proof. exact spin_order. Qed.
Print Assumptions C50_order.
Theorem C50_transitive : forall x y z, spin_key_lt x y -> spin_key_lt y z -> spin_key_lt x z.
Proof. exact spin_key_lt_trans. Qed.
Print Assumptions C50_transitive.
Example C50_example : spin_cmp CLt (sop SM 5) (sop SP 0) = Ok true /\ spin_cmp CLt (sop SZ 0) (sop SZ 1) = Ok true /\
  spin_cmp CLt (sop SX 0) (sop SP 3) = Ok false.
Proof. vm_compute. auto. Qed.
