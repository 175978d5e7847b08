(** Matrices of spin operators and interactions. *)
From Coq Require Import List ZArith NArith Bool Arith String Lia Ring Setoid Morphisms Permutation.
From Verif Require Import Py GQ Mat IndexTable_Model IndexTable_Spec IndexTable_Proofs State_Model State_Spec State_Proofs
  MatrixRepr_Model Fock_Spec Particle_Model Particle_Spec Particle_Proofs Particle_Proofs2 Spin_Model Spin_Spec Spin_Proofs.
Import ListNotations.
Local Open Scope nat_scope.
Local Open Scope gq_scope.

(** ** One operator *)
Lemma otype_roundtrip o : otype_of_name (otype_name o) = Some o.
Proof. now destruct o. Qed.
Lemma otype_name_inj o o' : otype_name o = otype_name o' -> o = o'.
Proof. now destruct o, o'. Qed.
Lemma SPIN_MATRICES_ok o : SPIN_MATRICES (otype_name o) = Ok (SPIN_MATRIX o).
Proof. unfold SPIN_MATRICES. now rewrite otype_roundtrip. Qed.
Lemma otype_of_name_inv s o : otype_of_name s = Some o -> s = otype_name o.
Proof.
  unfold otype_of_name. intros H.
  repeat match type of H with
  | (if String.eqb ?a ?b then _ else _) = _ => destruct (String.eqb_spec a b) as [->|]; [injection H as <-; reflexivity|]
  end. discriminate.
Qed.
Lemma SPIN_MATRIX_dims o : s_rows (SPIN_MATRIX o) = 2%nat /\ s_cols (SPIN_MATRIX o) = 2%nat.
Proof. destruct o; split; reflexivity. Qed.
Lemma SPIN_MATRIX_ent o : meq 2 2 (s_ent (SPIN_MATRIX o)) (bmat (half_elem o)).
Proof.
  intros i j Hi Hj. destruct i as [|[|i]]; [| |lia]; (destruct j as [|[|j]]; [| |lia]);
    destruct o; cbn; apply gq_eq; apply Qcanon.Qc_is_canon; reflexivity.
Qed.
Lemma shl1_ok k : shl1 (Z.of_nat k) = Ok (2 ^ k)%nat.
Proof. unfold shl1. destruct (Z.ltb_spec (Z.of_nat k) 0); [lia|]. now rewrite Nat2Z.id. Qed.
Lemma shl1_nonneg k : (0 <= k)%Z -> shl1 k = Ok (2 ^ Z.to_nat k)%nat.
Proof. intros H. unfold shl1. destruct (Z.ltb_spec k 0); [lia|reflexivity]. Qed.
Lemma shl1_neg k : (k < 0)%Z -> shl1 k = Err ValueError.
Proof. intros H. unfold shl1. destruct (Z.ltb_spec k 0); [reflexivity|lia]. Qed.

Lemma single_ok n i o : (i < n)%nat ->
  exists m, spin_matrix_function (Z.of_nat i, otype_name o) (Z.of_nat n) = Ok m /\ represents n m (spin_at n i o).
Proof.
  intros Hi. unfold spin_matrix_function. rewrite shl1_ok, SPIN_MATRICES_ok.
  replace (Z.of_nat n - Z.of_nat i - 1)%Z with (Z.of_nat (n - i - 1)) by lia. rewrite shl1_ok. cbn [bind].
  eexists. split; [reflexivity|]. destruct (SPIN_MATRIX_dims o) as [D1 D2].
  unfold represents, kron. cbn [s_rows s_cols s_ent identity]. rewrite D1, D2.
  rewrite <- (pow_split n i Hi). split; [reflexivity|split; [reflexivity|]].
  transitivity (emb i (s_ent (SPIN_MATRIX o))).
  { intros r c _ _. reflexivity. }
  unfold spin_at. intros r c Hr Hc. rewrite <- (emb_bits n i (half_elem o) Hi r c Hr Hc).
  rewrite (pow_split n i Hi) in Hr, Hc. unfold emb.
  refine (kr_ext _ _ _ _ _ _ (pow2_nz i) _ _ r c Hr Hc); [intros ? ? ? ?; reflexivity|].
  apply kr_ext; [auto|apply SPIN_MATRIX_ent|intros ? ? ? ?; reflexivity].
Qed.
Lemma single_err index n o : ~ (0 <= index < n)%Z -> spin_matrix_function (index, otype_name o) n = Err ValueError.
Proof.
  intros H. unfold spin_matrix_function. destruct (Z.ltb_spec index 0) as [L|L].
  - now rewrite shl1_neg.
  - rewrite shl1_nonneg, SPIN_MATRICES_ok by auto. cbn [bind]. rewrite shl1_neg by lia. reflexivity.
Qed.
Lemma single_same op n : single op n = spin_matrix_function op n.
Proof. reflexivity. Qed.

(** ** Stable sorting by adjacent swaps *)
Section Sort.
  Context {A : Type}.
  Variable less : A -> A -> bool.
  Inductive swaps : list A -> list A -> Prop :=
  | sw_refl l : swaps l l
  | sw_step u x y v l : less y x = true -> swaps (u ++ y :: x :: v) l -> swaps (u ++ x :: y :: v) l.
  Lemma swaps_trans l m k : swaps l m -> swaps m k -> swaps l k.
  Proof. induction 1; auto. intros. econstructor; eauto. Qed.
  Lemma swaps_cons a l m : swaps l m -> swaps (a :: l) (a :: m).
  Proof. induction 1 as [|u x y v l H HS IH]; [constructor|]. apply (sw_step (a :: u)); auto. Qed.
  Lemma insert_swaps x l : swaps (x :: l) (insert_sorted less x l).
  Proof.
    induction l as [|y l IH]; cbn; [constructor|]. destruct (less y x) eqn:E; [|constructor].
    apply (sw_step []); auto. now apply swaps_cons.
  Qed.
  Lemma sort_swaps l : swaps l (stable_sort less l).
  Proof.
    induction l as [|x l IH]; cbn; [constructor|].
    eapply swaps_trans; [apply swaps_cons, IH|apply insert_swaps].
  Qed.
  Lemma swaps_perm l m : swaps l m -> Permutation l m.
  Proof.
    induction 1 as [|u x y v l H HS IH]; [reflexivity|]. rewrite <- IH. apply Permutation_app_head. constructor.
  Qed.
  Lemma sort_perm l : Permutation l (stable_sort less l).
  Proof. apply swaps_perm, sort_swaps. Qed.
  Lemma swaps_filter p l m : (forall x y, less y x = true -> p x && p y = false) -> swaps l m -> filter p l = filter p m.
  Proof.
    intros Hp. induction 1 as [|u x y v l H HS IH]; [reflexivity|]. rewrite <- IH, !filter_app. f_equal. cbn.
    apply Hp in H. destruct (p x), (p y); try discriminate; reflexivity.
  Qed.
  Variable trans : forall x y z, less y x = false -> less z y = false -> less z x = false.
  Variable asym : forall x y, less x y = true -> less y x = false.
  Definition in_order (l : list A) : Prop := Sorted.StronglySorted (fun x y => less y x = false) l.
  Lemma insert_order x l : in_order l -> in_order (insert_sorted less x l).
  Proof.
    induction 1 as [|y l HS IH HF]; cbn.
    - repeat constructor.
    - destruct (less y x) eqn:E.
      + constructor; auto. pose proof (swaps_perm _ _ (insert_swaps x l)) as P.
        eapply Permutation_Forall; [exact P|]. constructor; auto.
      + constructor; [now constructor|]. constructor; auto.
        eapply Forall_impl; [|exact HF]. intros z Hz. eapply trans; eauto.
  Qed.
  Lemma sort_order l : in_order (stable_sort less l).
  Proof. induction l; cbn; [constructor|now apply insert_order]. Qed.
End Sort.

(** ** Products *)
Lemma spin_word_cons n p w : spin_word n (p :: w) = mmul (2 ^ n) (spin_at n (fst p) (snd p)) (spin_word n w).
Proof. reflexivity. Qed.
Lemma spin_word_app n u v : eqm (2 ^ n) (spin_word n (u ++ v)) (mmul (2 ^ n) (spin_word n u) (spin_word n v)).
Proof.
  induction u as [|p u IH]; cbn [app].
  - cbn. now rewrite mmul_1l.
  - rewrite !spin_word_cons, IH, mmul_A. reflexivity.
Qed.
Lemma spin_word_swap n u x y v : (fst x < n)%nat -> (fst y < n)%nat -> fst x <> fst y ->
  eqm (2 ^ n) (spin_word n (u ++ x :: y :: v)) (spin_word n (u ++ y :: x :: v)).
Proof.
  intros Hx Hy Hn. rewrite !spin_word_app, !spin_word_cons. rewrite <- !mmul_A.
  rewrite !(mmul_A _ (spin_word n u)). rewrite (spin_at_comm_diff n (fst x) (fst y)) by auto. reflexivity.
Qed.

Lemma generic_ok n w m0 e0 : Forall (fun p => (fst p < n)%nat) w -> represents n m0 e0 ->
  exists m, fold_left (fun (acc : res smat) op => bind acc (fun r => bind (single op (Z.of_nat n)) (fun m => dot r m)))
              (map (fun p => (Z.of_nat (fst p), otype_name (snd p))) w) (Ok m0) = Ok m /\
    represents n m (mmul (2 ^ n) e0 (spin_word n w)).
Proof.
  revert m0 e0. induction w as [|[i o] w IH]; intros m0 e0 HF H0.
  - exists m0. split; [reflexivity|]. destruct H0 as (A & B & C). split; [|split]; auto.
    cbn. change (eqm (2 ^ n) (s_ent m0) (mmul (2 ^ n) e0 mid)). rewrite mmul_1r. exact C.
  - inversion HF as [|? ? Hi HF']; subst. cbn [fst] in Hi. cbn [map fold_left fst snd].
    destruct (single_ok n i o Hi) as (m1 & E1 & R1). rewrite single_same. cbn [bind]. rewrite E1. cbn [bind].
    destruct H0 as (A & B & C). destruct R1 as (A1 & B1 & C1). unfold dot. rewrite B, A1, Nat.eqb_refl.
    edestruct (IH (MkS (s_rows m0) (s_cols m1) (mmul (2 ^ n) (s_ent m0) (s_ent m1))) (mmul (2 ^ n) e0 (spin_at n i o)) HF') as (m & Em & Rm).
    { split; [|split]; cbn; auto. now apply mmul_ext. }
    exists m. split; [exact Em|]. destruct Rm as (A2 & B2 & C2). split; [|split]; auto.
    rewrite spin_word_cons. change (eqm (2 ^ n) (s_ent m) (mmul (2 ^ n) e0 (mmul (2 ^ n) (spin_at n i o) (spin_word n w)))).
    rewrite <- mmul_A. exact C2.
Qed.

Definition zpairs (w : list (nat * sotype)) : list (Z * string) := map (fun p => (Z.of_nat (fst p), otype_name (snd p))) w.
Definition wgreater (x y : nat * sotype) : bool := Nat.ltb (fst y) (fst x).
Lemma insert_map {A B} (f : A -> B) la lb x l : (forall y z, lb (f y) (f z) = la y z) ->
  insert_sorted lb (f x) (map f l) = map f (insert_sorted la x l).
Proof. intros H. induction l as [|y l IH]; cbn; [reflexivity|]. rewrite H. destruct (la y x); cbn; congruence. Qed.
Lemma sort_map {A B} (f : A -> B) la lb l : (forall y z, lb (f y) (f z) = la y z) ->
  stable_sort lb (map f l) = map f (stable_sort la l).
Proof. intros H. unfold stable_sort. induction l as [|y l IH]; cbn [map fold_right]; [reflexivity|]. rewrite IH. now apply insert_map. Qed.
Lemma sort_zpairs w : stable_sort index_greater (zpairs w) = zpairs (stable_sort wgreater w).
Proof.
  apply sort_map. intros [i o] [j o']. unfold index_greater, wgreater. cbn [fst].
  destruct (Nat.ltb_spec j i), (Z.ltb_spec (Z.of_nat j) (Z.of_nat i)); auto; lia.
Qed.
Lemma swaps_word less n w w' : (forall x y, less y x = true -> fst x <> fst y) -> swaps less w w' ->
  Forall (fun p => (fst p < n)%nat) w -> eqm (2 ^ n) (spin_word n w) (spin_word n w').
Proof.
  intros Hl. induction 1 as [|u x y v l H HS IH]; intros HF; [reflexivity|].
  apply Forall_app in HF as [Hu HF]. inversion HF as [|? ? Hx HF']; subst. inversion HF' as [|? ? Hy HF'']; subst.
  rewrite spin_word_swap by auto. apply IH. apply Forall_app; split; auto.
Qed.

Lemma kr_1_l a b i j d : (i < d)%nat -> (j < d)%nat -> a O O = g1 -> kr d a b i j = b i j.
Proof. intros Hi Hj Ha. unfold kr. rewrite !Nat.div_small, !Nat.mod_small by auto. rewrite Ha. ring. Qed.

Lemma fast_dims n i j : (j < i)%nat -> (i < n)%nat ->
  (2 ^ (n - i - 1) * (2 * (2 ^ (i - j - 1) * 2) * 2 ^ j) = 2 ^ n)%nat.
Proof. intros. rewrite (pow_split n i), (pow_split i j) by auto. ring. Qed.

Lemma kron_assoc_ent a b c i j : s_rows b <> O -> s_rows c <> O -> s_cols b <> O -> s_cols c <> O ->
  s_ent (kron (kron a b) c) i j = s_ent (kron a (kron b c)) i j.
Proof.
  intros. cbn. rewrite !mod_mul_div, !mod_mul_mod by auto.
  rewrite (Nat.mul_comm (s_rows b)), (Nat.mul_comm (s_cols b)), !Nat.div_div by auto. ring.
Qed.

Lemma emb2_kron n i j a b : (j < i)%nat -> (i < n)%nat ->
  s_rows a = 2%nat -> s_cols a = 2%nat -> s_rows b = 2%nat -> s_cols b = 2%nat ->
  represents n (kron (identity (2 ^ (n - i - 1))) (kron (kron a (kron (identity (2 ^ (i - j - 1))) b)) (identity (2 ^ j))))
             (emb2 i j (s_ent a) (s_ent b)).
Proof.
  intros Hj Hi A1 A2 B1 B2. split; [|split].
  - cbn. rewrite A1, B1. now apply fast_dims.
  - cbn. rewrite A2, B2. now apply fast_dims.
  - intros r c _ _. unfold emb2. cbv zeta. cbn [s_ent kron identity s_rows s_cols].
    rewrite A1, A2, B1, B2.
    set (d := (2 ^ j)%nat). set (e := (2 ^ (i - j - 1))%nat).
    assert (Hd : (d <> 0)%nat) by apply pow_nz. assert (He : (e <> 0)%nat) by apply pow_nz.
    change (kr (2 * (e * 2) * d) mid (kr d (kr (e * 2) (s_ent a) (kr 2 mid (s_ent b))) mid) r c =
            kr (2 * (e * (2 * d))) mid (kr (e * (2 * d)) (s_ent a) (kr (2 * d) mid (kr d (s_ent b) mid))) r c).
    replace (2 * (e * 2) * d)%nat with (2 * (e * (2 * d)))%nat by ring.
    apply kr_ext_all; [reflexivity|]. intros x y.
    rewrite <- kr_assoc by lia. replace (e * 2 * d)%nat with (e * (2 * d))%nat by ring.
    apply kr_ext_all; [reflexivity|]. intros u v. rewrite kr_assoc by lia. reflexivity.
Qed.

Lemma represents_kron1 n m e : represents n (kron (identity 1) m) e -> represents n m e.
Proof.
  intros (A & B & C). cbn in A, B. rewrite Nat.add_0_r in A, B. split; [|split]; auto.
  intros r c Hr Hc. rewrite <- (C r c Hr Hc). cbn. rewrite A, B.
  rewrite !Nat.div_small, !Nat.mod_small by auto. cbn. ring.
Qed.
Lemma kron_1_r m : s_rows (kron m (identity 1)) = s_rows m /\ s_cols (kron m (identity 1)) = s_cols m /\
  forall i j, s_ent (kron m (identity 1)) i j = s_ent m i j.
Proof.
  cbn [kron identity s_rows s_cols s_ent]. split; [lia|]. split; [lia|]. intros i j. rewrite !Nat.div_1_r, !Nat.mod_1_r. cbn [Nat.eqb]. ring.
Qed.
Lemma kron_ext a a' b b' : s_rows a = s_rows a' -> s_cols a = s_cols a' -> s_rows b = s_rows b' -> s_cols b = s_cols b' ->
  (forall i j, s_ent a i j = s_ent a' i j) -> (forall i j, (i < s_rows b)%nat -> (j < s_cols b)%nat -> s_ent b i j = s_ent b' i j) ->
  s_rows b <> O -> s_cols b <> O ->
  s_rows (kron a b) = s_rows (kron a' b') /\ s_cols (kron a b) = s_cols (kron a' b') /\
  forall i j, s_ent (kron a b) i j = s_ent (kron a' b') i j.
Proof.
  intros R1 C1 R2 C2 E1 E2 N1 N2. cbn. rewrite R1, C1, R2, C2. split; [reflexivity|]. split; [reflexivity|].
  intros i j. rewrite E1, E2; auto; rewrite <- ?R2, <- ?C2; now apply Nat.mod_upper_bound.
Qed.
Lemma kron_ext_r a b b' i j : s_rows b = s_rows b' -> s_cols b = s_cols b' -> (forall i j, s_ent b i j = s_ent b' i j) ->
  s_ent (kron a b) i j = s_ent (kron a b') i j.
Proof. intros R C E. cbn. now rewrite E, R, C. Qed.
Lemma represents_ext n m m' e : s_rows m = s_rows m' -> s_cols m = s_cols m' ->
  meq (s_rows m) (s_cols m) (s_ent m) (s_ent m') -> represents n m' e -> represents n m e.
Proof.
  intros A B H (A' & B' & C'). split; [congruence|]. split; [congruence|].
  intros r c Hr Hc. rewrite H by congruence. now apply C'.
Qed.

Lemma fast_shape n i j c alpha beta : (j < i)%nat -> (i < n)%nat ->
  let Si := scale c (SPIN_MATRIX alpha) in let Sj := SPIN_MATRIX beta in
  let dim0 := (2 ^ j)%nat in let dim1 := (2 ^ (i - j - 1))%nat in let dim2 := (2 ^ (n - i - 1))%nat in
  let r := if Nat.eqb dim1 1 then kron Si Sj else kron Si (kron (identity dim1) Sj) in
  let r := if Nat.eqb dim0 1 then r else kron r (identity dim0) in
  represents n (if Nat.eqb dim2 1 then r else kron (identity dim2) r)
    (emb2 i j (mscale c (s_ent (SPIN_MATRIX alpha))) (s_ent (SPIN_MATRIX beta))).
Proof.
  intros Hj Hi Si Sj dim0 dim1 dim2. destruct (SPIN_MATRIX_dims alpha) as [A1 A2]. destruct (SPIN_MATRIX_dims beta) as [B1 B2].
  change (s_rows Sj = 2%nat) in B1. change (s_cols Sj = 2%nat) in B2.
  pose proof (emb2_kron n i j Si Sj Hj Hi A1 A2 B1 B2) as R0. fold dim0 dim1 dim2 in R0.
  assert (R1 : represents n (kron (identity dim2) (kron (if Nat.eqb dim1 1 then kron Si Sj else kron Si (kron (identity dim1) Sj)) (identity dim0)))
            (emb2 i j (s_ent Si) (s_ent Sj))).
  { destruct (Nat.eqb_spec dim1 1) as [E1|E1]; [|exact R0]. rewrite E1 in R0.
    eapply represents_ext; [| | |exact R0].
    - cbn. now rewrite B1.
    - cbn. now rewrite B2.
    - intros r c' _ _. cbn. rewrite B1, B2. cbn -[Nat.div Nat.modulo].
      unfold identity; cbn [s_ent]. f_equal. f_equal. f_equal.
      rewrite (Nat.div_small (_ mod 2) 2), (Nat.div_small (_ mod 2) 2) by (apply Nat.mod_upper_bound; lia).
      rewrite !Nat.mod_mod by lia. cbn [Nat.eqb]. ring. }
  set (r0 := if Nat.eqb dim1 1 then kron Si Sj else kron Si (kron (identity dim1) Sj)) in *.
  cbv zeta.
  assert (R2 : represents n (kron (identity dim2) (if Nat.eqb dim0 1 then r0 else kron r0 (identity dim0))) (emb2 i j (s_ent Si) (s_ent Sj))).
  { destruct (Nat.eqb_spec dim0 1) as [E0|E0]; [|exact R1]. rewrite E0 in R1.
    destruct (kron_1_r r0) as (K1 & K2 & K3).
    eapply represents_ext; [| | |exact R1].
    - cbn [s_rows kron identity]. cbn in K1. lia.
    - cbn [s_cols kron identity]. cbn in K2. lia.
    - intros r c' _ _. symmetry. apply kron_ext_r; auto. }
  set (r1 := if Nat.eqb dim0 1 then r0 else kron r0 (identity dim0)) in *.
  destruct (Nat.eqb_spec dim2 1) as [E2|E2]; [|exact R2]. rewrite E2 in R2. now apply represents_kron1.
Qed.

Lemma inter_fun_ok n w c : (0 < n)%nat -> Forall (fun p => (fst p < n)%nat) w ->
  exists m, inter_matrix_function (zpairs w) (NInt (Z.of_nat n)) (CNum c) = Ok m /\
            represents n m (mscale c (spin_word n w)).
Proof.
  intros Hn HF. unfold inter_matrix_function. destruct (Z.ltb_spec 0 (Z.of_nat n)) as [_|]; [|lia].
  rewrite sort_zpairs. set (w' := stable_sort wgreater w).
  assert (SW : swaps wgreater w w') by apply sort_swaps.
  assert (HF' : Forall (fun p => (fst p < n)%nat) w').
  { eapply Permutation_Forall; [exact (swaps_perm _ _ _ SW)|exact HF]. }
  assert (EW : eqm (2 ^ n) (spin_word n w) (spin_word n w')).
  { eapply swaps_word; eauto. unfold wgreater. intros x y H. apply Nat.ltb_lt in H. lia. }
  assert (G : exists m, fold_left (fun (acc : res smat) op => bind acc (fun r => bind (single op (Z.of_nat n)) (fun m => dot r m)))
              (zpairs w') (bind (shl1 (Z.of_nat n)) (fun d => Ok (scale c (identity d)))) = Ok m /\
              represents n m (mscale c (spin_word n w))).
  { rewrite shl1_ok. cbn [bind].
    destruct (generic_ok n w' (scale c (identity (2 ^ n))) (mscale c mid) HF') as (m & E & (R1 & R2 & R3)).
    { split; [|split]; reflexivity. }
    exists m. split; [exact E|]. split; [|split]; auto.
    change (eqm (2 ^ n) (s_ent m) (mscale c (spin_word n w))). rewrite EW.
    etransitivity; [exact R3|]. intros r k Hr Hk. rewrite mmul_scale_l. unfold mscale. f_equal. now apply mmul_id_l. }
  destruct w' as [|[i alpha] [|[j beta] [|q w'']]] eqn:Ew; try exact G.
  cbn [zpairs map fst snd]. cbn [zpairs map fst snd] in G.
  destruct (Z.ltb_spec (Z.of_nat j) (Z.of_nat i)) as [L|L]; [|exact G]. clear G.
  inversion HF' as [|? ? Hi HF1]; subst. inversion HF1 as [|? ? Hj _]; subst. cbn [fst] in Hi, Hj.
  assert (Lj : (j < i)%nat) by lia.
  rewrite !SPIN_MATRICES_ok. cbn [bind].
  replace (Z.of_nat i - Z.of_nat j - 1)%Z with (Z.of_nat (i - j - 1)) by lia.
  replace (Z.of_nat n - Z.of_nat i - 1)%Z with (Z.of_nat (n - i - 1)) by lia.
  rewrite !shl1_ok. cbn [bind]. eexists. split; [reflexivity|].
  destruct (fast_shape n i j c alpha beta Lj Hi) as (R1 & R2 & R3). cbv zeta in R1, R2, R3.
  split; [exact R1|]. split; [exact R2|].
  change (eqm (2 ^ n)) with (eqm (2 ^ n)). refine (_ : eqm (2 ^ n) _ _). rewrite EW.
  etransitivity; [exact R3|].
  change (spin_word n [(i, alpha); (j, beta)]) with
    (mmul (2 ^ n) (spin_at n i alpha) (mmul (2 ^ n) (spin_at n j beta) mid)).
  rewrite mmul_1r. unfold spin_at.
  rewrite <- (emb_bits n i (half_elem alpha) Hi : eqm _ _ _), <- (emb_bits n j (half_elem beta) Hj : eqm _ _ _).
  rewrite (emb_pair n i j _ _ (conj Lj Hi) : eqm _ _ _).
  transitivity (emb2 i j (mscale c (bmat (half_elem alpha))) (bmat (half_elem beta))).
  - apply emb2_ext; auto; [|apply SPIN_MATRIX_ent]. intros r k Hr Hk. unfold mscale. f_equal. now apply SPIN_MATRIX_ent.
  - intros r k _ _. unfold mscale, emb2, kr. ring.
Qed.

(** Errors. *)
Lemma inter_fun_assert ops total coeff :
  (forall n, total = NInt n -> (n <= 0)%Z) \/ coeff = CBad ->
  inter_matrix_function ops total coeff = Err AssertionError.
Proof.
  unfold inter_matrix_function. intros [H|H].
  - destruct total; auto. specialize (H z eq_refl). destruct (Z.ltb_spec 0 z); [lia|reflexivity].
  - subst. destruct total; auto. now destruct (0 <? z)%Z.
Qed.
Definition in_range (n : Z) (p : Z * string) : Prop := (0 <= fst p < n)%Z.
Lemma fold_err {A B} (f : A -> B -> res A) l e :
  fold_left (fun (acc : res A) x => bind acc (fun a => f a x)) l (Err e) = Err e.
Proof. induction l; cbn; auto. Qed.
Lemma generic_err n w : (0 < n)%nat -> Exists (fun p => ~ in_range (Z.of_nat n) p) w ->
  Forall (fun p => exists o, snd p = otype_name o) w -> forall m0, s_cols m0 = (2 ^ n)%nat ->
  fold_left (fun (acc : res smat) op => bind acc (fun r => bind (single op (Z.of_nat n)) (fun m => dot r m))) w (Ok m0) = Err ValueError.
Proof.
  intros Hn. induction w as [|[z s] w IH]; intros HE HF m0 Hm; [inversion HE|].
  inversion HF as [|? ? Ho HF']; subst. destruct Ho as [o Ho]; cbn [snd] in Ho. subst s.
  cbn [fold_left bind]. rewrite single_same.
  destruct (Z_lt_dec z 0) as [L|L]; [rewrite single_err by lia; cbn [bind]; apply (fold_err (fun r op => bind (single op (Z.of_nat n)) (fun m => dot r m)))|].
  destruct (Z_lt_dec z (Z.of_nat n)) as [L'|L']; [|rewrite single_err by lia; cbn [bind]; apply (fold_err (fun r op => bind (single op (Z.of_nat n)) (fun m => dot r m)))].
  inversion HE as [? ? Hz|? ? HE']; subst; [exfalso; apply Hz; unfold in_range; cbn; lia|].
  destruct (single_ok n (Z.to_nat z) o ltac:(lia)) as (m1 & E1 & (R1 & R2 & R3)).
  rewrite Z2Nat.id in E1 by lia. rewrite E1. cbn [bind]. unfold dot. rewrite Hm, R1, Nat.eqb_refl. now apply IH.
Qed.
Lemma inter_fun_range ops n c : (0 < n)%Z -> Forall (fun p => exists o, snd p = otype_name o) ops ->
  Exists (fun p => ~ in_range n p) ops -> inter_matrix_function ops (NInt n) (CNum c) = Err ValueError.
Proof.
  intros Hn HF HE. unfold inter_matrix_function. destruct (Z.ltb_spec 0 n) as [_|]; [|lia].
  set (l := stable_sort index_greater ops).
  assert (P : Permutation ops l) by apply sort_perm.
  assert (HF' : Forall (fun p => exists o, snd p = otype_name o) l) by (eapply Permutation_Forall; eauto).
  assert (HE' : Exists (fun p => ~ in_range n p) l) by (eapply Permutation_Exists; eauto).
  assert (G : fold_left (fun (acc : res smat) op => bind acc (fun r => bind (single op n) (fun m => dot r m)))
              l (bind (shl1 n) (fun d => Ok (scale c (identity d)))) = Err ValueError).
  { rewrite shl1_nonneg by lia. cbn [bind].
    pose proof (generic_err (Z.to_nat n) l ltac:(lia)) as GE. rewrite Z2Nat.id in GE by lia. now apply GE. }
  destruct l as [|[i alpha] [|[j beta] [|? ?]]]; try exact G.
  destruct (Z.ltb_spec j i) as [L|L]; [|exact G]. clear G.
  inversion HF' as [|? ? [o1 H1] HF1]; subst. inversion HF1 as [|? ? [o2 H2] _]; subst. cbn [snd] in H1, H2. subst.
  rewrite !SPIN_MATRICES_ok. cbn [bind].
  destruct (Z_lt_dec j 0) as [Lj|Lj]; [now rewrite shl1_neg|]. rewrite shl1_nonneg by lia. cbn [bind].
  rewrite shl1_nonneg by lia. cbn [bind].
  destruct (Z_lt_dec i n) as [Li|Li]; [|now rewrite shl1_neg by lia].
  exfalso. inversion HE' as [? ? Hz|? ? HE1]; subst; [apply Hz; unfold in_range; cbn; lia|].
  inversion HE1 as [? ? Hz|? ? HE2]; subst; [apply Hz; unfold in_range; cbn; lia|inversion HE2].
Qed.
