From Coq Require Import List ZArith Reals Bool String Lia Lra Psatz.
From Flocq Require Import Core.Core IEEE754.BinarySingleNaN.
From Verif Require Import Py Float64_Model Float64_Proofs State_Model State_Spec.
Import ListNotations.
Open Scope Z_scope.

#[local] Instance prec53 : Prec_gt_0 53. Proof. reflexivity. Qed.
#[local] Instance vexp53 : Valid_exp (FLT_exp (-1074) 53). Proof. apply FLT_exp_valid. exact prec53. Qed.
#[local] Instance mexp53 : Monotone_exp (FLT_exp (-1074) 53). Proof. apply FLT_exp_monotone. Qed.

(** ** Order *)
Fixpoint lexc (l m : list Z) : comparison :=
  match l, m with
  | [], [] => Eq | [], _ => Lt | _, [] => Gt
  | x :: l', y :: m' => match x ?= y with Eq => lexc l' m' | c => c end
  end.

Definition opc (o : cop) (c : comparison) : bool :=
  match o, c with
  | CLt, Lt | CLe, (Lt | Eq) | CGt, Gt | CGe, (Gt | Eq) => true
  | _, _ => false
  end.

Lemma zop_opc o x y : zop o x y = opc o (x ?= y).
Proof.
  destruct o; cbn; unfold Z.ltb, Z.leb; [| |rewrite (Z.compare_antisym x y)|rewrite (Z.compare_antisym x y)];
    destruct (x ?= y); reflexivity.
Qed.

Lemma veq_ints l m : veq (VTup (map VInt l)) (VTup (map VInt m)) = match lexc l m with Eq => true | _ => false end.
Proof.
  revert m. induction l as [|x l IH]; intros [|y m]; try reflexivity.
  change (veq (VTup (map VInt (x :: l))) (VTup (map VInt (y :: m))))
    with ((x =? y) && veq (VTup (map VInt l)) (VTup (map VInt m))).
  rewrite IH. cbn [lexc]. destruct (Z.eqb_spec x y) as [->|H].
  - rewrite Z.compare_refl. reflexivity.
  - destruct (Z.compare_spec x y); [contradiction|reflexivity|reflexivity].
Qed.

Lemma vcmp_ints o l m : vcmp o (VTup (map VInt l)) (VTup (map VInt m)) = Ok (opc o (lexc l m)).
Proof.
  revert m. induction l as [|x l IH]; intros [|y m].
  - cbn. now destruct o.
  - cbn. now destruct o.
  - cbn. now destruct o.
  - change (vcmp o (VTup (map VInt (x :: l))) (VTup (map VInt (y :: m))))
      with (if x =? y then vcmp o (VTup (map VInt l)) (VTup (map VInt m)) else Ok (zop o x y)).
    rewrite IH. cbn [lexc]. destruct (Z.eqb_spec x y) as [->|H].
    + rewrite Z.compare_refl. reflexivity.
    + rewrite zop_opc. destruct (Z.compare_spec x y); [contradiction|reflexivity|reflexivity].
Qed.

Definition statec (s t : stateid) : comparison :=
  match lexc (s_form (st_site s)) (s_form (st_site t)) with
  | Eq => lexc [st_spin s; st_orbit s] [st_spin t; st_orbit t]
  | c => c
  end.

Lemma state_veq s t : veq (state_form s) (state_form t) = match statec s t with Eq => true | _ => false end.
Proof.
  unfold statec.
  change (veq (state_form s) (state_form t)) with
    (veq (site_form (st_site s)) (site_form (st_site t)) &&
     ((st_spin s =? st_spin t) && ((st_orbit s =? st_orbit t) && true))).
  unfold site_form. rewrite veq_ints.
  destruct (lexc (s_form (st_site s)) (s_form (st_site t))); try reflexivity. cbn [lexc].
  destruct (Z.eqb_spec (st_spin s) (st_spin t)) as [->|H].
  - rewrite Z.compare_refl. destruct (Z.eqb_spec (st_orbit s) (st_orbit t)) as [->|H'].
    + rewrite Z.compare_refl. reflexivity.
    + destruct (Z.compare_spec (st_orbit s) (st_orbit t)); [contradiction|reflexivity|reflexivity].
  - destruct (Z.compare_spec (st_spin s) (st_spin t)); [contradiction|reflexivity|reflexivity].
Qed.

Lemma state_vcmp o s t : vcmp o (state_form s) (state_form t) = Ok (opc o (statec s t)).
Proof.
  unfold statec.
  change (vcmp o (state_form s) (state_form t)) with
    (if veq (site_form (st_site s)) (site_form (st_site t)) then
       vcmp o (VTup (map VInt [st_spin s; st_orbit s])) (VTup (map VInt [st_spin t; st_orbit t]))
     else vcmp o (site_form (st_site s)) (site_form (st_site t))).
  rewrite vcmp_ints. unfold site_form. rewrite veq_ints, vcmp_ints.
  destruct (lexc (s_form (st_site s)) (s_form (st_site t))); reflexivity.
Qed.

Lemma lexc_eq l m : lexc l m = Eq <-> l = m.
Proof.
  revert m. induction l as [|x l IH]; intros [|y m]; cbn; try (split; congruence).
  destruct (Z.compare_spec x y) as [->|H|H].
  - rewrite IH. split; congruence.
  - split; [discriminate|intros [= -> _]; lia].
  - split; [discriminate|intros [= -> _]; lia].
Qed.

Lemma lexc_lt l m : lexc l m = Lt <-> lex_lt l m.
Proof.
  revert m. induction l as [|x l IH]; intros [|y m]; cbn.
  - split; [discriminate|inversion 1].
  - split; [constructor|reflexivity].
  - split; [discriminate|inversion 1].
  - destruct (Z.compare_spec x y) as [->|H|H].
    + rewrite IH. split; [intros; now constructor 3|]. inversion 1; subst; [lia|auto].
    + split; [intros; now constructor 2|reflexivity].
    + split; [discriminate|]. inversion 1; subst; lia.
Qed.

Lemma lexc_antisym l m : lexc m l = CompOpp (lexc l m).
Proof.
  revert m. induction l as [|x l IH]; intros [|y m]; cbn; try reflexivity.
  rewrite Z.compare_antisym. destruct (x ?= y); cbn; auto.
Qed.

Lemma lex_lt_trans a b c : lex_lt a b -> lex_lt b c -> lex_lt a c.
Proof.
  intros H; revert c. induction H as [y m|x y l m Hxy|x l m Hlm IH]; intros c Hc.
  - inversion Hc; constructor.
  - inversion Hc; subst; constructor; lia.
  - inversion Hc; subst; [now constructor 2|constructor 3; auto].
Qed.

Definition locc (a b : loc) : comparison :=
  match a, b with
  | LSite s, LSite t => lexc (s_form s) (s_form t)
  | LState s, LState t => statec s t
  | _, _ => Eq
  end.

Lemma py_cmp_same o a b : same_class a b -> py_cmp o a b = Ok (opc o (locc a b)).
Proof.
  destruct a, b; cbn [same_class]; try contradiction; intros _; unfold py_cmp; cbn -[vcmp].
  - unfold site_form. apply vcmp_ints.
  - apply state_vcmp.
Qed.

Lemma py_eq_same a b : same_class a b ->
  py_eq a b = match locc a b with Eq => true | _ => false end /\
  py_ne a b = match locc a b with Eq => false | _ => true end.
Proof.
  destruct a, b; cbn [same_class]; try contradiction; intros _; unfold py_eq, py_ne; cbn -[veq].
  - unfold site_form. rewrite veq_ints. now destruct (lexc _ _).
  - rewrite state_veq. now destruct (statec _ _).
Qed.

Lemma pair_lexc a b c d : lexc [a; b] [c; d] = Lt <-> a < c \/ (a = c /\ b < d).
Proof.
  cbn. destruct (Z.compare_spec a c) as [->|H|H].
  - destruct (Z.compare_spec b d) as [->|H|H]; intuition (try discriminate; lia).
  - intuition.
  - intuition (try discriminate; lia).
Qed.

Lemma locc_eq a b : same_class a b -> (locc a b = Eq <-> same_key a b).
Proof.
  destruct a as [s|s], b as [t|t]; cbn [same_class]; try contradiction; intros _; cbn [locc same_key].
  - apply lexc_eq.
  - unfold statec. destruct (lexc (s_form (st_site s)) (s_form (st_site t))) eqn:E.
    + apply lexc_eq in E. rewrite lexc_eq. split.
      * intros [= -> ->]; auto.
      * intros (_ & -> & ->); auto.
    + split; [discriminate|]. intros (H & _). apply lexc_eq in H. congruence.
    + split; [discriminate|]. intros (H & _). apply lexc_eq in H. congruence.
Qed.

Lemma locc_lt a b : same_class a b -> (locc a b = Lt <-> key_lt a b).
Proof.
  destruct a as [s|s], b as [t|t]; cbn [same_class]; try contradiction; intros _; cbn [locc key_lt].
  - apply lexc_lt.
  - unfold statec. rewrite <- lexc_lt, <- lexc_eq, <- pair_lexc.
    destruct (lexc (s_form (st_site s)) (s_form (st_site t))); intuition discriminate.
Qed.

Lemma locc_antisym a b : same_class a b -> locc b a = CompOpp (locc a b).
Proof.
  destruct a as [s|s], b as [t|t]; cbn [same_class]; try contradiction; intros _; cbn [locc].
  - apply lexc_antisym.
  - unfold statec. rewrite (lexc_antisym (s_form (st_site s))).
    rewrite (lexc_antisym [st_spin s; st_orbit s]).
    destruct (lexc (s_form (st_site s)) (s_form (st_site t))); reflexivity.
Qed.

Lemma key_lt_trans a b c : key_lt a b -> key_lt b c -> key_lt a c.
Proof.
  destruct a as [s|s], b as [t|t], c as [u|u]; cbn; try tauto.
  - apply lex_lt_trans.
  - intros [H|(E & H)] [H'|(E' & H')].
    + left; eapply lex_lt_trans; eauto.
    + left; rewrite <- E'; auto.
    + left; rewrite E; auto.
    + right. split; [congruence|]. lia.
Qed.

(** The comparison operators of one class. *)
Lemma order_char a b : same_class a b ->
  (py_cmp CLt a b = Ok true <-> key_lt a b) /\
  (py_cmp CGt a b = Ok true <-> key_lt b a) /\
  (py_eq a b = true <-> same_key a b) /\
  (key_lt a b \/ same_key a b \/ key_lt b a) /\
  ~ (key_lt a b /\ same_key a b) /\ ~ (key_lt a b /\ key_lt b a) /\
  (py_cmp CLe a b = Ok true <-> key_lt a b \/ same_key a b) /\
  (py_cmp CGe a b = Ok true <-> key_lt b a \/ same_key a b) /\
  py_ne a b = negb (py_eq a b) /\
  (forall o, exists r, py_cmp o a b = Ok r).
Proof.
  intros H. destruct (py_eq_same a b H) as [He Hn]. rewrite He, Hn.
  rewrite !(py_cmp_same _ a b H).
  assert (H' : same_class b a) by (destruct a, b; auto).
  rewrite <- (locc_lt a b H), <- (locc_lt b a H'), <- (locc_eq a b H).
  rewrite (locc_antisym a b H).
  assert (K : forall o, exists r, py_cmp o a b = Ok r) by (intros o; rewrite (py_cmp_same _ a b H); eauto).
  destruct (locc a b); cbn; repeat split; auto; try intuition (congruence || auto).
Qed.

Lemma py_lt_trans a b c :
  s_form_of a <> [] -> s_form_of b <> [] -> s_form_of c <> [] ->
  py_cmp CLt a b = Ok true -> py_cmp CLt b c = Ok true -> py_cmp CLt a c = Ok true.
Proof.
  intros Na Nb Nc Hab Hbc.
  assert (K : forall x y, s_form_of x <> [] -> s_form_of y <> [] -> py_cmp CLt x y = Ok true ->
              same_class x y /\ key_lt x y).
  { intros x y Nx Ny H.
    assert (S : same_class x y).
    { destruct x as [s|s], y as [t|t]; cbn; auto; exfalso.
      - destruct s as [? [|? ?]]; [contradiction|]. discriminate.
      - destruct t as [? [|? ?]]; [contradiction|]. discriminate. }
    split; auto. now apply (order_char x y S). }
  destruct (K a b Na Nb Hab) as [S1 L1]. destruct (K b c Nb Nc Hbc) as [S2 L2].
  assert (S : same_class a c) by (destruct a, b, c; cbn in *; auto).
  apply (order_char a c S). eapply key_lt_trans; eauto.
Qed.

(** A site against a state. *)
Lemma mixed_char s t : s_form s <> [] ->
  (forall o, py_cmp o (LSite s) (LState t) = Err TypeError) /\
  (forall o, py_cmp o (LState t) (LSite s) = Err TypeError) /\
  py_eq (LSite s) (LState t) = false /\ py_eq (LState t) (LSite s) = false /\
  py_ne (LSite s) (LState t) = true /\ py_ne (LState t) (LSite s) = true.
Proof.
  destruct s as [c [|x f]]; [contradiction|]; intros _.
  repeat split; intros; reflexivity.
Qed.

Lemma mapM_length {A B} (f : A -> res B) l r : mapM f l = Ok r -> List.length r = List.length l.
Proof.
  revert r; induction l as [|x l IH]; cbn; intros r; [intros [= <-]; reflexivity|].
  destruct (f x); [|discriminate]. destruct (mapM f l); [|discriminate].
  intros [= <-]. cbn. f_equal; auto.
Qed.

Lemma make_site_form_nonempty zoom c s : make_site zoom c = Ok s ->
  List.length (s_form s) = List.length c /\ (1 <= List.length c <= 3)%nat /\ s_coord s = c.
Proof.
  unfold make_site. destruct (_ && _) eqn:E; [|discriminate].
  destruct (mapM _ _) eqn:Em; [|discriminate]. intros [= <-]. cbn.
  apply mapM_length in Em. split; [auto|split; auto].
  apply andb_prop in E as [E _].
  destruct c as [|? [|? [|? [|? c]]]]; cbn in E; try discriminate; cbn; lia.
Qed.

Lemma mixed_made zoom c s t : make_site zoom c = Ok s ->
  (forall o, py_cmp o (LSite s) (LState t) = Err TypeError) /\
  (forall o, py_cmp o (LState t) (LSite s) = Err TypeError) /\
  py_eq (LSite s) (LState t) = false /\ py_eq (LState t) (LSite s) = false /\
  py_ne (LSite s) (LState t) = true /\ py_ne (LState t) (LSite s) = true.
Proof.
  intros H. apply mixed_char. apply make_site_form_nonempty in H as (H & H' & _).
  intros E. rewrite E in H. cbn in H. lia.
Qed.

Lemma hash_char a b : same_class a b -> (hash_key a = hash_key b <-> py_eq a b = true).
Proof.
  intros H. destruct (order_char a b H) as (_ & _ & -> & _).
  destruct a as [s|s], b as [t|t]; cbn in H; try contradiction; cbn; unfold site_form, state_form.
  - split.
    + intros [= E]. revert E. generalize (s_form s) (s_form t).
      induction l; intros [|z m]; cbn; try congruence. intros [= -> E]. f_equal; auto.
    + intros ->; auto.
  - split.
    + intros [= E Es Eo]. repeat split; auto. revert E. generalize (s_form (st_site s)) (s_form (st_site t)).
      induction l; intros [|z m]; cbn; try congruence. intros [= -> E]. f_equal; auto.
    + intros (E & -> & ->). unfold site_form. rewrite E. reflexivity.
Qed.

(** ** Constructors *)
Lemma make_site_reject zoom c : make_site zoom c = Err AssertionError <->
  ~ (1 <= List.length c <= 3)%nat \/ exists x, In x c /\ x = NOther.
Proof.
  unfold make_site.
  assert (L : (Nat.eqb (List.length c) 1 || Nat.eqb (List.length c) 2 || Nat.eqb (List.length c) 3) = true
              <-> (1 <= List.length c <= 3)%nat).
  { destruct c as [|? [|? [|? [|? c]]]]; cbn; intuition (try lia; try discriminate). }
  assert (R : forallb is_real c = true <-> ~ exists x, In x c /\ x = NOther).
  { rewrite forallb_forall. split.
    - intros H (x & Hx & ->). now apply H in Hx.
    - intros H x Hx. destruct x; auto. exfalso; eauto. }
  destruct (_ && _) eqn:E.
  - apply andb_prop in E as [E1 E2]. apply L in E1. apply R in E2.
    destruct (mapM (quantise zoom) c) eqn:Em.
    + split; [discriminate|tauto].
    + split; [|tauto]. intros [= ->]. exfalso. clear -Em. revert Em.
      induction c as [|x c IH]; cbn; [discriminate|].
      destruct (quantise zoom x) eqn:Eq.
      * destruct (mapM _ c); [discriminate|auto].
      * intros [= ->]. destruct x as [z|f|]; try discriminate.
        unfold quantise in Eq. destruct (float_of_int zoom) as [g|e] eqn:Ef.
        -- revert Eq. generalize (fmul g f). intros h; destruct h; discriminate.
        -- unfold float_of_int in Ef.
           destruct (SpecFloat.binary_normalize _ _ zoom 0 false); congruence.
  - split; [|auto]. intros _. apply andb_false_iff in E as [E|E].
    + left. intros H. apply L in H. congruence.
    + right. destruct (existsb (fun x => negb (is_real x)) c) eqn:Ex.
      * apply existsb_exists in Ex as (x & Hx & Hr). exists x; split; auto. now destruct x.
      * exfalso. apply (proj2 (not_true_iff_false _) E). apply R. intros (x & Hx & ->).
        assert (existsb (fun x => negb (is_real x)) c = true) by (apply existsb_exists; eauto). congruence.
Qed.

Lemma make_state_char zoom c sp ob :
  (forall s o, sp = NInt s -> ob = NInt o -> 0 <= s -> 0 <= o ->
     make_state zoom c sp ob =
     match make_site zoom c with Ok st => Ok (MkState st s o) | Err e => Err e end) /\
  ((forall s, sp = NInt s -> s < 0) \/ (forall o, ob = NInt o -> o < 0) ->
     make_state zoom c sp ob = Err AssertionError).
Proof.
  split.
  - intros s o -> -> Hs Ho. unfold make_state, nonneg_int.
    destruct (Z.leb_spec 0 s); [|lia]. destruct (Z.leb_spec 0 o); [reflexivity|lia].
  - unfold make_state, nonneg_int. intros [H|H].
    + destruct sp as [s| |]; try reflexivity. specialize (H s eq_refl).
      destruct (Z.leb_spec 0 s); [lia|reflexivity].
    + destruct sp as [s| |]; try reflexivity. destruct (0 <=? s); try reflexivity.
      destruct ob as [o| |]; try reflexivity. specialize (H o eq_refl).
      destruct (Z.leb_spec 0 o); [lia|reflexivity].
Qed.

(** ** Quantisation *)
Lemma coord_value_f2R f : coord_value (NFlt f) = f2R f.
Proof.
  destruct f as [s|s| |s m e]; try reflexivity.
  unfold f2R; cbn [coord_value BinarySingleNaN.SF2R]. unfold F2R; cbn [Fnum Fexp].
  destruct s; cbn [cond_Zopp]; [rewrite opp_IZR; ring|ring].
Qed.

Definition quantum (zoom : Z) (c : pynum) : R :=
  match c with
  | NFlt _ => rnd64 (IZR zoom * coord_value c)
  | _ => (IZR zoom * coord_value c)%R
  end.

Lemma quantise_correct p c :
  0 <= p <= 15 -> finite_coord c ->
  (Rabs (quantum (10 ^ p) c) < bpow radix2 1024)%R \/ (exists z, c = NInt z) ->
  quantise (10 ^ p) c = Ok (Ztrunc (quantum (10 ^ p) c)).
Proof.
  intros Hp Hc Hb. destruct c as [z|f|]; [| |destruct Hc].
  - cbn. rewrite <- mult_IZR, Ztrunc_IZR. reflexivity.
  - destruct Hb as [Hb|[z [=]]]. unfold quantum in *. rewrite coord_value_f2R in *.
    assert (Hz : Z.abs (10 ^ p) <= 2 ^ 53).
    { assert (10 ^ p <= 10 ^ 15) by (apply Z.pow_le_mono_r; lia).
      assert (0 < 10 ^ p) by (apply Z.pow_pos_nonneg; lia).
      rewrite Z.abs_eq by lia. etransitivity; [eassumption|]. vm_compute; discriminate. }
    destruct (float_of_int_correct (10 ^ p)) as (zf & E & Ez & Fz & Vz).
    { rewrite rnd64_int by auto. rewrite <- abs_IZR. 
      apply Rle_lt_trans with (IZR (2 ^ 53)); [now apply IZR_le|].
      change (2 ^ 53) with (Zpower radix2 53). rewrite IZR_Zpower by lia. apply bpow_lt. lia. }
    rewrite rnd64_int in Ez by auto.
    unfold quantise. rewrite E.
    assert (Hf : fvalid f = true /\ ffinite f = true) by (destruct f; cbn in Hc |- *; intuition).
    destruct Hf as [Vf Ff].
    destruct (fmul_correct zf f Vz Vf Fz Ff) as (Em & Fm & Vm).
    { rewrite Ez. exact Hb. }
    rewrite (int_of_float_correct _ Fm), Em, Ez. reflexivity.
Qed.

(** Error of rounding below 2^52: at most a half. *)
Lemma rnd64_error x : (Rabs x <= bpow radix2 51)%R -> (Rabs (rnd64 x - x) <= / 4)%R.
Proof.
  intros Hx.
  pose proof (error_le_half_ulp radix2 (FLT_exp (-1074) 53) (fun z => negb (Z.even z)) x) as He.
  apply Rle_trans with (1 := He).
  assert (Hu : (ulp radix2 (FLT_exp (-1074) 53) x <= bpow radix2 (-1))%R).
  { apply Rle_trans with (ulp radix2 (FLT_exp (-1074) 53) (bpow radix2 51)).
    - apply ulp_le; auto with typeclass_instances.
      rewrite (Rabs_pos_eq (bpow radix2 51)); auto. apply bpow_ge_0.
    - rewrite ulp_bpow. apply bpow_le. unfold FLT_exp. lia. }
  change (bpow radix2 (-1)) with (/ 2)%R in Hu. lra.
Qed.

Lemma quantum_error zoom c : (Rabs (IZR zoom * coord_value c) <= bpow radix2 51)%R ->
  (Rabs (quantum zoom c - IZR zoom * coord_value c) <= / 4)%R.
Proof.
  intros H. destruct c as [z|f|]; cbn [quantum].
  - rewrite Rminus_diag_eq by reflexivity. rewrite Rabs_R0. lra.
  - now apply rnd64_error.
  - rewrite Rminus_diag_eq by reflexivity. rewrite Rabs_R0. lra.
Qed.

Lemma Ztrunc_lt_2 x y : (x + 2 <= y)%R -> Ztrunc x < Ztrunc y.
Proof.
  intros H. apply lt_IZR.
  assert (Hx : (IZR (Ztrunc x) < x + 1)%R).
  { unfold Ztrunc. destruct (Rlt_bool_spec x 0).
    - pose proof (Zceil_lb x). lra.
    - pose proof (Zfloor_lb x). lra. }
  assert (Hy : (y - 1 < IZR (Ztrunc y))%R).
  { unfold Ztrunc. destruct (Rlt_bool_spec y 0).
    - pose proof (Zceil_ub y). lra.
    - pose proof (Zfloor_ub y). lra. }
  lra.
Qed.

Lemma Ztrunc_lt_1 x y : (0 <= x)%R -> (x + 1 <= y)%R -> Ztrunc x < Ztrunc y.
Proof.
  intros H0 H. rewrite !Ztrunc_floor by lra. apply lt_IZR.
  pose proof (Zfloor_lb x). pose proof (Zfloor_ub y). lra.
Qed.

Lemma quantum_small p c : 0 <= p -> (Rabs (IZR (10 ^ p) * coord_value c) <= bpow radix2 51)%R ->
  (Rabs (quantum (10 ^ p) c) < bpow radix2 1024)%R.
Proof.
  intros Hp H. pose proof (quantum_error _ _ H) as He.
  apply Rle_lt_trans with (bpow radix2 51 + / 4)%R.
  - replace (quantum (10 ^ p) c) with ((quantum (10 ^ p) c - IZR (10 ^ p) * coord_value c) + IZR (10 ^ p) * coord_value c)%R by ring.
    eapply Rle_trans; [apply Rabs_triang|lra].
  - apply Rlt_le_trans with (bpow radix2 52); [|apply bpow_le; lia].
    assert (bpow radix2 52 = 2 * bpow radix2 51)%R by (rewrite <- (bpow_plus radix2 1 51) || (change 52 with (1+51); rewrite bpow_plus; reflexivity); reflexivity).
    pose proof (bpow_ge_0 radix2 51). assert (1 <= bpow radix2 51)%R by (change 1%R with (bpow radix2 0); apply bpow_le; lia). lra.
Qed.

(** Coordinates at least 3 grid steps apart are told apart. *)
Lemma quantise_separates p a b qa qb :
  0 <= p <= 15 -> finite_coord a -> finite_coord b ->
  (Rabs (IZR (10 ^ p) * coord_value a) <= bpow radix2 51)%R ->
  (Rabs (IZR (10 ^ p) * coord_value b) <= bpow radix2 51)%R ->
  quantise (10 ^ p) a = Ok qa -> quantise (10 ^ p) b = Ok qb ->
  (IZR (10 ^ p) * coord_value a + 3 <= IZR (10 ^ p) * coord_value b)%R \/
  (0 <= coord_value a /\ IZR (10 ^ p) * coord_value a + 2 <= IZR (10 ^ p) * coord_value b)%R ->
  qa < qb.
Proof.
  intros Hp Ha Hb Sa Sb Qa Qb H.
  rewrite (quantise_correct p a Hp Ha) in Qa by (left; apply quantum_small; auto; lia).
  rewrite (quantise_correct p b Hp Hb) in Qb by (left; apply quantum_small; auto; lia).
  injection Qa as <-. injection Qb as <-.
  pose proof (quantum_error _ _ Sa) as Ea. pose proof (quantum_error _ _ Sb) as Eb.
  apply Rabs_le_inv in Ea, Eb.
  destruct H as [H|[H0 H]].
  - apply Ztrunc_lt_2. lra.
  - apply Ztrunc_lt_1; [|lra].
    assert (Hz : (0 <= IZR (10 ^ p))%R) by (apply IZR_le; apply Z.pow_nonneg; lia).
    assert (Hm : (0 <= IZR (10 ^ p) * coord_value a)%R) by (apply Rmult_le_pos; auto).
    destruct a as [z|f|]; cbn [quantum]; auto.
    rewrite <- rnd64_0. now apply rnd64_le.
Qed.

(** Quantisation is monotone among floats (and among ints). *)
Lemma quantise_mono p a b qa qb :
  0 <= p <= 15 -> finite_coord a -> finite_coord b ->
  (match a, b with NFlt _, NFlt _ | NInt _, NInt _ => True | _, _ => False end) ->
  (Rabs (IZR (10 ^ p) * coord_value a) <= bpow radix2 51)%R ->
  (Rabs (IZR (10 ^ p) * coord_value b) <= bpow radix2 51)%R ->
  quantise (10 ^ p) a = Ok qa -> quantise (10 ^ p) b = Ok qb ->
  (coord_value a <= coord_value b)%R -> qa <= qb.
Proof.
  intros Hp Ha Hb Hs Sa Sb Qa Qb H.
  rewrite (quantise_correct p a Hp Ha) in Qa by (left; apply quantum_small; auto; lia).
  rewrite (quantise_correct p b Hp Hb) in Qb by (left; apply quantum_small; auto; lia).
  injection Qa as <-. injection Qb as <-.
  assert (Hz : (0 <= IZR (10 ^ p))%R) by (apply IZR_le; apply Z.pow_nonneg; lia).
  apply Ztrunc_le.
  destruct a as [z|f|], b as [z'|f'|]; try contradiction; cbn [quantum].
  - apply Rmult_le_compat_l; auto.
  - apply rnd64_le. apply Rmult_le_compat_l; auto.
Qed.

(** Integer coordinates are identified exactly, also across int and float. *)
Lemma quantise_int zoom z : quantise zoom (NInt z) = Ok (zoom * z).
Proof. reflexivity. Qed.

Lemma quantise_int_float p z f :
  0 <= p <= 15 -> finite_coord (NFlt f) -> coord_value (NFlt f) = IZR z ->
  Z.abs (10 ^ p * z) <= 2 ^ 51 ->
  quantise (10 ^ p) (NFlt f) = quantise (10 ^ p) (NInt z).
Proof.
  intros Hp Hf Hv Hz.
  rewrite quantise_int.
  assert (Hs : (Rabs (IZR (10 ^ p) * coord_value (NFlt f)) <= bpow radix2 51)%R).
  { rewrite Hv, <- mult_IZR, <- abs_IZR. change (bpow radix2 51) with (IZR (2 ^ 51)). now apply IZR_le. }
  rewrite (quantise_correct p _ Hp Hf) by (left; apply quantum_small; auto; lia).
  cbn [quantum]. rewrite Hv, <- mult_IZR. rewrite rnd64_int, Ztrunc_IZR; auto.
  etransitivity; [eassumption|]. vm_compute; discriminate.
Qed.

(** [==] of two freshly made sites is equality of dimension and of every quantised coordinate. *)
Lemma mapM_nth {A B} (f : A -> res B) l r : mapM f l = Ok r ->
  forall i, match nth_error l i with
            | Some x => exists y, f x = Ok y /\ nth_error r i = Some y
            | None => nth_error r i = None
            end.
Proof.
  revert r; induction l as [|x l IH]; cbn; intros r H i.
  - injection H as <-. destruct i; reflexivity.
  - destruct (f x) eqn:E; [|discriminate]. destruct (mapM f l) eqn:Em; [|discriminate].
    injection H as <-. destruct i; cbn; [eauto|]. apply IH; auto.
Qed.

Lemma site_eq_char zoom ca cb a b :
  make_site zoom ca = Ok a -> make_site zoom cb = Ok b ->
  (py_eq (LSite a) (LSite b) = true <->
   List.length ca = List.length cb /\
   forall i x y, nth_error ca i = Some x -> nth_error cb i = Some y -> quantise zoom x = quantise zoom y).
Proof.
  intros Ha Hb. destruct (order_char (LSite a) (LSite b) I) as (_ & _ & -> & _). cbn [same_key].
  pose proof (make_site_form_nonempty _ _ _ Ha) as (La & _).
  pose proof (make_site_form_nonempty _ _ _ Hb) as (Lb & _).
  unfold make_site in Ha, Hb.
  destruct (_ && _) in Ha; [|discriminate]. destruct (_ && _) in Hb; [|discriminate].
  destruct (mapM (quantise zoom) ca) as [qa|] eqn:Ea; [|discriminate].
  destruct (mapM (quantise zoom) cb) as [qb|] eqn:Eb; [|discriminate].
  injection Ha as <-. injection Hb as <-. cbn [s_form] in *.
  pose proof (mapM_nth _ _ _ Ea) as Na. pose proof (mapM_nth _ _ _ Eb) as Nb.
  split.
  - intros ->. split; [congruence|]. intros i x y Hx Hy.
    specialize (Na i). specialize (Nb i). rewrite Hx in Na. rewrite Hy in Nb.
    destruct Na as (u & -> & Hu). destruct Nb as (v & -> & Hv). congruence.
  - intros [Hl H].
    apply nth_ext with (d := 0) (d' := 0); [congruence|]. intros i Hi.
    rewrite La in Hi.
    destruct (nth_error ca i) as [x|] eqn:Ex; [|apply nth_error_None in Ex; lia].
    destruct (nth_error cb i) as [y|] eqn:Ey; [|apply nth_error_None in Ey; lia].
    specialize (Na i). specialize (Nb i). rewrite Ex in Na. rewrite Ey in Nb.
    destruct Na as (u & Hu & Hu'). destruct Nb as (v & Hv & Hv').
    rewrite (nth_error_nth _ _ _ Hu'), (nth_error_nth _ _ _ Hv').
    specialize (H i x y Ex Ey). congruence.
Qed.
