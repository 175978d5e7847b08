(** Proofs about bonds. *)
From Coq Require Import List ZArith Bool Reals Floats.SpecFloat Lia Lra Psatz.
From Flocq Require Import Core.Core.
From Verif Require Import Py Float64_Model Float64_Proofs State_Model State_Spec State_Proofs Bond_Model Bond_Spec.
Import ListNotations.
Open Scope Z_scope.

Lemma to_double_rnd x : to_double x = rnd64 x. Proof. reflexivity. Qed.
Lemma to_double_opp x : to_double (- x) = (- to_double x)%R. Proof. apply round_NE_opp. Qed.

(** ** arrays *)
Lemma all_ints_some l zs : all_ints l = Some zs -> l = map NInt zs.
Proof.
  revert zs. induction l as [|c l IH]; cbn; intros zs H; [injection H as <-; reflexivity|].
  destruct c as [z|f|]; cbn in H; try discriminate. destruct (all_ints l) as [r|]; [|discriminate].
  injection H as <-. cbn. now rewrite <- IH.
Qed.
Definition exact_num (c : pynum) : Prop := match c with NInt z => Z.abs z <= 2 ^ 53 | NFlt f => fvalid f = true /\ ffinite f = true | NOther => False end.
Lemma finite_exact f : finite_coord (NFlt f) -> fvalid f = true /\ ffinite f = true.
Proof. destruct f; cbn; intuition. Qed.
Lemma to_float_exact c : exact_num c ->
  exists f, to_float c = Ok f /\ fvalid f = true /\ ffinite f = true /\ coord_value (NFlt f) = coord_value c.
Proof.
  destruct c as [z|f|]; cbn [exact_num to_float].
  - intros H. assert (B : (Rabs (rnd64 (IZR z)) < bpow radix2 1024)%R).
    { rewrite rnd64_int by auto. rewrite <- abs_IZR. change (bpow radix2 1024) with (IZR (2 ^ 1024)). apply IZR_lt.
      assert (2 ^ 53 < 2 ^ 1024) by (apply Z.pow_lt_mono_r; lia). lia. }
    destruct (float_of_int_correct z B) as (f & E & V & F & W). exists f. repeat split; auto.
    rewrite coord_value_f2R, V, rnd64_int by auto. reflexivity.
  - intros [V F]. exists f. auto.
  - intros [].
Qed.
Lemma np_array_exact l : Forall exact_num l ->
  exists a, np_array l = Ok a /\ values a = map coord_value l /\ alen a = List.length l /\
  ((exists zs, a = AI zs /\ l = map NInt zs) \/
   (exists fs, a = AF fs /\ Forall (fun f => fvalid f = true /\ ffinite f = true) fs)).
Proof.
  intros H. unfold np_array. destruct (all_ints l) as [zs|] eqn:E.
  - apply all_ints_some in E as ->. exists (AI zs). cbn [values alen]. rewrite map_map, map_length.
    split; [reflexivity|]. split; [apply map_ext; reflexivity|]. split; [reflexivity|]. left. eauto.
  - assert (G : exists fs, mapM to_float l = Ok fs /\ map (fun f => coord_value (NFlt f)) fs = map coord_value l /\
                           List.length fs = List.length l /\ Forall (fun f => fvalid f = true /\ ffinite f = true) fs).
    { clear E. induction H as [|c l Hc Hl IH]; [exists []; cbn; repeat split; constructor|].
      destruct IH as (fs & E & V & L & F). destruct (to_float_exact c Hc) as (f & Ef & V1 & F1 & V2).
      exists (f :: fs). cbn [mapM]. rewrite Ef, E. cbn [map List.length]. rewrite V, V2, L. repeat split; auto. }
    destruct G as (fs & -> & V & L & F). exists (AF fs). cbn [bind values alen]. split; [reflexivity|]. split; [exact V|]. split; [exact L|]. right. eauto.
Qed.

Lemma wrap64_small z : - 2 ^ 63 <= z < 2 ^ 63 -> wrap64 z = z.
Proof. intros H. unfold wrap64. rewrite Z.mod_small by lia. lia. Qed.

(** ** cells *)
Lemma pow10_pos p : 0 <= p -> 0 < 10 ^ p. Proof. intros. apply Z.pow_pos_nonneg; lia. Qed.
Lemma moderate_int p z : 0 <= p <= 15 -> moderate p (NInt z) -> Z.abs (10 ^ p * z) <= 2 ^ 51 /\ Z.abs z <= 2 ^ 51.
Proof.
  intros Hp [_ H]. cbn [coord_value] in H. rewrite <- mult_IZR, <- abs_IZR in H.
  change (bpow radix2 51) with (IZR (2 ^ 51)) in H. apply le_IZR in H. split; [exact H|].
  pose proof (pow10_pos p ltac:(lia)). nia.
Qed.
Lemma moderate_exact p c : 0 <= p <= 15 -> moderate p c -> exact_num c.
Proof.
  intros Hp H. destruct c as [z|f|].
  - destruct (moderate_int _ _ Hp H) as [_ H1]. cbn. assert (2 ^ 51 <= 2 ^ 53) by (apply Z.pow_le_mono_r; lia). lia.
  - apply finite_exact. apply H.
  - destruct H as [[] _].
Qed.
Lemma quantise_cell p f : 0 <= p <= 15 -> moderate p (NFlt f) -> quantise (10 ^ p) (NFlt f) = Ok (cell p (coord_value (NFlt f))).
Proof.
  intros Hp [Hf Hb]. rewrite (quantise_correct p _ Hp Hf); [reflexivity|]. left. apply quantum_small; auto; lia.
Qed.
Lemma cells_correct p l : 0 <= p <= 15 -> Forall (moderate p) l ->
  exists a, np_array l = Ok a /\ cells (10 ^ p) a = Ok (map (fun c => cell p (coord_value c)) l) /\
            alen a = List.length l /\ values a = map coord_value l.
Proof.
  intros Hp H. destruct (np_array_exact l) as (a & E & V & L & Sh).
  { eapply Forall_impl; [|exact H]. intros c. now apply moderate_exact. }
  exists a. split; [exact E|]. split; [|split; assumption].
  destruct Sh as [(zs & -> & ->)|(fs & -> & F)].
  - cbn [cells]. f_equal. rewrite map_map. apply map_ext_in. intros z Hz.
    rewrite Forall_forall in H. specialize (H (NInt z) (in_map _ _ _ Hz)).
    destruct (moderate_int _ _ Hp H) as [H1 _]. assert (2 ^ 51 <= 2 ^ 53) by (apply Z.pow_le_mono_r; lia).
    assert (2 ^ 53 < 2 ^ 63) by (apply Z.pow_lt_mono_r; lia).
    rewrite wrap64_small by lia. unfold cell. cbn [coord_value]. rewrite <- mult_IZR, to_double_rnd, rnd64_int by lia.
    now rewrite Ztrunc_IZR.
  - cbn [cells values] in *. clear E L.
    assert (G : Forall (moderate p) (map NFlt fs) /\ map (fun c => cell p (coord_value c)) l = map (fun f => cell p (coord_value (NFlt f))) fs).
    { clear -V F H Hp. revert l V H. induction F as [|f fs Hf F IH]; intros [|c l] V H; try discriminate; [auto|].
      cbn [map] in V. injection V as V1 V2. change (coord_value (NFlt f) = coord_value c) in V1. inversion_clear H as [|? ? Hc Hl]. destruct (IH l V2 Hl) as [I1 I2].
      cbn [map]. rewrite I2, V1. split; [|reflexivity]. constructor; auto. destruct Hc as [Hc1 Hc2]. split; [|now rewrite V1].
      destruct f; cbn in Hf |- *; intuition discriminate. }
    destruct G as [G1 ->]. clear -G1 Hp. induction fs as [|f fs IH]; [reflexivity|]. inversion_clear G1.
    cbn [mapM map]. rewrite quantise_cell by auto. now rewrite IH.
Qed.

(** ** identity *)
Lemma form_eqb_iff f g : form_eqb f g = true <-> f = g.
Proof.
  destruct f as [[s0 s1] d], g as [[t0 t1] e]. cbn.
  destruct (list_eq_dec Z.eq_dec s0 t0) as [->|N]; [|split; [discriminate|intros [= -> _ _]; tauto]].
  destruct (list_eq_dec Z.eq_dec s1 t1) as [->|N]; [|split; [discriminate|intros [= -> _]; tauto]].
  destruct d, e; cbn; split; congruence.
Qed.
Lemma lexb_total s t : lexb s t = true \/ lexb t s = true.
Proof.
  revert t. induction s as [|x s IH]; intros [|y t]; cbn; auto. rewrite (Z.eqb_sym y x).
  destruct (Z.eqb_spec x y); auto. destruct (Z.ltb_spec x y), (Z.ltb_spec y x); auto; lia.
Qed.
Lemma lexb_antisym s t : lexb s t = true -> lexb t s = true -> s = t.
Proof.
  revert t. induction s as [|x s IH]; intros [|y t]; cbn; auto; try discriminate. rewrite (Z.eqb_sym y x).
  destruct (Z.eqb_spec x y) as [->|N]; [intros; f_equal; auto|].
  intros A B. apply Z.ltb_lt in A, B. lia.
Qed.
Definition form_of (d : bool) (t0 t1 : list Z) : list Z * list Z * bool :=
  if d then (t0, t1, true) else if lexb t0 t1 then (t0, t1, false) else (t1, t0, false).
Lemma form_undirected t0 t1 s0 s1 : form_of false t0 t1 = form_of false s0 s1 <-> (t0 = s0 /\ t1 = s1) \/ (t0 = s1 /\ t1 = s0).
Proof.
  unfold form_of. destruct (lexb t0 t1) eqn:A, (lexb s0 s1) eqn:B; (split; [intros [= -> ->]; auto|]); intros [[-> ->]|[-> ->]]; auto; try congruence.
  - rewrite (lexb_antisym _ _ A B). reflexivity.
  - destruct (lexb_total s0 s1); congruence.
Qed.

Lemma init_ok zoom p0 p1 d t0 t1 : cells zoom p0 = Ok t0 -> cells zoom p1 = Ok t1 ->
  (1 <= alen p0 <= 3)%nat -> alen p1 = alen p0 ->
  init zoom p0 p1 d = Ok (MkBond p0 p1 d (form_of d t0 t1)).
Proof.
  intros E0 E1 L0 L1. unfold init. rewrite L1, Nat.eqb_refl.
  destruct (alen p0) as [|[|[|[|n]]]]; try lia; cbn [assert_ bind]; rewrite E0, E1; cbn [bind]; unfold form_of; destruct d; auto; destruct (lexb t0 t1); auto.
Qed.
Lemma init_inv zoom p0 p1 d b : init zoom p0 p1 d = Ok b ->
  exists t0 t1, cells zoom p0 = Ok t0 /\ cells zoom p1 = Ok t1 /\ (1 <= alen p0 <= 3)%nat /\ alen p1 = alen p0 /\
  b = MkBond p0 p1 d (form_of d t0 t1).
Proof.
  intros H. pose proof H as H0. unfold init in H0.
  assert (L0 : (1 <= alen p0 <= 3)%nat).
  { destruct (alen p0) as [|[|[|[|n]]]]; cbn in H0; try discriminate; lia. }
  destruct (Nat.eqb_spec (alen p1) (alen p0)) as [L1|N].
  2:{ destruct (alen p0) as [|[|[|[|n]]]]; cbn in H0; discriminate. }
  assert (G : exists t0 t1, cells zoom p0 = Ok t0 /\ cells zoom p1 = Ok t1).
  { destruct (alen p0) as [|[|[|[|n]]]]; try lia; cbn in H0;
    (destruct (cells zoom p0) as [t0|]; [|discriminate]); (destruct (cells zoom p1) as [t1|]; [|discriminate]); eauto. }
  destruct G as (t0 & t1 & E0 & E1). rewrite (init_ok _ _ _ _ _ _ E0 E1 L0 L1) in H. injection H as <-. exists t0, t1. auto.
Qed.

Lemma make_ok p l0 l1 d : 0 <= p <= 15 -> Forall (moderate p) l0 -> Forall (moderate p) l1 ->
  (1 <= List.length l0 <= 3)%nat -> List.length l1 = List.length l0 ->
  exists a0 a1, make_bond (10 ^ p) (PVec l0) (PVec l1) d =
    Ok (MkBond a0 a1 d (form_of d (map (fun c => cell p (coord_value c)) l0) (map (fun c => cell p (coord_value c)) l1))) /\
    np_array l0 = Ok a0 /\ np_array l1 = Ok a1.
Proof.
  intros Hp H0 H1 L0 L1. destruct (cells_correct p l0 Hp H0) as (a0 & E0 & C0 & A0 & _).
  destruct (cells_correct p l1 Hp H1) as (a1 & E1 & C1 & A1 & _). exists a0, a1.
  unfold make_bond. rewrite E0, E1. cbn [bind]. split; [|auto]. apply init_ok; auto; lia.
Qed.
Lemma make_inv zoom l0 l1 d b : make_bond zoom (PVec l0) (PVec l1) d = Ok b ->
  exists a0 a1, np_array l0 = Ok a0 /\ np_array l1 = Ok a1 /\ init zoom a0 a1 d = Ok b.
Proof.
  unfold make_bond. destruct (np_array l0) as [a0|]; [|discriminate]. destruct (np_array l1) as [a1|]; [|discriminate].
  cbn [bind]. eauto.
Qed.
Lemma np_array_len l a : np_array l = Ok a -> alen a = List.length l.
Proof.
  unfold np_array. destruct (all_ints l) as [zs|] eqn:E.
  - apply all_ints_some in E as ->. intros [= <-]. cbn. now rewrite map_length.
  - destruct (mapM to_float l) as [fs|] eqn:M; [|discriminate]. intros [= <-]. cbn.
    clear E. revert fs M. induction l as [|c l IH]; cbn; intros fs M; [injection M as <-; reflexivity|].
    destruct (to_float c); [|discriminate]. destruct (mapM to_float l); [|discriminate]. injection M as <-. cbn. now rewrite (IH _ eq_refl).
Qed.
Lemma made_form p l0 l1 d b : 0 <= p <= 15 -> Forall (moderate p) l0 -> Forall (moderate p) l1 ->
  make_bond (10 ^ p) (PVec l0) (PVec l1) d = Ok b ->
  b_form b = form_of d (map (fun c => cell p (coord_value c)) l0) (map (fun c => cell p (coord_value c)) l1) /\ b_dir b = d.
Proof.
  intros Hp H0 H1 E. destruct (make_inv _ _ _ _ _ E) as (a0 & a1 & E0 & E1 & I).
  destruct (init_inv _ _ _ _ _ I) as (t0 & t1 & _ & _ & L0 & L1 & _).
  rewrite (np_array_len _ _ E0), ?(np_array_len _ _ E1) in *.
  destruct (make_ok p l0 l1 d Hp H0 H1 L0 L1) as (? & ? & E' & _). rewrite E' in E. injection E as <-. auto.
Qed.
Lemma same_point_iff p l m : same_point p l m <-> map (fun c => cell p (coord_value c)) l = map (fun c => cell p (coord_value c)) m.
Proof.
  unfold same_point. split.
  - induction 1; cbn; congruence.
  - revert m. induction l as [|a l IH]; intros [|b m]; cbn; try discriminate; [constructor|]. intros [= E1 E2]. constructor; auto.
Qed.

(** ** differences *)
Lemma tame_exact c : tame c -> exact_num c.
Proof.
  destruct c as [z|f|]; cbn [tame exact_num].
  - assert (2 ^ 52 <= 2 ^ 53) by (apply Z.pow_le_mono_r; lia). lia.
  - intros [H _]. now apply finite_exact.
  - intros [[] _].
Qed.
Lemma tame_bound c : tame c -> (Rabs (coord_value c) <= bpow radix2 1022)%R.
Proof.
  destruct c as [z|f|]; cbn [tame]; [|tauto|tauto].
  intros H. cbn [coord_value]. rewrite <- abs_IZR. change (bpow radix2 1022) with (IZR (2 ^ 1022)). apply IZR_le.
  assert (2 ^ 52 <= 2 ^ 1022) by (apply Z.pow_le_mono_r; lia). lia.
Qed.
Lemma diff_small x y : (Rabs x <= bpow radix2 1022)%R -> (Rabs y <= bpow radix2 1022)%R -> (Rabs (rnd64 (x - y)) < bpow radix2 1024)%R.
Proof.
  intros Hx Hy. apply Rle_lt_trans with (bpow radix2 1023).
  - apply abs_round_le_generic.
    + apply FLT_exp_valid. reflexivity.
    + auto with typeclass_instances.
    + apply generic_format_bpow. cbv. discriminate.
    + change 1023 with (1 + 1022). rewrite bpow_plus. change (bpow radix2 1) with 2%R.
      eapply Rle_trans; [apply Rabs_triang|]. rewrite Rabs_Ropp. lra.
  - apply bpow_lt. lia.
Qed.
Lemma float_diffs fs gs : Forall (fun f => fvalid f = true /\ ffinite f = true) fs -> Forall (fun f => fvalid f = true /\ ffinite f = true) gs ->
  Forall (fun f => (Rabs (coord_value (NFlt f)) <= bpow radix2 1022)%R) fs -> Forall (fun f => (Rabs (coord_value (NFlt f)) <= bpow radix2 1022)%R) gs ->
  map (fun f => coord_value (NFlt f)) (zip_with fsub fs gs) =
  map (fun ab => to_double (fst ab - snd ab)) (combine (map (fun f => coord_value (NFlt f)) fs) (map (fun f => coord_value (NFlt f)) gs)).
Proof.
  intros F. revert gs. induction F as [|f fs [V W] F IH]; intros [|g gs] G Bf Bg; try reflexivity.
  inversion_clear G as [|? ? [Vg Wg] G']. inversion_clear Bf. inversion_clear Bg. cbn [zip_with map combine fst snd]. rewrite IH by auto. f_equal.
  rewrite !coord_value_f2R in *. apply fsub_correct; auto. now apply diff_small.
Qed.
Lemma as_floats_exact a l : np_array l = Ok a -> Forall exact_num l ->
  Forall (fun f => fvalid f = true /\ ffinite f = true) (as_floats a) /\ map (fun f => coord_value (NFlt f)) (as_floats a) = map coord_value l.
Proof.
  intros E H. destruct (np_array_exact l H) as (a' & E' & V & _ & Sh). rewrite E in E'. injection E' as <-.
  destruct Sh as [(zs & -> & ->)|(fs & -> & F)]; [|split; auto].
  cbn [as_floats]. clear E V. induction zs as [|z zs IH]; [split; constructor|]. inversion_clear H as [|? ? Hz Hzs].
  destruct (IH Hzs) as [I1 I2]. cbn [map]. rewrite I2.
  destruct (to_float_exact _ Hz) as (f & Ef & V & F & Vf). cbn [to_float] in Ef. unfold flt_of. rewrite Ef, Vf. auto.
Qed.
Lemma Forall_map_bound fs l : map (fun f => coord_value (NFlt f)) fs = map coord_value l -> Forall tame l ->
  Forall (fun f => (Rabs (coord_value (NFlt f)) <= bpow radix2 1022)%R) fs.
Proof.
  revert l. induction fs as [|f fs IH]; intros [|c l] E H; try discriminate; constructor.
  - cbn [map] in E. injection E as E _. change (coord_value (NFlt f) = coord_value c) in E. rewrite E. apply tame_bound. now inversion H.
  - cbn [map] in E. injection E as _ E. apply (IH l E). now inversion H.
Qed.
Lemma arr_sub_values l m a b : np_array l = Ok a -> np_array m = Ok b -> Forall tame l -> Forall tame m ->
  values (arr_sub a b) = map (fun ab => to_double (fst ab - snd ab)) (combine (map coord_value l) (map coord_value m)).
Proof.
  intros Ea Eb Hl Hm.
  assert (Xl : Forall exact_num l) by (eapply Forall_impl; [|exact Hl]; intros c; apply tame_exact).
  assert (Xm : Forall exact_num m) by (eapply Forall_impl; [|exact Hm]; intros c; apply tame_exact).
  destruct (as_floats_exact a l Ea Xl) as [Fa Va]. destruct (as_floats_exact b m Eb Xm) as [Fb Vb].
  assert (G : map (fun f => coord_value (NFlt f)) (zip_with fsub (as_floats a) (as_floats b)) =
     map (fun ab => to_double (fst ab - snd ab)) (combine (map coord_value l) (map coord_value m))).
  { rewrite float_diffs; auto; [now rewrite Va, Vb|eapply Forall_map_bound; eauto|eapply Forall_map_bound; eauto]. }
  destruct a as [zs|fs], b as [ws|gs]; try exact G. clear G.
  destruct (np_array_exact l Xl) as (a' & E' & _ & _ & Sh). rewrite Ea in E'. injection E' as <-.
  destruct Sh as [(zs' & [= <-] & ->)|(fs & [=] & _)].
  destruct (np_array_exact m Xm) as (b' & E' & _ & _ & Sh). rewrite Eb in E'. injection E' as <-.
  destruct Sh as [(ws' & [= <-] & ->)|(fs & [=] & _)].
  cbn [arr_sub values]. clear -Hl Hm. revert ws Hm. induction zs as [|z zs IH]; intros [|w ws] Hm; try reflexivity.
  inversion_clear Hl. inversion_clear Hm. cbn [zip_with map combine fst snd]. rewrite IH by auto. f_equal.
  cbn [tame coord_value] in *. rewrite <- minus_IZR, to_double_rnd.
  assert (E : 2 ^ 53 = 2 * 2 ^ 52) by reflexivity. assert (2 ^ 53 < 2 ^ 63) by (apply Z.pow_lt_mono_r; lia).
  rewrite wrap64_small by lia. rewrite rnd64_int by lia. reflexivity.
Qed.
Lemma arr_sub_displacement l m a b : np_array l = Ok a -> np_array m = Ok b -> Forall tame l -> Forall tame m ->
  values (arr_sub b a) = displacement l m /\ values (arr_sub a b) = map Ropp (displacement l m).
Proof.
  intros Ea Eb Hl Hm. rewrite (arr_sub_values _ _ _ _ Ea Eb Hl Hm), (arr_sub_values _ _ _ _ Eb Ea Hm Hl).
  unfold displacement. clear. revert m. induction l as [|x l IH]; intros [|y m]; try (split; reflexivity).
  destruct (IH m) as [I1 I2]. cbn [map combine fst snd]. rewrite I1, I2. split; [reflexivity|]. f_equal.
  rewrite <- to_double_opp. f_equal. ring.
Qed.
Lemma displacement_flip l m : displacement m l = map Ropp (displacement l m).
Proof.
  unfold displacement. revert m. induction l as [|x l IH]; intros [|y m]; try reflexivity.
  cbn [map combine fst snd]. rewrite IH. f_equal. rewrite <- to_double_opp. f_equal. ring.
Qed.
Lemma norm_euclid v : norm v = euclid v.
Proof. unfold norm, euclid. f_equal. change sumR with sum. f_equal. apply map_ext. intros x. ring. Qed.
Lemma norm_opp v : norm (map Ropp v) = norm v.
Proof. unfold norm. do 2 f_equal. rewrite map_map. apply map_ext. intros x. ring. Qed.
Lemma around_opp nd x : around nd (- x) = (- around nd x)%R.
Proof.
  destruct nd as [n|]; [|reflexivity]. cbn [around]. rewrite Ropp_mult_distr_l_reverse.
  assert (E : ZnearestE (- (x * powerRZ 10 n)) = - ZnearestE (x * powerRZ 10 n)).
  { rewrite Znearest_opp. f_equal. unfold Znearest. destruct (Rcompare _ _); auto.
    replace (negb (negb (Z.even (- (Zfloor (x * powerRZ 10 n) + 1))))) with (negb (Z.even (Zfloor (x * powerRZ 10 n)))); [reflexivity|].
    rewrite negb_involutive, Z.even_opp, Z.even_add. cbn. destruct (Z.even _); reflexivity. }
  rewrite E, opp_IZR. unfold Rdiv. ring.
Qed.

(** ** arctan2 *)
Lemma atan2_spec y x :
  (- PI < atan2 y x <= PI)%R /\
  (sqrt (x * x + y * y) * cos (atan2 y x) = x)%R /\ (sqrt (x * x + y * y) * sin (atan2 y x) = y)%R.
Proof.
  pose proof PI_RGT_0 as Pp.
  assert (Key : forall x y, x <> 0%R -> (sqrt (x * x + y * y) = Rabs x * sqrt (1 + Rsqr (y / x)))%R).
  { intros u v Hu. rewrite <- sqrt_Rsqr_abs, <- sqrt_mult_alt by apply Rle_0_sqr. f_equal. unfold Rsqr. field. exact Hu. }
  assert (Pos : (0 < sqrt (1 + Rsqr (y / x)))%R) by (apply sqrt_lt_R0; pose proof (Rle_0_sqr (y / x)); lra).
  pose proof (atan_bound (y / x)) as Ab. unfold atan2.
  destruct (Rlt_dec 0 x) as [Hx|Hx]; [|destruct (Rlt_dec x 0) as [Hx'|Hx']].
  - split; [lra|]. rewrite Key by lra. rewrite Rabs_pos_eq by lra. rewrite cos_atan, sin_atan. split; field; lra.
  - rewrite Key by lra. rewrite Rabs_left by lra.
    destruct (Rle_dec 0 y) as [Hy|Hy].
    + split.
      { assert (atan (y / x) <= 0)%R; [|lra]. rewrite <- atan_0. destruct (Req_dec y 0) as [->|Ny].
        - unfold Rdiv. rewrite Rmult_0_l. lra.
        - left. apply atan_increasing. assert (/ x < 0)%R by (now apply Rinv_lt_0_compat). unfold Rdiv. nra. }
      rewrite neg_cos, neg_sin, cos_atan, sin_atan. split; field; lra.
    + split.
      { assert (0 < atan (y / x))%R; [|lra]. rewrite <- atan_0. apply atan_increasing.
        assert (/ x < 0)%R by (now apply Rinv_lt_0_compat). unfold Rdiv. nra. }
      replace (atan (y / x) - PI)%R with (- (PI - atan (y / x)))%R by ring.
      rewrite cos_neg, sin_neg, Rtrigo_facts.cos_pi_minus, Rtrigo_facts.sin_pi_minus, cos_atan, sin_atan. split; field; lra.
  - assert (x = 0%R) as -> by lra. rewrite Rmult_0_l, Rplus_0_l. fold (Rsqr y). rewrite sqrt_Rsqr_abs.
    destruct (Rlt_dec 0 y) as [Hy|Hy]; [|destruct (Rlt_dec y 0) as [Hy'|Hy']].
    + rewrite cos_PI2, sin_PI2, Rabs_pos_eq by lra. split; [lra|split; ring].
    + rewrite cos_neg, sin_neg, cos_PI2, sin_PI2, Rabs_left by lra. split; [lra|split; ring].
    + assert (y = 0%R) as -> by lra. rewrite Rabs_R0. split; [lra|split; ring].
Qed.
Lemma atan2_nonneg y x : (0 <= y)%R -> (0 <= atan2 y x)%R.
Proof.
  intros Hy. pose proof PI_RGT_0. pose proof (atan_bound (y / x)). unfold atan2.
  destruct (Rlt_dec 0 x) as [Hx|Hx].
  - rewrite <- atan_0. destruct (Req_dec y 0) as [->|Ny]; [unfold Rdiv; rewrite Rmult_0_l; lra|].
    left. apply atan_increasing. apply Rdiv_lt_0_compat; lra.
  - destruct (Rlt_dec x 0); [destruct (Rle_dec 0 y); lra|]. destruct (Rlt_dec 0 y); [lra|]. destruct (Rlt_dec y 0); lra.
Qed.
