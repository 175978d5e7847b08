From Coq Require Import List ZArith NArith QArith Bool Arith Lia Permutation.
From Verif Require Import Py Fock_Spec Fock_Proofs MatrixRepr_Model MatrixRepr_Proofs MatrixRepr_Proofs2 Hilbert_Model Hilbert_Spec Hilbert_Proofs.
Import ListNotations.
Open Scope nat_scope.

Lemma nonneg_iff l m : nonneg_ints l = Some m <-> l = map (fun x => PInt (Z.of_N x)) m.
Proof.
  revert m. induction l as [|v l IH]; intros m; cbn.
  - split; [intros [= <-]; reflexivity|]. destruct m; [auto|discriminate].
  - fold (nonneg_ints l). destruct v as [z| | | | |]; try (split; [discriminate|destruct m; discriminate]).
    destruct (nonneg_ints l) as [r|].
    + destruct (Z.leb_spec 0 z).
      * split.
        -- intros [= <-]. cbn. rewrite Z2N.id by lia. f_equal. now apply IH.
        -- destruct m as [|x m]; [discriminate|]. cbn. intros [= -> E]. rewrite N2Z.id. apply IH in E. congruence.
      * split; [discriminate|]. destruct m as [|x m]; [discriminate|]. cbn. intros [= E _]. lia.
    + split; [destruct (0 <=? z)%Z; discriminate|]. destruct m as [|x m]; [discriminate|]. cbn. intros [= _ E].
      apply IH in E. discriminate.
Qed.
Lemma valid_iff v m : valid_states_collection v = Some m <->
  m <> [] /\ (v = PTup (map (fun x => PInt (Z.of_N x)) m) \/ v = PList (map (fun x => PInt (Z.of_N x)) m) \/
              v = PSet (map (fun x => PInt (Z.of_N x)) m)).
Proof.
  assert (Q : forall l, match l with [] => None | _ :: _ => nonneg_ints l end = Some m <->
      m <> [] /\ l = map (fun x => PInt (Z.of_N x)) m).
  { intros l. split.
    - intros H. assert (E : nonneg_ints l = Some m) by (destruct l; [discriminate|exact H]).
      apply nonneg_iff in E. split; auto. intros ->. subst l. discriminate.
    - intros [H E]. assert (E' : nonneg_ints l = Some m) by now apply nonneg_iff. destruct l; auto.
      destruct m; [contradiction|discriminate]. }
  destruct v as [z|q|l|l|l|]; cbn [valid_states_collection];
    try (split; [discriminate|]; intros (_ & [E|[E|E]]); discriminate);
    rewrite Q; (split; [intros [H ->]; auto|intros (H & [E|[E|E]]); try discriminate; injection E as ->; auto]).
Qed.

(** What preprocessing accepts: the documented specifiers, and also float numbers. *)
Lemma preprocess_int v l z : preprocess v = Ok (l, NumI z) <-> std_spec v l z.
Proof.
  assert (P : forall mk st p, mk = PTup \/ mk = PList -> (pair_preprocess st p = Ok (l, NumI z) <-> std_spec (mk [st; p]) l z)).
  { intros mk st p Hmk. split.
    - unfold pair_preprocess. destruct st as [n|q|c|c|c|].
      + destruct (Z.ltb_spec 0 n); [|discriminate]. destruct p as [m|q| | | |]; cbn [ge_pnum]; try discriminate.
        * destruct (Z.leb_spec m n); [|discriminate]. intros [= <- <-]. now constructor.
        * destruct (Qle_bool _ _); discriminate.
      + discriminate.
      + destruct (valid_states_collection (PTup c)) as [m|] eqn:E; [|discriminate]. apply valid_iff in E as (E & [E'|[E'|E']]); try discriminate.
        injection E' as ->. destruct p as [k|q| | | |]; cbn [ge_pnum]; try discriminate.
        * destruct (Z.leb_spec k (Z.of_nat (length m))); [|discriminate]. intros [= <- <-]. constructor 3 with (mk' := PTup); auto.
        * destruct (Qle_bool _ _); discriminate.
      + destruct (valid_states_collection (PList c)) as [m|] eqn:E; [|discriminate]. apply valid_iff in E as (E & [E'|[E'|E']]); try discriminate.
        injection E' as ->. destruct p as [k|q| | | |]; cbn [ge_pnum]; try discriminate.
        * destruct (Z.leb_spec k (Z.of_nat (length m))); [|discriminate]. intros [= <- <-]. constructor 3 with (mk' := PList); auto.
        * destruct (Qle_bool _ _); discriminate.
      + destruct (valid_states_collection (PSet c)) as [m|] eqn:E; [|discriminate]. apply valid_iff in E as (E & [E'|[E'|E']]); try discriminate.
        injection E' as ->. destruct p as [k|q| | | |]; cbn [ge_pnum]; try discriminate.
        * destruct (Z.leb_spec k (Z.of_nat (length m))); [|discriminate]. intros [= <- <-]. constructor 3 with (mk' := PSet); auto.
        * destruct (Qle_bool _ _); discriminate.
      + discriminate.
    - intros H. inversion H as [n Hn|mk0 n m Hmk0 Hn Hm E|mk0 mk' c m Hmk0 Hmk' Hc Hm E]; subst.
      + destruct Hmk; subst mk; discriminate.
      + assert (E' : [PInt n; PInt z] = [st; p]) by (destruct Hmk, Hmk0; subst; congruence).
        injection E' as <- <-. cbn [pair_preprocess ge_pnum]. destruct (Z.ltb_spec 0 n); [|lia].
        destruct (Z.leb_spec z n); [|lia]. reflexivity.
      + assert (E' : [mk' (map (fun x => PInt (Z.of_N x)) l); PInt z] = [st; p]) by (destruct Hmk, Hmk0; subst; congruence).
        injection E' as <- <-.
        assert (V : valid_states_collection (mk' (map (fun x => PInt (Z.of_N x)) l)) = Some l)
          by (apply valid_iff; split; auto; intuition congruence).
        unfold pair_preprocess. destruct Hmk' as [->|[->| ->]]; rewrite V; cbn [ge_pnum];
          (destruct (Z.leb_spec z (Z.of_nat (length l))); [reflexivity|lia]). }
  split.
  - intros H. destruct v as [n|q|[|st [|p [|]]]|[|st [|p [|]]]|c|]; cbn [preprocess] in H; try discriminate.
    + destruct (Z.ltb_spec 0 n); [|discriminate]. injection H as <- <-. now constructor.
    + apply (P PTup); auto.
    + apply (P PList); auto.
  - intros H. pose proof H as H0. inversion H as [n Hn|mk0 n m Hmk0 Hn Hm E|mk0 mk' c m Hmk0 Hmk' Hc Hm E]; subst.
    + cbn. destruct (Z.ltb_spec 0 n); [reflexivity|lia].
    + apply (P mk0) in H0; auto. destruct Hmk0; subst; exact H0.
    + apply (P mk0) in H0; auto. destruct Hmk0; subst; exact H0.
Qed.

Lemma std_specs_iff vs specs : std_specs vs specs <-> mapM preprocess vs = Ok specs /\ integral specs.
Proof.
  split.
  - induction 1 as [|v s vs specs (z & E & H) _ (IH1 & IH2)]; [split; [reflexivity|constructor]|].
    apply preprocess_int in H. destruct s as [l p]; cbn in *; subst p. rewrite H, IH1. split; auto. constructor; auto. cbn; eauto.
  - intros [H1 H2]. revert specs H1 H2. induction vs as [|v vs IH]; cbn; intros specs H1 H2.
    + injection H1 as <-. constructor.
    + destruct (preprocess v) as [[l p]|] eqn:E; [|discriminate]. destruct (mapM preprocess vs) as [r|]; [|discriminate].
      injection H1 as <-. inversion H2 as [|? ? (z & Ez) H2']; subst. cbn in Ez. subst p. constructor; [|apply IH; auto].
      exists z. split; auto. cbn. now apply preprocess_int.
Qed.

Lemma disjoint_spec specs : all_disjoint (map fst specs) = true <-> pairwise_disjoint specs.
Proof.
  rewrite all_disjoint_iff. unfold pairwise_disjoint. split.
  - intros H i j s t x Hij Hs Ht Hx Hx'. apply (H i j (fst s) (fst t) x); auto; now apply map_nth_error.
  - intros H i j a b x Hij Ha Hb Hx Hx'. rewrite nth_error_map in Ha, Hb.
    destruct (nth_error specs i) as [s|] eqn:Es; [|discriminate]. destruct (nth_error specs j) as [t|] eqn:Et; [|discriminate].
    injection Ha as <-. injection Hb as <-. eapply (H i j s t x); eauto.
Qed.

Lemma gens_exist specs : integral specs -> exists gens, mapM (fun s => subspace_bases (fst s) (snd s)) specs = Ok gens.
Proof.
  induction 1 as [|s specs (z & E) _ (gens & IH)]; [exists []; reflexivity|].
  cbn. rewrite E, IH. cbn. eauto.
Qed.

(** base_vectors, list container, sorted *)
Lemma base_vectors_list vs specs : std_specs vs specs -> no_repeats specs -> pairwise_disjoint specs ->
  exists ks, (forall c sort, c <> CBadContainer -> base_vectors vs c sort = finish ks c sort) /\
    (forall k, In k ks <-> in_space specs k) /\ NoDup ks /\ length ks = total_dim specs.
Proof.
  intros Hv Hn Hd. apply std_specs_iff in Hv as [Hv Hi]. destruct (gens_exist _ Hi) as [gens Hg].
  exists (raw_kets gens). split.
  - intros c sort Hc. unfold base_vectors. rewrite Hv. apply disjoint_spec in Hd.
    destruct c; try contradiction; cbn [check_container bind]; rewrite Hd, Hg; reflexivity.
  - apply kets_spec; [now apply gens_good|]. apply disjoint_NoDup; auto. now apply disjoint_spec.
Qed.

Lemma finish_list ks : NoDup ks -> sorted_bases (sort_n ks).
Proof.
  intros H. apply weak_strict; [|apply sort_sorted]. eapply Permutation_NoDup; [apply sort_perm|auto].
Qed.

(** ** Overflow *)
Lemma ket_ge c : forall acc x, In x c -> (2 ^ x <= fold_left (fun s pos => (s + N.shiftl 1 pos)%N) c acc)%N.
Proof.
  assert (M : forall c acc, (acc <= fold_left (fun s pos => (s + N.shiftl 1 pos)%N) c acc)%N).
  { clear. induction c as [|y c IH]; intros acc; cbn [fold_left]; [lia|]. eapply N.le_trans; [|apply IH]. lia. }
  induction c as [|y c IH]; intros acc x; cbn [fold_left In]; [intros []|]. intros [->|Hx]; [|now apply IH].
  eapply N.le_trans; [|apply M]. rewrite N.shiftl_1_l. lia.
Qed.
Lemma exists_comb {A} (l : list A) b : forall k, In b l -> 1 <= k <= length l -> exists c, In c (combs l k) /\ In b c.
Proof.
  assert (NE : forall (l : list A) k, k <= length l -> exists c, In c (combs l k)).
  { clear. induction l as [|x r IH]; intros [|k] H; cbn in *; try lia; try (eexists; now left).
    destruct (IH k) as [c Hc]; [lia|]. exists (x :: c). apply in_app_iff. left. now apply in_map. }
  induction l as [|x r IH]; intros k Hb Hk; [destruct Hb|]. destruct k as [|k]; [lia|]. cbn [combs].
  destruct Hb as [->|Hb].
  - destruct (NE r k) as [c Hc]; [cbn in Hk; lia|]. exists (b :: c). split; [|now left]. apply in_app_iff. left. now apply in_map.
  - destruct k as [|k].
    + destruct (IH 1) as (c & Hc & Hx); auto. { destruct r; [destruct Hb|cbn; lia]. }
      exists c. split; auto. apply in_app_iff. now right.
    + destruct (IH (S k)) as (c & Hc & Hx); auto. { cbn in Hk; lia. }
      exists (x :: c). split; [|now right]. apply in_app_iff. left. now apply in_map.
Qed.
Lemma subspace_in l z g b : subspace_bases l (NumI z) = Ok g -> (z <= Z.of_nat (length l))%Z -> z <> 0%Z -> In b l ->
  exists c, In c g /\ In b c.
Proof.
  intros [= <-] Hz Hz0 Hb. destruct (Z.ltb_spec z 0).
  - destruct (exists_comb l b 1 Hb) as (c & Hc & Hx). { destruct l; [destruct Hb|cbn; lia]. }
    exists c. split; auto. apply in_flat_map. exists 1. split; auto. apply in_seq. destruct l; [destruct Hb|cbn; lia].
  - apply exists_comb; auto. lia.
Qed.
Lemma subspace_nonempty l z g : subspace_bases l (NumI z) = Ok g -> (z <= Z.of_nat (length l))%Z -> exists c, In c g.
Proof.
  intros H Hz. destruct (Z.eq_dec z 0) as [->|Hz0].
  - injection H as <-. exists []. cbn. destruct l; now left.
  - destruct l as [|b l].
    + injection H as <-. destruct (Z.ltb_spec z 0).
      * exists []. cbn. now left.
      * cbn in Hz. lia.
    + destruct (subspace_in _ _ _ b H Hz Hz0) as (c & Hc & _); [now left|eauto].
Qed.
Definition bounded (specs : list (list N * pnum)) : Prop :=
  Forall (fun s => forall z, snd s = NumI z -> (z <= Z.of_nat (length (fst s)))%Z) specs.
Lemma std_bounded vs specs : std_specs vs specs -> bounded specs.
Proof.
  induction 1 as [|v s vs specs (z & E & H) _ IH]; constructor; auto. intros w Ew. rewrite E in Ew. injection Ew as <-.
  inversion H; subst; rewrite ?map_length, ?seq_length; try lia.
Qed.
Lemma big_ket specs gens : integral specs -> bounded specs ->
  mapM (fun s => subspace_bases (fst s) (snd s)) specs = Ok gens ->
  (exists b, In b (prod gens)) /\
  forall s b, In s specs -> In b (fst s) -> snd s <> NumI 0 ->
  exists k, In k (raw_kets gens) /\ (2 ^ b <= k)%N.
Proof.
  intros Hi. revert gens. induction Hi as [|s specs (z & E) Hi IH]; intros gens Hb Hg.
  - injection Hg as <-. split; [eexists; now left|]. intros s b [].
  - cbn in Hg. destruct (subspace_bases (fst s) (snd s)) as [g|] eqn:Eg; [|discriminate].
    destruct (mapM _ specs) as [gs|] eqn:Egs; [|discriminate]. injection Hg as <-.
    inversion Hb as [|? ? Hs Hb']; subst. destruct (IH gs Hb' eq_refl) as [(b0 & Hb0) IH']. specialize (Hs z E). rewrite E in Eg.
    destruct (subspace_nonempty _ _ _ Eg Hs) as (c0 & Hc0). split.
    + exists (c0 :: b0). apply prod_in. constructor; auto. now apply prod_in.
    + intros t b [<-|Ht] Hbt Hnz.
      * destruct (subspace_in _ _ _ b Eg Hs) as (c & Hc & Hx); auto; [congruence|].
        exists (ket_of (concat (c :: b0))). split.
        -- unfold raw_kets. apply in_map_iff. eexists. split; eauto. apply prod_in. constructor; auto. now apply prod_in.
        -- apply ket_ge. cbn. apply in_app_iff. now left.
      * destruct (IH' t b Ht Hbt Hnz) as (k & Hk & Hle).
        unfold raw_kets in Hk. apply in_map_iff in Hk as (b1 & <- & Hb1).
        exists (ket_of (concat (c0 :: b1))). split.
        -- unfold raw_kets. apply in_map_iff. eexists. split; eauto. apply prod_in. constructor; auto. now apply prod_in.
        -- eapply N.le_trans; [exact Hle|]. unfold ket_of. cbn [concat]. rewrite fold_left_app.
           generalize (fold_left (fun s0 pos => (s0 + N.shiftl 1 pos)%N) c0 0%N). intros a.
           clear. assert (M : forall l x y, (x <= y)%N -> (fold_left (fun s pos => (s + N.shiftl 1 pos)%N) l x <= fold_left (fun s pos => (s + N.shiftl 1 pos)%N) l y)%N).
           { induction l; cbn [fold_left]; intros; auto. apply IHl. lia. }
           apply M. lia.
Qed.
Lemma ket_bound k : (forall b, N.testbit k b = true -> (b < 64)%N) -> (k < 2 ^ 64)%N.
Proof.
  intros H. destruct (N.eq_dec k 0) as [->|Hk]; [reflexivity|].
  apply N.log2_lt_pow2; [lia|]. apply H. now apply N.bit_log2.
Qed.

Lemma array_iff vs specs sort : std_specs vs specs -> no_repeats specs -> pairwise_disjoint specs ->
  (base_vectors vs CArray sort = Err OverflowError <->
   exists s b, In s specs /\ In b (fst s) /\ (64 <= b)%N /\ snd s <> NumI 0).
Proof.
  intros Hv Hn Hd. pose proof Hv as Hv0. apply std_specs_iff in Hv as [Hv Hi]. destruct (gens_exist _ Hi) as [gens Hg].
  assert (E : base_vectors vs CArray sort = finish (raw_kets gens) CArray sort).
  { unfold base_vectors. rewrite Hv. apply disjoint_spec in Hd. cbn [check_container bind]. now rewrite Hd, Hg. }
  rewrite E. unfold finish.
  assert (FA : forall b, forallb b (if sort then sort_n (raw_kets gens) else raw_kets gens) = forallb b (raw_kets gens)).
  { intros b. destruct sort; auto. apply eq_true_iff_eq. rewrite !forallb_forall.
    split; intros H x Hx; apply H; (eapply Permutation_in; [|exact Hx]); [apply sort_perm|apply Permutation_sym, sort_perm]. }
  rewrite FA. destruct (forallb _ (raw_kets gens)) eqn:F.
  - split; [discriminate|]. intros (s & b & Hs & Hb & Hge & Hz). exfalso.
    destruct (proj2 (big_ket _ _ Hi (std_bounded _ _ Hv0) Hg) s b Hs Hb Hz) as (k & Hk & Hle).
    rewrite forallb_forall in F. apply F in Hk. apply N.ltb_lt in Hk.
    assert (2 ^ 64 <= 2 ^ b)%N by (apply N.pow_le_mono_r; lia). lia.
  - split; auto. intros _.
    destruct (kets_spec specs gens) as [K _]; [now apply gens_good|apply disjoint_NoDup; auto; now apply disjoint_spec|].
    assert (X : exists k, In k (raw_kets gens) /\ (2 ^ 64 <= k)%N).
    { clear -F. induction (raw_kets gens) as [|k l IH]; [discriminate|]. cbn [forallb] in F.
      destruct (N.ltb_spec k (2 ^ 64)).
      - destruct IH as (k' & H1 & H2); auto. exists k'. split; auto. now right.
      - exists k. split; auto. now left. }
    destruct X as (k & Hk & Hge). apply K in Hk as [K1 K2].
    assert (Y : exists b, N.testbit k b = true /\ (64 <= b)%N).
    { exists (N.log2 k). split; [apply N.bit_log2; intros ->; apply N.le_0_r in Hge; discriminate|].
      apply N.log2_le_pow2; auto. eapply N.lt_le_trans; [|exact Hge]. reflexivity. }
    destruct Y as (b & Hb & Hb64). destruct (K1 b Hb) as (s & Hs & Hbs). exists s, b. repeat split; auto.
    intros Ez. rewrite Forall_forall in K2. specialize (K2 s Hs). unfold number_ok in K2. rewrite Ez in K2.
    destruct K2 as [K2|K2]; [lia|]. unfold occupied in K2.
    assert (In b (filter (N.testbit k) (fst s))) by now apply filter_In. destruct (filter _ (fst s)); [auto|cbn in K2; lia].
Qed.

(** ** Full Fock space and sectors *)
Lemma filter_map_len {A B} (f : B -> bool) (g : A -> B) l : length (filter f (map g l)) = length (filter (fun x => f (g x)) l).
Proof. induction l; cbn; auto. destruct (f (g a)); cbn; lia. Qed.
Lemma in_range_states n b : In b (range_states n) <-> (Z.of_N b < n)%Z.
Proof.
  unfold range_states. rewrite in_map_iff. split.
  - intros (i & <- & Hi). apply in_seq in Hi. lia.
  - intros H. exists (N.to_nat b). split; [lia|]. apply in_seq. lia.
Qed.
Lemma range_NoDup n : NoDup (range_states n).
Proof. apply NoDup_map_inj; [lia|apply seq_NoDup]. Qed.
Lemma bits_bound k n : (forall b, N.testbit k b = true -> (b < N.of_nat n)%N) <-> (k < 2 ^ N.of_nat n)%N.
Proof.
  split.
  - intros H. destruct (N.eq_dec k 0) as [->|Hk]; [apply N.neq_0_lt_0, N.pow_nonzero; lia|].
    apply N.log2_lt_pow2; [lia|]. apply H. now apply N.bit_log2.
  - intros H b Hb. destruct (N.lt_ge_cases b (N.of_nat n)); auto. exfalso.
    assert (k < 2 ^ b)%N. { eapply N.lt_le_trans; [exact H|]. apply N.pow_le_mono_r; lia. }
    rewrite <- (N.mod_small k (2 ^ b)) in Hb by auto. rewrite N.mod_pow2_bits_high in Hb by lia. discriminate.
Qed.
Lemma in_space_sector n p k : in_space [(range_states (Z.of_nat n), NumI (Z.of_nat p))] k <-> In k (sector_bases n p).
Proof.
  unfold in_space, sector_bases. rewrite filter_In, in_full_bases, <- bits_bound, Nat.eqb_eq. unfold below.
  assert (O : occupied k (range_states (Z.of_nat n)) = length (filter (fun q => N.testbit k (N.of_nat q)) (seq 0 n))).
  { unfold occupied, range_states. rewrite Nat2Z.id. apply filter_map_len. }
  rewrite <- O. split.
  - intros [H1 H2]. split.
    + intros b Hb. destruct (H1 b Hb) as (s & [<-|[]] & Hs). cbn [fst] in Hs. apply in_range_states in Hs. lia.
    + inversion H2 as [|? ? H ?]; subst. unfold number_ok in H; cbn [fst snd] in H. lia.
  - intros [H1 H2]. split.
    + intros b Hb. eexists. split; [now left|]. cbn. apply in_range_states. apply H1 in Hb. lia.
    + constructor; [|constructor]. unfold number_ok; cbn [fst snd]. lia.
Qed.
Lemma in_space_full n k : in_space [(range_states (Z.of_nat n), NumI (-1))] k <-> In k (full_bases n).
Proof.
  unfold in_space. rewrite in_full_bases, <- bits_bound. split.
  - intros [H1 H2] b Hb. destruct (H1 b Hb) as (s & [<-|[]] & Hs). cbn [fst] in Hs. apply in_range_states in Hs. lia.
  - intros H1. split.
    + intros b Hb. eexists. split; [now left|]. cbn. apply in_range_states. apply H1 in Hb. lia.
    + constructor; [|constructor]. unfold number_ok; cbn [fst snd]. lia.
Qed.
Lemma single_disjoint s : pairwise_disjoint [s].
Proof. intros [|i] [|[|j]] a b x Hij Ha Hb; cbn in *; try lia; discriminate. Qed.

Lemma single_array v n z L : (n <= 64) -> std_spec v (range_states (Z.of_nat n)) z ->
  sorted_bases L -> (forall k, in_space [(range_states (Z.of_nat n), NumI z)] k <-> In k L) ->
  base_vectors [v] CArray true = Ok (KArray L).
Proof.
  intros Hn Hv HL HI.
  assert (S : std_specs [v] [(range_states (Z.of_nat n), NumI z)]) by (constructor; [exists z; split; [reflexivity|exact Hv]|apply Forall2_nil]).
  assert (R : no_repeats [(range_states (Z.of_nat n), NumI z)]) by (constructor; [apply range_NoDup|constructor]).
  destruct (base_vectors_list _ _ S R (single_disjoint _)) as (ks & E & K1 & K2 & _).
  rewrite E by discriminate. unfold finish.
  replace (sort_n ks) with L.
  2:{ apply sorted_unique; auto; [now apply finish_list|]. intros x. rewrite <- HI, <- K1.
      split; apply Permutation_in; [apply sort_perm|apply Permutation_sym, sort_perm]. }
  replace (forallb _ L) with true; auto. symmetry. apply forallb_forall. intros k Hk. apply N.ltb_lt.
  apply HI in Hk as [Hk _]. apply ket_bound. intros b Hb. destruct (Hk b Hb) as (s & [<-|[]] & Hs). cbn [fst] in Hs.
  apply in_range_states in Hs. lia.
Qed.
