(** C19-C22 (and C15 with the arrays base_vectors returns): HamiltonianPy/hilbertspace.py. *)
From Coq Require Import List ZArith NArith QArith Bool Arith Lia Permutation.
From Verif Require Import Py GQ Fock_Spec Fock_Proofs MatrixRepr_Model MatrixRepr_Proofs MatrixRepr_Proofs2
  Hilbert_Model Hilbert_Spec Hilbert_Proofs Hilbert_Proofs2.
Import ListNotations.
Open Scope nat_scope.

(** ** C19 *)
(** For well-formed specifiers of pairwise disjoint collections without
    repeated states, the result lists exactly the kets of the space, in strictly
    increasing order; its length is the product of the dimensions. *)
Theorem C19_base_vectors : forall vs specs,
  std_specs vs specs -> no_repeats specs -> pairwise_disjoint specs ->
  exists ks, base_vectors vs CList true = Ok (KList ks) /\ base_vectors vs CTuple true = Ok (KTuple ks) /\
    sorted_bases ks /\ (forall k, In k ks <-> in_space specs k) /\ length ks = total_dim specs.
Proof.
  intros vs specs H1 H2 H3. destruct (base_vectors_list _ _ H1 H2 H3) as (ks & E & K1 & K2 & K3).
  exists (sort_n ks). rewrite !E by discriminate. split; [reflexivity|]. split; [reflexivity|].
  split; [now apply finish_list|]. split.
  - intros k. rewrite <- K1. split; apply Permutation_in; [apply Permutation_sym, sort_perm|apply sort_perm].
  - rewrite <- K3. apply Permutation_length, Permutation_sym, sort_perm.
Qed.
Print Assumptions C19_base_vectors.
(** Without sorting: the same integers, each once. *)
Theorem C19_unsorted : forall vs specs,
  std_specs vs specs -> no_repeats specs -> pairwise_disjoint specs ->
  exists ks, base_vectors vs CList false = Ok (KList ks) /\ NoDup ks /\
    (forall k, In k ks <-> in_space specs k) /\ length ks = total_dim specs.
Proof.
  intros vs specs H1 H2 H3. destruct (base_vectors_list _ _ H1 H2 H3) as (ks & E & K1 & K2 & K3).
  exists ks. rewrite !E by discriminate. auto.
Qed.
Print Assumptions C19_unsorted.
(** The two common cases as arrays. *)
Theorem C19_full_space : forall n, 1 <= n <= 64 ->
  base_vectors [PInt (Z.of_nat n)] CArray true = Ok (KArray (full_bases n)).
Proof.
  intros n Hn. apply (single_array (PInt (Z.of_nat n)) n (-1)); try lia.
  - constructor. lia.
  - apply sorted_full.
  - intros k. apply in_space_full.
Qed.
Print Assumptions C19_full_space.
Theorem C19_sector : forall n p, 1 <= n <= 64 -> p <= n ->
  base_vectors [PTup [PInt (Z.of_nat n); PInt (Z.of_nat p)]] CArray true = Ok (KArray (sector_bases n p)).
Proof.
  intros n p Hn Hp. apply (single_array _ n (Z.of_nat p)); try lia.
  - constructor; try lia. now left.
  - apply sorted_sector.
  - intros k. apply in_space_sector.
Qed.
Print Assumptions C19_sector.
Example C19_example :
  base_vectors [PTup [PTup [PInt 0; PInt 2]; PInt 1]; PTup [PSet [PInt 1; PInt 3]; PInt 1]] CArray true
  = Ok (KArray [3; 6; 9; 12]%N).
Proof. reflexivity. Qed.
Example C19_hypotheses :
  std_specs [PTup [PTup [PInt 0; PInt 2]; PInt 1]; PInt 1] [([0; 2]%N, NumI 1); ([0]%N, NumI (-1))] /\
  no_repeats [([0; 2]%N, NumI 1); ([1; 3]%N, NumI 1)] /\ pairwise_disjoint [([0; 2]%N, NumI 1); ([1; 3]%N, NumI 1)].
Proof.
  split; [|split].
  - constructor; [|constructor; [|constructor]].
    + exists 1%Z. split; auto. apply (std_coll PTup PTup [0; 2]%N 1%Z); auto; [discriminate|cbn; lia].
    + exists (-1)%Z. split; auto. apply (std_int 1). lia.
  - repeat constructor; cbn; intuition discriminate.
  - intros [|[|[|i]]] [|[|[|j]]] s t x Hij Hs Ht; cbn in *; try lia; try discriminate.
    injection Hs as <-. injection Ht as <-. cbn. intuition (subst; discriminate).
Qed.

(** C15 on the arrays that base_vectors returns: a term with charge q - p maps
    the p-particle to the q-particle sector without a failed lookup. *)
Theorem C15_base_vectors : forall n p q term coeff,
  1 <= n <= 64 -> p <= n -> q <= n -> term <> [] ->
  Forall (fun x => (0 <= fst x < Z.of_nat n)%Z) term ->
  Z.of_nat q = (Z.of_nat p + word_charge (map (fun x => (Z.to_nat (fst x), snd x)) term))%Z ->
  exists right left m,
    base_vectors [PTup [PInt (Z.of_nat n); PInt (Z.of_nat p)]] CArray true = Ok (KArray right) /\
    base_vectors [PTup [PInt (Z.of_nat n); PInt (Z.of_nat q)]] CArray true = Ok (KArray left) /\
    matrix_function term right (Some left) coeff Tgeneral = Ok m /\
    nrows m = binom n q /\ ncols m = binom n p.
Proof.
  intros n p q term coeff Hn Hp Hq Hne Hi Hc.
  assert (L : forall r, r <= n -> length (sector_bases n r) = binom n r).
  { intros r Hr.
    assert (S : std_specs [PTup [PInt (Z.of_nat n); PInt (Z.of_nat r)]] [(range_states (Z.of_nat n), NumI (Z.of_nat r))]).
    { constructor; [|constructor]. exists (Z.of_nat r). split; auto. constructor; try lia. now left. }
    destruct (C19_base_vectors _ _ S) as (ks & _ & _ & K1 & K2 & K3).
    - constructor; [apply range_NoDup|constructor].
    - apply single_disjoint.
    - assert (E : ks = sector_bases n r).
      { apply sorted_unique; auto; [apply sorted_sector|]. intros x. rewrite K2. apply in_space_sector. }
      rewrite <- E, K3. cbn. destruct (Z.ltb_spec (Z.of_nat r) 0); [lia|].
      unfold range_states. rewrite map_length, seq_length, !Nat2Z.id. lia. }
  exists (sector_bases n p), (sector_bases n q).
  assert (Hw : indices_below n (word_of term)).
  { apply Forall_forall. intros x Hx. apply in_map_iff in Hx as (y & <- & Hy).
    rewrite Forall_forall in Hi. specialize (Hi y Hy). cbn. lia. }
  assert (B : forall a b, b <= a -> 0 < binom a b).
  { induction a as [|a IH]; intros [|b] H; cbn; try lia. specialize (IH b). lia. }
  destruct (general_ok term (sector_bases n p) (Some (sector_bases n q)) coeff) as (m & Hm & R1 & R2 & _); cbn [the_left] in *; auto.
  - apply sorted_sector.
  - eapply Forall_impl; [|exact Hi]. unfold good_index. cbn. lia.
  - now apply closed_sector.
  - left. intros E. specialize (L q Hq). rewrite E in L. cbn in L. specialize (B n q Hq). lia.
  - exists m. rewrite !C19_sector by lia. rewrite R1, R2, !L by lia. auto.
Qed.
Print Assumptions C15_base_vectors.

(** ** C20 *)
(** HilbertSpace(...)(...) and base_vectors(...) return the same, exceptions included. *)
Theorem C20_hilbert_space : forall vs c sort, c <> CBadContainer ->
  base_vectors vs c sort = bind (make_space vs) (fun s => space_base_vectors s c sort).
Proof.
  intros vs c sort Hc. unfold base_vectors, make_space, space_base_vectors.
  destruct c; try contradiction; cbn [check_container bind];
    (destruct (mapM preprocess vs) as [specs|e]; cbn [bind]; [|reflexivity]; destruct (all_disjoint _); reflexivity).
Qed.
Print Assumptions C20_hilbert_space.
(** SimpleHilbertSpace(states, number) agrees with both, exceptions included. *)
Theorem C20_simple_space : forall states number c sort, c <> CBadContainer ->
  base_vectors [PTup [states; PInt number]] c sort =
  bind (make_simple states (PInt number)) (fun s => simple_base_vectors s c sort).
Proof.
  intros states number c sort Hc. unfold base_vectors, make_simple.
  assert (Q : forall l, (number <= Z.of_nat (length l))%Z ->
    (_ <- check_container c;; specs <- Ok [(l, NumI number)];;
     if all_disjoint (map fst specs) then
      gens <- mapM (fun s => subspace_bases (fst s) (snd s)) specs ;;
      finish (map (fun basis => ket_of (concat basis)) (prod gens)) c sort
     else Err ValueError)%res = simple_base_vectors (MkSimple l number) c sort).
  { intros l Hl. unfold simple_base_vectors. destruct (check_container c); cbn [bind]; auto.
    cbn [map all_disjoint forallb andb mapM fst snd ss_states ss_number bind].
    destruct (subspace_bases l (NumI number)) as [g|e]; cbn [bind]; auto. f_equal. cbn [prod].
    clear. induction g as [|x g IH]; cbn; auto. rewrite app_nil_r. now f_equal. }
  assert (C : check_container c = Ok tt) by (destruct c; try reflexivity; contradiction).
  assert (MM : mapM preprocess [PTup [states; PInt number]] =
    match pair_preprocess states (PInt number) with Ok s => Ok [s] | Err e => Err e end) by reflexivity.
  rewrite MM. unfold pair_preprocess. cbn [ge_pnum].
  assert (V : forall l, 
    (_ <- check_container c;; specs <- match (match (if (number <=? Z.of_nat (length l))%Z then Some (NumI number) else None) with
       | Some p => Ok (l, p) | None => Err ValueError end) with Ok s => Ok [s] | Err e => Err e end ;;
     if all_disjoint (map fst specs) then
      gens <- mapM (fun s => subspace_bases (fst s) (snd s)) specs ;;
      finish (map (fun basis => ket_of (concat basis)) (prod gens)) c sort
     else Err ValueError)%res =
    bind (if (Z.of_nat (length l) <? number)%Z then Err ValueError else Ok (MkSimple l number))
         (fun s => simple_base_vectors s c sort)).
  { intros l. destruct (Z.leb_spec number (Z.of_nat (length l))), (Z.ltb_spec (Z.of_nat (length l)) number); try lia.
    - cbn [bind]. now apply Q.
    - rewrite C. reflexivity. }
  destruct states as [n|q|l|l|l|].
  - destruct (Z.ltb_spec 0 n); [|rewrite C; reflexivity]. rewrite <- V. unfold range_states. rewrite map_length, seq_length, Z2Nat.id by lia.
    destruct (number <=? n)%Z; reflexivity.
  - rewrite C. reflexivity.
  - destruct (valid_states_collection _) as [m|]; [|rewrite C; reflexivity]. rewrite <- V. destruct (number <=? _)%Z; reflexivity.
  - destruct (valid_states_collection _) as [m|]; [|rewrite C; reflexivity]. rewrite <- V. destruct (number <=? _)%Z; reflexivity.
  - destruct (valid_states_collection _) as [m|]; [|rewrite C; reflexivity]. rewrite <- V. destruct (number <=? _)%Z; reflexivity.
  - rewrite C. reflexivity.
Qed.
Print Assumptions C20_simple_space.
Theorem C20_simple_int : forall n c sort, c <> CBadContainer ->
  base_vectors [PInt n] c sort = bind (make_simple (PInt n) (PInt (-1))) (fun s => simple_base_vectors s c sort).
Proof.
  intros n c sort Hc. rewrite <- C20_simple_space by auto. unfold base_vectors.
  destruct (check_container c); cbn [bind]; auto. cbn [mapM preprocess pair_preprocess ge_pnum].
  destruct (Z.ltb_spec 0 n); [|reflexivity]. destruct (Z.leb_spec (-1) n); [reflexivity|lia].
Qed.
Print Assumptions C20_simple_int.
(** A wrong container name is an AssertionError in all three. *)
Theorem C20_container : forall vs sp ss sort,
  base_vectors vs CBadContainer sort = Err AssertionError /\
  space_base_vectors sp CBadContainer sort = Err AssertionError /\
  simple_base_vectors ss CBadContainer sort = Err AssertionError.
Proof. intros. repeat split. Qed.
Print Assumptions C20_container.
Example C20_example : base_vectors [PTup [PInt 4; PInt 2]] CArray true = Ok (KArray [3; 5; 6; 9; 10; 12]%N) /\
  exists s, make_simple (PInt 4) (PInt 2) = Ok s /\ simple_base_vectors s CArray true = Ok (KArray [3; 5; 6; 9; 10; 12]%N).
Proof. split; [reflexivity|]. eexists. split; reflexivity. Qed.

(** ** C21 *)
(** With an int number, HilbertSpace accepts exactly the documented specifiers. *)
Theorem C21_accepted : forall v l z, preprocess v = Ok (l, NumI z) <-> std_spec v l z.
Proof. exact preprocess_int. Qed.
Print Assumptions C21_accepted.
(** Everything else raises ValueError, except that a number that is not a real
    number raises TypeError when compared, and a float is let through. *)
Theorem C21_rejected : forall v e, preprocess v = Err e ->
  e = ValueError \/
  (e = TypeError /\ exists st p, (v = PTup [st; p] \/ v = PList [st; p]) /\
     (forall z, p <> PInt z) /\ (forall q, p <> PFlt q)).
Proof.
  assert (G : forall n p e, ge_pnum n p = Err e -> e = TypeError /\ (forall z, p <> PInt z) /\ (forall q, p <> PFlt q)).
  { intros n [z|q|l|l|l|] e; cbn; intros H; try discriminate; injection H as <-; repeat split; discriminate. }
  assert (P : forall st p e, pair_preprocess st p = Err e -> e = ValueError \/
     (e = TypeError /\ (forall z, p <> PInt z) /\ (forall q, p <> PFlt q))).
  { intros st p e. unfold pair_preprocess.
    assert (Q : forall l, match match valid_states_collection st with
         | None => Err ValueError
         | Some l => match ge_pnum (Z.of_nat (length l)) p with
                     | Err e => Err e | Ok (Some q) => Ok (l, q) | Ok None => Err ValueError end
         end with Err e' => e' = e | Ok _ => l end -> l \/ e = ValueError \/ (e = TypeError /\ (forall z, p <> PInt z) /\ (forall q, p <> PFlt q))).
    { intros l. destruct (valid_states_collection st) as [m|]; [|intros <-; auto].
      destruct (ge_pnum _ p) as [[q|]|e'] eqn:E; auto; intros <-; auto. apply G in E. auto. }
    destruct st as [n|q|l|l|l|].
    - destruct (0 <? n)%Z; [|intros [= <-]; auto]. destruct (ge_pnum n p) as [[q|]|e'] eqn:E; try discriminate.
      + intros [= <-]; auto.
      + intros [= <-]. apply G in E. auto.
    - intros [= <-]; auto.
    - intros H. destruct (Q False) as [[]|H']; auto. now rewrite H.
    - intros H. destruct (Q False) as [[]|H']; auto. now rewrite H.
    - intros H. destruct (Q False) as [[]|H']; auto. now rewrite H.
    - intros [= <-]; auto. }
  intros v e H. destruct v as [n|q|[|st [|p [|]]]|[|st [|p [|]]]|c|]; cbn [preprocess] in H; try (injection H as <-; auto; fail).
  - destruct (0 <? n)%Z; [discriminate|]. injection H as <-. auto.
  - apply P in H as [H|(H & H1 & H2)]; auto. right. split; auto. exists st, p. auto.
  - apply P in H as [H|(H & H1 & H2)]; auto. right. split; auto. exists st, p. auto.
Qed.
Print Assumptions C21_rejected.
(** Overlapping collections are rejected, disjoint ones accepted. *)
Theorem C21_overlap : forall vs specs, std_specs vs specs ->
  (pairwise_disjoint specs -> make_space vs = Ok specs) /\
  (~ pairwise_disjoint specs -> make_space vs = Err ValueError).
Proof.
  intros vs specs H. apply std_specs_iff in H as [H _]. unfold make_space. rewrite H. cbn [bind].
  pose proof (disjoint_spec specs) as D. destruct (all_disjoint _); split; auto; intros X; exfalso.
  - apply X. now apply D.
  - apply D in X. discriminate.
Qed.
Print Assumptions C21_overlap.
Theorem C21_simple_space : forall states number s,
  make_simple states number = Ok s <->
  exists z, number = PInt z /\ ss_number s = z /\ std_spec (PTup [states; PInt z]) (ss_states s) z.
Proof.
  intros states number s.
  assert (A : forall z, make_simple states (PInt z) = Ok s <-> ss_number s = z /\ preprocess (PTup [states; PInt z]) = Ok (ss_states s, NumI z)).
  { intros z. destruct s as [sl sz]. unfold make_simple. cbn [preprocess ss_number ss_states]. unfold pair_preprocess. cbn [ge_pnum].
    assert (B : forall l, (if (Z.of_nat (length l) <? z)%Z then Err ValueError else Ok (MkSimple l z)) = Ok (MkSimple sl sz) <->
       sz = z /\ match (if (z <=? Z.of_nat (length l))%Z then Some (NumI z) else None) with
            | Some p => Ok (l, p) | None => Err ValueError end = Ok (sl, NumI z)).
    { intros l. destruct (Z.ltb_spec (Z.of_nat (length l)) z), (Z.leb_spec z (Z.of_nat (length l))); try lia.
      - split; [discriminate|]. intros [_ H']; discriminate.
      - split; [intros [= -> ->]; auto|intros [-> [= ->]]; auto]. }
    destruct states as [n|q|l|l|l|]; try (split; [discriminate|intros [_ H]; discriminate]).
    - destruct (Z.ltb_spec 0 n); [|split; [discriminate|intros [_ H']; discriminate]].
      rewrite B. unfold range_states. rewrite map_length, seq_length, Z2Nat.id by lia. destruct (z <=? n)%Z; tauto.
    - destruct (valid_states_collection _) as [m|]; [|split; [discriminate|intros [_ H']; discriminate]].
      rewrite B. destruct (z <=? _)%Z; tauto.
    - destruct (valid_states_collection _) as [m|]; [|split; [discriminate|intros [_ H']; discriminate]].
      rewrite B. destruct (z <=? _)%Z; tauto.
    - destruct (valid_states_collection _) as [m|]; [|split; [discriminate|intros [_ H']; discriminate]].
      rewrite B. destruct (z <=? _)%Z; tauto. }
  split.
  - intros H. destruct number as [z|q|l|l|l|];
      try (unfold make_simple in H; destruct (match states with PInt n => _ | _ => _ end); discriminate).
    exists z. split; auto. apply A in H as [H1 H2]. split; auto. now apply preprocess_int.
  - intros (z & -> & H1 & H2). apply A. split; auto. now apply preprocess_int.
Qed.
Print Assumptions C21_simple_space.
(** Repeated states inside one collection are not caught: the collection (0, 0)
    with two particles yields ket 2, which occupies state 1. *)
Theorem C21_repeated_states_refuted :
  base_vectors [PTup [PTup [PInt 0; PInt 0]; PInt 2]] CArray true = Ok (KArray [2%N]) /\
  base_vectors [PTup [PTup [PInt 0; PInt 0]; PInt 1]] CArray true = Ok (KArray [1%N; 1%N]) /\
  N.testbit 2 1 = true /\ N.testbit 2 0 = false.
Proof. repeat split. Qed.
Print Assumptions C21_repeated_states_refuted.
(** A float particle number passes the constructor of HilbertSpace; only
    base_vectors fails, with TypeError. *)
Theorem C21_float_number_refuted : exists s,
  make_space [PTup [PInt 4; PFlt 2]] = Ok s /\ space_base_vectors s CArray true = Err TypeError.
Proof. eexists. split; reflexivity. Qed.
Print Assumptions C21_float_number_refuted.

(** ** C22 *)
(** The array holds exactly the integers of the list form, or OverflowError is
    raised, and that exactly when a state index of 64 or more can be occupied. *)
Theorem C22_array_exact : forall vs specs sort,
  std_specs vs specs -> no_repeats specs -> pairwise_disjoint specs ->
  (exists ks, base_vectors vs CList sort = Ok (KList ks) /\
     (base_vectors vs CArray sort = Ok (KArray ks) \/ base_vectors vs CArray sort = Err OverflowError)) /\
  (base_vectors vs CArray sort = Err OverflowError <->
   exists s b, In s specs /\ In b (fst s) /\ (64 <= b)%N /\ snd s <> NumI 0).
Proof.
  intros vs specs sort H1 H2 H3. split; [|now apply array_iff].
  destruct (base_vectors_list _ _ H1 H2 H3) as (ks & E & _). rewrite !E by discriminate.
  unfold finish. eexists. split; [reflexivity|]. destruct (forallb _ _); auto.
Qed.
Print Assumptions C22_array_exact.
Theorem C22_below_64 : forall vs specs sort,
  std_specs vs specs -> no_repeats specs -> pairwise_disjoint specs ->
  (forall s b, In s specs -> In b (fst s) -> (b < 64)%N) ->
  exists ks, base_vectors vs CList sort = Ok (KList ks) /\ base_vectors vs CArray sort = Ok (KArray ks).
Proof.
  intros vs specs sort H1 H2 H3 H4. destruct (C22_array_exact vs specs sort H1 H2 H3) as [(ks & E & [E'|E']) O]; eauto.
  exfalso. apply O in E' as (s & b & Hs & Hb & Hge & _). specialize (H4 s b Hs Hb). lia.
Qed.
Print Assumptions C22_below_64.
Example C22_example : base_vectors [PTup [PTup [PInt 64]; PInt 1]] CArray true = Err OverflowError /\
  base_vectors [PTup [PTup [PInt 63]; PInt 1]] CArray true = Ok (KArray [(2 ^ 63)%N]).
Proof. split; reflexivity. Qed.
