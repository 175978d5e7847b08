(** Fast paths, coordinate form, products, adjoints and sectors of matrix_function. *)
From Coq Require Import List NArith ZArith Bool Arith Lia Permutation.
From Verif Require Import Py GQ Mat MatrixRepr_Model Fock_Spec Fock_Proofs MatrixRepr_Proofs.
Import ListNotations.

Lemma enumerate_nth {A} (l : list A) i x d : In (i, x) (enumerate l) -> (i < length l)%nat /\ nth i l d = x.
Proof.
  unfold enumerate.
  assert (G : forall (l : list A) s, In (i, x) (combine (seq s (length l)) l) ->
              (s <= i < s + length l)%nat /\ nth (i - s) l d = x).
  { clear. induction l as [|y l IH]; intros s; cbn [length seq combine]; [contradiction|].
    intros [E|H].
    - injection E as -> ->. rewrite Nat.sub_diag. cbn. split; [lia|reflexivity].
    - apply IH in H as [H1 H2]. split; [cbn; lia|].
      destruct (i - s)%nat as [|k] eqn:E; [lia|]. cbn [nth]. rewrite <- H2. f_equal. lia. }
  intros H. apply G in H. rewrite Nat.sub_0_r in H. split; [lia|tauto].
Qed.

(** Hopping. *)
Lemma odd_below_mid a b ket : (a < b)%nat ->
  Nat.odd (below b ket) =
  xorb (xorb (Nat.odd (below a ket)) (occ ket a)) (Nat.odd (cnt (seq (a + 1) (b - (a + 1))) ket)).
Proof.
  intros H. rewrite !below_cnt.
  replace b with (a + (1 + (b - (a + 1))))%nat at 1 by lia.
  rewrite seq_app, cnt_app. cbn [seq plus]. rewrite cnt_cons, !Nat.odd_add.
  rewrite <- xorb_assoc. replace (S a) with (a + 1)%nat by lia. f_equal. f_equal.
  now destruct (occ ket a).
Qed.

Lemma hopping_word i j ket : i <> j ->
  word_act [(i, CREATION); (j, ANNIHILATION)] ket =
  if negb (occ ket i) && occ ket j
  then Some (Nat.odd (cnt (seq (Nat.min i j + 1) (Nat.max i j - (Nat.min i j + 1))) ket),
             flip (flip ket j) i)
  else None.
Proof.
  intros Hij. cbn [word_act]. rewrite fock_act_flip. cbn [wants].
  destruct (occ ket j) eqn:Ej; cbn [Bool.eqb]; [|now rewrite andb_false_r].
  rewrite fock_act_flip, occ_flip. destruct (Nat.eqb_spec j i); [congruence|].
  rewrite xorb_false_r. cbn [wants]. destruct (occ ket i) eqn:Ei; cbn [Bool.eqb negb andb xorb]; [reflexivity|].
  f_equal. f_equal. rewrite odd_below_flip.
  destruct (Nat.ltb_spec j i) as [H|H].
  - rewrite (odd_below_mid j i ket) by lia. rewrite Ej, Nat.min_r, Nat.max_l by lia.
    destruct (Nat.odd (below j ket)), (Nat.odd (cnt _ ket)); reflexivity.
  - rewrite (odd_below_mid i j ket) by lia. rewrite Ei, Nat.min_l, Nat.max_r by lia.
    destruct (Nat.odd (below i ket)), (Nat.odd (cnt _ ket)); reflexivity.
Qed.

Lemma core_hopping_eq i j right left : i <> j ->
  core_hopping [row_of (i, CREATION); row_of (j, ANNIHILATION)] right left =
  core_general [row_of (i, CREATION); row_of (j, ANNIHILATION)] right left.
Proof.
  intros Hij. unfold core_hopping, core_general.
  cbn [map fold_left].
  change (r_index (row_of (i, CREATION))) with (N.of_nat i).
  change (r_index (row_of (j, ANNIHILATION))) with (N.of_nat j).
  rewrite N.min_id, N.max_id, <- Nat2N.inj_min, <- Nat2N.inj_max, !Nat2N.id.
  apply mapM_ext. intros [c ket] _.
  change [row_of (i, CREATION); row_of (j, ANNIHILATION)] with (map row_of [(i, CREATION); (j, ANNIHILATION)]).
  rewrite apply_rows_word, hopping_word by auto.
  unfold row_of; cbn [r_mask fst snd].
  rewrite land_mask_0, land_mask_mask. destruct (negb (occ ket i) && occ ket j); [|reflexivity].
  rewrite count_swaps_char, xorb_false_l. reflexivity.
Qed.

Lemma hopping_general i j right left coeff : i <> j ->
  matrix_function [(i, CREATION); (j, ANNIHILATION)] right left coeff Thopping =
  matrix_function [(i, CREATION); (j, ANNIHILATION)] right left coeff Tgeneral.
Proof.
  intros Hij. unfold matrix_function, matrix_data.
  destruct (make_term [(i, CREATION); (j, ANNIHILATION)]) as [rows|e] eqn:E; [|reflexivity].
  apply make_term_inv in E as [G ->]. cbn [word_of map fst snd core].
  rewrite core_hopping_eq; [reflexivity|].
  inversion G as [|? ? G1 G2]; subst. inversion G2 as [|? ? G3 G4]; subst.
  unfold good_index in *; cbn [fst] in *. lia.
Qed.

(** Diagonal fast paths. *)
Lemma locate_self bases i ket : sorted_bases bases -> In (i, ket) (enumerate bases) ->
  locate bases ket = Some i.
Proof.
  intros Hs H. apply (enumerate_nth _ _ _ 0%N) in H. now apply (locate_spec bases ket Hs).
Qed.

Lemma number_general i bases coeff : sorted_bases bases ->
  matrix_function [(i, CREATION); (i, ANNIHILATION)] bases None coeff Tnumber =
  matrix_function [(i, CREATION); (i, ANNIHILATION)] bases None coeff Tgeneral.
Proof.
  intros Hs. unfold matrix_function, matrix_data. cbn [the_left].
  destruct (make_term _) as [rows|e] eqn:E; [|reflexivity].
  apply make_term_inv in E as [G ->]. cbn [word_of map fst snd core].
  set (n := Z.to_nat i).
  replace (core_general [row_of (n, CREATION); row_of (n, ANNIHILATION)] bases bases)
    with (core_particle_number [row_of (n, CREATION); row_of (n, ANNIHILATION)] bases); [reflexivity|].
  unfold core_particle_number, core_general. rewrite <- mapM_pure. apply mapM_ext. intros [c ket] Hin.
  change [row_of (n, CREATION); row_of (n, ANNIHILATION)] with (map row_of [(n, CREATION); (n, ANNIHILATION)]).
  rewrite apply_rows_word, word_number. unfold row_of; cbn [r_mask fst snd].
  rewrite land_mask_0. destruct (occ ket n); cbn [negb]; [|reflexivity].
  now rewrite (locate_self _ _ _ Hs Hin).
Qed.

Lemma coulomb_word i j ket :
  word_act [(i, CREATION); (i, ANNIHILATION); (j, CREATION); (j, ANNIHILATION)] ket =
  if occ ket i && occ ket j then Some (false, ket) else None.
Proof.
  change [(i, CREATION); (i, ANNIHILATION); (j, CREATION); (j, ANNIHILATION)]
    with ([(i, CREATION); (i, ANNIHILATION)] ++ [(j, CREATION); (j, ANNIHILATION)]).
  rewrite word_act_app, word_number. destruct (occ ket j); [|now rewrite andb_false_r].
  rewrite word_number. destruct (occ ket i); reflexivity.
Qed.

Lemma coulomb_general i j bases coeff : sorted_bases bases ->
  matrix_function [(i, CREATION); (i, ANNIHILATION); (j, CREATION); (j, ANNIHILATION)] bases None coeff TCoulomb =
  matrix_function [(i, CREATION); (i, ANNIHILATION); (j, CREATION); (j, ANNIHILATION)] bases None coeff Tgeneral.
Proof.
  intros Hs. unfold matrix_function, matrix_data. cbn [the_left].
  destruct (make_term _) as [rows|e] eqn:E; [|reflexivity].
  apply make_term_inv in E as [G ->]. cbn [word_of map fst snd core].
  set (n := Z.to_nat i). set (m := Z.to_nat j).
  set (rows := [row_of (n, CREATION); row_of (n, ANNIHILATION); row_of (m, CREATION); row_of (m, ANNIHILATION)]).
  replace (core_general rows bases bases) with (core_coulomb rows bases); [reflexivity|].
  unfold core_coulomb, core_general, rows. rewrite <- mapM_pure. apply mapM_ext. intros [c ket] Hin.
  change [row_of (n, CREATION); row_of (n, ANNIHILATION); row_of (m, CREATION); row_of (m, ANNIHILATION)]
    with (map row_of [(n, CREATION); (n, ANNIHILATION); (m, CREATION); (m, ANNIHILATION)]).
  rewrite apply_rows_word, coulomb_word. unfold row_of; cbn [r_mask fst snd].
  rewrite !land_mask_0. destruct (occ ket n), (occ ket m); cbn [negb andb]; try reflexivity.
  now rewrite (locate_self _ _ _ Hs Hin).
Qed.

(** Coordinate form. *)
Lemma core_form t rows right left data : core t rows right left = Ok data ->
  exists g : nat -> N -> option (bool * nat),
    data = map (fun '(i, ket) => col_triple (g i ket) i) (enumerate right).
Proof.
  assert (M : forall F : N -> option (bool * N), core_by F right left = Ok data ->
    exists g : nat -> N -> option (bool * nat), data = map (fun '(i, ket) => col_triple (g i ket) i) (enumerate right)).
  { intros F H. exists (fun _ ket => match F ket with
       | Some (s, k) => option_map (fun idx => (s, idx)) (locate left k) | None => None end).
    unfold core_by in H. revert data H. induction (enumerate right) as [|[i ket] l IH]; cbn [mapM map]; intros data H.
    - now injection H as <-.
    - destruct (F ket) as [[s k]|].
      + destruct (locate left k); [|discriminate]. destruct (mapM _ l); [|discriminate].
        injection H as <-. rewrite (IH a eq_refl). reflexivity.
      + destruct (mapM _ l); [|discriminate]. injection H as <-. rewrite (IH a eq_refl). reflexivity. }
  unfold core. destruct rows as [|r0 rows]; [discriminate|]. destruct t.
  - unfold core_general. intros H. apply (M (apply_rows (rev (r0 :: rows)) false)). exact H.
  - unfold core_hopping. destruct rows as [|r1 rows]; [discriminate|]. intros H.
    apply (M (fun ket =>
              if ((N.land ket (r_mask r0) =? 0) && (N.land ket (r_mask r1) =? r_mask r1))%N then
                Some (count_swaps (N.to_nat (fold_left N.min (map r_index (r0 :: r1 :: rows)) (r_index r0)) + 1)
                        (N.to_nat (fold_left N.max (map r_index (r0 :: r1 :: rows)) (r_index r0)) -
                         (N.to_nat (fold_left N.min (map r_index (r0 :: r1 :: rows)) (r_index r0)) + 1)) ket false,
                      N.lxor (N.lxor ket (r_mask r1)) (r_mask r0)) else None)).
    rewrite <- H. unfold core_by. apply mapM_ext. intros [i ket] _.
    destruct ((N.land ket (r_mask r0) =? 0) && (N.land ket (r_mask r1) =? r_mask r1))%N; reflexivity.
  - cbn. intros [= <-].
    exists (fun i ket => if (N.land ket (r_mask r0) =? 0)%N then None else Some (false, i)).
    apply map_ext. intros [i ket]. destruct (_ =? 0)%N; reflexivity.
  - cbn. destruct rows as [|r1 [|r2 rows]]; try discriminate. intros [= <-].
    exists (fun i ket => if negb (N.land ket (r_mask r0) =? 0)%N && negb (N.land ket (r_mask r2) =? 0)%N
                         then Some (false, i) else None).
    apply map_ext. intros [i ket]. destruct (_ && _); reflexivity.
Qed.

Lemma coo_csr term right left coeff t m l : coeff <> g0 ->
  matrix_function term right left coeff t = Ok m ->
  matrix_function_coo term right left coeff t = Ok l ->
  Permutation l (stored m) /\ NoDup (map fst l).
Proof.
  intros Hc Hm Hl. unfold matrix_function, matrix_function_coo, matrix_data in *.
  destruct (make_term term) as [rows|]; [|discriminate].
  destruct (core t rows right (the_left right left)) as [data|] eqn:E; [|discriminate].
  injection Hl as <-. apply core_form in E as [g ->].
  assert (ND : NoDup (map fst (scale_data coeff (filter (fun '(_, _, v) => negb (v =? 0)%Z)
       (map (fun '(i, ket) => col_triple (g i ket) i) (enumerate right)))))).
  { clear Hm. unfold enumerate. generalize 0%nat. induction right as [|x right IH]; intros s; cbn [length seq combine map filter].
    - constructor.
    - destruct (g s x) as [[sg idx]|]; cbn [col_triple hit miss].
      2:{ cbn. apply IH. }
      assert (Hz : negb ((if sg then -1 else 1) =? 0)%Z = true) by (destruct sg; reflexivity).
      rewrite Hz. cbn [scale_data map fst]. constructor; [|apply IH].
      unfold scale_data. intros Hin. apply in_map_iff in Hin as ([[r c] v] & Heq & Hin). cbn [fst] in Heq.
      apply in_map_iff in Hin as ([[r' c'] v'] & Heq' & Hin). apply filter_In in Hin as [Hin Hv].
      apply in_map_iff in Hin as ([i ket] & Heq'' & Hin).
      apply in_combine_l in Hin. apply in_seq in Hin.
      destruct (g i ket) as [[s2 idx2]|]; cbn in Heq''; injection Heq'' as <- <- <-.
      + injection Heq' as <- <- _. injection Heq as _ Heq. lia.
      + discriminate. }
  split; auto. apply NoDup_Permutation.
  - eapply NoDup_map_inv; exact ND.
  - eapply NoDup_map_inv. apply (csr_nodup _ _ _ _ Hm).
  - intros [[r j] v]. rewrite (csr_stored_iff _ _ _ _ Hm). split.
    + intros Hin. unfold scale_data in Hin. apply in_map_iff in Hin as ([[r' j'] z] & Heq & Hin).
      injection Heq as -> -> <-. apply filter_In in Hin as [Hin Hz].
      apply in_map_iff in Hin as ([i ket] & Heq & Hin).
      destruct (g i ket) as [[sg idx]|] eqn:Eg; cbn in Heq; injection Heq as <- <- <-; [|discriminate].
      pose proof (enumerate_nth _ _ _ 0%N Hin) as [Hi Hk].
      rewrite (data_entry g right coeff _ _ m Hm) by auto. rewrite Hk, Eg. cbn [col_entry].
      rewrite Nat.eqb_refl. split; [reflexivity|].
      destruct sg.
      * intros H. apply (gopp_neq_0 coeff Hc). rewrite <- H. change (gz (-1)) with (gopp g1). ring.
      * intros H. apply Hc. rewrite <- H. change (gz 1) with g1. ring.
    + intros [He Hv].
      destruct (Nat.lt_ge_cases j (length right)) as [Hj|Hj].
      2:{ rewrite (data_entry_oob g right coeff _ _ m Hm) in He by auto. congruence. }
      rewrite (data_entry g right coeff _ _ m Hm) in He by auto.
      destruct (g j (nth j right 0%N)) as [[sg idx]|] eqn:Eg; cbn [col_entry] in He.
      2:{ exfalso. apply Hv. rewrite <- He. change (gz 0) with g0. ring. }
      destruct (Nat.eqb_spec idx r) as [->|].
      2:{ exfalso. apply Hv. rewrite <- He. change (gz 0) with g0. ring. }
      unfold scale_data. apply in_map_iff. exists (r, j, if sg then (-1)%Z else 1%Z). split; [congruence|].
      apply filter_In. split; [|destruct sg; reflexivity].
      apply in_map_iff. exists (j, nth j right 0%N). split.
      * rewrite Eg. reflexivity.
      * unfold enumerate. clear -Hj. 
        assert (G : forall l s k, (k < length l)%nat -> In (s + k, nth k l 0%N)%nat (combine (seq s (length l)) l)).
        { induction l as [|x l IH]; intros s k Hk; cbn in Hk; [lia|]. destruct k as [|k].
          - left. now rewrite Nat.add_0_r.
          - right. replace (s + S k)%nat with (S s + k)%nat by lia. apply IH. lia. }
        apply (G right 0%nat j Hj).
Qed.

Lemma coo_ok term right left coeff t m :
  matrix_function term right left coeff t = Ok m ->
  exists l, matrix_function_coo term right left coeff t = Ok l.
Proof.
  unfold matrix_function, matrix_function_coo. destruct (matrix_data _ _ _ _); [eauto|discriminate].
Qed.

(** Products. *)
Lemma word_of_app s t : word_of (s ++ t) = word_of s ++ word_of t.
Proof. apply map_app. Qed.

Lemma closed_app u v L M R : closed_on u M L -> closed_on v R M -> closed_on (u ++ v) R L.
Proof.
  intros Hu Hv. apply Forall_forall. intros ket Hk.
  assert (H1 : act_in M (word_act v ket)) by (eapply (proj1 (Forall_forall _ _)) in Hv; eauto).
  rewrite word_act_app. destruct (word_act v ket) as [[s k]|]; [|exact I]. cbn in H1.
  assert (H2 : act_in L (word_act u k)) by (eapply (proj1 (Forall_forall _ _)) in Hu; eauto).
  destruct (word_act u k) as [[s' k']|]; auto.
Qed.

Lemma word_mat_mul cu cv u v L M R : NoDup M -> closed_on v R M ->
  meq (length L) (length R) (mmul (length M) (word_mat cu u L M) (word_mat cv v M R))
      (word_mat (gmul cu cv) (u ++ v) L R).
Proof.
  intros Hn Hc i j Hi Hj. unfold word_mat at 3.
  rewrite (amp_app_sum u v _ _ M Hn).
  2:{ intros s k E. eapply (proj1 (Forall_forall _ _)) in Hc; [|apply (nth_In R 0%N Hj)].
      rewrite E in Hc. exact Hc. }
  unfold mmul, word_mat.
  assert (G : forall f : N -> GQ, lsum f M = bigsum (length M) (fun l => f (nth l M 0%N))).
  { intros f. unfold bigsum. rewrite <- (lsum_map f (fun l => nth l M 0%N)).
    f_equal. clear. induction M as [|x M IH]; cbn; [reflexivity|]. f_equal.
    rewrite IH at 1. rewrite <- seq_shift, map_map. reflexivity. }
  rewrite G. unfold bigsum. rewrite <- (lsum_mul_l (gmul cu cv)). apply lsum_ext. intros l _. ring.
Qed.

Lemma product_ok s t L M R cs ct ms mt :
  sorted_bases L -> sorted_bases M -> sorted_bases R ->
  matrix_function s M (Some L) cs Tgeneral = Ok ms ->
  matrix_function t R (Some M) ct Tgeneral = Ok mt ->
  exists m, matrix_function (s ++ t) R (Some L) (gmul cs ct) Tgeneral = Ok m /\
    nrows m = nrows ms /\ ncols m = ncols mt /\
    meq (nrows m) (ncols m) (entry m) (mmul (length M) (entry ms) (entry mt)).
Proof.
  intros HL HM HR Hs Ht.
  apply general_inv in Hs as (S1 & S2 & S3 & S4 & S5 & S6 & S7); auto. cbn [the_left] in *.
  apply general_inv in Ht as (T1 & T2 & T3 & T4 & T5 & T6 & T7); auto. cbn [the_left] in *.
  destruct (general_ok (s ++ t) R (Some L) (gmul cs ct)) as (m & Hm & R1 & R2 & R3); cbn [the_left] in *; auto.
  - destruct s; [contradiction|discriminate].
  - apply Forall_app; auto.
  - rewrite word_of_app. eapply closed_app; eauto.
  - destruct S4 as [S4| ->]; auto. destruct T4 as [T4|T4]; [contradiction|auto].
  - exists m. repeat split; [exact Hm|congruence|congruence|].
    intros i j Hi Hj. rewrite R3 by auto. rewrite word_of_app.
    rewrite R1 in Hi. rewrite R2 in Hj.
    rewrite <- (word_mat_mul cs ct _ _ L M R) by (auto using sorted_NoDup).
    apply bigsum_ext. intros l Hl. rewrite S7, T7 by congruence. reflexivity.
Qed.

(** Adjoint. *)
Definition term_dagger (term : list (Z * otype)) : list (Z * otype) :=
  rev (map (fun p => (fst p, flip_otype (snd p))) term).

Lemma word_of_dagger term : word_of (term_dagger term) = word_dagger (word_of term).
Proof.
  unfold word_of, term_dagger, word_dagger. rewrite map_rev, !map_map. reflexivity.
Qed.

Lemma word_mat_dagger c w L R i j : word_mat (gconj c) (word_dagger w) R L i j = mdag (word_mat c w L R) i j.
Proof.
  unfold mdag, word_mat. rewrite amp_adjoint, gconj_mul. f_equal.
Qed.

Lemma adjoint_ok term L R c m m' : sorted_bases L -> sorted_bases R ->
  matrix_function term R (Some L) c Tgeneral = Ok m ->
  matrix_function (term_dagger term) L (Some R) (gconj c) Tgeneral = Ok m' ->
  nrows m' = ncols m /\ ncols m' = nrows m /\
  meq (nrows m') (ncols m') (entry m') (mdag (entry m)).
Proof.
  intros HL HR H H'. apply general_inv in H as (_ & _ & _ & _ & A5 & A6 & A7); auto.
  apply general_inv in H' as (_ & _ & _ & _ & B5 & B6 & B7); auto. cbn [the_left] in *.
  repeat split; try congruence. intros i j Hi Hj. rewrite B7 by auto.
  rewrite word_of_dagger, word_mat_dagger. unfold mdag. rewrite A7 by congruence. reflexivity.
Qed.

(** Full Fock space and sectors. *)
Lemma closed_full n w : indices_below n w -> closed_on w (full_bases n) (full_bases n).
Proof.
  intros Hw. apply Forall_forall. intros ket Hk. apply in_full_bases in Hk.
  destruct (word_act w ket) as [[s k]|] eqn:E; [|exact I]. cbn. apply in_full_bases.
  eapply word_act_bound; eauto.
Qed.

(** The kets of n single-particle states with N particles. *)
Definition sector_bases (n p : nat) : list N := filter (fun k => Nat.eqb (below n k) p) (full_bases n).

Lemma sorted_filter f l : sorted_bases l -> sorted_bases (filter f l).
Proof.
  induction l as [|x l IH]; cbn; auto. intros [Hx Hl]. destruct (f x); cbn; auto.
  split; auto. apply Forall_forall. intros y Hy. apply filter_In in Hy as [Hy _].
  rewrite Forall_forall in Hx. auto.
Qed.
Lemma sorted_sector n p : sorted_bases (sector_bases n p).
Proof. apply sorted_filter, sorted_full. Qed.

Lemma closed_sector n w p q : indices_below n w -> Z.of_nat q = (Z.of_nat p + word_charge w)%Z ->
  closed_on w (sector_bases n p) (sector_bases n q).
Proof.
  intros Hw E. apply Forall_forall. intros ket Hk. apply filter_In in Hk as [Hk HN].
  apply Nat.eqb_eq in HN. apply in_full_bases in Hk.
  destruct (word_act w ket) as [[s k]|] eqn:Ew; [|exact I]. cbn. apply filter_In. split.
  - apply in_full_bases. eapply word_act_bound; eauto.
  - apply Nat.eqb_eq. pose proof (word_act_count n w Hw _ _ _ Ew). lia.
Qed.
