(** Mathematics of the occupation-number representation (about Fock_Spec only). *)
From Coq Require Import List NArith ZArith Bool Arith Lia.
From Verif Require Import GQ Mat MatrixRepr_Model Fock_Spec.
Import ListNotations.

Definition flip (ket : N) (i : nat) : N := N.lxor ket (2 ^ N.of_nat i).
Definition occ (ket : N) (i : nat) : bool := N.testbit ket (N.of_nat i).

Lemma occ_flip ket i j : occ (flip ket i) j = xorb (occ ket j) (Nat.eqb i j).
Proof.
  unfold occ, flip. rewrite N.lxor_spec, N.pow2_bits_eqb. f_equal.
  destruct (Nat.eqb_spec i j) as [->|H]; [apply N.eqb_refl|].
  apply N.eqb_neq. lia.
Qed.

Lemma occ_inj k l : (forall i, occ k i = occ l i) -> k = l.
Proof.
  intros H. apply N.bits_inj. intros n. specialize (H (N.to_nat n)). unfold occ in H.
  now rewrite N2Nat.id in H.
Qed.

Lemma flip_flip ket i : flip (flip ket i) i = ket.
Proof. unfold flip. rewrite N.lxor_assoc, N.lxor_nilpotent, N.lxor_0_r. reflexivity. Qed.

Lemma flip_comm ket i j : flip (flip ket i) j = flip (flip ket j) i.
Proof. unfold flip. rewrite !N.lxor_assoc. f_equal. apply N.lxor_comm. Qed.

Lemma flip_inj k l i : flip k i = flip l i -> k = l.
Proof. intros H. rewrite <- (flip_flip k i), H. apply flip_flip. Qed.

Lemma setbit_flip ket i : occ ket i = false -> N.setbit ket (N.of_nat i) = flip ket i.
Proof.
  intros H. apply occ_inj. intros j. rewrite occ_flip. unfold occ at 1.
  rewrite N.setbit_eqb. fold (occ ket j).
  destruct (Nat.eqb_spec i j) as [->|Hn].
  - rewrite N.eqb_refl, H. reflexivity.
  - replace (N.of_nat i =? N.of_nat j)%N with false by (symmetry; apply N.eqb_neq; lia).
    cbn. now rewrite xorb_false_r.
Qed.

Lemma clearbit_flip ket i : occ ket i = true -> N.clearbit ket (N.of_nat i) = flip ket i.
Proof.
  intros H. apply occ_inj. intros j. rewrite occ_flip. unfold occ at 1.
  rewrite N.clearbit_eqb. fold (occ ket j).
  destruct (Nat.eqb_spec i j) as [->|Hn].
  - rewrite N.eqb_refl, H. reflexivity.
  - replace (N.of_nat i =? N.of_nat j)%N with false by (symmetry; apply N.eqb_neq; lia).
    cbn. now rewrite xorb_false_r, andb_true_r.
Qed.

(** [fock_act] in terms of [flip]. *)
Definition wants (ot : otype) : bool := match ot with CREATION => false | ANNIHILATION => true end.
Lemma fock_act_flip i ot ket :
  fock_act i ot ket = if Bool.eqb (occ ket i) (wants ot)
                      then Some (Nat.odd (below i ket), flip ket i) else None.
Proof.
  unfold fock_act. fold (occ ket i).
  destruct ot, (occ ket i) eqn:E; cbn; try reflexivity.
  - now rewrite clearbit_flip.
  - now rewrite setbit_flip.
Qed.

(** Counting. *)
Definition cnt (l : list nat) (ket : N) : nat := length (filter (occ ket) l).
Lemma below_cnt i ket : below i ket = cnt (seq 0 i) ket.
Proof. reflexivity. Qed.

Lemma cnt_app l m ket : cnt (l ++ m) ket = cnt l ket + cnt m ket.
Proof. unfold cnt. now rewrite filter_app, app_length. Qed.

Lemma cnt_flip_notin l ket j : ~ In j l -> cnt l (flip ket j) = cnt l ket.
Proof.
  intros H. unfold cnt. f_equal. apply filter_ext_in. intros x Hx.
  rewrite occ_flip. destruct (Nat.eqb_spec j x) as [->|]; [contradiction|apply xorb_false_r].
Qed.

Lemma cnt_cons x l ket : cnt (x :: l) ket = (if occ ket x then 1 else 0) + cnt l ket.
Proof. unfold cnt; cbn. now destruct (occ ket x). Qed.

Lemma cnt_flip_in l ket j : NoDup l -> In j l ->
  (Z.of_nat (cnt l (flip ket j)) = Z.of_nat (cnt l ket) + (if occ ket j then -1 else 1))%Z.
Proof.
  induction l as [|x l IH]; intros Hn Hj; [contradiction|].
  inversion Hn as [|? ? Hx Hl]; subst. rewrite !cnt_cons, occ_flip.
  destruct (Nat.eqb_spec j x) as [->|Hne].
  - rewrite cnt_flip_notin by auto. destruct (occ ket x); cbn [xorb]; lia.
  - destruct Hj as [E|Hj]; [congruence|]. specialize (IH Hl Hj). rewrite xorb_false_r.
    destruct (occ ket x), (occ ket j); lia.
Qed.

Lemma odd_Z n : Nat.odd n = Z.odd (Z.of_nat n).
Proof.
  destruct (Nat.Even_or_Odd n) as [[k ->]|[k ->]].
  - rewrite Nat.odd_mul, Nat.odd_2; cbn [andb]. rewrite Nat2Z.inj_mul, Z.odd_mul. reflexivity.
  - rewrite Nat.odd_add, Nat.odd_mul, Nat.odd_2; cbn [andb].
    rewrite Nat2Z.inj_add, Nat2Z.inj_mul, Z.odd_add, Z.odd_mul. reflexivity.
Qed.

Lemma odd_cnt_flip_in l ket j : NoDup l -> In j l ->
  Nat.odd (cnt l (flip ket j)) = negb (Nat.odd (cnt l ket)).
Proof.
  intros Hn Hj. rewrite !odd_Z, (cnt_flip_in l ket j Hn Hj).
  rewrite Z.odd_add. destruct (occ ket j); cbn; now rewrite xorb_true_r.
Qed.

Lemma odd_below_flip i ket j :
  Nat.odd (below i (flip ket j)) = xorb (Nat.odd (below i ket)) (Nat.ltb j i).
Proof.
  rewrite !below_cnt. destruct (Nat.ltb_spec j i).
  - rewrite odd_cnt_flip_in; [now rewrite xorb_true_r|apply seq_NoDup|apply in_seq; lia].
  - rewrite cnt_flip_notin; [now rewrite xorb_false_r|]. rewrite in_seq; lia.
Qed.

Lemma below_flip_ge i ket j : (i <= j)%nat -> below i (flip ket j) = below i ket.
Proof. intros H. rewrite !below_cnt. apply cnt_flip_notin. rewrite in_seq; lia. Qed.

(** Sign flip of an outcome. *)
Definition neg_out (o : option (bool * N)) : option (bool * N) :=
  match o with Some (s, k) => Some (negb s, k) | None => None end.
Definition xor_out (b : bool) (o : option (bool * N)) : option (bool * N) :=
  match o with Some (s, k) => Some (xorb b s, k) | None => None end.

Lemma neg_out_invol o : neg_out (neg_out o) = o.
Proof. destruct o as [[s k]|]; cbn; now rewrite ?negb_involutive. Qed.

(** Composition. *)
Lemma word_act_app u v ket :
  word_act (u ++ v) ket =
  match word_act v ket with None => None | Some (s, k) => xor_out s (word_act u k) end.
Proof.
  induction u as [|[i ot] u IH]; cbn [app word_act].
  - destruct (word_act v ket) as [[s k]|]; cbn; [rewrite xorb_false_r|]; reflexivity.
  - rewrite IH. destruct (word_act v ket) as [[s k]|]; [|reflexivity].
    destruct (word_act u k) as [[s' k']|]; cbn [xor_out]; [|reflexivity].
    destruct (fock_act i ot k') as [[s'' k'']|]; cbn [xor_out]; [|reflexivity].
    now rewrite xorb_assoc.
Qed.

(** Operators on different states anticommute. *)
Lemma word_swap2 i oi j oj ket : i <> j ->
  word_act [(i, oi); (j, oj)] ket = neg_out (word_act [(j, oj); (i, oi)] ket).
Proof.
  intros Hij. cbn [word_act].
  rewrite (fock_act_flip j oj ket), (fock_act_flip i oi ket).
  destruct (Bool.eqb (occ ket j) (wants oj)) eqn:Ej;
    destruct (Bool.eqb (occ ket i) (wants oi)) eqn:Ei; cbn [xorb];
    rewrite ?fock_act_flip, ?occ_flip.
  - destruct (Nat.eqb_spec j i); [congruence|]. destruct (Nat.eqb_spec i j); [congruence|].
    rewrite !xorb_false_r, Ei, Ej, !odd_below_flip. cbn [neg_out]. rewrite (flip_comm ket i j).
    do 2 f_equal.
    destruct (Nat.ltb_spec j i), (Nat.ltb_spec i j); try lia;
      destruct (Nat.odd (below j ket)), (Nat.odd (below i ket)); reflexivity.
  - destruct (Nat.eqb_spec j i); [congruence|]. rewrite xorb_false_r, Ei. reflexivity.
  - destruct (Nat.eqb_spec i j); [congruence|]. rewrite xorb_false_r, Ej. reflexivity.
  - reflexivity.
Qed.

Lemma word_swap u i oi j oj v ket : i <> j ->
  word_act (u ++ (i, oi) :: (j, oj) :: v) ket = neg_out (word_act (u ++ (j, oj) :: (i, oi) :: v) ket).
Proof.
  intros Hij. rewrite !word_act_app.
  change ((i, oi) :: (j, oj) :: v) with ([(i, oi); (j, oj)] ++ v).
  change ((j, oj) :: (i, oi) :: v) with ([(j, oj); (i, oi)] ++ v).
  rewrite !word_act_app. destruct (word_act v ket) as [[s k]|]; [|reflexivity].
  rewrite (word_swap2 i oi j oj k Hij).
  destruct (word_act [(j, oj); (i, oi)] k) as [[s' k']|]; cbn [neg_out xor_out]; [|reflexivity].
  destruct (word_act u k') as [[s'' k'']|]; cbn [neg_out xor_out]; [|reflexivity].
  do 2 f_equal. destruct s, s', s''; reflexivity.
Qed.

(** The same state. *)
Lemma word_same_otype i o ket : word_act [(i, o); (i, o)] ket = None.
Proof.
  cbn [word_act]. rewrite fock_act_flip. destruct (Bool.eqb (occ ket i) (wants o)) eqn:E; [|reflexivity].
  cbn [xorb]. rewrite fock_act_flip, occ_flip, Nat.eqb_refl.
  apply eqb_prop in E. rewrite E. destruct (wants o); reflexivity.
Qed.

Lemma word_number i ket :
  word_act [(i, CREATION); (i, ANNIHILATION)] ket = if occ ket i then Some (false, ket) else None.
Proof.
  cbn [word_act]. rewrite fock_act_flip. cbn [wants]. destruct (occ ket i) eqn:E; cbn [Bool.eqb]; [|reflexivity].
  rewrite fock_act_flip, occ_flip, Nat.eqb_refl, E; cbn [xorb wants Bool.eqb].
  rewrite odd_below_flip, Nat.ltb_irrefl, xorb_false_r, flip_flip.
  destruct (Nat.odd (below i ket)); reflexivity.
Qed.

Lemma word_hole i ket :
  word_act [(i, ANNIHILATION); (i, CREATION)] ket = if occ ket i then None else Some (false, ket).
Proof.
  cbn [word_act]. rewrite fock_act_flip. cbn [wants]. destruct (occ ket i) eqn:E; cbn [Bool.eqb]; [reflexivity|].
  rewrite fock_act_flip, occ_flip, Nat.eqb_refl, E; cbn [xorb wants Bool.eqb].
  rewrite odd_below_flip, Nat.ltb_irrefl, xorb_false_r, flip_flip.
  destruct (Nat.odd (below i ket)); reflexivity.
Qed.

(** Adjoint. *)
Lemma fock_act_adjoint i ot k s k' :
  fock_act i ot k = Some (s, k') -> fock_act i (flip_otype ot) k' = Some (s, k).
Proof.
  rewrite !fock_act_flip. destruct (Bool.eqb (occ k i) (wants ot)) eqn:E; [|discriminate].
  intros [= <- <-]. apply eqb_prop in E.
  rewrite occ_flip, Nat.eqb_refl, E.
  replace (Bool.eqb (xorb (wants ot) true) (wants (flip_otype ot))) with true by (destruct ot; reflexivity).
  now rewrite odd_below_flip, Nat.ltb_irrefl, xorb_false_r, flip_flip.
Qed.

Lemma flip_otype_invol o : flip_otype (flip_otype o) = o.
Proof. now destruct o. Qed.

Lemma word_dagger_invol w : word_dagger (word_dagger w) = w.
Proof.
  unfold word_dagger. rewrite map_rev, rev_involutive, map_map.
  rewrite <- (map_id w) at 2. apply map_ext. intros [i o]; cbn. now rewrite flip_otype_invol.
Qed.

Lemma word_act_adjoint w : forall k s k',
  word_act w k = Some (s, k') -> word_act (word_dagger w) k' = Some (s, k).
Proof.
  induction w as [|[i ot] w IH]; intros k s k'; cbn [word_act].
  - intros [= <- <-]. reflexivity.
  - destruct (word_act w k) as [[s1 k1]|] eqn:E1; [|discriminate].
    destruct (fock_act i ot k1) as [[s2 k2]|] eqn:E2; [|discriminate].
    intros [= <- <-]. unfold word_dagger. cbn [map rev fst snd]. rewrite word_act_app.
    cbn [word_act]. rewrite (fock_act_adjoint _ _ _ _ _ E2). cbn [xorb].
    fold (word_dagger w). rewrite (IH _ _ _ E1). cbn [xor_out].
    do 2 f_equal. destruct s1, s2; reflexivity.
Qed.

Lemma amp_adjoint w bra ket : amp (word_dagger w) ket bra = amp w bra ket.
Proof.
  unfold amp.
  destruct (word_act w ket) as [[s k]|] eqn:E.
  - destruct (N.eqb_spec k bra) as [->|Hne].
    + rewrite (word_act_adjoint _ _ _ _ E), N.eqb_refl. reflexivity.
    + destruct (word_act (word_dagger w) bra) as [[s' k']|] eqn:E'; [|reflexivity].
      destruct (N.eqb_spec k' ket) as [->|]; [|reflexivity].
      apply word_act_adjoint in E'. rewrite word_dagger_invol, E in E'. injection E' as _ ->. congruence.
  - destruct (word_act (word_dagger w) bra) as [[s' k']|] eqn:E'; [|reflexivity].
    destruct (N.eqb_spec k' ket) as [->|]; [|reflexivity].
    apply word_act_adjoint in E'. rewrite word_dagger_invol, E in E'. discriminate.
Qed.

(** Products. *)
Lemma amp_app_sum u v bra ket M :
  NoDup M -> (forall s k, word_act v ket = Some (s, k) -> In k M) ->
  gz (amp (u ++ v) bra ket) = lsum (fun mid => gmul (gz (amp u bra mid)) (gz (amp v mid ket))) M.
Proof.
  intros Hn Hin. unfold amp at 1. rewrite word_act_app.
  destruct (word_act v ket) as [[s k]|] eqn:E.
  - rewrite (lsum_single _ M k); auto; [|eapply Hin; reflexivity|].
    + unfold amp. rewrite E, N.eqb_refl.
      destruct (word_act u k) as [[s' k']|]; cbn [xor_out].
      * destruct (k' =? bra)%N; [destruct s, s'; cbn [xorb]|]; apply gq_eq; apply Qcanon.Qc_is_canon; reflexivity.
      * apply gq_eq; apply Qcanon.Qc_is_canon; destruct s; reflexivity.
    + intros y _ Hy. unfold amp at 2. rewrite E.
      destruct (N.eqb_spec k y); [congruence|]. change (gz 0) with g0. 
      ring.
  - symmetry. apply lsum_zero. intros y _. unfold amp at 2. rewrite E. change (gz 0) with g0.
    ring.
Qed.

(** Conservation of particle number and of the range of the bits. *)
Definition indices_below (n : nat) (w : list (nat * otype)) : Prop := Forall (fun p => (fst p < n)%nat) w.

Lemma fock_act_count n i ot k s k' : (i < n)%nat -> fock_act i ot k = Some (s, k') ->
  (Z.of_nat (below n k') = Z.of_nat (below n k) + match ot with CREATION => 1 | ANNIHILATION => -1 end)%Z.
Proof.
  intros Hi. rewrite fock_act_flip. destruct (Bool.eqb (occ k i) (wants ot)) eqn:E; [|discriminate].
  intros [= _ <-]. apply eqb_prop in E. rewrite !below_cnt, cnt_flip_in; [|apply seq_NoDup|apply in_seq; lia].
  rewrite E. destruct ot; reflexivity.
Qed.

Lemma word_act_count n w : indices_below n w -> forall k s k', word_act w k = Some (s, k') ->
  (Z.of_nat (below n k') = Z.of_nat (below n k) + word_charge w)%Z.
Proof.
  induction w as [|[i ot] w IH]; intros Hw k s k'; cbn [word_act word_charge fold_right].
  - intros [= _ <-]. lia.
  - inversion Hw as [|? ? Hi Hw']; subst. cbn [fst] in Hi.
    destruct (word_act w k) as [[s1 k1]|] eqn:E1; [|discriminate].
    destruct (fock_act i ot k1) as [[s2 k2]|] eqn:E2; [|discriminate].
    intros [= _ <-]. rewrite (fock_act_count n _ _ _ _ _ Hi E2), (IH Hw' _ _ _ E1).
    fold (word_charge w). cbn [snd]. destruct ot; lia.
Qed.

Lemma occ_bound n k : (k < 2 ^ N.of_nat n)%N <-> forall i, (n <= i)%nat -> occ k i = false.
Proof.
  split.
  - intros H i Hi. unfold occ. destruct (N.eq_dec k 0) as [->|Hk]; [apply N.bits_0|].
    apply N.bits_above_log2. apply N.log2_lt_pow2; [lia|].
    eapply N.lt_le_trans; [eassumption|]. apply N.pow_le_mono_r; lia.
  - intros H. destruct (N.eq_dec k 0) as [->|Hk].
    + apply N.neq_0_lt_0. apply N.pow_nonzero. lia.
    + apply N.log2_lt_pow2; [lia|].
      destruct (N.lt_ge_cases (N.log2 k) (N.of_nat n)) as [Hl|Hl]; auto. exfalso.
      specialize (H (N.to_nat (N.log2 k))). unfold occ in H. rewrite N2Nat.id, N.bit_log2 in H by auto.
      discriminate H. lia.
Qed.

Lemma flip_bound n k i : (i < n)%nat -> (k < 2 ^ N.of_nat n)%N -> (flip k i < 2 ^ N.of_nat n)%N.
Proof.
  intros Hi Hk. apply occ_bound. intros j Hj. rewrite occ_flip, (proj1 (occ_bound n k) Hk j Hj).
  destruct (Nat.eqb_spec i j); [lia|reflexivity].
Qed.

Lemma word_act_bound n w : indices_below n w -> forall k s k', (k < 2 ^ N.of_nat n)%N ->
  word_act w k = Some (s, k') -> (k' < 2 ^ N.of_nat n)%N.
Proof.
  induction w as [|[i ot] w IH]; intros Hw k s k' Hk; cbn [word_act].
  - intros [= _ <-]. auto.
  - inversion Hw as [|? ? Hi Hw']; subst. cbn [fst] in Hi.
    destruct (word_act w k) as [[s1 k1]|] eqn:E1; [|discriminate].
    rewrite fock_act_flip. destruct (Bool.eqb _ _); [|discriminate].
    intros [= _ <-]. apply flip_bound; auto. eapply IH; eauto.
Qed.

Lemma in_full_bases n k : In k (full_bases n) <-> (k < 2 ^ N.of_nat n)%N.
Proof.
  unfold full_bases. rewrite in_map_iff.
  assert (E : N.of_nat (2 ^ n) = (2 ^ N.of_nat n)%N).
  { rewrite Nat2N.inj_pow. reflexivity. }
  split.
  - intros (x & <- & Hx). apply in_seq in Hx. rewrite <- E. lia.
  - intros H. exists (N.to_nat k). rewrite N2Nat.id. split; auto. apply in_seq. rewrite <- E in H. lia.
Qed.

Lemma sorted_bases_map_seq m : forall s, sorted_bases (map N.of_nat (seq s m)).
Proof.
  induction m as [|m IH]; intros s; cbn [seq map sorted_bases]; auto. split; [|apply IH].
  apply Forall_forall. intros y Hy. apply in_map_iff in Hy as (x & <- & Hx). apply in_seq in Hx. lia.
Qed.
Lemma sorted_full n : sorted_bases (full_bases n).
Proof. apply sorted_bases_map_seq. Qed.

Lemma sorted_NoDup l : sorted_bases l -> NoDup l.
Proof.
  induction l as [|x l IH]; cbn; [constructor|]. intros [H Hs]. constructor; auto.
  intros Hx. rewrite Forall_forall in H. specialize (H x Hx). lia.
Qed.

(** <bra| is determined: amplitude non-zero for at most one bra. *)
Lemma amp_cases w bra ket : amp w bra ket = 0%Z \/ amp w bra ket = 1%Z \/ amp w bra ket = (-1)%Z.
Proof. unfold amp. destruct (word_act w ket) as [[s k]|]; auto. destruct (k =? bra)%N; auto. destruct s; auto. Qed.
Lemma amp_unique w b b' ket : amp w b ket <> 0%Z -> amp w b' ket <> 0%Z -> b = b'.
Proof.
  unfold amp. destruct (word_act w ket) as [[s k]|]; [|congruence].
  destruct (N.eqb_spec k b), (N.eqb_spec k b'); congruence.
Qed.
