(** The model of matrixrepr.py computes the Fock-space matrix elements. *)
From Coq Require Import List NArith ZArith Bool Arith Lia.
From Verif Require Import Py GQ Mat MatrixRepr_Model Fock_Spec Fock_Proofs.
Import ListNotations.

(** The operator product a Python-level term denotes. *)
Definition word_of (term : list (Z * otype)) : list (nat * otype) :=
  map (fun p => (Z.to_nat (fst p), snd p)) term.
Definition good_index (p : Z * otype) : Prop := (0 <= fst p < 64)%Z.

Definition row_of (p : nat * otype) : row :=
  MkRow (N.of_nat (fst p)) (2 ^ N.of_nat (fst p))%N
        (match snd p with CREATION => 0 | ANNIHILATION => 2 ^ N.of_nat (fst p) end)%N.

Lemma make_row_char p :
  make_row p = if (fst p <? 0)%Z then Err ValueError
               else Ok (row_of (Z.to_nat (fst p), snd p)).
Proof.
  destruct p as [i o]. unfold make_row. cbn [fst snd].
  destruct (Z.ltb_spec i 0); [reflexivity|]. unfold row_of; cbn [fst snd].
  rewrite N.shiftl_1_l. replace (N.of_nat (Z.to_nat i)) with (Z.to_N i) by lia.
  destruct o; reflexivity.
Qed.

Lemma pow2_fits i : fits64 (2 ^ N.of_nat i) = Nat.ltb i 64.
Proof.
  unfold fits64. destruct (Nat.ltb_spec i 64).
  - apply N.ltb_lt. apply N.pow_lt_mono_r; lia.
  - apply N.ltb_ge. apply N.pow_le_mono_r; lia.
Qed.

Lemma row_fits_char p : row_fits (row_of p) = Nat.ltb (fst p) 64.
Proof.
  unfold row_fits, row_of; cbn [r_index r_mask r_crit].
  rewrite pow2_fits. destruct p as [i o]; cbn [fst snd].
  destruct (Nat.ltb_spec i 64) as [H|H].
  - replace (fits64 (N.of_nat i)) with true.
    + destruct o; cbn [andb]; [rewrite pow2_fits; apply Nat.ltb_lt; auto|reflexivity].
    + symmetry. apply N.ltb_lt. assert (N.of_nat i < 64)%N by lia.
      eapply N.lt_trans; [eassumption|]. reflexivity.
  - now rewrite andb_false_r.
Qed.

Lemma make_term_rows term :
  Forall (fun p => (0 <= fst p)%Z) term -> mapM make_row term = Ok (map row_of (word_of term)).
Proof.
  induction term as [|p term IH]; intros H; cbn; [reflexivity|].
  inversion H; subst. rewrite make_row_char. destruct (Z.ltb_spec (fst p) 0); [lia|].
  rewrite IH by auto. reflexivity.
Qed.

Lemma make_term_ok term : Forall good_index term -> make_term term = Ok (map row_of (word_of term)).
Proof.
  intros H. unfold make_term. rewrite make_term_rows.
  - replace (forallb row_fits (map row_of (word_of term))) with true; [reflexivity|].
    symmetry. apply forallb_forall. intros r Hr. unfold word_of in Hr. rewrite map_map in Hr.
    apply in_map_iff in Hr as (p & <- & Hp). rewrite row_fits_char. cbn [fst].
    rewrite Forall_forall in H. specialize (H p Hp). unfold good_index in H. apply Nat.ltb_lt. lia.
  - eapply Forall_impl; [|exact H]. unfold good_index. intros; lia.
Qed.

Lemma make_term_negative term :
  Exists (fun p => (fst p < 0)%Z) term -> make_term term = Err ValueError.
Proof.
  intros H. unfold make_term.
  assert (E : mapM make_row term = Err ValueError); [|now rewrite E].
  induction term as [|p term IH]; inversion H; subst; cbn; rewrite make_row_char.
  - destruct (Z.ltb_spec (fst p) 0); [reflexivity|lia].
  - destruct (fst p <? 0)%Z; [reflexivity|]. rewrite IH; auto.
Qed.

Lemma make_term_overflow term :
  Forall (fun p => (0 <= fst p)%Z) term -> Exists (fun p => (64 <= fst p)%Z) term ->
  make_term term = Err OverflowError.
Proof.
  intros H He. unfold make_term. rewrite make_term_rows by auto.
  replace (forallb row_fits (map row_of (word_of term))) with false; [reflexivity|].
  symmetry. apply not_true_iff_false. intros Hf. rewrite forallb_forall in Hf.
  apply Exists_exists in He as (p & Hp & Hb).
  specialize (Hf (row_of (Z.to_nat (fst p), snd p))).
  rewrite row_fits_char in Hf. cbn [fst] in Hf.
  assert (In (row_of (Z.to_nat (fst p), snd p)) (map row_of (word_of term))).
  { unfold word_of. rewrite map_map. apply in_map_iff. exists p; auto. }
  apply Hf in H0. apply Nat.ltb_lt in H0. lia.
Qed.

Lemma good_dec term : Forall good_index term \/ Exists (fun p => (fst p < 0)%Z) term \/
  (Forall (fun p => (0 <= fst p)%Z) term /\ Exists (fun p => (64 <= fst p)%Z) term).
Proof.
  induction term as [|p term IH]; [left; constructor|].
  destruct (Z.ltb_spec (fst p) 0); [right; left; now left|].
  destruct IH as [IH|[IH|[IH1 IH2]]].
  - destruct (Z.leb_spec 64 (fst p)).
    + right; right. split; [|now left]. constructor; auto.
      eapply Forall_impl; [|exact IH]. unfold good_index; intros; lia.
    + left. constructor; auto. unfold good_index; lia.
  - right; left; now right.
  - right; right. split; [constructor; auto|now right].
Qed.

Lemma make_term_inv term rows : make_term term = Ok rows ->
  Forall good_index term /\ rows = map row_of (word_of term).
Proof.
  intros H. destruct (good_dec term) as [G|[G|[G1 G2]]].
  - rewrite (make_term_ok _ G) in H. split; congruence.
  - rewrite (make_term_negative _ G) in H; discriminate.
  - rewrite (make_term_overflow _ G1 G2) in H; discriminate.
Qed.

(** Bit tests. *)
Lemma land_mask_0 ket i : (N.land ket (2 ^ N.of_nat i) =? 0)%N = negb (occ ket i).
Proof.
  destruct (occ ket i) eqn:E; cbn [negb].
  - apply N.eqb_neq. intros H.
    assert (T : N.testbit (N.land ket (2 ^ N.of_nat i)) (N.of_nat i) = true).
    { rewrite N.land_spec, N.pow2_bits_true. fold (occ ket i). now rewrite E. }
    rewrite H, N.bits_0 in T. discriminate.
  - apply N.eqb_eq. apply N.bits_inj. intros n. rewrite N.land_spec, N.pow2_bits_eqb, N.bits_0.
    destruct (N.eqb_spec (N.of_nat i) n) as [<-|]; [fold (occ ket i); now rewrite E|apply andb_false_r].
Qed.

Lemma land_mask_mask ket i : (N.land ket (2 ^ N.of_nat i) =? 2 ^ N.of_nat i)%N = occ ket i.
Proof.
  destruct (occ ket i) eqn:E.
  - apply N.eqb_eq. apply N.bits_inj. intros n. rewrite N.land_spec, N.pow2_bits_eqb.
    destruct (N.eqb_spec (N.of_nat i) n) as [<-|]; [fold (occ ket i); now rewrite E|apply andb_false_r].
  - pose proof (land_mask_0 ket i) as H. rewrite E in H. apply N.eqb_eq in H. rewrite H.
    apply N.eqb_neq. intros H'. symmetry in H'. revert H'. apply N.pow_nonzero. lia.
Qed.

Lemma count_swaps_char start len ket s :
  count_swaps start len ket s = xorb s (Nat.odd (cnt (seq start len) ket)).
Proof.
  unfold count_swaps. revert start s. induction len as [|len IH]; intros start s; cbn [seq fold_left].
  - cbn. now rewrite xorb_false_r.
  - rewrite IH, cnt_cons, N.shiftl_1_l, land_mask_0.
    destruct (occ ket start); cbn [negb]; [|reflexivity].
    rewrite xorb_assoc. f_equal. cbn [plus]. rewrite Nat.odd_succ, <- Nat.negb_odd. reflexivity.
Qed.

Lemma apply_row1 p s ket :
  apply_rows [row_of p] s ket = xor_out s (fock_act (fst p) (snd p) ket).
Proof.
  destruct p as [i o]. cbn [apply_rows]. unfold row_of; cbn [r_mask r_crit r_index fst snd].
  rewrite fock_act_flip.
  assert (C : (N.land ket (2 ^ N.of_nat i) =? match o with CREATION => 0 | ANNIHILATION => 2 ^ N.of_nat i end)%N
              = Bool.eqb (occ ket i) (wants o)).
  { destruct o; cbn [wants].
    - rewrite land_mask_mask. now destruct (occ ket i).
    - rewrite land_mask_0. now destruct (occ ket i). }
  rewrite C. destruct (Bool.eqb _ _); cbn [xor_out]; [|reflexivity].
  rewrite count_swaps_char, Nat2N.id. reflexivity.
Qed.

Lemma apply_rows_app l m s ket :
  apply_rows (l ++ m) s ket =
  match apply_rows l s ket with Some (s', k') => apply_rows m s' k' | None => None end.
Proof.
  revert s ket. induction l as [|r l IH]; intros s ket; cbn [app apply_rows]; [reflexivity|].
  destruct (_ =? _)%N; auto.
Qed.

Lemma apply_rows_word w ket :
  apply_rows (rev (map row_of w)) false ket = word_act w ket.
Proof.
  induction w as [|[i o] w IH]; [reflexivity|].
  cbn [map rev]. rewrite apply_rows_app, IH. cbn [word_act].
  destruct (word_act w ket) as [[s k]|]; [|reflexivity].
  rewrite apply_row1. cbn [fst snd]. now destruct (fock_act i o k) as [[? ?]|].
Qed.

(** Binary search. *)
Lemma sorted_nth l : sorted_bases l -> forall i j, (i < j < length l)%nat -> (nth i l 0 < nth j l 0)%N.
Proof.
  induction l as [|x l IH]; cbn [sorted_bases length]; intros Hs i j H; [lia|].
  destruct Hs as [Hf Hs]. destruct j as [|j]; [lia|]. destruct i as [|i]; cbn [nth].
  - rewrite Forall_forall in Hf. apply Hf. apply nth_In. lia.
  - apply IH; auto. lia.
Qed.

Lemma bisect_spec a v : sorted_bases a -> forall fuel lo hi,
  (lo <= hi <= length a)%nat -> (hi - lo < fuel)%nat ->
  (forall i, (i < lo)%nat -> (nth i a 0 < v)%N) ->
  (forall i, (hi <= i < length a)%nat -> (v <= nth i a 0)%N) ->
  let r := bisect fuel a v lo hi in
  (r <= length a)%nat /\ (forall i, (i < r)%nat -> (nth i a 0 < v)%N) /\
  (forall i, (r <= i < length a)%nat -> (v <= nth i a 0)%N).
Proof.
  intros Hs. induction fuel as [|fuel IH]; intros lo hi Hb Hf H1 H2; [lia|].
  cbn [bisect]. destruct (Nat.ltb_spec lo hi) as [Hlt|Hge].
  - set (mid := Nat.div2 (lo + hi)).
    assert (Hm : (lo <= mid < hi)%nat).
    { unfold mid. rewrite Nat.div2_div.
      split; [apply Nat.div_le_lower_bound; lia|apply Nat.div_lt_upper_bound; lia]. }
    destruct (N.ltb_spec (nth mid a 0%N) v) as [Hv|Hv].
    + apply IH; try lia.
      * intros i Hi. destruct (Nat.eq_dec i mid) as [->|]; auto.
        pose proof (sorted_nth a Hs i mid). lia.
      * auto.
    + apply IH; try lia; auto.
      intros i Hi. destruct (Nat.eq_dec i mid) as [->|]; auto.
      destruct (Nat.lt_ge_cases i hi); [|apply H2; lia].
      pose proof (sorted_nth a Hs mid i). lia.
  - cbn. repeat split; try lia; auto. intros i Hi. apply H2. lia.
Qed.

Lemma searchsorted_spec a v : sorted_bases a ->
  (searchsorted a v <= length a)%nat /\
  (forall i, (i < searchsorted a v)%nat -> (nth i a 0 < v)%N) /\
  (forall i, (searchsorted a v <= i < length a)%nat -> (v <= nth i a 0)%N).
Proof.
  intros Hs. unfold searchsorted. apply bisect_spec; auto; try lia.
Qed.

Lemma locate_spec left ket : sorted_bases left ->
  (forall i, locate left ket = Some i <-> (i < length left)%nat /\ nth i left 0%N = ket) /\
  (locate left ket = None <-> ~ In ket left).
Proof.
  intros Hs. destruct (searchsorted_spec left ket Hs) as (H1 & H2 & H3).
  unfold locate. set (r := searchsorted left ket) in *.
  assert (K : forall i, (i < length left)%nat -> nth i left 0%N = ket -> i = r).
  { intros i Hi Hk. destruct (Nat.lt_trichotomy i r) as [Hlt|[E|Hlt]]; auto.
    - specialize (H2 i Hlt). lia.
    - pose proof (sorted_nth left Hs r i). specialize (H3 r). lia. }
  destruct (Nat.eqb_spec r (length left)) as [E|E]; cbn [negb andb].
  - split; [|split; auto; intros _ Hin].
    + intros i. split; [discriminate|]. intros [Hi Hk]. specialize (K i Hi Hk). lia.
    + apply (In_nth _ _ 0%N) in Hin as (i & Hi & Hk). specialize (K i Hi Hk). lia.
  - destruct (N.eqb_spec (nth r left 0%N) ket) as [Ek|Ek].
    + split.
      * intros i. split; [intros [= <-]; split; auto; lia|]. intros [Hi Hk]. f_equal. symmetry; auto.
      * split; [discriminate|]. intros Hn. exfalso. apply Hn. rewrite <- Ek. apply nth_In. lia.
    + split; [|split; auto; intros _ Hin].
      * intros i. split; [discriminate|]. intros [Hi Hk]. specialize (K i Hi Hk). subst i. contradiction.
      * apply (In_nth _ _ 0%N) in Hin as (i & Hi & Hk). specialize (K i Hi Hk). subst i. contradiction.
Qed.

(** csr_matrix *)
Lemma stored_at_sum i j l :
  stored_at i j l = lsum (fun e => if pos_eqb (i, j) (fst e) then snd e else g0) l.
Proof.
  induction l as [|[p v] l IH]; cbn [stored_at lsum fst snd]; [reflexivity|].
  rewrite IH. destruct (pos_eqb (i, j) p); [reflexivity|ring].
Qed.

Lemma pos_eqb_spec p q : reflect (p = q) (pos_eqb p q).
Proof.
  destruct p as [a b], q as [c d]. unfold pos_eqb; cbn.
  destruct (Nat.eqb_spec a c), (Nat.eqb_spec b d); constructor; congruence.
Qed.

Lemma stored_at_coo_add i j p v l :
  stored_at i j (coo_add p v l) = gadd (stored_at i j l) (if pos_eqb (i, j) p then v else g0).
Proof.
  induction l as [|[q w] l IH]; cbn [coo_add stored_at].
  - destruct (pos_eqb (i, j) p); ring.
  - destruct (pos_eqb_spec p q) as [->|Hne]; cbn [stored_at].
    + destruct (pos_eqb (i, j) q); ring.
    + rewrite IH. destruct (pos_eqb (i, j) q); ring.
Qed.

Lemma stored_at_fold i j l : forall acc,
  stored_at i j (fold_left (fun acc e => coo_add (fst e) (snd e) acc) l acc) =
  gadd (stored_at i j acc) (lsum (fun e => if pos_eqb (i, j) (fst e) then snd e else g0) l).
Proof.
  induction l as [|[p v] l IH]; intros acc; cbn [fold_left lsum fst snd]; [ring|].
  rewrite IH, stored_at_coo_add. ring.
Qed.

Lemma stored_at_filter i j l :
  stored_at i j (filter (fun e => negb (geqb (snd e) g0)) l) = stored_at i j l.
Proof.
  induction l as [|[p v] l IH]; cbn [filter stored_at snd]; [reflexivity|].
  destruct (geqb_spec v g0) as [->|Hv]; cbn [negb stored_at]; rewrite IH;
    destruct (pos_eqb (i, j) p); ring.
Qed.

Lemma csr_entry l m n c : csr_matrix l m n = Ok c -> forall i j,
  entry c i j = lsum (fun e => if pos_eqb (i, j) (fst e) then snd e else g0) l.
Proof.
  unfold csr_matrix. destruct (forallb _ l); [|discriminate]. intros [= <-] i j.
  unfold entry; cbn [stored]. rewrite stored_at_filter, stored_at_fold. cbn [stored_at]. ring.
Qed.

Lemma csr_shape l m n c : csr_matrix l m n = Ok c -> nrows c = m /\ ncols c = n.
Proof. unfold csr_matrix. destruct (forallb _ l); [|discriminate]. intros [= <-]. auto. Qed.

Lemma coo_add_keys p v l : NoDup (map fst l) -> NoDup (map fst (coo_add p v l)) /\
  (forall q, In q (map fst (coo_add p v l)) -> q = p \/ In q (map fst l)).
Proof.
  induction l as [|[q w] l IH]; cbn [coo_add map fst]; intros Hn.
  - split; [constructor; auto|]. cbn. intuition.
  - inversion Hn as [|? ? Hq Hl]; subst. destruct (pos_eqb_spec p q) as [->|Hne]; cbn [map fst].
    + split; [constructor; auto|]. cbn. intuition.
    + destruct (IH Hl) as [IH1 IH2]. split.
      * constructor; auto. intros Hin. apply IH2 in Hin as [E|Hin]; congruence.
      * cbn. intros x [E|Hx]; auto. apply IH2 in Hx as [E|Hx]; auto.
Qed.

Lemma csr_nodup l m n c : csr_matrix l m n = Ok c -> NoDup (map fst (stored c)) /\
  Forall (fun e => snd e <> g0) (stored c).
Proof.
  unfold csr_matrix. destruct (forallb _ l); [|discriminate]. intros [= <-]; cbn [stored].
  assert (N : NoDup (map fst (fold_left (fun acc e => coo_add (fst e) (snd e) acc) l []))).
  { assert (G : forall acc, NoDup (map fst acc) ->
        NoDup (map fst (fold_left (fun acc e => coo_add (fst e) (snd e) acc) l acc))).
    { induction l as [|e l IH]; intros acc Ha; cbn [fold_left]; auto. apply IH. now apply coo_add_keys. }
    apply G. constructor. }
  set (L := fold_left _ l []) in *. clearbody L. split.
  - induction L as [|e L IH]; cbn; [constructor|]. inversion N as [|? ? He HL]; subst.
    destruct (negb _); cbn; auto. constructor; auto.
    intros Hin. apply He. apply in_map_iff in Hin as (x & E & Hx). apply filter_In in Hx as [Hx _].
    rewrite <- E. now apply in_map.
  - apply Forall_forall. intros e He. apply filter_In in He as [_ He].
    destruct (geqb_spec (snd e) g0); [discriminate|auto].
Qed.

(** An entry is stored iff it is a non-zero element. *)
Lemma stored_at_nodup i j v l : NoDup (map fst l) -> In ((i, j), v) l -> stored_at i j l = v.
Proof.
  intros Hn Hin. rewrite stored_at_sum.
  rewrite (lsum_single _ l ((i, j), v)); auto.
  - cbn. destruct (pos_eqb_spec (i, j) (i, j)); congruence.
  - eapply NoDup_map_inv; eauto.
  - intros [q w] Hq Hne. cbn [fst snd]. destruct (pos_eqb_spec (i, j) q) as [<-|]; [|reflexivity].
    exfalso. apply Hne. f_equal. clear Hne.
    induction l as [|[p u] l IH]; [contradiction|]. cbn in Hn. inversion Hn as [|? ? Hp Hl]; subst.
    destruct Hin as [E1|Hin], Hq as [E2|Hq].
    + congruence.
    + injection E1 as -> ->. exfalso. apply Hp. apply in_map_iff. exists ((i, j), w). auto.
    + injection E2 as -> ->. exfalso. apply Hp. apply in_map_iff. exists ((i, j), v). auto.
    + auto.
Qed.

Lemma csr_stored_iff l m n c : csr_matrix l m n = Ok c -> forall i j v,
  In ((i, j), v) (stored c) <-> entry c i j = v /\ v <> g0.
Proof.
  intros Hc i j v. destruct (csr_nodup _ _ _ _ Hc) as [Hn Hz]. split.
  - intros Hin. split; [apply stored_at_nodup; auto|].
    rewrite Forall_forall in Hz. apply (Hz _ Hin).
  - intros [He Hv]. unfold entry in He. rewrite stored_at_sum in He.
    assert (Hex : exists w, In ((i, j), w) (stored c)).
    { clear Hc Hn Hz. revert He. induction (stored c) as [|[p w] s IH]; cbn [lsum fst snd]; [congruence|].
      destruct (pos_eqb_spec (i, j) p) as [<-|]; [intros _; exists w; now left|].
      intros He. destruct IH as [u Hu]; [rewrite <- He; ring|]. exists u. now right. }
    destruct Hex as [w Hw]. rewrite <- stored_at_sum, (stored_at_nodup _ _ w) in He; auto. congruence.
Qed.

(** Column data. *)
Definition col_triple (g : option (bool * nat)) (i : nat) : triple :=
  match g with Some (s, idx) => hit i idx s | None => miss end.
Definition col_entry (g : option (bool * nat)) (r : nat) : Z :=
  match g with Some (s, idx) => if Nat.eqb idx r then (if s then -1 else 1) else 0 | None => 0 end%Z.

Lemma lsum_enumerate {A} (F : nat * A -> GQ) (l : list A) d :
  lsum F (enumerate l) = bigsum (length l) (fun i => F (i, nth i l d)).
Proof.
  unfold enumerate, bigsum.
  assert (G : forall l s, lsum F (combine (seq s (length l)) l) =
             lsum (fun i => F (i, nth (i - s) l d)) (seq s (length l))).
  { clear l. induction l as [|x l IH]; intros s; cbn [length seq combine lsum]; [reflexivity|].
    rewrite Nat.sub_diag. cbn [nth]. f_equal. rewrite IH. apply lsum_ext. intros i Hi.
    apply in_seq in Hi. destruct (i - s)%nat as [|k] eqn:E; [lia|]. cbn [nth]. repeat f_equal. lia. }
  rewrite G. apply lsum_ext. intros i _. now rewrite Nat.sub_0_r.
Qed.

Lemma data_entry (G : nat -> N -> option (bool * nat)) right coeff m n c :
  csr_matrix (scale_data coeff (map (fun '(i, ket) => col_triple (G i ket) i) (enumerate right))) m n = Ok c ->
  forall r j, (j < length right)%nat ->
  entry c r j = gmul coeff (gz (col_entry (G j (nth j right 0%N)) r)).
Proof.
  intros Hc r j Hj. rewrite (csr_entry _ _ _ _ Hc). unfold scale_data. rewrite map_map, lsum_map.
  rewrite (lsum_enumerate _ right 0%N).
  rewrite (bigsum_single _ _ j); auto.
  - destruct (G j (nth j right 0%N)) as [[s idx]|]; cbn [col_triple col_entry hit miss fst snd].
    + unfold pos_eqb; cbn [fst snd]. rewrite Nat.eqb_refl, andb_true_r, (Nat.eqb_sym r idx).
      destruct (Nat.eqb idx r); [reflexivity|]. change (gz 0) with g0. ring.
    + change (gz 0) with g0. destruct (pos_eqb _ _); ring.
  - intros i Hi Hne. destruct (G i (nth i right 0%N)) as [[s idx]|]; cbn [col_triple hit miss fst snd].
    + unfold pos_eqb; cbn [fst snd]. destruct (Nat.eqb_spec j i); [congruence|]. now rewrite andb_false_r.
    + change (gz 0) with g0. destruct (pos_eqb _ _); ring.
Qed.

Lemma data_entry_oob (G : nat -> N -> option (bool * nat)) right coeff m n c :
  csr_matrix (scale_data coeff (map (fun '(i, ket) => col_triple (G i ket) i) (enumerate right))) m n = Ok c ->
  forall r j, (length right <= j)%nat -> entry c r j = g0.
Proof.
  intros Hc r j Hj. rewrite (csr_entry _ _ _ _ Hc). unfold scale_data. rewrite map_map, lsum_map.
  rewrite (lsum_enumerate _ right 0%N). apply bigsum_zero. intros i Hi.
  destruct (G i (nth i right 0%N)) as [[s idx]|]; cbn [col_triple hit miss fst snd].
  - unfold pos_eqb; cbn [fst snd]. destruct (Nat.eqb_spec j i); [lia|]. now rewrite andb_false_r.
  - change (gz 0) with g0. destruct (pos_eqb _ _); ring.
Qed.

(** mapM over the enumerated kets. *)
Definition col_of (left : list N) (o : option (bool * N)) : res (option (bool * nat)) :=
  match o with
  | None => Ok None
  | Some (s, k) => match locate left k with Some idx => Ok (Some (s, idx)) | None => Err KeyError end
  end.

Lemma mapM_pure {A B} (f : A -> B) l : mapM (fun x => Ok (f x)) l = Ok (map f l).
Proof. induction l as [|x l IH]; cbn; [reflexivity|]. now rewrite IH. Qed.

Lemma mapM_ext {A B} (f g : A -> res B) l : (forall x, In x l -> f x = g x) -> mapM f l = mapM g l.
Proof.
  induction l as [|x l IH]; cbn; intros H; [reflexivity|]. rewrite H by auto. rewrite IH; auto.
Qed.

Lemma mapM_err {A B} (f : A -> res B) l e :
  (forall x e', In x l -> f x = Err e' -> e' = e) -> (exists x, In x l /\ f x = Err e) -> mapM f l = Err e.
Proof.
  induction l as [|x l IH]; cbn; intros H (y & Hy & E); [contradiction|].
  destruct (f x) as [b|e'] eqn:Ex.
  - destruct Hy as [->|Hy]; [congruence|]. rewrite IH; [reflexivity | intros; eapply H; eauto | eauto].
  - f_equal. apply (H x); auto.
Qed.

Definition act_in (left : list N) (o : option (bool * N)) : Prop :=
  match o with Some (_, k) => In k left | None => True end.

(** The generic shape of _core_general and _core_hopping. *)
Definition core_by (F : N -> option (bool * N)) (right left : list N) : res (list triple) :=
  mapM (fun '(i, ket) =>
          match F ket with
          | None => Ok miss
          | Some (s, k) => match locate left k with Some idx => Ok (hit i idx s) | None => Err KeyError end
          end) (enumerate right).

Lemma in_enumerate {A} (l : list A) i x : In (i, x) (enumerate l) -> In x l.
Proof. unfold enumerate. apply in_combine_r. Qed.
Lemma enumerate_in {A} (l : list A) x : In x l -> exists i, In (i, x) (enumerate l).
Proof.
  intros Hx. unfold enumerate.
  assert (G : forall (l : list A) s, In x l -> exists i, In (i, x) (combine (seq s (length l)) l)).
  { clear. induction l as [|y l IH]; intros s Hx; [contradiction|]. cbn.
    destruct Hx as [->|Hx]; [exists s; auto|]. destruct (IH (S s) Hx) as [i Hi]. eauto. }
  apply G; auto.
Qed.

Lemma core_by_ok F right left : sorted_bases left ->
  Forall (fun ket => act_in left (F ket)) right ->
  core_by F right left =
  Ok (map (fun '(i, ket) => col_triple
        (match F ket with Some (s, k) => option_map (fun idx => (s, idx)) (locate left k) | None => None end) i)
      (enumerate right)).
Proof.
  intros Hs Ha. unfold core_by. rewrite <- mapM_pure. apply mapM_ext. intros [i ket] Hin.
  apply in_enumerate in Hin. rewrite Forall_forall in Ha. specialize (Ha ket Hin).
  destruct (F ket) as [[s k]|]; cbn in *; [|reflexivity].
  destruct (locate left k) eqn:E; [reflexivity|].
  apply (locate_spec left k Hs) in E. contradiction.
Qed.

Lemma core_by_err F right left : sorted_bases left ->
  ~ Forall (fun ket => act_in left (F ket)) right -> core_by F right left = Err KeyError.
Proof.
  intros Hs Hn. unfold core_by. apply mapM_err.
  - intros [i ket] e' _. destruct (F ket) as [[s k]|]; [|discriminate].
    destruct (locate left k); congruence.
  - assert (Hex : exists ket, In ket right /\ ~ act_in left (F ket)).
    { clear -Hn. induction right as [|x right IH]; [exfalso; apply Hn; constructor|].
      assert (D : act_in left (F x) \/ ~ act_in left (F x)).
      { unfold act_in. destruct (F x) as [[s k]|]; auto.
        destruct (in_dec N.eq_dec k left); auto. }
      destruct D as [D|D]; [|exists x; split; auto; now left].
      destruct IH as (y & Hy & Hb); [intros H; apply Hn; constructor; auto|].
      exists y; split; auto; now right. }
    destruct Hex as (ket & Hin & Hb). destruct (enumerate_in _ _ Hin) as [i Hi].
    exists (i, ket). split; auto. destruct (F ket) as [[s k]|]; cbn in Hb; [|exfalso; auto].
    replace (locate left k) with (@None nat); [reflexivity|].
    symmetry. now apply (locate_spec left k Hs).
Qed.

Lemma core_general_by w right left :
  core_general (map row_of w) right left = core_by (word_act w) right left.
Proof.
  unfold core_general, core_by. apply mapM_ext. intros [i ket] _. now rewrite apply_rows_word.
Qed.

(** Shape check of csr_matrix for such data. *)
Lemma csr_by_shape coeff (g : N -> option (bool * nat)) right m :
  (forall ket s idx, In ket right -> g ket = Some (s, idx) -> (idx < m)%nat) ->
  (m <> 0 \/ right = [])%nat ->
  exists c, csr_matrix (scale_data coeff (map (fun '(i, ket) => col_triple (g ket) i) (enumerate right)))
                       m (length right) = Ok c.
Proof.
  intros Hb Hm. unfold csr_matrix.
  match goal with |- context [forallb ?f ?l] => assert (E : forallb f l = true) end.
  { apply forallb_forall. intros e He. unfold scale_data in He. rewrite map_map in He.
    apply in_map_iff in He as ([i ket] & <- & Hin).
    assert (Hi : (i < length right)%nat).
    { unfold enumerate in Hin. apply in_combine_l in Hin. apply in_seq in Hin. lia. }
    apply in_enumerate in Hin.
    destruct (g ket) as [[s idx]|] eqn:Eg; cbn [col_triple hit miss fst snd].
    - rewrite (proj2 (Nat.ltb_lt idx m)), (proj2 (Nat.ltb_lt i _)); auto. eapply Hb; eauto.
    - destruct Hm as [Hm| ->]; [|contradiction].
      rewrite (proj2 (Nat.ltb_lt 0 m)), (proj2 (Nat.ltb_lt 0 _)); auto; lia. }
  rewrite E. eauto.
Qed.

Lemma csr_by_noshape coeff (g : N -> option (bool * nat)) right :
  right <> [] ->
  csr_matrix (scale_data coeff (map (fun '(i, ket) => col_triple (g ket) i) (enumerate right)))
             0 (length right) = Err ValueError.
Proof.
  intros Hr. destruct right as [|x right]; [contradiction|]. unfold csr_matrix, scale_data, enumerate.
  cbn [length seq combine map forallb].
  destruct (g x) as [[s idx]|]; cbn; reflexivity.
Qed.

(** Main characterisation of the [general] path: exactly when it succeeds, and
    with which matrix. *)
Lemma locate_col_entry left k s r : sorted_bases left -> (r < length left)%nat ->
  col_entry (option_map (fun idx => (s, idx)) (locate left k)) r =
  if (k =? nth r left 0)%N then (if s then -1 else 1)%Z else 0%Z.
Proof.
  intros Hs Hr. destruct (locate_spec left k Hs) as [L1 L2].
  destruct (locate left k) as [idx|] eqn:E; cbn [option_map col_entry].
  - destruct (proj1 (L1 idx) eq_refl) as [Hi Hk].
    destruct (Nat.eqb_spec idx r) as [->|Hne].
    + rewrite Hk, N.eqb_refl. reflexivity.
    + destruct (N.eqb_spec k (nth r left 0%N)) as [Ek|]; [|reflexivity].
      exfalso. apply Hne. assert (Hr' : (r < length left)%nat /\ nth r left 0%N = k) by auto.
      apply L1 in Hr'. congruence.
  - destruct (N.eqb_spec k (nth r left 0%N)) as [->|]; [|reflexivity].
    exfalso. apply L2; auto. now apply nth_In.
Qed.

Definition closed_on (w : list (nat * otype)) (right left : list N) : Prop :=
  Forall (fun ket => act_in left (word_act w ket)) right.

Lemma by_entry F coeff right left c : sorted_bases left ->
  csr_matrix (scale_data coeff
     (map (fun '(i, ket) => col_triple
        (match F ket with Some (s, k) => option_map (fun idx => (s, idx)) (locate left k) | None => None end) i)
      (enumerate right))) (length left) (length right) = Ok c ->
  forall r j, (r < length left)%nat -> (j < length right)%nat ->
  entry c r j = gmul coeff (gz (match F (nth j right 0%N) with
     | Some (s, k) => if (k =? nth r left 0)%N then (if s then -1 else 1) else 0 | None => 0 end%Z)).
Proof.
  intros Hs Hc r j Hr Hj.
  rewrite (data_entry (fun _ ket => match F ket with
     | Some (s, k) => option_map (fun idx => (s, idx)) (locate left k) | None => None end) right coeff _ _ c Hc r j Hj).
  do 2 f_equal. destruct (F (nth j right 0%N)) as [[s k]|]; [|reflexivity].
  now apply locate_col_entry.
Qed.

Theorem general_ok term right left coeff :
  sorted_bases (the_left right left) -> term <> [] -> Forall good_index term ->
  closed_on (word_of term) right (the_left right left) ->
  (the_left right left <> [] \/ right = []) ->
  exists m, matrix_function term right left coeff Tgeneral = Ok m /\
    nrows m = length (the_left right left) /\ ncols m = length right /\
    meq (nrows m) (ncols m) (entry m) (word_mat coeff (word_of term) (the_left right left) right).
Proof.
  intros Hs Hne Hg Hc Hl. set (L := the_left right left) in *.
  unfold matrix_function, matrix_data. fold L. rewrite (make_term_ok _ Hg).
  assert (Ecore : core Tgeneral (map row_of (word_of term)) right L = core_by (word_act (word_of term)) right L).
  { destruct term as [|p term]; [contradiction|]. rewrite <- core_general_by. reflexivity. }
  rewrite Ecore, core_by_ok by auto.
  destruct (csr_by_shape coeff (fun ket => match word_act (word_of term) ket with
     | Some (s, k) => option_map (fun idx => (s, idx)) (locate L k) | None => None end) right (length L)) as [c Ec].
  - intros ket s idx _. destruct (word_act (word_of term) ket) as [[s' k]|]; [|discriminate].
    destruct (locate L k) eqn:E; [|discriminate]. intros [= <- <-]. now apply (locate_spec L k Hs) in E.
  - destruct Hl as [Hl|Hl]; [left; now destruct L|now right].
  - exists c. split; [exact Ec|]. destruct (csr_shape _ _ _ _ Ec) as [-> ->]. repeat split.
    intros r j Hr Hj. rewrite (by_entry _ _ _ _ _ Hs Ec r j Hr Hj). reflexivity.
Qed.

Theorem general_errors term right left coeff :
  sorted_bases (the_left right left) ->
  (Exists (fun p => (fst p < 0)%Z) term ->
     matrix_function term right left coeff Tgeneral = Err ValueError) /\
  (Forall (fun p => (0 <= fst p)%Z) term -> Exists (fun p => (64 <= fst p)%Z) term ->
     matrix_function term right left coeff Tgeneral = Err OverflowError) /\
  (term = [] -> matrix_function term right left coeff Tgeneral = Err TypeError) /\
  (term <> [] -> Forall good_index term -> ~ closed_on (word_of term) right (the_left right left) ->
     matrix_function term right left coeff Tgeneral = Err KeyError) /\
  (term <> [] -> Forall good_index term -> closed_on (word_of term) right (the_left right left) ->
     the_left right left = [] -> right <> [] ->
     matrix_function term right left coeff Tgeneral = Err ValueError).
Proof.
  intros Hs. unfold matrix_function, matrix_data. repeat split.
  - intros H. now rewrite make_term_negative.
  - intros H1 H2. now rewrite make_term_overflow.
  - intros ->. reflexivity.
  - intros Hne Hg Hc. rewrite (make_term_ok _ Hg).
    replace (core Tgeneral (map row_of (word_of term)) right (the_left right left))
      with (core_by (word_act (word_of term)) right (the_left right left)).
    + now rewrite core_by_err.
    + destruct term as [|p term]; [contradiction|]. rewrite <- core_general_by. reflexivity.
  - intros Hne Hg Hc HL Hr. rewrite (make_term_ok _ Hg).
    replace (core Tgeneral (map row_of (word_of term)) right (the_left right left))
      with (core_by (word_act (word_of term)) right (the_left right left)).
    + rewrite core_by_ok by auto. rewrite HL. cbn [length].
      apply (csr_by_noshape coeff (fun ket => match word_act (word_of term) ket with
        | Some (s, k) => option_map (fun idx => (s, idx)) (locate [] k) | None => None end)). auto.
    + destruct term as [|p term]; [contradiction|]. rewrite <- core_general_by. reflexivity.
Qed.

Lemma closed_on_dec w right left : closed_on w right left \/ ~ closed_on w right left.
Proof.
  unfold closed_on. induction right as [|x r IH]; [left; constructor|].
  assert (D : act_in left (word_act w x) \/ ~ act_in left (word_act w x)).
  { unfold act_in. destruct (word_act w x) as [[s k]|]; auto. destruct (in_dec N.eq_dec k left); auto. }
  destruct D as [D|D]; [|right; intros H; inversion H; auto].
  destruct IH as [IH|IH]; [left; constructor; auto|right; intros H; inversion H; auto].
Qed.

(** Converse: success gives all the conditions. *)
Lemma general_inv term right left coeff m :
  sorted_bases (the_left right left) ->
  matrix_function term right left coeff Tgeneral = Ok m ->
  term <> [] /\ Forall good_index term /\ closed_on (word_of term) right (the_left right left) /\
  (the_left right left <> [] \/ right = []) /\
  nrows m = length (the_left right left) /\ ncols m = length right /\
  meq (nrows m) (ncols m) (entry m) (word_mat coeff (word_of term) (the_left right left) right).
Proof.
  intros Hs Hm. destruct (general_errors term right left coeff Hs) as (E1 & E2 & E3 & E4 & E5).
  destruct (good_dec term) as [G|[G|[G1 G2]]]; [|rewrite E1 in Hm by auto; discriminate
                                                 |rewrite E2 in Hm by auto; discriminate].
  assert (Hne : term <> []) by (intros ->; rewrite E3 in Hm by auto; discriminate).
  assert (D : closed_on (word_of term) right (the_left right left) \/
              ~ closed_on (word_of term) right (the_left right left)).
  { apply closed_on_dec. }
  destruct D as [D|D]; [|rewrite E4 in Hm by auto; discriminate].
  assert (Hl : the_left right left <> [] \/ right = []).
  { destruct (the_left right left) eqn:EL; [|left; discriminate].
    destruct right; [now right|]. rewrite E5 in Hm; auto; discriminate. }
  destruct (general_ok term right left coeff Hs Hne G D Hl) as (m' & Hm' & R).
  rewrite Hm in Hm'. injection Hm' as <-. tauto.
Qed.
