(** Proofs for C56: conserved particle numbers. *)
From Coq Require Import List ZArith NArith Bool Arith Lia Ring.
From Verif Require Import Py GQ Mat IndexTable_Model State_Model State_Spec MatrixRepr_Model Fock_Spec Fock_Proofs MatrixRepr_Proofs MatrixRepr_Proofs2
  Particle_Model Particle_Spec Particle_Proofs Particle_Proofs2 Particle_Proofs3 Spin_Model Spin_Spec Conserve_Spec.
Import ListNotations.
Local Open Scope Z_scope.

Definition sel_charge (sel : nat -> bool) (w : list (nat * otype)) : Z :=
  fold_right (fun p z => if sel (fst p) then match snd p with CREATION => z + 1 | ANNIHILATION => z - 1 end else z)%Z 0%Z w.
Lemma occupied_cnt sel n k : occupied sel n k = cnt (filter sel (seq 0 n)) k.
Proof.
  unfold occupied, cnt. f_equal. induction (seq 0 n) as [|x l IH]; [reflexivity|]. cbn [filter].
  destruct (sel x); cbn [filter andb]; [|exact IH]. unfold occ. destruct (N.testbit k (N.of_nat x)); [now f_equal|exact IH].
Qed.
Lemma fock_act_occ sel n i ot k s k' : (i < n)%nat -> fock_act i ot k = Some (s, k') ->
  Z.of_nat (occupied sel n k') = Z.of_nat (occupied sel n k) + (if sel i then match ot with CREATION => 1 | ANNIHILATION => -1 end else 0).
Proof.
  intros Hi. rewrite fock_act_flip. destruct (Bool.eqb (occ k i) (wants ot)) eqn:E; [|discriminate].
  intros [= _ <-]. apply eqb_prop in E. rewrite !occupied_cnt. destruct (sel i) eqn:Es.
  - rewrite cnt_flip_in.
    + rewrite E. destruct ot; reflexivity.
    + apply NoDup_filter, seq_NoDup.
    + apply filter_In. split; [apply in_seq; lia|exact Es].
  - rewrite cnt_flip_notin; [lia|]. rewrite filter_In. intros [_ H]. congruence.
Qed.
Lemma word_act_occ sel n w : indices_below n w -> forall k s k', word_act w k = Some (s, k') ->
  Z.of_nat (occupied sel n k') = Z.of_nat (occupied sel n k) + sel_charge sel w.
Proof.
  induction w as [|[i ot] w IH]; intros Hw k s k'; cbn [word_act sel_charge fold_right].
  - intros [= _ <-]. lia.
  - inversion Hw as [|? ? Hi Hw']; subst. cbn [fst] in Hi.
    destruct (word_act w k) as [[s1 k1]|] eqn:E1; [|discriminate].
    destruct (fock_act i ot k1) as [[s2 k2]|] eqn:E2; [|discriminate].
    intros [= _ <-]. rewrite (fock_act_occ sel n _ _ _ _ _ Hi E2), (IH Hw' _ _ _ E1).
    fold (sel_charge sel w). cbn [fst snd]. destruct (sel i), ot; lia.
Qed.
Lemma term_of_charge tbl p sel l : selects tbl p sel -> forall term, term_of tbl (ops l) = Ok term ->
  sel_charge sel (word_of term) = net_created p l.
Proof.
  intros Hs. induction l as [|x l IH]; intros term H.
  - injection H as <-. reflexivity.
  - unfold term_of in H. cbn [ops map mapM fst snd] in H. destruct (state_index tbl (a_state x)) as [i|] eqn:Ei; [|discriminate].
    cbn [bind] in H. change (mapM _ (map _ l)) with (term_of tbl (ops l)) in H.
    destruct (term_of tbl (ops l)) as [t|] eqn:E; [|discriminate]. cbn in H. injection H as <-.
    specialize (IH t eq_refl). unfold word_of in *. cbn [map sel_charge fold_right fst snd net_created].
    fold (sel_charge sel (map (fun q : Z * otype => (Z.to_nat (fst q), snd q)) t)). fold (net_created p l).
    rewrite <- IH, (Hs _ _ Ei). reflexivity.
Qed.

Lemma selected_ok objs start tbl t right left m p sel n i j :
  make_state_table objs start = Ok tbl -> start + Z.of_nat (length objs) <= Z.of_nat n -> selects tbl p sel ->
  check_compatibility t = true -> sorted_bases (the_left right left) ->
  (t_class t = Tgeneral \/ t_class t = Thopping \/ left = None) ->
  fst (pterm_matrix_repr tbl t right left None) = Ok m -> (i < nrows m)%nat -> (j < ncols m)%nat -> entry m i j <> g0 ->
  Z.of_nat (occupied sel n (nth i (the_left right left) 0%N)) =
  Z.of_nat (occupied sel n (nth j right 0%N)) + net_created p (t_aocs t).
Proof.
  intros Ht Hn Hs Hc Hb Hl Hm Hi Hj Hne.
  rewrite (compatible_general _ _ _ _ _ _ Ht Hc) in Hm.
  2:{ destruct Hl as [|[|H]]; auto. right; right. subst left. split; [reflexivity|exact Hb]. }
  rewrite term_repr in Hm. cbn [t_aocs t_coeff t_class] in Hm.
  destruct (term_of tbl (ops (t_aocs t))) as [term|] eqn:E; [|discriminate].
  destruct (general_inv _ _ _ _ _ Hb Hm) as (_ & G & _ & _ & E1 & E2 & E3).
  pose proof (term_of_bounds _ _ _ _ _ Ht E) as B.
  rewrite E3 in Hne by auto. unfold word_mat, amp in Hne.
  destruct (word_act (word_of term) (nth j right 0%N)) as [[s k]|] eqn:Ew.
  2:{ exfalso. apply Hne. change (gz 0) with g0. ring. }
  destruct (N.eqb_spec k (nth i (the_left right left) 0%N)) as [<-|].
  2:{ exfalso. apply Hne. change (gz 0) with g0. ring. }
  rewrite <- (term_of_charge tbl p sel _ Hs term E). eapply word_act_occ; eauto. apply Forall_forall. intros x Hx.
  apply in_map_iff in Hx as (y & <- & Hy). rewrite Forall_forall in B, G.
  specialize (B y Hy). specialize (G y Hy). unfold good_index in G. cbn in *. lia.
Qed.

Lemma lsum_nonzero {A} (f : A -> GQ) l : lsum f l <> g0 -> exists x, In x l /\ f x <> g0.
Proof.
  induction l as [|x l IH]; cbn [lsum]; intros H; [congruence|].
  destruct (gq_eq_dec (f x) g0) as [E|E]; [|exists x; split; [now left|exact E]].
  destruct IH as (y & Hy & Hf); [intros E'; apply H; rewrite E, E'; ring|]. exists y. split; [now right|exact Hf].
Qed.
Lemma mapM_in {A B} (f : A -> res B) l : forall ys, mapM f l = Ok ys -> forall y, In y ys -> exists x, In x l /\ f x = Ok y.
Proof.
  induction l as [|x l IH]; intros ys H y Hy; cbn [mapM] in H; [injection H as <-; contradiction|].
  destruct (f x) as [z|] eqn:E; [|discriminate]. cbn [bind] in H. destruct (mapM f l) as [zs|] eqn:E'; [|discriminate].
  cbn [bind] in H. injection H as <-. destruct Hy as [<-|Hy]; [exists x; split; [now left|exact E]|].
  destruct (IH zs eq_refl y Hy) as (x' & Hx & E''). exists x'. split; [now right|exact E''].
Qed.
Lemma repr_dims objs start tbl t bases m : make_state_table objs start = Ok tbl -> sorted_bases bases -> check_compatibility t = true ->
  fst (pterm_matrix_repr tbl t bases None None) = Ok m -> nrows m = length bases /\ ncols m = length bases.
Proof.
  intros Ht Hb Hc Hm. rewrite (compatible_general _ _ _ _ _ _ Ht Hc) in Hm by (right; right; auto).
  rewrite term_repr in Hm. cbn [t_aocs t_coeff t_class] in Hm.
  destruct (term_of tbl (ops (t_aocs t))) as [term|] eqn:E; [|discriminate].
  destruct (general_inv _ _ None _ _ Hb Hm) as (_ & _ & _ & _ & E1 & E2 & _). auto.
Qed.
Lemma sum_ok objs start tbl bases ts H p sel n i j :
  make_state_table objs start = Ok tbl -> start + Z.of_nat (length objs) <= Z.of_nat n -> selects tbl p sel ->
  sorted_bases bases -> Forall (fun t => check_compatibility t = true /\ net_created p (t_aocs t) = 0) ts ->
  sum_terms tbl bases ts = Ok H -> (i < length bases)%nat -> (j < length bases)%nat -> H i j <> g0 ->
  occupied sel n (nth i bases 0%N) = occupied sel n (nth j bases 0%N).
Proof.
  intros Ht Hn Hs Hb HF HS Hi Hj Hne. unfold sum_terms in HS.
  destruct (mapM _ ts) as [ms|] eqn:E; [|discriminate]. injection HS as <-.
  apply lsum_nonzero in Hne as (m & Im & Hne). destruct (mapM_in _ _ _ E m Im) as (t & It & Et).
  rewrite Forall_forall in HF. destruct (HF t It) as [Hc H0].
  destruct (repr_dims _ _ _ _ _ _ Ht Hb Hc Et) as [D1 D2].
  pose proof (selected_ok objs start tbl t bases None m p sel n i j Ht Hn Hs Hc Hb (or_intror (or_intror eq_refl)) Et) as X.
  rewrite D1, D2 in X. specialize (X Hi Hj Hne). cbn [the_left] in X. lia.
Qed.

(** ** Factories *)
Lemma make_state_spin zoom site spin orbit s : make_state zoom site spin orbit = Ok s -> nonneg_int spin = Some (st_spin s).
Proof.
  unfold make_state. destruct (nonneg_int spin) as [z|]; [|discriminate]. destruct (nonneg_int orbit); [|discriminate].
  destruct (make_site zoom site); [|discriminate]. now intros [= <-].
Qed.
Lemma net_pair p s c : net_created p [MkAoc CREATION s; MkAoc ANNIHILATION s] = 0 /\
  net_created p [MkAoc CREATION s; MkAoc ANNIHILATION s; MkAoc CREATION c; MkAoc ANNIHILATION c] = 0.
Proof. cbn. destruct (p s), (p c); split; lia. Qed.
Lemma spin_conserving_ok zoom t v : spin_conserving zoom t ->
  check_compatibility t = true /\ net_created (fun s => Z.eqb (st_spin s) v) (t_aocs t) = 0.
Proof.
  assert (SE : forall s, state_eq s s = true) by (intros; apply state_eq_iff, same_st_refl).
  intros [H|[H|[H|H]]].
  - destruct H as (site & spin & orbit & c & H). apply CP_ok in H as (z & s & _ & _ & ->). cbn [t_aocs].
    split; [|apply (net_pair _ s s)]. unfold check_compatibility. cbn -[state_eq]. apply SE.
  - destruct H as (site & orbit & c & H). apply Hubbard_ok in H as (z & s & u & _ & _ & _ & ->). cbn [t_aocs].
    split; [|apply (net_pair _ s u)]. unfold check_compatibility. cbn -[state_eq]. now rewrite !SE.
  - destruct H as (s0 & s1 & sp0 & sp1 & o0 & o1 & c & H). apply Coulomb_ok in H as (z & s & u & _ & _ & _ & ->). cbn [t_aocs].
    split; [|apply (net_pair _ s u)]. unfold check_compatibility. cbn -[state_eq]. now rewrite !SE.
  - destruct H as (s0 & s1 & sp0 & sp1 & o0 & o1 & c & H & Hsp). apply Hopping_ok in H as (z & s & u & _ & M0 & M1 & ->). cbn [t_aocs].
    assert (Es : st_spin u = st_spin s).
    { apply make_state_spin in M0, M1. assert (G : get sp1 sp0 = sp0) by (destruct Hsp as [->| ->]; reflexivity).
      rewrite G, M0 in M1. now injection M1. }
    split.
    + unfold check_compatibility. cbn -[state_eq state_ne]. destruct (state_eq s u) eqn:E; cbn -[state_eq state_ne]; [reflexivity|].
      now rewrite state_ne_eq, E.
    + cbn. rewrite Es. destruct (st_spin s =? v); lia.
Qed.
