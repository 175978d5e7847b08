(** Proofs for C57: from the matrices the library builds to the equations of motion. *)
From Coq Require Import Reals Qreals QArith Qcanon String List ZArith NArith Bool Arith Lia Ring.
From Coquelicot Require Import Complex.
From Verif Require Import Py GQ Mat CVec State_Model State_Spec MatrixRepr_Model Fock_Spec Fock_Proofs MatrixRepr_Proofs MatrixRepr_Proofs2
  Particle_Model Particle_Spec Particle_Proofs Particle_Proofs2 Conserve_Spec Conserve_Proofs Conserve_Proofs2
  GF_Model GF_Spec GF_Proofs GF_Proofs2 Free_Spec Free_Proofs Free_Proofs2.
Import ListNotations.
Local Open Scope nat_scope.

Definition idx (tbl : state_table) (s : stateid) : nat := match state_index tbl s with Ok i => Z.to_nat i | Err _ => 0%nat end.
Definition pair_of (tbl : state_table) (t : pterm) : GQ * (nat * nat) :=
  (t_coeff t, match t_aocs t with [x; y] => (idx tbl (a_state x), idx tbl (a_state y)) | _ => (0%nat, 0%nat) end).
Definition pairs_of (tbl : state_table) (ts : list pterm) : pairs := map (pair_of tbl) ts.
Definition in_table (tbl : state_table) (s : stateid) : Prop := exists i, state_index tbl s = Ok i /\ (0 <= i < 64)%Z.

Lemma idx_word tbl s s' o o' term : term_of tbl [(o, s); (o', s')] = Ok term -> Forall good_index term ->
  in_table tbl s /\ in_table tbl s' /\ word_of term = [(idx tbl s, o); (idx tbl s', o')].
Proof.
  unfold term_of. cbn [mapM snd fst]. intros H G. unfold idx, in_table.
  destruct (state_index tbl s) as [i|]; [|discriminate]. cbn [bind] in H. destruct (state_index tbl s') as [i'|]; [|discriminate].
  cbn [bind] in H. injection H as <-. inversion G as [|? ? G1 G2]; subst. inversion G2 as [|? ? G3 G4]; subst. unfold good_index in *. cbn [fst] in *.
  split; [exists i; auto|]. split; [exists i'; auto|]. reflexivity.
Qed.
Section Tbl.
  Variables (objs : list loc) (start : Z) (tbl : state_table) (zoom : Z).
  Hypothesis Ht : make_state_table objs start = Ok tbl.

  Lemma one_term t L m : one_body zoom t -> sorted_bases L -> fst (pterm_matrix_repr tbl t L None None) = Ok m ->
    (forall x, In x (t_aocs t) -> in_table tbl (a_state x)) /\
    closed_on [cr (fst (snd (pair_of tbl t))); an (snd (snd (pair_of tbl t)))] L L /\
    (forall r c, (r < length L)%nat -> (c < length L)%nat ->
       entry m r c = word_mat (fst (pair_of tbl t)) [cr (fst (snd (pair_of tbl t))); an (snd (snd (pair_of tbl t)))] L L r c).
  Proof.
    intros (Cc & B & s & s' & E) HL H. rewrite (compatible_general objs start tbl t L None Ht Cc) in H by auto.
    rewrite term_repr in H. cbn [t_aocs t_coeff t_class] in H. unfold pair_of. rewrite E in *. cbn [ops map a_otype a_state] in *. 
    destruct (term_of tbl _) as [term|] eqn:E2; [|discriminate]. apply general_inv in H as (_ & G & C1 & _ & N1 & N2 & M); [|exact HL].
    cbn [the_left] in *. destruct (idx_word _ _ _ _ _ _ E2 G) as (I1 & I2 & W). rewrite W in *. cbn [fst snd].
    split; [intros x [<-|[<-|[]]]; assumption|]. split; [exact C1|]. rewrite N1, N2 in M. exact M.
  Qed.
  Lemma one_dagger t t' L m : one_body zoom t -> sorted_bases L -> pterm_dagger zoom t = Ok t' ->
    fst (pterm_matrix_repr tbl t' L None None) = Ok m ->
    closed_on [cr (snd (snd (pair_of tbl t))); an (fst (snd (pair_of tbl t)))] L L.
  Proof.
    intros (Cc & B & s & s' & E) HL D H. rewrite pterm_dagger_ok in D by exact B. injection D as <-.
    rewrite term_repr in H. cbn [t_aocs t_coeff t_class] in H. unfold pair_of. rewrite E in *. cbn [ops map a_otype a_state rev app flip_otype] in *.
    destruct (term_of tbl _) as [term|] eqn:E2; [|discriminate]. apply general_inv in H as (_ & G & C1 & _ & N1 & N2 & M); [|exact HL].
    cbn [the_left] in *. destruct (idx_word _ _ _ _ _ _ E2 G) as (I1 & I2 & W). rewrite W in *. exact C1.
  Qed.
  Lemma sum_quad ts L S : Forall (one_body zoom) ts -> sorted_bases L -> sum_terms tbl L ts = Ok S ->
    (forall t x, In t ts -> In x (t_aocs t) -> in_table tbl (a_state x)) /\ closed_pairs (pairs_of tbl ts) L /\
    (forall r c, (r < length L)%nat -> (c < length L)%nat -> S r c = quad (pairs_of tbl ts) L r c).
  Proof.
    intros B HL H. unfold sum_terms in H. destruct (mapM _ ts) as [ms|] eqn:E; [|discriminate]. injection H as <-.
    revert ms E. induction B as [|t ts Bt B IH]; intros ms E; cbn [mapM] in E.
    - injection E as <-. split; [intros ? ? []|]. split; [constructor|reflexivity].
    - destruct (fst (pterm_matrix_repr tbl t L None None)) as [m|] eqn:Em; [|discriminate]. cbn [bind] in E.
      destruct (mapM _ ts) as [ms'|]; [|discriminate]. cbn [bind] in E. injection E as <-. destruct (IH ms' eq_refl) as (I1 & I2 & I3).
      destruct (one_term t L m Bt HL Em) as (J1 & J2 & J3). split; [intros t' x [<-|Hi]; [apply J1|now apply I1]|].
      split; [constructor; assumption|]. intros r c Hr Hc. cbn [lsum]. rewrite J3, I3 by assumption. reflexivity.
  Qed.
  Lemma dagger_closed ts L : Forall (one_body zoom) ts -> sorted_bases L ->
    Forall (fun t => exists t' m, pterm_dagger zoom t = Ok t' /\ fst (pterm_matrix_repr tbl t' L None None) = Ok m) ts ->
    closed_pairs (flip_pairs (pairs_of tbl ts)) L.
  Proof.
    intros B HL D. induction ts as [|t ts IH]; [constructor|]. inversion B; subst. inversion D as [|? ? (t' & m & D1 & D2) D3]; subst.
    constructor; [|now apply IH]. cbn [flip_pairs fst snd]. eapply one_dagger; eassumption.
  Qed.
  Lemma quad_flip P L r s : quad (flip_pairs P) L r s = gconj (quad P L s r).
  Proof.
    unfold quad. rewrite lsum_conj. unfold flip_pairs. rewrite lsum_map. apply lsum_ext. intros [c [a b]] _. cbn [fst snd].
    exact (word_mat_dagger c [cr a; an b] L L r s).
  Qed.
  Lemma quad_app P Q L r s : quad (P ++ Q) L r s = gadd (quad P L r s) (quad Q L r s).
  Proof. unfold quad. apply lsum_app. Qed.
  Lemma with_hc_quad ts L S : Forall (one_body zoom) ts -> sorted_bases L -> sum_terms tbl L ts = Ok S ->
    forall r c, (r < length L)%nat -> (c < length L)%nat ->
    with_hc S r c = cm (quad (pairs_of tbl ts ++ flip_pairs (pairs_of tbl ts)) L) r c.
  Proof.
    intros B HL H r c Hr Hc. destruct (sum_quad ts L S B HL H) as (_ & _ & E). unfold with_hc, cm.
    rewrite quad_app, quad_flip, gc_add, gc_conj, !E by assumption. reflexivity.
  Qed.
  (** ** Amplitudes *)
  Lemma idx_eqb s s' : in_table tbl s -> in_table tbl s' -> Nat.eqb (idx tbl s) (idx tbl s') = state_eq s s'.
  Proof.
    intros (i & E & Hi) (i' & E' & Hi'). destruct (table_facts objs start tbl Ht) as (T1 & _). specialize (T1 s s' i i' E E').
    unfold idx. rewrite E, E'. apply Bool.eq_true_iff_eq. rewrite Nat.eqb_eq, state_eq_iff, <- T1. lia.
  Qed.
  Lemma total_amplitude ts s s' : Forall (one_body zoom) ts -> (forall t x, In t ts -> In x (t_aocs t) -> in_table tbl (a_state x)) ->
    in_table tbl s -> in_table tbl s' -> total (pairs_of tbl ts) (idx tbl s) (idx tbl s') = amplitude ts s s'.
  Proof.
    intros B I Hs Hs'. unfold total, amplitude, pairs_of. rewrite lsum_map. apply lsum_ext. intros t Hin.
    rewrite Forall_forall in B. destruct (B t Hin) as (_ & _ & a & b & E). unfold pair_of. cbn [fst snd].
    pose proof (I t (MkAoc CREATION a) Hin) as Ia. pose proof (I t (MkAoc ANNIHILATION b) Hin) as Ib. rewrite E in *. cbn [a_state fst snd] in *.
    rewrite !idx_eqb; auto; [apply Ib|apply Ia]; cbn; auto.
  Qed.
  Lemma total_flip P a b : total (flip_pairs P) a b = gconj (total P b a).
  Proof.
    unfold total. rewrite lsum_conj. unfold flip_pairs. rewrite lsum_map. apply lsum_ext. intros [c [x y]] _. cbn [fst snd].
    rewrite andb_comm. destruct (_ && _)%bool; [reflexivity|]. symmetry. exact gconj_0.
  Qed.
  Lemma total_hopping ts s s' : Forall (one_body zoom) ts -> (forall t x, In t ts -> In x (t_aocs t) -> in_table tbl (a_state x)) ->
    in_table tbl s -> in_table tbl s' ->
    gc (total (pairs_of tbl ts ++ flip_pairs (pairs_of tbl ts)) (idx tbl s) (idx tbl s')) = Cplus (gc (amplitude ts s s')) (Cj (gc (amplitude ts s' s))).
  Proof.
    intros B I Hs Hs'. unfold total. rewrite lsum_app. fold (total (pairs_of tbl ts) (idx tbl s) (idx tbl s')).
    fold (total (flip_pairs (pairs_of tbl ts)) (idx tbl s) (idx tbl s')). rewrite total_flip, gc_add, gc_conj, !total_amplitude by assumption. reflexivity.
  Qed.
End Tbl.
