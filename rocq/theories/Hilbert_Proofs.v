From Coq Require Import List ZArith NArith QArith Bool Arith Lia Permutation.
From Verif Require Import Py Fock_Spec Fock_Proofs MatrixRepr_Proofs MatrixRepr_Proofs2 Hilbert_Model Hilbert_Spec.
Import ListNotations.
Open Scope nat_scope.

Definition mem (x : N) (l : list N) : bool := existsb (N.eqb x) l.
Lemma mem_In x l : mem x l = true <-> In x l.
Proof.
  unfold mem. rewrite existsb_exists. split.
  - intros (y & Hy & E). apply N.eqb_eq in E. now subst.
  - intros H. exists x. split; auto. apply N.eqb_refl.
Qed.
Lemma mem_app x l m : mem x (l ++ m) = mem x l || mem x m.
Proof. apply existsb_app. Qed.

(** ** combinations *)
Lemma combs_in (l : list N) k c : NoDup l -> (In c (combs l k) <-> (exists f, c = filter f l) /\ length c = k).
Proof.
  revert k c. induction l as [|x r IH]; intros k c Hn.
  - destruct k; cbn; split.
    + intros [<-|[]]. split; auto. exists (fun _ => true). reflexivity.
    + intros [[f ->] _]. now left.
    + intros [].
    + intros [[f ->] H]. discriminate.
  - inversion Hn as [|? ? Hx Hr]; subst. destruct k as [|k].
    + cbn [combs]. split.
      * intros [<-|[]]. split; auto. exists (fun _ => false). cbn. clear. now induction r.
      * intros [_ H]. destruct c; [now left|discriminate].
    + cbn [combs]. rewrite in_app_iff, in_map_iff. split.
      * intros [(c' & <- & Hc)|Hc].
        -- apply IH in Hc as [[f ->] L]; auto. split; [|cbn; lia].
           exists (fun y => N.eqb y x || f y). cbn. rewrite N.eqb_refl. cbn. f_equal.
           apply filter_ext_in. intros y Hy. destruct (N.eqb_spec y x); subst; [contradiction|reflexivity].
        -- apply IH in Hc as [[f ->] L]; auto. split; auto.
           exists (fun y => negb (N.eqb y x) && f y). cbn. rewrite N.eqb_refl. cbn.
           apply filter_ext_in. intros y Hy. destruct (N.eqb_spec y x); subst; [contradiction|reflexivity].
      * intros [[f ->] L]. cbn in *. destruct (f x).
        -- left. exists (filter f r). split; auto. apply IH; auto. split; eauto.
        -- right. apply IH; auto. split; eauto.
Qed.
Lemma combs_sub (l : list N) k c x : NoDup l -> In c (combs l k) -> In x c -> In x l.
Proof. intros Hn Hc Hx. apply combs_in in Hc as [[f ->] _]; auto. apply filter_In in Hx. tauto. Qed.
Lemma NoDup_map_inj {A B} (f : A -> B) l : (forall x y, f x = f y -> x = y) -> NoDup l -> NoDup (map f l).
Proof.
  intros Hf. induction 1 as [|x l Hx Hl IH]; cbn; constructor; auto.
  intros H. apply in_map_iff in H as (y & E & Hy). apply Hf in E. now subst.
Qed.
Lemma NoDup_app2 {A} (l m : list A) : NoDup l -> NoDup m -> (forall x, In x l -> In x m -> False) -> NoDup (l ++ m).
Proof.
  intros Hl Hm D. induction Hl as [|x l Hx Hl IH]; cbn; auto. constructor.
  - rewrite in_app_iff. intros [H|H]; auto. apply (D x); auto. now left.
  - apply IH. intros y Hy. apply D. now right.
Qed.
Lemma combs_NoDup (l : list N) k : NoDup l -> NoDup (combs l k).
Proof.
  intros Hn. revert k. induction Hn as [|x r Hx Hr IH]; intros [|k]; cbn [combs]; try constructor; try constructor; auto.
  apply NoDup_app2; auto.
  - apply NoDup_map_inj; auto. intros u v E. now injection E.
  - intros c Hc Hc'. apply in_map_iff in Hc as (c' & <- & _).
    apply Hx. eapply combs_sub; eauto. now left.
Qed.
Lemma combs_length {A} (l : list A) k : length (combs l k) = binom (length l) k.
Proof.
  revert k. induction l as [|x r IH]; intros [|k]; cbn [combs binom length]; auto.
  rewrite app_length, map_length, !IH. reflexivity.
Qed.

Lemma binom_big n : forall k, (n < k)%nat -> binom n k = 0.
Proof.
  induction n as [|n IH]; intros [|k] H; cbn; try lia. rewrite !IH by lia. reflexivity.
Qed.
Lemma list_sum_cons x l : list_sum (x :: l) = x + list_sum l.
Proof. reflexivity. Qed.
Lemma sum_map_add {A} (f g : A -> nat) l : list_sum (map (fun x => f x + g x) l) = list_sum (map f l) + list_sum (map g l).
Proof. induction l; [reflexivity|]. cbn [map]. rewrite !list_sum_cons. lia. Qed.
Lemma binom_sum n : list_sum (map (binom n) (seq 0 (n + 1))) = 2 ^ n.
Proof.
  induction n as [|n IH]; [reflexivity|].
  replace (S n + 1) with (S (n + 1)) by lia. cbn [seq map list_sum fold_right]. change (binom (S n) 0) with 1.
  rewrite <- seq_shift, map_map.
  rewrite (map_ext _ (fun k => binom n k + binom n (S k))) by (intros; reflexivity).
  fold (list_sum (map (fun k => binom n k + binom n (S k)) (seq 0 (n + 1)))).
  rewrite sum_map_add, IH.
  assert (E : 1 + list_sum (map (fun k => binom n (S k)) (seq 0 (n + 1))) = list_sum (map (binom n) (seq 0 (n + 1)))).
  { transitivity (list_sum (map (binom n) (seq 0 (S (n + 1))))).
    - cbn [seq map]. rewrite <- seq_shift, map_map. destruct n; reflexivity.
    - rewrite seq_S, map_app, list_sum_app. cbn. rewrite binom_big by lia. lia. }
  cbn [Nat.pow]. lia.
Qed.

Lemma flat_map_length' {A B} (f : A -> list B) l : length (flat_map f l) = list_sum (map (fun x => length (f x)) l).
Proof. induction l; cbn; auto. rewrite app_length. now f_equal. Qed.

(** Bases of one subspace. *)
Definition cond (p : pnum) (n : nat) : Prop :=
  match p with NumI z => (z < 0)%Z \/ Z.of_nat n = z | NumF _ => True end.
Lemma filter_len {A} (f : A -> bool) l : length (filter f l) <= length l.
Proof. induction l; cbn; auto. destruct (f a); cbn; lia. Qed.
Lemma all_in (l : list N) c : NoDup l -> (In c (flat_map (combs l) (seq 0 (length l + 1))) <-> exists f, c = filter f l).
Proof.
  intros Hn. rewrite in_flat_map. split.
  - intros (k & _ & H). apply combs_in in H; tauto.
  - intros [f ->]. exists (length (filter f l)). split.
    + apply in_seq. pose proof (filter_len f l). lia.
    + apply combs_in; eauto.
Qed.
Lemma all_NoDup (l : list N) ks : NoDup l -> NoDup ks -> NoDup (flat_map (combs l) ks).
Proof.
  intros Hn. induction 1 as [|k ks Hk Hks IH]; cbn; [constructor|]. apply NoDup_app2; auto.
  - now apply combs_NoDup.
  - intros c Hc Hc'. apply in_flat_map in Hc' as (k' & Hk' & Hc'). apply combs_in in Hc as [_ L]; auto.
    apply combs_in in Hc' as [_ L']; auto. congruence.
Qed.
Lemma all_length {A} (l : list A) : length (flat_map (combs l) (seq 0 (length l + 1))) = 2 ^ length l.
Proof.
  rewrite flat_map_length', (map_ext _ (binom (length l))) by (intros; apply combs_length). apply binom_sum.
Qed.
Lemma subspace_facts l p g : NoDup l -> subspace_bases l p = Ok g ->
  (forall c, In c g <-> (exists f, c = filter f l) /\ cond p (length c)) /\ NoDup g /\ length g = dim (l, p).
Proof.
  intros Hn. unfold subspace_bases, dim, cond; cbn [fst snd]. destruct p as [z|q].
  - intros [= <-]. destruct (Z.ltb_spec z 0).
    + split; [|split].
      * intros c. rewrite all_in by auto. intuition.
      * apply all_NoDup; auto. apply seq_NoDup.
      * apply all_length.
    + split; [|split].
      * intros c. rewrite combs_in by auto. split; intros [H1 H2]; split; auto; lia.
      * now apply combs_NoDup.
      * apply combs_length.
  - destruct (Qle_bool 0 q); [discriminate|]. intros [= <-]. split; [|split].
    + intros c. rewrite all_in by auto. intuition.
    + apply all_NoDup; auto. apply seq_NoDup.
    + apply all_length.
Qed.

(** ** product *)
Lemma prod_in {A} (ls : list (list A)) b : In b (prod ls) <-> Forall2 (fun x l => In x l) b ls.
Proof.
  revert b. induction ls as [|l r IH]; intros b; cbn.
  - split; [intros [<-|[]]; constructor|]. intros H. inversion H. now left.
  - rewrite in_flat_map. split.
    + intros (x & Hx & H). apply in_map_iff in H as (b' & <- & H). constructor; auto. now apply IH.
    + intros H. inversion H; subst. eexists. split; eauto. apply in_map_iff. eexists. split; eauto. now apply IH.
Qed.
Lemma prod_NoDup {A} (ls : list (list A)) : Forall (@NoDup A) ls -> NoDup (prod ls).
Proof.
  induction 1 as [|l r Hl Hr IH]; cbn; [constructor; [intros []|constructor]|].
  induction Hl as [|x l Hx Hl IHl]; cbn; [constructor|]. apply NoDup_app2; auto.
  - apply NoDup_map_inj; auto. intros u v E. now injection E.
  - intros b Hb Hb'. apply in_map_iff in Hb as (b1 & <- & _). apply in_flat_map in Hb' as (y & Hy & Hb').
    apply in_map_iff in Hb' as (b2 & E & _). injection E as -> _. contradiction.
Qed.
Lemma prod_length {A} (ls : list (list A)) : length (prod ls) = fold_right (fun l d => length l * d) 1 ls.
Proof.
  induction ls as [|l r IH]; cbn; auto. rewrite flat_map_length'.
  rewrite (map_ext _ (fun _ => length (prod r))) by (intros; now rewrite map_length).
  rewrite <- IH. induction l as [|a l IHl]; [reflexivity|]. cbn [map length]. rewrite list_sum_cons, IHl. lia.
Qed.

(** ** kets *)
Lemma ket_acc c : forall acc b, NoDup c -> (forall x, In x c -> N.testbit acc x = false) ->
  N.testbit (fold_left (fun s pos => (s + N.shiftl 1 pos)%N) c acc) b = N.testbit acc b || mem b c.
Proof.
  induction c as [|x c IH]; intros acc b Hn Ha; cbn [fold_left].
  - cbn. now rewrite orb_false_r.
  - inversion Hn as [|? ? Hx Hc]; subst.
    assert (E : (acc + N.shiftl 1 x)%N = N.lxor acc (N.shiftl 1 x)).
    { apply N.add_nocarry_lxor. apply N.bits_inj. intros i. rewrite N.land_spec, N.bits_0, N.shiftl_1_l, N.pow2_bits_eqb.
      destruct (N.eqb_spec x i); subst; [|apply andb_false_r]. rewrite Ha by now left. reflexivity. }
    assert (T : forall i, N.testbit (acc + N.shiftl 1 x) i = xorb (N.testbit acc i) (N.eqb x i)).
    { intros i. rewrite E, N.lxor_spec, N.shiftl_1_l, N.pow2_bits_eqb. reflexivity. }
    rewrite IH; auto.
    + rewrite T. cbn. rewrite (N.eqb_sym b x). destruct (N.eqb_spec x b); subst.
      * rewrite Ha by now left. reflexivity.
      * rewrite xorb_false_r. reflexivity.
    + intros y Hy. rewrite T, Ha by now right. destruct (N.eqb_spec x y); subst; [contradiction|reflexivity].
Qed.
Lemma ket_bits c b : NoDup c -> N.testbit (ket_of c) b = mem b c.
Proof. intros H. unfold ket_of. rewrite ket_acc by (auto; intros; apply N.bits_0). now rewrite N.bits_0. Qed.

(** ** A list of subspaces *)
Definition sel (k : N) (s : list N * pnum) : list N := filter (N.testbit k) (fst s).
Definition all_states (specs : list (list N * pnum)) : list N := concat (map fst specs).
Definition good_gen (s : list N * pnum) (g : list (list N)) : Prop :=
  (forall c, In c g <-> (exists f, c = filter f (fst s)) /\ cond (snd s) (length c)) /\ NoDup g /\ length g = dim s.

Lemma gens_good specs gens : no_repeats specs -> mapM (fun s => subspace_bases (fst s) (snd s)) specs = Ok gens ->
  Forall2 good_gen specs gens.
Proof.
  intros Hn. revert gens. induction Hn as [|[l p] specs Hs Hn IH]; intros gens; cbn.
  - intros [= <-]. constructor.
  - destruct (subspace_bases l p) as [g|] eqn:E; [|discriminate].
    destruct (mapM _ specs) as [gs|]; [|discriminate]. intros [= <-]. constructor; auto.
    apply (subspace_facts l p g); auto.
Qed.

Lemma NoDup_app_inv {A} (l m : list A) : NoDup (l ++ m) -> NoDup l /\ NoDup m /\ (forall x, In x l -> In x m -> False).
Proof.
  induction l as [|x l IH]; cbn; intros H; [repeat split; auto; constructor|].
  inversion H as [|? ? Hx Hl]; subst. apply IH in Hl as (H1 & H2 & H3). rewrite in_app_iff in Hx. repeat split; auto.
  - constructor; tauto.
  - intros y [<-|Hy] Hm; [tauto|eauto].
Qed.

Lemma basis_sub specs gens b : Forall2 good_gen specs gens -> Forall2 (fun x l => In x l) b gens ->
  (forall x, In x (concat b) -> In x (all_states specs)) /\ (NoDup (all_states specs) -> NoDup (concat b)).
Proof.
  intros HG. revert b. unfold all_states. induction HG as [|s g specs gens Hs HG IH]; intros b Hb; inversion Hb as [|c0 ? l ? H1 H3]; subst; cbn.
  - split; auto.
  - destruct (IH _ H3) as [I1 I2]. destruct Hs as (S1 & _). apply S1 in H1 as [[f ->] _]. split.
    + intros x. rewrite !in_app_iff. intros [H|H]; auto. apply filter_In in H. tauto.
    + intros Hn. apply NoDup_app_inv in Hn as (N1 & N2 & N3). apply NoDup_app2; auto.
      * now apply NoDup_filter.
      * intros x Hx Hx'. apply filter_In in Hx as [Hx _]. eauto.
Qed.

Lemma basis_sel specs gens b K : Forall2 good_gen specs gens -> Forall2 (fun x l => In x l) b gens ->
  NoDup (all_states specs) ->
  (forall x, In x (all_states specs) -> N.testbit K x = mem x (concat b)) -> b = map (sel K) specs.
Proof.
  intros HG. revert b. unfold all_states. induction HG as [|s g specs gens Hs HG IH]; intros b Hb Hn HK; inversion Hb as [|c0 ? l ? H1 H3]; subst; cbn; auto.
  cbn [map concat] in Hn, HK. apply NoDup_app_inv in Hn as (N1 & N2 & N3).
  destruct (basis_sub _ _ _ HG H3) as [SB _]. unfold all_states in SB.
  pose proof Hs as (S1 & _). apply S1 in H1 as [[f ->] _]. f_equal.
  - unfold sel. apply filter_ext_in. intros x Hx. rewrite HK by (apply in_app_iff; auto). cbn [concat]. rewrite mem_app.
    replace (mem x (concat l)) with false.
    + rewrite orb_false_r. destruct (f x) eqn:E.
      * symmetry. apply mem_In, filter_In. auto.
      * destruct (mem x (filter f (fst s))) eqn:M; auto. apply mem_In, filter_In in M as [_ M]. congruence.
    + symmetry. destruct (mem x (concat l)) eqn:M; auto. apply mem_In, SB in M. exfalso. eauto.
  - apply IH; auto. intros x Hx. rewrite HK by (apply in_app_iff; auto). cbn [concat]. rewrite mem_app.
    replace (mem x (filter f (fst s))) with false; auto. symmetry.
    destruct (mem x _) eqn:M; auto. apply mem_In, filter_In in M as [M _]. exfalso. eauto.
Qed.

Definition raw_kets (gens : list (list (list N))) : list N := map (fun b => ket_of (concat b)) (prod gens).

Lemma kets_spec specs gens : Forall2 good_gen specs gens -> NoDup (all_states specs) ->
  (forall k, In k (raw_kets gens) <-> in_space specs k) /\ NoDup (raw_kets gens) /\
  length (raw_kets gens) = total_dim specs.
Proof.
  intros HG Hn. unfold raw_kets.
  assert (R : forall b, In b (prod gens) -> b = map (sel (ket_of (concat b))) specs).
  { intros b Hb. apply prod_in in Hb. destruct (basis_sub _ _ _ HG Hb) as [B1 B2].
    eapply basis_sel; eauto. intros x _. now apply ket_bits, B2. }
  split; [|split].
  - intros k. rewrite in_map_iff. split.
    + intros (b & <- & Hb). pose proof (R b Hb) as Eb. apply prod_in in Hb.
      destruct (basis_sub _ _ _ HG Hb) as [B1 B2]. specialize (B2 Hn). split.
      * intros x Hx. rewrite ket_bits in Hx by auto. apply mem_In, B1 in Hx. unfold all_states in Hx.
        apply in_concat in Hx as (l & Hl & Hx). apply in_map_iff in Hl as (s & <- & Hs). eauto.
      * rewrite Eb in Hb. revert Hb. generalize (ket_of (concat b)). intros K Hb. clear R Eb B1 B2 b Hn.
        induction HG as [|s g specs gens Hs HG IH]; constructor; inversion Hb as [|? ? ? ? H2 H3]; subst; auto.
        destruct Hs as (S1 & _). apply S1 in H2 as [_ C]. unfold number_ok. unfold cond in C.
        destruct (snd s); auto.
    + intros [K1 K2]. exists (map (sel k) specs). split.
      * apply N.bits_inj. intros x.
        assert (Hb : Forall2 (fun x l => In x l) (map (sel k) specs) gens).
        { clear R Hn K1. induction HG as [|s g specs gens Hs HG IH]; cbn; constructor; inversion K2 as [|? ? H1 H2]; subst; auto.
          destruct Hs as (S1 & _). apply S1. split; [unfold sel; eauto|].
          unfold number_ok in H1. unfold cond. destruct (snd s); auto. }
        destruct (basis_sub _ _ _ HG Hb) as [B1 B2]. rewrite ket_bits by auto.
        destruct (N.testbit k x) eqn:E.
        -- apply mem_In, in_concat. destruct (K1 x E) as (s & Hs & Hx). exists (sel k s). split; [now apply in_map|].
           now apply filter_In.
        -- destruct (mem x _) eqn:M; auto. apply mem_In, in_concat in M as (l & Hl & Hx).
           apply in_map_iff in Hl as (s & <- & _). apply filter_In in Hx as [_ Hx]. congruence.
      * apply prod_in. clear R Hn K1. induction HG as [|s g specs gens Hs HG IH]; cbn; constructor; inversion K2 as [|? ? H1 H2]; subst; auto.
        destruct Hs as (S1 & _). apply S1. split; [unfold sel; eauto|].
        unfold number_ok in H1. unfold cond. destruct (snd s); auto.
  - assert (P : NoDup (prod gens)).
    { apply prod_NoDup. clear R Hn. induction HG as [|s g specs gens Hs HG IH]; constructor; auto. apply Hs. }
    revert R P. generalize (prod gens). intros bs R P. induction P as [|b bs Hb P IH]; cbn; constructor; auto.
    + intros H. apply in_map_iff in H as (b' & E & Hb'). apply Hb.
      rewrite (R b), <- E, <- (R b'); auto; [now right|now left].
    + apply IH. intros; apply R. now right.
  - rewrite map_length, prod_length. clear R Hn. induction HG as [|s g specs gens Hs HG IH]; cbn; auto.
    destruct Hs as (_ & _ & ->). f_equal. exact IH.
Qed.

(** ** sorting *)
Lemma insert_perm x l : Permutation (x :: l) (insert_n x l).
Proof.
  induction l as [|y l IH]; cbn; auto. destruct (x <=? y)%N; auto.
  rewrite perm_swap. now constructor.
Qed.
Lemma sort_perm l : Permutation l (sort_n l).
Proof. induction l; cbn; auto. rewrite <- insert_perm. now constructor. Qed.
Fixpoint weak_sorted (l : list N) : Prop :=
  match l with [] => True | x :: r => Forall (fun y => (x <= y)%N) r /\ weak_sorted r end.
Lemma insert_sorted x l : weak_sorted l -> weak_sorted (insert_n x l).
Proof.
  induction l as [|y l IH]; cbn; [auto|]. intros [Hy Hl]. destruct (N.leb_spec x y); cbn.
  - split; [|auto]. constructor; auto. eapply Forall_impl; [|exact Hy]. cbn; lia.
  - split; auto. apply Forall_forall. intros z Hz. eapply Permutation_in in Hz; [|apply Permutation_sym, insert_perm].
    destruct Hz as [<-|Hz]; [lia|]. rewrite Forall_forall in Hy. auto.
Qed.
Lemma sort_sorted l : weak_sorted (sort_n l).
Proof. induction l; cbn; auto. now apply insert_sorted. Qed.
Lemma weak_strict l : NoDup l -> weak_sorted l -> sorted_bases l.
Proof.
  induction 1 as [|x l Hx Hl IH]; cbn; auto. intros [H1 H2]. split; auto.
  apply Forall_forall. intros y Hy. rewrite Forall_forall in H1. specialize (H1 y Hy).
  assert (x <> y) by (intros ->; contradiction). lia.
Qed.
Lemma sorted_unique l m : sorted_bases l -> sorted_bases m -> (forall x, In x l <-> In x m) -> l = m.
Proof.
  revert m. induction l as [|x l IH]; intros [|y m] Hl Hm E.
  - reflexivity.
  - exfalso. apply (E y). now left.
  - exfalso. apply (E x). now left.
  - cbn in Hl, Hm. destruct Hl as [L1 L2], Hm as [M1 M2]. rewrite Forall_forall in L1, M1.
    assert (x = y).
    { assert (A : In x (y :: m)) by (apply E; now left). assert (B : In y (x :: l)) by (apply E; now left).
      destruct A as [A|A]; [congruence|]. destruct B as [B|B]; [congruence|]. apply L1 in B. apply M1 in A. lia. }
    subst y. f_equal. apply IH; auto. intros z. split; intros Hz.
    + assert (A : In z (x :: m)) by (apply E; now right). destruct A as [<-|A]; auto. apply L1 in Hz. lia.
    + assert (A : In z (x :: l)) by (apply E; now right). destruct A as [<-|A]; auto. apply M1 in Hz. lia.
Qed.

(** ** Disjointness *)
Lemma disjoint_iff a b : disjoint_states a b = true <-> forall x, In x a -> In x b -> False.
Proof.
  unfold disjoint_states. rewrite forallb_forall. split.
  - intros H x Ha Hb. apply H in Ha. fold (mem x b) in Ha. apply mem_In in Hb. rewrite Hb in Ha. discriminate.
  - intros H x Ha. fold (mem x b). destruct (mem x b) eqn:E; auto. apply mem_In in E. exfalso. eauto.
Qed.
Lemma disjoint_NoDup specs : no_repeats specs -> all_disjoint (map fst specs) = true -> NoDup (all_states specs).
Proof.
  unfold all_states. induction 1 as [|s specs Hs Hn IH]; cbn; [constructor|].
  rewrite andb_true_iff. intros [H1 H2]. apply NoDup_app2; auto.
  intros x Hx Hx'. apply in_concat in Hx' as (l & Hl & Hx').
  rewrite forallb_forall in H1. apply H1 in Hl. rewrite disjoint_iff in Hl. eauto.
Qed.
Lemma all_disjoint_iff specs : all_disjoint specs = true <->
  forall i j a b x, (i < j)%nat -> nth_error specs i = Some a -> nth_error specs j = Some b -> In x a -> In x b -> False.
Proof.
  induction specs as [|s specs IH]; cbn.
  - split; auto. intros _ [|i] ? ? ? ? _ H; discriminate.
  - rewrite andb_true_iff, IH, forallb_forall. split.
    + intros [H1 H2] [|i] [|j] a b x Hij Ha Hb Hx Hx'; try lia; cbn in *.
      * injection Ha as <-. apply nth_error_In, H1 in Hb. rewrite disjoint_iff in Hb. eauto.
      * apply (H2 i j a b x); auto; lia.
    + intros H. split.
      * intros b Hb. apply disjoint_iff. intros x Hx Hx'. apply In_nth_error in Hb as [j Hj].
        apply (H 0 (S j) s b x); auto; lia.
      * intros i j a b x Hij Ha Hb. apply (H (S i) (S j) a b x); auto; lia.
Qed.
