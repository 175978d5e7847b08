(** The Schwinger-fermion representation: combinatorics of singly occupied kets. *)
From Coq Require Import String List ZArith NArith Bool Arith Lia.
From Verif Require Import Py GQ Mat MatrixRepr_Model Fock_Spec Fock_Proofs Particle_Model Spin_Model Spin_Spec Spin_Proofs.
Import ListNotations.
Local Open Scope nat_scope.

(** The ket occupying the listed states. *)
Definition kl (l : list nat) : N := fold_right (fun p ket => N.setbit ket (N.of_nat p)) 0%N l.
Lemma occ_setbit ket i j : occ (N.setbit ket (N.of_nat i)) j = Nat.eqb i j || occ ket j.
Proof.
  unfold occ. rewrite N.setbit_eqb. f_equal. destruct (Nat.eqb_spec i j) as [->|H]; [apply N.eqb_refl|].
  apply N.eqb_neq. lia.
Qed.
Lemma occ_kl l p : occ (kl l) p = existsb (Nat.eqb p) l.
Proof.
  induction l as [|x l IH]; [reflexivity|]. cbn [kl fold_right]. fold (kl l). rewrite occ_setbit, IH. cbn [existsb].
  f_equal. apply Nat.eqb_sym.
Qed.
Lemma occ_kl_in l p : occ (kl l) p = true <-> In p l.
Proof.
  rewrite occ_kl, existsb_exists. split; [intros (x & Hx & E); apply Nat.eqb_eq in E; now subst|].
  intros H. exists p. now rewrite Nat.eqb_refl.
Qed.
Lemma occ_kl_out l p : ~ In p l -> occ (kl l) p = false.
Proof. intros H. destruct (occ (kl l) p) eqn:E; [|reflexivity]. apply occ_kl_in in E. contradiction. Qed.
Lemma kl_ext l m : (forall p, In p l <-> In p m) -> kl l = kl m.
Proof.
  intros H. apply occ_inj. intros p. destruct (occ (kl l) p) eqn:E.
  - symmetry. apply occ_kl_in, H. now apply occ_kl_in.
  - symmetry. apply occ_kl_out. intros Hm. apply H, occ_kl_in in Hm. congruence.
Qed.

(** Parity of the number of elements below x. *)
Definition ltp (x : nat) (l : list nat) : bool := Nat.odd (length (filter (fun y => Nat.ltb y x) l)).
Definition par (l : list nat) : bool := Nat.odd (list_inversions l).
Lemma odd_plus a b : Nat.odd (a + b) = xorb (Nat.odd a) (Nat.odd b).
Proof. apply Nat.odd_add. Qed.
Lemma ltp_app x u v : ltp x (u ++ v) = xorb (ltp x u) (ltp x v).
Proof. unfold ltp. now rewrite filter_app, app_length, odd_plus. Qed.
Lemma ltp_cons x y l : ltp x (y :: l) = xorb (Nat.ltb y x) (ltp x l).
Proof. unfold ltp. cbn [filter]. destruct (Nat.ltb y x); [|now rewrite xorb_false_l]. cbn [length]. now rewrite Nat.odd_succ, <- Nat.negb_odd. Qed.
Lemma par_cons x l : par (x :: l) = xorb (ltp x l) (par l).
Proof. unfold par. cbn [list_inversions]. apply odd_plus. Qed.
Lemma par_insert u : forall x v, ~ In x u -> par (u ++ x :: v) = xorb (xorb (par (u ++ v)) (Nat.odd (length u))) (ltp x (u ++ v)).
Proof.
  induction u as [|a u IH]; intros x v Hx; cbn [app length].
  - rewrite par_cons. cbn. destruct (ltp x v), (par v); reflexivity.
  - rewrite !par_cons, IH by (intros H; apply Hx; now right). rewrite !ltp_app, !ltp_cons, ltp_app.
    assert (Ha : a <> x) by (intros ->; apply Hx; now left). rewrite Nat.odd_succ, <- Nat.negb_odd.
    assert (T : Nat.ltb a x = negb (Nat.ltb x a)).
    { destruct (Nat.ltb_spec a x), (Nat.ltb_spec x a); try reflexivity; lia. }
    rewrite T. destruct (Nat.ltb x a), (ltp a u), (ltp a v), (par (u ++ v)), (Nat.odd (length u)), (ltp x u), (ltp x v); reflexivity.
Qed.

Lemma odd_below_kl l : NoDup l -> forall i, Nat.odd (below i (kl l)) = ltp i l.
Proof.
  induction 1 as [|x l Hx Hn IH]; intros i.
  - cbn. rewrite below_cnt. unfold cnt. cbn. induction (seq 0 i) as [|a r IHr]; [reflexivity|]. cbn [filter].
    replace (occ 0 a) with false by reflexivity. exact IHr.
  - cbn [kl fold_right]. fold (kl l). rewrite setbit_flip by (now apply occ_kl_out). rewrite odd_below_flip, IH, ltp_cons.
    apply xorb_comm.
Qed.

(** One bilinear acting on a ket that occupies x: x is replaced by y. *)
Lemma NoDup_mid {A} (u : list A) x v : NoDup (u ++ x :: v) -> ~ In x u /\ ~ In x (u ++ v) /\ NoDup (u ++ v).
Proof.
  intros H. pose proof (NoDup_remove_1 _ _ _ H). pose proof (NoDup_remove_2 _ _ _ H) as H2.
  split; [intros Hu; apply H2, in_or_app; now left|]. now split.
Qed.
Lemma bilinear_hit u x v y : NoDup (u ++ x :: v) -> ~ In y (u ++ v) ->
  word_act [(y, CREATION); (x, ANNIHILATION)] (kl (u ++ x :: v)) =
  Some (xorb (par (u ++ x :: v)) (par (u ++ y :: v)), kl (u ++ y :: v)).
Proof.
  intros Hn Hy. destruct (NoDup_mid u x v Hn) as (Hxu & Hxr & Hr).
  assert (F : flip (kl (u ++ x :: v)) x = kl (u ++ v)).
  { apply occ_inj. intros p. rewrite occ_flip. destruct (Nat.eqb_spec x p) as [<-|Hp].
    - rewrite (occ_kl_out _ _ Hxr). replace (occ (kl (u ++ x :: v)) x) with true; [reflexivity|].
      symmetry. apply occ_kl_in, in_elt.
    - rewrite xorb_false_r. rewrite !occ_kl, !existsb_app. cbn [existsb].
      replace (Nat.eqb p x) with false; [reflexivity|]. symmetry. now apply Nat.eqb_neq; congruence. }
  assert (G : flip (kl (u ++ v)) y = kl (u ++ y :: v)).
  { apply occ_inj. intros p. rewrite occ_flip. destruct (Nat.eqb_spec y p) as [<-|Hp].
    - rewrite (occ_kl_out _ _ Hy). symmetry. apply occ_kl_in, in_elt.
    - rewrite xorb_false_r. rewrite !occ_kl, !existsb_app. cbn [existsb].
      replace (Nat.eqb p y) with false; [reflexivity|]. symmetry. now apply Nat.eqb_neq; congruence. }
  cbn [word_act]. rewrite fock_act_flip. replace (occ (kl (u ++ x :: v)) x) with true by (symmetry; apply occ_kl_in, in_elt).
  cbn [wants Bool.eqb]. rewrite F, fock_act_flip, (occ_kl_out _ _ Hy). cbn [wants Bool.eqb]. rewrite G.
  rewrite (odd_below_kl _ Hn), (odd_below_kl _ Hr).
  assert (Hyu : ~ In y u) by (intros H; apply Hy, in_or_app; now left).
  rewrite (par_insert u x v Hxu), (par_insert u y v Hyu). f_equal. f_equal.
  rewrite !ltp_app, ltp_cons, Nat.ltb_irrefl.
  destruct (ltp x u), (ltp x v), (ltp y u), (ltp y v), (par (u ++ v)), (Nat.odd (length u)); reflexivity.
Qed.
Lemma bilinear_miss l x y : ~ In x l -> word_act [(y, CREATION); (x, ANNIHILATION)] (kl l) = None.
Proof. intros H. cbn [word_act]. rewrite fock_act_flip, (occ_kl_out _ _ H). reflexivity. Qed.

(** ** Spin kets *)
Section Kets.
  Variable n : nat.
  Variable idx : nat -> bool -> nat.
  Hypothesis Hinj : forall k a k' a', k < n -> k' < n -> idx k a = idx k' a' -> k = k' /\ a = a'.

  Lemma spin_ket_kl r : spin_ket idx n r = kl (spin_path idx n r).
  Proof.
    unfold spin_ket, kl, spin_path. induction (seq 0 n) as [|k l IH]; [reflexivity|]. cbn [map fold_right]. now rewrite IH.
  Qed.
  Lemma path_in r p : In p (spin_path idx n r) <-> exists k, k < n /\ p = idx k (Nat.testbit r k).
  Proof.
    unfold spin_path. rewrite in_map_iff. split.
    - intros (k & <- & Hk). apply in_seq in Hk. exists k. split; [lia|reflexivity].
    - intros (k & Hk & ->). exists k. split; auto. apply in_seq. lia.
  Qed.
  Lemma path_in_idx r k a : k < n -> In (idx k a) (spin_path idx n r) <-> Nat.testbit r k = a.
  Proof.
    intros Hk. rewrite path_in. split.
    - intros (k' & Hk' & E). apply Hinj in E; auto. destruct E as [-> ->]. reflexivity.
    - intros <-. now exists k.
  Qed.
  Lemma path_nodup r : NoDup (spin_path idx n r).
  Proof.
    unfold spin_path. assert (H : forall l, NoDup l -> (forall k, In k l -> k < n) -> NoDup (map (fun k => idx k (Nat.testbit r k)) l)).
    { induction 1 as [|k l Hk Hn IH]; intros Hb; cbn; constructor.
      - rewrite in_map_iff. intros (k' & E & Hk'). apply Hinj in E; [|apply Hb; now right|apply Hb; now left].
        destruct E as [<- _]. contradiction.
      - apply IH. intros; apply Hb; now right. }
    apply H; [apply seq_NoDup|]. intros k Hk. apply in_seq in Hk. lia.
  Qed.
  (** Setting bit k. *)
  Definition put (r k : nat) (a : bool) : nat := if a then Nat.setbit r k else Nat.clearbit r k.
  Lemma put_bit r k a p : Nat.testbit (put r k a) p = if Nat.eqb p k then a else Nat.testbit r p.
  Proof.
    unfold put. destruct a.
    - rewrite Nat.setbit_eqb, Nat.eqb_sym. now destruct (Nat.eqb p k).
    - rewrite Nat.clearbit_eqb, Nat.eqb_sym. destruct (Nat.eqb p k); cbn; [apply andb_false_r|apply andb_true_r].
  Qed.
  Lemma bits_lt r m : (forall p, m <= p -> Nat.testbit r p = false) -> r < 2 ^ m.
  Proof.
    intros H. assert (E : r = r mod 2 ^ m).
    { apply Nat.bits_inj. intros p. rewrite mod_bits. destruct (Nat.ltb_spec p m); [now rewrite andb_true_l|cbn; now apply H]. }
    rewrite E. apply Nat.mod_upper_bound, pow_nz.
  Qed.
  Lemma lt_bits r m p : r < 2 ^ m -> m <= p -> Nat.testbit r p = false.
  Proof.
    intros Hr Hp. rewrite <- (Nat.mod_small r (2 ^ m)) by auto. rewrite mod_bits. now rewrite (proj2 (Nat.ltb_ge p m) Hp).
  Qed.
  Lemma put_lt r k a : r < 2 ^ n -> k < n -> put r k a < 2 ^ n.
  Proof.
    intros Hr Hk. apply bits_lt. intros p Hp. rewrite put_bit. destruct (Nat.eqb_spec p k); [lia|]. now apply (lt_bits r n).
  Qed.
  Lemma ket_inj r c : r < 2 ^ n -> c < 2 ^ n -> spin_ket idx n r = spin_ket idx n c -> r = c.
  Proof.
    intros Hr Hc E. apply (eq_bits r c n Hr Hc). intros k Hk.
    rewrite !spin_ket_kl in E. symmetry. apply path_in_idx; auto. apply occ_kl_in. rewrite <- E. apply occ_kl_in. now apply path_in_idx.
  Qed.
  (** The path splits at site k. *)
  Lemma path_split r k : k < n -> exists u v, spin_path idx n r = u ++ idx k (Nat.testbit r k) :: v /\
    forall a, spin_path idx n (put r k a) = u ++ idx k a :: v.
  Proof.
    intros Hk. exists (map (fun k => idx k (Nat.testbit r k)) (seq 0 k)), (map (fun k => idx k (Nat.testbit r k)) (seq (S k) (n - S k))).
    assert (S : seq 0 n = seq 0 k ++ k :: seq (S k) (n - S k)).
    { replace n with (k + (n - k)) at 1 by lia. rewrite seq_app. f_equal. replace (n - k) with (S (n - S k)) by lia. reflexivity. }
    unfold spin_path. rewrite S. split; [now rewrite map_app|]. intros a. rewrite map_app. cbn [map]. f_equal; [|f_equal].
    - apply map_ext_in. intros p Hp. apply in_seq in Hp. rewrite put_bit. destruct (Nat.eqb_spec p k); [lia|reflexivity].
    - rewrite put_bit, Nat.eqb_refl. reflexivity.
    - apply map_ext_in. intros p Hp. apply in_seq in Hp. rewrite put_bit. destruct (Nat.eqb_spec p k); [lia|reflexivity].
  Qed.
  (** The bilinear of site k on a spin ket. *)
  Definition bil (k : nat) (a b : bool) : list (nat * otype) := [(idx k a, CREATION); (idx k b, ANNIHILATION)].
  Definition spar (r : nat) : bool := par (spin_path idx n r).
  Lemma bil_act k a b c : k < n ->
    word_act (bil k a b) (spin_ket idx n c) =
    if Bool.eqb (Nat.testbit c k) b then Some (xorb (spar c) (spar (put c k a)), spin_ket idx n (put c k a)) else None.
  Proof.
    intros Hk. destruct (Bool.eqb (Nat.testbit c k) b) eqn:E.
    - apply eqb_prop in E. subst b. destruct (path_split c k Hk) as (u & v & E & Ea).
      unfold bil, spar. rewrite !spin_ket_kl, (Ea a), E. apply bilinear_hit.
      + rewrite <- E. apply path_nodup.
      + intros H. pose proof (path_nodup (put c k a)) as D. rewrite (Ea a) in D. apply NoDup_remove_2 in D. contradiction.
    - rewrite spin_ket_kl. apply bilinear_miss. rewrite path_in_idx by auto. intros H. apply eqb_false_iff in E. congruence.
  Qed.

  (** ket_sign in terms of parity. *)
  Lemma ket_sign_par r : ket_sign idx n r = if spar r then gopp g1 else g1.
  Proof. reflexivity. Qed.
  Lemma ket_sign_sq r : gmul (ket_sign idx n r) (ket_sign idx n r) = g1.
  Proof. rewrite ket_sign_par. destruct (spar r); ring. Qed.

  (** Matrix elements of one bilinear. *)
  Lemma bil_amp k a b r c : k < n -> r < 2 ^ n -> c < 2 ^ n ->
    gz (amp (bil k a b) (spin_ket idx n r) (spin_ket idx n c)) =
    gmul (ket_sign idx n r) (gmul (ket_sign idx n c)
      (on_site n k (fun x y => if Bool.eqb x a && Bool.eqb y b then g1 else g0) r c)).
  Proof.
    intros Hk Hr Hc. unfold amp. rewrite bil_act by auto. unfold on_site.
    destruct (Bool.eqb (Nat.testbit c k) b) eqn:Eb; cbn [andb].
    - destruct (N.eqb_spec (spin_ket idx n (put c k a)) (spin_ket idx n r)) as [E|E].
      + apply ket_inj in E; auto; [|now apply put_lt].
        replace (forallb _ (seq 0 n)) with true.
        * subst r. rewrite !ket_sign_par. rewrite put_bit, Nat.eqb_refl, eqb_reflx. cbn [andb].
          destruct (spar c), (spar (put c k a)); cbn [xorb]; apply gq_eq; apply Qcanon.Qc_is_canon; reflexivity.
        * symmetry. apply forallb_forall. intros p _. rewrite <- E, put_bit. destruct (Nat.eqb p k); [reflexivity|apply eqb_reflx].
      + destruct (forallb _ (seq 0 n)) eqn:F.
        * destruct (Bool.eqb (Nat.testbit r k) a) eqn:Ea; cbn [andb].
          -- exfalso. apply E. f_equal. apply (eq_bits _ _ n (put_lt c k a Hc Hk) Hr). intros p Hp. rewrite put_bit.
             rewrite forallb_forall in F. specialize (F p (proj2 (in_seq _ _ _) (conj (Nat.le_0_l _) Hp))).
             destruct (Nat.eqb_spec p k) as [Epk|Hpk]; [apply eqb_prop in Ea; congruence|].
             cbn [orb] in F. apply eqb_prop in F. congruence.
          -- change (gz 0) with g0. ring.
        * change (gz 0) with g0. ring.
    - rewrite andb_false_r. change (gz 0) with g0. destruct (forallb _ (seq 0 n)); ring.
  Qed.

  (** A product of bilinears maps spin kets to spin kets. *)
  Definition bils (w : list (nat * (bool * bool))) : list (nat * otype) :=
    flat_map (fun p => bil (fst p) (fst (snd p)) (snd (snd p))) w.
  Lemma bils_act w : Forall (fun p => fst p < n) w -> forall c, c < 2 ^ n ->
    forall s k, word_act (bils w) (spin_ket idx n c) = Some (s, k) -> exists r, r < 2 ^ n /\ k = spin_ket idx n r.
  Proof.
    induction 1 as [|p w Hp Hw IH]; intros c Hc s k H.
    - cbn in H. injection H as _ <-. now exists c.
    - cbn [bils flat_map] in H. fold (bils w) in H. rewrite word_act_app in H.
      destruct (word_act (bils w) (spin_ket idx n c)) as [[s' k']|] eqn:E; [|discriminate].
      destruct (IH c Hc s' k' E) as (r & Hr & ->). rewrite bil_act in H by auto.
      destruct (Bool.eqb _ _); [|discriminate]. cbn in H. injection H as _ <-. exists (put r (fst p) (fst (snd p))).
      split; [now apply put_lt|reflexivity].
  Qed.
  Definition spin_kets : list N := map (spin_ket idx n) (seq 0 (2 ^ n)).
  Lemma spin_kets_nodup : NoDup spin_kets.
  Proof.
    unfold spin_kets. assert (H : forall l, NoDup l -> (forall r, In r l -> r < 2 ^ n) -> NoDup (map (spin_ket idx n) l)).
    { induction 1 as [|r l Hr Hn IH]; intros Hb; cbn; constructor.
      - rewrite in_map_iff. intros (r' & E & Hr'). apply ket_inj in E; [|apply Hb; now right|apply Hb; now left]. subst. contradiction.
      - apply IH. intros; apply Hb; now right. }
    apply H; [apply seq_NoDup|]. intros r Hr. apply in_seq in Hr. lia.
  Qed.
  Lemma bils_cons p w r c : Forall (fun p => fst p < n) w -> c < 2 ^ n ->
    gz (amp (bils (p :: w)) (spin_ket idx n r) (spin_ket idx n c)) =
    bigsum (2 ^ n) (fun q => gmul (gz (amp (bil (fst p) (fst (snd p)) (snd (snd p))) (spin_ket idx n r) (spin_ket idx n q)))
                                  (gz (amp (bils w) (spin_ket idx n q) (spin_ket idx n c)))).
  Proof.
    intros Hw Hc. cbn [bils flat_map]. fold (bils w). rewrite (amp_app_sum _ _ _ _ spin_kets spin_kets_nodup).
    - unfold spin_kets. rewrite lsum_map. reflexivity.
    - intros s k H. destruct (bils_act w Hw c Hc s k H) as (q & Hq & ->). apply in_map_iff. exists q. split; auto. apply in_seq. lia.
  Qed.

  (** All choices of matrix elements for a list of operators. *)
  Definition ab4 : list (bool * bool) := [(false, false); (false, true); (true, false); (true, true)].
  Definition wt (p : nat * sotype) (ab : bool * bool) : GQ := half_elem (snd p) (fst ab) (snd ab).
  Definition nz (p : nat * sotype) (ab : bool * bool) : bool := negb (geqb (wt p ab) g0).
  Definition choices (w : list (nat * sotype)) : list (list ((nat * sotype) * (bool * bool))) :=
    cartesian (map (fun p => map (pair p) (filter (nz p) ab4)) w).
  Definition wts (ch : list ((nat * sotype) * (bool * bool))) : GQ := fold_right (fun x g => gmul (wt (fst x) (snd x)) g) g1 ch.
  Definition ch_word (ch : list ((nat * sotype) * (bool * bool))) : list (nat * otype) :=
    bils (map (fun x => (fst (fst x), snd x)) ch).
  Lemma lsum_flat_map {A B} (f : B -> GQ) (h : A -> list B) l : lsum f (flat_map h l) = lsum (fun x => lsum f (h x)) l.
  Proof. induction l as [|x l IH]; [reflexivity|]. cbn [flat_map lsum]. now rewrite lsum_app, IH. Qed.
  Lemma lsum_nz p F : (forall ab, wt p ab = g0 -> F ab = g0) -> lsum F (filter (nz p) ab4) = lsum F ab4.
  Proof.
    intros H. generalize ab4. induction l as [|x l IH]; [reflexivity|]. cbn [filter lsum].
    unfold nz at 1. destruct (geqb_spec (wt p x) g0) as [E|E]; cbn [negb]; [rewrite (H x E), IH; ring|cbn [lsum]; now rewrite IH].
  Qed.
  Lemma choices_in w : Forall (fun p => fst p < n) w -> forall ch, In ch (choices w) ->
    Forall (fun p => fst p < n) (map (fun x : (nat * sotype) * (bool * bool) => (fst (fst x), snd x)) ch).
  Proof.
    unfold choices. induction 1 as [|p w Hp Hw IH]; intros ch H.
    - cbn in H. destruct H as [<-|[]]. constructor.
    - cbn [map cartesian] in H. apply in_flat_map in H as (x & Hx & H). apply in_map_iff in H as (ch' & <- & Hc).
      apply in_map_iff in Hx as (ab & <- & _). cbn [map]. constructor; auto.
  Qed.
  Lemma single_sum p r c : fst p < n -> r < 2 ^ n -> c < 2 ^ n ->
    lsum (fun ab => gmul (wt p ab) (gz (amp (bil (fst p) (fst ab) (snd ab)) (spin_ket idx n r) (spin_ket idx n c)))) ab4 =
    gmul (ket_sign idx n r) (gmul (ket_sign idx n c) (spin_at n (fst p) (snd p) r c)).
  Proof.
    intros Hp Hr Hc. rewrite (lsum_ext _ (fun ab => gmul (gmul (ket_sign idx n r) (ket_sign idx n c))
      (gmul (wt p ab) (on_site n (fst p) (fun x y => if Bool.eqb x (fst ab) && Bool.eqb y (snd ab) then g1 else g0) r c)))).
    2:{ intros ab _. rewrite bil_amp by auto. ring. }
    rewrite lsum_mul_l. unfold spin_at, on_site, wt, ab4. cbn [lsum fst snd].
    destruct (forallb _ (seq 0 n)); [|ring].
    destruct (Nat.testbit r (fst p)), (Nat.testbit c (fst p)); cbn [Bool.eqb andb]; ring.
  Qed.
  Lemma choices_sum w : Forall (fun p => fst p < n) w -> forall r c, r < 2 ^ n -> c < 2 ^ n ->
    lsum (fun ch => gmul (wts ch) (gz (amp (ch_word ch) (spin_ket idx n r) (spin_ket idx n c)))) (choices w) =
    gmul (ket_sign idx n r) (gmul (ket_sign idx n c) (spin_word n w r c)).
  Proof.
    induction 1 as [|p w Hp Hw IH]; intros r c Hr Hc.
    - cbn. unfold amp, ch_word. cbn. destruct (N.eqb_spec (spin_ket idx n c) (spin_ket idx n r)) as [E|E].
      + apply ket_inj in E; auto. subst c. unfold spin_word, mid. cbn. rewrite Nat.eqb_refl. change (gz 1) with g1.
        transitivity (gmul (ket_sign idx n r) (ket_sign idx n r)); [rewrite ket_sign_sq; ring|ring].
      + unfold spin_word, mid. cbn. destruct (Nat.eqb_spec r c) as [->|]; [congruence|]. change (gz 0) with g0. ring.
    - unfold choices. cbn [map cartesian]. rewrite lsum_flat_map, lsum_map.
      rewrite (lsum_ext _ (fun ab => gmul (wt p ab) (bigsum (2 ^ n) (fun q => gmul
        (gz (amp (bil (fst p) (fst ab) (snd ab)) (spin_ket idx n r) (spin_ket idx n q)))
        (gmul (ket_sign idx n q) (gmul (ket_sign idx n c) (spin_word n w q c))))))).
      2:{ intros ab _. rewrite lsum_map. rewrite (lsum_ext _ (fun ch => gmul (wt p ab) (bigsum (2 ^ n) (fun q =>
              gmul (gz (amp (bil (fst p) (fst ab) (snd ab)) (spin_ket idx n r) (spin_ket idx n q)))
                   (gmul (wts ch) (gz (amp (ch_word ch) (spin_ket idx n q) (spin_ket idx n c)))))))).
          2:{ intros ch Hch. unfold ch_word at 1. cbn [map]. rewrite bils_cons; [|now apply (choices_in w)|auto].
              cbn [wts fold_right fst snd]. fold (wts ch). unfold bigsum. rewrite <- !lsum_mul_l. apply lsum_ext. intros q _.
              unfold ch_word. ring. }
          rewrite lsum_mul_l. f_equal. unfold bigsum. rewrite lsum_swap. apply lsum_ext. intros q Hq. apply in_seq in Hq.
          rewrite lsum_mul_l. f_equal. fold (choices w). apply IH; auto; lia. }
      rewrite lsum_nz by (intros ab ->; ring).
      rewrite (lsum_ext _ (fun ab => lsum (fun q => gmul (gmul (wt p ab)
        (gz (amp (bil (fst p) (fst ab) (snd ab)) (spin_ket idx n r) (spin_ket idx n q))))
        (gmul (ket_sign idx n q) (gmul (ket_sign idx n c) (spin_word n w q c)))) (seq 0 (2 ^ n)))).
      2:{ intros ab _. unfold bigsum. rewrite <- lsum_mul_l. apply lsum_ext. intros; ring. }
      rewrite lsum_swap. cbn [spin_word fold_right]. fold (spin_word n w). unfold mmul, bigsum. rewrite <- !lsum_mul_l.
      apply lsum_ext. intros q Hq. apply in_seq in Hq. rewrite lsum_mul_r, single_sum by (auto; lia).
      transitivity (gmul (gmul (ket_sign idx n q) (ket_sign idx n q))
        (gmul (ket_sign idx n r) (gmul (ket_sign idx n c) (gmul (spin_at n (fst p) (snd p) r q) (spin_word n w q c))))).
      + ring.
      + rewrite ket_sign_sq. ring.
  Qed.
  (** If the states of each site stand before those of the next site, no sign appears. *)
  Lemma ordered_sign r : (forall k k' a a', k < k' -> k' < n -> idx k a < idx k' a') -> ket_sign idx n r = g1.
  Proof.
    intros H. rewrite ket_sign_par. replace (spar r) with false; [reflexivity|]. symmetry. unfold spar, par, spin_path.
    assert (E : forall m s, s + m <= n -> list_inversions (map (fun k => idx k (Nat.testbit r k)) (seq s m)) = 0).
    { induction m as [|m IH]; intros s Hs; [reflexivity|]. cbn [seq map list_inversions]. rewrite IH by lia.
      replace (filter _ _) with (@nil nat); [reflexivity|]. symmetry.
      assert (G : forall l, (forall k, In k l -> s < k < n) ->
        filter (fun y => Nat.ltb y (idx s (Nat.testbit r s))) (map (fun k => idx k (Nat.testbit r k)) l) = []).
      { induction l as [|k l IHl]; intros Hl; [reflexivity|]. cbn [map filter].
        pose proof (Hl k (or_introl eq_refl)) as Hk. specialize (H s k (Nat.testbit r s) (Nat.testbit r k) (proj1 Hk) (proj2 Hk)).
        replace (Nat.ltb _ _) with false by (symmetry; apply Nat.ltb_ge; lia). apply IHl. intros; apply Hl; now right. }
      apply G. intros k Hk. apply in_seq in Hk. lia. }
    now rewrite E.
  Qed.
End Kets.
