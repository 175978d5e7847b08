(** One row of the hopping matrix of a cluster, summed along the lattice. *)
From Coq Require Import Reals List Bool Arith ZArith Lia Lra Permutation Classical_Prop.
From Coquelicot Require Import Complex.
From Verif Require Import Py CVec LinSolve Lattice_Model Lattice_Spec Lattice_Proofs LatticeGen_Model LatticeGen_Spec LatticeGen_Proofs LatticeBonds_Spec
  Free_Spec CPT_Model CPT_Spec CPT_Proofs CPT_Proofs2 CPT_Proofs3 CPT_Proofs6 Bloch_Spec.
Import ListNotations.
Local Open Scope nat_scope.
Local Open Scope C_scope.

Lemma lcsum_total {A} (f : A -> C) l : lcsum f l = total f l.
Proof. unfold total. induction l as [|a l IH]; cbn; [reflexivity|now rewrite IH]. Qed.
Lemma plane_cexp k r : plane k r = cexp k r.
Proof. reflexivity. Qed.
Lemma lcsum_perm {A} (f : A -> C) l l' : Permutation l l' -> lcsum f l = lcsum f l'.
Proof. induction 1; cbn; [reflexivity|now rewrite IHPermutation|ring|congruence]. Qed.
Lemma lcsum_mul_l {A} (x : C) (f : A -> C) l : lcsum (fun a => x * f a) l = x * lcsum f l.
Proof. induction l as [|a l IH]; cbn; [unfold c0; ring|]. rewrite IH. ring. Qed.
Lemma lcsum_filter {A} (p : A -> bool) (f : A -> C) l : lcsum f (filter p l) = lcsum (fun a => if p a then f a else c0) l.
Proof. induction l as [|a l IH]; cbn; [reflexivity|]. destruct (p a); cbn; rewrite IH; [reflexivity|unfold c0; ring]. Qed.
Lemma lcsum_conj {A} (f : A -> C) l : Cj (lcsum f l) = lcsum (fun a => Cj (f a)) l.
Proof. induction l as [|a l IH]; cbn; [apply Cj_0|]. now rewrite Cj_add, IH. Qed.
Lemma lcsum_csum {A} n (f : A -> nat -> C) l : csum n (fun j => lcsum (fun a => f a j) l) = lcsum (fun a => csum n (f a)) l.
Proof. induction l as [|a l IH]; cbn; [now apply csum_zero|]. now rewrite csum_add, IH. Qed.
Lemma cexp_add k u v : cexp k (Lattice_Model.vadd u v) = cexp k u * cexp k v.
Proof.
  unfold cexp. assert (E : vdot k (Lattice_Model.vadd u v) = (vdot k u + vdot k v)%R).
  { destruct k as [[k1 k2] k3], u as [[u1 u2] u3], v as [[w1 w2] w3]. cbn. ring. }
  rewrite E, cos_plus, sin_plus. apply injective_projections; cbn; ring.
Qed.
Lemma cexp_opp k u : cexp k (Lattice_Model.vscale (-1) u) = Cj (cexp k u).
Proof.
  unfold cexp, Cj. assert (E : vdot k (Lattice_Model.vscale (-1) u) = (- vdot k u)%R).
  { destruct k as [[k1 k2] k3], u as [[u1 u2] u3]. cbn. ring. }
  now rewrite E, cos_neg, sin_neg.
Qed.
Lemma cexp_unit' k u : cexp k u * Cj (cexp k u) = c1.
Proof. unfold cexp, Cj, c1. apply injective_projections; cbn; [|ring]. pose proof (sin2_cos2 (vdot k u)) as E. unfold Rsqr in E. lra. Qed.
Lemma list_of (Q : nat -> Prop) n : exists J, NoDup J /\ forall j, In j J <-> (j < n)%nat /\ Q j.
Proof.
  induction n as [|n (J & ND & IJ)]; [exists []; split; [constructor|]; intros j; cbn; split; [tauto|lia]|].
  destruct (classic (Q n)) as [q|q].
  - exists (n :: J). split; [constructor; [rewrite IJ; lia|exact ND]|]. intros j. cbn [In]. rewrite IJ. split.
    + intros [<-|[H1 H2]]; split; auto.
    + intros [H1 H2]. destruct (Nat.eq_dec n j); [now left|]. right. split; [lia|exact H2].
  - exists J. split; [exact ND|]. intros j. rewrite IJ. split; intros [H1 H2]; split; auto. destruct (Nat.eq_dec j n); [congruence|lia].
Qed.
Lemma csum_list n J (f : nat -> C) : NoDup J -> (forall j, In j J -> (j < n)%nat) -> (forall j, (j < n)%nat -> ~ In j J -> f j = c0) -> csum n f = lcsum f J.
Proof.
  intros ND HJ HN. rewrite <- lcsum_seq.
  rewrite (lcsum_ext f (fun j => if in_dec Nat.eq_dec j J then f j else c0)).
  - rewrite (lcsum_ext _ (fun j => if (if in_dec Nat.eq_dec j J then true else false) then f j else c0)) by (intros; now destruct (in_dec Nat.eq_dec a J)).
    rewrite <- (lcsum_filter (fun j => if in_dec Nat.eq_dec j J then true else false)). apply lcsum_perm. apply NoDup_Permutation.
    + apply NoDup_filter, seq_NoDup.
    + exact ND.
    + intros j. rewrite filter_In, in_seq. destruct (in_dec Nat.eq_dec j J) as [i|i]; split; intros H; [tauto|split; [split; [lia|apply HJ; exact i]|reflexivity]|destruct H; discriminate|contradiction].
  - intros j Hj. apply in_seq in Hj. destruct (in_dec Nat.eq_dec j J); [reflexivity|]. apply HN; [lia|assumption].
Qed.

(** The inter-cluster hopping of one spin. *)
Definition vt_value (k : point) (r c : nat) (e : nat * nat * C * point) : C :=
  let '(i, j, co, dR) := e in if (Nat.eqb r i && Nat.eqb c j)%bool then co * cexp k dR else c0.
Lemma v_upper_sum k VT r c : v_upper k VT r c = lcsum (vt_value k r c) VT.
Proof.
  unfold v_upper.
  assert (G : forall V, fold_left (fun V e => let '(i, j, coeff, dR) := e in
     fun r c => if (Nat.eqb r i && Nat.eqb c j)%bool then V r c + coeff * cexp k dR else V r c) VT V r c = V r c + lcsum (vt_value k r c) VT).
  { induction VT as [|[[[i j] co] dR] VT IH]; intros V; cbn [fold_left lcsum]; [unfold c0; ring|]. rewrite IH. cbn [vt_value]. destruct (Nat.eqb r i && Nat.eqb c j)%bool; unfold c0; ring. }
  rewrite G. unfold c0. ring.
Qed.

Section Row.
  Variables (L : lattice) (k : point) (t : R) (P : R -> Prop) (T : list link) (h : cmat).
  Let num := length (points L).
  Hypothesis HT : NoDup T.
  Hypothesis HTv : forall l, In l T -> valid L l /\ crossing l /\ P (len L l) /\ ~ In (opposite l) T.
  Hypothesis HTa : forall l, valid L l -> crossing l -> P (len L l) -> In l T \/ In (opposite l) T.
  Hypothesis Hh : cluster_hopping L P t h.
  Definition single_terms : list (nat * nat * C * point) := map (fun l => (from l, to l, RtoC t, shift (by_ l) (vectors L))) T.
  Definition still : list Z := repeat 0%Z (length (vectors L)).

  Lemma opposite_twice l : opposite (opposite l) = l.
  Proof. destruct l as [a b cs]. unfold opposite. cbn. f_equal. rewrite map_map. rewrite <- (map_id cs) at 2. apply map_ext. intros. lia. Qed.
  Lemma still_or_crossing cs : length cs = length (vectors L) -> cs = still \/ exists n, In n cs /\ n <> 0%Z.
  Proof.
    intros E. unfold still. rewrite <- E. clear E. induction cs as [|x cs [IH|IH]]; [now left| |].
    - destruct (Z.eq_dec x 0) as [->|N]; [left; cbn; now rewrite <- IH|right; exists x; split; [now left|exact N]].
    - right. destruct IH as (n & Hn & N). exists n. split; [now right|exact N].
  Qed.
  Lemma len_opposite l : len L (opposite l) = len L l.
  Proof.
    unfold len, head, tail, opposite. cbn [from to by_]. rewrite shift_opp. rewrite dist_sym. unfold dist. f_equal.
    generalize (nth (from l) (points L) v0), (nth (to l) (points L) v0), (shift (by_ l) (vectors L)). clear. vring.
  Qed.
  Lemma len_still i j : len L (Link i j still) = dist (nth i (points L) v0) (nth j (points L) v0).
  Proof. unfold len, head, tail, still. cbn [from to by_]. now rewrite shift_zero, vadd_0_r. Qed.

  (** All links starting at r, and the row of the matrix as the sum over them. *)
  Lemma row r : (r < num)%nat -> exists OL, NoDup OL /\
    (forall l, In l OL <-> valid L l /\ from l = r /\ (to l, by_ l) <> (r, still) /\ P (len L l)) /\
    forall f : nat -> C, csum num (fun j => (h r j + v_matrix k single_terms r j) * f j) = RtoC t * lcsum (fun l => cexp k (shift (by_ l) (vectors L)) * f (to l)) OL.
  Proof.
    intros Hr. destruct (list_of (fun j => r <> j /\ P (dist (nth r (points L) v0) (nth j (points L) v0))) num) as (J & NJ & IJ).
    exists (map (fun j => Link r j still) J ++ filter (fun l => Nat.eqb (from l) r) T ++ map opposite (filter (fun l => Nat.eqb (to l) r) T)).
    assert (NC : forall cs, (exists n, In n cs /\ n <> 0%Z) -> cs <> still) by (intros cs (n & Hn & N) ->; apply repeat_spec in Hn; contradiction).
    assert (OC : forall l, crossing l -> crossing (opposite l)).
    { intros l (n & Hn & N). exists (- n)%Z. cbn. split; [now apply in_map|lia]. }
    assert (OV : forall l, valid L l -> valid L (opposite l)) by (intros l (V1 & V2 & V3); repeat split; cbn; auto; now rewrite map_length).
    split; [|split].
    - assert (NA : forall {A} (l l' : list A), NoDup l -> NoDup l' -> (forall x, In x l -> In x l' -> False) -> NoDup (l ++ l')).
      { clear. intros A l l' N N' D. induction l as [|x l IH]; [exact N'|]. inversion N; subst. cbn. constructor; [rewrite in_app_iff; intros [H|H]; [contradiction|apply (D x); [now left|exact H]]|]. apply IH; [assumption|]. intros y Hy. apply D. now right. }
      apply NA; [|apply NA|].
      + apply FinFun.Injective_map_NoDup; [intros x y E; now injection E|exact NJ].
      + now apply NoDup_filter.
      + apply FinFun.Injective_map_NoDup; [intros x y E; rewrite <- (opposite_twice x), E; apply opposite_twice|now apply NoDup_filter].
      + intros l H1 H2. apply filter_In in H1 as [H1 _]. apply in_map_iff in H2 as (l' & <- & H2). apply filter_In in H2 as [H2 _]. now apply (HTv l' H2).
      + intros l H1 H2. apply in_map_iff in H1 as (j & <- & _). apply in_app_iff in H2 as [H2|H2].
        * apply filter_In in H2 as [H2 _]. destruct (HTv _ H2) as (_ & Cr & _). now apply (NC _ Cr).
        * apply in_map_iff in H2 as (l' & E & H2). apply filter_In in H2 as [H2 _]. destruct (HTv _ H2) as (_ & Cr & _). apply OC in Cr. rewrite E in Cr. now apply (NC _ Cr).
    - intros l. rewrite !in_app_iff, !in_map_iff. split.
      + intros [(j & <- & Hj)|[Hl|(l' & <- & Hl)]].
        * apply IJ in Hj as (Hj & N & HP). cbn [from to by_]. rewrite len_still. repeat split; cbn; auto; [apply repeat_length|congruence].
        * apply filter_In in Hl as [Hl E]. apply Nat.eqb_eq in E. destruct (HTv _ Hl) as (V & Cr & HP & _). split; [exact V|]. split; [exact E|]. split; [|exact HP]. intros X. injection X as _ X. now apply (NC _ Cr).
        * apply filter_In in Hl as [Hl E]. apply Nat.eqb_eq in E. destruct (HTv _ Hl) as (V & Cr & HP & _). rewrite len_opposite. pose proof (OV _ V) as V2. split; [exact V2|]. split; [exact E|]. split; [|exact HP].
          intros X. injection X as _ X. apply (NC _ (OC _ Cr)). exact X.
      + intros (V & <- & N & HP). destruct (still_or_crossing (by_ l)) as [E|Cr]; [apply V| |].
        * left. exists (to l). split; [destruct l as [a b cs]; cbn in *; now rewrite E|]. apply IJ. split; [apply V|]. split; [intros E'; apply N; congruence|].
          rewrite <- len_still, <- E. destruct l; exact HP.
        * right. destruct (HTa l V Cr HP) as [Hl|Hl].
          -- left. apply filter_In. split; [exact Hl|apply Nat.eqb_refl].
          -- right. exists (opposite l). split; [apply opposite_twice|]. apply filter_In. split; [exact Hl|cbn; apply Nat.eqb_refl].
    - intros f. rewrite !lcsum_app, !lcsum_map, !lcsum_filter. cbn [to by_].
      rewrite (csum_ext num _ (fun j => h r j * f j + (v_upper k single_terms r j * f j + Cj (v_upper k single_terms j r) * f j))) by (intros; unfold v_matrix; ring).
      rewrite !csum_add. rewrite !Cmult_plus_distr_l. f_equal; [|f_equal].
      + rewrite (csum_list num J).
        * rewrite <- lcsum_mul_l. apply lcsum_ext. intros j Hj. apply IJ in Hj as (Hj & N & HP). rewrite (proj1 (Hh r j Hr Hj) (conj N HP)).
          unfold still. rewrite shift_zero. replace (cexp k v0) with c1; [unfold c1; ring|]. unfold cexp. replace (vdot k v0) with 0%R by (destruct k as [[x y] z]; cbn; ring). now rewrite cos_0, sin_0.
        * exact NJ.
        * intros j Hj. apply IJ in Hj. tauto.
        * intros j Hj N. rewrite (proj2 (Hh r j Hr Hj)); [unfold c0; ring|]. intros B. apply N, IJ. tauto.
      + rewrite (csum_ext num _ (fun j => lcsum (fun l => vt_value k r j (from l, to l, RtoC t, shift (by_ l) (vectors L)) * f j) T)).
        2:{ intros j Hj. rewrite v_upper_sum. unfold single_terms. rewrite lcsum_map, Cmult_comm, <- lcsum_mul_l. apply lcsum_ext. intros. ring. }
        rewrite (lcsum_csum num (fun l j => vt_value k r j (from l, to l, RtoC t, shift (by_ l) (vectors L)) * f j)). rewrite <- lcsum_mul_l. apply lcsum_ext. intros l Hl. cbn [vt_value].
        destruct (HTv l Hl) as ((V1 & V2 & _) & _). rewrite (csum_single num _ (to l) V2).
        * rewrite Nat.eqb_refl, andb_true_r, (Nat.eqb_sym r). destruct (Nat.eqb (from l) r); unfold c0; ring.
        * intros j _ N. rewrite (proj2 (Nat.eqb_neq j (to l)) N), andb_false_r. unfold c0; ring.
      + rewrite (csum_ext num _ (fun j => lcsum (fun l => Cj (vt_value k j r (from l, to l, RtoC t, shift (by_ l) (vectors L))) * f j) T)).
        2:{ intros j Hj. rewrite v_upper_sum. unfold single_terms. rewrite lcsum_map, lcsum_conj, Cmult_comm, <- lcsum_mul_l. apply lcsum_ext. intros. ring. }
        rewrite (lcsum_csum num (fun l j => Cj (vt_value k j r (from l, to l, RtoC t, shift (by_ l) (vectors L))) * f j)). rewrite <- lcsum_mul_l. apply lcsum_ext. intros l Hl. cbn [vt_value].
        destruct (HTv l Hl) as ((V1 & V2 & _) & _). rewrite (csum_single num _ (from l) V1).
        * rewrite Nat.eqb_refl. cbn [andb opposite to by_]. rewrite (Nat.eqb_sym r). destruct (Nat.eqb (to l) r); [|rewrite Cj_0; unfold c0; ring].
          rewrite shift_opp, cexp_opp, Cj_mul. replace (Cj (RtoC t)) with (RtoC t) by (unfold Cj, RtoC; cbn; now rewrite Ropp_0). ring.
        * intros j _ N. rewrite (proj2 (Nat.eqb_neq j (from l)) N). cbn [andb]. rewrite Cj_0. unfold c0; ring.
  Qed.
End Row.
