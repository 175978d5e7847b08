(** Proofs for C61_nearest: the bonds listed by Lattice.bonds, seen from both ends. *)
From Coq Require Import Reals String List ZArith Bool Arith Lia Lra Permutation.
From Verif Require Import Py GQ Mat Spin_Model Spin_Spec
  Lattice_Model Lattice_Spec Lattice_Proofs Lattice_Properties LatticeBonds_Spec
  Bloch_Proofs Heisenberg_Spec Heisenberg_Proofs Heisenberg_Proofs2 Heisenberg_Proofs3 HeisenbergBonds_Spec.
Import ListNotations.
Local Open Scope nat_scope.

Lemma NoDup_app_intro {A} (l l' : list A) : NoDup l -> NoDup l' -> (forall x, In x l -> In x l' -> False) -> NoDup (l ++ l').
Proof.
  intros N N' D. induction l as [|x l IH]; [exact N'|]. inversion N; subst. cbn. constructor; [rewrite in_app_iff; intros [H|H]; [contradiction|apply (D x); [now left|exact H]]|].
  apply IH; [assumption|]. intros y Hy. apply D. now right.
Qed.
Section Both.
  Variable L : lattice.
  Variable P : R -> Prop.
  Notation n := (length (points L)).
  Variable I : list (nat * nat).
  Variable T : list link.
  Hypothesis NI : NoDup I.
  Hypothesis II : forall i j, In (i, j) I <-> (i < j < n)%nat /\ P (dist (nth i (points L) v0) (nth j (points L) v0)).
  Hypothesis NT : NoDup T.
  Hypothesis VT : forall k, In k T -> valid L k /\ crossing k /\ P (len L k) /\ ~ In (opposite k) T.
  Hypothesis AT : forall k, valid L k -> crossing k -> P (len L k) -> In k T \/ In (opposite k) T.

  Let inside (p : nat * nat) : link := Link (fst p) (snd p) (repeat 0%Z (length (vectors L))).
  Let turned (p : nat * nat) : link := Link (snd p) (fst p) (repeat 0%Z (length (vectors L))).
  Definition both : list link := (map inside I ++ map turned I) ++ (T ++ map opposite T).

  Lemma len_inside p : len L (inside p) = dist (nth (fst p) (points L) v0) (nth (snd p) (points L) v0).
  Proof. unfold len, head, tail, inside. cbn [from to by_]. now rewrite shift_zero, vadd_0_r. Qed.
  Lemma len_turned p : len L (turned p) = dist (nth (fst p) (points L) v0) (nth (snd p) (points L) v0).
  Proof. unfold len, head, tail, turned. cbn [from to by_]. rewrite shift_zero, vadd_0_r. apply dist_sym. Qed.
  Lemma zero_not_crossing i j : ~ crossing (Link i j (repeat 0%Z (length (vectors L)))).
  Proof. intros (x & Hx & Nx). cbn in Hx. apply repeat_spec in Hx. contradiction. Qed.
  Lemma opposite_crossing k : crossing k -> crossing (opposite k).
  Proof. intros (x & Hx & Nx). exists (- x)%Z. split; [cbn; now apply in_map|lia]. Qed.
  Lemma opposite_valid k : valid L k -> valid L (opposite k).
  Proof. intros (A & B & C). repeat split; cbn; auto. now rewrite map_length. Qed.

  Lemma both_ok k : In k both <-> valid L k /\ ~ stays L k /\ P (len L k).
  Proof.
    unfold both. rewrite !in_app_iff, !in_map_iff. split.
    - intros [[(p & <- & H)|(p & <- & H)]|[H|(k' & <- & H)]].
      + destruct p as [i j]. apply II in H as [H Hp]. split; [repeat split; cbn; try lia; apply repeat_length|]. split; [intros [X _]; cbn in X; lia|]. now rewrite len_inside.
      + destruct p as [i j]. apply II in H as [H Hp]. split; [repeat split; cbn; try lia; apply repeat_length|]. split; [intros [X _]; cbn in X; lia|]. now rewrite len_turned.
      + destruct (VT k H) as (V & Ck & Hp & _). split; [exact V|]. split; [|exact Hp]. intros [_ X]. destruct Ck as (x & Hx & Nx). apply Nx, X, Hx.
      + destruct (VT k' H) as (V & Ck & Hp & _). split; [now apply opposite_valid|]. split; [|now rewrite (len_opposite L k')].
        apply opposite_crossing in Ck. intros [_ X]. destruct Ck as (x & Hx & Nx). apply Nx, X, Hx.
    - intros (V & NS & Hp). destruct (still_or_crossing L (by_ k) (proj2 (proj2 V))) as [E|Ck].
      + left. destruct k as [i j b]. cbn in E. subst b. unfold still in *. destruct V as (Vi & Vj & _). cbn in Vi, Vj.
        destruct (lt_eq_lt_dec i j) as [[H|H]|H].
        * left. exists (i, j). split; [reflexivity|]. apply II. split; [lia|]. pose proof (len_inside (i, j)) as X. cbn [fst snd] in X. rewrite <- X. exact Hp.
        * exfalso. apply NS. split; [exact H|]. cbn. intros x Hx. now apply repeat_spec in Hx.
        * right. exists (j, i). split; [reflexivity|]. apply II. split; [lia|]. pose proof (len_turned (j, i)) as X. cbn [fst snd] in X. rewrite <- X. exact Hp.
      + right. destruct (AT k V Ck Hp) as [H|H]; [now left|]. right. exists (opposite k). split; [apply (opposite_twice L k)|exact H].
  Qed.
  Lemma both_nodup : NoDup both.
  Proof.
    assert (X : forall k, In k (map inside I ++ map turned I) -> ~ crossing k).
    { intros k H. apply in_app_iff in H as [H|H]; apply in_map_iff in H as ([i j] & <- & _); apply zero_not_crossing. }
    assert (Y : forall k, In k (T ++ map opposite T) -> crossing k).
    { intros k H. apply in_app_iff in H as [H|H]; [apply VT, H|]. apply in_map_iff in H as (k' & <- & H). apply opposite_crossing. apply VT, H. }
    unfold both. apply NoDup_app_intro; [apply NoDup_app_intro| |].
    - apply FinFun.Injective_map_NoDup; [|exact NI]. intros [a b] [a' b'] E. now injection E as -> ->.
    - apply FinFun.Injective_map_NoDup; [|exact NI]. intros [a b] [a' b'] E. now injection E as -> ->.
    - intros k H1 H2. apply in_map_iff in H1 as ([i j] & <- & H1). apply in_map_iff in H2 as ([i' j'] & E & H2). injection E as -> ->. apply II in H1, H2. lia.
    - apply NoDup_app_intro; [exact NT| |].
      + apply FinFun.Injective_map_NoDup; [|exact NT]. intros a b E. rewrite <- (opposite_twice L a), E. apply (opposite_twice L).
      + intros k H1 H2. apply in_map_iff in H2 as (k' & E & H2). subst k. now apply (VT k' H2).
    - intros k H1 H2. apply (X k H1), Y, H2.
  Qed.
  Lemma both_perm O : NoDup O -> (forall k, In k O <-> valid L k /\ ~ stays L k /\ P (len L k)) -> Permutation both O.
  Proof. intros NO HO. apply NoDup_Permutation; [exact both_nodup|exact NO|]. intros k. rewrite both_ok, HO. tauto. Qed.

  Lemma lsum_double {A} (f g : A -> GQ) l : (forall x, In x l -> f x = g x) -> gadd (lsum f l) (lsum g l) = gmul (gadd g1 g1) (lsum f l).
  Proof. intros H. rewrite <- (lsum_ext f g l H). ring. Qed.
  Lemma both_exchange J O r c : NoDup O -> (forall k, In k O <-> valid L k /\ ~ stays L k /\ P (len L k)) -> (r < 2 ^ n)%nat -> (c < 2 ^ n)%nat ->
    exchange n J (map ends O) r c = gmul (gadd g1 g1) (exchange n J (I ++ map ends T) r c).
  Proof.
    intros NO HO Hr Hc. rewrite (exchange_perm n J (map ends O) (map ends both) r c) by (apply Permutation_map, Permutation_sym, both_perm; auto).
    unfold exchange, both. rewrite !map_app, !lsum_app, !map_map.
    assert (LM : forall A B (f : B -> GQ) (h : A -> B) l, lsum f (map h l) = lsum (fun x => f (h x)) l) by (intros A B f h l; induction l as [|x l IH]; cbn; congruence).
    rewrite !LM. cbn [inside turned ends opposite from to fst snd].
    assert (E1 : gadd (lsum (fun x => site_dot n (fst x) (snd x) r c) I) (lsum (fun x => site_dot n (snd x) (fst x) r c) I) = gmul (gadd g1 g1) (lsum (fun x => site_dot n (fst x) (snd x) r c) I)).
    { apply lsum_double. intros [i j] H. apply II in H as [H _]. cbn [fst snd]. apply site_dot_sym; auto; lia. }
    assert (E2 : gadd (lsum (fun x => site_dot n (from x) (to x) r c) T) (lsum (fun x => site_dot n (to x) (from x) r c) T) = gmul (gadd g1 g1) (lsum (fun x => site_dot n (from x) (to x) r c) T)).
    { apply lsum_double. intros k H. destruct (VT k H) as ((A & B & _) & _). apply site_dot_sym; auto. }
    rewrite E1, E2. unfold ends. ring.
  Qed.
  Lemma both_self J O r c : NoDup O -> (forall k, In k O <-> valid L k /\ ~ stays L k /\ P (len L k)) ->
    self_field n J (map ends O) r c = gmul (gadd g1 g1) (self_field n J (I ++ map ends T) r c).
  Proof.
    intros NO HO. unfold self_field. rewrite (lsum_perm _ (map ends O) (map ends both)) by (apply Permutation_map, Permutation_sym, both_perm; auto).
    unfold both. rewrite !map_app, !lsum_app, !map_map.
    assert (LM : forall A B (f : B -> GQ) (h : A -> B) l, lsum f (map h l) = lsum (fun x => f (h x)) l) by (intros A B f h l; induction l as [|x l IH]; cbn; congruence).
    rewrite !LM. cbn [inside turned ends opposite from to fst snd].
    assert (E1 : gadd (lsum (fun x => if fst x =? snd x then spin_at n (fst x) SZ r c else g0) I) (lsum (fun x => if snd x =? fst x then spin_at n (snd x) SZ r c else g0) I) = gmul (gadd g1 g1) (lsum (fun x => if fst x =? snd x then spin_at n (fst x) SZ r c else g0) I)).
    { apply lsum_double. intros [i j] _. cbn [fst snd]. rewrite Nat.eqb_sym. destruct (Nat.eqb_spec j i) as [->|]; reflexivity. }
    assert (E2 : gadd (lsum (fun x => if from x =? to x then spin_at n (from x) SZ r c else g0) T) (lsum (fun x => if to x =? from x then spin_at n (to x) SZ r c else g0) T) = gmul (gadd g1 g1) (lsum (fun x => if from x =? to x then spin_at n (from x) SZ r c else g0) T)).
    { apply lsum_double. intros k _. rewrite Nat.eqb_sym. destruct (Nat.eqb_spec (to k) (from k)) as [->|]; reflexivity. }
    rewrite E1, E2. unfold ends. cbn [fst snd]. ring.
  Qed.
End Both.
