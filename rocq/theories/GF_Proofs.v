(** Proofs about the Green-function solvers. *)
From Coq Require Import Reals String List ZArith Bool Arith Lia Lra.
From Coquelicot Require Import Complex.
From Verif Require Import Py CVec LinSolve Lanczos_Model GF_Model GF_Spec.
Import ListNotations.
Local Open Scope res_scope.
Local Open Scope nat_scope.

(** ** Loops *)
Section For.
  Context {X St : Type}.
  Variable body : St -> nat -> X -> res St.
  Lemma for_ok (P : nat -> St -> Prop) : forall l i s s', for_from i l body s = Ok s' -> P i s ->
    (forall k x s s', nth_error l k = Some x -> P (i + k) s -> body s (i + k) x = Ok s' -> P (S (i + k)) s') ->
    P (i + length l) s'.
  Proof.
    induction l as [|x l IH]; intros i s s' H H0 Hs; cbn in H.
    - injection H as <-. now rewrite Nat.add_0_r.
    - destruct (body s i x) as [s1|] eqn:E; [|discriminate]. cbn [bind] in H. cbn [length].
      replace (i + S (length l)) with (S i + length l) by lia. apply (IH (S i) s1 s' H).
      + specialize (Hs 0 x s s1 eq_refl). rewrite Nat.add_0_r in Hs. now apply Hs.
      + intros k y t t' Hk Ht Hb. replace (S i + k) with (i + S k) in * by lia. exact (Hs (S k) y t t' Hk Ht Hb).
  Qed.
  Lemma for_total (P : nat -> St -> Prop) : forall l i s, P i s ->
    (forall k x s, nth_error l k = Some x -> P (i + k) s -> exists s', body s (i + k) x = Ok s' /\ P (S (i + k)) s') ->
    exists s', for_from i l body s = Ok s' /\ P (i + length l) s'.
  Proof.
    induction l as [|x l IH]; intros i s H0 Hs; cbn.
    - exists s. split; [reflexivity|]. now rewrite Nat.add_0_r.
    - destruct (Hs 0 x s eq_refl) as (s1 & E & H1); [now rewrite Nat.add_0_r|].
      rewrite Nat.add_0_r in E, H1. rewrite E. cbn [bind].
      destruct (IH (S i) s1 H1) as (s' & E' & H').
      + intros k y t Hk Ht. destruct (Hs (S k) y t Hk) as (t' & G & G'); [now replace (i + S k) with (S i + k) by lia|].
        exists t'. replace (S i + k) with (i + S k) by lia. split; assumption.
      + exists s'. split; [exact E'|]. now replace (i + S (length l)) with (S i + length l) by lia.
  Qed.
  (** A successful loop was successful at every element. *)
  Lemma for_each : forall l i s s', for_from i l body s = Ok s' -> forall k x, nth_error l k = Some x ->
    exists t t', body t (i + k) x = Ok t'.
  Proof.
    induction l as [|y l IH]; intros i s s' H k x Hk; [destruct k; discriminate|]. cbn in H.
    destruct (body s i y) as [s1|] eqn:E; [|discriminate]. cbn [bind] in H. destruct k as [|k]; cbn in Hk.
    - injection Hk as <-. rewrite Nat.add_0_r. eauto.
    - destruct (IH _ _ _ H _ _ Hk) as (t & t' & G). exists t, t'. now replace (i + S k) with (S i + k) by lia.
  Qed.
End For.
Lemma for_ext {X St} (b1 b2 : St -> nat -> X -> res St) : (forall s i x, b1 s i x = b2 s i x) -> forall l i s, for_from i l b1 s = for_from i l b2 s.
Proof. intros H. induction l as [|x l IH]; intros i s; cbn; [reflexivity|]. rewrite H. destruct (b2 s i x); cbn; [apply IH|reflexivity]. Qed.

(** ** Filling a 3-D array in three nested loops *)
Section Fill.
  Context {X Y Z P Q : Type}.
  Variables (pre : X -> res P) (mk : P -> Y -> res Q) (val : X -> P -> Q -> Z -> res C).
  Variable put : array3 -> nat -> nat -> nat -> C -> array3.
  Variable get : array3 -> nat -> nat -> nat -> C.
  Hypothesis get_put : forall a i j k v i' j' k', get (put a i j k v) i' j' k' = if Nat.eqb i' i && Nat.eqb j' j && Nat.eqb k' k then v else get a i' j' k'.
  Variable sh : array3 -> nat * nat * nat.
  Hypothesis sh_put : forall a i j k v, sh (put a i j k v) = sh a.
  Definition inner_loop (i : nat) (x : X) (p : P) (j : nat) (q : Q) (l3 : list Z) (a : array3) : res array3 :=
    for_enum l3 (fun a k w => v <- val x p q w ;; Ok (put a i j k v)) a.
  Definition mid_loop (i : nat) (x : X) (p : P) (l2 : list Y) (l3 : list Z) (a : array3) : res array3 :=
    for_enum l2 (fun a j y => q <- mk p y ;; inner_loop i x p j q l3 a) a.
  Definition fill (l1 : list X) (l2 : list Y) (l3 : list Z) (a : array3) : res array3 :=
    for_enum l1 (fun a i x => p <- pre x ;; mid_loop i x p l2 l3 a) a.
  Definition single (x : X) (y : Y) (w : Z) : res C := p <- pre x ;; q <- mk p y ;; val x p q w.

  Ltac beq := repeat match goal with |- context [Nat.eqb ?a ?b] => destruct (Nat.eqb_spec a b) end; cbn; try congruence; try lia.

  Lemma inner_ok i x p j q l3 a a' : inner_loop i x p j q l3 a = Ok a' ->
    sh a' = sh a /\ (forall i' j' k', ~ (i' = i /\ j' = j) -> get a' i' j' k' = get a i' j' k') /\
    forall k w, nth_error l3 k = Some w -> val x p q w = Ok (get a' i j k).
  Proof.
    intros H. unfold inner_loop, for_enum in H.
    pose (R := fun (n : nat) (b : array3) => sh b = sh a /\ (forall i' j' k', ~ (i' = i /\ j' = j) -> get b i' j' k' = get a i' j' k') /\
      forall k w, nth_error l3 k = Some w -> k < n -> val x p q w = Ok (get b i j k)).
    assert (G : R (0 + length l3) a').
    { apply (for_ok _ R l3 0 a a' H).
      - split; [reflexivity|]. split; [reflexivity|]. intros. lia.
      - intros k w s s' Hk (S1 & S2 & S3) E. cbn [plus] in *. destruct (val x p q w) as [v|] eqn:EV; [|discriminate].
        cbn [bind] in E. injection E as <-. split; [now rewrite sh_put|]. split.
        + intros i' j' k' N. rewrite get_put. rewrite S2 by assumption. destruct (Nat.eqb_spec i' i); [|reflexivity]. destruct (Nat.eqb_spec j' j); [|reflexivity]. tauto.
        + intros k2 w2 Hk2 L. rewrite get_put, !Nat.eqb_refl. cbn [andb]. destruct (Nat.eqb_spec k2 k) as [->|].
          * rewrite Hk in Hk2. injection Hk2 as <-. exact EV.
          * apply (S3 k2 w2 Hk2). lia. }
    destruct G as (G1 & G2 & G3). split; [exact G1|]. split; [exact G2|]. intros k w Hk. apply (G3 k w Hk). cbn. apply nth_error_Some. congruence.
  Qed.
  Lemma inner_total i x p j q l3 a : (forall w, In w l3 -> exists v, val x p q w = Ok v) -> exists a', inner_loop i x p j q l3 a = Ok a'.
  Proof.
    intros H. destruct (for_total (fun a k w => v <- val x p q w ;; Ok (put a i j k v)) (fun _ _ => True) l3 0 a I) as (s' & E & _).
    - intros k w s Hk _. destruct (H w (nth_error_In _ _ Hk)) as (v & ->). cbn. eauto.
    - eauto.
  Qed.
  Lemma mid_ok i x p l2 l3 a a' : mid_loop i x p l2 l3 a = Ok a' ->
    sh a' = sh a /\ (forall i' j' k', i' <> i -> get a' i' j' k' = get a i' j' k') /\
    forall j y k w, nth_error l2 j = Some y -> nth_error l3 k = Some w -> (q <- mk p y ;; val x p q w) = Ok (get a' i j k).
  Proof.
    intros H. unfold mid_loop, for_enum in H.
    pose (R := fun (n : nat) (b : array3) => sh b = sh a /\ (forall i' j' k', i' <> i -> get b i' j' k' = get a i' j' k') /\
      forall j y k w, nth_error l2 j = Some y -> nth_error l3 k = Some w -> j < n -> (q <- mk p y ;; val x p q w) = Ok (get b i j k)).
    assert (G : R (0 + length l2) a').
    { apply (for_ok _ R l2 0 a a' H).
      - split; [reflexivity|]. split; [reflexivity|]. intros. lia.
      - intros j y s s' Hj (S1 & S2 & S3) E. cbn [plus] in *. destruct (mk p y) as [q|] eqn:EQ; [|discriminate].
        cbn [bind] in E. apply inner_ok in E. destruct E as (E1 & E2 & E3). split; [congruence|]. split.
        + intros i' j' k' N. rewrite E2 by tauto. now apply S2.
        + intros j2 y2 k w Hj2 Hk L. destruct (Nat.eq_dec j2 j) as [->|].
          * rewrite Hj in Hj2. injection Hj2 as <-. rewrite EQ. cbn [bind]. now apply E3.
          * rewrite E2 by tauto. apply (S3 j2 y2 k w Hj2 Hk). lia. }
    destruct G as (G1 & G2 & G3). split; [exact G1|]. split; [exact G2|]. intros j y k w Hj Hk. apply (G3 j y k w Hj Hk). cbn. apply nth_error_Some. congruence.
  Qed.
  Lemma fill_ok l1 l2 l3 a a' : fill l1 l2 l3 a = Ok a' ->
    sh a' = sh a /\
    forall i x j y k w, nth_error l1 i = Some x -> nth_error l2 j = Some y -> nth_error l3 k = Some w -> single x y w = Ok (get a' i j k).
  Proof.
    intros H. unfold fill, for_enum in H.
    pose (R := fun (n : nat) (b : array3) => sh b = sh a /\
      forall i x j y k w, nth_error l1 i = Some x -> nth_error l2 j = Some y -> nth_error l3 k = Some w -> i < n -> single x y w = Ok (get b i j k)).
    assert (G : R (0 + length l1) a').
    { apply (for_ok _ R l1 0 a a' H).
      - split; [reflexivity|]. intros. lia.
      - intros i x s s' Hi (S1 & S3) E. cbn [plus] in *. destruct (pre x) as [p|] eqn:EQ; [|discriminate].
        cbn [bind] in E. apply mid_ok in E. destruct E as (E1 & E2 & E3). split; [congruence|].
        intros i2 x2 j y k w Hi2 Hj Hk L. destruct (Nat.eq_dec i2 i) as [->|].
        * rewrite Hi in Hi2. injection Hi2 as <-. unfold single. rewrite EQ. cbn [bind]. now apply E3.
        * rewrite E2 by assumption. apply (S3 i2 x2 j y k w Hi2 Hj Hk). lia. }
    destruct G as (G1 & G3). split; [exact G1|]. intros i x j y k w Hi Hj Hk. apply (G3 i x j y k w Hi Hj Hk). cbn. apply nth_error_Some. congruence.
  Qed.
  Lemma fill_total l1 l2 l3 a : l2 <> [] -> l3 <> [] ->
    (forall x y w, In x l1 -> In y l2 -> In w l3 -> exists v, single x y w = Ok v) -> exists a', fill l1 l2 l3 a = Ok a'.
  Proof.
    intros N2 N3 H. destruct l2 as [|y0 l2]; [contradiction|]. destruct l3 as [|w0 l3]; [contradiction|].
    destruct (for_total (fun a i x => p <- pre x ;; mid_loop i x p (y0 :: l2) (w0 :: l3) a) (fun _ _ => True) l1 0 a I) as (s' & E & _); [|eauto].
    intros i x s Hi _. apply nth_error_In in Hi.
    destruct (H x y0 w0 Hi (or_introl eq_refl) (or_introl eq_refl)) as (v & E). unfold single in E.
    destruct (pre x) as [p|] eqn:EP; [|discriminate]. cbn [bind].
    destruct (for_total (fun a j y => q <- mk p y ;; inner_loop i x p j q (w0 :: l3) a) (fun _ _ => True) (y0 :: l2) 0 s I) as (s' & E' & _).
    - intros j y t Hj _. apply nth_error_In in Hj.
      destruct (H x y w0 Hi Hj (or_introl eq_refl)) as (v' & E'). unfold single in E'. rewrite EP in E'. cbn [bind] in E'.
      destruct (mk p y) as [q|] eqn:EQ; [|discriminate]. cbn [bind].
      destruct (inner_total i x p (0 + j) q (w0 :: l3) t) as (t' & ET).
      + intros w Hw. destruct (H x y w Hi Hj Hw) as (v2 & E2). unfold single in E2. rewrite EP in E2. cbn [bind] in E2. rewrite EQ in E2. eauto.
      + cbn [plus]. exists t'. split; [exact ET|exact I].
    - exists s'. split; [exact E'|exact I].
  Qed.
End Fill.

Lemma a3_get_set a i j k v i' j' k' : a3_el (a3_set a i j k v) i' j' k' = if Nat.eqb i' i && Nat.eqb j' j && Nat.eqb k' k then v else a3_el a i' j' k'.
Proof. reflexivity. Qed.
Definition a3_shape (a : array3) : nat * nat * nat := (a3_0 a, a3_1 a, a3_2 a).

Section GF.
  Context {K : Type}.
  Variable keqb : K -> K -> bool.
  Hypothesis keqb_eq : forall a b, keqb a b = true <-> a = b.
  Variable dagger : K -> K.

  (** *** Two nested loops over As and Bs: dict and array *)
  Section Two.
    Variable row : nat -> nat -> list C.
    Notation dget := (@dict_get K (list C) keqb).
    Lemma keqb_refl a : keqb a a = true. Proof. now apply keqb_eq. Qed.
    Lemma dget_set A B (v : list C) A' B' d : dget A' B' (dict_set keqb (A, B) v d) = if keqb A A' && keqb B B' then Some v else dget A' B' d.
    Proof.
      induction d as [|[[a b] w] d IH]; [reflexivity|].
      cbn [dict_set fst snd]. destruct (keqb a A && keqb b B) eqn:E.
      - apply andb_true_iff in E. destruct E as [E1 E2]. apply keqb_eq in E1, E2. subst. cbn [dict_get]. now destruct (keqb A A' && keqb B B').
      - cbn [dict_get]. rewrite IH. destruct (keqb a A' && keqb b B') eqn:F; [|reflexivity].
        apply andb_true_iff in F. destruct F as [F1 F2]. apply keqb_eq in F1, F2. subst.
        destruct (keqb A A' && keqb B B') eqn:G; [|reflexivity].
        apply andb_true_iff in G. destruct G as [G1 G2]. apply keqb_eq in G1, G2. subst. rewrite !keqb_refl in E. discriminate.
    Qed.
    Lemma dict_loop As Bs (val : K -> K -> list C) :
      (forall i j A B, nth_error As i = Some A -> nth_error Bs j = Some B -> row i j = val A B) ->
      exists d, for_enum As (fun d i A => for_enum Bs (fun d j B => Ok (dict_set keqb (A, B) (row i j) d)) d) [] = Ok d /\
      (forall A B, In A As -> In B Bs -> dget A B d = Some (val A B)) /\
      (forall A B l, dget A B d = Some l -> In A As /\ In B Bs).
    Proof.
      intros Hrow.
      pose (R := fun (n : nat) (d : list ((K * K) * list C)) =>
        (forall i A B, nth_error As i = Some A -> i < n -> In B Bs -> dget A B d = Some (val A B)) /\
        (forall A B l, dget A B d = Some l -> In A As /\ In B Bs /\ l = val A B)).
      destruct (for_total (fun d i A => for_enum Bs (fun d j B => Ok (dict_set keqb (A, B) (row i j) d)) d) R As 0 []) as (d & E & R1 & R2).
      - split; [intros; lia|discriminate].
      - intros i A s Hi (R1 & R2). cbn [plus] in *.
        pose (T := fun (n : nat) (d : list ((K * K) * list C)) =>
          (forall i A B, nth_error As i = Some A -> In B Bs -> dget A B s = Some (val A B) -> dget A B d = Some (val A B)) /\
          (forall j B, nth_error Bs j = Some B -> j < n -> dget A B d = Some (val A B)) /\
          (forall A B l, dget A B d = Some l -> In A As /\ In B Bs /\ l = val A B)).
        destruct (for_total (fun d j B => Ok (dict_set keqb (A, B) (row i j) d)) T Bs 0 s) as (d & E & T1 & T2 & T3).
        + split; [auto|]. split; [intros; lia|exact R2].
        + intros j B t Hj (T1 & T2 & T3). cbn [plus] in *. eexists. split; [reflexivity|].
          rewrite (Hrow i j A B Hi Hj). split; [|split].
          * intros i2 A2 B2 Hi2 HB2 G. rewrite dget_set. destruct (keqb A A2 && keqb B B2) eqn:F; [|now apply (T1 i2)].
            apply andb_true_iff in F. destruct F as [F1 F2]. apply keqb_eq in F1, F2. now subst.
          * intros j2 B2 Hj2 L. rewrite dget_set. rewrite keqb_refl. cbn [andb]. destruct (keqb B B2) eqn:F.
            -- apply keqb_eq in F. now subst.
            -- apply (T2 j2 B2 Hj2). assert (j2 <> j); [|lia]. intros ->. rewrite Hj in Hj2. injection Hj2 as <-. now rewrite keqb_refl in F.
          * intros A2 B2 l. rewrite dget_set. destruct (keqb A A2 && keqb B B2) eqn:F; [|apply T3].
            apply andb_true_iff in F. destruct F as [F1 F2]. apply keqb_eq in F1, F2. subst. intros G. injection G as <-.
            split; [|split; [|reflexivity]]; eapply nth_error_In; eassumption.
        + exists d. split; [exact E|]. split.
          * intros i2 A2 B2 Hi2 L HB2. destruct (Nat.eq_dec i2 i) as [->|].
            -- rewrite Hi in Hi2. injection Hi2 as <-. destruct (In_nth_error _ _ HB2) as (j & Hj). apply (T2 j B2 Hj). cbn. apply nth_error_Some. congruence.
            -- apply (T1 i2 A2 B2 Hi2 HB2). apply (R1 i2 A2 B2 Hi2); [lia|assumption].
          * exact T3.
      - exists d. split; [exact E|]. split.
        + intros A B HA HB. destruct (In_nth_error _ _ HA) as (i & Hi). apply (R1 i A B Hi); [|assumption]. cbn. apply nth_error_Some. congruence.
        + intros A B l H. destruct (R2 A B l H) as (H1 & H2 & _). split; assumption.
    Qed.
  End Two.
  Lemma row_loop (row : nat -> nat -> nat -> C) (As Bs : list K) a :
    exists a', for_enum As (fun a i A => for_enum Bs (fun a j B => Ok (a3_set_row a i j (row i j))) a) a = Ok a' /\
    a3_shape a' = a3_shape a /\
    forall i j k, i < length As -> j < length Bs -> a3_el a' i j k = row i j k.
  Proof.
    pose (R := fun (n : nat) (b : array3) => a3_shape b = a3_shape a /\ forall i j k, i < n -> j < length Bs -> a3_el b i j k = row i j k).
    destruct (for_total (fun a i (A : K) => for_enum Bs (fun a j B => Ok (a3_set_row a i j (row i j))) a) R As 0 a) as (a' & E & E1 & E2).
    - split; [reflexivity|]. intros. lia.
    - intros i A s Hi (R1 & R2). cbn [plus] in *.
      pose (T := fun (n : nat) (b : array3) => a3_shape b = a3_shape a /\ (forall i2 j k, i2 <> i -> a3_el b i2 j k = a3_el s i2 j k) /\
        forall j k, j < n -> a3_el b i j k = row i j k).
      destruct (for_total (fun a j (B : K) => Ok (a3_set_row a i j (row i j))) T Bs 0 s) as (b & E & T1 & T2 & T3).
      + split; [assumption|]. split; [reflexivity|]. intros. lia.
      + intros j B t Hj (T1 & T2 & T3). cbn [plus] in *. eexists. split; [reflexivity|]. split; [exact T1|]. split.
        * intros i2 j2 k N. cbn. destruct (Nat.eqb_spec i2 i); [contradiction|]. cbn. now apply T2.
        * intros j2 k L. cbn. rewrite Nat.eqb_refl. cbn. destruct (Nat.eqb_spec j2 j); [now subst|]. apply T3. lia.
      + exists b. split; [exact E|]. split; [exact T1|]. intros i2 j k L Lj. destruct (Nat.eq_dec i2 i) as [->|].
        * now apply T3.
        * rewrite T2 by assumption. apply R2; [lia|assumption].
    - exists a'. split; [exact E|]. split; [exact E1|exact E2].
  Qed.
End GF.
