From Coq Require Import List ZArith Bool Lia.
From Verif Require Import Py IndexTable_Model IndexTable_Spec.
Import ListNotations.
Open Scope Z_scope.

Section Proofs.
  Context {A T : Type}.
  Variable eqb : A -> A -> bool.
  Variable type_of : A -> T.
  Variable isinst : A -> T -> bool.
  Hypothesis eqb_refl : forall x, eqb x x = true.
  Hypothesis eqb_sym : forall x y, eqb x y = eqb y x.
  Hypothesis eqb_trans : forall x y z, eqb x y = true -> eqb y z = true -> eqb x z = true.
  Hypothesis isinst_self : forall x, isinst x (type_of x) = true.

  Notation acceptable := (acceptable eqb type_of isinst).
  Notation distinct := (distinct eqb).
  Notation same_type := (same_type type_of isinst).
  Notation make := (make eqb type_of isinst).
  Notation init_loop := (init_loop eqb type_of isinst).

  Definition swap_pair (p : Z * A) : A * Z := (snd p, fst p).

  (** The table the specification predicts. *)
  Definition table_of (x0 : A) (l : list A) (s : Z) : table A T :=
    MkTable (map swap_pair (enum s l)) (enum s l) (type_of x0) (Z.of_nat (length l)).

  Lemma enum_app {B} : forall (l m : list B) s,
    enum s (l ++ m) = enum s l ++ enum (s + Z.of_nat (length l)) m.
  Proof.
    induction l as [|x l IH]; intros m s; cbn [enum app length].
    - change (Z.of_nat 0) with 0. rewrite Z.add_0_r. reflexivity.
    - rewrite IH. replace (s + Z.of_nat (S (length l))) with (s + 1 + Z.of_nat (length l)) by lia.
      reflexivity.
  Qed.

  Lemma enum_length {B} : forall (l : list B) s, length (enum s l) = length l.
  Proof. induction l; intros; cbn; auto. Qed.

  Lemma lookup_obj_enum_none : forall l s x,
    lookup_obj eqb (map swap_pair (enum s l)) x = None <->
    Forall (fun y => eqb y x = false) l.
  Proof.
    induction l as [|y l IH]; intros s x; cbn; [split; auto|].
    destruct (eqb y x) eqn:E.
    - split; [discriminate|]. intros H; inversion H; congruence.
    - rewrite IH. split; [constructor; auto | intros H; inversion H; auto].
  Qed.

  Lemma lookup_obj_enum_some : forall l s x i,
    lookup_obj eqb (map swap_pair (enum s l)) x = Some i ->
    exists k y, i = s + Z.of_nat k /\ nth_error l k = Some y /\ eqb y x = true.
  Proof.
    induction l as [|y l IH]; intros s x i; cbn; [discriminate|].
    destruct (eqb y x) eqn:E.
    - intros [= <-]. exists 0%nat, y. cbn. repeat split; auto; lia.
    - intros H. apply IH in H as (k & z & -> & Hz & He).
      exists (S k), z. cbn. repeat split; auto; lia.
  Qed.

  Lemma lookup_obj_enum_hit : forall l s k x,
    distinct l -> nth_error l k = Some x ->
    forall y, eqb x y = true ->
    lookup_obj eqb (map swap_pair (enum s l)) y = Some (s + Z.of_nat k).
  Proof.
    induction l as [|z l IH]; intros s k x Hd Hk y Hxy; [destruct k; discriminate|].
    cbn. destruct k as [|k]; cbn in Hk.
    - injection Hk as ->. rewrite Hxy. f_equal; lia.
    - assert (Hz : eqb z x = false) by (apply (Hd 0%nat (S k)); auto; lia).
      destruct (eqb z y) eqn:E.
      + rewrite (eqb_trans z y x) in Hz; [discriminate|auto|].
        rewrite eqb_sym; auto.
      + rewrite (IH (s+1) k x); auto.
        * f_equal; lia.
        * intros i j a b Hij Ha Hb. apply (Hd (S i) (S j)); auto; lia.
  Qed.

  Lemma lookup_idx_enum : forall (l : list A) s z,
    lookup_idx (enum s l) z =
    if (s <=? z) && (z <? s + Z.of_nat (length l)) then nth_error l (Z.to_nat (z - s)) else None.
  Proof.
    induction l as [|y l IH]; intros s z; cbn [enum lookup_idx length].
    - destruct ((s <=? z) && (z <? s + Z.of_nat 0)) eqn:E; auto.
      destruct (Z.to_nat (z - s)); reflexivity.
    - destruct (Z.eqb_spec s z) as [->|Hne].
      + rewrite Z.leb_refl, Z.sub_diag. cbn [andb Z.to_nat nth_error].
        destruct (Z.ltb_spec z (z + Z.of_nat (S (length l)))); [reflexivity|lia].
      + rewrite IH.
        destruct (Z.leb_spec (s+1) z), (Z.leb_spec s z); cbn [andb]; try lia; auto.
        replace (s + 1 + Z.of_nat (length l)) with (s + Z.of_nat (S (length l))) by lia.
        destruct (z <? _); auto.
        replace (Z.to_nat (z - s)) with (S (Z.to_nat (z - (s + 1)))) by lia. reflexivity.
  Qed.

  Lemma distinct_snoc : forall l x,
    distinct (l ++ [x]) <-> distinct l /\ Forall (fun y => eqb y x = false) l.
  Proof.
    intros l x. split.
    - intros H. split.
      + intros i j a b Hij Ha Hb.
        apply (H i j); auto; rewrite nth_error_app1; auto;
          apply nth_error_Some; congruence.
      + apply Forall_forall. intros y Hy. apply In_nth_error in Hy as [n Hn].
        assert (n < length l)%nat by (apply nth_error_Some; congruence).
        apply (H n (length l)); auto.
        * rewrite nth_error_app1; auto.
        * rewrite nth_error_app2, Nat.sub_diag; auto.
    - intros [Hd Hf] i j a b Hij Ha Hb.
      destruct (Nat.lt_ge_cases j (length l)) as [Hj|Hj].
      + rewrite nth_error_app1 in Ha by lia. rewrite nth_error_app1 in Hb by lia.
        apply (Hd i j); auto.
      + rewrite nth_error_app2 in Hb by lia.
        destruct (j - length l)%nat as [|m] eqn:Em; cbn in Hb;
          [|destruct m; discriminate].
        injection Hb as <-.
        rewrite nth_error_app1 in Ha by lia.
        apply (proj1 (Forall_forall _ _) Hf). eapply nth_error_In; eauto.
  Qed.

  Lemma same_type_snoc : forall x0 l x,
    same_type ((x0 :: l) ++ [x]) <-> same_type (x0 :: l) /\ isinst x (type_of x0) = true.
  Proof.
    intros. cbn. rewrite Forall_app. split; intros [H1 H2]; split; auto.
    inversion H2; auto.
  Qed.

  Lemma distinct_prefix : forall l m, distinct (l ++ m) -> distinct l.
  Proof.
    intros l m H i j a b Hij Ha Hb.
    apply (H i j); auto; rewrite nth_error_app1; auto; apply nth_error_Some; congruence.
  Qed.

  Lemma acceptable_prefix : forall l m, acceptable (l ++ m) -> acceptable l.
  Proof.
    intros l m [Ht Hd]. split; [|eapply distinct_prefix; eauto].
    destruct l; cbn in *; auto. apply Forall_app in Ht; tauto.
  Qed.

  (** Outcome of the loop, characterised from any accepted, non-empty prefix. *)
  Lemma loop_char : forall rest x0 done s,
    acceptable (x0 :: done) ->
    (acceptable ((x0 :: done) ++ rest) /\
     init_loop rest s (s + Z.of_nat (length (x0 :: done))) (Some (type_of x0))
       (map swap_pair (enum s (x0 :: done))) (enum s (x0 :: done))
     = Ok (table_of x0 ((x0 :: done) ++ rest) s)) \/
    (exists k x, nth_error rest k = Some x /\
       acceptable ((x0 :: done) ++ firstn k rest) /\
       ((isinst x (type_of x0) = false /\
         init_loop rest s (s + Z.of_nat (length (x0 :: done))) (Some (type_of x0))
           (map swap_pair (enum s (x0 :: done))) (enum s (x0 :: done))
         = Err (At TypeError (Z.of_nat (length (x0 :: done) + k)))) \/
        (isinst x (type_of x0) = true /\
         (exists y, In y ((x0 :: done) ++ firstn k rest) /\ eqb y x = true) /\
         init_loop rest s (s + Z.of_nat (length (x0 :: done))) (Some (type_of x0))
           (map swap_pair (enum s (x0 :: done))) (enum s (x0 :: done))
         = Err (At ValueError (Z.of_nat (length (x0 :: done) + k)))))).
  Proof.
    induction rest as [|x rest IH]; intros x0 done s Hacc.
    - left. rewrite app_nil_r. split; auto. cbn [IndexTable_Model.init_loop].
      unfold table_of. rewrite map_length, enum_length. reflexivity.
    - cbn [IndexTable_Model.init_loop].
      destruct (Z.eqb_spec (s + Z.of_nat (length (x0 :: done))) s) as [E|_];
        [cbn [length] in E; lia|].
      destruct (isinst x (type_of x0)) eqn:Ei.
      + destruct (lookup_obj eqb (map swap_pair (enum s (x0 :: done))) x) eqn:El.
        * right. exists 0%nat, x. cbn [nth_error firstn]. rewrite app_nil_r.
          split; auto. split; auto. right. split; auto. split.
          -- apply lookup_obj_enum_some in El as (k & y & _ & Hy & He).
             exists y; split; auto. eapply nth_error_In; eauto.
          -- do 2 f_equal. lia.
        * apply lookup_obj_enum_none in El.
          assert (Hacc' : acceptable (x0 :: (done ++ [x]))).
          { destruct Hacc as [Ht Hd]. rewrite app_comm_cons. split.
            - apply same_type_snoc; auto.
            - apply distinct_snoc; auto. }
          specialize (IH x0 (done ++ [x]) s Hacc').
          assert (E1 : map swap_pair (enum s (x0 :: done ++ [x])) =
                       insert (map swap_pair (enum s (x0 :: done))) x
                              (s + Z.of_nat (length (x0 :: done)))).
          { rewrite app_comm_cons, enum_app, map_app. reflexivity. }
          assert (E2 : enum s (x0 :: done ++ [x]) =
                       insert (enum s (x0 :: done)) (s + Z.of_nat (length (x0 :: done))) x).
          { rewrite app_comm_cons, enum_app. reflexivity. }
          assert (E3 : s + Z.of_nat (length (x0 :: done ++ [x])) =
                       s + Z.of_nat (length (x0 :: done)) + 1).
          { cbn [length]. rewrite app_length. cbn [length]. lia. }
          rewrite E1, E2, E3 in IH.
          replace ((x0 :: done ++ [x]) ++ rest) with ((x0 :: done) ++ x :: rest) in IH
            by (cbn; rewrite <- app_assoc; reflexivity).
          destruct IH as [IH|(k & y & Hk & Ha & IH)]; [left; exact IH|].
          right. exists (S k), y. cbn [nth_error firstn].
          replace ((x0 :: done ++ [x]) ++ firstn k rest)
            with ((x0 :: done) ++ x :: firstn k rest) in Ha, IH
            by (cbn; rewrite <- app_assoc; reflexivity).
          replace (length (x0 :: done ++ [x]) + k)%nat
            with (length (x0 :: done) + S k)%nat in IH
            by (cbn [length]; rewrite app_length; cbn; lia).
          split; [auto|split; auto].
      + right. exists 0%nat, x. cbn [nth_error firstn]. rewrite app_nil_r.
        split; auto. split; auto. left. split; auto. do 2 f_equal; lia.
  Qed.

  Lemma acceptable_single : forall x, acceptable [x].
  Proof.
    intros x. split; [cbn; auto|]. intros i j a b Hij Ha Hb.
    destruct j as [|j]; [lia|]. destruct j; discriminate.
  Qed.

  (** Complete case analysis of the constructor. *)
  Lemma make_char : forall objs s,
    (objs = [] /\ make objs s = Err UnboundLocalError) \/
    (exists x0 r, objs = x0 :: r /\ acceptable objs /\ make objs s = Ok (table_of x0 objs s)) \/
    (exists x0 r k x, objs = x0 :: r /\ nth_error objs k = Some x /\ (0 < k)%nat /\
       acceptable (firstn k objs) /\
       ((isinst x (type_of x0) = false /\ make objs s = Err (At TypeError (Z.of_nat k))) \/
        (isinst x (type_of x0) = true /\
         (exists y, In y (firstn k objs) /\ eqb y x = true) /\
         make objs s = Err (At ValueError (Z.of_nat k))))).
  Proof.
    intros [|x0 r] s; [left; auto|].
    right. unfold IndexTable_Model.make. cbn [IndexTable_Model.init_loop]. rewrite Z.eqb_refl. cbn [lookup_obj].
    pose proof (loop_char r x0 [] s (acceptable_single x0)) as H.
    cbn [length app map enum swap_pair fst snd] in H.
    change (Z.of_nat 1) with 1 in H. unfold insert. cbn [app].
    destruct H as [[Ha He]|(k & x & Hk & Ha & H)].
    - left. exists x0, r. auto.
    - right. exists x0, r, (S k), x. cbn [nth_error firstn].
      repeat split; auto; try lia; try apply Ha.
  Qed.

  Lemma acceptable_not_bad : forall objs k x x0 r,
    objs = x0 :: r -> (0 < k)%nat -> acceptable objs -> nth_error objs k = Some x ->
    isinst x (type_of x0) = true /\ Forall (fun y => eqb y x = false) (firstn k objs).
  Proof.
    intros objs k x x0 r -> Hk [Ht Hd] Hx. destruct k; [lia|]. split.
    - cbn in Ht, Hx. apply (proj1 (Forall_forall _ _) Ht). eapply nth_error_In; eauto.
    - apply Forall_forall. intros y Hy. apply In_nth_error in Hy as [n Hn].
      assert (Hlt : (n < S k)%nat).
      { assert (n < length (firstn (S k) (x0 :: r)))%nat by (apply nth_error_Some; congruence).
        rewrite firstn_length in H; lia. }
      apply (Hd n (S k)); auto.
      rewrite <- Hn. clear -Hlt. revert n Hlt. generalize (x0 :: r) as l. generalize (S k) as m.
      induction m; intros l n H; [lia|]. destruct l; cbn; [destruct n; auto|].
      destruct n; cbn; auto. apply IHm; lia.
  Qed.

  Lemma make_ok_iff : forall objs s,
    (exists t, make objs s = Ok t) <-> objs <> [] /\ acceptable objs.
  Proof.
    intros objs s. destruct (make_char objs s) as [[-> H]|[(x0&r&E&Ha&H)|(x0&r&k&x&E&Hk&Hp&Ha&H)]].
    - rewrite H. split; [intros [t [=]]|intros [[] _]; auto].
    - split; [intros _; split; auto; subst; discriminate|intros _; eauto].
    - split.
      + intros [t Ht]. destruct H as [[_ H]|(_&_&H)]; congruence.
      + intros [_ Hacc]. exfalso.
        destruct (acceptable_not_bad objs k x x0 r E Hp Hacc Hk) as [Hi Hf].
        destruct H as [[H _]|(_&(y&Hy&He)&_)]; [congruence|].
        rewrite (proj1 (Forall_forall _ _) Hf y Hy) in He; discriminate.
  Qed.

  Lemma make_ok : forall objs s t, make objs s = Ok t ->
    exists x0 r, objs = x0 :: r /\ acceptable objs /\ t = table_of x0 objs s.
  Proof.
    intros objs s t Ht.
    destruct (make_char objs s) as [[-> H]|[(x0&r&E&Ha&H)|(x0&r&k&x&E&Hk&Hp&Ha&H)]];
      [congruence| |destruct H as [[_ H]|(_&_&H)]; congruence].
    exists x0, r. split; auto. split; auto. congruence.
  Qed.

  Lemma nth_error_firstn_in : forall (l : list A) k n y,
    (n < k)%nat -> nth_error l n = Some y -> In y (firstn k l).
  Proof.
    induction l; intros [|k] [|n] y H Hn; try lia; try discriminate; cbn in *.
    - left; congruence.
    - right. apply (IHl k n); auto; lia.
  Qed.

  Lemma in_firstn_nth_error : forall (l : list A) k y,
    In y (firstn k l) -> exists n, (n < k)%nat /\ nth_error l n = Some y.
  Proof.
    induction l; intros [|k] y H; cbn in *; try tauto.
    destruct H as [->|H].
    - exists 0%nat; split; auto; lia.
    - destruct (IHl k y H) as (n & Hn & E). exists (S n). split; auto; lia.
  Qed.

  Lemma firstn_app_le : forall (l : list A) j k, (j <= k)%nat ->
    exists m, firstn k l = firstn j l ++ m.
  Proof.
    induction l; intros j k H; [exists []; rewrite !firstn_nil; auto|].
    destruct j; [exists (firstn k (a :: l)); auto|]. destruct k; [lia|].
    destruct (IHl j k) as [m E]; [lia|]. exists m. cbn. f_equal; auto.
  Qed.

  (** First offending position is unique. *)
  Lemma make_type_error_iff : forall objs s k,
    make objs s = Err (At TypeError k) <->
    exists n x0 x, k = Z.of_nat n /\ (0 < n)%nat /\ nth_error objs 0 = Some x0 /\
      nth_error objs n = Some x /\ acceptable (firstn n objs) /\
      isinst x (type_of x0) = false.
  Proof.
    intros objs s k. split.
    - intros Hm. destruct (make_char objs s) as [[-> H]|[(x0&r&E&Ha&H)|(x0&r&n&x&E&Hk&Hp&Ha&H)]];
        [congruence..|].
      destruct H as [[Hi H]|(_&_&H)]; [|congruence].
      exists n, x0, x. subst objs. rewrite Hm in H. injection H as ->. auto 10.
    - intros (n & x0 & x & -> & Hn & H0 & Hx & Hacc & Hi).
      destruct (make_char objs s) as [[-> H]|[(y0&r&E&Ha&H)|(y0&r&m&y&E&Hy&Hp&Ha&H)]].
      + destruct n; discriminate.
      + subst objs. cbn in H0. injection H0 as ->.
        destruct (acceptable_not_bad _ n x x0 r eq_refl Hn Ha Hx); congruence.
      + subst objs. cbn in H0. injection H0 as ->.
        destruct (Nat.lt_trichotomy m n) as [Hlt|[->|Hlt]].
        * (* the code stops at m < n but the prefix n is acceptable *)
          exfalso. destruct (firstn_app_le (x0 :: r) (S m) n Hlt) as [w Ew].
          rewrite Ew in Hacc. apply acceptable_prefix in Hacc.
          assert (Hym : nth_error (firstn (S m) (x0 :: r)) m = Some y).
          { clear -Hy. revert Hy. generalize (x0 :: r) as l. induction m; intros [|a l] H; try discriminate; cbn in *; auto. }
          destruct (acceptable_not_bad (firstn (S m) (x0::r)) m y x0 (firstn m r) eq_refl Hp Hacc Hym) as [Hi' Hf'].
          destruct H as [[H _]|(_&(z&Hz&He)&_)]; [congruence|].
          rewrite firstn_firstn, Nat.min_l in Hf' by lia.
          rewrite (proj1 (Forall_forall _ _) Hf' z Hz) in He; discriminate.
        * rewrite Hx in Hy; injection Hy as ->.
          destruct H as [[_ H]|(Hb&_)]; [exact H|congruence].
        * exfalso. destruct (firstn_app_le (x0 :: r) (S n) m Hlt) as [w Ew].
          rewrite Ew in Ha. apply acceptable_prefix in Ha.
          assert (Hxn : nth_error (firstn (S n) (x0 :: r)) n = Some x).
          { clear -Hx. revert Hx. generalize (x0 :: r) as l. induction n; intros [|a l] H; try discriminate; cbn in *; auto. }
          destruct (acceptable_not_bad (firstn (S n) (x0::r)) n x x0 (firstn n r) eq_refl Hn Ha Hxn); congruence.
  Qed.

  Lemma make_value_error_iff : forall objs s k,
    make objs s = Err (At ValueError k) <->
    exists n x0 x, k = Z.of_nat n /\ (0 < n)%nat /\ nth_error objs 0 = Some x0 /\
      nth_error objs n = Some x /\ acceptable (firstn n objs) /\
      isinst x (type_of x0) = true /\
      exists j y, (j < n)%nat /\ nth_error objs j = Some y /\ eqb y x = true.
  Proof.
    intros objs s k. split.
    - intros Hm. destruct (make_char objs s) as [[-> H]|[(x0&r&E&Ha&H)|(x0&r&n&x&E&Hk&Hp&Ha&H)]];
        [congruence..|].
      destruct H as [[Hi H]|(Hi&(y&Hy&He)&H)]; [congruence|].
      apply in_firstn_nth_error in Hy as (j & Hj & Ej).
      exists n, x0, x. subst objs. rewrite Hm in H. injection H as ->.
      do 6 (split; auto). exists j, y; auto.
    - intros (n & x0 & x & -> & Hn & H0 & Hx & Hacc & Hi & j & z & Hj & Hz & Hzx).
      destruct (make_char objs s) as [[-> H]|[(y0&r&E&Ha&H)|(y0&r&m&y&E&Hy&Hp&Ha&H)]].
      + destruct n; discriminate.
      + destruct Ha as [_ Hd]. rewrite (Hd j n z x Hj Hz Hx) in Hzx; discriminate.
      + subst objs. cbn in H0. injection H0 as ->.
        destruct (Nat.lt_trichotomy m n) as [Hlt|[->|Hlt]].
        * exfalso. destruct (firstn_app_le (x0 :: r) (S m) n Hlt) as [w Ew].
          rewrite Ew in Hacc. apply acceptable_prefix in Hacc.
          assert (Hym : nth_error (firstn (S m) (x0 :: r)) m = Some y).
          { clear -Hy. revert Hy. generalize (x0 :: r) as l. induction m; intros [|a l] H; try discriminate; cbn in *; auto. }
          destruct (acceptable_not_bad (firstn (S m) (x0::r)) m y x0 (firstn m r) eq_refl Hp Hacc Hym) as [Hi' Hf'].
          destruct H as [[H _]|(_&(u&Hu&He)&_)]; [congruence|].
          rewrite firstn_firstn, Nat.min_l in Hf' by lia.
          rewrite (proj1 (Forall_forall _ _) Hf' u Hu) in He; discriminate.
        * rewrite Hx in Hy; injection Hy as ->.
          destruct H as [[Hb _]|(_&_&H)]; [congruence|exact H].
        * exfalso. destruct (firstn_app_le (x0 :: r) (S n) m Hlt) as [w Ew].
          rewrite Ew in Ha. apply acceptable_prefix in Ha.
          assert (Hxn : nth_error (firstn (S n) (x0 :: r)) n = Some x).
          { clear -Hx. revert Hx. generalize (x0 :: r) as l. induction n; intros [|a l] H; try discriminate; cbn in *; auto. }
          destruct (acceptable_not_bad (firstn (S n) (x0::r)) n x x0 (firstn n r) eq_refl Hn Ha Hxn) as [_ Hf].
          rewrite firstn_firstn, Nat.min_l in Hf by lia.
          rewrite (proj1 (Forall_forall _ _) Hf z) in Hzx; [discriminate|].
          eapply nth_error_firstn_in; eauto.
  Qed.

  Lemma make_empty_iff : forall objs s, make objs s = Err UnboundLocalError <-> objs = [].
  Proof.
    intros objs s. destruct (make_char objs s) as [[-> H]|[(x0&r&E&Ha&H)|(x0&r&n&x&E&Hk&Hp&Ha&H)]].
    - tauto.
    - rewrite H; subst; split; discriminate.
    - subst. split; [|discriminate]. intros Hm.
      destruct H as [[_ H]|(_&_&H)]; congruence.
  Qed.

  Lemma make_no_other_error : forall objs s e, make objs s = Err e ->
    e = UnboundLocalError \/ (exists k, e = At TypeError k) \/ (exists k, e = At ValueError k).
  Proof.
    intros objs s e Hm. destruct (make_char objs s) as [[-> H]|[(x0&r&E&Ha&H)|(x0&r&n&x&E&Hk&Hp&Ha&H)]].
    - left; congruence.
    - congruence.
    - right. destruct H as [[_ H]|(_&_&H)]; rewrite Hm in H; injection H as ->; eauto.
  Qed.

  Lemma map_fst_enum : forall l s,
    map fst (map swap_pair (enum s l)) = l.
  Proof. induction l; intros; cbn; f_equal; auto. Qed.

  Lemma make_bijection : forall objs s t, make objs s = Ok t ->
    (forall k x, nth_error objs k = Some x ->
       query_object t (PyInt (s + Z.of_nat k)) = Ok x /\
       (forall y, eqb x y = true -> isinst y (object_type t) = true ->
                  query_index eqb isinst t y = Ok (s + Z.of_nat k)) /\
       query_index eqb isinst t x = Ok (s + Z.of_nat k)) /\
    (forall z x, query_object t (PyInt z) = Ok x -> query_index eqb isinst t x = Ok z) /\
    (forall y z, query_index eqb isinst t y = Ok z ->
       exists x, query_object t (PyInt z) = Ok x /\ eqb x y = true) /\
    (forall z x, query_object t (PyInt z) = Ok x <->
       exists k, z = s + Z.of_nat k /\ nth_error objs k = Some x) /\
    len t = Z.of_nat (length objs) /\
    iter t = enum s objs /\ objects t = objs /\ indices t = map fst (enum s objs).
  Proof.
    intros objs s t Hm. destruct (make_ok objs s t Hm) as (x0 & r & E & Ha & ->).
    assert (Hty : forall k x, nth_error objs k = Some x -> isinst x (type_of x0) = true).
    { intros [|k] x Hx; subst objs; cbn in Hx.
      - injection Hx as ->; auto.
      - destruct Ha as [Ht _]. cbn in Ht. apply (proj1 (Forall_forall _ _) Ht).
        eapply nth_error_In; eauto. }
    assert (HqO : forall z x, query_object (table_of x0 objs s) (PyInt z) = Ok x <->
       exists k, z = s + Z.of_nat k /\ nth_error objs k = Some x).
    { intros z x. unfold query_object, table_of. cbn [index2object].
      rewrite lookup_idx_enum. split.
      - destruct (_ && _) eqn:Eb; [|discriminate].
        apply andb_prop in Eb as [E1 E2]. apply Z.leb_le in E1.
        destruct (nth_error objs (Z.to_nat (z - s))) eqn:En; [|discriminate].
        intros [= <-]. exists (Z.to_nat (z - s)). split; [lia|auto].
      - intros (k & -> & Hk).
        assert (k < length objs)%nat by (apply nth_error_Some; congruence).
        replace ((s <=? s + Z.of_nat k) && (s + Z.of_nat k <? s + Z.of_nat (length objs))) with true
          by (symmetry; apply andb_true_intro; split; [apply Z.leb_le|apply Z.ltb_lt]; lia).
        replace (Z.to_nat (s + Z.of_nat k - s)) with k by lia. rewrite Hk. reflexivity. }
    assert (HqI : forall k x y, nth_error objs k = Some x -> eqb x y = true ->
              isinst y (type_of x0) = true ->
              query_index eqb isinst (table_of x0 objs s) y = Ok (s + Z.of_nat k)).
    { intros k x y Hk Hxy Hy. unfold query_index, table_of. cbn [object_type object2index].
      rewrite Hy. rewrite (lookup_obj_enum_hit objs s k x); auto. apply Ha. }
    split; [|split; [|split; [|split; [|split; [|split; [|split]]]]]].
    - intros k x Hk. split; [apply HqO; eauto|]. split.
      + intros y Hxy Hy. apply (HqI k x); auto.
      + apply (HqI k x); auto. eapply Hty; eauto.
    - intros z x Hz. apply HqO in Hz as (k & -> & Hk). apply (HqI k x); auto. eapply Hty; eauto.
    - intros y z. unfold query_index. cbn [object_type table_of object2index].
      destruct (isinst y (type_of x0)); [|discriminate].
      destruct (lookup_obj _ _ _) eqn:El; [|discriminate]. intros [= <-].
      apply lookup_obj_enum_some in El as (k & x & -> & Hk & Hxy).
      exists x. split; auto. apply HqO; eauto.
    - exact HqO.
    - reflexivity.
    - reflexivity.
    - apply map_fst_enum.
    - reflexivity.
  Qed.

  Lemma query_index_errors : forall objs s t y, make objs s = Ok t ->
    (query_index eqb isinst t y = Err TypeError <-> isinst y (object_type t) = false) /\
    (query_index eqb isinst t y = Err KeyError <->
       isinst y (object_type t) = true /\ forall x, In x objs -> eqb x y = false) /\
    (exists x0 r, objs = x0 :: r /\ object_type t = type_of x0).
  Proof.
    intros objs s t y Hm. destruct (make_ok objs s t Hm) as (x0 & r & E & Ha & ->).
    unfold query_index. cbn [object_type table_of object2index].
    split; [|split; eauto].
    - destruct (isinst y (type_of x0)); [|tauto].
      destruct (lookup_obj _ _ _); split; discriminate.
    - destruct (isinst y (type_of x0)).
      + destruct (lookup_obj eqb (map swap_pair (enum s objs)) y) eqn:El.
        * split; [discriminate|]. intros [_ H]. exfalso.
          apply lookup_obj_enum_some in El as (k & x & _ & Hk & Hxy).
          rewrite H in Hxy; [discriminate|]. eapply nth_error_In; eauto.
        * apply lookup_obj_enum_none in El. split; [|reflexivity].
          intros _. split; auto. apply Forall_forall; auto.
      + split; [discriminate|intros [[=] _]].
  Qed.

  Lemma query_object_errors : forall objs s t i, make objs s = Ok t ->
    (query_object t i = Err TypeError <-> i = PyOther) /\
    (forall z, query_object t (PyInt z) = Err KeyError <->
               z < s \/ s + Z.of_nat (length objs) <= z) /\
    (forall b, query_object t (PyBool b) = query_object t (PyInt (if b then 1 else 0))).
  Proof.
    intros objs s t i Hm. destruct (make_ok objs s t Hm) as (x0 & r & E & Ha & ->).
    split; [|split].
    - unfold query_object. destruct i; cbn; try (destruct (lookup_idx _ _)); try (split; discriminate). tauto.
    - intros z. unfold query_object. cbn [index2object table_of]. rewrite lookup_idx_enum.
      destruct (Z.leb_spec s z); cbn [andb].
      + destruct (Z.ltb_spec z (s + Z.of_nat (length objs))).
        * destruct (nth_error objs (Z.to_nat (z - s))) eqn:En.
          -- split; [discriminate|lia].
          -- apply nth_error_None in En. lia.
        * split; auto.
      + split; auto.
    - intros b. destruct b; reflexivity.
  Qed.
End Proofs.
