From Coq Require Import String List ZArith Bool Ascii Lia DecimalString.
From Verif Require Import Py ColorPrint_Model ColorPrint_Spec.
Import ListNotations.
Local Open Scope string_scope.
Local Open Scope Z_scope.

Lemma sapp_assoc (a b c : string) : (a ++ b) ++ c = a ++ (b ++ c).
Proof. induction a as [|x a IH]; cbn; congruence. Qed.
Lemma sapp_nil (a : string) : a ++ "" = a.
Proof. induction a as [|x a IH]; cbn; congruence. Qed.

Lemma all_ascii (P : ascii -> bool) : forallb (fun n => P (ascii_of_nat n)) (seq 0 256) = true -> forall c, P c = true.
Proof.
  intros H c. rewrite forallb_forall in H. rewrite <- (ascii_nat_embedding c). apply H. apply in_seq.
  pose proof (nat_ascii_bounded c). lia.
Qed.
Lemma small_lower c : small c = lower_ascii c.
Proof.
  apply Ascii.eqb_eq. refine (all_ascii (fun c => Ascii.eqb (small c) (lower_ascii c)) _ c). vm_compute. reflexivity.
Qed.
Lemma fold_lower s : fold_case s = lower s.
Proof.
  unfold fold_case. induction s as [|c r IH]; [reflexivity|]. cbn [list_ascii_of_string map string_of_list_ascii lower].
  now rewrite IH, small_lower.
Qed.
Lemma white_space c : white c <-> is_space c = true.
Proof.
  assert (G : Bool.eqb (existsb (Ascii.eqb c) (map ascii_of_nat [9; 10; 11; 12; 13; 32]%nat)) (is_space c) = true).
  { refine (all_ascii (fun c => Bool.eqb (existsb (Ascii.eqb c) (map ascii_of_nat [9; 10; 11; 12; 13; 32]%nat)) (is_space c)) _ c).
    vm_compute. reflexivity. }
  apply eqb_prop in G. rewrite <- G. unfold white. split.
  - intros H. apply existsb_exists. exists c. split; [exact H|apply Ascii.eqb_refl].
  - intros H. apply existsb_exists in H as (x & Hx & E). apply Ascii.eqb_eq in E. now subst x.
Qed.
Lemma not_white c : ~ white c <-> is_space c = false.
Proof. rewrite white_space. destruct (is_space c); split; congruence. Qed.

(** ** colour names *)
Lemma named_name s i : named s i -> color_name s = Ok (nth i NAMES_LONG "") /\ (i < 8)%nat.
Proof.
  unfold named, color_name. rewrite fold_lower. intros H.
  do 8 (destruct i as [|i]; [destruct H as [H|H]; cbn [nth_error] in H; injection H as <-; (split; [reflexivity|lia])|]).
  destruct H as [H|H]; destruct i; discriminate.
Qed.
Lemma mem_nth s l : mem s l = true -> exists i, nth_error l i = Some s.
Proof.
  unfold mem. intros H. apply existsb_exists in H as (x & Hx & E). apply String.eqb_eq in E. subst x.
  now apply In_nth_error.
Qed.
Lemma mem_nth_false s l i : mem s l = false -> nth_error l i <> Some s.
Proof.
  intros H E. apply nth_error_In in E. assert (mem s l = true); [|congruence].
  apply existsb_exists. exists s. split; auto. apply String.eqb_refl.
Qed.
Lemma name_cases s : (exists i, named s i) \/ ((forall i, ~ named s i) /\ color_name s = Err ValueError).
Proof.
  destruct (mem (lower s) NAMES_LONG) eqn:E1.
  - left. apply mem_nth in E1 as [i Hi]. exists i. left. rewrite fold_lower. exact Hi.
  - destruct (mem (lower s) NAMES_SHORT) eqn:E2.
    + left. apply mem_nth in E2 as [i Hi]. exists i. right. rewrite fold_lower. exact Hi.
    + right. split.
      * intros i [H|H]; rewrite fold_lower in H; [apply (mem_nth_false _ _ i E1 H)|apply (mem_nth_false _ _ i E2 H)].
      * unfold color_name. now rewrite E1, E2.
Qed.

(** ** hex *)
Definition plainb (c : ascii) : bool := negb (is_space c) && negb (Ascii.eqb c "+") && negb (Ascii.eqb c "-").
Lemma plainb_iff c : plain c <-> plainb c = true.
Proof.
  unfold plain, plainb. rewrite not_white. destruct (is_space c); cbn; [split; [intros [? _]; discriminate|discriminate]|].
  destruct (Ascii.eqb_spec c "+"); cbn; [split; [tauto|discriminate]|].
  destruct (Ascii.eqb_spec c "-"); cbn; [split; [tauto|discriminate]|]. tauto.
Qed.
Definition pair_val (a b : ascii) : res Z :=
  match hex_digit a, hex_digit b with Some x, Some y => Ok (16 * x + y) | _, _ => Err ValueError end.
Lemma hex_not_underscore : hex_digit "_"%char = None. Proof. reflexivity. Qed.
Lemma digits2 a b : plain a -> plain b -> digits (String a (String b "")) 0 false = pair_val a b.
Proof.
  intros (Sa & _) (Sb & _). rewrite not_white in Sa, Sb. cbn [digits]. unfold pair_val.
  destruct (hex_digit a) as [x|] eqn:Ea.
  - destruct (hex_digit b) as [y|]; [do 2 f_equal|rewrite Sb; cbn; destruct (Ascii.eqb b "_"); reflexivity].
  - cbn [andb]. destruct (Ascii.eqb a "_"); reflexivity.
Qed.
Lemma hex_x x : (Ascii.eqb x "x" || Ascii.eqb x "X")%bool = true -> hex_digit x = None.
Proof.
  intros H. apply orb_prop in H as [H|H]; apply Ascii.eqb_eq in H; subst x; reflexivity.
Qed.
Lemma unsigned2 a b : plain a -> plain b -> unsigned16 (String a (String b "")) = pair_val a b.
Proof.
  intros Ha Hb. destruct (Ascii.eqb_spec a "0") as [->|N].
  - cbn [unsigned16]. destruct (Ascii.eqb b "x" || Ascii.eqb b "X")%bool eqn:E; [|exact (digits2 _ _ Ha Hb)].
    unfold pair_val. rewrite (hex_x _ E). reflexivity.
  - rewrite <- (digits2 a b Ha Hb). unfold unsigned16.
    destruct a as [[] [] [] [] [] [] [] []]; try reflexivity. now elim N.
Qed.
Lemma int16_pair a b : plain a -> plain b -> int16 (String a (String b "")) = pair_val a b.
Proof.
  intros Ha Hb. rewrite <- (unsigned2 a b Ha Hb). destruct Ha as (Sa & Np & Nm). rewrite not_white in Sa. unfold int16. cbn [lstrip]. rewrite Sa.
  destruct (Ascii.eqb_spec a "-"); [tauto|]. destruct (Ascii.eqb_spec a "+"); [tauto|]. reflexivity.
Qed.
Lemma hex_plain c z : hex_digit c = Some z -> plain c.
Proof.
  intros H. apply plainb_iff.
  pose proof (all_ascii (fun c => implb (match hex_digit c with Some _ => true | None => false end) (plainb c)) ltac:(vm_compute; reflexivity) c) as G.
  cbn beta in G. now rewrite H in G.
Qed.
Lemma hex_iff c : (forall n, hexval c n -> hex_digit c = Some (Z.of_nat n)) /\
  (forall z, hex_digit c = Some z -> exists n, hexval c n /\ z = Z.of_nat n).
Proof.
  assert (G : (match hex_digit c with
               | Some z => (0 <=? z) && (z <? 16) && match nth_error (list_ascii_of_string "0123456789abcdef") (Z.to_nat z) with Some d => Ascii.eqb d (lower_ascii c) | None => false end
               | None => negb (existsb (fun d => Ascii.eqb d (lower_ascii c)) (list_ascii_of_string "0123456789abcdef"))
               end) = true).
  { refine (all_ascii (fun c => match hex_digit c with
               | Some z => (0 <=? z) && (z <? 16) && match nth_error (list_ascii_of_string "0123456789abcdef") (Z.to_nat z) with Some d => Ascii.eqb d (lower_ascii c) | None => false end
               | None => negb (existsb (fun d => Ascii.eqb d (lower_ascii c)) (list_ascii_of_string "0123456789abcdef"))
               end) _ c). vm_compute. reflexivity. }
  assert (ND : NoDup (list_ascii_of_string "0123456789abcdef")).
  { cbn. repeat (constructor; [cbn; intuition discriminate|]). constructor. }
  split.
  - intros n Hn. unfold hexval in Hn. rewrite small_lower in Hn. destruct (hex_digit c) as [z|].
    + apply andb_prop in G as [G G2]. apply andb_prop in G as [G0 G1]. apply Z.leb_le in G0. apply Z.ltb_lt in G1.
      destruct (nth_error _ (Z.to_nat z)) as [d|] eqn:Ed; [|discriminate]. apply Ascii.eqb_eq in G2. subst d.
      f_equal. assert (n = Z.to_nat z); [|lia]. eapply (proj1 (NoDup_nth_error _) ND).
      * apply nth_error_Some. congruence.
      * congruence.
    + exfalso. apply nth_error_In in Hn. apply negb_true_iff in G. assert (T : existsb (fun d => Ascii.eqb d (lower_ascii c)) (list_ascii_of_string "0123456789abcdef") = true); [|congruence].
      apply existsb_exists. eexists. split; [exact Hn|]. apply Ascii.eqb_refl.
  - intros z Hz. rewrite Hz in G. apply andb_prop in G as [G G2]. apply andb_prop in G as [G0 G1]. apply Z.leb_le in G0.
    destruct (nth_error _ (Z.to_nat z)) as [d|] eqn:Ed; [|discriminate]. apply Ascii.eqb_eq in G2. subst d.
    exists (Z.to_nat z). split; [unfold hexval; rewrite small_lower; exact Ed|lia].
Qed.

(** ** the three control sequence functions *)
Definition ctrl (sch : scheme) : pyv -> bool -> res string :=
  match sch with S4 => ctrl_4bits | S8 => ctrl_8bits | S24 => ctrl_24bits end.

Lemma sgr1 a : sgr [a] = CSI ++ dec a ++ "m". Proof. reflexivity. Qed.
Lemma sgr3 a b c : sgr [a; b; c] = CSI ++ dec a ++ ";" ++ dec b ++ ";" ++ dec c ++ "m".
Proof. unfold sgr. cbn [map String.concat]. rewrite !sapp_assoc. reflexivity. Qed.
Lemma sgr5 a b c d e : sgr [a; b; c; d; e] = CSI ++ dec a ++ ";" ++ dec b ++ ";" ++ dec c ++ ";" ++ dec d ++ ";" ++ dec e ++ "m".
Proof. unfold sgr. cbn [map String.concat]. rewrite !sapp_assoc. reflexivity. Qed.
Lemma dec_base fg : dec (base fg) = (if fg then "38" else "48"). Proof. now destruct fg. Qed.

Lemma range_true a b z : a <= z < b -> in_range a b (VInt z) = true.
Proof. intros H. unfold in_range. cbn. rewrite (proj2 (Z.leb_le a z)), (proj2 (Z.ltb_lt z b)) by lia. reflexivity. Qed.
Lemma range_iff a b z : in_range a b (VInt z) = true <-> a <= z < b.
Proof. unfold in_range. cbn. rewrite andb_true_iff, Z.leb_le, Z.ltb_lt. tauto. Qed.
Lemma hash_named c r i : named (String "#" (String c r)) i -> False.
Proof.
  unfold named. rewrite fold_lower. cbn [lower]. change (lower_ascii "#") with "#"%char.
  do 8 (destruct i as [|i]; [intros [H|H]; discriminate|]). destruct i; intros [H|H]; discriminate.
Qed.

Lemma denotes_ok sch fg v codes : denotes sch fg v codes -> ctrl sch v fg = Ok (sgr codes).
Proof.
  destruct 1 as [sch fg|z H|z H|fg s i H|fg z H|fg s i H|fg r g b Hr Hg Hb|fg s i H|fg c1 c2 c3 c4 c5 c6 n1 n2 n3 n4 n5 n6 H1 H2 H3 H4 H5 H6];
    cbn [ctrl].
  - destruct sch; reflexivity.
  - unfold ctrl_4bits. destruct H; [rewrite range_true by lia|rewrite (range_true 90 98) by lia; rewrite orb_true_r]; reflexivity.
  - unfold ctrl_4bits. destruct H; [rewrite range_true by lia|rewrite (range_true 100 108) by lia; rewrite orb_true_r]; reflexivity.
  - apply named_name in H as [E L]. unfold ctrl_4bits. rewrite E. cbn [bind].
    do 8 (destruct i as [|i]; [destruct fg; reflexivity|]). lia.
  - unfold byte in H. unfold ctrl_8bits. rewrite range_true by lia. rewrite sgr3, dec_base. reflexivity.
  - apply named_name in H as [E L]. unfold ctrl_8bits. rewrite E. cbn [bind].
    do 8 (destruct i as [|i]; [destruct fg; reflexivity|]). lia.
  - unfold byte in *. unfold ctrl_24bits. rewrite !range_true by lia. rewrite sgr5, dec_base. reflexivity.
  - unfold ctrl_24bits. destruct (prefix "#" s && Nat.eqb (String.length s) 7) eqn:E0.
    { exfalso. apply andb_prop in E0 as [E0 E1]. destruct s as [|c [|c' s]]; try discriminate.
      cbn [prefix] in E0. destruct (ascii_dec "#" c) as [<-|]; [|discriminate]. eapply hash_named; eauto. }
    apply named_name in H as [E L]. rewrite E. cbn [bind].
    do 8 (destruct i as [|i]; [destruct fg; reflexivity|]). lia.
  - apply (proj1 (hex_iff _)) in H1, H2, H3, H4, H5, H6.
    unfold ctrl_24bits. cbn [prefix String.length Nat.eqb andb substring]. destruct (ascii_dec "#" "#") as [_|]; [|congruence].
    rewrite !int16_pair by (eapply hex_plain; eassumption). unfold pair_val. rewrite H1, H2, H3, H4, H5, H6. cbn [bind].
    rewrite sgr5, dec_base. reflexivity.
Qed.

Lemma documented_cases sch fg v : documented sch v ->
  (exists codes, denotes sch fg v codes) \/ ((forall codes, ~ denotes sch fg v codes) /\ ctrl sch v fg = Err ValueError).
Proof.
  intros D. destruct sch, v as [|s|z|b|z|l|]; try contradiction; try (left; eexists; constructor; fail).
  - destruct (name_cases s) as [[i Hi]|[Hn E]]; [left; eexists; econstructor; eauto|right].
    split; [intros codes H; inversion H; subst; eapply Hn; eauto|]. cbn [ctrl]. unfold ctrl_4bits. now rewrite E.
  - destruct (ctrl_4bits (VInt z) fg) as [q|e] eqn:E; unfold ctrl_4bits in E.
    + left. destruct fg.
      * destruct (in_range 30 38 (VInt z) || in_range 90 98 (VInt z)) eqn:R; [|discriminate].
        apply orb_prop in R. rewrite !range_iff in R. exists [z]. constructor. lia.
      * destruct (in_range 40 48 (VInt z) || in_range 100 108 (VInt z)) eqn:R; [|discriminate].
        apply orb_prop in R. rewrite !range_iff in R. exists [z]. constructor. lia.
    + right. cbn [ctrl]. unfold ctrl_4bits. split.
      * intros codes H. apply denotes_ok in H. cbn [ctrl] in H. unfold ctrl_4bits in H. rewrite E in H. discriminate.
      * rewrite E. destruct fg; destruct (_ || _) in E; congruence.
  - destruct (name_cases s) as [[i Hi]|[Hn E]]; [left; eexists; econstructor; eauto|right].
    split; [intros codes H; inversion H; subst; eapply Hn; eauto|]. cbn [ctrl]. unfold ctrl_8bits. now rewrite E.
  - destruct (in_range 0 256 (VInt z)) eqn:R.
    + left. apply range_iff in R. eexists. constructor. unfold byte. lia.
    + right. cbn [ctrl]. unfold ctrl_8bits. rewrite R. split; auto.
      intros codes H. inversion H; subst. unfold byte in *. rewrite range_true in R by lia. discriminate.
  - cbn [documented] in D. cbn [ctrl]. unfold ctrl_24bits.
    destruct (prefix "#" s && Nat.eqb (String.length s) 7) eqn:E0.
    + apply andb_prop in E0 as [E0 E1]. apply Nat.eqb_eq in E1.
      destruct s as [|c0 [|c1 [|c2 [|c3 [|c4 [|c5 [|c6 [|c7 s]]]]]]]]; try discriminate.
      cbn [prefix] in E0. destruct (ascii_dec "#" c0) as [<-|]; [|discriminate]. cbn [substring].
      cbn [list_ascii_of_string] in D.
      repeat match goal with D : Forall plain (_ :: _) |- _ => let PL := fresh "PL" in apply Forall_cons_iff in D as [PL D] end.
      rewrite !int16_pair by assumption.
      assert (Cs : forall c, (exists n, hexval c n) \/ hex_digit c = None).
      { intros c. destruct (hex_digit c) eqn:E; auto. left. apply (proj2 (hex_iff c)) in E as (n & Hn & _). eauto. }
      assert (Bad : forall codes, (hex_digit c1 = None \/ hex_digit c2 = None \/ hex_digit c3 = None \/ hex_digit c4 = None \/ hex_digit c5 = None \/ hex_digit c6 = None) ->
         ~ denotes S24 fg (VStr (String "#" (String c1 (String c2 (String c3 (String c4 (String c5 (String c6 "")))))))) codes).
      { intros codes Hb H'. inversion H'; subst.
        - eapply hash_named; eauto.
        - repeat match goal with X : hexval _ _ |- _ => apply (proj1 (hex_iff _)) in X end. intuition congruence. }
      destruct (Cs c1) as [[n1 H1]|N1]; [|right; split; [intros; apply Bad; auto|unfold pair_val; rewrite N1; reflexivity]].
      destruct (Cs c2) as [[n2 H2]|N2]; [|right; split; [intros; apply Bad; auto|unfold pair_val; rewrite N2; destruct (hex_digit c1); reflexivity]].
      assert (P1 : pair_val c1 c2 = Ok (16 * Z.of_nat n1 + Z.of_nat n2)) by (unfold pair_val; rewrite (proj1 (hex_iff _) _ H1), (proj1 (hex_iff _) _ H2); reflexivity).
      destruct (Cs c3) as [[n3 H3]|N3]; [|right; split; [intros; apply Bad; auto 10|rewrite P1; unfold pair_val; rewrite N3; reflexivity]].
      destruct (Cs c4) as [[n4 H4]|N4]; [|right; split; [intros; apply Bad; auto 10|rewrite P1; unfold pair_val; rewrite N4; destruct (hex_digit c3); reflexivity]].
      assert (P2 : pair_val c3 c4 = Ok (16 * Z.of_nat n3 + Z.of_nat n4)) by (unfold pair_val; rewrite (proj1 (hex_iff _) _ H3), (proj1 (hex_iff _) _ H4); reflexivity).
      destruct (Cs c5) as [[n5 H5]|N5]; [|right; split; [intros; apply Bad; auto 10|rewrite P1, P2; unfold pair_val; rewrite N5; reflexivity]].
      destruct (Cs c6) as [[n6 H6]|N6]; [|right; split; [intros; apply Bad; auto 10|rewrite P1, P2; unfold pair_val; rewrite N6; destruct (hex_digit c5); reflexivity]].
      left. eexists. eapply D_24_hex; eauto.
    + destruct (name_cases s) as [[i Hi]|[Hn E]]; [left; eexists; econstructor; eauto|right].
      split; [|now rewrite E]. intros codes H. inversion H; subst; [eapply Hn; eauto|]. discriminate E0.
  - cbn [documented] in D.
    destruct l as [|[|s1|r|b1|z1|l1|] [|[|s2|g|b2|z2|l2|] [|[|s3|b|b3|z3|l3|] [|x l]]]]; try contradiction.
    cbn [ctrl]. unfold ctrl_24bits. destruct (in_range 0 256 (VInt r) && in_range 0 256 (VInt g) && in_range 0 256 (VInt b)) eqn:R.
    + left. apply andb_prop in R as [R R3]. apply andb_prop in R as [R1 R2]. apply range_iff in R1, R2, R3.
      eexists. constructor; unfold byte; lia.
    + right. split; auto. intros codes H. inversion H; subst. unfold byte in *. rewrite !range_true in R by lia. discriminate.
Qed.

(** ** coloring *)
Lemma coloring_scheme s fg bg bold v sch : is_scheme v sch ->
  coloring s fg bg bold v =
  bind (ctrl sch fg true) (fun f => bind (ctrl sch bg false) (fun b =>
    Ok ((f ++ b ++ (if bold then CSI ++ "1m" else "")) ++ s ++ RESET))).
Proof. destruct sch; cbn [is_scheme ctrl]; [intros ->|intros ->|intros [E|E]; rewrite E]; reflexivity. Qed.

Lemma ctrl_errors sch v fg e : ctrl sch v fg = Err e -> e = ValueError.
Proof.
  assert (N : forall s, exists r, color_name s = r /\ (r = Err ValueError \/ exists i, (i < 8)%nat /\ r = Ok (nth i NAMES_LONG ""))).
  { intros s. exists (color_name s). split; auto. destruct (name_cases s) as [[i Hi]|[_ E]]; auto.
    apply named_name in Hi as [E L]. right. eauto. }
  assert (I16 : forall s e, int16 s = Err e -> e = ValueError).
  { assert (Dg : forall s acc p e, digits s acc p = Err e -> e = ValueError).
    { induction s as [|c r IH]; intros acc p e0; cbn [digits].
      - destruct p; congruence.
      - destruct (hex_digit c); eauto. destruct (Ascii.eqb c "_"); [destruct p; [eauto|congruence]|].
        destruct (_ && _); congruence. }
    assert (U : forall s e, unsigned16 s = Err e -> e = ValueError).
    { intros s e0 H. unfold unsigned16 in H. repeat match type of H with context[match ?x with _ => _ end] => destruct x end; try congruence; eauto. }
    intros s e0 H. unfold int16 in H. destruct (lstrip s) as [|c r]; [congruence|].
    destruct (Ascii.eqb c "-"). { destruct (unsigned16 r) eqn:E; [discriminate|]. cbn in H. injection H as <-. eauto. }
    destruct (Ascii.eqb c "+"); eauto. }
  destruct sch; cbn [ctrl].
  - unfold ctrl_4bits. destruct v as [|s|z|b|z|l|]; try discriminate.
    + destruct (N s) as (r & -> & [->|(i & L & ->)]); cbn [bind]; [congruence|].
      do 8 (destruct i as [|i]; [destruct fg; discriminate|]). lia.
    + destruct fg; destruct (_ || _); congruence.
    + destruct fg; destruct (_ || _); congruence.
  - unfold ctrl_8bits. destruct v as [|s|z|b|z|l|]; try discriminate.
    + destruct (N s) as (r & -> & [->|(i & L & ->)]); cbn [bind]; [congruence|].
      do 8 (destruct i as [|i]; [destruct fg; discriminate|]). lia.
    + destruct (in_range _ _ _); congruence.
    + destruct (in_range _ _ _); congruence.
  - unfold ctrl_24bits. destruct v as [|s|z|b|z|l|]; try discriminate.
    + destruct (_ && _).
      * destruct (int16 _) eqn:E1; cbn [bind]; [|intros [= <-]; eauto].
        destruct (int16 (substring 3 2 s)) eqn:E2; cbn [bind]; [|intros [= <-]; eauto].
        destruct (int16 (substring 5 2 s)) eqn:E3; cbn [bind]; [discriminate|intros [= <-]; eauto].
      * destruct (N s) as (r & -> & [->|(i & L & ->)]); cbn [bind]; [congruence|].
        do 8 (destruct i as [|i]; [destruct fg; discriminate|]). lia.
    + destruct l as [|r [|g [|b [|x l]]]]; try discriminate. destruct (_ && _); congruence.
Qed.
