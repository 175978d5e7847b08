(** Proofs for C60: unique decoding of the printed forms. *)
From Coq Require Import String List ZArith NArith QArith Bool Ascii Lia.
From Verif Require Import Py Float64_Model State_Model ColorPrint_Model Text_Model Text_Spec Text_Proofs Text_Proofs2 Bond_Model Hilbert_Model Text2_Model Text2_Spec.
Import ListNotations.
Local Open Scope string_scope.

Fixpoint pyv_ind' (P : Hilbert_Model.pyv -> Prop) (Hi : forall z, P (PInt z)) (Hf : forall q, P (PFlt q)) (Ht : forall l, Forall P l -> P (PTup l)) (Hl : forall l, P (PList l)) (Hs : forall l, P (PSet l)) (Ho : P POther)
  (v : Hilbert_Model.pyv) : P v :=
  match v with
  | PInt z => Hi z | PFlt q => Hf q | PList l => Hl l | PSet l => Hs l | POther => Ho
  | PTup l => Ht l ((fix go (l : list Hilbert_Model.pyv) : Forall P l := match l with [] => Forall_nil P | x :: r => Forall_cons x (pyv_ind' P Hi Hf Ht Hl Hs Ho x) (go r) end) l)
  end.

Definition stop (x : string) : Prop := starts (inb ",)") x.
Lemma dec_stop z : free (inb ",)") (dec z). Proof. apply dec_no. intros c. cbn. destruct (Ascii.eqb_spec c ",") as [->|]; [reflexivity|]. destruct (Ascii.eqb_spec c ")") as [->|]; [reflexivity|discriminate]. Qed.
Lemma tuple_open ts : exists r, tuple_text ts = String "(" r.
Proof. destruct ts as [|t [|u ts]]; cbn; eauto. Qed.
Lemma source_head t v : source t v -> exists c r, t = String c r /\ (c = "("%char \/ numeral c = true).
Proof.
  intros H. destruct H as [z|ts l _].
  - destruct (dec_starts z) as (c & r & E & N). eauto.
  - destruct (tuple_open ts) as (r & ->). eauto.
Qed.
Lemma concat_cons t r : String.concat ", " (t :: r) = t ++ match r with [] => "" | _ => ", " ++ String.concat ", " r end.
Proof. destruct r; cbn; [now rewrite sapp_E|reflexivity]. Qed.

Section Cut.
  Let P (v : Hilbert_Model.pyv) : Prop := forall t t' v' x x', source t v -> source t' v' -> stop x -> stop x' -> t ++ x = t' ++ x' -> v = v' /\ t = t' /\ x = x'.
  Lemma items_cut l : Forall P l -> forall ts ts' l' x x', Forall2 source ts l -> Forall2 source ts' l' -> ts <> [] -> ts' <> [] ->
    String.concat ", " ts ++ String ")" x = String.concat ", " ts' ++ String ")" x' -> l = l' /\ ts = ts' /\ x = x'.
  Proof.
    induction 1 as [|v l Pv Pl IH]; intros ts ts' l' x x' F F' N N' E.
    { inversion F; subst. contradiction. }
    inversion F as [|t ? r ? St Fr]; subst. inversion F' as [|t' v' r' l2 St' Fr']; subst; [contradiction|].
    rewrite !concat_cons, !sapp_A in E. apply (Pv t t' v' _ _ St St') in E as (<- & <- & E).
    - destruct r as [|u r].
      + inversion Fr; subst. destruct r' as [|u' r']; [inversion Fr'; subst; cbn in E; injection E as <-; auto|]. cbn in E. discriminate.
      + destruct r' as [|u' r']; [cbn in E; discriminate|]. rewrite !sapp_A in E. apply sapp_cancel in E.
        destruct (IH (u :: r) (u' :: r') l2 x x' Fr Fr' ltac:(discriminate) ltac:(discriminate) E) as (<- & E2 & <-). rewrite E2. auto.
    - destruct r; reflexivity.
    - destruct r'; reflexivity.
  Qed.
  Lemma tuple_cut l : Forall P l -> P (PTup l).
  Proof.
    intros Pl t t' v' x x' St St' Sx Sx' E. inversion St as [|ts ? F]; subst. destruct St' as [z|ts' l' F'].
    { destruct (tuple_open ts) as (r & E1). destruct (dec_starts z) as (c & r' & E2 & N). rewrite E1, E2 in E. cbn in E. injection E as <- _. discriminate N. }
    assert (A : forall u v, source u v -> forall r, u ++ r = String ")" x' -> False).
    { intros u v Su r Er. destruct (source_head u v Su) as (c & w & -> & Hc). cbn in Er. injection Er as -> _. destruct Hc; discriminate. }
    assert (A' : forall u v, source u v -> forall r, u ++ r = String ")" x -> False).
    { intros u v Su r Er. destruct (source_head u v Su) as (c & w & -> & Hc). cbn in Er. injection Er as -> _. destruct Hc; discriminate. }
    assert (Single : forall u v ts l x x', Forall2 source (u :: ts) (v :: l) -> P v -> ts <> [] -> forall u' v', source u' v' -> u' ++ ",)" ++ x' = String.concat ", " (u :: ts) ++ String ")" x -> False).
    { intros u v ts0 l0 y y' F0 Pv N0 u' v' Su' Er. inversion F0 as [|? ? ? ? Su Fr]; subst. rewrite concat_cons, sapp_A in Er. symmetry in Er.
      apply (Pv u u' v' _ _ Su Su') in Er as (_ & _ & Er); [|destruct ts0; [contradiction|reflexivity]|reflexivity]. destruct ts0; [contradiction|]. rewrite sapp_A in Er. discriminate Er. }
    assert (Single' : forall u v ts l x x', Forall2 source (u :: ts) (v :: l) -> ts <> [] -> forall u' v', source u' v' -> P v' -> u' ++ ",)" ++ x' = String.concat ", " (u :: ts) ++ String ")" x -> False).
    { intros u v ts0 l0 y y' F0 N0 u' v' Su' Pv Er. inversion F0 as [|? ? ? ? Su Fr]; subst. rewrite concat_cons, sapp_A in Er.
      apply (Pv u' u v _ _ Su' Su) in Er as (_ & _ & Er); [|reflexivity|destruct ts0; [contradiction|reflexivity]]. destruct ts0; [contradiction|]. rewrite sapp_A in Er. discriminate Er. }
    destruct ts as [|u [|u2 ts]].
    - inversion F; subst. destruct ts' as [|w [|w2 ts']].
      + inversion F'; subst. cbn in E. injection E as <-. auto.
      + exfalso. inversion F' as [|? ? ? ? Sw _]; subst. cbn in E. injection E as E. symmetry in E. rewrite sapp_A in E. exact (A' w _ Sw _ E).
      + exfalso. inversion F' as [|? ? ? ? Sw _]; subst. unfold tuple_text in E. rewrite concat_cons in E. cbn [append] in E. injection E as E. symmetry in E. rewrite !sapp_A in E. exact (A' w _ Sw _ E).
    - inversion F as [|? v ? ? Su Fr]; subst. inversion Fr; subst. destruct ts' as [|w [|w2 ts']].
      + exfalso. cbn in E. injection E as E. rewrite sapp_A in E. exact (A u _ Su _ E).
      + inversion F' as [|? v' ? ? Sw Fr']; subst. inversion Fr'; subst. cbn in E. injection E as E. rewrite !sapp_A in E. inversion Pl as [|? ? Pv _]; subst.
        apply (Pv u w v' _ _ Su Sw) in E as (<- & <- & E); [|reflexivity|reflexivity]. cbn in E. injection E as <-. auto.
      + exfalso. inversion Pl as [|? ? Pv _]; subst. unfold tuple_text in E. rewrite !sapp_A in E. apply (sapp_cancel "(") in E. cbn [append] in E. inversion F' as [|? v' ? l2 Sw Fr']; subst.
        apply (Single' w v' (w2 :: ts') l2 x' x F' ltac:(discriminate) u v Su Pv). exact E.
    - destruct ts' as [|w [|w2 ts']].
      + exfalso. inversion F as [|? ? ? ? Su _]; subst. unfold tuple_text in E. rewrite concat_cons in E. cbn [append] in E. injection E as E. rewrite !sapp_A in E. exact (A u _ Su _ E).
      + exfalso. inversion F as [|? v ? l2 Su Fr]; subst. inversion Pl as [|? ? Pv _]; subst. inversion F' as [|? v' ? ? Sw Fr']; subst. unfold tuple_text in E. rewrite !sapp_A in E. apply (sapp_cancel "(") in E. symmetry in E.
        apply (Single u v (u2 :: ts) l2 x x' F Pv ltac:(discriminate) w v' Sw). exact E.
      + unfold tuple_text in E. rewrite !sapp_A in E. apply (sapp_cancel "(") in E.
        destruct (items_cut l Pl _ _ _ x x' F F' ltac:(discriminate) ltac:(discriminate) E) as (<- & E2 & <-). rewrite E2. auto.
  Qed.
  Lemma source_cut v : P v.
  Proof.
    apply pyv_ind'; try (intros; intros t t' v' x x' St; now inversion St).
    - intros z t t' v' x x' St St' Sx Sx' E. inversion St; subst. destruct St' as [z'|ts' l' F'].
      + destruct (cut (inb ",)") _ _ _ _ (dec_stop z) (dec_stop z') Sx Sx' E) as [D <-]. apply dec_inj in D as <-. auto.
      + exfalso. destruct (tuple_open ts') as (r & E1). destruct (dec_starts z) as (c & r' & E2 & N). rewrite E1, E2 in E. cbn in E. injection E as -> _. discriminate N.
    - apply tuple_cut.
  Qed.
End Cut.
Lemma source_unique t v v' : source t v -> source t v' -> v = v'.
Proof. intros A B. assert (S : stop ")") by reflexivity. now destruct (source_cut v t t v' ")" ")" A B S S eq_refl). Qed.
Lemma join_concat l : join ", " l = String.concat ", " l.
Proof. induction l as [|x l IH]; [reflexivity|]. rewrite join_cons, concat_cons. destruct l; [reflexivity|]. now rewrite IH. Qed.
Lemma tuple_repr_text l : tuple_repr l = tuple_text l.
Proof. destruct l as [|x [|y l]]; [reflexivity|reflexivity|]. unfold tuple_repr, tuple_text. now rewrite join_concat. Qed.

(** ** spaces *)
Definition states_val (l : list N) : Hilbert_Model.pyv := PTup (map (fun n => PInt (Z.of_N n)) l).
Lemma states_source l : source (states_repr l) (states_val l).
Proof. unfold states_repr. rewrite tuple_repr_text. constructor. induction l; constructor; [constructor|assumption]. Qed.
Lemma nonneg_ints_val l : nonneg_ints (map (fun n => PInt (Z.of_N n)) l) = Some l.
Proof. induction l as [|n l IH]; [reflexivity|]. cbn [map nonneg_ints fold_right]. unfold nonneg_ints in IH. rewrite IH. rewrite (proj2 (Z.leb_le 0 (Z.of_N n)) (N2Z.is_nonneg n)), N2Z.id. reflexivity. Qed.
Lemma states_again l : l <> [] -> valid_states_collection (states_val l) = Some l.
Proof. intros N. unfold valid_states_collection, states_val. destruct l as [|n l]; [contradiction|]. apply (nonneg_ints_val (n :: l)). Qed.
Lemma states_ne v l : valid_states_collection v = Some l -> l <> [].
Proof.
  intros H. assert (G : forall m, match m with [] => None | _ => nonneg_ints m end = Some l -> l <> []).
  { intros [|x m] E; [discriminate|]. cbn in E. destruct x; try discriminate. destruct (nonneg_ints m) eqn:Em; unfold nonneg_ints in Em; rewrite Em in E; [|discriminate]. destruct (0 <=? z)%Z; [|discriminate]. injection E as <-. discriminate. }
  destruct v; try discriminate; now apply G in H.
Qed.
Lemma range_ne n : (0 < n)%Z -> range_states n <> [].
Proof. intros H E. apply (f_equal (@List.length N)) in E. unfold range_states in E. rewrite map_length, seq_length in E. cbn in E. lia. Qed.
Lemma range_len n : (0 < n)%Z -> Z.of_nat (List.length (range_states n)) = n.
Proof. intros H. unfold range_states. rewrite map_length, seq_length. lia. Qed.

Lemma simple_again st nu s : make_simple st nu = Ok s -> make_simple (states_val (ss_states s)) (PInt (ss_number s)) = Ok s.
Proof.
  intros H. assert (G : ss_states s <> [] /\ (Z.of_nat (List.length (ss_states s)) <? ss_number s)%Z = false).
  { unfold make_simple in H. destruct (match st with PInt n => if (0 <? n)%Z then Some (range_states n) else None | _ => valid_states_collection st end) as [l|] eqn:E; [|discriminate].
    destruct nu; try discriminate. destruct (Z.of_nat (List.length l) <? z)%Z eqn:El; [discriminate|]. injection H as <-. split; [|exact El]. cbn. destruct st; try (eapply states_ne; exact E).
    destruct (0 <? z0)%Z eqn:Ez; [|discriminate]. injection E as <-. apply range_ne. lia. }
  destruct G as [N L]. unfold make_simple. rewrite (states_again _ N). unfold states_val at 1. rewrite L. destruct s; reflexivity.
Qed.
Definition spec_val (x : list N * pnum) : Hilbert_Model.pyv := PTup [states_val (fst x); match snd x with NumI z => PInt z | NumF q => PFlt q end].
Lemma ge_again n p q : ge_pnum n p = Ok (Some q) -> ge_pnum n (match q with NumI z => PInt z | NumF r => PFlt r end) = Ok (Some q).
Proof. destruct p; cbn; try discriminate; intros H; injection H as H; [destruct (z <=? n)%Z eqn:E|destruct (Qle_bool q0 (inject_Z n)) eqn:E]; try discriminate; injection H as <-; cbn; now rewrite E. Qed.
Lemma pair_again st pn x : pair_preprocess st pn = Ok x -> pair_preprocess (states_val (fst x)) (match snd x with NumI z => PInt z | NumF q => PFlt q end) = Ok x.
Proof.
  intros H. assert (G : fst x <> [] /\ exists p, ge_pnum (Z.of_nat (List.length (fst x))) p = Ok (Some (snd x))).
  { unfold pair_preprocess in H. assert (K : match valid_states_collection st with None => Err ValueError | Some l => match ge_pnum (Z.of_nat (List.length l)) pn with Err e => Err e | Ok (Some p) => Ok (l, p) | Ok None => Err ValueError end end = Ok x ->
      fst x <> [] /\ exists p, ge_pnum (Z.of_nat (List.length (fst x))) p = Ok (Some (snd x))).
    { destruct (valid_states_collection st) as [l|] eqn:E; [|discriminate]. destruct (ge_pnum _ pn) as [[p|]|] eqn:Eg; try discriminate. intros X. injection X as <-. split; [eapply states_ne; exact E|exists pn; exact Eg]. }
    destruct st; try (apply K; exact H). destruct (0 <? z)%Z eqn:Ez; [|discriminate]. destruct (ge_pnum z pn) as [[p|]|] eqn:Eg; try discriminate. injection H as <-. cbn [fst snd].
    split; [apply range_ne; lia|]. exists pn. rewrite range_len by lia. exact Eg. }
  destruct G as [N (p & Eg)]. unfold pair_preprocess. rewrite (states_again _ N). unfold states_val at 1. rewrite (ge_again _ _ _ Eg). now destruct x.
Qed.
Lemma preprocess_again v x : preprocess v = Ok x -> preprocess (spec_val x) = Ok x.
Proof.
  intros H. unfold spec_val. cbn [preprocess]. assert (K : forall st pn, pair_preprocess st pn = Ok x -> pair_preprocess (states_val (fst x)) (match snd x with NumI z => PInt z | NumF q => PFlt q end) = Ok x) by (intros st pn; apply pair_again).
  destruct v; try discriminate; cbn in H.
  - apply (K (PInt z) (PInt (-1))). cbn. destruct (0 <? z)%Z eqn:E; [|discriminate]. rewrite (proj2 (Z.leb_le (-1) z) ltac:(lia)). exact H.
  - destruct l as [|a [|b [|]]]; try discriminate. exact (K a b H).
  - destruct l as [|a [|b [|]]]; try discriminate. exact (K a b H).
Qed.
Lemma space_again vs s : make_space vs = Ok s -> make_space (map spec_val s) = Ok s.
Proof.
  unfold make_space. intros H. destruct (mapM preprocess vs) as [specs|] eqn:E; [|discriminate]. cbn in H. destruct (all_disjoint (map fst specs)) eqn:D; [|discriminate]. injection H as ->.
  assert (M : mapM preprocess (map spec_val s) = Ok s).
  { clear D. revert s E. induction vs as [|v vs IH]; intros s E; cbn in E; [injection E as <-; reflexivity|]. destruct (preprocess v) as [x|] eqn:Ev; [|discriminate]. cbn in E.
    destruct (mapM preprocess vs) as [r|]; [|discriminate]. cbn in E. injection E as <-. cbn [map mapM]. rewrite (preprocess_again _ _ Ev). cbn [bind]. now rewrite (IH r eq_refl). }
  rewrite M. cbn. now rewrite D.
Qed.
Lemma spec_source F x : (exists z, snd x = NumI z) -> source (specifier_repr F x) (spec_val x).
Proof.
  intros (z & E). unfold specifier_repr, spec_val. rewrite E, tuple_repr_text. cbn [pnum_repr]. constructor. constructor; [apply states_source|]. constructor; [constructor|constructor].
Qed.

(** ** lines *)
Lemma lines_inj l : forall m, Forall (free (inb newline)) l -> Forall (free (inb newline)) m -> l <> [] -> m <> [] -> join newline l = join newline m -> l = m.
Proof.
  induction l as [|x l IH]; intros m Fl Fm Nl Nm E; [contradiction|]. destruct m as [|y m]; [contradiction|]. inversion Fl as [|? ? Fx Fl']; inversion Fm as [|? ? Fy Fm']; subst.
  rewrite !join_cons in E. destruct l as [|x2 l], m as [|y2 m].
  - rewrite !sapp_E in E. now rewrite E.
  - exfalso. rewrite sapp_E in E. rewrite E, free_app in Fx. destruct Fx as [_ Fx]. cbn in Fx. destruct Fx as [Fx _]. discriminate.
  - exfalso. rewrite sapp_E in E. rewrite <- E, free_app in Fy. destruct Fy as [_ Fy]. cbn in Fy. destruct Fy as [Fy _]. discriminate.
  - apply (cut (inb newline)) in E as [-> E]; auto; try reflexivity. apply sapp_cancel in E. f_equal. apply IH; auto; discriminate.
Qed.
Lemma dec_line z : free (inb newline) (dec z). Proof. apply dec_no. intros c. cbn. destruct (Ascii.eqb_spec c (Ascii false true false true false false false false)) as [->|]; [reflexivity|discriminate]. Qed.
Lemma free_concat p l : p ","%char = false -> p " "%char = false -> Forall (free p) l -> free p (String.concat ", " l).
Proof. intros H1 H2. induction 1 as [|x l Hx _ IH]; [exact I|]. rewrite concat_cons, free_app. split; [exact Hx|]. destruct l; [exact I|]. rewrite free_app. split; [cbn; auto|exact IH]. Qed.
Lemma free_tuple p l : p ","%char = false -> p " "%char = false -> p "("%char = false -> p ")"%char = false -> Forall (free p) l -> free p (tuple_text l).
Proof.
  intros H1 H2 H3 H4 F. pose proof (free_concat p l H1 H2 F) as C. unfold tuple_text. destruct l as [|x [|y l]]; [cbn; auto| |].
  - inversion F; subst. rewrite !free_app. cbn. auto.
  - rewrite !free_app. cbn [free]. auto.
Qed.
Lemma states_line l : free (inb newline) (states_repr l).
Proof. unfold states_repr. rewrite tuple_repr_text. apply free_tuple; try reflexivity. induction l; constructor; [apply dec_line|assumption]. Qed.
Lemma spec_line F x : (exists z, snd x = NumI z) -> free (inb newline) (specifier_repr F x).
Proof. intros (z & E). unfold specifier_repr. rewrite E, tuple_repr_text. apply free_tuple; try reflexivity. constructor; [apply states_line|]. constructor; [apply dec_line|constructor]. Qed.

(** ** rows of a table *)
Lemma pad_spaces c : inb " " c = true -> c = " "%char. Proof. unfold inb. cbn. destruct (Ascii.eqb_spec c " "); [auto|discriminate]. Qed.
Lemma row_short i j a b : (String.length (dec i) < 8)%nat -> (String.length (dec j) < 8)%nat -> pad8 (dec i) ++ a = pad8 (dec j) ++ b -> i = j /\ a = b.
Proof.
  intros Hi Hj E. unfold pad8 in E. rewrite !sapp_A in E.
  assert (FS : forall z, free (inb " ") (dec z)). { intros z. apply dec_no. intros c. cbn. destruct (Ascii.eqb_spec c " ") as [->|]; [reflexivity|discriminate]. }
  apply (cut (inb " ")) in E as [D E]; auto.
  - apply dec_inj in D as <-. apply sapp_cancel in E. auto.
  - destruct (8 - String.length (dec i))%nat eqn:X; [lia|reflexivity].
  - destruct (8 - String.length (dec j))%nat eqn:X; [lia|reflexivity].
Qed.
Lemma row_plain i j a b : no_number_first a -> no_number_first b -> pad8 (dec i) ++ a = pad8 (dec j) ++ b -> i = j /\ a = b.
Proof.
  intros Ha Hb E. unfold pad8 in E. rewrite !sapp_A in E.
  assert (S : forall n s, no_number_first s -> starts (fun c => negb (numeral c)) (spaces n ++ s)). { intros [|n] s H; cbn; [|reflexivity]. destruct s; [destruct H|]. cbn in *. now rewrite H. }
  apply (cut (fun c => negb (numeral c))) in E as [D E]; auto.
  - apply dec_inj in D as <-. apply sapp_cancel in E. auto.
  - apply dec_free. intros c H. destruct (numeral c); [discriminate|reflexivity].
  - apply dec_free. intros c H. destruct (numeral c); [discriminate|reflexivity].
Qed.
Lemma spaces_line n : free (inb newline) (spaces n). Proof. induction n; [exact I|]. cbn. auto. Qed.
Lemma join_lines l : has_lines (join newline l) l.
Proof.
  unfold has_lines, join. destruct l as [|x l]; [reflexivity|]. revert x. induction l as [|y l IH]; intros x; [reflexivity|]. cbn [fold_left]. rewrite IH. cbn [String.concat].
  destruct l as [|z l]; [now rewrite ?sapp_A|now rewrite !sapp_A].
Qed.
