(** C54: the text forms of sites, states, operators and terms identify them. *)
From Coq Require Import String List ZArith Bool Ascii Lia.
From Verif Require Import Py GQ Float64_Model IndexTable_Model State_Model State_Spec State_Proofs MatrixRepr_Model
  Particle_Model Particle_Spec Particle_Proofs Particle_Proofs2
  Spin_Model Spin_Spec Spin_Proofs3 ColorPrint_Model Text_Model Text_Spec Text_Proofs Text_Proofs2.
Import ListNotations.
Local Open Scope string_scope.

(** ** LaTeX with a table of sites *)
Lemma table_not_none t : ATable t <> ANone.
Proof. discriminate. Qed.
Lemma table_text objs start tbl s t x y : make_state_table objs start = Ok tbl ->
  (exists i, site_index tbl s = Ok i /\ x = dec i) -> (exists i, site_index tbl t = Ok i /\ y = dec i) ->
  (x = y <-> s_form s = s_form t).
Proof.
  intros Ht (i & Ei & ->) (j & Ej & ->). destruct (site_facts _ _ _ Ht) as (B & _). rewrite <- (B _ _ _ _ Ei Ej).
  split; [apply dec_inj|congruence].
Qed.
Lemma table_latex T tbl nd s x : site_latex T (ATable tbl) nd s = Ok x -> exists i, site_index tbl s = Ok i /\ x = dec i.
Proof. cbn. destruct (site_index tbl s) as [i|]; [|discriminate]. intros [= <-]. eauto. Qed.
(** Two states of the table's sites: same text exactly for same site, same spin
    and, unless the orbit is suppressed, same orbit. *)
Theorem C54_state_latex : forall T zoom objs start tbl nd half sup s t a b,
  make_state_table objs start = Ok tbl -> built_state zoom s -> built_state zoom t ->
  state_latex T zoom (ATable tbl) nd half sup s = Ok a -> state_latex T zoom (ATable tbl) nd half sup t = Ok b ->
  (a = b <-> s_form (st_site s) = s_form (st_site t) /\ st_spin s = st_spin t /\ (sup = false -> st_orbit s = st_orbit t)).
Proof.
  intros T zoom objs start tbl nd half sup s t a b Ht Hs Hb Ea Eb.
  destruct (state_latex_bare _ _ _ _ _ _ _ _ Hs (or_intror (table_not_none _)) Ea) as (x & Ex & Sx & Bx & Ax).
  destruct (state_latex_bare _ _ _ _ _ _ _ _ Hb (or_intror (table_not_none _)) Eb) as (y & Ey & Sy & By & Ay).
  pose proof (table_text _ _ _ _ _ _ _ Ht (table_latex _ _ _ _ _ Ex) (table_latex _ _ _ _ _ Ey)) as X. split.
  - intros ->. rewrite Bx in By. apply bare_inj in By as (E & F & G); auto. rewrite <- X. auto.
  - intros (E & F & G). apply X in E. subst y. rewrite Ax, Ay, F. destruct sup; [reflexivity|]. now rewrite G.
Qed.
Print Assumptions C54_state_latex.
(** A state or site that is not in the table raises what the table raises; in all
    other cases the text exists. *)
Theorem C54_latex_total : forall T zoom arg nd half sup s, built_state zoom s ->
  match arg with
  | ATable tbl =>
      (forall e, site_index tbl (st_site s) = Err e -> state_latex T zoom arg nd half sup s = Err e) /\
      (forall i, site_index tbl (st_site s) = Ok i -> exists a, state_latex T zoom arg nd half sup s = Ok a)
  | _ => exists a, state_latex T zoom arg nd half sup s = Ok a
  end.
Proof.
  intros T zoom arg nd half sup s Hs. destruct (built_again _ _ Hs) as [E _]. unfold state_latex. rewrite E. cbn [bind].
  destruct arg as [|z|tbl]; cbn [site_latex bind].
  - destruct sup; eauto.
  - destruct sup; eauto.
  - split; intros ? ->; cbn [bind]; [reflexivity|]. destruct sup; eauto.
Qed.
Print Assumptions C54_latex_total.
(** Operators: creators and annihilators, with the orbit shown. *)
Theorem C54_aoc_latex : forall T zoom objs start tbl nd half x y a b,
  make_state_table objs start = Ok tbl -> built_state zoom (a_state x) -> built_state zoom (a_state y) ->
  aoc_latex T zoom (ATable tbl) nd half false x = Ok a -> aoc_latex T zoom (ATable tbl) nd half false y = Ok b ->
  (a = b <-> same_op x y).
Proof.
  intros T zoom objs start tbl nd half x y a b Ht Hx Hy Ea Eb.
  destruct (aoc_latex_shape _ _ _ _ _ _ _ _ Hx (or_intror (table_not_none _)) Ea) as (u & Eu & Su & Au & Bu).
  destruct (aoc_latex_shape _ _ _ _ _ _ _ _ Hy (or_intror (table_not_none _)) Eb) as (v & Ev & Sv & Av & Bv).
  pose proof (table_text _ _ _ _ _ _ _ Ht (table_latex _ _ _ _ _ Eu) (table_latex _ _ _ _ _ Ev)) as X. split.
  - intros ->. rewrite Bu in Bv. apply (sapp_cancel "c") in Bv.
    pose proof (bare_free half false u (a_state x) Su) as F1. pose proof (bare_free half false v (a_state y) Sv) as F2.
    apply abody_inj in Bv as [E1 E2]; [|weaken|weaken]. apply bare_inj in E2 as (E3 & E4 & E5); auto.
    split; [exact E1|]. apply X in E3. cbn. auto.
  - intros [E1 (E2 & E3 & E4)]. cbn in E2, E3, E4. apply X in E2. subst v. rewrite Au, Av, E1. unfold bare. rewrite E3, E4. reflexivity.
Qed.
Print Assumptions C54_aoc_latex.
Theorem C54_numop_latex : forall T zoom objs start tbl nd half x y a b,
  make_state_table objs start = Ok tbl -> built_state zoom (n_state x) -> built_state zoom (n_state y) ->
  numop_latex T zoom (ATable tbl) nd half false x = Ok a -> numop_latex T zoom (ATable tbl) nd half false y = Ok b ->
  (a = b <-> same_st (n_state x) (n_state y)).
Proof.
  intros T zoom objs start tbl nd half x y a b Ht Hx Hy Ea Eb. unfold numop_latex in *.
  destruct (state_latex T zoom (ATable tbl) nd half false (n_state x)) as [p|] eqn:Ep; [|discriminate].
  destruct (state_latex T zoom (ATable tbl) nd half false (n_state y)) as [q|] eqn:Eq; [|discriminate].
  cbn [bind] in *. injection Ea as <-. injection Eb as <-.
  destruct (state_latex_bare _ _ _ _ _ _ _ _ Hx (or_intror (table_not_none _)) Ep) as (u & Eu & Su & Bu & Au).
  destruct (state_latex_bare _ _ _ _ _ _ _ _ Hy (or_intror (table_not_none _)) Eq) as (v & Ev & Sv & Bv & Av).
  pose proof (table_text _ _ _ _ _ _ _ Ht (table_latex _ _ _ _ _ Eu) (table_latex _ _ _ _ _ Ev)) as X.
  rewrite Bu, Bv. split.
  - intros H. apply (sapp_cancel "$n_{") in H.
    pose proof (bare_free half false u (n_state x) Su) as F1. pose proof (bare_free half false v (n_state y) Sv) as F2.
    apply (cut (inb "}")) in H; [|weaken|weaken|reflexivity|reflexivity]. destruct H as [H _].
    apply bare_inj in H as (E3 & E4 & E5); auto. apply X in E3. cbn. auto.
  - intros (E2 & E3 & E4). cbn in E2, E3, E4. apply X in E2. subst v. unfold bare. rewrite E3, E4. reflexivity.
Qed.
Print Assumptions C54_numop_latex.
(** Terms: same text exactly for same coefficient text and same operators in
    the same order (the coefficient text has no letter c and no dollar sign:
    true of every int, float and complex). *)
Theorem C54_term_latex : forall T zoom objs start tbl nd half ca cb t u a b,
  make_state_table objs start = Ok tbl -> Forall (fun x => built_state zoom (a_state x)) (t_aocs t) ->
  Forall (fun x => built_state zoom (a_state x)) (t_aocs u) -> none_of "c$" ca -> none_of "c$" cb ->
  pterm_latex T zoom (ATable tbl) nd half false ca t = Ok a -> pterm_latex T zoom (ATable tbl) nd half false cb u = Ok b ->
  (a = b <-> ca = cb /\ Forall2 same_op (t_aocs t) (t_aocs u)).
Proof.
  intros T zoom objs start tbl nd half ca cb t u a b Ht Ft Fu Na Nb Ea Eb. unfold pterm_latex in *.
  destruct (mapM _ (t_aocs t)) as [la|] eqn:La; [|discriminate]. destruct (mapM _ (t_aocs u)) as [lb|] eqn:Lb; [|discriminate].
  cbn [bind] in Ea, Eb.
  set (g := fun (x : aoc) (l : string) => exists w i, l = String "c" w /\ site_index tbl (st_site (a_state x)) = Ok i /\
     w = abody (a_otype x) (bare half false (dec i) (a_state x)) /\ free (inb "c$") w).
  assert (G : forall l ys, Forall (fun x => built_state zoom (a_state x)) l ->
     mapM (fun x => bind (aoc_latex T zoom (ATable tbl) nd half false x) (fun l => Ok (strip_dollar l))) l = Ok ys -> Forall2 g l ys).
  { intros l ys Fl H. apply (mapM_shapes _ g _ _ H). intros x y Ix Ey. rewrite Forall_forall in Fl. specialize (Fl x Ix).
    destruct (aoc_latex T zoom (ATable tbl) nd half false x) as [z|] eqn:Ez; [|discriminate]. cbn [bind] in Ey. injection Ey as <-.
    destruct (aoc_latex_shape _ _ _ _ _ _ _ _ Fl (or_intror (table_not_none _)) Ez) as (w & Ew & Sw & _ & Bw).
    apply table_latex in Ew as (i & Ei & ->). eexists. exists i. split; [exact Bw|]. split; [exact Ei|]. split; [reflexivity|].
    pose proof (bare_free half false (dec i) (a_state x) Sw) as F.
    assert (F' : free (inb "$cS") (abody (a_otype x) (bare half false (dec i) (a_state x)))) by (apply abody_free; weaken). weaken. }
  pose proof (G _ _ Ft La) as Ga. pose proof (G _ _ Fu Lb) as Gb. clear G.
  assert (W : forall l ys, Forall2 g l ys -> exists ws, ys = map (String "c") ws /\ Forall (free (inb "c$")) ws /\
     Forall2 (fun x w => exists i, site_index tbl (st_site (a_state x)) = Ok i /\ w = abody (a_otype x) (bare half false (dec i) (a_state x))) l ws).
  { induction 1 as [|x y l ys (w & i & -> & Ei & Ew & Fw) _ (ws & -> & F & H)].
    - exists []. repeat constructor.
    - exists (w :: ws). split; [reflexivity|]. split; constructor; eauto. }
  destruct (W _ _ Ga) as (wa & -> & Fa & Ha). destruct (W _ _ Gb) as (wb & -> & Fb & Hb). clear W Ga Gb.
  pose proof (term_shape "c" ca wa) as Sa. pose proof (term_shape "c" cb wb) as Sb.
  assert (Ea' : a = "$" ++ ca ++ segs "c" wa ++ "$") by (rewrite <- Sa; now injection Ea). 
  assert (Eb' : b = "$" ++ cb ++ segs "c" wb ++ "$") by (rewrite <- Sb; now injection Eb). clear Ea Eb Sa Sb. subst a b.
  assert (K : forall x y i j, site_index tbl (st_site (a_state x)) = Ok i -> site_index tbl (st_site (a_state y)) = Ok j ->
     (abody (a_otype x) (bare half false (dec i) (a_state x)) = abody (a_otype y) (bare half false (dec j) (a_state y)) <-> same_op x y)).
  { intros x y i j Hi Hj. assert (Si : siteish (dec i)) by (left; eauto). assert (Sj : siteish (dec j)) by (left; eauto).
    pose proof (table_text _ _ _ _ _ _ _ Ht (ex_intro _ i (conj Hi eq_refl)) (ex_intro _ j (conj Hj eq_refl))) as X. split.
    - intros H. pose proof (bare_free half false _ (a_state x) Si) as F1. pose proof (bare_free half false _ (a_state y) Sj) as F2.
      apply abody_inj in H as [E1 E2]; [|weaken|weaken]. apply bare_inj in E2 as (E3 & E4 & E5); auto.
      split; [exact E1|]. apply X in E3. cbn. auto.
    - intros [E1 (E2 & E3 & E4)]. cbn in E2, E3, E4. apply X in E2. rewrite E1, E2. unfold bare. now rewrite E3, E4. }
  split.
  - intros H. apply (sapp_cancel "$") in H. apply seg_inj in H as [E1 E2]; auto; try (now apply none_free); try reflexivity.
    split; [exact E1|]. subst wb. clear -Ha Hb K. revert Hb. generalize (t_aocs u). induction Ha as [|x w l ws (i & Hi & Ew) _ IH]; intros m Hm.
    + inversion Hm. constructor.
    + inversion Hm as [|y ? m' ? (j & Hj & Ew') Hm']; subst. constructor; [|now apply IH]. now apply (K _ _ _ _ Hi Hj).
  - intros [-> H]. do 2 f_equal. f_equal. f_equal. clear -Ha Hb K H. revert wb Hb H. generalize (t_aocs u).
    induction Ha as [|x w l ws (i & Hi & Ew) _ IH]; intros m wb Hm H.
    + inversion H; subst. now inversion Hm.
    + inversion H as [|? y ? m' Hxy H']; subst. inversion Hm as [|? w' ? ? (j & Hj & Ew') Hm']; subst. f_equal; [|eapply IH; eauto].
      now apply (K _ _ _ _ Hi Hj).
Qed.
Print Assumptions C54_term_latex.

(** ** LaTeX with coordinates *)
Lemma round_site T nd s t x y : clean_round T nd -> s_coord s <> [] -> s_coord t <> [] ->
  site_latex T ANone nd s = Ok x -> site_latex T ANone nd t = Ok y ->
  (x = y <-> map (round_text T nd) (s_coord s) = map (round_text T nd) (s_coord t)).
Proof.
  intros HT Ns Nt Ex Ey. cbn in Ex, Ey. injection Ex as <-. injection Ey as <-. split; [|intros ->; reflexivity].
  assert (F : forall l, Forall (free (inb ",)")) (map (round_text T nd) l)).
  { intros l. apply Forall_forall. intros z Hz. apply in_map_iff in Hz as (c & <- & _).
    assert (F : free (inb ",)$}cS") (round_text T nd c)) by (apply none_free, HT). weaken. }
  intros H. apply (sapp_cancel "(") in H. apply join_inj in H; auto; try reflexivity.
  - now destruct H.
  - intros E. apply map_eq_nil in E. contradiction.
  - intros E. apply map_eq_nil in E. contradiction.
Qed.
(** Without a table: same text exactly when the rounded coordinates have the
    same texts, the spins agree and, unless suppressed, the orbits. *)
Theorem C54_coordinate_latex : forall T zoom nd half sup s t a b,
  clean_round T nd -> built_state zoom s -> built_state zoom t ->
  state_latex T zoom ANone nd half sup s = Ok a -> state_latex T zoom ANone nd half sup t = Ok b ->
  (a = b <-> map (round_text T nd) (s_coord (st_site s)) = map (round_text T nd) (s_coord (st_site t)) /\
             st_spin s = st_spin t /\ (sup = false -> st_orbit s = st_orbit t)).
Proof.
  intros T zoom nd half sup s t a b HT Hs Hb Ea Eb.
  destruct (state_latex_bare _ _ _ _ _ _ _ _ Hs (or_introl HT) Ea) as (x & Ex & Sx & Bx & Ax).
  destruct (state_latex_bare _ _ _ _ _ _ _ _ Hb (or_introl HT) Eb) as (y & Ey & Sy & By & Ay).
  pose proof (round_site T nd _ _ _ _ HT (proj2 (built_again _ _ Hs)) (proj2 (built_again _ _ Hb)) Ex Ey) as X. split.
  - intros ->. rewrite Bx in By. apply bare_inj in By as (E & F & G); auto. rewrite <- X. auto.
  - intros (E & F & G). apply X in E. subst y. rewrite Ax, Ay, F. destruct sup; [reflexivity|]. now rewrite G.
Qed.
Print Assumptions C54_coordinate_latex.
(** An integer [site_index] is taken at its word: the text says nothing about the
    site of the state. *)
Theorem C54_integer_latex : forall T zoom z nd half sup s t a b, built_state zoom s -> built_state zoom t ->
  state_latex T zoom (AInt z) nd half sup s = Ok a -> state_latex T zoom (AInt z) nd half sup t = Ok b ->
  (a = b <-> st_spin s = st_spin t /\ (sup = false -> st_orbit s = st_orbit t)).
Proof.
  intros T zoom z nd half sup s t a b Hs Hb Ea Eb. assert (NN : AInt z <> ANone) by discriminate.
  destruct (state_latex_bare _ _ _ _ _ _ _ _ Hs (or_intror NN) Ea) as (x & Ex & Sx & Bx & Ax).
  destruct (state_latex_bare _ _ _ _ _ _ _ _ Hb (or_intror NN) Eb) as (y & Ey & Sy & By & Ay).
  cbn in Ex, Ey. injection Ex as <-. injection Ey as <-. split.
  - intros ->. rewrite Bx in By. apply bare_inj in By as (_ & F & G); auto.
  - intros (F & G). rewrite Ax, Ay, F. destruct sup; [reflexivity|]. now rewrite G.
Qed.
Print Assumptions C54_integer_latex.

(** ** Spin operators and interactions *)
Theorem C54_spin_latex : forall T zoom objs start tbl nd x y a b,
  make_state_table objs start = Ok tbl -> built_spin zoom x -> built_spin zoom y ->
  spinop_latex T (ATable tbl) nd x = Ok a -> spinop_latex T (ATable tbl) nd y = Ok b ->
  (a = b <-> so_otype x = so_otype y /\ s_form (so_site x) = s_form (so_site y)).
Proof.
  intros T zoom objs start tbl nd x y a b Ht Hx Hy Ea Eb.
  destruct (spinop_latex_shape _ _ _ _ _ _ Hx (or_intror (table_not_none _)) Ea) as (u & Eu & Su & Au & Bu).
  destruct (spinop_latex_shape _ _ _ _ _ _ Hy (or_intror (table_not_none _)) Eb) as (v & Ev & Sv & Av & Bv).
  pose proof (table_text _ _ _ _ _ _ _ Ht (table_latex _ _ _ _ _ Eu) (table_latex _ _ _ _ _ Ev)) as X. split.
  - intros ->. rewrite Bu in Bv. apply (sapp_cancel "S") in Bv.
    pose proof (siteish_free u Su) as F1. pose proof (siteish_free v Sv) as F2.
    apply sbody_inj in Bv as [E1 E2]; [|weaken|weaken]. split; [exact E1|]. now apply X.
  - intros [E1 E2]. apply X in E2. subst v. now rewrite Au, Av, E1.
Qed.
Print Assumptions C54_spin_latex.
(** [none_of "S$"] holds of the text of every int, float and complex. *)
Theorem C54_interaction_latex : forall T zoom objs start tbl nd ca cb t u a b,
  make_state_table objs start = Ok tbl -> Forall (built_spin zoom) (i_ops t) -> Forall (built_spin zoom) (i_ops u) ->
  none_of "S$" ca -> none_of "S$" cb ->
  inter_latex T (ATable tbl) nd ca t = Ok a -> inter_latex T (ATable tbl) nd cb u = Ok b ->
  (a = b <-> ca = cb /\ Forall2 (fun x y => so_otype x = so_otype y /\ s_form (so_site x) = s_form (so_site y)) (i_ops t) (i_ops u)).
Proof.
  intros T zoom objs start tbl nd ca cb t u a b Ht Ft Fu Na Nb Ea Eb. unfold inter_latex in *.
  destruct (mapM _ (i_ops t)) as [la|] eqn:La; [|discriminate]. destruct (mapM _ (i_ops u)) as [lb|] eqn:Lb; [|discriminate].
  cbn [bind] in Ea, Eb.
  set (B := fun (x : spinop) (w : string) => exists i, site_index tbl (so_site x) = Ok i /\ w = sbody (so_otype x) (dec i)).
  assert (G : forall l, Forall (built_spin zoom) l -> forall x y, In x l -> spinop_latex T (ATable tbl) nd x = Ok y ->
     exists w, strip_dollar y = String "S" w /\ B x w /\ free (inb "S$") w).
  { intros l Fl x y Ix Ey. rewrite Forall_forall in Fl. specialize (Fl x Ix).
    destruct (spinop_latex_shape _ _ _ _ _ _ Fl (or_intror (table_not_none _)) Ey) as (w & Ew & Sw & _ & Bw).
    apply table_latex in Ew as (i & Ei & ->). eexists. split; [exact Bw|]. split; [exists i; auto|].
    pose proof (siteish_free _ Sw) as F. apply sbody_free. weaken. }
  destruct (segments _ "S" B "S$" _ _ La (G _ Ft)) as (wa & -> & Fa & Ha).
  destruct (segments _ "S" B "S$" _ _ Lb (G _ Fu)) as (wb & -> & Fb & Hb). clear G La Lb.
  pose proof (term_shape "S" ca wa) as Sa. pose proof (term_shape "S" cb wb) as Sb.
  assert (Ea' : a = "$" ++ ca ++ segs "S" wa ++ "$") by (rewrite <- Sa; now injection Ea).
  assert (Eb' : b = "$" ++ cb ++ segs "S" wb ++ "$") by (rewrite <- Sb; now injection Eb). clear Ea Eb Sa Sb. subst a b.
  assert (K : forall x y w v, B x w -> B y v -> (w = v <-> so_otype x = so_otype y /\ s_form (so_site x) = s_form (so_site y))).
  { intros x y w v (i & Hi & ->) (j & Hj & ->).
    pose proof (table_text _ _ _ _ _ _ _ Ht (ex_intro _ i (conj Hi eq_refl)) (ex_intro _ j (conj Hj eq_refl))) as X. split.
    - intros H. apply sbody_inj in H as [E1 E2]; try (apply dec_no; not_numeral). split; [exact E1|]. now apply X.
    - intros [E1 E2]. apply X in E2. now rewrite E1, E2. }
  pose proof (Forall2_texts _ _ K _ _ Ha _ _ Hb) as R. split.
  - intros H. apply (sapp_cancel "$") in H. apply seg_inj in H as [E1 E2]; auto; try (now apply none_free); try reflexivity.
    split; [exact E1|]. now apply R.
  - intros [-> H]. apply R in H. now rewrite H.
Qed.
Print Assumptions C54_interaction_latex.

(** ** [repr] and [str] *)
Theorem C54_repr : forall T zoom, faithful_repr T ->
  (forall s t, built_state zoom s -> built_state zoom t ->
     (state_repr T s = state_repr T t <-> same_data s t) /\
     (site_repr T (st_site s) = site_repr T (st_site t) <-> s_coord (st_site s) = s_coord (st_site t))) /\
  (forall x y, built_state zoom (a_state x) -> built_state zoom (a_state y) ->
     (aoc_repr T x = aoc_repr T y <-> a_otype x = a_otype y /\ same_data (a_state x) (a_state y))) /\
  (forall x y, built_state zoom (n_state x) -> built_state zoom (n_state y) ->
     (numop_repr T x = numop_repr T y <-> same_data (n_state x) (n_state y))) /\
  (forall x y, built_spin zoom x -> built_spin zoom y ->
     (spinop_repr T x = spinop_repr T y <-> so_otype x = so_otype y /\ s_coord (so_site x) = s_coord (so_site y))).
Proof.
  intros T zoom HT. split; [|split; [|split]].
  - intros s t Hs Ht. split; split.
    + intros H. apply (sapp_cancel "StateID(site=") in H. apply (state_text_inj T zoom s t HT Hs Ht). exact H.
    + intros (E1 & E2 & E3). unfold state_repr. now rewrite E1, E2, E3.
    + intros H. apply (sapp_cancel "SiteID(site=") in H.
      destruct (built_reals _ _ Hs) as [R1 N1]. destruct (built_reals _ _ Ht) as [R2 N2]. now apply (coords_inj T) in H.
    + intros E. unfold site_repr. now rewrite E.
  - intros x y Hx Hy. split.
    + intros H. apply (sapp_cancel "AoC(otype=") in H.
      assert (E : a_otype x = a_otype y) by (destruct (a_otype x), (a_otype y); auto; discriminate). split; [exact E|].
      rewrite E in H. apply sapp_cancel, (sapp_cancel ", site=") in H. exact (state_text_inj T zoom _ _ HT Hx Hy H).
    + intros (E0 & E1 & E2 & E3). unfold aoc_repr. now rewrite E0, E1, E2, E3.
  - intros x y Hx Hy. split.
    + intros H. apply (sapp_cancel "NumberOperator(site=") in H. exact (state_text_inj T zoom _ _ HT Hx Hy H).
    + intros (E1 & E2 & E3). unfold numop_repr. now rewrite E1, E2, E3.
  - intros x y Hx Hy. split.
    + intros H. apply (sapp_cancel "SpinOperator(otype="), (sapp_cancel quote) in H.
      assert (E : so_otype x = so_otype y) by (destruct (so_otype x), (so_otype y); auto; discriminate). split; [exact E|].
      rewrite E in H. apply sapp_cancel, (sapp_cancel quote), (sapp_cancel ", site=") in H.
      destruct (built_spin_coord _ _ Hx) as (_ & N1 & R1). destruct (built_spin_coord _ _ Hy) as (_ & N2 & R2).
      now apply (coords_inj T) in H.
    + intros [E1 E2]. unfold spinop_repr. now rewrite E1, E2.
Qed.
Print Assumptions C54_repr.
(** Hence equal texts of operators created at one precision mean equal operators. *)
Theorem C54_repr_equal : forall T zoom x y, faithful_repr T -> built_state zoom (a_state x) -> built_state zoom (a_state y) ->
  aoc_repr T x = aoc_repr T y -> x = y.
Proof.
  intros T zoom x y HT Hx Hy H. apply (proj1 (proj2 (C54_repr T zoom HT)) x y Hx Hy) in H as (E0 & E1 & E2 & E3).
  destruct (built_again _ _ Hx) as [B1 _]. destruct (built_again _ _ Hy) as [B2 _]. rewrite E1, B2 in B1. injection B1 as E4.
  destruct x as [o [si sp ob]], y as [o' [si' sp' ob']]. cbn in *. now subst.
Qed.
Print Assumptions C54_repr_equal.
(** The texts are Python expressions which, evaluated at the same precision,
    construct the object again. *)
Theorem C54_repr_evaluates : forall T zoom,
  (forall x, built_state zoom (a_state x) -> exists name value site args,
     aoc_repr T x = "AoC(otype=" ++ name ++ ", site=" ++ site ++ ", spin=" ++ dec (st_spin (a_state x)) ++ ", orbit=" ++ dec (st_orbit (a_state x)) ++ ")" /\
     constant name = Some value /\ tuple_source T site args /\
     make_aoc zoom value args (NInt (st_spin (a_state x))) (NInt (st_orbit (a_state x))) = Ok x) /\
  (forall s, built_state zoom s -> exists site args,
     state_repr T s = "StateID(site=" ++ site ++ ", spin=" ++ dec (st_spin s) ++ ", orbit=" ++ dec (st_orbit s) ++ ")" /\
     site_repr T (st_site s) = "SiteID(site=" ++ site ++ ")" /\
     numop_repr T (MkNum s) = "NumberOperator(site=" ++ site ++ ", spin=" ++ dec (st_spin s) ++ ", orbit=" ++ dec (st_orbit s) ++ ")" /\
     tuple_source T site args /\ make_site zoom args = Ok (st_site s) /\
     make_state zoom args (NInt (st_spin s)) (NInt (st_orbit s)) = Ok s /\
     make_numop zoom args (NInt (st_spin s)) (NInt (st_orbit s)) = Ok (MkNum s)) /\
  (forall x, built_spin zoom x -> exists name site args,
     spinop_repr T x = "SpinOperator(otype=" ++ quote ++ name ++ quote ++ ", site=" ++ site ++ ")" /\
     tuple_source T site args /\ make_spin zoom name args = Ok x).
Proof.
  assert (Num : forall T x, is_real x = true -> num_source T (num_repr T x) x) by (intros T [z|f|] H; [constructor|constructor|discriminate]).
  assert (Jn : forall r x, join ", " (x :: r) = String.concat ", " (x :: r)).
  { intros r. unfold join. assert (G : forall r a, fold_left (fun a b => a ++ ", " ++ b) r a = String.concat ", " (a :: r)).
    { clear. induction r as [|y r IH]; intros a; [reflexivity|]. cbn [fold_left]. rewrite IH. destruct r as [|z r]; [reflexivity|].
      cbn [String.concat]. now rewrite !sapp_A. }
    intros x. apply G. }
  assert (Tup : forall T l, forallb is_real l = true -> tuple_source T (tuple_repr (map (num_repr T) l)) l).
  { intros T l. destruct l as [|x [|y l]]; intros H; cbn [forallb] in H.
    - exact (no_items T).
    - apply andb_true_iff in H as [H _]. apply (one_item T). now apply Num.
    - apply andb_true_iff in H as [H1 H2]. unfold tuple_repr. cbn [map]. rewrite Jn. apply (items T); [now apply Num| |discriminate].
      change (num_repr T y :: map (num_repr T) l) with (map (num_repr T) (y :: l)). change (is_real y && forallb is_real l = true)%bool with (forallb is_real (y :: l) = true) in H2.
      revert H2. generalize (y :: l). clear - Num. intros m. induction m as [|a m IH]; intros H; [constructor|]. cbn [forallb] in H. apply andb_true_iff in H as [H1 H2].
      constructor; [now apply Num|now apply IH]. }
  assert (Real : forall zoom c s, make_site zoom c = Ok s -> forallb is_real c = true).
  { intros zoom c s H. unfold make_site in H. destruct (_ && _)%bool eqn:E; [|discriminate]. now apply andb_true_iff in E as [_ E]. }
  assert (St : forall zoom s, built_state zoom s -> make_site zoom (s_coord (st_site s)) = Ok (st_site s) /\
    make_state zoom (s_coord (st_site s)) (NInt (st_spin s)) (NInt (st_orbit s)) = Ok s).
  { intros zoom s Hs. destruct (built_again _ _ Hs) as [E _]. split; [exact E|]. destruct Hs as (c & sp & ob & Hs). unfold make_state in Hs.
    destruct (nonneg_int sp) as [a|] eqn:E1; [|discriminate]. destruct (nonneg_int ob) as [b|] eqn:E2; [|discriminate].
    destruct (make_site zoom c) as [u|]; [|discriminate]. injection Hs as <-. cbn [st_site st_spin st_orbit] in *. unfold make_state.
    assert (Nn : forall q a, nonneg_int q = Some a -> nonneg_int (NInt a) = Some a).
    { intros [z|f|] a' H; try discriminate. cbn in *. destruct (0 <=? z)%Z eqn:E3; [|discriminate]. injection H as <-. now rewrite E3. }
    now rewrite (Nn _ _ E1), (Nn _ _ E2), E. }
  intros T zoom. split; [|split].
  - intros x Hx. destruct (St _ _ Hx) as [E1 E2].
    exists (match a_otype x with CREATION => "CREATION" | ANNIHILATION => "ANNIHILATION" end), (match a_otype x with CREATION => 1 | ANNIHILATION => 0 end)%Z,
      (tuple_repr (map (num_repr T) (s_coord (st_site (a_state x))))), (s_coord (st_site (a_state x))).
    split; [reflexivity|]. split; [now destruct (a_otype x)|]. split; [apply Tup; exact (Real _ _ _ E1)|].
    unfold make_aoc. rewrite E2. destruct x as [[] s]; reflexivity.
  - intros s Hs. destruct (St _ _ Hs) as [E1 E2]. exists (tuple_repr (map (num_repr T) (s_coord (st_site s)))), (s_coord (st_site s)).
    split; [reflexivity|]. split; [reflexivity|]. split; [reflexivity|]. split; [apply Tup; exact (Real _ _ _ E1)|]. split; [exact E1|]. split; [exact E2|].
    unfold make_numop. now rewrite E2.
  - intros x Hx. exists (otype_name (so_otype x)), (tuple_repr (map (num_repr T) (s_coord (so_site x)))), (s_coord (so_site x)).
    split; [reflexivity|]. destruct Hx as (o & c & H). pose proof H as H'. unfold make_spin in H. destruct (otype_of_name o) as [ot|] eqn:Eo; [|discriminate].
    destruct (make_site zoom c) as [u|] eqn:Eu; [|discriminate]. cbn [bind] in H. injection H as <-. cbn [so_otype so_site].
    rewrite (make_site_inv _ _ _ Eu). split; [apply Tup; exact (Real _ _ _ Eu)|]. unfold make_spin. rewrite Eu.
    replace (otype_of_name (otype_name ot)) with (Some ot) by (now destruct ot). reflexivity.
Qed.
Print Assumptions C54_repr_evaluates.
(** With an integer for the site, it is shown as given; the LaTeX of operators. *)
Theorem C54_latex_forms : forall T zoom z nd x, built_state zoom (a_state x) ->
  let up := if Z.eqb (st_spin (a_state x)) 0 then "\downarrow" else "\uparrow" in
  let plus := match a_otype x with CREATION => "^{\dagger}" | ANNIHILATION => "" end in
  ((st_spin (a_state x) <= 1)%Z ->
     aoc_latex T zoom (AInt z) nd true true x = Ok ("$c_{" ++ dec z ++ "," ++ up ++ "}" ++ plus ++ "$") /\
     numop_latex T zoom (AInt z) nd true true (MkNum (a_state x)) = Ok ("$n_{" ++ dec z ++ "," ++ up ++ "}$")) /\
  aoc_latex T zoom (AInt z) nd false false x =
    Ok ("$c_{" ++ dec z ++ "," ++ dec (st_spin (a_state x)) ++ "," ++ dec (st_orbit (a_state x)) ++ "}" ++ plus ++ "$").
Proof.
  intros T zoom z nd x Hx up plus. destruct (built_again _ _ Hx) as [E _].
  assert (P : (0 <= st_spin (a_state x))%Z).
  { destruct Hx as (c & sp & ob & H). unfold make_state in H. destruct (nonneg_int sp) as [q|] eqn:E1; [|discriminate].
    destruct (nonneg_int ob); [|discriminate]. destruct (make_site zoom c); [|discriminate]. injection H as <-. cbn.
    destruct sp as [w|f|]; try discriminate. unfold nonneg_int in E1. destruct (Z.leb 0 w) eqn:E2; [|discriminate]. injection E1 as <-. now apply Z.leb_le. }
  assert (Fd : forall w, strip_dollar (dec w) = dec w) by (intros; apply strip_free, dec_no; not_numeral).
  split.
  - intros L. unfold aoc_latex, numop_latex, state_latex. cbn [n_state]. rewrite E. cbn [bind site_latex]. unfold spin_latex, up, plus.
    assert (Hs : st_spin (a_state x) = 0%Z \/ st_spin (a_state x) = 1%Z) by lia.
    destruct Hs as [-> | ->]; cbn [Z.eqb orb andb join fold_left]; rewrite !strip_app, Fd; cbn [strip_dollar Ascii.eqb Bool.eqb];
      rewrite ?sapp_A; (split; [destruct (a_otype x)|]); cbn [append]; rewrite ?sapp_A; reflexivity.
  - unfold aoc_latex, state_latex. rewrite E. cbn [bind site_latex spin_latex andb join fold_left]. rewrite !strip_app, !Fd. cbn [strip_dollar Ascii.eqb Bool.eqb].
    unfold plus. destruct (a_otype x); rewrite ?sapp_A; cbn [append]; rewrite ?sapp_A; reflexivity.
Qed.
Print Assumptions C54_latex_forms.
(** The multi-line texts of terms. *)
Theorem C54_term_str : forall T zoom ca cb, faithful_repr T -> none_of newline ca -> none_of newline cb ->
  (forall t u, Forall (fun x => built_state zoom (a_state x)) (t_aocs t) -> Forall (fun x => built_state zoom (a_state x)) (t_aocs u) ->
     (pterm_str T ca t = pterm_str T cb u <->
      ca = cb /\ Forall2 (fun x y => a_otype x = a_otype y /\ same_data (a_state x) (a_state y)) (t_aocs t) (t_aocs u))) /\
  (forall t u, Forall (built_spin zoom) (i_ops t) -> Forall (built_spin zoom) (i_ops u) ->
     (inter_str T ca t = inter_str T cb u <->
      ca = cb /\ Forall2 (fun x y => so_otype x = so_otype y /\ s_coord (so_site x) = s_coord (so_site y)) (i_ops t) (i_ops u))).
Proof.
  intros T zoom ca cb HT Na Nb. destruct (C54_repr T zoom HT) as (_ & RA & _ & RS). apply none_free in Na. apply none_free in Nb. split.
  - intros t u Ft Fu. unfold pterm_str. split.
    + intros H. apply term_str_inj in H; auto.
      * destruct H as [-> H]. split; [reflexivity|].
        refine (map_text_inj (aoc_repr T) _ (fun x => built_state zoom (a_state x)) _ _ _ Ft Fu H).
        intros x y Hx Hy. apply RA; assumption.
      * apply Forall_forall. intros s Hs. apply in_map_iff in Hs as (x & <- & Ix). rewrite Forall_forall in Ft.
        exact (aoc_repr_free T zoom x HT (Ft _ Ix)).
      * apply Forall_forall. intros s Hs. apply in_map_iff in Hs as (x & <- & Ix). rewrite Forall_forall in Fu.
        exact (aoc_repr_free T zoom x HT (Fu _ Ix)).
    + intros [-> H]. f_equal. clear -H Ft Fu RA. induction H as [|x y l m Hxy _ IH]; [reflexivity|].
      inversion Ft; inversion Fu; subst. cbn [map]. f_equal; [apply RA; assumption|]. apply IH; assumption.
  - intros t u Ft Fu. unfold inter_str. split.
    + intros H. apply term_str_inj in H; auto.
      * destruct H as [-> H]. split; [reflexivity|].
        refine (map_text_inj (spinop_repr T) _ (built_spin zoom) _ _ _ Ft Fu H).
        intros x y Hx Hy. apply RS; assumption.
      * apply Forall_forall. intros s Hs. apply in_map_iff in Hs as (x & <- & Ix). rewrite Forall_forall in Ft.
        exact (spinop_repr_free T zoom x HT (Ft _ Ix)).
      * apply Forall_forall. intros s Hs. apply in_map_iff in Hs as (x & <- & Ix). rewrite Forall_forall in Fu.
        exact (spinop_repr_free T zoom x HT (Fu _ Ix)).
    + intros [-> H]. f_equal. clear -H Ft Fu RS. induction H as [|x y l m Hxy _ IH]; [reflexivity|].
      inversion Ft; inversion Fu; subst. cbn [map]. f_equal; [apply RS; assumption|]. apply IH; assumption.
Qed.
Print Assumptions C54_term_str.

(** ** Concrete cases *)
Theorem C54_assumptions_satisfiable : faithful_repr sample_text /\ forall nd, clean_round sample_text nd.
Proof. split; [exact sample_faithful|exact sample_clean]. Qed.
(** With the default arguments (no table, orbit suppressed) different operators
    have the same LaTeX. *)
Theorem C54_default_hides_orbit : forall T,
  exists x y, make_aoc default_zoom 1 [NInt 0; NInt 1] (NInt 1) (NInt 0) = Ok x /\
              make_aoc default_zoom 1 [NInt 0; NInt 1] (NInt 1) (NInt 2) = Ok y /\
              ~ same_op x y /\ aoc_latex T default_zoom ANone 4 true true x = aoc_latex T default_zoom ANone 4 true true y /\
              aoc_latex T default_zoom ANone 4 true false x <> aoc_latex T default_zoom ANone 4 true false y.
Proof.
  intros T. do 2 eexists. split; [reflexivity|]. split; [reflexivity|]. split; [|split].
  - intros (_ & _ & _ & H). cbn in H. discriminate.
  - reflexivity.
  - cbn. intros H. injection H as H. rewrite !strip_app, !sapp_A in H. repeat apply sapp_cancel in H. discriminate.
Qed.
Print Assumptions C54_default_hides_orbit.
Definition shown (r : res string) (s : string) : bool := match r with Ok x => String.eqb x s | Err _ => false end.
Example C54_example :
  match make_aoc default_zoom 1 [NInt 0; NInt 1] (NInt 1) (NInt 0), make_aoc default_zoom 0 [NInt 1; NInt 1] (NInt 0) (NInt 0),
        make_site default_zoom [NInt 0; NInt 1], make_site default_zoom [NInt 1; NInt 1], make_spin default_zoom "z" [NInt 1; NInt 1] with
  | Ok x, Ok y, Ok s, Ok t, Ok z =>
      match make_state_table [LSite s; LSite t] 0 with
      | Ok tbl =>
          shown (aoc_latex sample_text default_zoom (ATable tbl) 4 true true x) "$c_{0,\uparrow}^{\dagger}$" &&
          shown (pterm_latex sample_text default_zoom (ATable tbl) 4 true false "1.0" (MkTerm [x; y] 1 Tgeneral)) "$1.0c_{0,\uparrow,0}^{\dagger}c_{1,\downarrow,0}$" &&
          shown (spinop_latex sample_text (ATable tbl) 4 z) "$S_{1}^{z}$" &&
          String.eqb (aoc_repr sample_text x) "AoC(otype=CREATION, site=(0, 1), spin=1, orbit=0)"
      | Err _ => false
      end
  | _, _, _, _, _ => false
  end = true.
Proof. vm_compute. reflexivity. Qed.
(** Equal sites may have different texts: 1 and 1.0. *)
Example C54_equal_but_different_text :
  match make_site default_zoom [NInt 1], make_site default_zoom [NFlt (SpecFloat.S754_finite false 4503599627370496 (-52))] with
  | Ok s, Ok t => (veq (site_form s) (site_form t) && negb (String.eqb (site_repr sample_text s) (site_repr sample_text t)))%bool
  | _, _ => false
  end = true.
Proof. vm_compute. reflexivity. Qed.
