(** Proofs for C54: unique decoding of the text forms. *)
From Coq Require Import String List ZArith Bool Ascii DecimalString DecimalZ Lia.
From Verif Require Import Py GQ Float64_Model State_Model State_Spec State_Proofs MatrixRepr_Model Particle_Model Particle_Spec Particle_Proofs Particle_Proofs2
  Spin_Model Spin_Spec Spin_Proofs3 ColorPrint_Model Text_Model Text_Spec.
Import ListNotations.
Local Open Scope string_scope.

Lemma sapp_A (a b c : string) : (a ++ b) ++ c = a ++ (b ++ c).
Proof. induction a as [|x a IH]; [reflexivity|]. cbn. now rewrite IH. Qed.
Lemma sapp_E (a : string) : a ++ "" = a.
Proof. induction a as [|x a IH]; [reflexivity|]. cbn. now rewrite IH. Qed.
Lemma sapp_cancel (a b c : string) : a ++ b = a ++ c -> b = c.
Proof. induction a as [|x a IH]; intros H; [exact H|]. cbn in H. injection H. exact IH. Qed.

(** [s] has no character satisfying [p]. *)
Fixpoint free (p : ascii -> bool) (s : string) : Prop :=
  match s with "" => True | String c r => p c = false /\ free p r end.
Definition starts (p : ascii -> bool) (s : string) : Prop := match s with "" => False | String c _ => p c = true end.
Lemma cut p a : forall b x y, free p a -> free p b -> starts p x -> starts p y -> a ++ x = b ++ y -> a = b /\ x = y.
Proof.
  induction a as [|c a IH]; intros b x y Fa Fb Sx Sy H.
  - destruct b as [|d b]; [now split|]. cbn in H. subst x. destruct Fb as [F _]. cbn in Sx. congruence.
  - destruct b as [|d b].
    + cbn in H. subst y. destruct Fa as [F _]. cbn in Sy. congruence.
    + cbn in H. injection H as -> H. destruct Fa as [_ Fa], Fb as [_ Fb]. destruct (IH b x y Fa Fb Sx Sy H) as [-> ->]. now split.
Qed.
Lemma free_app p a b : free p (a ++ b) <-> free p a /\ free p b.
Proof. induction a as [|c a IH]; cbn; [tauto|]. rewrite IH. tauto. Qed.
Lemma free_has p s : (forall c, p c = true -> has c s = false) <-> free p s.
Proof.
  induction s as [|d s IH]; cbn; [intuition|]. rewrite <- IH. split.
  - intros H. split.
    + destruct (p d) eqn:E; [|reflexivity]. specialize (H d E). rewrite Ascii.eqb_refl in H. discriminate.
    + intros c Hc. specialize (H c Hc). now apply orb_false_elim in H.
  - intros [H1 H2] c Hc. apply orb_false_intro; [|now apply H2]. destruct (Ascii.eqb_spec c d); [congruence|reflexivity].
Qed.
Definition inb (cs : string) (c : ascii) : bool := has c cs.
Lemma none_free cs s : none_of cs s <-> free (inb cs) s.
Proof. apply (free_has (inb cs)). Qed.
Lemma free_sub (p q : ascii -> bool) s : (forall c, p c = true -> q c = true) -> free q s -> free p s.
Proof. rewrite <- !free_has. intros H F c Hc. apply F, H, Hc. Qed.

(** ** Decimal text *)
Definition numeral (c : ascii) : bool := (has c "-0123456789")%bool.
Lemma uint_free (p : ascii -> bool) : (forall c, p c = true -> numeral c = false) -> forall d, free p (NilEmpty.string_of_uint d).
Proof.
  intros H. assert (N : forall c, numeral c = true -> p c = false).
  { intros c Hc. destruct (p c) eqn:E; [|reflexivity]. apply H in E. congruence. }
  induction d; cbn; (split; [apply N; reflexivity|assumption]) || exact I.
Qed.
Lemma dec_free (p : ascii -> bool) z : (forall c, p c = true -> numeral c = false) -> free p (dec z).
Proof.
  intros H. assert (N : forall c, numeral c = true -> p c = false).
  { intros c Hc. destruct (p c) eqn:E; [|reflexivity]. apply H in E. congruence. }
  assert (U : forall d, free p (NilZero.string_of_uint d)).
  { intros d. unfold NilZero.string_of_uint. destruct d; try (apply (uint_free p H)). cbn. split; [now apply N|exact I]. }
  unfold dec, NilZero.string_of_int. destruct (Z.to_int z); [apply U|]. cbn. split; [now apply N|apply U].
Qed.
Lemma to_int_norm z : match Z.to_int z with Decimal.Pos d | Decimal.Neg d => d <> Decimal.Nil end.
Proof.
  destruct z as [|p|p]; cbn; try discriminate.
  all: intros E; pose proof (DecimalPos.Unsigned.to_uint_nonnil p); congruence.
Qed.
Lemma dec_inj a b : dec a = dec b -> a = b.
Proof.
  unfold dec. intros H. rewrite <- (DecimalZ.of_to a), <- (DecimalZ.of_to b). f_equal.
  pose proof (to_int_norm a) as A. pose proof (to_int_norm b) as B.
  assert (X : Some (Z.to_int a) = Some (Z.to_int b)); [|congruence].
  rewrite <- (NilZero.isi (Z.to_int a)), <- (NilZero.isi (Z.to_int b)); [now rewrite H| | | |].
  all: try (intros E; rewrite E in A; cbn in A; congruence); try (intros E; rewrite E in B; cbn in B; congruence).
Qed.
Lemma dec_starts z : exists c r, dec z = String c r /\ numeral c = true.
Proof.
  unfold dec, NilZero.string_of_int, NilZero.string_of_uint. pose proof (to_int_norm z) as A.
  destruct (Z.to_int z) as [d|d]; [destruct d|]; cbn; try (do 2 eexists; split; reflexivity). 
Qed.
Definition comma : ascii -> bool := inb ",".
Ltac not_numeral := intros ? ?Hc; unfold inb in *; cbn in *; 
  repeat match goal with H : orb _ _ = true |- _ => apply orb_prop in H as [H|H] end;
  try discriminate; match goal with H : Ascii.eqb _ _ = true |- _ => apply Ascii.eqb_eq in H; subst; reflexivity end.
Lemma dec_no cs z : (forall c, has c cs = true -> numeral c = false) -> free (inb cs) (dec z).
Proof. intros H. apply dec_free. exact H. Qed.

(** ** Spin and state *)
Lemma spin_latex_free half s : free (inb ",{}()cS_^") (spin_latex half s).
Proof.
  unfold spin_latex. destruct (half && _)%bool; [destruct (Z.eqb s 0); cbn; intuition|].
  apply dec_no. not_numeral.
Qed.
Lemma dec_head z : exists c r, dec z = String c r /\ Ascii.eqb c "$" = false.
Proof.
  destruct (dec_starts z) as (c & r & -> & H). exists c, r. split; [reflexivity|].
  destruct (Ascii.eqb_spec c "$"); [subst; discriminate|reflexivity].
Qed.
Lemma strip_free s : free (inb "$") s -> strip_dollar s = s.
Proof.
  induction s as [|c s IH]; [reflexivity|]. cbn. intros [H F]. apply orb_false_elim in H as [H _].
  destruct (Ascii.eqb_spec c "$") as [->|_]; [discriminate|]. now rewrite IH.
Qed.
Lemma strip_app a b : strip_dollar (a ++ b) = strip_dollar a ++ strip_dollar b.
Proof. induction a as [|c a IH]; [reflexivity|]. cbn. destruct (Ascii.eqb c "$"); [exact IH|]. cbn. now rewrite IH. Qed.
Lemma strip_is_free s : free (inb "$") (strip_dollar s).
Proof.
  induction s as [|c s IH]; cbn; [exact I|]. destruct (Ascii.eqb_spec c "$") as [|N]; [exact IH|].
  cbn. split; [|exact IH]. unfold inb. cbn. destruct (Ascii.eqb_spec c "$"); [contradiction|reflexivity].
Qed.
Lemma strip_keeps p s : free p s -> free p (strip_dollar s).
Proof. induction s as [|c s IH]; cbn; [auto|]. intros [H F]. destruct (Ascii.eqb c "$"); [auto|]. cbn. auto. Qed.
(** The spin text without its dollar signs. *)
Definition spin_bare (half : bool) (s : Z) : string := strip_dollar (spin_latex half s).
Lemma spin_bare_inj half s t : spin_bare half s = spin_bare half t -> s = t.
Proof.
  unfold spin_bare, spin_latex. assert (D : forall z, strip_dollar (dec z) = dec z).
  { intros z. apply strip_free, dec_no. not_numeral. }
  assert (A : forall z r, strip_dollar (dec z) <> String "\" r).
  { intros z r. rewrite D. destruct (dec_starts z) as (c & r' & -> & H). intros E. injection E as -> _. discriminate. }
  destruct half; cbn [andb]; [|rewrite !D; apply dec_inj].
  destruct (Z.eqb_spec s 0) as [->|]; cbn [orb].
  - destruct (Z.eqb_spec t 0) as [->|]; cbn [orb]; [reflexivity|]. destruct (Z.eqb_spec t 1) as [->|]; [discriminate|].
    intros H. exfalso. symmetry in H. revert H. apply A.
  - destruct (Z.eqb_spec s 1) as [->|]; cbn [orb].
    + destruct (Z.eqb_spec t 0) as [->|]; cbn [orb]; [discriminate|]. destruct (Z.eqb_spec t 1) as [->|]; [reflexivity|].
      intros H. exfalso. symmetry in H. revert H. apply A.
    + destruct (Z.eqb_spec t 0) as [->|]; cbn [orb]; [intros H; exfalso; revert H; apply A|].
      destruct (Z.eqb_spec t 1) as [->|]; cbn [orb]; [intros H; exfalso; revert H; apply A|]. rewrite !D. apply dec_inj.
Qed.
Lemma spin_latex_inj half s t : spin_latex half s = spin_latex half t -> s = t.
Proof. intros H. apply (spin_bare_inj half). unfold spin_bare. now rewrite H. Qed.

(** Three or two fields separated by commas. *)
Lemma fields3 a b c a' b' c' : free (inb ",") a -> free (inb ",") b -> free (inb ",") a' -> free (inb ",") b' ->
  join "," [a; b; c] = join "," [a'; b'; c'] -> a = a' /\ b = b' /\ c = c'.
Proof.
  intros Fa Fb Fa' Fb'. cbn [join fold_left]. rewrite !sapp_A. intros H.
  apply (cut (inb ",")) in H; auto; try reflexivity. destruct H as [-> H]. cbn in H. injection H as H.
  apply (cut (inb ",")) in H; auto; try reflexivity. destruct H as [-> H]. cbn in H. injection H as H. auto.
Qed.
Lemma fields2 a b a' b' : free (inb ",") a -> free (inb ",") a' -> join "," [a; b] = join "," [a'; b'] -> a = a' /\ b = b'.
Proof.
  intros Fa Fa'. cbn [join fold_left]. intros H.
  apply (cut (inb ",")) in H; auto; try reflexivity. destruct H as [-> H]. cbn in H. injection H as H. auto.
Qed.
(** A non-empty list of comma-free strings. *)
Lemma fold_join l : forall a, fold_left (fun a b => a ++ "," ++ b) l a = a ++ String.concat "" (map (fun b => "," ++ b) l).
Proof.
  induction l as [|x l IH]; intros a; cbn [fold_left map].
  - cbn. now rewrite sapp_E.
  - rewrite IH. destruct l as [|y l]; cbn [map String.concat]; rewrite ?sapp_E, ?sapp_A; reflexivity.
Qed.
Lemma join_inj (e e' : string) : starts (inb ")") e -> starts (inb ")") e' -> forall l m, Forall (free (inb ",)")) l -> Forall (free (inb ",)")) m -> l <> [] -> m <> [] ->
  join "," l ++ e = join "," m ++ e' -> l = m /\ e = e'.
Proof.
  intros He He'. assert (HeX : starts (inb ",)") e) by (destruct e as [|x e]; [exact He|cbn in *; rewrite He; now rewrite orb_true_r]).
  assert (HeX' : starts (inb ",)") e') by (destruct e' as [|x e']; [exact He'|cbn in *; rewrite He'; now rewrite orb_true_r]).
  induction l as [|x l IH]; intros m Fl Fm Nl Nm; [congruence|]. destruct m as [|y m]; [congruence|].
  inversion Fl as [|? ? Fx Fl']; subst. inversion Fm as [|? ? Fy Fm']; subst.
  assert (J : forall z r, join "," (z :: r) = z ++ match r with [] => "" | _ => "," ++ join "," r end).
  { intros z r. unfold join. rewrite fold_join. destruct r as [|w r]; [reflexivity|]. rewrite fold_join.
    cbn [map]. destruct r as [|v r]; cbn [map String.concat]; rewrite ?sapp_E, ?sapp_A; reflexivity. }
  rewrite !J, !sapp_A. intros H.
  assert (S1 : starts (inb ",)") (match l with [] => "" | _ => "," ++ join "," l end ++ e)) by (destruct l; [exact HeX|reflexivity]).
  assert (S2 : starts (inb ",)") (match m with [] => "" | _ => "," ++ join "," m end ++ e')) by (destruct m; [exact HeX'|reflexivity]).
  apply (cut (inb ",)")) in H; auto. destruct H as [-> H].
  destruct l as [|x' l], m as [|y' m].
  - cbn in H. now split.
  - exfalso. cbn in H. subst e. cbn in He. discriminate.
  - exfalso. cbn in H. subst e'. cbn in He'. discriminate.
  - cbn [append] in H. injection H as H. destruct (IH (y' :: m)) as [E1 E2]; auto; [discriminate|discriminate|]. split; [now f_equal|exact E2].
Qed.

(** ** Site text *)
Definition siteish (x : string) : Prop :=
  (exists z, x = dec z) \/ (exists l, x = "(" ++ join "," l ++ ")" /\ l <> [] /\ Forall (free (inb ",)$}cS")) l).
Lemma free_weaken cs ds s : (forall c, has c cs = true -> has c ds = true) -> free (inb ds) s -> free (inb cs) s.
Proof. intros H. apply free_sub. exact H. Qed.
Fixpoint inc (cs ds : string) : bool := match cs with "" => true | String c r => (has c ds && inc r ds)%bool end.
Lemma inc_has cs ds : inc cs ds = true -> forall c, has c cs = true -> has c ds = true.
Proof.
  induction cs as [|d cs IH]; intros H c Hc; [discriminate Hc|]. cbn in H, Hc. apply andb_prop in H as [H1 H2].
  destruct (Ascii.eqb c d) eqn:E.
  - apply Ascii.eqb_eq in E. rewrite E. exact H1.
  - apply IH; assumption.
Qed.
Lemma free_inc cs ds s : inc cs ds = true -> free (inb ds) s -> free (inb cs) s.
Proof. intros H. apply free_weaken, inc_has, H. Qed.
Ltac weaken := match goal with H : free (inb ?ds) ?s |- free (inb ?cs) ?s => exact (free_inc cs ds s eq_refl H) end.
Lemma site_cut x y u v : siteish x -> siteish y -> x ++ String "," u = y ++ String "," v -> x = y /\ u = v.
Proof.
  assert (DP : forall z s t, dec z ++ s <> String "(" t).
  { intros z s t. destruct (dec_starts z) as (c & r & -> & H). cbn. intros E. injection E as -> _. discriminate. }
  intros [(z & ->)|(l & -> & Nl & Fl)] [(z' & ->)|(m & -> & Nm & Fm)] H.
  - apply (cut (inb ",")) in H; try (apply dec_no; not_numeral); try reflexivity. destruct H as [-> H]. now injection H as ->.
  - exfalso. revert H. apply DP.
  - exfalso. symmetry in H. revert H. apply DP.
  - rewrite !sapp_A in H. cbn in H. injection H as H. apply join_inj in H; auto; try reflexivity.
    + destruct H as [-> H]. injection H as ->. auto.
    + eapply Forall_impl; [|exact Fl]. intros s Hs. weaken.
    + eapply Forall_impl; [|exact Fm]. intros s Hs. weaken.
Qed.
Lemma free_join cs l : (forall c, has c cs = true -> Ascii.eqb c "," = false) -> Forall (free (inb cs)) l -> free (inb cs) (join "," l).
Proof.
  intros H F. destruct F as [|x l Hx F]; [exact I|]. unfold join. revert x Hx. induction F as [|y l Hy F IH]; intros x Hx; [exact Hx|].
  cbn [fold_left]. apply IH. rewrite !free_app. split; [exact Hx|]. split; [|exact Hy]. cbn. split; [|exact I].
  unfold inb. destruct (has "," cs) eqn:E; [|reflexivity]. apply H in E. discriminate.
Qed.
Lemma siteish_free x : siteish x -> free (inb "$}cS") x.
Proof.
  intros [(z & ->)|(l & -> & Nl & Fl)].
  - apply dec_no. not_numeral.
  - rewrite !free_app. split; [cbn; auto|]. split; [|cbn; auto]. apply free_join.
    + intros c Hc. cbn in *. repeat match goal with H : orb _ _ = true |- _ => apply orb_prop in H as [H|H] end; try discriminate;
      match goal with H : Ascii.eqb _ _ = true |- _ => apply Ascii.eqb_eq in H; subst; reflexivity end.
    + eapply Forall_impl; [|exact Fl]. intros s Hs. weaken.
Qed.
Lemma site_latex_siteish T a nd s x : clean_round T nd \/ a <> ANone -> s_coord s <> [] -> site_latex T a nd s = Ok x -> siteish x.
Proof.
  intros HT Hc H. destruct a as [|z|t]; cbn in H.
  - injection H as <-. right. eexists. split; [reflexivity|]. split.
    + intros E. apply Hc. now apply map_eq_nil in E.
    + destruct HT as [HT|HT]; [|congruence]. apply Forall_forall. intros y Hy. apply in_map_iff in Hy as (c & <- & _).
      apply none_free. intros d Hd. apply HT. cbn in *. exact Hd.
  - injection H as <-. left. eauto.
  - destruct (site_index t s) as [i|]; [|discriminate]. injection H as <-. left. eauto.
Qed.

(** ** State text without dollar signs *)
Definition bare (half sup : bool) (x : string) (s : stateid) : string :=
  x ++ "," ++ spin_bare half (st_spin s) ++ (if sup then "" else "," ++ dec (st_orbit s)).
Lemma built_again zoom s : built_state zoom s -> make_site zoom (s_coord (st_site s)) = Ok (st_site s) /\ s_coord (st_site s) <> [].
Proof.
  intros (site & spin & orbit & H). unfold make_state in H. destruct (nonneg_int spin); [|discriminate].
  destruct (nonneg_int orbit); [|discriminate]. destruct (make_site zoom site) as [u|] eqn:E; [|discriminate].
  injection H as <-. cbn [st_site]. rewrite (make_site_inv _ _ _ E). split; [exact E|]. intros ->. discriminate.
Qed.
Lemma state_latex_bare T zoom a nd half sup s b : built_state zoom s -> clean_round T nd \/ a <> ANone ->
  state_latex T zoom a nd half sup s = Ok b ->
  exists x, site_latex T a nd (st_site s) = Ok x /\ siteish x /\ strip_dollar b = bare half sup x s /\
    b = x ++ "," ++ spin_latex half (st_spin s) ++ (if sup then "" else "," ++ dec (st_orbit s)).
Proof.
  intros Hb HT H. destruct (built_again _ _ Hb) as [E Hc]. unfold state_latex in H. rewrite E in H. cbn [bind] in H.
  destruct (site_latex T a nd (st_site s)) as [x|] eqn:Ex; [|discriminate]. cbn [bind] in H.
  exists x. split; [reflexivity|]. pose proof (site_latex_siteish _ _ _ _ _ HT Hc Ex) as Sx. split; [exact Sx|].
  assert (Fx : strip_dollar x = x) by (apply strip_free; eapply free_weaken; [|apply siteish_free; exact Sx]; intros c Hc'; cbn in *; destruct (Ascii.eqb c "$"); [reflexivity|discriminate]).
  assert (Fd : forall z, strip_dollar (dec z) = dec z) by (intros; apply strip_free, dec_no; not_numeral).
  destruct sup; cbn [join fold_left] in H; injection H as <-; unfold bare.
  - rewrite sapp_E, !strip_app, Fx. cbn. rewrite ?sapp_E. split; reflexivity.
  - rewrite !sapp_A, !strip_app, Fx. cbn. rewrite Fd. split; reflexivity.
Qed.
Lemma bare_inj half sup x y s t : siteish x -> siteish y -> bare half sup x s = bare half sup y t ->
  x = y /\ st_spin s = st_spin t /\ (sup = false -> st_orbit s = st_orbit t).
Proof.
  intros Sx Sy H. unfold bare in H. apply site_cut in H as [-> H]; auto. split; [reflexivity|].
  destruct sup.
  - rewrite !sapp_E in H. apply spin_bare_inj in H. split; [exact H|discriminate].
  - assert (F : forall z, free (inb ",") (spin_bare half z)).
    { intros z. apply strip_keeps. pose proof (spin_latex_free half z) as F. weaken. }
    cbn [append] in H. apply (cut (inb ",")) in H; auto; try reflexivity. destruct H as [H1 H2]. apply spin_bare_inj in H1.
    injection H2 as H2. apply dec_inj in H2. auto.
Qed.
Lemma bare_free half sup x s : siteish x -> free (inb "$}cS") (bare half sup x s).
Proof.
  intros Sx. unfold bare. rewrite !free_app. split; [now apply siteish_free|]. split; [cbn; auto|]. split.
  - assert (F1 : free (inb "$") (spin_bare half (st_spin s))) by apply strip_is_free.
    assert (F2 : free (inb ",{}()cS_^") (spin_bare half (st_spin s))) by apply strip_keeps, spin_latex_free.
    apply free_has. intros c Hc. rewrite <- free_has in F1, F2. unfold inb in Hc. cbn in Hc.
    repeat match goal with H : orb _ _ = true |- _ => apply orb_prop in H as [H|H] end; try discriminate;
      match goal with H : Ascii.eqb _ _ = true |- _ => apply Ascii.eqb_eq in H; subst end; (apply F1; reflexivity) || (apply F2; reflexivity).
  - destruct sup; [exact I|]. rewrite free_app. split; [cbn; auto|]. apply dec_no. not_numeral.
Qed.

(** ** Operators *)
Definition abody (o : otype) (sub : string) : string :=
  "_{" ++ sub ++ match o with CREATION => "}^{\dagger}" | ANNIHILATION => "}" end.
Lemma abody_inj o o' u v : free (inb "}") u -> free (inb "}") v -> abody o u = abody o' v -> o = o' /\ u = v.
Proof.
  intros Fu Fv H. unfold abody in H. apply sapp_cancel in H.
  apply (cut (inb "}")) in H; auto; try (destruct o; reflexivity); try (destruct o'; reflexivity).
  destruct H as [-> H]. split; [|reflexivity]. destruct o, o'; auto; discriminate.
Qed.
Lemma abody_free o u : free (inb "$cS") u -> free (inb "$cS") (abody o u).
Proof. intros F. unfold abody. rewrite !free_app. destruct o; cbn; intuition. Qed.
Lemma aoc_latex_shape T zoom a nd half sup x b : built_state zoom (a_state x) -> clean_round T nd \/ a <> ANone ->
  aoc_latex T zoom a nd half sup x = Ok b ->
  exists u, site_latex T a nd (st_site (a_state x)) = Ok u /\ siteish u /\
    b = "$c" ++ abody (a_otype x) (bare half sup u (a_state x)) ++ "$" /\
    strip_dollar b = String "c" (abody (a_otype x) (bare half sup u (a_state x))).
Proof.
  intros Hb HT H. unfold aoc_latex in H. destruct (state_latex T zoom a nd half sup (a_state x)) as [s|] eqn:E; [|discriminate].
  cbn [bind] in H. destruct (state_latex_bare _ _ _ _ _ _ _ _ Hb HT E) as (u & Eu & Su & Es & _).
  exists u. split; [exact Eu|]. split; [exact Su|]. rewrite Es in H. pose proof (bare_free half sup u (a_state x) Su) as F.
  assert (S : strip_dollar (bare half sup u (a_state x)) = bare half sup u (a_state x)).
  { apply strip_free. weaken. }
  unfold abody. destruct (a_otype x); injection H as <-.
  - split; [cbn; now rewrite sapp_A|]. cbn. rewrite strip_app, S. reflexivity.
  - split; [cbn; now rewrite sapp_A|]. cbn. rewrite strip_app, S. reflexivity.
Qed.
Fixpoint segs (h : ascii) (us : list string) : string :=
  match us with [] => "" | u :: r => String h (u ++ segs h r) end.
Lemma seg_inj h : Ascii.eqb h "$" = false -> forall us vs a b, free (inb (String h "$")) a -> free (inb (String h "$")) b ->
  Forall (free (inb (String h "$"))) us -> Forall (free (inb (String h "$"))) vs ->
  a ++ segs h us ++ "$" = b ++ segs h vs ++ "$" -> a = b /\ us = vs.
Proof.
  intros Hh. assert (S : forall us, starts (inb (String h "$")) (segs h us ++ "$")).
  { intros [|u us]; cbn; [apply orb_true_iff; right; reflexivity|]. now rewrite Ascii.eqb_refl. }
  induction us as [|u us IH]; intros vs a b Fa Fb Fu Fv H.
  - apply (cut (inb (String h "$"))) in H; auto. destruct H as [-> H]. destruct vs as [|v vs]; [auto|].
    cbn in H. injection H as E _. subst h. discriminate.
  - apply (cut (inb (String h "$"))) in H; auto. destruct H as [-> H]. destruct vs as [|v vs].
    { cbn in H. injection H as E _. subst h. discriminate. }
    inversion Fu as [|? ? F1 F2]; subst. inversion Fv as [|? ? F3 F4]; subst.
    cbn in H. injection H as H. rewrite !sapp_A in H. destruct (IH vs u v F1 F3 F2 F4 H) as [-> ->]. auto.
Qed.
Lemma join_nil l : forall x, fold_left (fun a b => a ++ "" ++ b) l x = x ++ fold_right append "" l.
Proof.
  induction l as [|y l IH]; intros x; cbn [fold_left fold_right]; [now rewrite sapp_E|]. rewrite IH. cbn [append]. now rewrite sapp_A.
Qed.
Lemma fold_segs h us : fold_right append "" (map (String h) us ++ ["$"]) = segs h us ++ "$".
Proof. induction us as [|u us IH]; [reflexivity|]. cbn. rewrite IH, sapp_A. reflexivity. Qed.
Lemma term_shape h ctext us : join "" (["$"; ctext] ++ map (String h) us ++ ["$"]) = "$" ++ ctext ++ segs h us ++ "$".
Proof. unfold join. cbn [app]. rewrite join_nil. cbn [fold_right]. now rewrite fold_segs. Qed.
Lemma mapM_shapes {A} (f : A -> res string) (g : A -> string -> Prop) l : forall ys, mapM f l = Ok ys ->
  (forall x y, In x l -> f x = Ok y -> g x y) -> Forall2 g l ys.
Proof.
  induction l as [|x l IH]; intros ys H G; cbn [mapM] in H; [injection H as <-; constructor|].
  destruct (f x) as [y|] eqn:E; [|discriminate]. cbn [bind] in H. destruct (mapM f l) as [zs|] eqn:E'; [|discriminate].
  cbn [bind] in H. injection H as <-. constructor; [apply G; auto; now left|]. apply IH; auto. intros x' y' Hx. apply G. now right.
Qed.
