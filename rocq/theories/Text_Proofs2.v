(** Proofs for C54: spin operators and the [repr] texts. *)
From Coq Require Import String List ZArith Bool Ascii DecimalString SpecFloat Lia.
From Verif Require Import Py GQ Float64_Model State_Model State_Spec State_Proofs MatrixRepr_Model Particle_Model Particle_Spec Particle_Proofs Particle_Proofs2
  Spin_Model Spin_Spec Spin_Proofs3 ColorPrint_Model Text_Model Text_Spec Text_Proofs.
Import ListNotations.
Local Open Scope string_scope.

Lemma Forall2_texts {A} (R : A -> A -> Prop) (B : A -> string -> Prop) :
  (forall x y w v, B x w -> B y v -> (w = v <-> R x y)) ->
  forall l ws, Forall2 B l ws -> forall m vs, Forall2 B m vs -> (ws = vs <-> Forall2 R l m).
Proof.
  intros K. induction 1 as [|x w l ws Hx _ IH]; intros m vs Hm.
  - split.
    + intros <-. inversion Hm. constructor.
    + intros H. inversion H; subst. now inversion Hm.
  - split.
    + intros <-. inversion Hm as [|y ? m' ? Hy Hm']; subst. constructor; [now apply (K _ _ _ _ Hx Hy)|]. now apply (IH _ _ Hm').
    + intros H. inversion H as [|? y ? m' Hxy H']; subst. inversion Hm as [|? v ? vs' Hy Hm']; subst.
      f_equal; [now apply (K _ _ _ _ Hx Hy)|]. now apply (IH _ _ Hm').
Qed.

(** ** Spin operators *)
Definition sbody (o : sotype) (sub : string) : string := "_{" ++ sub ++ "}^{" ++ otype_name o ++ "}".
Lemma sbody_inj o o' u v : free (inb "}") u -> free (inb "}") v -> sbody o u = sbody o' v -> o = o' /\ u = v.
Proof.
  intros Fu Fv H. unfold sbody in H. apply sapp_cancel in H.
  apply (cut (inb "}")) in H; auto; try reflexivity.
  destruct H as [-> H]. split; [|reflexivity]. destruct o, o'; auto; discriminate.
Qed.
Lemma sbody_free o u : free (inb "$cS") u -> free (inb "S$") (sbody o u).
Proof. intros F. unfold sbody. rewrite !free_app. split; [cbn; auto|]. split; [weaken|]. destruct o; cbn; intuition. Qed.
Lemma built_spin_coord zoom x : built_spin zoom x -> make_site zoom (s_coord (so_site x)) = Ok (so_site x) /\ s_coord (so_site x) <> [] /\
  forallb is_real (s_coord (so_site x)) = true.
Proof.
  intros (o & site & H). unfold make_spin in H. destruct (otype_of_name o); [|discriminate].
  destruct (make_site zoom site) as [u|] eqn:E; [|discriminate]. injection H as <-. cbn [so_site].
  rewrite (make_site_inv _ _ _ E). split; [exact E|]. unfold make_site in E. destruct (_ && _)%bool eqn:B; [|discriminate].
  apply andb_prop in B as [B1 B2]. split; [|exact B2]. intros ->. discriminate.
Qed.
Lemma spinop_latex_shape T zoom a nd x b : built_spin zoom x -> clean_round T nd \/ a <> ANone ->
  spinop_latex T a nd x = Ok b ->
  exists u, site_latex T a nd (so_site x) = Ok u /\ siteish u /\
    b = "$S" ++ sbody (so_otype x) u ++ "$" /\ strip_dollar b = String "S" (sbody (so_otype x) u).
Proof.
  intros Hb HT H. destruct (built_spin_coord _ _ Hb) as (_ & Hc & _). unfold spinop_latex in H.
  destruct (site_latex T a nd (so_site x)) as [u|] eqn:E; [|discriminate]. cbn [bind] in H. injection H as <-.
  pose proof (site_latex_siteish _ _ _ _ _ HT Hc E) as Su. exists u. split; [reflexivity|]. split; [exact Su|].
  pose proof (siteish_free _ Su) as F. assert (Z : strip_dollar u = u) by (apply strip_free; weaken).
  unfold sbody. split.
  - rewrite !sapp_A. reflexivity.
  - destruct (so_otype x); cbn; rewrite strip_app, Z; reflexivity.
Qed.
(** The operator texts of a term, cut into segments. *)
Lemma segments {A} (f : A -> res string) (h : ascii) (B : A -> string -> Prop) (cs : string) l ys :
  mapM (fun x => bind (f x) (fun l => Ok (strip_dollar l))) l = Ok ys ->
  (forall x y, In x l -> f x = Ok y -> exists w, strip_dollar y = String h w /\ B x w /\ free (inb cs) w) ->
  exists ws, ys = map (String h) ws /\ Forall (free (inb cs)) ws /\ Forall2 B l ws.
Proof.
  intros H K.
  assert (G : Forall2 (fun x y => exists w, y = String h w /\ B x w /\ free (inb cs) w) l ys).
  { apply (mapM_shapes _ (fun x y => exists w, y = String h w /\ B x w /\ free (inb cs) w) _ _ H).
    intros x y Ix Ey. destruct (f x) as [z|] eqn:Ez; [|discriminate]. cbn [bind] in Ey. injection Ey as <-. eauto. }
  clear H K. induction G as [|x y l ys (w & -> & Bw & Fw) _ (ws & -> & F & H)].
  - exists []. repeat constructor.
  - exists (w :: ws). split; [reflexivity|]. split; constructor; auto.
Qed.

(** ** Tuples of numbers *)
Lemma join_cons sep z r : join sep (z :: r) = z ++ match r with [] => "" | _ => sep ++ join sep r end.
Proof.
  assert (F : forall l a, fold_left (fun a b => a ++ sep ++ b) l a = a ++ match l with [] => "" | y :: r => sep ++ fold_left (fun a b => a ++ sep ++ b) r y end).
  { induction l as [|x l IH]; intros a; cbn [fold_left]; [now rewrite sapp_E|]. rewrite IH.
    rewrite (IH x). now rewrite !sapp_A. }
  unfold join. rewrite F. destruct r; reflexivity.
Qed.
Lemma join_space_inj : forall l m e e', starts (inb ")") e -> starts (inb ")") e' ->
  Forall (free (inb ",)")) l -> Forall (free (inb ",)")) m -> l <> [] -> m <> [] ->
  join ", " l ++ e = join ", " m ++ e' -> l = m /\ e = e'.
Proof.
  assert (SX : forall e, starts (inb ")") e -> starts (inb ",)") e).
  { intros [|x e] He; [exact He|]. cbn in *. rewrite orb_false_r in *. rewrite He. now rewrite orb_true_r. }
  assert (NC : forall e s, starts (inb ")") e -> e <> String "," s) by (intros e s He ->; discriminate He).
  intros l m e e' He He'. revert m. induction l as [|x l IH]; intros m Fl Fm Nl Nm; [congruence|]. destruct m as [|y m]; [congruence|].
  inversion Fl as [|? ? Fx Fl']; subst. inversion Fm as [|? ? Fy Fm']; subst.
  rewrite !join_cons, !sapp_A. intros H.
  assert (S1 : starts (inb ",)") (match l with [] => "" | _ => ", " ++ join ", " l end ++ e)) by (destruct l; [apply SX, He|reflexivity]).
  assert (S2 : starts (inb ",)") (match m with [] => "" | _ => ", " ++ join ", " m end ++ e')) by (destruct m; [apply SX, He'|reflexivity]).
  apply (cut (inb ",)")) in H; auto. destruct H as [-> H].
  destruct l as [|x' l], m as [|y' m].
  - cbn in H. now split.
  - exfalso. exact (NC _ _ He H).
  - exfalso. symmetry in H. exact (NC _ _ He' H).
  - rewrite !sapp_A in H. apply (sapp_cancel ", ") in H. destruct (IH (y' :: m)) as [E1 E2]; auto; [discriminate|discriminate|]. split; [now f_equal|exact E2].
Qed.
Lemma tuple_inj l m e e' : Forall (free (inb ",)")) l -> Forall (free (inb ",)")) m -> l <> [] -> m <> [] ->
  tuple_repr l ++ e = tuple_repr m ++ e' -> l = m /\ e = e'.
Proof.
  intros Fl Fm Nl Nm H. destruct l as [|x l]; [congruence|]. destruct m as [|y m]; [congruence|].
  destruct l as [|x' l], m as [|y' m].
  - cbn [tuple_repr] in H. rewrite !sapp_A in H. apply (sapp_cancel "(") in H.
    inversion Fl; inversion Fm; subst. apply (cut (inb ",)")) in H; auto; try reflexivity. destruct H as [-> H].
    apply (sapp_cancel ",)") in H. auto.
  - exfalso. cbn [tuple_repr] in H. rewrite !sapp_A in H. apply (sapp_cancel "(") in H. rewrite join_cons, sapp_A in H.
    inversion Fl; inversion Fm; subst. apply (cut (inb ",)")) in H; auto; try reflexivity. destruct H as [_ H]. discriminate.
  - exfalso. cbn [tuple_repr] in H. rewrite !sapp_A in H. apply (sapp_cancel "(") in H. rewrite join_cons, sapp_A in H.
    inversion Fl; inversion Fm; subst. apply (cut (inb ",)")) in H; auto; try reflexivity. destruct H as [_ H]. discriminate.
  - unfold tuple_repr in H. rewrite !sapp_A in H. apply (sapp_cancel "(") in H.
    apply join_space_inj in H; auto; try reflexivity. destruct H as [-> H]. apply (sapp_cancel ")") in H. auto.
Qed.
Lemma num_repr_inj T x y : faithful_repr T -> is_real x = true -> is_real y = true -> num_repr T x = num_repr T y -> x = y.
Proof.
  intros (I & D & _) Hx Hy H. destruct x, y; try discriminate; cbn in H.
  - now rewrite (dec_inj _ _ H).
  - symmetry in H. now apply D in H.
  - now apply D in H.
  - now rewrite (I _ _ H).
Qed.
Lemma num_repr_free T x : faithful_repr T -> is_real x = true -> free (inb (",)" ++ newline)) (num_repr T x).
Proof.
  intros (_ & _ & F) Hx. destruct x; try discriminate; cbn [num_repr].
  - apply dec_no. cbn. not_numeral.
  - apply none_free. apply F.
Qed.
Definition coords_text (T : pytext) (c : list pynum) : string := tuple_repr (map (num_repr T) c).
Lemma coords_inj T c d e e' : faithful_repr T -> forallb is_real c = true -> forallb is_real d = true -> c <> [] -> d <> [] ->
  coords_text T c ++ e = coords_text T d ++ e' -> c = d /\ e = e'.
Proof.
  intros HT Hc Hd Nc Nd H.
  assert (F : forall c, forallb is_real c = true -> Forall (free (inb ",)")) (map (num_repr T) c)).
  { clear -HT. intros c Hc. rewrite forallb_forall in Hc. apply Forall_forall. intros s Hs. apply in_map_iff in Hs as (x & <- & Hx).
    pose proof (num_repr_free T x HT (Hc _ Hx)) as F. weaken. }
  apply tuple_inj in H; auto; try (intros E; apply map_eq_nil in E; contradiction).
  destruct H as [H ->]. split; [|reflexivity]. revert d Hd Nd H. clear Nc. induction c as [|x c IH]; intros d Hd Nd H.
  - destruct d; [reflexivity|discriminate].
  - destruct d as [|y d]; [discriminate|]. cbn in Hc, Hd, H. apply andb_prop in Hc as [Hx Hc]. apply andb_prop in Hd as [Hy Hd].
    injection H as E H. rewrite (num_repr_inj T x y HT Hx Hy E). f_equal. destruct d as [|y' d].
    + destruct c; [reflexivity|discriminate].
    + apply IH; auto. discriminate.
Qed.
Lemma coords_free T c : faithful_repr T -> forallb is_real c = true -> free (inb newline) (coords_text T c).
Proof.
  intros HT Hc. assert (F : Forall (free (inb newline)) (map (num_repr T) c)).
  { rewrite forallb_forall in Hc. apply Forall_forall. intros s Hs. apply in_map_iff in Hs as (x & <- & Hx).
    pose proof (num_repr_free T x HT (Hc _ Hx)) as F. weaken. }
  unfold coords_text. revert F. generalize (map (num_repr T) c). intros l F.
  assert (J : free (inb newline) (join ", " l)).
  { induction F as [|x l Hx F IH]; [exact I|]. rewrite join_cons, free_app. split; [exact Hx|]. destruct l; [exact I|].
    rewrite free_app. split; [cbn; auto|]. exact IH. }
  destruct l as [|x [|y l]].
  - cbn; auto.
  - cbn [tuple_repr]. rewrite !free_app. inversion F; subst. split; [cbn; auto|]. split; [assumption|]. cbn; auto.
  - unfold tuple_repr. rewrite !free_app. split; [cbn; auto|]. split; [exact J|]. cbn; auto.
Qed.
Lemma built_reals zoom s : built_state zoom s -> forallb is_real (s_coord (st_site s)) = true /\ s_coord (st_site s) <> [].
Proof.
  intros H. destruct (built_again _ _ H) as [E N]. split; [|exact N]. unfold make_site in E.
  destruct (_ && forallb is_real _)%bool eqn:B; [|discriminate]. now apply andb_prop in B.
Qed.
(** ", spin=S, orbit=O)" *)
Definition tail_text (s : stateid) : string := ", spin=" ++ dec (st_spin s) ++ ", orbit=" ++ dec (st_orbit s) ++ ")".
Lemma tail_inj s t : tail_text s = tail_text t -> st_spin s = st_spin t /\ st_orbit s = st_orbit t.
Proof.
  unfold tail_text. intros H. apply sapp_cancel in H.
  apply (cut (inb ",")) in H; try (apply dec_no; not_numeral); try reflexivity. destruct H as [H1 H].
  apply sapp_cancel in H. apply (cut (inb ")")) in H; try (apply dec_no; not_numeral); try reflexivity. destruct H as [H2 _].
  split; now apply dec_inj.
Qed.
Lemma tail_free s : free (inb newline) (tail_text s).
Proof. unfold tail_text. rewrite !free_app. repeat split; try (apply dec_no; not_numeral); reflexivity || exact I. Qed.
Lemma state_text_inj T zoom s t : faithful_repr T -> built_state zoom s -> built_state zoom t ->
  coords_text T (s_coord (st_site s)) ++ tail_text s = coords_text T (s_coord (st_site t)) ++ tail_text t -> same_data s t.
Proof.
  intros HT Hs Ht H. destruct (built_reals _ _ Hs) as [R1 N1]. destruct (built_reals _ _ Ht) as [R2 N2].
  apply coords_inj in H; auto. destruct H as [H1 H2]. apply tail_inj in H2 as [H2 H3]. now repeat split.
Qed.
Lemma join_lines : forall l m, Forall (free (inb newline)) l -> Forall (free (inb newline)) m -> l <> [] -> m <> [] ->
  join newline l = join newline m -> l = m.
Proof.
  induction l as [|x l IH]; intros m Fl Fm Nl Nm; [congruence|]. destruct m as [|y m]; [congruence|].
  inversion Fl as [|? ? Fx Fl']; subst. inversion Fm as [|? ? Fy Fm']; subst. rewrite !join_cons.
  assert (NL : forall x (y : string) s, free (inb newline) x -> x <> y ++ newline ++ s).
  { intros z w s Fz ->. rewrite free_app in Fz. destruct Fz as [_ Fz]. cbn in Fz. destruct Fz as [Fz _]. discriminate. }
  destruct l as [|x' l], m as [|y' m]; intros H.
  - rewrite !sapp_E in H. now subst.
  - exfalso. rewrite sapp_E in H. exact (NL _ _ _ Fx H).
  - exfalso. rewrite sapp_E in H. symmetry in H. exact (NL _ _ _ Fy H).
  - apply (cut (inb newline)) in H; auto; try reflexivity. destruct H as [-> H]. apply sapp_cancel in H. f_equal. apply IH; auto; discriminate.
Qed.
Lemma term_str_inj ca cb la lb : free (inb newline) ca -> free (inb newline) cb -> Forall (free (inb newline)) la -> Forall (free (inb newline)) lb ->
  term_str ca la = term_str cb lb -> ca = cb /\ la = lb.
Proof.
  intros Fa Fb Fla Flb H. unfold term_str in H.
  assert (M : forall l, Forall (free (inb newline)) l -> Forall (free (inb newline)) (map (fun r => "    " ++ r) l)).
  { intros l F. apply Forall_forall. intros s Hs. apply in_map_iff in Hs as (x & <- & Hx). rewrite Forall_forall in F.
    rewrite free_app. split; [cbn; auto|]. now apply F. }
  apply join_lines in H; try discriminate.
  - injection H as H1 H2. split; [exact H1|].
    clear -H2. revert lb H2. induction la as [|x la IH]; intros [|y lb] H; try discriminate; [reflexivity|].
    cbn [map] in H. injection H as E H. rewrite E. f_equal. now apply IH.
  - cbn [app]. apply Forall_cons; [rewrite free_app; split; [cbn; auto 60|exact Fa]|]. apply Forall_cons; [cbn; auto 60|]. now apply M.
  - cbn [app]. apply Forall_cons; [rewrite free_app; split; [cbn; auto 60|exact Fb]|]. apply Forall_cons; [cbn; auto 60|]. now apply M.
Qed.
Lemma map_text_inj {A} (f : A -> string) (R : A -> A -> Prop) (P : A -> Prop) :
  (forall x y, P x -> P y -> f x = f y -> R x y) -> forall l m, Forall P l -> Forall P m -> map f l = map f m -> Forall2 R l m.
Proof.
  intros K. induction l as [|x l IH]; intros [|y m] Fl Fm H; try discriminate; constructor; inversion Fl; inversion Fm; subst; injection H as E H; auto.
Qed.
(** A concrete text of floats. *)
Definition bool_text (b : bool) : string := if b then "n" else "p".
Definition sample_repr (f : f64) : string :=
  match f with
  | S754_zero s => "z" ++ bool_text s
  | S754_infinity s => "i" ++ bool_text s
  | S754_nan => "nan"
  | S754_finite s m e => "f" ++ bool_text s ++ dec (Zpos m) ++ "e" ++ dec e
  end.
Definition sample_text : pytext := MkText sample_repr (fun _ x => num_repr (MkText sample_repr (fun _ _ => "")) x).
Lemma sample_faithful : faithful_repr sample_text.
Proof.
  split; [|split].
  - intros f g. cbn [float_repr sample_text].
    destruct f as [s|s| |s m e], g as [t|t| |t n d]; try discriminate; try (destruct s; discriminate); try (destruct t; discriminate);
      cbn [sample_repr]; intros H; try (destruct s, t; reflexivity || discriminate); try reflexivity.
    apply (sapp_cancel "f") in H. assert (E : s = t) by (destruct s, t; reflexivity || discriminate). subst t. apply sapp_cancel in H.
    apply (cut (inb "e")) in H; try (apply dec_no; not_numeral); try reflexivity. destruct H as [H1 H2]. apply dec_inj in H1.
    apply (sapp_cancel "e") in H2. apply dec_inj in H2. congruence.
  - intros f z H. cbn [float_repr sample_text] in H. destruct (dec_starts z) as (c & r & E & N). rewrite E in H.
    destruct f; cbn in H; injection H as Hc _; subst c; discriminate.
  - intros f. cbn [float_repr sample_text]. apply none_free. destruct f as [s|s| |s m e]; cbn [sample_repr].
    + destruct s; cbn; intuition.
    + destruct s; cbn; intuition.
    + cbn; intuition.
    + rewrite !free_app. split; [cbn; auto|]. split; [destruct s; cbn; intuition|]. split; [apply dec_no; cbn; not_numeral|].
      split; [cbn; auto|]. apply dec_no; cbn; not_numeral.
Qed.
Lemma sample_clean nd : clean_round sample_text nd.
Proof.
  intros x. cbn [round_text sample_text]. apply none_free. destruct x as [z|f|]; cbn [num_repr].
  - apply dec_no. not_numeral.
  - cbn [float_repr]. destruct f as [s|s| |s m e]; cbn [sample_repr].
    + destruct s; cbn; intuition.
    + destruct s; cbn; intuition.
    + cbn; intuition.
    + rewrite !free_app. split; [cbn; intuition|]. split; [destruct s; cbn; intuition|]. split; [apply dec_no; not_numeral|].
      split; [cbn; intuition|]. apply dec_no; not_numeral.
  - cbn; auto.
Qed.

Lemma aoc_repr_free T zoom x : faithful_repr T -> built_state zoom (a_state x) -> free (inb newline) (aoc_repr T x).
Proof.
  intros HT Hx. destruct (built_reals _ _ Hx) as [R _]. pose proof (coords_free T _ HT R) as F. pose proof (tail_free (a_state x)) as G.
  unfold aoc_repr. change (", spin=" ++ dec (st_spin (a_state x)) ++ ", orbit=" ++ dec (st_orbit (a_state x)) ++ ")") with (tail_text (a_state x)).
  rewrite !free_app. split; [cbn; auto 60|]. split; [destruct (a_otype x); cbn; auto 60|]. split; [cbn; auto 60|]. split; [exact F|exact G].
Qed.
Lemma spinop_repr_free T zoom x : faithful_repr T -> built_spin zoom x -> free (inb newline) (spinop_repr T x).
Proof.
  intros HT Hx. destruct (built_spin_coord _ _ Hx) as (_ & _ & R). pose proof (coords_free T _ HT R) as F.
  unfold spinop_repr. rewrite !free_app. repeat split; try exact F; try (destruct (so_otype x); cbn; auto 60); cbn; auto 60.
Qed.
