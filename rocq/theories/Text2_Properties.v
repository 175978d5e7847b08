(** C60: printed forms of spaces, tables and bonds, and names of clusters, identify the object. *)
From Coq Require Import String List ZArith NArith QArith Bool Ascii Lia Floats.SpecFloat.
From Verif Require Import Py Float64_Model State_Model ColorPrint_Model Text_Model Text_Spec Text_Proofs Text_Proofs2 Text_Properties Bond_Model Hilbert_Model
  IndexTable_Model IndexTable_Spec IndexTable_Properties Lattice_Model LatticeGen_Model LatticeGen_Spec LatticeGen_Proofs LatticeGen_Properties Text2_Model Text2_Spec Text2_Proofs.
Import ListNotations.
Local Open Scope string_scope.

(** repr of a simple space is an expression constructing that space; equal reprs, or
    equal printed texts, mean the same states in the same order and the same number. *)
Theorem C60_simple_space : forall st nu s, make_simple st nu = Ok s ->
  (exists a ta n tn, simple_repr s = "SimpleHilbertSpace(" ++ ta ++ ", " ++ tn ++ ")" /\ source ta a /\ source tn n /\ make_simple a n = Ok s) /\
  forall st' nu' s', make_simple st' nu' = Ok s' ->
    (simple_repr s = simple_repr s' <-> s = s') /\ (simple_str s = simple_str s' <-> s = s').
Proof.
  intros st nu s H. split.
  - exists (states_val (ss_states s)), (states_repr (ss_states s)), (PInt (ss_number s)), (dec (ss_number s)).
    split; [reflexivity|]. split; [apply states_source|]. split; [constructor|]. exact (simple_again st nu s H).
  - intros st' nu' s' H'. assert (G : states_repr (ss_states s) = states_repr (ss_states s') -> ss_number s = ss_number s' -> s = s').
    { intros E N. assert (V : states_val (ss_states s) = states_val (ss_states s')) by (apply (source_unique (states_repr (ss_states s))); [apply states_source|rewrite E; apply states_source]).
      pose proof (simple_again _ _ _ H) as A. pose proof (simple_again _ _ _ H') as B. rewrite V, N, B in A. now injection A. }
    split; (split; [|now intros ->]).
    + intros E. unfold simple_repr in E. apply (sapp_cancel "SimpleHilbertSpace(") in E.
      apply (source_cut _ _ _ _ _ _ (states_source (ss_states s)) (states_source (ss_states s'))) in E as (_ & E1 & E2); [|reflexivity|reflexivity].
      apply (sapp_cancel ", ") in E2. apply (cut (inb ",)")) in E2 as [E2 _]; try apply dec_stop; try reflexivity. apply dec_inj in E2. auto.
    + intros E. unfold simple_str in E. apply lines_inj in E; try discriminate.
      * injection E as E1 _ E2. apply dec_inj in E1. auto.
      * repeat (apply Forall_cons; [rewrite ?free_app; repeat split; try apply dec_line; try apply states_line|]); constructor.
      * repeat (apply Forall_cons; [rewrite ?free_app; repeat split; try apply dec_line; try apply states_line|]); constructor.
Qed.
Print Assumptions C60_simple_space.

(** The same for HilbertSpace, for any number of subspaces. *)
Theorem C60_hilbert_space : forall F vs s, make_space vs = Ok s -> whole_numbers s ->
  (exists args ts, space_repr F s = "HilbertSpace(" ++ String.concat ", " ts ++ ")" /\ Forall2 source ts args /\ make_space args = Ok s) /\
  forall vs' s', make_space vs' = Ok s' -> whole_numbers s' ->
    (space_repr F s = space_repr F s' <-> s = s') /\ (space_str F s = space_str F s' <-> s = s').
Proof.
  intros F vs s H W. assert (SS : forall s, whole_numbers s -> Forall2 source (map (specifier_repr F) s) (map spec_val s)).
  { clear. intros s W. induction W as [|x s Hx W IH]; constructor; [now apply spec_source|exact IH]. }
  split.
  - exists (map spec_val s), (map (specifier_repr F) s). split; [unfold space_repr; now rewrite join_concat|]. split; [now apply SS|now apply (space_again vs)].
  - intros vs' s' H' W'. assert (G : map spec_val s = map spec_val s' -> s = s').
    { intros E. pose proof (space_again _ _ H) as A. pose proof (space_again _ _ H') as B. rewrite E, B in A. now injection A. }
    split; (split; [|now intros ->]).
    + intros E. apply G. unfold space_repr in E. rewrite !join_concat in E. apply (sapp_cancel "HilbertSpace(") in E.
      assert (All : Forall (fun v => forall t t' v' x x', source t v -> source t' v' -> stop x -> stop x' -> t ++ x = t' ++ x' -> v = v' /\ t = t' /\ x = x') (map spec_val s)) by (apply Forall_forall; intros; now apply (source_cut x t t' v' x0 x')).
      pose proof (SS s W) as S1. pose proof (SS s' W') as S2.
      assert (Q : forall x ts l, Forall2 source (x :: ts) l -> String.concat ", " (x :: ts) ++ ")" = ")" -> False).
      { intros x ts l F2 E2. inversion F2 as [|? v ? ? Sx _]; subst. rewrite concat_cons, sapp_A in E2. destruct (source_head x v Sx) as (c & r & -> & Hc). cbn in E2. injection E2 as -> _. destruct Hc; discriminate. }
      destruct (map (specifier_repr F) s) as [|x xs] eqn:Ex; destruct (map (specifier_repr F) s') as [|y ys] eqn:Ey.
      * inversion S1; inversion S2; reflexivity.
      * exfalso. symmetry in E. exact (Q y ys _ S2 E).
      * exfalso. exact (Q x xs _ S1 E).
      * now destruct (items_cut _ All _ _ _ "" "" S1 S2 ltac:(discriminate) ltac:(discriminate) E).
    + assert (LL : forall s, whole_numbers s -> Forall (free (inb newline)) (["subspace number: " ++ dec (Z.of_nat (List.length s)); "subspace specifiers:"] ++ map (fun x => "    " ++ specifier_repr F x) s)).
      { clear. intros s W. cbn [app]. apply Forall_cons; [rewrite free_app; split; [repeat split|apply dec_line]|]. apply Forall_cons; [repeat split|].
        apply Forall_forall. intros t Ht. apply in_map_iff in Ht as (x & <- & Hx). unfold whole_numbers in W. rewrite Forall_forall in W. rewrite free_app. split; [repeat split|apply spec_line, W, Hx]. }
      intros E. unfold space_str in E. apply lines_inj in E; auto; try discriminate. cbn [app] in E. injection E as _ E. apply G. clear - E W W' SS. revert s' W' E.
      induction W as [|x s Hx W IH]; intros [|y s'] W' E; try discriminate; [reflexivity|]. cbn [map] in E. pose proof (f_equal (hd "") E) as E1. pose proof (f_equal (@tl string) E) as E2. cbn [hd tl] in E1, E2. clear E. apply (sapp_cancel "    ") in E1. inversion W' as [|? ? Hy W2]; subst.
      cbn [map]. f_equal; [|now apply IH]. apply (source_unique (specifier_repr F x)); [now apply spec_source|rewrite E1; now apply spec_source].
Qed.
Print Assumptions C60_hilbert_space.

(** The printed text of a space has one line per item, with the right numbers. *)
Theorem C60_lines :
  (forall st nu s, make_simple st nu = Ok s -> exists a ta, source ta a /\ make_simple a (PInt (ss_number s)) = Ok s /\
     has_lines (simple_str s) ["The number of particle: " ++ dec (ss_number s); "The number of single-particle state: " ++ dec (Z.of_nat (List.length (ss_states s)));
                               "All available single-particle states:"; "    " ++ ta]) /\
  (forall F vs s, make_space vs = Ok s -> whole_numbers s -> exists args ts, Forall2 source ts args /\ make_space args = Ok s /\ List.length args = List.length s /\
     has_lines (space_str F s) (("subspace number: " ++ dec (Z.of_nat (List.length s)))%string :: "subspace specifiers:" :: map (append "    ") ts)).
Proof.
  split.
  - intros st nu s H. exists (states_val (ss_states s)), (states_repr (ss_states s)). split; [apply states_source|]. split; [now apply (simple_again st nu)|]. apply join_lines.
  - intros F vs s H W. exists (map spec_val s), (map (specifier_repr F) s). split.
    { clear - W. induction W as [|x s Hx W IH]; constructor; [now apply spec_source|exact IH]. }
    split; [now apply (space_again vs)|]. split; [apply map_length|]. rewrite map_map. apply join_lines.
Qed.
Print Assumptions C60_lines.

(** print(table): the text determines start and objects, if the objects' texts are
    different lines and begin with no digit, or the indices have less than 8 digits. *)
Theorem C60_table_str : forall (A T : Type) (eqb : A -> A -> bool) (type_of : A -> T) (isinst : A -> T -> bool) (rep : A -> string),
  (forall x y, rep x = rep y -> x = y) -> (forall x, none_of newline (rep x)) ->
  forall objs start objs' start' t t', make eqb type_of isinst objs start = Ok t -> make eqb type_of isinst objs' start' = Ok t' ->
  (forall x, no_number_first (rep x)) \/ (forall i, In i (indices t ++ indices t') -> (String.length (dec i) < 8)%nat) ->
  (table_str rep t = table_str rep t' <-> objs = objs' /\ start = start').
Proof.
  intros A T eqb type_of isinst rep RI RN objs start objs' start' t t' H H' C.
  destruct (IndexTable_Proofs.make_ok eqb type_of isinst _ _ _ H) as (x0 & r & E0 & _ & ->). destruct (IndexTable_Proofs.make_ok eqb type_of isinst _ _ _ H') as (y0 & r' & E0' & _ & ->). clear H H'.
  unfold IndexTable_Proofs.table_of, indices in C. cbn [index2object] in C. unfold IndexTable_Proofs.table_of, table_str. cbn [index2object]. split.
  - intros E. assert (LL : forall s (l : list A), Forall (free (inb newline)) (["Index   Object"; "=============="] ++ map (fun ik : Z * A => pad8 (dec (fst ik)) ++ rep (snd ik)) (enum s l))).
    { intros s l. cbn [app]. apply Forall_cons; [repeat split|]. apply Forall_cons; [repeat split|]. apply Forall_forall. intros u Hu. apply in_map_iff in Hu as (x & <- & _).
      unfold pad8. rewrite !free_app. split; [split; [apply dec_line|apply spaces_line]|]. apply none_free, RN. }
    apply lines_inj in E; auto; try discriminate. cbn [app] in E. injection E as E.
    assert (G : forall l l' s s', map (fun ik : Z * A => pad8 (dec (fst ik)) ++ rep (snd ik)) (enum s l) = map (fun ik : Z * A => pad8 (dec (fst ik)) ++ rep (snd ik)) (enum s' l') ->
       ((forall x, no_number_first (rep x)) \/ (forall i, In i (map fst (enum s l) ++ map fst (enum s' l')) -> (String.length (dec i) < 8)%nat)) -> l = l' /\ (l <> [] -> s = s')).
    { clear - RI. induction l as [|x l IH]; intros [|y l'] s s' E C; try discriminate; [split; [reflexivity|congruence]|]. cbn [enum map fst snd] in E. injection E as E1 E2.
      assert (Row : s = s' /\ rep x = rep y).
      { destruct C as [C|C]; [now apply row_plain|apply row_short; auto; apply C; cbn; [now left|]]. right. apply in_app_iff. right. now left. }
      destruct Row as [<- R]. apply RI in R as <-. destruct (IH l' _ _ E2) as [<- _]; [|auto].
      destruct C as [C|C]; [now left|right]. intros i Hi. apply C. cbn. apply in_app_iff in Hi as [Hi|Hi]; [right; apply in_app_iff; now left|right; apply in_app_iff; right; right; exact Hi]. }
    destruct (G _ _ _ _ E C) as [E1 E2]. split; [exact E1|]. apply E2. rewrite E0. discriminate.
  - now intros [-> ->].
Qed.
Print Assumptions C60_table_str.
(** Without the proviso two different tables print alike. *)
Theorem C60_table_collision_refuted : exists t t' : table Z unit,
  make Z.eqb (fun _ => tt) (fun _ _ => true) [95]%Z 12345678 = Ok t /\ make Z.eqb (fun _ => tt) (fun _ _ => true) [5]%Z 123456789 = Ok t' /\
  table_str dec t = table_str dec t' /\ query_object t (PyInt 12345678) = Ok 95%Z /\ query_object t' (PyInt 12345678) = Err KeyError.
Proof. eexists. eexists. split; [reflexivity|]. split; [reflexivity|]. split; [reflexivity|]. split; reflexivity. Qed.
Print Assumptions C60_table_collision_refuted.

(** repr of a bond is an expression which, evaluated at the same precision, gives the same bond;
    equal texts mean the same endpoints and kind. *)
Theorem C60_bond_repr : forall T zoom p0 p1 dir b, make_bond zoom p0 p1 dir = Ok b ->
  (exists l0 l1 t0 t1, bond_repr T b = "Bond(p0=" ++ t0 ++ ", p1=" ++ t1 ++ ", directional=" ++ (if dir then "True" else "False") ++ ")" /\
     tuple_source T t0 l0 /\ tuple_source T t1 l1 /\ Forall finite_num (l0 ++ l1)%list /\ make_bond zoom (PVec l0) (PVec l1) dir = Ok b) /\
  forall q0 q1 dir' b', faithful_repr T -> make_bond zoom q0 q1 dir' = Ok b' -> (bond_repr T b = bond_repr T b' <-> b = b').
Proof.
  intros T zoom p0 p1 dir b H.
  pose (items := fun a => match a with AI l => map NInt l | AF l => map NFlt l end).
  assert (I : forall p0 p1 dir b, make_bond zoom p0 p1 dir = Ok b -> init zoom (b_p0 b) (b_p1 b) dir = Ok b /\ b_dir b = dir /\ (alen (b_p0 b) <> 0 /\ alen (b_p1 b) <> 0)%nat /\
     (exists t0 t1, cells zoom (b_p0 b) = Ok t0 /\ cells zoom (b_p1 b) = Ok t1)).
  { clear. intros p0 p1 dir b H. assert (J : exists a0 a1, init zoom a0 a1 dir = Ok b).
    { unfold make_bond in H. destruct p0 as [l0|], p1 as [l1|]; try (destruct (np_array _); discriminate); try discriminate. destruct (np_array l0) as [a0|]; [|discriminate]. destruct (np_array l1) as [a1|]; [|discriminate]. cbn [bind] in H. eauto. }
    destruct J as (a0 & a1 & J). pose proof J as J0. unfold init in J. destruct (match alen a0 with 1%nat | 2%nat | 3%nat => true | _ => false end) eqn:E0; [|discriminate]. cbn [assert_ bind] in J.
    destruct (Nat.eqb (alen a1) (alen a0)) eqn:E1; [|discriminate]. cbn [assert_ bind] in J. destruct (cells zoom a0) as [t0|] eqn:C0; [|discriminate]. destruct (cells zoom a1) as [t1|] eqn:C1; [|discriminate]. cbn [bind] in J.
    apply Nat.eqb_eq in E1. assert (X : b_p0 b = a0 /\ b_p1 b = a1 /\ b_dir b = dir) by (destruct dir; [|destruct (lexb t0 t1)]; injection J as <-; auto). destruct X as (-> & -> & ->). split; [exact J0|]. split; [reflexivity|].
    split; [|eauto]. rewrite E1. destruct (alen a0) as [|k]; [discriminate|split; discriminate]. }
  assert (R : forall a, arr_repr T a = tuple_repr (map (num_repr T) (items a))).
  { intros [l|l]; unfold arr_repr, items; rewrite map_map; reflexivity. }
  assert (Re : forall a, forallb is_real (items a) = true) by (intros [l|l]; unfold items; induction l; [reflexivity|exact IHl|reflexivity|exact IHl]).
  assert (Ar : forall a, (alen a <> 0)%nat -> np_array (items a) = Ok a).
  { intros [l|l] Hl; unfold np_array, items.
    - assert (X : all_ints (map NInt l) = Some l) by (clear; induction l as [|z l IH]; [reflexivity|]; cbn; now rewrite IH). now rewrite X.
    - assert (Y : mapM to_float (map NFlt l) = Ok l) by (clear; induction l as [|z l IH]; [reflexivity|]; cbn; now rewrite IH). destruct l as [|f l]; [cbn in Hl; lia|]. cbn [map all_ints to_int]. cbn [map] in Y. now rewrite Y. }
  assert (Fi : forall a t, cells zoom a = Ok t -> Forall finite_num (items a)).
  { intros [l|l] t C; unfold items; [clear; induction l; constructor; [exact I|assumption]|]. cbn in C. revert t C. induction l as [|f l IH]; intros t C; [constructor|]. cbn [mapM quantise] in C.
    destruct (float_of_int zoom) as [zf|]; [|discriminate]. constructor; [|].
    - destruct f; try exact Logic.I; cbn in C; destruct zf; discriminate.
    - destruct (int_of_float (fmul zf f)); [|discriminate]. cbn [bind] in C. destruct (mapM _ l) as [u|] eqn:Eu; [|discriminate]. exact (IH u eq_refl). }
  destruct (I _ _ _ _ H) as (I0 & Ed & (N0 & N1) & (t0 & t1 & C0 & C1)). split.
  - exists (items (b_p0 b)), (items (b_p1 b)), (arr_repr T (b_p0 b)), (arr_repr T (b_p1 b)). split; [unfold bond_repr; now rewrite Ed|].
    assert (Tup : forall l, forallb is_real l = true -> tuple_source T (tuple_repr (map (num_repr T) l)) l).
    { clear. assert (Num : forall x, is_real x = true -> num_source T (num_repr T x) x) by (intros [z|f|] H; [constructor|constructor|discriminate]).
      intros l. destruct l as [|x [|y l]]; intros H; cbn [forallb] in H; [exact (no_items T)|apply andb_true_iff in H as [H _]; apply (one_item T); now apply Num|].
      apply andb_true_iff in H as [H1 H2]. unfold tuple_repr. cbn [map]. rewrite join_concat. apply (items T); [now apply Num| |discriminate].
      change (num_repr T y :: map (num_repr T) l) with (map (num_repr T) (y :: l)). change (is_real y && forallb is_real l = true)%bool with (forallb is_real (y :: l) = true) in H2.
      revert H2. generalize (y :: l). clear - Num. intros m. induction m as [|a m IH]; intros H; [constructor|]. cbn [forallb] in H. apply andb_true_iff in H as [H1 H2].
      constructor; [now apply Num|now apply IH]. }
    split; [rewrite R; now apply Tup|]. split; [rewrite R; now apply Tup|]. split; [apply Forall_app; split; eapply Fi; eassumption|].
    unfold make_bond. rewrite !Ar by assumption. cbn [bind]. exact I0.
  - intros q0 q1 dir' b' HT H'. destruct (I _ _ _ _ H') as (I0' & Ed' & (N0' & N1') & _). split; [|now intros ->]. intros E. unfold bond_repr in E.
    apply (sapp_cancel "Bond(p0=") in E. rewrite !R in E. assert (Nn : forall a, (alen a <> 0)%nat -> items a <> []) by (intros [[|? ?]|[|? ?]] X Y; cbn in X, Y; congruence || lia).
    apply coords_inj in E as [A0 E]; auto. apply (sapp_cancel ", p1=") in E. apply coords_inj in E as [A1 E]; auto. apply (sapp_cancel ", directional=") in E.
    assert (D : b_dir b = b_dir b') by (destruct (b_dir b), (b_dir b'); auto; discriminate).
    assert (A0' : b_p0 b = b_p0 b') by (pose proof (Ar _ N0) as X; rewrite A0, (Ar _ N0') in X; now injection X).
    assert (A1' : b_p1 b = b_p1 b') by (pose proof (Ar _ N1) as X; rewrite A1, (Ar _ N1') in X; now injection X).
    rewrite Ed, Ed' in D. rewrite A0', A1', D, I0' in I0. now injection I0.
Qed.
Print Assumptions C60_bond_repr.

(** The name given to a cluster determines the cluster. *)
Theorem C60_cluster_names : forall s c n0 n1 n2 s' c' m0 m1 m2,
  In (s, c) common_cells -> In (s', c') common_cells -> (1 <= n0)%Z -> (1 <= n1)%Z -> (1 <= n2)%Z -> (1 <= m0)%Z -> (1 <= m1)%Z -> (1 <= m2)%Z ->
  (generator_name s n0 n1 n2 = generator_name s' m0 m1 m2 <-> s = s' /\ extents c n0 n1 n2 = extents c' m0 m1 m2) /\
  (generator_name s n0 n1 n2 = generator_name s' m0 m1 m2 -> forall prec,
     lattice_generator prec (Name s) (AnInt n0) (AnInt n1) (AnInt n2) = lattice_generator prec (Name s') (AnInt m0) (AnInt m1) (AnInt m2)) /\
  (forall w v, In (w, v) special_clusters -> special_name w <> generator_name s n0 n1 n2).
Proof.
  intros s c n0 n1 n2 s' c' m0 m1 m2 H H' A0 A1 A2 B0 B1 B2.
  assert (Cm : forall z, free (inb ",)") (dec z)) by apply dec_stop.
  assert (X1 : forall a b, dec a ++ ")" = dec b ++ ")" -> a = b).
  { intros a b E. apply (cut (inb ",)")) in E as [E _]; auto; try reflexivity. now apply dec_inj. }
  assert (X2 : forall a b u v, dec a ++ "," ++ u = dec b ++ "," ++ v -> a = b /\ u = v).
  { intros a b u v E. apply (cut (inb ",)")) in E as [E E']; auto; try reflexivity. apply dec_inj in E. now injection E' as E'. }
  assert (X3 : forall a u v, dec a ++ ")" = dec u ++ "," ++ v -> False).
  { intros a u v E. apply (cut (inb ",)")) in E as [_ E]; auto; try reflexivity. discriminate. }
  assert (G : generator_name s n0 n1 n2 = generator_name s' m0 m1 m2 <-> s = s' /\ extents c n0 n1 n2 = extents c' m0 m1 m2).
  { cbn [common_cells In] in H, H'.
    repeat destruct H as [H|H]; try contradiction; injection H as <- <-; repeat destruct H' as [H'|H']; try contradiction; injection H' as <- <-;
      unfold generator_name; cbn [String.eqb Ascii.eqb Bool.eqb]; cbn [extents cvectors chain_cell square_cell triangle_cell honeycomb_cell kagome_cell cubic_cell List.length firstn];
      repeat match goal with |- context [Z.eqb ?a 1] => destruct (Z.eqb_spec a 1) end; cbn [andb];
      (split; [intros E; cbn [append] in E; try discriminate E|intros [E1 E2]; try discriminate E1; injection E2; intros; solve [subst; first [contradiction | reflexivity]]]);
      (split; [reflexivity|]); try congruence;
      repeat match goal with E : String ?a ?u = String ?a ?v |- _ => injection E as E end;
      first [ apply X1 in E; congruence
            | apply X2 in E; destruct E as [E0 E]; first [apply X1 in E; congruence | apply X2 in E; destruct E as [E1 E]; apply X1 in E; congruence] ]. }
  split; [exact G|]. split.
  - intros E prec. apply G in E as [<- E]. assert (c = c') as <- by (pose proof (find_common _ _ H) as F1; rewrite (find_common _ _ H') in F1; now injection F1).
    rewrite !(generator_build prec s c) by assumption. now rewrite E.
  - intros w v Hw E. unfold special_name in E. assert (P : forall u r, In u ["chain"; "square"; "triangle"; "honeycomb"; "kagome"; "cubic"] -> w = u ++ "(" ++ r -> False).
    { intros u r Hu ->. cbn [special_clusters In] in Hw. cbn [In] in Hu. repeat destruct Hu as [Hu|Hu]; try contradiction; subst u; repeat destruct Hw as [Hw|Hw]; try contradiction; discriminate Hw. }
    assert (Q : forall u, In u ["chain"; "square"; "triangle"; "honeycomb"; "kagome"; "cubic"] -> w = u ++ "_cell" -> False).
    { intros u Hu ->. cbn [special_clusters In] in Hw. cbn [In] in Hu. repeat destruct Hu as [Hu|Hu]; try contradiction; subst u; repeat destruct Hw as [Hw|Hw]; try contradiction; discriminate Hw. }
    assert (Hs : In s ["chain"; "square"; "triangle"; "honeycomb"; "kagome"; "cubic"]) by (cbn [common_cells In] in H; cbn [In]; repeat destruct H as [H|H]; try contradiction; injection H as <- _; auto 10).
    unfold generator_name in E. destruct (String.eqb_spec s "chain") as [->|_]; [|destruct (String.eqb_spec s "cubic") as [->|_]].
    + destruct (n0 =? 1)%Z; [exact (Q "chain" Hs E)|exact (P "chain" _ Hs E)].
    + destruct (_ && _ && _)%bool; [exact (Q "cubic" Hs E)|exact (P "cubic" _ Hs E)].
    + destruct (_ && _)%bool; [exact (Q s Hs E)|exact (P s _ Hs E)].
Qed.
Print Assumptions C60_cluster_names.

(** Concrete cases. *)
Example C60_cases :
  (exists s, make_space [PList [PTup [PInt 0; PInt 2]; PInt 1]; PTup [PTup [PInt 5]; PInt (-1)]] = Ok s /\ whole_numbers s /\
     space_repr (fun _ => "") s = "HilbertSpace(((0, 2), 1), ((5,), -1))") /\
  (exists s, make_simple (PInt 4) (PInt 2) = Ok s /\ simple_repr s = "SimpleHilbertSpace((0, 1, 2, 3), 2)") /\
  (exists t : table (Z * Z) unit, make (fun x y => (fst x =? fst y)%Z && (snd x =? snd y)%Z)%bool (fun _ => tt) (fun _ _ => true) [(0, 0); (0, 1)]%Z 0 = Ok t /\
     table_str (fun x => "(" ++ dec (fst x) ++ ", " ++ dec (snd x) ++ ")") t =
       "Index   Object" ++ newline ++ "==============" ++ newline ++ "0       (0, 0)" ++ newline ++ "1       (0, 1)") /\
  (exists b, make_bond 10000 (PVec [NInt 0; NInt 0]) (PVec [NInt 1; NInt 1]) true = Ok b /\ bond_repr sample_text b = "Bond(p0=(0, 0), p1=(1, 1), directional=True)") /\
  generator_name "square" 3 2 1 = "square(3,2)" /\ generator_name "chain" 1 5 7 = "chain_cell".
Proof.
  split; [eexists; split; [reflexivity|split; [repeat (apply Forall_cons; [eexists; reflexivity|]); constructor|reflexivity]]|].
  split; [eexists; split; reflexivity|]. split; [eexists; split; reflexivity|]. split; [eexists; split; reflexivity|]. split; reflexivity.
Qed.
