(** Which entries of the list of distances are right. *)
From Coq Require Import List Reals ZArith Bool Arith Lra Lia Permutation Sorted.
From Flocq Require Import Core.Raux Core.Generic_fmt Core.Round_NE.
From Verif Require Import Py CVec LinSolve Line2D_Model Line2D_Proofs Lattice_Model Lattice_Spec Lattice_Proofs Lattice_Proofs2 Lattice_Proofs3 Neighbors_Spec Neighbors_Proofs.
Import ListNotations.
Open Scope R_scope.

Lemma in_zlist prec L ord S z : listing ord -> (0 <= S)%Z ->
  (In z (zlist prec (sites_factory L ord S false)) <->
   exists i j c, (i < List.length (points L))%nat /\ (j < List.length (points L))%nat /\ List.length c = List.length (vectors L) /\ (reach c <= 2 * S)%Z /\
     differ i j c /\ z = rint (between L i j c * zoom prec)).
Proof.
  intros Ho HS. unfold zlist. rewrite in_zunique, in_map_iff. split.
  - intros (d & <- & Hd). apply in_pdist_sites in Hd as (i & j & c & A & B & C & D & E & ->); auto. exists i, j, c. auto 8.
  - intros (i & j & c & A & B & C & D & E & ->). exists (between L i j c). split; [reflexivity|]. apply in_pdist_sites; auto. exists i, j, c. auto 8.
Qed.
Lemma zlist_sorted prec sites : StronglySorted Z.lt (zlist prec sites).
Proof. apply zunique_sorted. Qed.

(** multiples of one translation vector *)
Definition along (k t : nat) (v : Z) : list Z := upd (repeat 0%Z k) t v.
Lemma along_length k t v : List.length (along k t v) = k.
Proof. unfold along. now rewrite upd_length, repeat_length. Qed.
Lemma nth_repeat0 k t : nth t (repeat 0%Z k) 0%Z = 0%Z.
Proof. revert t. induction k as [|k IH]; intros [|t]; cbn; auto. Qed.
Lemma along_shift vs t v : (t < List.length vs)%nat -> shift (along (List.length vs) t v) vs = vscale (IZR v) (nth t vs v0).
Proof.
  intros Ht. unfold along. rewrite upd_shift by (rewrite repeat_length; auto). rewrite shift_zero, vadd_0_l, nth_repeat0, Z.sub_0_r. reflexivity.
Qed.
Lemma along_reach k t v : (t < k)%nat -> reach (along k t v) = Z.abs v.
Proof.
  intros Ht. assert (A : (Z.abs v <= reach (along k t v))%Z) by (apply upd_reach_ge; now rewrite repeat_length).
  assert (B : (reach (along k t v) <= Z.abs v)%Z) by (apply upd_reach_le; [rewrite reach_zero; lia|lia]). lia.
Qed.
Lemma along_nonzero k t v : (t < k)%nat -> v <> 0%Z -> exists n, In n (along k t v) /\ n <> 0%Z.
Proof.
  intros Ht Hv. destruct (all_zero_dec (along k t v)) as [H|H]; [exact H|]. exfalso.
  assert (E : along k t v = repeat 0%Z k).
  { rewrite <- (along_length k t v) at 2. revert H. generalize (along k t v). intros l H. induction l as [|x l IH]; [reflexivity|]. cbn. f_equal; [apply H; now left|apply IH; auto with datatypes]. }
  pose proof (along_reach k t v Ht) as R. rewrite E, reach_zero in R. lia.
Qed.
Lemma between_along L i t v : (t < List.length (vectors L))%nat ->
  between L i i (along (List.length (vectors L)) t v) = Rabs (IZR v) * norm (nth t (vectors L) v0).
Proof.
  intros Ht. unfold between. rewrite along_shift by exact Ht. rewrite <- norm_scale. unfold dist. rewrite vadd_sub. reflexivity.
Qed.
Lemma in_zlist_multiple prec L ord S t v : listing ord -> (0 <= S)%Z -> points L <> [] -> (t < List.length (vectors L))%nat -> (1 <= v <= 2 * S)%Z ->
  In (rint (IZR v * (norm (nth t (vectors L) v0) * zoom prec))) (zlist prec (sites_factory L ord S false)).
Proof.
  intros Ho HS Hp Ht Hv. assert (Lp : (0 < List.length (points L))%nat) by (destruct (points L); [contradiction|cbn; lia]).
  apply in_zlist; auto. exists 0%nat, 0%nat, (along (List.length (vectors L)) t v). split; [exact Lp|]. split; [exact Lp|]. split; [apply along_length|].
  split; [rewrite along_reach by exact Ht; lia|]. split; [right; apply along_nonzero; [exact Ht|lia]|].
  rewrite between_along by exact Ht. f_equal. rewrite Rabs_right by (apply Rle_ge, IZR_le; lia). ring.
Qed.
(** so the m-th entry is at most m times the length of any translation vector *)
Lemma entry_bound prec L ord S t m : listing ord -> (0 <= S)%Z -> points L <> [] -> (t < List.length (vectors L))%nat ->
  1 <= norm (nth t (vectors L) v0) * zoom prec -> (Z.of_nat m < 2 * S)%Z ->
  exists z, nth_error (zlist prec (sites_factory L ord S false)) m = Some z /\ (z <= rint (IZR (Z.of_nat m + 1) * (norm (nth t (vectors L) v0) * zoom prec)))%Z.
Proof.
  intros Ho HS Hp Ht Hx Hm. set (x := norm (nth t (vectors L) v0) * zoom prec) in *. set (l := zlist prec (sites_factory L ord S false)).
  pose (f := map (fun j => rint (IZR (Z.of_nat j + 1) * x)) (seq 0 (Datatypes.S m))).
  assert (Nf : NoDup f).
  { unfold f. assert (I : forall a b, In a (seq 0 (Datatypes.S m)) -> In b (seq 0 (Datatypes.S m)) -> rint (IZR (Z.of_nat a + 1) * x) = rint (IZR (Z.of_nat b + 1) * x) -> a = b).
    { intros a b _ _ E. destruct (Nat.lt_trichotomy a b) as [H|[H|H]]; [|exact H|]; exfalso.
      - pose proof (rint_multiples x (Z.of_nat a + 1) (Z.of_nat b + 1) Hx ltac:(lia)). lia.
      - pose proof (rint_multiples x (Z.of_nat b + 1) (Z.of_nat a + 1) Hx ltac:(lia)). lia. }
    revert I. generalize (seq_NoDup (Datatypes.S m) 0). generalize (seq 0 (Datatypes.S m)). intros s Ns I. induction Ns as [|a s Ha Ns IH]; cbn; [constructor|]. constructor.
    - intros H. apply in_map_iff in H as (b & E & Hb). apply I in E; cbn; auto. subst. contradiction.
    - apply IH. intros u w Hu Hw. apply I; cbn; auto. }
  assert (If : incl f l).
  { intros z Hz. unfold f in Hz. apply in_map_iff in Hz as (j & <- & Hj). apply in_seq in Hj. apply in_zlist_multiple; auto; lia. }
  assert (Lf : List.length f = Datatypes.S m) by (unfold f; now rewrite map_length, seq_length).
  assert (Ll : (m < List.length l)%nat) by (pose proof (NoDup_incl_length Nf If); lia).
  destruct (nth_error l m) as [z|] eqn:E; [|apply nth_error_None in E; lia]. exists z. split; [reflexivity|].
  destruct (Z.le_gt_cases z (rint (IZR (Z.of_nat m + 1) * x))) as [H|H]; [exact H|]. exfalso.
  assert (I2 : incl f (firstn m l)).
  { intros y Hy. apply (sorted_rank l (zlist_sorted _ _) m z E). split; [auto|]. unfold f in Hy. apply in_map_iff in Hy as (j & <- & Hj). apply in_seq in Hj.
    eapply Z.le_lt_trans; [|exact H]. apply rint_le. apply Rmult_le_compat_r; [lra|]. apply IZR_le. lia. }
  pose proof (NoDup_incl_length Nf I2) as Hl. rewrite firstn_length in Hl. lia.
Qed.

(** sites outside the window are far away *)
Lemma combination_add xs : forall ys vs, List.length xs = List.length ys ->
  vadd (combination xs vs) (combination ys vs) = combination (map (fun p => fst p + snd p) (combine xs ys)) vs.
Proof.
  induction xs as [|x xs IH]; intros [|y ys] [|v vs] H; try discriminate; cbn [combination combine map fst snd]; try (cbn; apply p3_eq; ring).
  rewrite <- IH by (cbn in H; lia). generalize (combination xs vs) (combination ys vs). vring.
Qed.
Lemma abs_max xs : xs <> [] -> exists t, (t < List.length xs)%nat /\ forall j, (j < List.length xs)%nat -> Rabs (nth j xs 0) <= Rabs (nth t xs 0).
Proof.
  induction xs as [|x xs IH]; intros H; [contradiction|]. assert (D : xs = [] \/ xs <> []) by (destruct xs; [now left|right; discriminate]). destruct D as [-> | D].
  - exists O. cbn. split; [lia|]. intros [|j] Hj; [lra|lia].
  - destruct (IH D) as (t & Ht & Hm). destruct (Rle_dec (Rabs (nth t xs 0)) (Rabs x)) as [C|C].
    + exists O. cbn [List.length nth]. split; [lia|]. intros [|j] Hj; [lra|]. specialize (Hm j ltac:(lia)). lra.
    + exists (Datatypes.S t). cbn [List.length nth]. split; [lia|]. intros [|j] Hj; [lra|]. apply Hm. lia.
Qed.
Lemma nth_zip_add xs : forall ys j, List.length xs = List.length ys -> nth j (map (fun p => fst p + snd p) (combine xs ys)) 0 = nth j xs 0 + nth j ys 0.
Proof. induction xs as [|x xs IH]; intros [|y ys] [|j] H; try discriminate; cbn in *; try lra. apply IH. lia. Qed.
Lemma reduced_wide vs : reduced (1 / 2) vs -> wide vs.
Proof.
  intros Hr xs t Lx Ht Hm. set (M := Rabs (nth t xs 0)) in *. assert (M0 : 0 <= M) by apply Rabs_pos.
  pose proof (dominant (1 / 2) vs t xs M Hr Ht Lx Hm M0) as D. unfold a_ in D. set (a := nth t vs v0) in *.
  pose proof (vdot_nonneg a) as G0. set (g := vdot a a) in *.
  assert (B : M * g / 2 <= Rabs (vdot (combination xs vs) a)).
  { pose proof (Rabs_triang_inv (nth t xs 0 * g) (nth t xs 0 * g - vdot (combination xs vs) a)) as TI.
    replace (nth t xs 0 * g - (nth t xs 0 * g - vdot (combination xs vs) a)) with (vdot (combination xs vs) a) in TI by ring.
    rewrite Rabs_mult, (Rabs_right g) in TI by lra. fold M in TI. rewrite (Rabs_minus_sym (nth t xs 0 * g)) in TI. lra. }
  set (u := combination xs vs) in *. pose proof (cauchy u a) as CS. pose proof (norm_nonneg a) as A0. pose proof (norm_nonneg u) as U0.
  assert (Eg : norm a * norm a = g) by apply norm_sq.
  destruct (Req_dec (norm a) 0) as [Z|Z]; [rewrite Z; lra|].
  apply (Rmult_le_reg_r (norm a)); [lra|]. rewrite Rmult_assoc, Eg. nra.
Qed.
Lemma span_perp xs vs w : List.length xs = List.length vs -> (forall a, In a vs -> vdot w a = 0) -> norm (combination xs vs) <= norm (vadd (combination xs vs) w).
Proof.
  intros Lx Hw. apply norm_le. assert (Z : vdot (combination xs vs) w = 0).
  { rewrite dot_combination by exact Lx. apply rsum_zero. intros j Hj. rewrite vdot_comm, Hw by (apply nth_In; exact Hj). ring. }
  rewrite vdot_add_l, !vdot_add_r, (vdot_comm w (combination xs vs)), Z. pose proof (vdot_nonneg w). lra.
Qed.
Lemma far_away L i j c S : (1 <= List.length (vectors L))%nat -> wide (vectors L) -> compact L ->
  (i < List.length (points L))%nat -> (j < List.length (points L))%nat -> List.length c = List.length (vectors L) -> (0 <= S)%Z -> (2 * S < reach c)%Z ->
  exists t, (t < List.length (vectors L))%nat /\ IZR S * norm (nth t (vectors L) v0) <= between L i j c.
Proof.
  intros Hk Hr Hc Hi Hj Lc HS R. set (vs := vectors L) in *.
  destruct (Hc (nth i (points L) v0) (nth j (points L) v0) (nth_In _ _ Hi) (nth_In _ _ Hj)) as (ts & w & Lt & Ft & Hw & E). fold vs in Lt, Hw, E.
  set (xs := map (fun p => fst p + snd p) (combine (map IZR c) ts)).
  assert (Lx : List.length xs = List.length vs) by (unfold xs; rewrite map_length, combine_length, map_length; lia).
  assert (Eu : vsub (vadd (nth i (points L) v0) (shift c vs)) (nth j (points L) v0) = vadd (combination xs vs) w).
  { unfold xs. rewrite <- combination_add by (rewrite map_length; lia). fold (shift c vs).
    replace (vsub (vadd (nth i (points L) v0) (shift c vs)) (nth j (points L) v0)) with (vadd (shift c vs) (vsub (nth i (points L) v0) (nth j (points L) v0))) by (generalize (shift c vs) (nth i (points L) v0) (nth j (points L) v0); vring).
    rewrite E. apply vadd_assoc. }
  destruct (abs_max xs) as (t & Ht & Hm); [intros Z; rewrite Z in Lx; cbn in Lx; lia|]. rewrite Lx in Ht, Hm.
  exists t. split; [exact Ht|]. set (M := Rabs (nth t xs 0)) in *.
  assert (HM : 2 * IZR S <= M).
  { destruct (reach_nth c) as (s & [[Hs Rs]|Rs]); [|rewrite Rs in Lc; cbn in Lc; lia]. eapply Rle_trans; [|apply (Hm s); lia].
    unfold xs. rewrite nth_zip_add by (rewrite map_length; lia). rewrite nth_map_IZR.
    assert (T : Rabs (nth s ts 0) <= 1) by (rewrite Forall_forall in Ft; apply Ft, nth_In; lia).
    assert (A : 2 * IZR S + 1 <= Rabs (IZR (nth s c 0%Z))) by (rewrite <- abs_IZR; rewrite <- (mult_IZR 2), <- (plus_IZR _ 1); apply IZR_le; lia).
    pose proof (Rabs_triang_inv (IZR (nth s c 0%Z)) (- nth s ts 0)) as TI. rewrite Rabs_Ropp in TI.
    replace (IZR (nth s c 0%Z) - - nth s ts 0) with (IZR (nth s c 0%Z) + nth s ts 0) in TI by ring. lra. }
  specialize (Hr xs t Lx Ht Hm). fold M in Hr. unfold between, dist. fold vs. rewrite Eu.
  pose proof (span_perp xs vs w Lx Hw) as P. pose proof (norm_nonneg (nth t vs v0)) as A0. nra.
Qed.

(** every rounded distance is 0 or one of these *)
Lemma rounded_iff prec L v : points L <> [] -> (rounded_distance prec L v <->
  exists z, v = IZR z / zoom prec /\ (z = 0%Z \/ exists i j c, (i < List.length (points L))%nat /\ (j < List.length (points L))%nat /\ List.length c = List.length (vectors L) /\
     differ i j c /\ z = rint (between L i j c * zoom prec))).
Proof.
  intros Hp. assert (Lp : (0 < List.length (points L))%nat) by (destruct (points L); [contradiction|cbn; lia]). split.
  - intros (d & (p & q & ns & Hip & Hiq & Ln & ->) & ->). eexists. split; [reflexivity|].
    apply (In_nth _ _ v0) in Hip as (i & Hi & <-), Hiq as (j & Hj & <-).
    destruct (Nat.eq_dec i j) as [->|N]; [|right; exists i, j, ns; repeat split; auto; now left].
    destruct (all_zero_dec ns) as [H|H]; [right; exists j, j, ns; repeat split; auto; now right|left].
    assert (E : ns = repeat 0%Z (List.length ns)) by (clear Ln; induction ns as [|x l IH]; [reflexivity|]; cbn; f_equal; [apply H; now left|apply IH; auto with datatypes]).
    rewrite E, shift_zero, vadd_0_r, dist_refl, Rmult_0_l. apply (rint_IZR 0).
  - intros (z & -> & [->|(i & j & c & Hi & Hj & Lc & _ & ->)]).
    + exists 0. split; [|rewrite Rmult_0_l; now rewrite (rint_IZR 0)]. exists (nth 0 (points L) v0), (nth 0 (points L) v0), (repeat 0%Z (List.length (vectors L))).
      split; [now apply nth_In|]. split; [now apply nth_In|]. split; [apply repeat_length|]. now rewrite shift_zero, vadd_0_r, dist_refl.
    + exists (between L i j c). split; [|reflexivity]. exists (nth i (points L) v0), (nth j (points L) v0), c. repeat split; auto; now apply nth_In.
Qed.
Lemma view_zoom_le prec d : view prec <= d -> 1 <= d * zoom prec.
Proof. intros H. pose proof (zoom_pos prec). rewrite <- (zoom_view prec), (Rmult_comm d). apply Rmult_le_compat_l; lra. Qed.
Lemma resolved_vectors prec L t : resolved prec L -> points L <> [] -> (t < List.length (vectors L))%nat -> 1 <= norm (nth t (vectors L) v0) * zoom prec.
Proof.
  intros Hr Hp Ht. assert (Lp : (0 < List.length (points L))%nat) by (destruct (points L); [contradiction|cbn; lia]).
  specialize (Hr 0%nat 0%nat (along (List.length (vectors L)) t 1) Lp Lp (along_length _ _ _) (or_intror (along_nonzero _ t 1%Z Ht ltac:(lia)))).
  fold (between L 0 0 (along (List.length (vectors L)) t 1)) in Hr. rewrite between_along in Hr by exact Ht. rewrite Rabs_R1, Rmult_1_l in Hr.
  apply view_zoom_le; exact Hr.
Qed.
Lemma resolved_pos prec L i j c : resolved prec L -> (i < List.length (points L))%nat -> (j < List.length (points L))%nat -> List.length c = List.length (vectors L) ->
  differ i j c -> (1 <= rint (between L i j c * zoom prec))%Z.
Proof.
  intros Hr Hi Hj Lc D. apply rint_pos. specialize (Hr i j c Hi Hj Lc D). fold (between L i j c) in Hr. apply view_zoom_le; exact Hr.
Qed.
(** entry m of the list for the window S is the m-th distance, if m <= S *)
Lemma entries_right prec L ord S m : listing ord -> (0 <= S)%Z -> points L <> [] -> (1 <= List.length (vectors L))%nat ->
  wide (vectors L) -> compact L -> resolved prec L -> (Z.of_nat m <= S)%Z ->
  exists v, nth_error (all_distances prec (sites_factory L ord S false)) m = Some v /\ nth_distance prec L m v.
Proof.
  intros Ho HS Hp Hk Hr Hc Hres Hm. rewrite all_distances_zlist. set (l := zlist prec (sites_factory L ord S false)).
  assert (Hs : StronglySorted Z.lt (0%Z :: l)).
  { constructor; [apply zlist_sorted|]. apply Forall_forall. intros z Hz. apply in_zlist in Hz as (i & j & c & Hi & Hj & Lc & _ & D & ->); auto.
    pose proof (resolved_pos prec L i j c Hres Hi Hj Lc D). lia. }
  assert (Hbound : exists z, nth_error (0%Z :: l) m = Some z /\
     forall i j c, (i < List.length (points L))%nat -> (j < List.length (points L))%nat -> List.length c = List.length (vectors L) -> (2 * S < reach c)%Z -> (z <= rint (between L i j c * zoom prec))%Z).
  { destruct m as [|m].
    - exists 0%Z. split; [reflexivity|]. intros i j c _ _ _ _. apply rint_nonneg. apply Rmult_le_pos; [apply dist_nonneg|apply Rlt_le, zoom_pos].
    - cbn [nth_error]. destruct (entry_bound prec L ord S 0 m Ho HS Hp ltac:(lia) (resolved_vectors prec L 0 Hres Hp ltac:(lia)) ltac:(lia)) as (z & E & _). exists z. split; [exact E|].
      intros i j c Hi Hj Lc Rc. destruct (far_away L i j c S Hk Hr Hc Hi Hj Lc HS Rc) as (t & Ht & B).
      destruct (entry_bound prec L ord S t m Ho HS Hp Ht (resolved_vectors _ _ _ Hres Hp Ht) ltac:(lia)) as (z' & E' & Bz). fold l in E, E'. rewrite E in E'. injection E' as <-.
      eapply Z.le_trans; [exact Bz|]. apply rint_le. rewrite <- Rmult_assoc. apply Rmult_le_compat_r; [apply Rlt_le, zoom_pos|].
      eapply Rle_trans; [|exact B]. apply Rmult_le_compat_r; [apply norm_nonneg|]. apply IZR_le. lia. }
  destruct Hbound as (z & Ez & Far). exists (IZR z / zoom prec). split; [now rewrite nth_error_map, Ez|].
  assert (Sub : forall y, (y = 0%Z \/ exists i j c, (i < List.length (points L))%nat /\ (j < List.length (points L))%nat /\ List.length c = List.length (vectors L) /\ differ i j c /\ y = rint (between L i j c * zoom prec)) -> (y < z)%Z -> In y (0%Z :: l)).
  { intros y [->|(i & j & c & Hi & Hj & Lc & D & ->)] Hy; [now left|right]. apply in_zlist; auto. exists i, j, c. repeat split; auto.
    destruct (Z.le_gt_cases (reach c) (2 * S)) as [H|H]; [exact H|]. specialize (Far i j c Hi Hj Lc H). lia. }
  assert (Sup : forall y, In y (0%Z :: l) -> rounded_distance prec L (IZR y / zoom prec)).
  { intros y Hy. apply rounded_iff; [exact Hp|]. exists y. split; [reflexivity|]. destruct Hy as [<-|Hy]; [now left|right].
    apply in_zlist in Hy as (i & j & c & Hi & Hj & Lc & _ & D & ->); auto. exists i, j, c. auto. }
  split; [apply Sup; eapply nth_error_In, Ez|].
  exists (map (fun k => IZR k / zoom prec) (firstn m (0%Z :: l))). split; [|split].
  - apply FinFun.Injective_map_NoDup; [intros a b E; now apply unit_div_inj in E|]. apply firstn_nodup, sorted_nodup, Hs.
  - rewrite map_length, firstn_length. assert (m < List.length (0%Z :: l))%nat by (apply nth_error_Some; congruence). lia.
  - intros u. rewrite in_map_iff. split.
    + intros (y & <- & Hy). apply (sorted_rank _ Hs m z Ez) in Hy as [Hy Lt]. split; [now apply Sup|now apply unit_div_lt].
    + intros [Hu Lt]. apply rounded_iff in Hu as (y & -> & Hy); [|exact Hp]. apply unit_div_lt in Lt. exists y. split; [reflexivity|].
      apply (sorted_rank _ Hs m z Ez). split; [now apply Sub|exact Lt].
Qed.
