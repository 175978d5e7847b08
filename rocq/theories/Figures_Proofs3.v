(** C62: Lattice.show, the reciprocal vectors of a plane lattice, the octahedron. *)
From Coq Require Import String List Reals ZArith Bool Arith Lra Lia Psatz Ascii.
From Verif Require Import Py Line2D_Model Lattice_Model Lattice_Spec Lattice_Proofs Lattice_Proofs2 Lattice_Properties LatticeBonds_Proofs LatticeGen_Model LatticeGen_Proofs Reciprocal_Model Reciprocal_Spec Reciprocal_Proofs Reciprocal_Properties Zone_Proofs BrillouinZone_Proofs
  ColorPrint_Model Text_Model Text_Proofs Figures_Model Figures_Spec Figures_Proofs Figures_Proofs2.
Import ListNotations.
Open Scope R_scope.

Lemma vsub_self u : vsub u u = v0. Proof. vring. Qed.
Lemma shift_inj vs b ns ms : solve_columns vs = Ok b -> List.length ns = List.length vs -> List.length ms = List.length vs -> shift ns vs = shift ms vs -> ns = ms.
Proof.
  intros Hb Ln Lm E. destruct (shift_bound vs b Hb) as (c & Hc & H). specialize (H (map (fun p => (fst p - snd p)%Z) (combine ns ms))).
  rewrite map_length, combine_length, Ln, Lm, Nat.min_id in H. specialize (H eq_refl). rewrite <- shift_sub in H by congruence. rewrite E, vsub_self, norm_0 in H.
  assert (Z0 : (reach (map (fun p => (fst p - snd p)%Z) (combine ns ms)) <= 0)%Z). { apply le_IZR. nra. }
  apply reach_le in Z0; [|lia]. assert (LL : List.length ns = List.length ms) by congruence. clear - Z0 LL. revert ms LL Z0. induction ns as [|n ns IH]; intros [|m ms] LL Z0; try discriminate; [reflexivity|].
  cbn in Z0. inversion Z0 as [|? ? A B]; subst. f_equal; [lia|]. apply IH; [now injection LL|exact B].
Qed.
Lemma in_box s k ns : (0 <= s)%Z -> In ns (product (zrange (- s) (s + 1)) k) <-> List.length ns = k /\ Forall (fun n => (- s <= n <= s)%Z) ns.
Proof.
  intros Hs. rewrite in_product. split; intros [A B]; (split; [exact A|]); rewrite Forall_forall in *; intros n Hn; specialize (B n Hn); rewrite ?in_zrange in *; lia.
Qed.
Lemma product_count rs : forall k, List.length (product rs k) = (List.length rs ^ k)%nat.
Proof.
  induction k as [|k IH]; [reflexivity|]. cbn [product Nat.pow]. rewrite <- IH. clear IH. generalize (product rs k) as P. intros P. induction rs as [|r rs IHr]; [reflexivity|]. cbn [flat_map List.length Nat.mul]. rewrite app_length, map_length. lia.
Qed.
Definition mark (d : nat) (p : point) : R * R := if Nat.eqb d 1 then (coord 0 p, 0) else (coord 0 p, coord 1 p).
Lemma mark_point d p : (1 <= d <= 2)%nat -> in_space d p -> forall x y, (x, y) = mark d p <-> (x, y, 0) = p.
Proof.
  intros Hd Sp x y. destruct p as [[a b] e]. destruct d as [|[|[|d]]]; try lia; cbn in Sp; unfold mark; cbn [Nat.eqb coord].
  - destruct Sp as [-> ->]. split; intros E; [injection E as -> ->|injection E as -> ->]; reflexivity.
  - subst e. split; intros E; [injection E as -> ->|injection E as -> ->]; reflexivity.
Qed.
Lemma in_space_comb d vs : (forall v, In v vs -> in_space d v) -> forall ns, in_space d (comb ns vs).
Proof.
  induction vs as [|v vs IH]; intros H [|n ns]; try (cbn [comb]; destruct d as [|[|[|d]]]; cbn; auto; fail). cbn [comb]. apply in_space_add; [apply in_space_scale, H; now left|]. apply IH. intros w Hw. apply H. now right.
Qed.

(** ** the text *)
Lemma comma_tail s : free (inb ",") ("scope=" ++ dec s)%string.
Proof. apply free_app. split; [cbn; repeat split; auto|]. apply dec_no. intros c. cbn. destruct (Ascii.eqb_spec c ",") as [->|]; [reflexivity|discriminate]. Qed.
Lemma last_cut : forall a b u v : string, free (inb ",") u -> free (inb ",") v -> (a ++ String "," u = b ++ String "," v)%string -> a = b /\ u = v.
Proof.
  induction a as [|x a IH]; intros [|y b] u v Fu Fv E; cbn in E.
  - now injection E as ->.
  - injection E as <- ->. apply free_app in Fu as [_ [Fu _]]. discriminate.
  - injection E as -> <-. apply free_app in Fv as [_ [Fv _]]. discriminate.
  - injection E as -> E. destruct (IH b u v Fu Fv E) as [-> ->]. auto.
Qed.
Lemma title_inj n s n' s' : show_title n s = show_title n' s' -> n = n' /\ s = s'.
Proof.
  unfold show_title. intros E. change (",scope=" ++ dec s)%string with (String "," ("scope=" ++ dec s)) in E. change (",scope=" ++ dec s')%string with (String "," ("scope=" ++ dec s')) in E.
  destruct (last_cut _ _ _ _ (comma_tail s) (comma_tail s') E) as [-> D]. apply sapp_cancel in D. apply dec_inj in D. auto.
Qed.
Lemma sapp_cancel_r (t : string) : forall a b : string, (a ++ t = b ++ t)%string -> a = b.
Proof.
  assert (L : forall a b : string, String.length (a ++ b) = (String.length a + String.length b)%nat) by (induction a; intros; cbn; auto).
  induction a as [|x a IH]; intros [|y b] E; [reflexivity| | |].
  - apply (f_equal String.length) in E. cbn in E. rewrite L in E. lia.
  - apply (f_equal String.length) in E. cbn in E. rewrite L in E. lia.
  - cbn in E. injection E as -> E. now rewrite (IH b E).
Qed.
Lemma file_inj n s n' s' : show_file n s = show_file n' s' -> n = n' /\ s = s'.
Proof. unfold show_file. intros E. apply sapp_cancel_r in E. now apply title_inj in E. Qed.

(** ** reciprocal vectors of a plane lattice *)
Section Dual.
  Variables (a0 a1 : point).
  Hypothesis (S0 : in_space 2 a0) (S1 : in_space 2 a1).
  Let d := coord 0 a0 * coord 1 a1 - coord 1 a0 * coord 0 a1.
  Hypothesis (Nd : d <> 0).
  Definition rb0 : point := (2 * PI / d * coord 1 a1, - (2 * PI / d) * coord 0 a1, 0).
  Definition rb1 : point := (- (2 * PI / d) * coord 1 a0, 2 * PI / d * coord 0 a0, 0).
  Lemma gram_d : vdot a0 a0 * vdot a1 a1 - vdot a0 a1 * vdot a0 a1 = d * d.
  Proof. unfold d. destruct a0 as [[? ?] ?], a1 as [[? ?] ?]. cbn in *. subst. ring. Qed.
  Lemma plane_dual : BSCalculator 2 [a0; a1] = Ok [rb0; rb1] /\ dual_to [a0; a1] [rb0; rb1].
  Proof.
    assert (Ss : forall a, In a [a0; a1] -> in_space 2 a) by (intros a [<-|[<-|[]]]; assumption).
    assert (DU : dual_to [a0; a1] [rb0; rb1]).
    { split; [reflexivity|]. intros i j Hi Hj. cbn in Hi, Hj. unfold rb0, rb1, d in *. destruct a0 as [[x y] z], a1 as [[x' y'] z']. cbn in *.
      destruct i as [|[|i]], j as [|[|j]]; try lia; cbn; subst; field; exact Nd. }
    destruct (C52_BS 2 [a0; a1] ltac:(lia) eq_refl Ss) as [_ H]. destruct H as (BS & E & _ & _ & U).
    { apply pair_independent; auto. rewrite gram_d. intros X. apply Rmult_integral in X as [X|X]; contradiction. }
    assert (X : [rb0; rb1] = BS) by (apply U; [exact DU|]; intros b [<-|[<-|[]]]; reflexivity). split; [rewrite X; exact E|exact DU].
  Qed.
  Let f := (2 * PI / d) * (2 * PI / d).
  Lemma rb_dots : vdot rb0 rb0 = f * vdot a1 a1 /\ vdot rb1 rb1 = f * vdot a0 a0 /\ vdot rb0 rb1 = - (f * vdot a0 a1) /\
    coord 0 rb0 * coord 1 rb1 - coord 1 rb0 * coord 0 rb1 = f * d /\ 0 < f.
  Proof.
    assert (Pf : 0 < f). { unfold f. assert (N : 2 * PI / d <> 0). { unfold Rdiv. apply Rmult_integral_contrapositive_currified; [pose proof PI_RGT_0; lra|now apply Rinv_neq_0_compat]. } apply (Rsqr_pos_lt _ N). }
    split; [|split; [|split; [|split; [|exact Pf]]]]; clear Pf; unfold rb0, rb1, f, d in *; destruct a0 as [[x y] z], a1 as [[x' y'] z']; cbn in *; subst; field; exact Nd.
  Qed.
End Dual.
