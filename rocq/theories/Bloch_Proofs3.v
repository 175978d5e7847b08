(** The lists FTs and VTerms of the program for a generated cell and cluster. *)
From Coq Require Import Reals List Bool Arith ZArith Lia Lra Permutation.
From Coquelicot Require Import Complex.
From Verif Require Import Py CVec LinSolve MatrixRepr_Model Lattice_Model Lattice_Spec Lattice_Proofs LatticeGen_Model LatticeGen_Spec LatticeGen_Proofs LatticeBonds_Spec LatticeBonds_Proofs2
  Free_Spec Spectrum_Spec CPT_Model CPT_Spec CPT_Proofs CPT_Proofs2 CPT_Proofs3 CPT_Proofs4 CPT_Proofs6 Bloch_Spec Bloch_Proofs Bloch_Proofs2.
Import ListNotations.
Local Open Scope nat_scope.
Local Open Scope C_scope.

Lemma list_index_nth {A} (eqb : A -> A -> bool) x l i : list_index eqb x l = Ok i -> exists y, nth_error l i = Some y /\ eqb y x = true.
Proof.
  revert i. induction l as [|y l IH]; cbn; intros i H; [discriminate|]. destruct (eqb y x) eqn:E; [injection H as <-; exists y; auto|].
  destruct (list_index eqb x l) as [j|]; [|discriminate]. injection H as <-. cbn. now apply IH.
Qed.
Lemma omap_comp {A B D} (f : B -> option (res D)) (F : A -> B) l : omap f (map F l) = omap (fun x => f (F x)) l.
Proof. induction l as [|x l IH]; [reflexivity|]. cbn. destruct (f (F x)) as [[y|e]|]; cbn; [now rewrite IH|reflexivity|reflexivity]. Qed.

Section Lists.
  Context {K : Type}.
  Variables (keqb : K -> K -> bool) (dagger : K -> K) (site_of : K -> point) (derive : K -> point -> K) (mk : otype -> Z -> point -> K) (same : point -> point -> bool).
  Hypothesis OP : operators keqb dagger site_of derive mk same.
  Hypothesis SAME : forall p q, same p q = true -> (dist p q < / 10)%R.
  Variables (s0 s1 : Z).
  Hypothesis Hs : s0 <> s1.

  Lemma annihilators_two L : annihilators dagger mk [s0; s1] L = map (mk ANNIHILATION s0) (points L) ++ map (mk ANNIHILATION s1) (points L).
  Proof.
    unfold annihilators. rewrite creators_two, map_app, !map_map. f_equal; apply map_ext; intros p; apply (proj1 (op_dagger _ _ _ _ _ _ OP _ p)).
  Qed.
  Lemma index_at o L i s idx : separated (/ 10) L -> (i < length (points L))%nat ->
    list_index keqb (mk o s (nth i (points L) v0)) (map (mk o s0) (points L) ++ map (mk o s1) (points L)) = Ok idx ->
    (s = s0 -> idx = i) /\ (s = s1 -> idx = (length (points L) + i)%nat).
  Proof.
    intros SP Hi H. apply list_index_nth in H as (y & Ey & Ky). set (num := length (points L)) in *.
    assert (U : forall j, (j < num)%nat -> same (nth j (points L) v0) (nth i (points L) v0) = true -> j = i).
    { intros j Hj E. destruct (Nat.eq_dec j i) as [|N]; [assumption|exfalso]. apply SAME in E. pose proof (SP j i (repeat 0%Z (length (vectors L))) Hj Hi N (repeat_length _ _)) as Q.
      rewrite shift_zero, vadd_0_r in Q. lra. }
    destruct (Nat.lt_ge_cases idx num) as [Lo|Hi2].
    - rewrite nth_error_app1 in Ey by (now rewrite map_length). rewrite (nth_error_nth' _ (mk o s0 v0)), map_nth in Ey by (now rewrite map_length). injection Ey as <-.
      apply (op_eq _ _ _ _ _ _ OP) in Ky as (_ & E & Sm). apply U in Sm; [|exact Lo]. split; [intros; exact Sm|congruence].
    - rewrite nth_error_app2 in Ey by (now rewrite map_length). rewrite map_length in Ey. fold num in Ey.
      assert (Lo : (idx - num < num)%nat). { assert (X : nth_error (map (mk o s1) (points L)) (idx - num) <> None) by congruence. apply nth_error_Some in X. now rewrite map_length in X. }
      rewrite (nth_error_nth' _ (mk o s1 v0)), map_nth in Ey by (now rewrite map_length). injection Ey as <-.
      apply (op_eq _ _ _ _ _ _ OP) in Ky as (_ & E & Sm). apply U in Sm; [|exact Lo]. split; [congruence|intros; lia].
  Qed.

  Definition double_terms (L : lattice) (t : R) (T : list link) : list (nat * nat * C * point) :=
    let num := length (points L) in
    concat (map (fun l => [(from l, to l, RtoC t, shift (by_ l) (vectors L)); ((num + from l)%nat, (num + to l)%nat, RtoC t, shift (by_ l) (vectors L))]) T).
  Lemma v_terms_links fuel prec L t T VT : separated (view prec) L -> separated (/ 10) L -> (forall l, In l T -> valid L l) ->
    v_terms keqb mk fuel prec L [s0; s1] (creators mk [s0; s1] L) (annihilators dagger mk [s0; s1] L) (RtoC t) (map (fun l => (head L l, tail L l)) T) = Some (Ok VT) ->
    VT = double_terms L t T.
  Proof.
    intros S1 S2 HV H. unfold v_terms in H. apply obind_ok in H as (ll & H & E). injection E as <-. rewrite omap_comp in H. unfold double_terms. f_equal.
    set (num := length (points L)).
    apply (omap_map _ (fun l => [(from l, to l, RtoC t, shift (by_ l) (vectors L)); ((num + from l)%nat, (num + to l)%nat, RtoC t, shift (by_ l) (vectors L))]) T ll) in H; [apply H|].
    intros l y Hl Hy. cbv beta iota zeta in Hy. destruct (HV l Hl) as (V1 & V2 & V3).
    apply obind_ok in Hy as (pd0 & D0 & Hy). apply obind_ok in Hy as (pd1 & D1 & Hy).
    assert (E0 : pd0 = (nth (from l) (points L) v0, v0)).
    { replace (head L l) with (Lattice_Model.vadd (nth (from l) (points L) v0) (shift (repeat 0%Z (length (vectors L))) (vectors L))) in D0 by (rewrite shift_zero, vadd_0_r; reflexivity).
      apply decompose_unique in D0; [|exact S1|exact V1|apply repeat_length]. now rewrite shift_zero in D0. }
    assert (E1 : pd1 = (nth (to l) (points L) v0, shift (by_ l) (vectors L))) by (now apply (decompose_unique L fuel prec) in D1).
    subst pd0 pd1. cbn [fst snd] in Hy. rewrite creators_two, annihilators_two in Hy. cbn [omap] in Hy.
    apply obind_ok in Hy as (y0 & Hy0 & Hy). apply obind_ok in Hy as (ys & Hys & Hy). injection Hy as <-.
    apply obind_ok in Hys as (y1 & Hy1 & Hys). apply obind_ok in Hys as (zs & Hz & Hys). injection Hz as <-. injection Hys as <-.
    assert (VS : Lattice_Model.vsub (shift (by_ l) (vectors L)) v0 = shift (by_ l) (vectors L)) by (generalize (shift (by_ l) (vectors L)); clear; vring).
    apply obind_ok in Hy0 as (a0 & A0 & Hy0). apply obind_ok in Hy0 as (b0 & B0 & Hy0). injection Hy0 as <-. injection A0 as A0. injection B0 as B0.
    apply obind_ok in Hy1 as (a1 & A1 & Hy1). apply obind_ok in Hy1 as (b1 & B1 & Hy1). injection Hy1 as <-. injection A1 as A1. injection B1 as B1.
    rewrite VS. apply (index_at CREATION L (from l) s0) in A0 as [-> _]; auto. apply (index_at ANNIHILATION L (to l) s0) in B0 as [-> _]; auto.
    apply (index_at CREATION L (from l) s1) in A1 as [_ ->]; auto. apply (index_at ANNIHILATION L (to l) s1) in B1 as [_ ->]; auto.
  Qed.
  Lemma v_upper_double L k t T r cc : (r < length (points L) + length (points L))%nat -> (cc < length (points L) + length (points L))%nat -> (forall l, In l T -> valid L l) ->
    v_upper k (double_terms L t T) r cc = direct_sum (length (points L)) (v_upper k (single_terms L t T)) (v_upper k (single_terms L t T)) r cc.
  Proof.
    intros Hr Hc HV. set (num := length (points L)) in *. unfold double_terms. fold num. cbv zeta. rewrite v_upper_sum, lcsum_concat, lcsum_map.
    set (e := fun l => (from l, to l, RtoC t, shift (by_ l) (vectors L))).
    assert (S : forall r cc, v_upper k (single_terms L t T) r cc = lcsum (fun l => vt_value k r cc (e l)) T) by (intros; rewrite v_upper_sum; unfold single_terms; now rewrite lcsum_map).
    assert (B : forall l, In l T -> (from l < num)%nat /\ (to l < num)%nat) by (intros l Hl; destruct (HV l Hl) as (V1 & V2 & _); auto).
    assert (Z : forall (f : link -> C), (forall l, In l T -> f l = c0) -> lcsum f T = c0).
    { intros f Hf. clear - Hf. induction T as [|a l IH]; cbn; [reflexivity|]. rewrite Hf, IH by (try (now left); intros; apply Hf; now right). unfold c0; ring. }
    apply split_index in Hr as [Hr|(r' & Hr & ->)]; apply split_index in Hc as [Hc|(c' & Hc & ->)].
    - rewrite direct_ll, S by assumption. apply lcsum_ext. intros l Hl. unfold e. cbn [lcsum vt_value]. rewrite (proj2 (Nat.eqb_neq r (num + from l))) by lia. cbn [andb]. unfold c0; ring.
    - rewrite direct_lr by assumption. apply Z. intros l Hl. destruct (B l Hl). cbn [lcsum vt_value]. rewrite (proj2 (Nat.eqb_neq r (num + from l))), (proj2 (Nat.eqb_neq (num + c') (to l))), andb_false_r by lia. cbn [andb]. unfold c0; ring.
    - rewrite direct_rl by assumption. apply Z. intros l Hl. destruct (B l Hl). cbn [lcsum vt_value]. rewrite (proj2 (Nat.eqb_neq (num + r') (from l))), (proj2 (Nat.eqb_neq cc (num + to l))), andb_false_r by lia. cbn [andb]. unfold c0; ring.
    - rewrite direct_rr, S. apply lcsum_ext. intros l Hl. destruct (B l Hl). unfold e. cbn [lcsum vt_value]. rewrite (proj2 (Nat.eqb_neq (num + r') (from l))) by lia. cbn [andb].
      replace (Nat.eqb (num + r') (num + from l)) with (Nat.eqb r' (from l)) by (destruct (Nat.eqb_spec r' (from l)), (Nat.eqb_spec (num + r') (num + from l)); lia || reflexivity).
      replace (Nat.eqb (num + c') (num + to l)) with (Nat.eqb c' (to l)) by (destruct (Nat.eqb_spec c' (to l)), (Nat.eqb_spec (num + c') (num + to l)); lia || reflexivity).
      unfold c0; ring.
  Qed.
  Lemma v_matrix_double L k t T r cc : (r < length (points L) + length (points L))%nat -> (cc < length (points L) + length (points L))%nat -> (forall l, In l T -> valid L l) ->
    v_matrix k (double_terms L t T) r cc = direct_sum (length (points L)) (v_matrix k (single_terms L t T)) (v_matrix k (single_terms L t T)) r cc.
  Proof.
    intros Hr Hc HV. unfold v_matrix at 1. rewrite !v_upper_double by assumption. set (num := length (points L)) in *.
    apply split_index in Hr as [Hr|(r' & Hr & ->)]; apply split_index in Hc as [Hc|(c' & Hc & ->)].
    - rewrite !direct_ll by assumption. reflexivity.
    - rewrite !direct_lr, direct_rl, Cj_0 by assumption. unfold c0; ring.
    - rewrite !direct_rl, direct_lr, Cj_0 by assumption. unfold c0; ring.
    - rewrite !direct_rr. reflexivity.
  Qed.

  (** the cell of every operator *)
  Variables (c : cell) (g : gridded c) (nums : list Z) (L cl : lattice).
  Hypothesis Hnums : Forall (fun n => (1 <= n)%Z) nums.
  Hypothesis Hlen : length nums = length (cvectors c).
  Hypothesis Lp : points L = cluster c nums.
  Hypothesis Lv : vectors L = scale_rows nums (cvectors c).
  Hypothesis Cp : points cl = cpoints c.
  Hypothesis Cv : vectors cl = cvectors c.
  Let num := length (points L).
  Let nc := length (cpoints c).
  Lemma cells_of_operators fuel prec (ci : nat -> nat) (Rc : nat -> point) : separated (view prec) cl -> separated (/ 10) cl ->
    (forall i s p, nth_error (creators mk [s0; s1] L) i = Some (mk CREATION s p) ->
       exists q, decompose cl fuel prec (Site (space_dim cl) p) = Some (Ok (q, Rc i)) /\ list_index keqb (mk CREATION s q) (creators mk [s0; s1] cl) = Ok (ci i)) ->
    forall i, (i < num)%nat -> ci i = ty c i /\ ci (num + i)%nat = (nc + ty c i)%nat /\ Rc i = shift (cellnum c nums i) (cvectors c) /\ Rc (num + i)%nat = shift (cellnum c nums i) (cvectors c).
  Proof.
    intros S1 S2 H i Hi. destruct (placed c nums L Hnums Hlen Lp i Hi) as (Ht & Hb & E & _).
    assert (En : nth_error (points L) i = Some (site c (ty c i) (cellnum c nums i))) by (rewrite <- E; now apply nth_error_nth').
    pose proof (box_length _ _ Hb) as Ln. rewrite creators_two in H. rewrite creators_two in H.
    assert (G : forall j s, nth_error (map (mk CREATION s0) (points L) ++ map (mk CREATION s1) (points L)) j = Some (mk CREATION s (site c (ty c i) (cellnum c nums i))) ->
       Rc j = shift (cellnum c nums i) (cvectors c) /\ ((s = s0 -> ci j = ty c i) /\ (s = s1 -> ci j = (nc + ty c i)%nat))).
    { intros j s Ej. destruct (H j s _ Ej) as (q & Dq & Iq). unfold site in Dq. rewrite <- Cp, <- Cv in Dq.
      apply decompose_unique in Dq; [|exact S1|rewrite Cp; exact Ht|rewrite Cv; congruence]. injection Dq as -> ->. rewrite Cv. split; [reflexivity|].
      apply index_at in Iq; [|exact S2|rewrite Cp; exact Ht]. now rewrite Cp in Iq. }
    destruct (G i s0) as (R0 & C0 & _).
    { rewrite nth_error_app1 by (rewrite map_length; exact Hi). now apply map_nth_error. }
    destruct (G (num + i)%nat s1) as (R1 & _ & C1).
    { rewrite nth_error_app2 by (rewrite map_length; unfold num; lia). rewrite map_length. replace (num + i - length (points L))%nat with i by (unfold num; lia). now apply map_nth_error. }
    auto.
  Qed.
End Lists.
