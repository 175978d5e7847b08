(** Proofs for C61_nearest, part 2: the links of a generated cluster, listed explicitly. *)
From Coq Require Import Reals String List ZArith Bool Arith Lia Lra Permutation.
From Verif Require Import Py GQ Mat Spin_Model Spin_Spec
  Lattice_Model Lattice_Spec Lattice_Proofs Lattice_Properties LatticeGen_Model LatticeGen_Spec LatticeGen_Proofs LatticeGen_Properties LatticeBonds_Spec
  Bloch_Spec Bloch_Proofs Bloch_Proofs2 Heisenberg_Spec LatticeNearest2_Properties Bands_Proofs HeisenbergBonds_Spec HeisenbergBonds_Proofs.
Import ListNotations.
Local Open Scope nat_scope.

Lemma NoDup_flat {A B} (f : A -> list B) l : NoDup l -> (forall x, In x l -> NoDup (f x)) -> (forall x y z, In x l -> In y l -> In z (f x) -> In z (f y) -> x = y) -> NoDup (flat_map f l).
Proof.
  induction l as [|x l IH]; intros N F D; [constructor|]. inversion N; subst. cbn. apply NoDup_app_intro.
  - apply F. now left.
  - apply IH; auto; [intros; apply F; now right|]. intros a b z Ha Hb. apply D; now right.
  - intros z Q2 Q3. apply in_flat_map in Q3 as (y & Hy & Hz). assert (x = y) by (apply (D x y z); auto; [now left|now right]). subst y. contradiction.
Qed.
Lemma NoDup_map_in {A B} (f : A -> B) l : NoDup l -> (forall x y, In x l -> In y l -> f x = f y -> x = y) -> NoDup (map f l).
Proof.
  induction l as [|x l IH]; intros N D; [constructor|]. inversion N; subst. cbn. constructor.
  - intros H. apply in_map_iff in H as (y & E & Hy). assert (y = x) by (apply D; auto; [now right|now left]). subst y. contradiction.
  - apply IH; [assumption|]. intros a b Ha Hb. apply D; now right.
Qed.

Lemma cells_box nums ns : In ns (cells nums) <-> box nums ns.
Proof.
  revert ns. induction nums as [|n nums IH]; intros ns; cbn [cells].
  - split; [intros [<-|[]]; constructor|]. intros H. inversion H. now left.
  - rewrite in_flat_map. split.
    + intros (x & Hx & H). apply in_map_iff in Hx as (q & <- & Hq). apply in_seq in Hq. apply in_map_iff in H as (r & <- & Hr). constructor; [lia|]. now apply IH.
    + intros H. inversion H as [|? x ? r Hx Hr]; subst. exists x. split; [|apply in_map, IH, Hr]. apply in_map_iff. exists (Z.to_nat x). split; [lia|]. apply in_seq. lia.
Qed.
Lemma cells_nodup nums : NoDup (cells nums).
Proof.
  induction nums as [|n nums IH]; cbn [cells]; [constructor; [now intros []|constructor]|]. apply NoDup_flat.
  - apply NoDup_map_in; [apply seq_NoDup|]. intros; lia.
  - intros x _. apply NoDup_map_in; [exact IH|]. intros a b _ _ E. now injection E.
  - intros x y z _ _ Hx Hy. apply in_map_iff in Hx as (a & <- & _). apply in_map_iff in Hy as (b & E & _). now injection E.
Qed.
(** the translation that wrap removes *)
Definition turns (nums ms : list Z) : list Z := map (fun p => (snd p / fst p)%Z) (combine nums ms).
Lemma wrap_box nums : forall ms, Forall (fun n => (1 <= n)%Z) nums -> length ms = length nums -> box nums (wrap nums ms).
Proof. induction nums as [|n nums IH]; intros [|m ms] F E; try discriminate; [constructor|]. inversion F; subst. unfold wrap. cbn. constructor; [apply Z.mod_pos_bound; lia|]. apply IH; auto. Qed.
Lemma turns_length nums : forall ms, length ms = length nums -> length (turns nums ms) = length nums.
Proof. intros ms E. unfold turns. rewrite map_length, combine_length. lia. Qed.
Lemma wrap_turns nums : forall ms, Forall (fun n => (1 <= n)%Z) nums -> length ms = length nums -> muladd nums (wrap nums ms) (turns nums ms) = ms.
Proof.
  induction nums as [|n nums IH]; intros [|m ms] F E; try discriminate; [reflexivity|]. inversion F; subst. unfold wrap, turns in *. cbn. rewrite IH by auto. f_equal. pose proof (Z.div_mod m n). lia.
Qed.
Lemma wrap_id nums ns : box nums ns -> wrap nums ns = ns.
Proof. induction 1; [reflexivity|]. unfold wrap in *. cbn. rewrite IHForall2, Z.mod_small by assumption. reflexivity. Qed.

Lemma nearest_first name a : nearest_sites name a = first_neighbours name a.
Proof. reflexivity. Qed.

Section Torus.
  Variables (name : string) (c : cell) (nums : list Z) (L : lattice).
  Hypothesis Hn : In (name, c) common_cells.
  Hypothesis Hnums : Forall (fun n => (1 <= n)%Z) nums.
  Hypothesis Hlen : length nums = length (cvectors c).
  Hypothesis Lp : points L = cluster c nums.
  Hypothesis Lv : vectors L = scale_rows nums (cvectors c).
  Let nc := length (cpoints c).
  Definition torus_links : list link :=
    flat_map (fun ns => flat_map (fun a => map (fun e => Link (number c nums a ns) (number c nums (fst e) (moved ns (snd e))) (turns nums (moved ns (snd e)))) (nearest_sites name a))
      (seq 0 nc)) (cells nums).
  Lemma torus_ends : map ends torus_links = torus_pairs name c nums.
  Proof.
    unfold torus_links, torus_pairs. rewrite flat_map_concat_map, concat_map, map_map, <- flat_map_concat_map. apply flat_map_ext. intros ns.
    rewrite flat_map_concat_map, concat_map, map_map, <- flat_map_concat_map. apply flat_map_ext. intros a. rewrite map_map. reflexivity.
  Qed.

  Lemma neighbour_sites a b M : (a < nc)%nat -> (In (b, M) (nearest_sites name a) <-> is_site c b M /\ (b, M) <> (a, home c) /\ dist (site c a (home c)) (site c b M) = spacing name).
  Proof. intros Ha. apply (first_neighbours_ok name c a Hn Ha). Qed.
  Lemma number_ok a ns : (a < nc)%nat -> box nums ns -> number c nums a ns = (Z.to_nat (position nums ns) * nc + a)%nat.
  Proof. intros _ B. unfold number. now rewrite wrap_id. Qed.
  Lemma number_place b ms : (b < nc)%nat -> length ms = length nums -> (number c nums b ms < length (points L))%nat /\ ty c (number c nums b ms) = b /\ cellnum c nums (number c nums b ms) = wrap nums ms.
  Proof. intros Hb E. apply (at_place c nums L Hnums Hlen Lp (wrap nums ms) b); [now apply wrap_box|exact Hb]. Qed.
  Lemma moved_length ns M : box nums ns -> length M = length nums -> length (moved ns M) = length nums.
  Proof. intros B E. apply box_length in B. unfold moved. rewrite map_length, combine_length. lia. Qed.

  Lemma link_of ns a e : box nums ns -> (a < nc)%nat -> In e (nearest_sites name a) ->
    let k := Link (number c nums a ns) (number c nums (fst e) (moved ns (snd e))) (turns nums (moved ns (snd e))) in
    valid L k /\ rel c nums (from k) k = e /\ ty c (from k) = a /\ cellnum c nums (from k) = ns.
  Proof.
    intros B Ha He k. destruct e as [b M]. apply neighbour_sites in He as ([Hb HM] & NE & D); auto. cbn [fst snd] in k. rewrite <- Hlen in HM. pose proof (moved_length ns M B HM) as LM.
    destruct (number_place b (moved ns M) Hb LM) as (N1 & N2 & N3). destruct (number_place a ns Ha (box_length _ _ B)) as (A1 & A2 & A3). rewrite (wrap_id _ _ B) in A3.
    split; [repeat split; cbn; auto; rewrite (vectors_length c nums L Hlen Lv); now apply turns_length|]. split; [|split; [exact A2|exact A3]].
    unfold rel, k. cbn [from to by_]. rewrite N2, N3, A3, wrap_turns by auto. f_equal. change (moved ns M) with (zplus ns M). apply zsub_plus. rewrite (box_length _ _ B). congruence.
  Qed.
  Lemma torus_all : all_links L (fun x => x = spacing name) torus_links.
  Proof.
    assert (ST : forall k, valid L k -> (~ stays L k <-> (to k, by_ k) <> (from k, still L))).
    { intros k V. split; intros H X; apply H.
      - injection X as X1 X2. split; [congruence|]. rewrite X2. intros x Hx. now apply repeat_spec in Hx.
      - destruct X as [X1 X2]. f_equal; [congruence|]. destruct (still_or_crossing L (by_ k) (proj2 (proj2 V))) as [E|(x & Hx & Nx)]; [exact E|]. now elim (Nx (X2 x Hx)). }
    split.
    - unfold torus_links. apply NoDup_flat; [apply cells_nodup| |].
      + intros ns Hns. apply cells_box in Hns. apply NoDup_flat; [apply seq_NoDup| |].
        * intros a Ha. apply in_seq in Ha. apply NoDup_map_in; [apply (first_neighbours_ok name c a Hn ltac:(lia))|].
          intros e e' He He' E. destruct (link_of ns a e Hns ltac:(lia) He) as (_ & R1 & _). destruct (link_of ns a e' Hns ltac:(lia) He') as (_ & R2 & _). rewrite <- R1, <- R2, E. reflexivity.
        * intros a a' z Ha Ha' Hz Hz'. apply in_seq in Ha, Ha'. apply in_map_iff in Hz as (e & <- & He). apply in_map_iff in Hz' as (e' & E & He').
          destruct (link_of ns a e Hns ltac:(lia) He) as (_ & _ & T1 & _). destruct (link_of ns a' e' Hns ltac:(lia) He') as (_ & _ & T2 & _). rewrite <- T1, <- T2, E. reflexivity.
      + intros ns ns' z Hns Hns' Hz Hz'. apply cells_box in Hns, Hns'. apply in_flat_map in Hz as (a & Ha & Hz). apply in_flat_map in Hz' as (a' & Ha' & Hz'). apply in_seq in Ha, Ha'.
        apply in_map_iff in Hz as (e & <- & He). apply in_map_iff in Hz' as (e' & E & He').
        destruct (link_of ns a e Hns ltac:(lia) He) as (_ & _ & _ & T1). destruct (link_of ns' a' e' Hns' ltac:(lia) He') as (_ & _ & _ & T2). rewrite <- T1, <- T2, E. reflexivity.
    - intros k. split.
      + intros H. unfold torus_links in H. apply in_flat_map in H as (ns & Hns & H). apply cells_box in Hns. apply in_flat_map in H as (a & Ha & H). apply in_seq in Ha. apply in_map_iff in H as (e & Ek & He).
        destruct (link_of ns a e Hns ltac:(lia) He) as (V & R & T1 & T2). cbv zeta in V, R, T1, T2. rewrite Ek in V, R, T1, T2. destruct e as [b M]. apply neighbour_sites in He as (S & NE & D); [|lia].
        split; [exact V|]. assert (X : (to k, by_ k) <> (from k, still L)).
        { intros X. apply NE. rewrite <- R, <- T1. destruct k as [i j ks]. cbn [from to by_] in *. injection X as -> ->. unfold rel. cbn [to by_]. unfold still. rewrite (vectors_length c nums L Hlen Lv).
          rewrite muladd_still by (rewrite T2; now apply box_length). rewrite zsub_self, T2, (box_length _ _ Hns). unfold home. now rewrite Hlen. }
        split; [now apply ST|]. rewrite (len_rel c nums L Hnums Hlen Lp Lv (from k) k V eq_refl), R, T1. exact D.
      + intros (V & NS & HL). apply (ST k V) in NS. pose proof (proj1 V) as Hr. destruct (placed c nums L Hnums Hlen Lp (from k) Hr) as (P1 & P2 & P3 & P4).
        destruct (rel_moved c nums L Hnums Hlen Lp Lv (from k) k Hr V eq_refl NS) as (S & NE). rewrite (len_rel c nums L Hnums Hlen Lp Lv (from k) k V eq_refl) in HL.
        set (a := ty c (from k)) in *. set (ns := cellnum c nums (from k)) in *. assert (He : In (rel c nums (from k) k) (nearest_sites name a)).
        { destruct (rel c nums (from k) k) as [b M] eqn:E. apply neighbour_sites; auto. }
        unfold torus_links. apply in_flat_map. exists ns. split; [now apply cells_box|]. apply in_flat_map. exists a. split; [apply in_seq; fold nc in P1; lia|]. apply in_map_iff.
        exists (rel c nums (from k) k). split; [|exact He]. destruct (link_of ns a _ P2 P1 He) as (V' & R' & T1 & T2). set (k' := Link _ _ _) in *.
        assert (F : from k' = from k) by (unfold k'; cbn [from]; rewrite number_ok by auto; symmetry; exact P4).
        apply (rel_inj c nums L Hnums Hlen Lp Lv (from k) k' k Hr V' V F eq_refl). rewrite <- F at 1. exact R'.
  Qed.
  Lemma torus_size : length torus_links = (coordination name * length (points L))%nat.
  Proof.
    assert (CS : length (cells nums) = Z.to_nat (count nums)).
    { clear - Hnums. induction nums as [|n r IH]; [reflexivity|]. inversion Hnums as [|? ? H1 H2]; subst. cbn [cells count fold_right]. change (fold_right Z.mul 1%Z r) with (count r).
      assert (FL : forall {A B} (f : A -> list B) q l, (forall x, length (f x) = q) -> length (flat_map f l) = (length l * q)%nat) by (intros A B f q l H; induction l as [|x l IHl]; cbn; [reflexivity|]; now rewrite app_length, H, IHl).
      rewrite (FL _ _ _ (length (cells r))) by (intros; apply map_length). rewrite map_length, seq_length, (IH H2), Z2Nat.inj_mul; [reflexivity|lia|].
      clear - H2. induction H2; cbn; [lia|]. unfold count in *. lia. }
    rewrite Lp, cluster_length by exact Hnums. fold nc. rewrite <- CS.
    assert (FL : forall {A B} (f : A -> list B) q l, (forall x, In x l -> length (f x) = q) -> length (flat_map f l) = (length l * q)%nat).
    { intros A B f q l. induction l as [|x l IHl]; intros H; cbn; [reflexivity|]. rewrite app_length, H by (now left). rewrite IHl by (intros; apply H; now right). reflexivity. }
    unfold torus_links. rewrite (FL _ _ _ (nc * coordination name)%nat); [ring|]. intros ns _. rewrite (FL _ _ _ (coordination name)); [now rewrite seq_length|].
    intros a Ha. apply in_seq in Ha. rewrite map_length. unfold nc in Ha. pose proof Hn as H. clear - H Ha.
    cbn [common_cells In] in H. repeat destruct H as [H|H]; try contradiction; injection H as <- <-; cbn in Ha; try reflexivity; destruct a as [|[|[|a]]]; try reflexivity; lia.
  Qed.
End Torus.
