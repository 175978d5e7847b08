(** The lists computed by Lattice.bonds. *)
From Coq Require Import List Reals ZArith Bool Arith Lra Lia Permutation.
From Verif Require Import Py CVec LinSolve Line2D_Model Line2D_Proofs Lattice_Model Lattice_Spec Lattice_Proofs Lattice_Proofs2 Lattice_Proofs3 Lattice_Properties LatticeCases_Properties
  Neighbors_Spec Neighbors_Proofs Neighbors_Proofs2 Neighbors_Properties LatticeBonds_Spec LatticeBonds_Proofs.
Import ListNotations.
Open Scope R_scope.

Lemma decompose_unique L fuel prec i ns r : separated (view prec) L -> (i < List.length (points L))%nat -> List.length ns = List.length (vectors L) ->
  decompose L fuel prec (Site (space_dim L) (vadd (nth i (points L) v0) (shift ns (vectors L)))) = Some (Ok r) -> r = (nth i (points L) v0, shift ns (vectors L)).
Proof.
  intros Hs Hi Ln. set (s := vadd (nth i (points L) v0) (shift ns (vectors L))). cbn [decompose]. rewrite Nat.eqb_refl. cbn [negb].
  assert (U : forall rs r, searching L prec (database L rs) (map (vsub s) (points L)) = Some r -> r = (nth i (points L) v0, shift ns (vectors L))).
  { intros rs q H. apply searching_some in H as (j & Hj & Nj & _ & ->). destruct (Nat.eq_dec j i) as [->|N].
    - unfold disp, s. now rewrite vadd_sub.
    - exfalso. unfold s in Nj. rewrite separated_unique in Nj by auto. discriminate. }
  destruct (searching L prec (database L [-1; 0; 1]%Z) (map (vsub s) (points L))) as [q|] eqn:E1.
  { intros [= <-]. apply (U _ _ E1). }
  destruct (max_list (map norm (map (vsub s) (points L)))) as [ref|e]; [|discriminate].
  destruct (guess_scope L fuel ref) as [[sc|]|]; try discriminate.
  destruct (searching L prec (database L (zrange (- sc) (sc + 1))) (map (vsub s) (points L))) as [q|] eqn:E2; [|discriminate].
  intros [= <-]. apply (U _ _ E2).
Qed.

Section Lists.
  Variables (L : lattice) (ord : list (list Z) -> list (list Z)) (scope : Z).
  Hypothesis Ho : listing ord.
  Hypothesis Hs : (0 <= scope)%Z.
  Hypothesis Hp : points L <> [].
  Let N := List.length (points L).
  Let W := window L ord scope true.
  Let sites := sites_factory L ord scope true.
  Variable P : R -> Prop.
  Variable pairs : list (nat * nat).
  Hypothesis Np : NoDup pairs.
  Hypothesis Ip : forall a b, In (a, b) pairs <-> (a < b < List.length sites)%nat /\ P (dist (nth a sites v0) (nth b sites v0)).

  Local Lemma N_pos : (0 < N)%nat. Proof. unfold N. destruct (points L); [contradiction|cbn; lia]. Qed.
  Local Lemma sites_length : List.length sites = (List.length W * N)%nat.
  Proof. unfold sites. rewrite sites_window, map_length, length_prod_seq. reflexivity. Qed.
  Local Lemma sites_nth w i : (i < N)%nat -> (w < List.length W)%nat -> nth (w * N + i) sites v0 = vadd (shift (nth w W []) (vectors L)) (nth i (points L) v0).
  Proof. intros Hi Hw. unfold sites. rewrite sites_window. now apply nth_sites. Qed.
  Local Lemma site_low a : (a < N)%nat -> nth a sites v0 = nth a (points L) v0.
  Proof. intros Ha. rewrite (sites_nth 0 a Ha ltac:(cbn; lia) : nth a sites v0 = _). cbn [W window nth]. now rewrite shift_zero, vadd_0_l. Qed.
  Local Lemma W_nodup : NoDup W.
  Proof. apply nodup_window; [exact Ho|]. apply translations_half, Hs. Qed.

  Lemma intra_ok : lists_intra L P (map (fun ab => (nth (fst ab) sites v0, nth (snd ab) sites v0)) (filter (is_intra L) pairs)).
  Proof.
    exists (filter (is_intra L) pairs). split; [now apply NoDup_filter|]. split.
    - intros i j. rewrite filter_In, Ip. unfold is_intra. cbn [snd]. rewrite Nat.ltb_lt. fold N. split.
      + intros [[H D] Hj]. split; [lia|]. rewrite !site_low in D by lia. exact D.
      + intros [H D]. split; [|lia]. split; [|rewrite !site_low by lia; exact D]. rewrite sites_length. cbn [W window List.length]. nia.
    - apply Permutation_refl'. apply map_ext_in. intros [i j] H. apply filter_In in H as [H Hj]. apply Ip in H as [H _]. unfold is_intra in Hj. cbn [fst snd] in *. apply Nat.ltb_lt in Hj. fold N in Hj.
      rewrite !site_low by lia. reflexivity.
  Qed.

  Definition to_link (ab : nat * nat) : link := Link (fst ab) (snd ab mod N) (nth (snd ab / N) W []).
  Definition links : list link := map to_link (filter (is_inter L) pairs).
  Local Lemma inter_pair a b : In (a, b) (filter (is_inter L) pairs) <->
    (a < N)%nat /\ (N <= b < List.length W * N)%nat /\ P (dist (nth a sites v0) (nth b sites v0)).
  Proof.
    rewrite filter_In, Ip. unfold is_inter. cbn [fst snd]. rewrite andb_true_iff, negb_true_iff, Nat.ltb_lt, Nat.ltb_ge, sites_length. fold N. intuition lia.
  Qed.
  Local Lemma b_split b : (N <= b < List.length W * N)%nat -> (1 <= b / N < List.length W)%nat /\ (b mod N < N)%nat /\ b = (b / N * N + b mod N)%nat.
  Proof.
    pose proof N_pos. intros H1. split; [split; [apply Nat.div_le_lower_bound; lia|apply Nat.div_lt_upper_bound; lia]|]. split; [apply Nat.mod_upper_bound; lia|].
    rewrite Nat.mul_comm. apply Nat.div_mod. lia.
  Qed.
  Local Lemma W_tail w : (1 <= w < List.length W)%nat -> In (nth w W []) (translations L scope true).
  Proof.
    intros H. destruct w as [|w]; [lia|]. cbn [W window nth]. apply (Permutation_in _ (Ho _)), nth_In. cbn [W window List.length] in H. lia.
  Qed.
  Local Lemma link_ends a b : (a < N)%nat -> (N <= b < List.length W * N)%nat ->
    nth a sites v0 = head L (to_link (a, b)) /\ nth b sites v0 = tail L (to_link (a, b)).
  Proof.
    intros Ha Hb. destruct (b_split b Hb) as (Hw & Hj & E). unfold head, tail, to_link. cbn [from to by_ fst snd]. split; [now apply site_low|].
    rewrite E at 1. rewrite sites_nth by lia. apply vadd_comm.
  Qed.
  Lemma links_ok (fold : bool) (second : point -> point) :
    (forall k, In k links -> second (tail L k) = if fold then folded L k else tail L k) ->
    lists_inter L P fold (map (fun ab => (nth (fst ab) sites v0, second (nth (snd ab) sites v0))) (filter (is_inter L) pairs)) links.
  Proof.
    intros Hsec. assert (TH := translations_half L scope Hs). destruct TH as (NT & HT & _). split; [|split].
    - unfold links. assert (I : forall x y, In x (filter (is_inter L) pairs) -> In y (filter (is_inter L) pairs) -> to_link x = to_link y -> x = y).
      { intros [a b] [a' b'] Hx Hy E. apply inter_pair in Hx as (Ha & Hb & _), Hy as (Ha' & Hb' & _). unfold to_link in E. cbn [fst snd] in E. injection E as E1 E2 E3.
        destruct (b_split b Hb) as (Hw & Hj & Eb), (b_split b' Hb') as (Hw' & Hj' & Eb').
        apply (proj1 (NoDup_nth W []) W_nodup) in E3; [|lia|lia]. f_equal; [exact E1|]. rewrite Eb, Eb', E2, E3. reflexivity. }
      revert I. generalize (NoDup_filter (is_inter L) Np). generalize (filter (is_inter L) pairs). intros l Nl I.
      induction Nl as [|x l Hx Nl IH]; cbn; [constructor|]. constructor.
      + intros H. apply in_map_iff in H as (y & E & Hy). apply I in E; cbn; auto. subst. contradiction.
      + apply IH. intros u w Hu Hw. apply I; cbn; auto.
    - intros k Hk. unfold links in Hk. apply in_map_iff in Hk as ([a b] & <- & Hab). apply inter_pair in Hab as (Ha & Hb & D).
      destruct (b_split b Hb) as (Hw & Hj & Eb). destruct (link_ends a b Ha Hb) as [E1 E2]. destruct (HT _ (W_tail _ Hw)) as (Lc & _ & Cr & No).
      split; [repeat split; auto|]. split; [exact Cr|]. split; [unfold len; now rewrite <- E1, <- E2|].
      intros Hop. unfold links in Hop. apply in_map_iff in Hop as ([a' b'] & E & Hab'). apply inter_pair in Hab' as (Ha' & Hb' & _). destruct (b_split b' Hb') as (Hw' & _).
      apply No. change (In (by_ (opposite (to_link (a, b)))) (translations L scope true)). rewrite <- E. now apply W_tail.
    - unfold links. rewrite map_map. apply Permutation_refl'. apply map_ext_in. intros [a b] Hab. pose proof Hab as Hab'. apply inter_pair in Hab as (Ha & Hb & _). destruct (link_ends a b Ha Hb) as [E1 E2].
      cbn [fst snd]. rewrite E1, E2. f_equal. apply Hsec. unfold links. now apply in_map.
  Qed.
  Lemma links_complete k : valid L k -> In (by_ k) (translations L scope true) -> P (len L k) -> In k links.
  Proof.
    intros (Hf & Ht & Lc) Hin HP. apply (Permutation_in _ (Permutation_sym (Ho _))) in Hin. apply (In_nth _ _ []) in Hin as (w & Hw & Ew).
    pose proof N_pos as N0. fold N in Hf, Ht.
    assert (HW : (Datatypes.S w < List.length W)%nat) by (cbn [W window List.length]; lia).
    set (b := (Datatypes.S w * N + to k)%nat). assert (Hb : (N <= b < List.length W * N)%nat) by (unfold b; nia).
    assert (E : to_link (from k, b) = k).
    { unfold to_link, b. cbn [fst snd]. rewrite Nat.div_add_l, Nat.div_small, Nat.add_0_r by lia. rewrite Nat.add_comm, Nat.mod_add, Nat.mod_small by lia. cbn [W window nth]. rewrite Ew. destruct k; reflexivity. }
    unfold links. apply in_map_iff. exists (from k, b). split; [exact E|]. apply inter_pair. split; [exact Hf|]. split; [exact Hb|].
    destruct (link_ends (from k) b Hf Hb) as [E1 E2]. rewrite E1, E2, E. exact HP.
  Qed.
  Lemma links_all k : valid L k -> crossing k -> (reach (by_ k) <= scope)%Z -> P (len L k) -> In k links \/ In (opposite k) links.
  Proof.
    intros V Cr R HP. pose proof V as (Hf & Ht & Lc). destruct (translations_half L scope Hs) as (_ & _ & All). destruct (All (by_ k) Lc R Cr) as [H|H].
    - left. now apply links_complete.
    - right. apply links_complete; [repeat split; cbn; auto; now rewrite map_length|exact H|].
      replace (len L (opposite k)) with (len L k); [exact HP|]. unfold len, head, tail, opposite. cbn [from to by_]. rewrite shift_opp. rewrite dist_sym. unfold dist. f_equal.
      generalize (shift (by_ k) (vectors L)) (nth (from k) (points L) v0) (nth (to k) (points L) v0). vring.
  Qed.
  Lemma links_in k : In k links -> valid L k /\ In (by_ k) (translations L scope true) /\ P (len L k).
  Proof.
    intros Hk. unfold links in Hk. apply in_map_iff in Hk as ([a b] & <- & Hab). apply inter_pair in Hab as (Ha & Hb & D).
    destruct (b_split b Hb) as (Hw & Hj & Eb). destruct (link_ends a b Ha Hb) as [E1 E2]. destruct (translations_half L scope Hs) as (_ & HT & _). destruct (HT _ (W_tail _ Hw)) as (Lc & _ & Cr & No).
    split; [repeat split; auto|]. split; [now apply W_tail|]. unfold len. now rewrite <- E1, <- E2.
  Qed.
  Lemma inter_tail ab : In ab pairs -> is_inter L ab = true -> exists k, In k links /\ nth (snd ab) sites v0 = tail L k.
  Proof.
    destruct ab as [a b]. intros H Hi. assert (Hf : In (a, b) (filter (is_inter L) pairs)) by (apply filter_In; auto). exists (to_link (a, b)). split; [unfold links; now apply in_map|].
    apply inter_pair in Hf as (Ha & Hb & _). now apply link_ends.
  Qed.
  Lemma links_tail k : In k links -> exists ab, In ab pairs /\ is_inter L ab = true /\ nth (snd ab) sites v0 = tail L k.
  Proof.
    intros Hk. unfold links in Hk. apply in_map_iff in Hk as ([a b] & <- & Hab). pose proof Hab as Hf. apply filter_In in Hab as [H1 H2]. exists (a, b). split; [exact H1|]. split; [exact H2|].
    apply inter_pair in Hf as (Ha & Hb & _). now apply link_ends.
  Qed.
End Lists.
