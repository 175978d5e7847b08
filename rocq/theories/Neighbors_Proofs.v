(** Proofs about neighbor_distance. *)
From Coq Require Import List Reals ZArith Bool Arith Lra Lia Permutation Sorted.
From Flocq Require Import Core.Raux Core.Generic_fmt Core.Round_NE.
From Verif Require Import Py CVec LinSolve Line2D_Model Line2D_Proofs Lattice_Model Lattice_Spec Lattice_Proofs Lattice_Proofs2 Lattice_Proofs3 Neighbors_Spec.
Import ListNotations.
Open Scope R_scope.

(** ** rint and unique *)
Lemma rint_le x y : x <= y -> (rint x <= rint y)%Z.
Proof. apply (Zrnd_le ZnearestE). Qed.
Lemma rint_IZR n : rint (IZR n) = n.
Proof. apply (Zrnd_IZR ZnearestE). Qed.
Lemma rint_half x : Rabs (x - IZR (rint x)) <= / 2.
Proof. apply Znearest_half. Qed.
Lemma rint_gap x y : x + 1 < y -> (rint x < rint y)%Z.
Proof.
  intros H. apply lt_IZR. pose proof (rint_half x) as A. pose proof (rint_half y) as B. apply Rabs_le_inv in A, B. lra.
Qed.
Lemma rint_pos x : 1 <= x -> (1 <= rint x)%Z.
Proof. intros H. rewrite <- (rint_IZR 1). now apply rint_le. Qed.
Lemma rint_nonneg x : 0 <= x -> (0 <= rint x)%Z.
Proof. intros H. rewrite <- (rint_IZR 0). now apply rint_le. Qed.
(** multiples of a number that is at least 1 stay distinct *)
Lemma rint_multiples x i j : 1 <= x -> (0 <= i < j)%Z -> (rint (IZR i * x) < rint (IZR j * x))%Z.
Proof.
  intros Hx Hij. assert (Hd : (i + 1 <= j)%Z) by lia. apply IZR_le in Hd. rewrite plus_IZR in Hd. pose proof (IZR_le 0 i ltac:(lia)) as I0.
  destruct (Req_dec x 1) as [->|N].
  - rewrite !Rmult_1_r, !rint_IZR. lia.
  - apply rint_gap. nra.
Qed.

Lemma in_zinsert x y l : In y (zinsert x l) <-> y = x \/ In y l.
Proof.
  induction l as [|z l IH]; cbn; [intuition|]. destruct (Z.ltb_spec x z); [cbn; intuition|]. destruct (Z.eqb_spec x z); [subst; cbn; intuition|].
  cbn. rewrite IH. intuition.
Qed.
Lemma in_zunique y l : In y (zunique l) <-> In y l.
Proof. induction l as [|x l IH]; cbn; [tauto|]. rewrite in_zinsert, IH. intuition. Qed.
Lemma zinsert_sorted x l : StronglySorted Z.lt l -> StronglySorted Z.lt (zinsert x l).
Proof.
  induction l as [|z l IH]; intros H; cbn; [repeat constructor|]. inversion H as [|? ? Hs F]; subst.
  destruct (Z.ltb_spec x z); [|destruct (Z.eqb_spec x z)].
  - constructor; [exact H|]. constructor; [exact H0|]. eapply Forall_impl; [|exact F]. cbn. lia.
  - exact H.
  - constructor; [auto|]. apply Forall_forall. intros y Hy. apply in_zinsert in Hy as [->|Hy]; [lia|]. rewrite Forall_forall in F. auto.
Qed.
Lemma zunique_sorted l : StronglySorted Z.lt (zunique l).
Proof. induction l as [|x l IH]; cbn; [constructor|now apply zinsert_sorted]. Qed.

(** the rank of an element in a sorted list *)
Lemma sorted_rank l : StronglySorted Z.lt l -> forall m x, nth_error l m = Some x -> forall y, In y (firstn m l) <-> In y l /\ (y < x)%Z.
Proof.
  intros H. induction H as [|z l Hs IH F]; intros m x E y; [destruct m; discriminate|]. rewrite Forall_forall in F. destruct m as [|m]; cbn in *.
  - injection E as <-. split; [tauto|]. intros [[<-|Hy] Hlt]; [lia|]. specialize (F y Hy). lia.
  - rewrite (IH m x E y). apply nth_error_In in E. specialize (F x E). split; [intros [<-|[A B]]; auto|]. intros [[<-|A] B]; auto.
Qed.
Lemma sorted_nodup l : StronglySorted Z.lt l -> NoDup l.
Proof.
  intros H. induction H as [|z l Hs IH F]; constructor; auto. intros Hin. rewrite Forall_forall in F. specialize (F z Hin). lia.
Qed.
Lemma firstn_nodup {A} (l : list A) m : NoDup l -> NoDup (firstn m l).
Proof. intros H. rewrite <- (firstn_skipn m l) in H. revert H. generalize (firstn m l) (skipn m l). intros a b H. induction a as [|x a IH]; [constructor|]. inversion H; subst. constructor; auto. rewrite in_app_iff in H2. tauto. Qed.
Lemma sorted_nth_intro l f m x : StronglySorted Z.lt l -> In x l -> NoDup f -> List.length f = m -> (forall y, In y f <-> In y l /\ (y < x)%Z) -> nth_error l m = Some x.
Proof.
  intros Hs Hx Nf Lf Hf. apply In_nth_error in Hx as (m' & E). assert (m' < List.length l)%nat by (apply nth_error_Some; congruence).
  assert (P : Permutation f (firstn m' l)).
  { apply NoDup_Permutation; [exact Nf|apply firstn_nodup, sorted_nodup, Hs|]. intros y. now rewrite Hf, (sorted_rank l Hs m' x E). }
  apply Permutation_length in P. rewrite firstn_length in P. replace m with m' by lia. exact E.
Qed.
Lemma sorted_nth_lt l : StronglySorted Z.lt l -> forall i j x y, nth_error l i = Some x -> nth_error l j = Some y -> (i < j)%nat -> (x < y)%Z.
Proof.
  intros Hs i j x y Ei Ej H. apply (sorted_rank l Hs j y Ej x). apply nth_error_In with (n := i).
  assert (J : (j < List.length l)%nat) by (apply nth_error_Some; congruence).
  assert (E : nth_error (firstn j l ++ skipn j l) i = Some x) by (now rewrite firstn_skipn).
  rewrite nth_error_app1 in E; [exact E|]. rewrite firstn_length. lia.
Qed.

(** ** distances between the sites of a window *)
Lemma in_pdist_map {A} (f : A -> point) (l : list A) d : NoDup l ->
  (In d (pdist (map f l)) <-> exists x y, In x l /\ In y l /\ x <> y /\ d = dist (f x) (f y)).
Proof.
  induction l as [|a l IH]; intros N; cbn; [split; [tauto|intros (x & _ & [] & _)]|]. inversion N; subst. rewrite in_app_iff, IH by assumption. split.
  - intros [H|(x & y & Hx & Hy & Nxy & E)].
    + rewrite map_map in H. apply in_map_iff in H as (y & <- & Hy). exists a, y. split; [now left|]. split; [now right|]. split; [congruence|reflexivity].
    + exists x, y. auto.
  - intros (x & y & [<-|Hx] & [<-|Hy] & Nxy & ->); [congruence| | |].
    + left. rewrite map_map. now apply in_map_iff; exists y.
    + left. rewrite map_map. rewrite dist_sym. now apply in_map_iff; exists x.
    + right. eauto 6.
Qed.
Lemma nodup_list_prod {A B} (l : list A) (m : list B) : NoDup l -> NoDup m -> NoDup (list_prod l m).
Proof.
  intros Hl Hm. induction Hl as [|a l Ha Hl IH]; cbn; [constructor|]. apply NoDup_app'; [|exact IH|].
  - apply FinFun.Injective_map_NoDup; [|exact Hm]. intros x y [= ->]. reflexivity.
  - intros p Hp Hq. apply in_map_iff in Hp as (y & <- & _). apply in_prod_iff in Hq as [Hq _]. contradiction.
Qed.
Definition site_of (L : lattice) (ci : list Z * nat) : point := vadd (comb (fst ci) (vectors L)) (nth (snd ci) (points L) v0).
Lemma flat_map_sites L cs : flat_map (fun c => map (vadd (comb c (vectors L))) (points L)) cs = map (site_of L) (list_prod cs (seq 0 (List.length (points L)))).
Proof.
  induction cs as [|c cs IH]; [reflexivity|]. cbn [flat_map list_prod]. rewrite map_app, <- IH, map_map. f_equal.
  unfold site_of. cbn [fst snd]. rewrite <- (map_map (fun i => nth i (points L) v0) (vadd (comb c (vectors L)))). f_equal.
  generalize (points L). intros l. clear. induction l as [|p l IH]; [reflexivity|]. cbn [List.length seq map nth]. f_equal. rewrite <- seq_shift, map_map. exact IH.
Qed.
Definition window (L : lattice) (ord : list (list Z) -> list (list Z)) (S : Z) (inv : bool) : list (list Z) :=
  repeat 0%Z (List.length (vectors L)) :: ord (translations L S inv).
Lemma sites_window L ord S inv : sites_factory L ord S inv = map (site_of L) (list_prod (window L ord S inv) (seq 0 (List.length (points L)))).
Proof. unfold sites_factory. apply flat_map_sites. Qed.
Lemma reach_zero k : reach (repeat 0%Z k) = 0%Z.
Proof. induction k; cbn; lia. Qed.
Lemma nonzero_iff k (c : list Z) : List.length c = k -> (zs_eqb c (repeat 0%Z k) = false <-> exists n, In n c /\ n <> 0%Z).
Proof.
  intros Hl. split.
  - revert k Hl. induction c as [|x c IH]; intros k <- H; [discriminate|]. cbn in H. destruct (Z.eqb_spec x 0) as [->|N].
    + cbn in H. destruct (IH _ eq_refl H) as (n & Hn & Nn). exists n. cbn. auto.
    + exists x. cbn. auto.
  - intros (n & Hn & Nn). destruct (zs_eqb c (repeat 0%Z k)) eqn:E; [|reflexivity]. apply zs_eqb_iff in E. subst c. apply repeat_spec in Hn. contradiction.
Qed.
Lemma in_window_full L ord S c : listing ord -> (0 <= S)%Z -> (In c (window L ord S false) <-> List.length c = List.length (vectors L) /\ (reach c <= S)%Z).
Proof.
  intros Ho HS. unfold window. cbn [In].
  assert (P : In c (ord (translations L S false)) <-> In c (translations L S false)) by (split; apply Permutation_in; [apply Ho|symmetry; apply Ho]).
  rewrite P. unfold translations. rewrite filter_In, in_cube by exact HS. split.
  - intros [<-|[H _]]; [|exact H]. split; [apply repeat_length|]. rewrite reach_zero. exact HS.
  - intros H. destruct (zs_eqb c (repeat 0%Z (List.length (vectors L)))) eqn:E; [left; symmetry; now apply zs_eqb_iff|right; auto].
Qed.
Lemma nodup_window L ord S inv : listing ord -> NoDup (translations L S inv) -> NoDup (window L ord S inv).
Proof.
  intros Ho N. constructor.
  - intros H. apply (Permutation_in _ (Ho _)) in H. unfold translations in H. apply filter_In in H as [_ H].
    rewrite (proj2 (zs_eqb_iff _ _) eq_refl) in H. discriminate.
  - eapply Permutation_NoDup; [symmetry; apply Ho|exact N].
Qed.
Lemma nodup_translations_full L S : NoDup (translations L S false).
Proof. unfold translations. apply NoDup_filter, nodup_product, nodup_zrange. Qed.
(** splitting a difference *)
Lemma split_difference c S : (0 <= S)%Z -> (reach c <= 2 * S)%Z -> exists a b, List.length a = List.length c /\ List.length b = List.length c /\
  (reach a <= S)%Z /\ (reach b <= S)%Z /\ c = map (fun p => (fst p - snd p)%Z) (combine a b).
Proof.
  intros HS. induction c as [|x c IH]; intros H.
  - exists [], []. cbn. repeat split; auto; lia.
  - cbn [reach] in H. destruct IH as (a & b & La & Lb & Ra & Rb & E); [lia|].
    exists ((x / 2)%Z :: a), ((x / 2 - x)%Z :: b). cbn [List.length reach combine map fst snd].
    assert (A : (- S <= x / 2 <= S)%Z) by (split; [apply Z.div_le_lower_bound; lia|apply Z.div_le_upper_bound; lia]).
    assert (B : (- S <= x - x / 2 <= S)%Z) by (pose proof (Z.div_mod x 2 ltac:(lia)); pose proof (Z.mod_pos_bound x 2 ltac:(lia)); lia).
    repeat split; try lia. rewrite <- E. f_equal. lia.
Qed.
Lemma reach_diff a : forall b S, (reach a <= S)%Z -> (reach b <= S)%Z -> (0 <= S)%Z -> (reach (map (fun p => (fst p - snd p)%Z) (combine a b)) <= 2 * S)%Z.
Proof. induction a as [|x a IH]; intros [|y b] S Ha Hb HS; cbn [reach combine map fst snd] in *; try lia. specialize (IH b S). lia. Qed.
Lemma diff_zero a : forall b, List.length a = List.length b -> (forall n, In n (map (fun p => (fst p - snd p)%Z) (combine a b)) -> n = 0%Z) -> a = b.
Proof.
  induction a as [|x a IH]; intros [|y b] L H; try discriminate; [reflexivity|]. cbn in *. f_equal; [specialize (H _ (or_introl eq_refl)); lia|apply IH; [lia|auto]].
Qed.
Lemma all_zero_dec (c : list Z) : (exists n, In n c /\ n <> 0%Z) \/ forall n, In n c -> n = 0%Z.
Proof.
  induction c as [|x c [(n & Hn & N)|H]]; [right; intros n []|left; exists n; cbn; auto|]. destruct (Z.eq_dec x 0) as [->|N]; [right|left; exists x; cbn; auto].
  intros n [<-|Hn]; auto.
Qed.
Lemma dist_shift L a b i j : List.length a = List.length b ->
  dist (vadd (shift a (vectors L)) (nth i (points L) v0)) (vadd (shift b (vectors L)) (nth j (points L) v0)) =
  dist (vadd (nth i (points L) v0) (shift (map (fun p => (fst p - snd p)%Z) (combine a b)) (vectors L))) (nth j (points L) v0).
Proof.
  intros H. rewrite <- shift_sub by exact H. unfold dist. f_equal. generalize (shift a (vectors L)) (shift b (vectors L)) (nth i (points L) v0) (nth j (points L) v0). vring.
Qed.
(** exactly these distances occur in the window *)
Definition between (L : lattice) (i j : nat) (c : list Z) : R := dist (vadd (nth i (points L) v0) (shift c (vectors L))) (nth j (points L) v0).
Definition differ (i j : nat) (c : list Z) : Prop := i <> j \/ exists n, In n c /\ n <> 0%Z.
Lemma in_pdist_sites L ord S d : listing ord -> (0 <= S)%Z ->
  (In d (pdist (sites_factory L ord S false)) <->
   exists i j c, (i < List.length (points L))%nat /\ (j < List.length (points L))%nat /\ List.length c = List.length (vectors L) /\ (reach c <= 2 * S)%Z /\
     differ i j c /\ d = between L i j c).
Proof.
  intros Ho HS. rewrite sites_window, in_pdist_map by (apply nodup_list_prod; [apply nodup_window; [exact Ho|apply nodup_translations_full]|apply seq_NoDup]). split.
  - intros ([a i] & [b j] & Ha & Hb & N & ->). apply in_prod_iff in Ha as [Ha Hi], Hb as [Hb Hj]. apply in_seq in Hi, Hj. apply in_window_full in Ha as [La Ra], Hb as [Lb Rb]; auto.
    exists i, j, (map (fun p => (fst p - snd p)%Z) (combine a b)). split; [lia|]. split; [lia|]. split; [rewrite map_length, combine_length; lia|].
    split; [now apply reach_diff|]. split.
    + destruct (Nat.eq_dec i j) as [->|]; [right|now left]. destruct (all_zero_dec (map (fun p => (fst p - snd p)%Z) (combine a b))) as [H|H]; [exact H|].
      exfalso. apply diff_zero in H; [|lia]. congruence.
    + unfold site_of, between. cbn [fst snd]. rewrite !comb_shift. apply dist_shift. lia.
  - intros (i & j & c & Hi & Hj & Lc & Rc & D & ->). destruct (split_difference c S HS Rc) as (a & b & La & Lb & Ra & Rb & E).
    exists (a, i), (b, j). split; [apply in_prod_iff; split; [apply in_window_full; auto; split; [lia|exact Ra]|apply in_seq; lia]|].
    split; [apply in_prod_iff; split; [apply in_window_full; auto; split; [lia|exact Rb]|apply in_seq; lia]|]. split.
    + intros [= -> ->]. destruct D as [D|(n & Hn & Nn)]; [congruence|]. apply Nn. rewrite E in Hn. apply in_map_iff in Hn as ([x y] & <- & Hxy). cbn.
      assert (K : forall (l : list Z) p, In p (combine l l) -> fst p = snd p) by (induction l as [|z l IHl]; intros p []; [now subst|auto]). specialize (K _ _ Hxy). cbn in K. lia.
    + unfold site_of, between. cbn [fst snd]. rewrite !comb_shift, dist_shift by lia. now rewrite <- E.
Qed.

(** ** the cache as integers *)
Definition zlist (prec : nat) (sites : list point) : list Z := zunique (map (fun d => rint (d * zoom prec)) (pdist sites)).
Lemma all_distances_zlist prec sites : all_distances prec sites = map (fun k => IZR k / zoom prec) (0%Z :: zlist prec sites).
Proof. unfold all_distances, zlist. cbn [map]. f_equal. unfold Rdiv. ring. Qed.
Lemma zoom_pos prec : 0 < zoom prec. Proof. apply pow_lt. lra. Qed.
Lemma zoom_view prec : zoom prec * view prec = 1.
Proof. unfold view. apply Rinv_r. pose proof (zoom_pos prec). unfold zoom in H. lra. Qed.
Lemma zoom_Z prec : zoom prec = IZR (10 ^ Z.of_nat prec).
Proof. unfold zoom. rewrite <- pow_IZR. reflexivity. Qed.
Lemma unit_div_inj prec a b : IZR a / zoom prec = IZR b / zoom prec <-> a = b.
Proof.
  pose proof (zoom_pos prec). split; [|congruence]. intros E. apply eq_IZR. apply (Rmult_eq_reg_r (/ zoom prec)); [exact E|]. apply Rinv_neq_0_compat. lra.
Qed.
Lemma unit_div_lt prec a b : IZR a / zoom prec < IZR b / zoom prec <-> (a < b)%Z.
Proof.
  pose proof (Rinv_0_lt_compat _ (zoom_pos prec)). unfold Rdiv. split; intros E.
  - apply lt_IZR. nra.
  - apply IZR_lt in E. nra.
Qed.
