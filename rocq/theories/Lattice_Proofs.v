From Coq Require Import List Reals ZArith Bool Arith Lra Lia Permutation.
From Coquelicot Require Import Complex.
From Verif Require Import Py CVec LinSolve Line2D_Model Line2D_Proofs Lattice_Model Lattice_Spec.
Import ListNotations.
Open Scope R_scope.

(** ** vectors *)
Lemma p3_eq (a b c a' b' c' : R) : a = a' -> b = b' -> c = c' -> (a, b, c) = (a', b', c').
Proof. congruence. Qed.
Ltac vring := intros; repeat match goal with u : point |- _ => destruct u as [[? ?] ?] end; cbn [vadd vsub vscale vdot v0 coord]; try apply p3_eq; ring.
Lemma vadd_comm u v : vadd u v = vadd v u. Proof. vring. Qed.
Lemma vadd_assoc u v w : vadd u (vadd v w) = vadd (vadd u v) w. Proof. vring. Qed.
Lemma vadd_0_l u : vadd v0 u = u. Proof. vring. Qed.
Lemma vadd_0_r u : vadd u v0 = u. Proof. vring. Qed.
Lemma vsub_0_r u : vsub u v0 = u. Proof. vring. Qed.
Lemma vsub_add u v : vadd v (vsub u v) = u. Proof. vring. Qed.
Lemma vadd_sub u v : vsub (vadd u v) u = v. Proof. vring. Qed.
Lemma vdot_comm u v : vdot u v = vdot v u. Proof. vring. Qed.
Lemma vdot_add_l u v w : vdot (vadd u v) w = vdot u w + vdot v w. Proof. vring. Qed.
Lemma vdot_add_r u v w : vdot w (vadd u v) = vdot w u + vdot w v. Proof. vring. Qed.
Lemma vdot_sub_l u v w : vdot (vsub u v) w = vdot u w - vdot v w. Proof. vring. Qed.
Lemma vdot_scale_l k u v : vdot (vscale k u) v = k * vdot u v. Proof. vring. Qed.
Lemma vdot_scale_r k u v : vdot u (vscale k v) = k * vdot u v. Proof. vring. Qed.
Lemma vdot_0_l u : vdot v0 u = 0. Proof. vring. Qed.
Lemma vdot_0_r u : vdot u v0 = 0. Proof. vring. Qed.
Lemma vdot_nonneg u : 0 <= vdot u u.
Proof. destruct u as [[x y] z]. cbn. pose proof (Rle_0_sqr x). pose proof (Rle_0_sqr y). pose proof (Rle_0_sqr z). unfold Rsqr in *. lra. Qed.
Lemma vdot_zero u : vdot u u = 0 -> u = v0.
Proof.
  destruct u as [[x y] z]. cbn. intros H. pose proof (Rle_0_sqr x). pose proof (Rle_0_sqr y). pose proof (Rle_0_sqr z). unfold Rsqr in *.
  assert (x * x = 0) by lra. assert (y * y = 0) by lra. assert (z * z = 0) by lra.
  apply p3_eq; apply Rsqr_0_uniq; assumption.
Qed.
Lemma norm_sq u : norm u * norm u = vdot u u.
Proof. apply sqrt_sqrt, vdot_nonneg. Qed.
Lemma norm_nonneg u : 0 <= norm u. Proof. apply sqrt_pos. Qed.
Lemma norm_0 : norm v0 = 0. Proof. unfold norm. rewrite vdot_0_l. apply sqrt_0. Qed.
Lemma norm_zero u : norm u = 0 -> u = v0.
Proof. intros H. apply vdot_zero. rewrite <- norm_sq, H. ring. Qed.
Lemma norm_le u v : vdot u u <= vdot v v -> norm u <= norm v.
Proof. intros. now apply sqrt_le_1_alt. Qed.
Lemma norm_le_inv u v : norm u <= norm v -> vdot u u <= vdot v v.
Proof. intros H. rewrite <- !norm_sq. pose proof (norm_nonneg u). nra. Qed.
Lemma norm_scale k u : norm (vscale k u) = Rabs k * norm u.
Proof.
  unfold norm. rewrite vdot_scale_l, vdot_scale_r, <- Rmult_assoc, sqrt_mult_alt by apply Rle_0_sqr. f_equal. apply sqrt_Rsqr_abs.
Qed.
Lemma norm_opp u v : norm (vsub u v) = norm (vsub v u).
Proof. unfold norm. f_equal. vring. Qed.
(** Cauchy-Schwarz and the triangle inequality *)
Lemma cauchy u v : Rabs (vdot u v) <= norm u * norm v.
Proof.
  assert (H : vdot u v * vdot u v <= vdot u u * vdot v v).
  { destruct u as [[a b] c], v as [[x y] z]. cbn.
    pose proof (Rle_0_sqr (a * y - b * x)). pose proof (Rle_0_sqr (a * z - c * x)). pose proof (Rle_0_sqr (b * z - c * y)). unfold Rsqr in *. lra. }
  rewrite <- sqrt_Rsqr_abs. unfold norm. rewrite <- sqrt_mult_alt by apply vdot_nonneg. apply sqrt_le_1_alt. exact H.
Qed.
Lemma norm_triangle u v : norm (vadd u v) <= norm u + norm v.
Proof.
  pose proof (norm_nonneg u). pose proof (norm_nonneg v). pose proof (norm_nonneg (vadd u v)).
  assert (H2 : norm (vadd u v) * norm (vadd u v) <= (norm u + norm v) * (norm u + norm v)).
  { rewrite norm_sq, vdot_add_l, !vdot_add_r, (vdot_comm v u), <- !norm_sq. pose proof (cauchy u v). pose proof (Rle_abs (vdot u v)). nra. }
  nra.
Qed.
Lemma dist_refl u : dist u u = 0.
Proof. unfold dist. replace (vsub u u) with v0 by vring. apply norm_0. Qed.
Lemma dist_sym u v : dist u v = dist v u. Proof. apply norm_opp. Qed.
Lemma dist_nonneg u v : 0 <= dist u v. Proof. apply norm_nonneg. Qed.
Lemma dist_zero u v : dist u v = 0 -> u = v.
Proof. intros H. apply norm_zero in H. transitivity (vadd v (vsub u v)); [now rewrite vsub_add|]. rewrite H. apply vadd_0_r. Qed.
Lemma dist_triangle u v w : dist u w <= dist u v + dist v w.
Proof. unfold dist. replace (vsub u w) with (vadd (vsub u v) (vsub v w)) by vring. apply norm_triangle. Qed.
Lemma dist_translate u v w : dist (vadd w u) (vadd w v) = dist u v.
Proof. unfold dist. f_equal. vring. Qed.

(** ** sums *)
Lemma rsum_head n f : rsum (S n) f = f O + rsum n (fun i => f (S i)).
Proof. induction n as [|n IH]; [cbn; ring|]. cbn [rsum] in *. rewrite IH. ring. Qed.
Lemma rsum_plus n f g : rsum n (fun i => f i + g i) = rsum n f + rsum n g.
Proof. induction n as [|n IH]; cbn; [ring|]. rewrite IH. ring. Qed.
Lemma rsum_minus n f g : rsum n (fun i => f i - g i) = rsum n f - rsum n g.
Proof. induction n as [|n IH]; cbn; [ring|]. rewrite IH. ring. Qed.
Lemma rsum_scal n c f : rsum n (fun i => c * f i) = c * rsum n f.
Proof. induction n as [|n IH]; cbn; [ring|]. rewrite IH. ring. Qed.
Lemma rsum_zero n f : (forall i, (i < n)%nat -> f i = 0) -> rsum n f = 0.
Proof. intros H. induction n as [|n IH]; [reflexivity|]. cbn. rewrite IH, (H n) by (intros; auto). ring. Qed.
Lemma rsum_single n f i : (i < n)%nat -> (forall j, (j < n)%nat -> j <> i -> f j = 0) -> rsum n f = f i.
Proof.
  intros Hi H. induction n as [|n IH]; [lia|]. cbn. destruct (Nat.eq_dec i n) as [->|N].
  - rewrite rsum_zero; [ring|]. intros j Hj. apply H; lia.
  - rewrite IH, (H n) by (try lia; intros; apply H; lia). ring.
Qed.
Lemma rsum_abs n f : Rabs (rsum n f) <= rsum n (fun i => Rabs (f i)).
Proof. induction n as [|n IH]; cbn; [rewrite Rabs_R0; lra|]. eapply Rle_trans; [apply Rabs_triang|]. lra. Qed.
Lemma rsum_split_at n f i : (i < n)%nat -> rsum n f = f i + rsum n (fun j => if Nat.eqb j i then 0 else f j).
Proof.
  intros Hi.
  assert (E : f i = rsum n (fun j => if Nat.eqb j i then f j else 0)).
  { rewrite (rsum_single n _ i Hi); [now rewrite Nat.eqb_refl|]. intros j _ N. destruct (Nat.eqb_spec j i); [contradiction|reflexivity]. }
  rewrite E, <- rsum_plus. apply rsum_ext. intros j _. destruct (Nat.eqb j i); ring.
Qed.
(** scalar products with a combination *)
Lemma dot_combination xs : forall vs u, List.length xs = List.length vs ->
  vdot (combination xs vs) u = rsum (List.length vs) (fun i => nth i xs 0 * vdot (nth i vs v0) u).
Proof.
  induction xs as [|x xs IH]; intros [|v vs] u H; try discriminate; [cbn [combination rsum List.length]; apply vdot_0_l|].
  cbn [combination List.length]. rewrite vdot_add_l, vdot_scale_l, rsum_head. cbn [nth]. f_equal. apply IH. now injection H.
Qed.
Lemma dot_combination_l xs vs u : List.length xs = List.length vs ->
  vdot u (combination xs vs) = rsum (List.length vs) (fun i => nth i xs 0 * vdot u (nth i vs v0)).
Proof. intros H. rewrite vdot_comm, dot_combination by exact H. apply rsum_ext. intros. now rewrite vdot_comm. Qed.
Lemma nth_map_seq {A} (f : nat -> A) n i d : (i < n)%nat -> nth i (map f (seq 0 n)) d = f i.
Proof. intros H. rewrite (nth_indep _ d (f O)) by (now rewrite map_length, seq_length). rewrite map_nth, seq_nth by exact H. reflexivity. Qed.
Lemma vec_dot_ext u v : (forall w, vdot u w = vdot v w) -> u = v.
Proof.
  intros H. assert (Z : vdot (vsub u v) (vsub u v) = 0) by (rewrite vdot_sub_l, H; ring).
  apply vdot_zero in Z. transitivity (vadd v (vsub u v)); [now rewrite vsub_add|]. rewrite Z. apply vadd_0_r.
Qed.
Lemma comb_shift ns vs : comb ns vs = shift ns vs.
Proof. unfold shift. revert vs. induction ns as [|n ns IH]; intros [|v vs]; cbn; auto. now rewrite IH. Qed.
Lemma combination_sub xs : forall ys vs, List.length xs = List.length ys ->
  vsub (combination xs vs) (combination ys vs) = combination (map (fun p => fst p - snd p) (combine xs ys)) vs.
Proof.
  induction xs as [|x xs IH]; intros [|y ys] [|v vs] H; try discriminate; try (cbn; apply p3_eq; ring).
  cbn [combination combine map fst snd]. rewrite <- IH by (now injection H).
  generalize (combination xs vs), (combination ys vs). vring.
Qed.
Lemma combination_zero n vs : combination (repeat 0 n) vs = v0.
Proof. revert vs. induction n as [|n IH]; intros [|v vs]; cbn; auto. rewrite IH. vring. Qed.
Lemma shift_zero n vs : shift (repeat 0%Z n) vs = v0.
Proof. unfold shift. rewrite <- (combination_zero n vs). f_equal. induction n as [|n IH]; cbn; [reflexivity|now rewrite IH]. Qed.
Lemma shift_opp ns vs : shift (map Z.opp ns) vs = vscale (-1) (shift ns vs).
Proof.
  unfold shift. revert vs. induction ns as [|n ns IH]; intros [|v vs]; try (cbn; apply p3_eq; ring).
  cbn [map combination]. rewrite IH, opp_IZR. generalize (combination (map IZR ns) vs). vring.
Qed.
Lemma shift_sub ns : forall ms vs, List.length ns = List.length ms ->
  vsub (shift ns vs) (shift ms vs) = shift (map (fun p => (fst p - snd p)%Z) (combine ns ms)) vs.
Proof.
  unfold shift. induction ns as [|n ns IH]; intros [|m ms] [|v vs] H; try discriminate; try (cbn; apply p3_eq; ring).
  cbn [map combination combine fst snd]. rewrite <- IH by (now injection H). rewrite minus_IZR.
  generalize (combination (map IZR ns) vs), (combination (map IZR ms) vs). vring.
Qed.

(** ** meshes *)
Lemma in_zrange x lo hi : In x (zrange lo hi) <-> (lo <= x < hi)%Z.
Proof.
  unfold zrange. rewrite in_map_iff. split.
  - intros (i & <- & Hi). apply in_seq in Hi. lia.
  - intros H. exists (Z.to_nat (x - lo)). split; [lia|]. apply in_seq. lia.
Qed.
Lemma in_product rs k c : In c (product rs k) <-> List.length c = k /\ Forall (fun x => In x rs) c.
Proof.
  revert c. induction k as [|k IH]; intros c; cbn [product].
  - split.
    + intros [<-|[]]. split; [reflexivity|constructor].
    + intros [H _]. destruct c; [now left|discriminate].
  - rewrite in_flat_map. split.
    + intros (x & Hx & H). apply in_map_iff in H as (c' & <- & H'). apply IH in H' as [L F]. split; [cbn; congruence|now constructor].
    + intros [H F]. destruct c as [|x c]; [discriminate|]. inversion F; subst. exists x. split; [assumption|].
      apply in_map_iff. exists c. split; [reflexivity|]. apply IH. split; [now injection H|assumption].
Qed.
Lemma nodup_zrange lo hi : NoDup (zrange lo hi).
Proof. unfold zrange. apply FinFun.Injective_map_NoDup; [intros i j H; lia|apply seq_NoDup]. Qed.
Lemma NoDup_app' {A} (l m : list A) : NoDup l -> NoDup m -> (forall x, In x l -> ~ In x m) -> NoDup (l ++ m).
Proof.
  induction l as [|a l IH]; intros Hl Hm D; [exact Hm|]. inversion Hl; subst. cbn. constructor.
  - rewrite in_app_iff. intros [H|H]; [contradiction|]. apply (D a); [now left|exact H].
  - apply IH; auto. intros x Hx. apply D. now right.
Qed.
Lemma nodup_product rs k : NoDup rs -> NoDup (product rs k).
Proof.
  intros H. induction k as [|k IH]; cbn [product]; [repeat constructor; tauto|].
  generalize (product rs k) IH. intros ps Hps. clear IH k. induction H as [|r rs Hr H IH]; cbn; [constructor|].
  apply NoDup_app'.
  - apply FinFun.Injective_map_NoDup; [intros a b E; congruence|exact Hps].
  - exact IH.
  - intros x Hx Hy. apply in_map_iff in Hx as (c & <- & _). apply in_flat_map in Hy as (r' & Hr' & Hy).
    apply in_map_iff in Hy as (c' & E & _). injection E as -> _. contradiction.
Qed.
Lemma zs_eqb_iff a b : zs_eqb a b = true <-> a = b.
Proof.
  revert b. induction a as [|x a IH]; intros [|y b]; cbn; try (split; congruence).
  rewrite andb_true_iff, Z.eqb_eq, IH. split; [intros [-> ->]; reflexivity|intros E; injection E; auto].
Qed.
Lemma existsb_zs c l : existsb (zs_eqb c) l = true <-> In c l.
Proof. rewrite existsb_exists. split; [intros (x & Hx & E); apply zs_eqb_iff in E; now subst|intros H; exists c; split; [exact H|now apply zs_eqb_iff]]. Qed.
Lemma reach_nonneg c : (0 <= reach c)%Z.
Proof. induction c; cbn; lia. Qed.
Lemma reach_le c m : (0 <= m)%Z -> ((reach c <= m)%Z <-> Forall (fun x => (Z.abs x <= m)%Z) c).
Proof.
  intros Hm. induction c as [|x c IH]; cbn; [split; [constructor|auto]|]. rewrite Z.max_lub_iff, IH. split; [intros []; now constructor|intros H; now inversion H].
Qed.
Lemma in_cube c s k : (0 <= s)%Z -> (In c (product (zrange (- s) (s + 1)) k) <-> List.length c = k /\ (reach c <= s)%Z).
Proof.
  intros Hs. rewrite in_product, reach_le by exact Hs. split; intros [L F]; (split; [exact L|]); eapply Forall_impl; try exact F; cbn; intros x; rewrite in_zrange; lia.
Qed.
Lemma in_layer L s c : (1 <= List.length (vectors L))%nat -> (-1 <= s)%Z ->
  (In c (layer L s) <-> List.length c = List.length (vectors L) /\ reach c = (s + 1)%Z).
Proof.
  intros Hk Hs. unfold layer. rewrite filter_In, negb_true_iff.
  replace (- s - 1)%Z with (- (s + 1))%Z by lia. replace (s + 2)%Z with (s + 1 + 1)%Z by lia. rewrite in_cube by lia.
  destruct (Z.eq_dec s (-1)) as [->|N].
  - change (- -1)%Z with 1%Z. change (-1 + 1)%Z with 0%Z. split.
    + intros [[L1 L2] _]. pose proof (reach_nonneg c). split; [exact L1|lia].
    + intros [L1 L2]. split; [split; [exact L1|lia]|]. change (zrange 1 0) with (@nil Z).
      destruct (existsb _ _) eqn:E; [|reflexivity]. apply existsb_zs, in_product in E as [L3 F].
      destruct c; [cbn in L3; lia|inversion F; contradiction].
  - assert (Hs0 : (0 <= s)%Z) by lia. split.
    + intros [[L1 L2] E]. split; [exact L1|]. destruct (Z.le_gt_cases (reach c) s) as [H|H]; [|lia].
      assert (existsb (zs_eqb c) (product (zrange (- s) (s + 1)) (List.length (vectors L))) = true) by (apply existsb_zs, in_cube; auto). congruence.
    + intros [L1 L2]. split; [split; [exact L1|lia]|]. destruct (existsb _ _) eqn:E; [|reflexivity]. apply existsb_zs, in_cube in E as [_ H]; [lia|exact Hs0].
Qed.

(** ** minima and maxima *)
Lemma fold_Rmin l x : (fold_left Rmin l x <= x /\ (forall y, In y l -> fold_left Rmin l x <= y)) /\ (fold_left Rmin l x = x \/ In (fold_left Rmin l x) l).
Proof.
  revert x. induction l as [|y l IH]; intros x; cbn [fold_left]; [split; [split; [lra|intros y []]|now left]|].
  destruct (IH (Rmin x y)) as [[A B] C]. pose proof (Rmin_l x y). pose proof (Rmin_r x y). split; [split|].
  - lra.
  - intros z [<-|Hz]; [lra|auto].
  - destruct C as [C|C]; [|right; now right]. rewrite C. unfold Rmin. destruct (Rle_dec x y); [now left|right; now left].
Qed.
Lemma fold_Rmax l x : x <= fold_left Rmax l x /\ (forall y, In y l -> y <= fold_left Rmax l x).
Proof.
  revert x. induction l as [|y l IH]; intros x; cbn [fold_left]; [split; [lra|intros y []]|].
  destruct (IH (Rmax x y)) as [A B]. pose proof (Rmax_l x y). pose proof (Rmax_r x y). split; [lra|]. intros z [<-|Hz]; [lra|auto].
Qed.
Lemma max_list_spec l m : max_list l = Ok m -> forall y, In y l -> y <= m.
Proof. destruct l as [|x l]; [discriminate|]. cbn. intros [= <-] y Hy. destruct (fold_Rmax l x) as [A B]. destruct Hy as [<-|Hy]; auto. Qed.

(** ** _guess_scope *)
Lemma reach_repeat m k : (0 <= m)%Z -> (1 <= k)%nat -> reach (repeat m k) = m.
Proof. intros Hm Hk. destruct k as [|k]; [lia|]. clear Hk. induction k as [|k IH]; cbn in *; lia. Qed.
Lemma layer_nonempty L s : (1 <= List.length (vectors L))%nat -> (-1 <= s)%Z -> layer L s <> [].
Proof.
  intros Hk Hs E. assert (H : In (repeat (s + 1)%Z (List.length (vectors L))) (layer L s)); [|rewrite E in H; contradiction].
  apply in_layer; auto. split; [apply repeat_length|]. apply reach_repeat; [lia|exact Hk].
Qed.
Lemma edge_min_spec L s : (1 <= List.length (vectors L))%nat -> points L <> [] -> (-1 <= s)%Z ->
  exists m, edge_min L s = Ok m /\
    (forall c p q, List.length c = List.length (vectors L) -> reach c = (s + 1)%Z -> In p (points L) -> In q (points L) ->
       m <= dist (vadd (shift c (vectors L)) p) q) /\
    (exists c p q, List.length c = List.length (vectors L) /\ reach c = (s + 1)%Z /\ In p (points L) /\ In q (points L) /\
       m = dist (vadd (shift c (vectors L)) p) q).
Proof.
  intros Hk Hp Hs. unfold edge_min. destruct (layer L s) as [|c0 cs] eqn:El; [now apply layer_nonempty in El|]. rewrite <- El.
  set (all := flat_map (fun e => map (dist e) (points L)) (flat_map (fun c => map (vadd (comb c (vectors L))) (points L)) (layer L s))).
  assert (I : forall d, In d all <-> exists c p q, List.length c = List.length (vectors L) /\ reach c = (s + 1)%Z /\ In p (points L) /\ In q (points L) /\ d = dist (vadd (shift c (vectors L)) p) q).
  { intros d. unfold all. rewrite in_flat_map. split.
    - intros (e & He & Hd). apply in_flat_map in He as (c & Hc & He). apply in_map_iff in He as (p & <- & Hpp). apply in_map_iff in Hd as (q & <- & Hq).
      apply in_layer in Hc as [Lc Rc]; auto. exists c, p, q. rewrite <- comb_shift. auto.
    - intros (c & p & q & Lc & Rc & Hpp & Hq & ->). exists (vadd (shift c (vectors L)) p). split; [|now apply in_map].
      apply in_flat_map. exists c. split; [now apply in_layer|]. rewrite comb_shift. now apply in_map. }
  destruct all as [|x l] eqn:Ea.
  { exfalso. destruct (points L) as [|p ps] eqn:Epp; [contradiction|].
    assert (Hc0 : In c0 (layer L s)) by (rewrite El; now left). apply in_layer in Hc0 as [L0 R0]; auto.
    apply (proj2 (I (dist (vadd (shift c0 (vectors L)) p) p))). exists c0, p, p. repeat (split; [now (auto; left)|]). reflexivity. }
  exists (fold_left Rmin l x). split; [reflexivity|]. destruct (fold_Rmin l x) as [[A B] C]. split.
  - intros c p q Lc Rc Hpp Hq. assert (H : In (dist (vadd (shift c (vectors L)) p) q) (x :: l)) by (apply I; eauto 10).
    destruct H as [H|H]; [rewrite <- H; exact A|auto].
  - apply I. destruct C as [->|C]; [now left|now right].
Qed.
Lemma guess_loop_spec L fuel ref : forall s r, guess_loop L fuel ref s = Some (Ok r) ->
  (s <= r)%Z /\ (exists m, edge_min L r = Ok m /\ ref < m) /\ forall t, (s <= t < r)%Z -> exists m, edge_min L t = Ok m /\ m <= ref.
Proof.
  induction fuel as [|fuel IH]; intros s r H; [discriminate|]. cbn [guess_loop] in H.
  destruct (edge_min L s) as [m|] eqn:Em; [|discriminate]. unfold Rltb in H. destruct (Rlt_dec ref m) as [Hm|Hm].
  - injection H as <-. split; [lia|]. split; [eauto|]. intros t Ht. lia.
  - apply IH in H as (A & B & C). split; [lia|]. split; [exact B|]. intros t Ht. destruct (Z.eq_dec t s) as [->|N]; [exists m; split; [exact Em|lra]|apply C; lia].
Qed.
Lemma guess_loop_no_err L fuel ref : (1 <= List.length (vectors L))%nat -> points L <> [] ->
  forall s e, (-1 <= s)%Z -> guess_loop L fuel ref s <> Some (Err e).
Proof.
  intros Hk Hp. induction fuel as [|fuel IH]; intros s e Hs; [discriminate|]. cbn [guess_loop].
  destruct (edge_min_spec L s Hk Hp Hs) as (m & -> & _). destruct (Rltb ref m); [discriminate|]. apply IH. lia.
Qed.
Lemma guess_loop_ends L ref T : (1 <= List.length (vectors L))%nat -> points L <> [] ->
  (forall m, edge_min L T = Ok m -> ref < m) -> forall n s fuel, (-1 <= s <= T)%Z -> Z.to_nat (T - s) = n -> (n < fuel)%nat ->
  exists r, guess_loop L fuel ref s = Some (Ok r) /\ (r <= T)%Z.
Proof.
  intros Hk Hp HT. induction n as [|n IH]; intros s fuel Hs Hn Hf; (destruct fuel as [|fuel]; [lia|]); cbn [guess_loop];
    destruct (edge_min_spec L s Hk Hp ltac:(lia)) as (m & Em & _); rewrite Em.
  - assert (s = T) as -> by lia. specialize (HT m Em). unfold Rltb. destruct (Rlt_dec ref m); [|contradiction]. exists T. split; [reflexivity|lia].
  - unfold Rltb. destruct (Rlt_dec ref m); [exists s; split; [reflexivity|lia]|]. apply IH; lia.
Qed.
