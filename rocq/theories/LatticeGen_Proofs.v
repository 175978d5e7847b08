(** Lemmas for the lattice database. *)
From Coq Require Import List Reals ZArith Bool Arith Lra Lia Permutation.
From Verif Require Import Py CVec LinSolve Line2D_Model Line2D_Proofs Lattice_Model Lattice_Spec Lattice_Proofs Lattice_Proofs2 Lattice_Proofs3 Lattice_Properties LatticeCases_Properties
  Neighbors_Spec LatticeGen_Model LatticeGen_Spec.
Import ListNotations.
Open Scope R_scope.

(** ** blocks *)
Lemma nth_blocks {A B} (f : A -> list B) m r (dx : A) (d : B) : (forall x, In x r -> List.length (f x) = m) ->
  forall a b, (a < List.length r)%nat -> (b < m)%nat -> nth (a * m + b) (flat_map f r) d = nth b (f (nth a r dx)) d.
Proof.
  induction r as [|x r IH]; intros H a b Ha Hb; [cbn in Ha; lia|]. cbn [flat_map]. pose proof (H x (or_introl eq_refl)) as Lx. destruct a as [|a].
  - cbn [Nat.mul Nat.add nth]. apply app_nth1. lia.
  - rewrite app_nth2 by (rewrite Lx; cbn; lia). rewrite Lx. replace (S a * m + b - m)%nat with (a * m + b)%nat by lia. cbn [nth]. apply IH; [intros y Hy; apply H; now right|cbn in Ha; lia|exact Hb].
Qed.
Lemma length_blocks {A B} (f : A -> list B) m r : (forall x, In x r -> List.length (f x) = m) -> List.length (flat_map f r) = (List.length r * m)%nat.
Proof. induction r as [|x r IH]; intros H; [reflexivity|]. cbn [flat_map List.length]. rewrite app_length, IH, (H x (or_introl eq_refl)) by (intros y Hy; apply H; now right). lia. Qed.
Lemma zrange_length lo hi : List.length (zrange lo hi) = Z.to_nat (hi - lo).
Proof. unfold zrange. now rewrite map_length, seq_length. Qed.
Lemma nth_zrange0 n x : (0 <= x < n)%Z -> nth (Z.to_nat x) (zrange 0 n) 0%Z = x.
Proof. intros H. unfold zrange. rewrite (nth_map_seq (fun i => (0 + Z.of_nat i)%Z) (Z.to_nat (n - 0)) (Z.to_nat x) 0%Z) by lia. lia. Qed.
Definition mesh (nums : list Z) : list (list Z) := cart (map (fun n => zrange 0 n) nums).
Lemma count_nonneg nums : Forall (fun n => (1 <= n)%Z) nums -> (1 <= count nums)%Z.
Proof. induction 1 as [|n nums Hn _ IH]; cbn [count fold_right]; [lia|]. fold (count nums). nia. Qed.
Lemma mesh_length nums : Forall (fun n => (1 <= n)%Z) nums -> List.length (mesh nums) = Z.to_nat (count nums).
Proof.
  induction 1 as [|n nums Hn Hs IH]; [reflexivity|]. unfold mesh in *. cbn [map cart count fold_right]. rewrite (length_blocks _ (Z.to_nat (count nums))) by (intros x _; rewrite map_length; exact IH).
  rewrite zrange_length. pose proof (count_nonneg nums Hs). unfold count in *. rewrite Z2Nat.inj_mul by lia. f_equal. lia.
Qed.
Lemma in_mesh nums ns : In ns (mesh nums) <-> box nums ns.
Proof.
  unfold mesh, box. revert ns. induction nums as [|n nums IH]; intros ns; cbn [map cart].
  - split; [intros [<-|[]]; constructor|]. intros H. inversion H. now left.
  - rewrite in_flat_map. split.
    + intros (x & Hx & H). apply in_map_iff in H as (ns' & <- & H'). apply in_zrange in Hx. constructor; [exact Hx|now apply IH].
    + intros H. inversion H as [|? x ? ns' Hx Hns]; subst. exists x. split; [now apply in_zrange|]. apply in_map. now apply IH.
Qed.
Lemma position_range nums ns : box nums ns -> (0 <= position nums ns < count nums)%Z.
Proof.
  induction 1 as [|num n nums ns Hn _ IH]; [cbn; lia|]. cbn [position count fold_right]. fold (count nums). nia.
Qed.
Lemma box_pos nums ns : box nums ns -> Forall (fun n => (1 <= n)%Z) nums.
Proof. induction 1; constructor; auto. lia. Qed.
Lemma nth_mesh nums ns : box nums ns -> nth (Z.to_nat (position nums ns)) (mesh nums) [] = ns.
Proof.
  intros H. pose proof (box_pos _ _ H) as Hp. induction H as [|num n nums ns Hn Hs IH]; [reflexivity|]. inversion Hp as [|? ? H1 Hp']; subst. specialize (IH Hp').
  pose proof (position_range _ _ Hs) as Pr. unfold mesh in *. cbn [map cart position].
  replace (Z.to_nat (n * count nums + position nums ns)) with (Z.to_nat n * Z.to_nat (count nums) + Z.to_nat (position nums ns))%nat by (rewrite <- Z2Nat.inj_mul, <- Z2Nat.inj_add; nia).
  rewrite (nth_blocks _ (Z.to_nat (count nums)) (zrange 0 num) 0%Z).
  - rewrite nth_zrange0 by lia. rewrite (nth_indep _ [] (n :: [])) by (rewrite map_length; fold (mesh nums); rewrite mesh_length by auto; lia). rewrite map_nth. now rewrite IH.
  - intros x _. rewrite map_length. now apply mesh_length.
  - rewrite zrange_length. lia.
  - lia.
Qed.
Lemma mesh_at nums q : Forall (fun n => (1 <= n)%Z) nums -> (q < Z.to_nat (count nums))%nat -> exists ns, box nums ns /\ Z.to_nat (position nums ns) = q.
Proof.
  intros Hp. revert q. induction Hp as [|n nums Hn Hs IH]; intros q Hq.
  - exists []. split; [constructor|]. cbn in *. lia.
  - pose proof (count_nonneg nums Hs) as Cn. cbn [count fold_right] in Hq. fold (count nums) in Hq. rewrite Z2Nat.inj_mul in Hq by lia.
    set (m := Z.to_nat (count nums)) in *. assert (M0 : m <> O) by lia.
    destruct (IH (q mod m)%nat (Nat.mod_upper_bound _ _ M0)) as (ns & Hb & E).
    assert (Hd : (q / m < Z.to_nat n)%nat) by (apply Nat.div_lt_upper_bound; [exact M0|lia]).
    exists (Z.of_nat (q / m) :: ns). split; [constructor; [lia|exact Hb]|]. cbn [position]. pose proof (position_range _ _ Hb).
    rewrite Z2Nat.inj_add, Z2Nat.inj_mul, Nat2Z.id, E by nia. fold m. rewrite (Nat.div_mod q m M0) at 3. lia.
Qed.

(** ** translations of the cluster in units of the cell *)
Fixpoint muladd (nums ns Ms : list Z) : list Z :=
  match nums, ns, Ms with num :: nums', n :: ns', M :: Ms' => (n + num * M)%Z :: muladd nums' ns' Ms' | _, _, _ => [] end.
Lemma scale_rows_length nums : forall vs, List.length nums = List.length vs -> List.length (scale_rows nums vs) = List.length vs.
Proof. induction nums as [|n nums IH]; intros [|v vs] H; try discriminate; [reflexivity|]. cbn. now rewrite IH by (now injection H). Qed.
Lemma box_length nums ns : box nums ns -> List.length ns = List.length nums.
Proof. induction 1; cbn; congruence. Qed.
Lemma muladd_length nums : forall ns Ms, List.length ns = List.length nums -> List.length Ms = List.length nums -> List.length (muladd nums ns Ms) = List.length nums.
Proof. induction nums as [|n nums IH]; intros [|x ns] [|M Ms] H1 H2; try discriminate; [reflexivity|]. cbn. rewrite IH; auto. Qed.
Lemma shift_muladd nums : forall ns Ms vs, List.length nums = List.length vs -> List.length ns = List.length vs -> List.length Ms = List.length vs ->
  shift (muladd nums ns Ms) vs = vadd (shift ns vs) (shift Ms (scale_rows nums vs)).
Proof.
  unfold shift. induction nums as [|n nums IH]; intros [|x ns] [|M Ms] [|v vs] H1 H2 H3; try discriminate; [cbn; vring|].
  cbn [muladd scale_rows map combination]. rewrite IH by (now injection H1 + now injection H2 + now injection H3 || (injection H1; injection H2; injection H3; auto)).
  rewrite plus_IZR, mult_IZR. generalize (combination (map IZR ns) vs), (combination (map IZR Ms) (scale_rows nums vs)). vring.
Qed.
Lemma muladd_inj nums : forall ns ns' Ms Ms', box nums ns -> box nums ns' -> List.length Ms = List.length nums -> List.length Ms' = List.length nums ->
  muladd nums ns Ms = muladd nums ns' Ms' -> ns = ns' /\ Ms = Ms'.
Proof.
  induction nums as [|n nums IH]; intros ns ns' Ms Ms' H1 H2 L1 L2 E; inversion H1; inversion H2; subst.
  - destruct Ms, Ms'; try discriminate. auto.
  - destruct Ms as [|M Ms], Ms' as [|M' Ms']; try discriminate. cbn [muladd] in E. pose proof (f_equal (hd 0%Z) E) as E1. pose proof (f_equal (@tl Z) E) as E2. cbn [hd tl] in E1, E2.
    apply IH in E2 as [-> ->]; auto. assert (M = M') by nia. subst. split; [f_equal; lia|reflexivity].
Qed.
Lemma muladd_split nums : forall ms, Forall (fun n => (1 <= n)%Z) nums -> List.length ms = List.length nums -> exists ns Ms, box nums ns /\ List.length Ms = List.length nums /\ ms = muladd nums ns Ms.
Proof.
  induction nums as [|n nums IH]; intros [|m ms] Hp Hl; try discriminate; [exists [], []; repeat split; constructor|].
  inversion Hp; subst. destruct (IH ms) as (ns & Ms & A & B & C); auto. exists ((m mod n)%Z :: ns), ((m / n)%Z :: Ms). split; [|split].
  - constructor; [apply Z.mod_pos_bound; lia|exact A].
  - cbn. congruence.
  - cbn [muladd]. rewrite <- C. f_equal. pose proof (Z.div_mod m n). lia.
Qed.

(** ** cells on a grid *)
Definition z3 : Type := (Z * Z * Z)%type.
Definition gadd (a b : z3) : z3 := let '(x, y, z) := a in let '(x', y', z') := b in (x + x', y + y', z + z')%Z.
Definition gscale (n : Z) (a : z3) : z3 := let '(x, y, z) := a in (n * x, n * y, n * z)%Z.
Fixpoint gshift (ns : list Z) (vs : list z3) : z3 := match ns, vs with n :: ns', v :: vs' => gadd (gscale n v) (gshift ns' vs') | _, _ => (0, 0, 0)%Z end.
Definition gpoint (sx sy : R) (g : z3) : point := let '(x, y, z) := g in (IZR x * sx, IZR y * sy, IZR z).
Lemma gpoint_add sx sy a b : gpoint sx sy (gadd a b) = vadd (gpoint sx sy a) (gpoint sx sy b).
Proof. destruct a as [[x y] z], b as [[x' y'] z']. cbn. rewrite !plus_IZR. apply p3_eq; ring. Qed.
Lemma gpoint_scale sx sy n a : gpoint sx sy (gscale n a) = vscale (IZR n) (gpoint sx sy a).
Proof. destruct a as [[x y] z]. cbn [gscale gpoint vscale]. rewrite !mult_IZR. apply p3_eq; ring. Qed.
Lemma gpoint_shift sx sy ns : forall vs, gpoint sx sy (gshift ns vs) = shift ns (map (gpoint sx sy) vs).
Proof.
  unfold shift. induction ns as [|n ns IH]; intros [|v vs]; try (cbn; apply p3_eq; ring). cbn [gshift map combination]. now rewrite gpoint_add, gpoint_scale, IH.
Qed.
Lemma grid_gap sx sy a b : / 10 <= sx -> / 10 <= sy -> a <> b -> / 10 <= dist (gpoint sx sy a) (gpoint sx sy b).
Proof.
  intros Hx Hy N. destruct a as [[x y] z], b as [[x' y'] z'].
  assert (G : forall m n s, / 10 <= s -> m <> n -> / 10 <= Rabs (IZR m * s - IZR n * s)).
  { intros m n s Hs Hmn. rewrite <- Rmult_minus_distr_r, <- minus_IZR, Rabs_mult, (Rabs_right s) by lra. destruct (int_gap (m - n)) as [E|E]; [lia|].
    apply Rle_trans with (1 * s); [lra|]. apply Rmult_le_compat_r; lra. }
  destruct (Z.eq_dec x x') as [->|Nx]; [destruct (Z.eq_dec y y') as [->|Ny]; [destruct (Z.eq_dec z z') as [->|Nz]; [congruence|]|]|].
  - eapply Rle_trans; [|apply (coord_le_dist 2)]. cbn [gpoint coord]. specialize (G z z' 1 ltac:(lra) Nz). now rewrite !Rmult_1_r in G.
  - eapply Rle_trans; [|apply (coord_le_dist 1)]. cbn [gpoint coord]. now apply G.
  - eapply Rle_trans; [|apply (coord_le_dist 0)]. cbn [gpoint coord]. now apply G.
Qed.

(** A cell whose points and vectors lie on a grid, all of whose sites differ. *)
Record gridded (c : cell) := Gridded {
  gx : R; gy : R; gpts : list z3; gvecs : list z3;
  g_x : / 10 <= gx; g_y : / 10 <= gy;
  g_pts : cpoints c = map (gpoint gx gy) gpts;
  g_vecs : cvectors c = map (gpoint gx gy) gvecs;
  g_inj : forall j j' ms ms', is_site c j ms -> is_site c j' ms' -> gadd (nth j gpts (0, 0, 0)%Z) (gshift ms gvecs) = gadd (nth j' gpts (0, 0, 0)%Z) (gshift ms' gvecs) -> j = j' /\ ms = ms';
  g_indep : ~ dependent (cvectors c);
  g_some : cpoints c <> [];
  g_dim : (cdim c <= 3)%nat /\ (1 <= List.length (cvectors c) <= cdim c)%nat
}.
Lemma site_grid c (g : gridded c) j ms : (j < List.length (cpoints c))%nat -> site c j ms = gpoint (gx c g) (gy c g) (gadd (nth j (gpts c g) (0, 0, 0)%Z) (gshift ms (gvecs c g))).
Proof.
  intros Hj. unfold site. rewrite gpoint_add, gpoint_shift, <- g_vecs. f_equal. rewrite (g_pts c g) at 1. rewrite (nth_indep _ v0 (gpoint (gx c g) (gy c g) (0, 0, 0)%Z)) by (now rewrite <- g_pts).
  now rewrite map_nth.
Qed.
Lemma site_gap c (g : gridded c) j ms j' ms' : is_site c j ms -> is_site c j' ms' -> (j, ms) <> (j', ms') -> / 10 <= dist (site c j ms) (site c j' ms').
Proof.
  intros H H' N. rewrite !(site_grid c g) by (apply H || apply H'). apply grid_gap; [apply g_x|apply g_y|]. intros E. apply (g_inj c g) in E as [-> ->]; auto.
Qed.
Lemma site_inj c (g : gridded c) j ms j' ms' : is_site c j ms -> is_site c j' ms' -> site c j ms = site c j' ms' -> j = j' /\ ms = ms'.
Proof.
  intros H H' E. destruct (Nat.eq_dec j j') as [->|N]; [destruct (list_eq_dec Z.eq_dec ms ms') as [->|N]; [auto|]|]; exfalso.
  - pose proof (site_gap c g j' ms j' ms' H H' ltac:(congruence)) as G. rewrite E, dist_refl in G. lra.
  - pose proof (site_gap c g j ms j' ms' H H' ltac:(congruence)) as G. rewrite E, dist_refl in G. lra.
Qed.

(** ** the cluster *)
Definition cluster (c : cell) (nums : list Z) : list point := flat_map (fun dR => map (vadd dR) (cpoints c)) (map (fun ns => comb ns (cvectors c)) (mesh nums)).
Lemma flat_map_map {A B C} (f : A -> B) (g : B -> list C) l : flat_map g (map f l) = flat_map (fun x => g (f x)) l.
Proof. induction l as [|x l IH]; [reflexivity|]. cbn. now rewrite IH. Qed.
Lemma cluster_length c nums : Forall (fun n => (1 <= n)%Z) nums -> List.length (cluster c nums) = (Z.to_nat (count nums) * List.length (cpoints c))%nat.
Proof. intros Hp. unfold cluster. rewrite flat_map_map, (length_blocks _ (List.length (cpoints c))) by (intros; apply map_length). now rewrite mesh_length. Qed.
Lemma cluster_nth c nums ns j : box nums ns -> (j < List.length (cpoints c))%nat -> nth (Z.to_nat (position nums ns) * List.length (cpoints c) + j) (cluster c nums) v0 = site c j ns.
Proof.
  intros Hb Hj. unfold cluster. rewrite flat_map_map. pose proof (position_range _ _ Hb). rewrite (nth_blocks _ (List.length (cpoints c)) _ []); [|intros; apply map_length|rewrite mesh_length by (eapply box_pos, Hb); lia|exact Hj].
  rewrite nth_mesh by exact Hb. rewrite (nth_indep _ v0 (vadd (comb ns (cvectors c)) v0)) by (now rewrite map_length). rewrite map_nth, comb_shift. apply vadd_comm.
Qed.
Lemma cluster_at c nums i : Forall (fun n => (1 <= n)%Z) nums -> (i < List.length (cluster c nums))%nat ->
  exists ns j, box nums ns /\ (j < List.length (cpoints c))%nat /\ i = (Z.to_nat (position nums ns) * List.length (cpoints c) + j)%nat.
Proof.
  intros Hp Hi. rewrite cluster_length in Hi by exact Hp. set (m := List.length (cpoints c)) in *. assert (M0 : m <> O) by nia.
  destruct (mesh_at nums (i / m)%nat Hp) as (ns & Hb & E); [apply Nat.div_lt_upper_bound; [exact M0|lia]|].
  exists ns, (i mod m)%nat. split; [exact Hb|]. split; [now apply Nat.mod_upper_bound|]. rewrite E, Nat.mul_comm. now apply Nat.div_mod.
Qed.
Lemma cluster_site c nums i : Forall (fun n => (1 <= n)%Z) nums -> (i < List.length (cluster c nums))%nat ->
  exists ns j, box nums ns /\ (j < List.length (cpoints c))%nat /\ i = (Z.to_nat (position nums ns) * List.length (cpoints c) + j)%nat /\ nth i (cluster c nums) v0 = site c j ns.
Proof. intros Hp Hi. destruct (cluster_at c nums i Hp Hi) as (ns & j & A & B & E). exists ns, j. repeat (split; [assumption|]). rewrite E. now apply cluster_nth. Qed.

Section Generated.
  Variables (c : cell) (g : gridded c) (nums : list Z) (L : lattice).
  Hypothesis Hnums : Forall (fun n => (1 <= n)%Z) nums.
  Hypothesis Hlen : List.length nums = List.length (cvectors c).
  Hypothesis Lp : points L = cluster c nums.
  Hypothesis Lv : vectors L = scale_rows nums (cvectors c).
  Local Lemma Lv_length : List.length (vectors L) = List.length (cvectors c).
  Proof. rewrite Lv. now apply scale_rows_length. Qed.
  (** a translated point of the cluster is a site *)
  Lemma translated i Ms : (i < List.length (points L))%nat -> List.length Ms = List.length (vectors L) ->
    exists ns j, box nums ns /\ i = (Z.to_nat (position nums ns) * List.length (cpoints c) + j)%nat /\ is_site c j (muladd nums ns Ms) /\ vadd (nth i (points L) v0) (shift Ms (vectors L)) = site c j (muladd nums ns Ms).
  Proof.
    intros Hi HM. rewrite Lv_length in HM. rewrite Lp in Hi. destruct (cluster_site c nums i Hnums Hi) as (ns & j & Hb & Hj & Ei & E). exists ns, j. split; [exact Hb|]. split; [exact Ei|].
    pose proof (box_length _ _ Hb) as Ln. split; [split; [exact Hj|rewrite muladd_length; congruence]|]. rewrite Lp, E, Lv. unfold site. rewrite shift_muladd by congruence.
    generalize (shift ns (cvectors c)), (shift Ms (scale_rows nums (cvectors c))), (nth j (cpoints c) v0). vring.
  Qed.
  Lemma translated_gap i Ms i' Ms' : (i < List.length (points L))%nat -> (i' < List.length (points L))%nat -> List.length Ms = List.length (vectors L) -> List.length Ms' = List.length (vectors L) ->
    (i, Ms) <> (i', Ms') -> / 10 <= dist (vadd (nth i (points L) v0) (shift Ms (vectors L))) (vadd (nth i' (points L) v0) (shift Ms' (vectors L))).
  Proof.
    intros Hi Hi' HM HM' N. destruct (translated i Ms Hi HM) as (ns & j & Hb & Ei & Is & ->). destruct (translated i' Ms' Hi' HM') as (ns' & j' & Hb' & Ei' & Is' & ->).
    apply (site_gap c g); auto. intros E. apply N. pose proof (f_equal fst E) as E1. pose proof (f_equal snd E) as E2. cbn [fst snd] in E1, E2. rewrite Lv_length in HM, HM'. apply muladd_inj in E2 as [-> ->]; auto; [|congruence|congruence]. subst. reflexivity.
  Qed.
  Lemma generated_tiles : tiles c L.
  Proof.
    split.
    - intros i Ms Hi HM. destruct (translated i Ms Hi HM) as (ns & j & _ & _ & A & B). eauto.
    - intros j ms [Hj Hm]. destruct (muladd_split nums ms Hnums ltac:(congruence)) as (ns & Ms & Hb & HM & ->).
      set (i := (Z.to_nat (position nums ns) * List.length (cpoints c) + j)%nat).
      assert (Hi : (i < List.length (points L))%nat).
      { rewrite Lp, cluster_length by exact Hnums. unfold i. pose proof (position_range _ _ Hb). assert (Z.to_nat (position nums ns) < Z.to_nat (count nums))%nat by lia. nia. }
      assert (E : vadd (nth i (points L) v0) (shift Ms (vectors L)) = site c j (muladd nums ns Ms)).
      { rewrite Lp. unfold i. rewrite cluster_nth by auto. pose proof (box_length _ _ Hb). unfold site. rewrite shift_muladd by congruence. rewrite Lv.
        generalize (shift ns (cvectors c)), (shift Ms (scale_rows nums (cvectors c))), (nth j (cpoints c) v0). vring. }
      exists i, Ms. split; [split; [exact Hi|]; split; [rewrite Lv_length; congruence|exact E]|].
      intros i' Ms' Hi' HM' E'. assert (HMs : List.length Ms = List.length (vectors L)) by (rewrite Lv_length; congruence).
      destruct (Nat.eq_dec i' i) as [Hie|N]; [destruct (list_eq_dec Z.eq_dec Ms' Ms) as [HMe|N]; [auto|]|]; exfalso;
        pose proof (translated_gap i' Ms' _ Ms Hi' Hi HM' HMs ltac:(congruence)) as G; rewrite E, E', dist_refl in G; lra.
  Qed.
  Lemma generated_separated : separated (/ 10) L.
  Proof.
    intros i j ns Hi Hj N Ln. pose proof (translated_gap i (repeat 0%Z (List.length (vectors L))) j ns Hi Hj (repeat_length _ _) Ln ltac:(congruence)) as G. now rewrite shift_zero, vadd_0_r in G.
  Qed.
  Lemma generated_resolved prec : (1 <= prec)%nat -> resolved prec L.
  Proof.
    intros Hp i j ns Hi Hj Ln D. eapply Rle_trans; [apply view_tenth, Hp|].
    pose proof (translated_gap i ns j (repeat 0%Z (List.length (vectors L))) Hi Hj Ln (repeat_length _ _)) as G. rewrite shift_zero, vadd_0_r in G. apply G.
    intros E. pose proof (f_equal fst E) as E1. pose proof (f_equal snd E) as E2. cbn [fst snd] in E1, E2. destruct D as [D|(n & Hn & N)]; [contradiction|]. rewrite E2 in Hn. apply repeat_spec in Hn. contradiction.
  Qed.
End Generated.

(** ** the constructor accepts the cluster *)
Lemma cluster_apart c (g : gridded c) nums : Forall (fun n => (1 <= n)%Z) nums -> List.length nums = List.length (cvectors c) -> apart (/ 10) (cluster c nums).
Proof.
  intros Hp Hl i j Hij. pose proof (generated_separated c g nums (MkLattice 0 (cluster c nums) (scale_rows nums (cvectors c)) []) Hp Hl eq_refl eq_refl i j (repeat 0%Z (List.length (scale_rows nums (cvectors c))))) as H.
  cbn [points vectors] in H. rewrite shift_zero, vadd_0_r in H. apply H; try lia. apply repeat_length.
Qed.
Lemma scaled_dependent nums vs : Forall (fun n => (1 <= n)%Z) nums -> List.length nums = List.length vs -> dependent (scale_rows nums vs) -> dependent vs.
Proof.
  intros Hp Hl (xs & Lx & (x & Hx & Nx) & E). rewrite scale_rows_length in Lx by exact Hl.
  assert (K : forall nums vs xs, Forall (fun n => (1 <= n)%Z) nums -> List.length nums = List.length vs -> List.length xs = List.length vs ->
    exists ys, List.length ys = List.length vs /\ combination ys vs = combination xs (scale_rows nums vs) /\ forall x, In x xs -> x <> 0 -> exists y, In y ys /\ y <> 0).
  { clear. induction nums as [|n nums IH]; intros [|v vs] [|x xs] Hp Hl Lx; try discriminate; [exists []; repeat split; intros ? []|].
    inversion Hp; subst. destruct (IH vs xs) as (ys & A & B & C); auto. exists (IZR n * x :: ys). split; [cbn; congruence|]. split.
    - cbn [combination scale_rows]. rewrite B. generalize (combination xs (scale_rows nums vs)). vring.
    - intros z [<-|Hz] Nz; [|destruct (C z Hz Nz) as (y & Hy & Ny); exists y; split; [now right|exact Ny]]. exists (IZR n * x). split; [now left|]. apply Rmult_integral_contrapositive. split; [|exact Nz].
      apply not_0_IZR. lia. }
  destruct (K nums vs xs Hp Hl Lx) as (ys & A & B & C). exists ys. split; [exact A|]. split; [eapply C; eauto|]. now rewrite B.
Qed.
Lemma scale_rows_nth nums : forall vs i, List.length nums = List.length vs -> (i < List.length vs)%nat -> nth i (scale_rows nums vs) v0 = vscale (IZR (nth i nums 0%Z)) (nth i vs v0).
Proof. induction nums as [|n nums IH]; intros [|v vs] [|i] H Hi; cbn in Hi; try lia; try discriminate; [reflexivity|]. cbn [scale_rows nth]. apply IH; [now injection H|lia]. Qed.
Lemma equal_rows_dependent vs i j : (i < j < List.length vs)%nat -> nth i vs v0 = nth j vs v0 -> dependent vs.
Proof.
  intros Hij E. exists (map (fun k => if Nat.eqb k i then 1 else if Nat.eqb k j then -1 else 0) (seq 0 (List.length vs))). split; [now rewrite map_length, seq_length|]. split.
  - exists 1. split; [|lra]. apply in_map_iff. exists i. rewrite Nat.eqb_refl. split; [reflexivity|]. apply in_seq. lia.
  - apply vec_dot_ext. intros w. rewrite dot_combination by (now rewrite map_length, seq_length). rewrite vdot_0_l.
    transitivity (rsum (List.length vs) (fun k => (if Nat.eqb k i then vdot (nth i vs v0) w else 0) + (if Nat.eqb k j then - vdot (nth j vs v0) w else 0))).
    + apply rsum_ext. intros k Hk. rewrite nth_map_seq by exact Hk. destruct (Nat.eqb_spec k i) as [E1|]; destruct (Nat.eqb_spec k j) as [E2|]; try lia; try rewrite E1; try rewrite E2; ring.
    + rewrite rsum_plus, (rsum_single _ _ i), (rsum_single _ _ j); try lia; [|intros k _ N; apply Nat.eqb_neq in N; now rewrite N..]. rewrite !Nat.eqb_refl, E. ring.
Qed.
Lemma cluster_accepted prec c (g : gridded c) nums : (1 <= prec)%nat -> Forall (fun n => (1 <= n)%Z) nums -> List.length nums = List.length (cvectors c) ->
  exists L d, make_lattice prec (Arr (cdim c) (cluster c nums)) (Arr (cdim c) (scale_rows nums (cvectors c))) = Ok (L, d) /\
    space_dim L = cdim c /\ points L = cluster c nums /\ vectors L = scale_rows nums (cvectors c) /\ lattice_of prec L.
Proof.
  intros Hpr Hp Hl. destruct (C31_constructor prec (Arr (cdim c) (cluster c nums)) (Arr (cdim c) (scale_rows nums (cvectors c)))) as [_ K].
  specialize (K _ _ _ _ eq_refl eq_refl). destruct K as (_ & _ & K). pose proof (view_tenth prec Hpr) as V. destruct (g_dim c g) as [D1 D2].
  assert (Nd : ~ dependent (scale_rows nums (cvectors c))) by (intros H; apply (g_indep c g); eapply scaled_dependent; eauto).
  destruct K as (L & d & H & E1 & E2 & E3).
  - split; [exact D1|]. rewrite scale_rows_length by exact Hl. split; [lia|]. split; [reflexivity|]. split.
    + intros i j Hij. rewrite scale_rows_length in Hij by exact Hl. eapply Rle_trans; [exact V|].
      assert (G : forall k, (k < List.length (cvectors c))%nat -> nth k (scale_rows nums (cvectors c)) v0 = gpoint (gx c g) (gy c g) (gscale (nth k nums 0%Z) (nth k (gvecs c g) (0, 0, 0)%Z))).
      { intros k Hk. rewrite scale_rows_nth by auto. rewrite gpoint_scale. f_equal. rewrite (g_vecs c g) at 1. rewrite (nth_indep _ v0 (gpoint (gx c g) (gy c g) (0, 0, 0)%Z)) by (now rewrite <- g_vecs). now rewrite map_nth. }
      rewrite !G by lia. apply grid_gap; [apply g_x|apply g_y|]. intros E. apply Nd. apply (equal_rows_dependent _ i j); [rewrite scale_rows_length by exact Hl; lia|]. rewrite !G by lia. now rewrite E.
    + intros i j Hij. eapply Rle_trans; [exact V|]. now apply (cluster_apart c g nums Hp Hl).
  - exact Nd.
  - exists L, d. repeat (split; [assumption|]). eapply lattice_of_make; [exact H| |].
    + intros E. assert (Hc : List.length (cluster c nums) = O) by (now rewrite E). rewrite cluster_length in Hc by exact Hp. pose proof (count_nonneg nums Hp). pose proof (g_some c g) as Hs. destruct (cpoints c); [contradiction|cbn in Hc; lia].
    + intros E. assert (Hc : List.length (scale_rows nums (cvectors c)) = O) by (now rewrite E). rewrite scale_rows_length in Hc by exact Hl. lia.
Qed.
