(** C37: lattice_generator. *)
From Coq Require Import String List Reals ZArith Bool Arith Lra Lia Permutation.
From Flocq Require Import Core.Raux.
From Verif Require Import Py CVec LinSolve Line2D_Model Line2D_Proofs Lattice_Model Lattice_Spec Lattice_Proofs Lattice_Proofs2 Lattice_Proofs3 Lattice_Properties LatticeCases_Properties
  Neighbors_Spec Neighbors_Proofs Neighbors_Proofs2 Neighbors_Properties LatticeBonds_Spec LatticeBonds_Properties LatticeGen_Model LatticeGen_Spec LatticeGen_Proofs.
Import ListNotations.
Open Scope R_scope.

(** ** the cells lie on grids *)
Lemma s3_pos : 0 < sqrt 3. Proof. apply sqrt_lt_R0. lra. Qed.
Lemma s3_sq : sqrt 3 * sqrt 3 = 3. Proof. apply sqrt_sqrt. lra. Qed.
Lemma s3_bounds : 17 / 10 <= sqrt 3 <= 18 / 10.
Proof. pose proof s3_pos. pose proof s3_sq. split; [apply Rnot_lt_le; intros H1; nra|apply Rnot_lt_le; intros H1; nra]. Qed.
Lemma inv_s3 x : x / sqrt 3 = x * sqrt 3 / 3.
Proof. pose proof s3_pos. unfold Rdiv at 1. replace (/ sqrt 3) with (sqrt 3 / 3); [unfold Rdiv; ring|]. apply (Rmult_eq_reg_l (sqrt 3)); [|lra]. rewrite Rinv_r by lra. unfold Rdiv. rewrite <- Rmult_assoc, s3_sq. lra. Qed.
Ltac rows := cbn [cpoints cvectors chain_cell square_cell cubic_cell triangle_cell map gpoint]; repeat (apply f_equal2; [apply p3_eq; lra|]); reflexivity.
Ltac site_cases := intros j j' ms ms' [Hj Hm] [Hj' Hm'] E; cbn in Hj, Hm, Hj', Hm';
  repeat (destruct ms as [|? ms]; try discriminate Hm); repeat (destruct ms' as [|? ms']; try discriminate Hm');
  repeat (destruct j as [|j]; try lia); repeat (destruct j' as [|j']; try lia);
  cbn [nth gshift gadd gscale] in E; pose proof (f_equal (fun g : z3 => fst (fst g)) E) as E1; pose proof (f_equal (fun g : z3 => snd (fst g)) E) as E2; pose proof (f_equal (fun g : z3 => snd g) E) as E3; cbn [fst snd] in E1, E2, E3; clear E; first [exfalso; lia | split; [reflexivity|repeat f_equal; lia]].
Ltac dep_cases := intros (xs & Lx & (x & Hx & Nx) & E); cbn in Lx; repeat (destruct xs as [|? xs]; try discriminate Lx); cbn in E; pose proof s3_pos;
  injection E as E1 E2 E3; cbn in Hx; repeat destruct Hx as [<-|Hx]; try contradiction; apply Nx; (lra || nra).
Definition grid_chain : gridded chain_cell.
Proof.
  refine (Gridded chain_cell 1 1 [(0, 0, 0)%Z] [(1, 0, 0)%Z] _ _ _ _ _ _ _ _); try lra; try discriminate.
  - rows.
  - rows.
  - site_cases.
  - intros (xs & Lx & (x & Hx & Nx) & E). destruct xs as [|x1 [|]]; try discriminate. cbn in E. injection E as E1. destruct Hx as [<-|[]]; apply Nx; lra.
  - cbn. lia.
Defined.
Definition grid_square : gridded square_cell.
Proof.
  refine (Gridded square_cell 1 1 [(0, 0, 0)%Z] [(1, 0, 0); (0, 1, 0)]%Z _ _ _ _ _ _ _ _); try lra; try discriminate.
  - rows.
  - rows.
  - site_cases.
  - dep_cases.
  - cbn. lia.
Defined.
Definition grid_cubic : gridded cubic_cell.
Proof.
  refine (Gridded cubic_cell 1 1 [(0, 0, 0)%Z] [(1, 0, 0); (0, 1, 0); (0, 0, 1)]%Z _ _ _ _ _ _ _ _); try lra; try discriminate.
  - rows.
  - rows.
  - site_cases.
  - dep_cases.
  - cbn. lia.
Defined.
Lemma hex_vectors : [(1, 0, 0); (0.5, sqrt 3 / 2, 0)] = map (gpoint (/ 4) (sqrt 3 / 12)) [(4, 0, 0); (2, 6, 0)]%Z.
Proof. rows. Qed.
Lemma hex_independent : ~ dependent [(1, 0, 0); (0.5, sqrt 3 / 2, 0)].
Proof.
  intros (xs & Lx & (x & Hx & Nx) & E). destruct xs as [|x1 [|x2 [|]]]; try discriminate. cbn [combination vscale vadd v0] in E. injection E as E1 E2 _. pose proof s3_pos.
  assert (x2 = 0) by (apply (Rmult_eq_reg_r (sqrt 3)); lra). destruct Hx as [<-|[<-|[]]]; apply Nx; lra.
Qed.
Lemma hex_step : / 10 <= sqrt 3 / 12. Proof. pose proof s3_bounds. lra. Qed.
Definition grid_triangle : gridded triangle_cell.
Proof.
  refine (Gridded triangle_cell (/ 4) (sqrt 3 / 12) [(0, 0, 0)%Z] [(4, 0, 0); (2, 6, 0)]%Z _ hex_step _ hex_vectors _ hex_independent _ _); try lra; try discriminate.
  - rows.
  - site_cases.
  - cbn. lia.
Defined.
Definition grid_honeycomb : gridded honeycomb_cell.
Proof.
  refine (Gridded honeycomb_cell (/ 4) (sqrt 3 / 12) [(0, -2, 0); (0, 2, 0)]%Z [(4, 0, 0); (2, 6, 0)]%Z _ hex_step _ hex_vectors _ hex_independent _ _); try lra; try discriminate.
  - cbn [cpoints honeycomb_cell map gpoint]. rewrite !inv_s3. rows.
  - site_cases.
  - cbn. lia.
Defined.
Definition grid_kagome : gridded kagome_cell.
Proof.
  refine (Gridded kagome_cell (/ 4) (sqrt 3 / 12) [(0, 0, 0); (1, 3, 0); (2, 0, 0)]%Z [(4, 0, 0); (2, 6, 0)]%Z _ hex_step _ hex_vectors _ hex_independent _ _); try lra; try discriminate.
  - cbn [cpoints kagome_cell map gpoint]. rows.
  - site_cases.
  - cbn. lia.
Defined.
Lemma common_gridded s c : In (s, c) common_cells -> gridded c.
Proof.
  intros H. assert (K : {c = chain_cell} + {c = square_cell} + {c = triangle_cell} + {c = honeycomb_cell} + {c = kagome_cell} + {c = cubic_cell}).
  { destruct (string_dec s "chain") as [->|N1]; [left; left; left; left; left|destruct (string_dec s "square") as [->|N2]; [left; left; left; left; right|destruct (string_dec s "triangle") as [->|N3]; [left; left; left; right|
      destruct (string_dec s "honeycomb") as [->|N4]; [left; left; right|destruct (string_dec s "kagome") as [->|N5]; [left; right|right]]]]];
    cbn [common_cells In] in H; repeat destruct H as [H|H]; try contradiction; pose proof (f_equal fst H) as H1; pose proof (f_equal snd H) as H2; cbn [fst snd] in H1, H2; congruence. }
  destruct K as [[[[[->| ->]| ->]| ->]| ->]| ->]; [exact grid_chain|exact grid_square|exact grid_triangle|exact grid_honeycomb|exact grid_kagome|exact grid_cubic].
Qed.
Lemma find_common s c : In (s, c) common_cells -> find_cell common_cells s = Some c.
Proof. intros H. cbn [common_cells In] in H. repeat destruct H as [H|H]; try contradiction; injection H as <- <-; reflexivity. Qed.
Lemma find_none table s : (forall c, ~ In (s, c) table) -> find_cell table s = None.
Proof.
  unfold find_cell. intros H. destruct (find (fun e => String.eqb (fst e) s) table) as [[s' c]|] eqn:E; [|reflexivity]. apply find_some in E as [E1 E2]. apply String.eqb_eq in E2. cbn in E2. subst. now apply H in E1.
Qed.

(** ** one cell is the 1 x ... x 1 cluster *)
Lemma ones_scale nums : forall vs, List.length nums = List.length vs -> Forall (fun n => n = 1%Z) nums -> scale_rows nums vs = vs.
Proof. induction nums as [|n nums IH]; intros [|v vs] H F; try discriminate; [reflexivity|]. inversion F; subst. cbn. rewrite IH by (auto; now injection H). f_equal. vring. Qed.
Lemma ones_cluster c nums : Forall (fun n => n = 1%Z) nums -> cluster c nums = cpoints c.
Proof.
  intros F. unfold cluster. assert (E : mesh nums = [repeat 0%Z (List.length nums)]).
  { unfold mesh. induction F as [|n nums -> F IH]; [reflexivity|]. cbn [map cart List.length repeat]. rewrite IH. reflexivity. }
  rewrite E. cbn [map flat_map]. rewrite app_nil_r, comb_shift, shift_zero. rewrite (map_ext _ (fun p => p)) by apply vadd_0_l. apply map_id.
Qed.
Definition extents (c : cell) (n0 n1 n2 : Z) : list Z := firstn (List.length (cvectors c)) [n0; n1; n2].
Lemma generator_build prec s c n0 n1 n2 : In (s, c) common_cells -> (1 <= n0)%Z -> (1 <= n1)%Z -> (1 <= n2)%Z ->
  lattice_generator prec (Name s) (AnInt n0) (AnInt n1) (AnInt n2) = make_lattice prec (Arr (cdim c) (cluster c (extents c n0 n1 n2))) (Arr (cdim c) (scale_rows (extents c n0 n1 n2) (cvectors c))).
Proof.
  intros H H0 H1 H2. unfold lattice_generator, at_least_one. rewrite (proj2 (Z.leb_le 1 n0) H0), (proj2 (Z.leb_le 1 n1) H1), (proj2 (Z.leb_le 1 n2) H2). cbn [bind]. rewrite (find_common s c H).
  assert (G : forall nums, Forall (fun n => n = 1%Z) nums -> List.length nums = List.length (cvectors c) ->
    make_lattice prec (Arr (cdim c) (cpoints c)) (Arr (cdim c) (cvectors c)) = make_lattice prec (Arr (cdim c) (cluster c nums)) (Arr (cdim c) (scale_rows nums (cvectors c)))).
  { intros nums F Hl. now rewrite ones_cluster, ones_scale. }
  fold (mesh [n0]) (mesh [n0; n1]) (mesh [n0; n1; n2]). fold (cluster c [n0]) (cluster c [n0; n1]) (cluster c [n0; n1; n2]).
  cbn [common_cells In] in H. repeat destruct H as [H|H]; try contradiction; injection H as <- <-; cbn [String.eqb Ascii.eqb Bool.eqb]; cbn [extents cvectors chain_cell square_cell triangle_cell honeycomb_cell kagome_cell cubic_cell List.length firstn].
  - destruct (Z.eqb_spec n0 1); [apply G; [repeat constructor; lia|reflexivity]|reflexivity].
  - destruct (Z.eqb_spec n0 1), (Z.eqb_spec n1 1); cbn [andb]; try reflexivity. apply G; [repeat constructor; lia|reflexivity].
  - destruct (Z.eqb_spec n0 1), (Z.eqb_spec n1 1); cbn [andb]; try reflexivity. apply G; [repeat constructor; lia|reflexivity].
  - destruct (Z.eqb_spec n0 1), (Z.eqb_spec n1 1); cbn [andb]; try reflexivity. apply G; [repeat constructor; lia|reflexivity].
  - destruct (Z.eqb_spec n0 1), (Z.eqb_spec n1 1); cbn [andb]; try reflexivity. apply G; [repeat constructor; lia|reflexivity].
  - destruct (Z.eqb_spec n0 1), (Z.eqb_spec n1 1), (Z.eqb_spec n2 1); cbn [andb]; try reflexivity. apply G; [repeat constructor; lia|reflexivity].
Qed.
Lemma extents_ok s c n0 n1 n2 : In (s, c) common_cells -> (1 <= n0)%Z -> (1 <= n1)%Z -> (1 <= n2)%Z ->
  Forall (fun n => (1 <= n)%Z) (extents c n0 n1 n2) /\ List.length (extents c n0 n1 n2) = List.length (cvectors c).
Proof. intros H H0 H1 H2. cbn [common_cells In] in H. repeat destruct H as [H|H]; try contradiction; injection H as <- <-; cbn; (split; [repeat constructor; assumption|reflexivity]). Qed.

(** For every known name and all multiplicities: the cluster is accepted, has
    num0 * num1 * num2 cells (the numbers beyond the number of vectors do not
    count) listed row by row, scaled translation vectors, no equivalent points,
    and tiles the infinite lattice of its cell. *)
Theorem C37_generator : forall prec s c n0 n1 n2, (1 <= prec)%nat -> In (s, c) common_cells -> (1 <= n0)%Z -> (1 <= n1)%Z -> (1 <= n2)%Z ->
  let nums := firstn (List.length (cvectors c)) [n0; n1; n2] in
  exists L d, lattice_generator prec (Name s) (AnInt n0) (AnInt n1) (AnInt n2) = Ok (L, d) /\ lattice_of prec L /\ space_dim L = cdim c /\
    List.length (vectors L) = List.length (cvectors c) /\
    (forall i, (i < List.length (cvectors c))%nat -> nth i (vectors L) v0 = vscale (IZR (nth i nums 0%Z)) (nth i (cvectors c) v0)) /\
    List.length (points L) = (Z.to_nat (count nums) * List.length (cpoints c))%nat /\
    (forall ns j, box nums ns -> (j < List.length (cpoints c))%nat -> nth (Z.to_nat (position nums ns) * List.length (cpoints c) + j) (points L) v0 = site c j ns) /\
    separated (/ 10) L /\ tiles c L.
Proof.
  intros prec s c n0 n1 n2 Hpr H H0 H1 H2 nums. change nums with (extents c n0 n1 n2). destruct (extents_ok s c n0 n1 n2 H H0 H1 H2) as [F Hl].
  pose proof (common_gridded s c H) as g. destruct (cluster_accepted prec c g _ Hpr F Hl) as (L & d & E & E1 & E2 & E3 & HL). exists L, d. split; [rewrite (generator_build prec s c) by auto; exact E|].
  split; [exact HL|]. split; [exact E1|]. split; [rewrite E3; now apply scale_rows_length|]. split; [intros i Hi; rewrite E3; now apply scale_rows_nth|]. split; [rewrite E2; now apply cluster_length|].
  split; [intros ns j Hb Hj; rewrite E2; now apply cluster_nth|]. split; [now apply (generated_separated c g (extents c n0 n1 n2))|now apply (generated_tiles c g (extents c n0 n1 n2))].
Qed.
Print Assumptions C37_generator.

(** Bad arguments: the numbers are checked first, for every lattice. *)
Theorem C37_errors : forall prec which num0 num1 num2,
  let bad n := match n with AnInt k => (k < 1)%Z | NotInt => True end in
  ((bad num0 \/ bad num1 \/ bad num2) -> lattice_generator prec which num0 num1 num2 = Err AssertionError) /\
  (~ (bad num0 \/ bad num1 \/ bad num2) ->
     (which = Unhashable -> lattice_generator prec which num0 num1 num2 = Err TypeError) /\
     ((which = OtherKey \/ exists s, which = Name s /\ ~ In s ["chain"; "square"; "triangle"; "honeycomb"; "kagome"; "cubic"]%string) -> lattice_generator prec which num0 num1 num2 = Err KeyError)).
Proof.
  intros prec which num0 num1 num2 bad.
  assert (B : forall n, bad n /\ at_least_one n = Err AssertionError \/ ~ bad n /\ exists k, at_least_one n = Ok k).
  { intros [k|]; cbn; [|now left]. destruct (Z.leb_spec 1 k); [right; split; [lia|eauto]|left; split; [lia|reflexivity]]. }
  unfold lattice_generator. destruct (B num0) as [[B0 ->]|[B0 (k0 & ->)]]; [split; [reflexivity|tauto]|]. cbn [bind].
  destruct (B num1) as [[B1 ->]|[B1 (k1 & ->)]]; [split; [reflexivity|tauto]|]. cbn [bind]. destruct (B num2) as [[B2 ->]|[B2 (k2 & ->)]]; [split; [reflexivity|tauto]|]. cbn [bind].
  split; [tauto|]. intros _. split; [now intros ->|]. intros [-> | (s & -> & Hs)]; [reflexivity|]. rewrite find_none; [reflexivity|].
  intros c H. apply Hs. cbn in H |- *. repeat destruct H as [H|H]; try contradiction; injection H as <- _; tauto.
Qed.
Print Assumptions C37_errors.

(** The geometry of the cells: unit vectors at 90 or 60 degrees, and the nearest
    distances between the points of a cell. *)
Theorem C37_cells : forall s c, In (s, c) common_cells ->
  (forall i, (i < List.length (cvectors c))%nat -> norm (nth i (cvectors c) v0) = 1) /\
  (forall i j, (i < List.length (cvectors c))%nat -> (j < List.length (cvectors c))%nat -> i <> j ->
     vdot (nth i (cvectors c) v0) (nth j (cvectors c) v0) = if existsb (String.eqb s) ["triangle"; "honeycomb"; "kagome"]%string then 1 / 2 else 0) /\
  List.length (cpoints c) = (if String.eqb s "honeycomb" then 2 else if String.eqb s "kagome" then 3 else 1)%nat /\
  (forall i j, (i < List.length (cpoints c))%nat -> (j < List.length (cpoints c))%nat -> i <> j ->
     dist (nth i (cpoints c) v0) (nth j (cpoints c) v0) = if String.eqb s "honeycomb" then 1 / sqrt 3 else 1 / 2).
Proof.
  intros s c H. pose proof s3_sq as Q. pose proof s3_pos as P.
  assert (N1 : forall u, vdot u u = 1 -> norm u = 1) by (intros u E; unfold norm; rewrite E; apply sqrt_1).
  assert (D1 : forall u v r, 0 <= r -> vdot (vsub u v) (vsub u v) = r * r -> dist u v = r) by (intros u v r Hr E; unfold dist, norm; rewrite E; now apply sqrt_square).
  assert (I3 : 1 / sqrt 3 = sqrt 3 / 3) by (rewrite inv_s3; lra).
  cbn [common_cells In] in H. repeat destruct H as [H|H]; try contradiction; injection H as <- <-;
    (split; [intros i Hi; cbn in Hi; repeat (destruct i as [|i]; try lia); apply N1; cbn; nra|
     split; [intros i j Hi Hj N; cbn in Hi, Hj; repeat (destruct i as [|i]; try lia); repeat (destruct j as [|j]; try lia); cbn; lra|
     split; [reflexivity|intros i j Hi Hj N; cbn in Hi, Hj; repeat (destruct i as [|i]; try lia); repeat (destruct j as [|j]; try lia); cbn [String.eqb Ascii.eqb Bool.eqb]]]]).
  1,2: rewrite I3; apply D1; [lra|]; cbn [cpoints honeycomb_cell nth vsub vdot]; rewrite !inv_s3; nra.
  all: apply D1; [lra|]; cbn [cpoints kagome_cell nth vsub vdot]; nra.
Qed.
Print Assumptions C37_cells.

(** ** the clusters satisfy the conditions of C34, C35 and C36 *)
Lemma compact_coeffs nums : forall vs ns ns' ts, List.length nums = List.length vs -> box nums ns -> box nums ns' -> List.length ts = List.length vs -> Forall (fun t => Rabs t <= 1) ts ->
  exists us, List.length us = List.length vs /\ Forall (fun t => Rabs t <= 1) us /\ combination us (scale_rows nums vs) = vadd (combination ts vs) (vsub (shift ns vs) (shift ns' vs)).
Proof.
  unfold shift. induction nums as [|num nums IH]; intros [|v vs] ns ns' [|t ts] Hl Hb Hb' Lt Ft; try discriminate.
  - exists []. repeat split; [constructor|]. inversion Hb; inversion Hb'; subst. cbn. vring.
  - inversion Hb as [|? n ? ns1 Hn Hb1]; inversion Hb' as [|? n' ? ns1' Hn' Hb1']; inversion Ft as [|? ? Ht Ft1]; subst.
    destruct (IH vs ns1 ns1' ts) as (us & A & B & C); auto. assert (N0 : 1 <= IZR num) by (apply IZR_le; lia).
    exists ((t + IZR (n - n')) / IZR num :: us). split; [cbn; congruence|]. split.
    + constructor; [|exact B]. apply Rabs_le_inv in Ht. assert (K : - (IZR num - 1) <= IZR (n - n') <= IZR num - 1) by (rewrite <- minus_IZR, <- opp_IZR; split; apply IZR_le; lia).
      apply Rabs_le. split; [apply (Rmult_le_reg_r (IZR num)); [lra|]; unfold Rdiv; rewrite Rmult_assoc, Rinv_l by lra; lra|].
      apply (Rmult_le_reg_r (IZR num)); [lra|]. unfold Rdiv. rewrite Rmult_assoc, Rinv_l by lra. lra.
    + cbn [scale_rows map combination]. rewrite C. rewrite minus_IZR.
      generalize (combination (map IZR ns1) vs), (combination (map IZR ns1') vs), (combination ts vs). intros a b e. destruct v as [[x y] z], a as [[ax ay] az], b as [[bx by_] bz], e as [[ex ey] ez].
      cbn [vadd vsub vscale]. apply p3_eq; field; lra.
Qed.
Definition cell_compact (c : cell) : Prop := forall p q, In p (cpoints c) -> In q (cpoints c) ->
  exists ts, List.length ts = List.length (cvectors c) /\ Forall (fun t => Rabs t <= 1) ts /\ vsub p q = combination ts (cvectors c).
Lemma cluster_compact c nums L : cell_compact c -> Forall (fun n => (1 <= n)%Z) nums -> List.length nums = List.length (cvectors c) -> points L = cluster c nums -> vectors L = scale_rows nums (cvectors c) -> compact L.
Proof.
  intros Hc Hp Hl Lp Lv p q Hpi Hqi. rewrite Lp in Hpi, Hqi. apply (In_nth _ _ v0) in Hpi as (i & Hi & <-). apply (In_nth _ _ v0) in Hqi as (j & Hj & <-).
  destruct (cluster_site c nums i Hp Hi) as (ns & a & Hb & Ha & _ & ->). destruct (cluster_site c nums j Hp Hj) as (ns' & b & Hb' & Hb2 & _ & ->).
  destruct (Hc _ _ (nth_In _ v0 Ha) (nth_In _ v0 Hb2)) as (ts & Lt & Ft & Et). destruct (compact_coeffs nums (cvectors c) ns ns' ts) as (us & A & B & C); auto.
  exists us, v0. rewrite Lv, scale_rows_length by exact Hl. split; [exact A|]. split; [exact B|]. split; [intros w _; apply vdot_0_l|]. rewrite C, <- Et, vadd_0_r. unfold site.
  generalize (shift ns (cvectors c)), (shift ns' (cvectors c)), (nth a (cpoints c) v0), (nth b (cpoints c) v0). vring.
Qed.
Lemma single_cell_compact c p : cpoints c = [p] -> cell_compact c.
Proof.
  intros E x y Hx Hy. rewrite E in Hx, Hy. destruct Hx as [<-|[]], Hy as [<-|[]]. exists (repeat 0 (List.length (cvectors c))). split; [apply repeat_length|]. split; [apply Forall_forall; intros t Ht; apply repeat_spec in Ht; subst; rewrite Rabs_R0; lra|].
  rewrite combination_zero. vring.
Qed.
Lemma hex_pair (p q : point) t1 t2 : Rabs t1 <= 1 -> Rabs t2 <= 1 -> vsub p q = combination [t1; t2] [(1, 0, 0); (0.5, sqrt 3 / 2, 0)] ->
  exists ts, List.length ts = 2%nat /\ Forall (fun t => Rabs t <= 1) ts /\ vsub p q = combination ts [(1, 0, 0); (0.5, sqrt 3 / 2, 0)].
Proof. intros. exists [t1; t2]. repeat split; auto. Qed.
Lemma common_compact s c : In (s, c) common_cells -> cell_compact c.
Proof.
  intros H. cbn [common_cells In] in H. repeat destruct H as [H|H]; try contradiction; injection H as <- <-; try (eapply single_cell_compact; reflexivity).
  - intros p q Hp Hq. cbn [cpoints honeycomb_cell In] in Hp, Hq. cbn [cvectors honeycomb_cell]. rewrite !inv_s3 in Hp, Hq.
    assert (G : exists x, (x = 0 \/ x = 1 \/ x = -1) /\ vsub p q = (0, x * (sqrt 3 / 3), 0)).
    { destruct Hp as [<-|[<-|[]]], Hq as [<-|[<-|[]]]; [exists 0|exists (-1)|exists 1|exists 0]; (split; [tauto|]); cbn [vsub]; apply p3_eq; lra. }
    destruct G as (x & Hx & E). apply (hex_pair p q (- x / 3) (2 * x / 3)).
    + apply Rabs_le. destruct Hx as [->|[->| ->]]; lra.
    + apply Rabs_le. destruct Hx as [->|[->| ->]]; lra.
    + rewrite E. cbn [combination vscale vadd v0]. apply p3_eq; lra.
  - intros p q Hp Hq. cbn [cpoints kagome_cell In] in Hp, Hq. cbn [cvectors kagome_cell].
    assert (G : exists x y, (x = 0 \/ x = 1 \/ x = -1) /\ (y = 0 \/ y = 1 \/ y = -1) /\ vsub p q = (x / 2 + y / 4, y * (sqrt 3 / 4), 0)).
    { destruct Hp as [<-|[<-|[<-|[]]]], Hq as [<-|[<-|[<-|[]]]]; [exists 0, 0|exists 0, (-1)|exists (-1), 0|exists 0, 1|exists 0, 0|exists (-1), 1|exists 1, 0|exists 1, (-1)|exists 0, 0]; (split; [tauto|]); (split; [tauto|]); cbn [vsub]; apply p3_eq; lra. }
    destruct G as (x & y & Hx & Hy & E). apply (hex_pair p q (x / 2) (y / 2)).
    + apply Rabs_le. destruct Hx as [->|[->| ->]]; lra.
    + apply Rabs_le. destruct Hy as [->|[->| ->]]; lra.
    + rewrite E. cbn [combination vscale vadd v0]. apply p3_eq; lra.
Qed.
Lemma scaled_orthogonal nums vs : List.length nums = List.length vs -> orthogonal vs -> orthogonal (scale_rows nums vs).
Proof.
  intros Hl Ho i j Hi Hj N. rewrite scale_rows_length in Hi, Hj by exact Hl. rewrite !scale_rows_nth by auto. rewrite vdot_scale_l, vdot_comm, vdot_scale_l, (Ho j i) by auto. ring.
Qed.

(** Every chain, square and cubic cluster satisfies the hypotheses of C34, C35
    and C36; so do the neighbour distances of the other clusters with as many
    cells in both directions. *)
Theorem C37_suitable : forall prec s c n0 n1 n2 L d, (1 <= prec)%nat -> In (s, c) common_cells -> (1 <= n0)%Z -> (1 <= n1)%Z -> (1 <= n2)%Z ->
  lattice_generator prec (Name s) (AnInt n0) (AnInt n1) (AnInt n2) = Ok (L, d) ->
  separated (view prec) L /\ resolved prec L /\ compact L /\
  (In s ["chain"; "square"; "cubic"]%string -> nice L /\ orthogonal (vectors L) /\ reduced (1 / 2) (vectors L)) /\
  (In s ["triangle"; "honeycomb"; "kagome"]%string -> n0 = n1 -> reduced (1 / 2) (vectors L)).
Proof.
  intros prec s c n0 n1 n2 L d Hpr H H0 H1 H2 E. destruct (extents_ok s c n0 n1 n2 H H0 H1 H2) as [F Hl]. pose proof (common_gridded s c H) as g.
  destruct (cluster_accepted prec c g _ Hpr F Hl) as (L' & d' & E' & E1 & E2 & E3 & HL). rewrite (generator_build prec s c) in E by auto. rewrite E' in E. injection E as -> ->.
  split; [|split; [|split; [|split]]].
  - intros i j ns Hi Hj N Ln. eapply Rle_trans; [apply view_tenth, Hpr|]. now apply (generated_separated c g (extents c n0 n1 n2)).
  - now apply (generated_resolved c g (extents c n0 n1 n2)).
  - apply (cluster_compact c (extents c n0 n1 n2)); auto. eapply common_compact, H.
  - intros Hs. assert (Oc : orthogonal (cvectors c)).
    { cbn [common_cells In] in H. cbn in Hs. repeat destruct H as [H|H]; try contradiction; injection H as <- <-; try (exfalso; repeat destruct Hs as [Hs|Hs]; try discriminate Hs; exact Hs);
        intros i j Hi Hj N; cbn in Hi, Hj; repeat (destruct i as [|i]; try lia); repeat (destruct j as [|j]; try lia); cbn; lra. }
    assert (Ov : orthogonal (vectors L)) by (rewrite E3; now apply scaled_orthogonal). split; [apply C36_nice; right; split; [exact Ov|]|split; [exact Ov|apply orthogonal_reduced; [lra|exact Ov]]].
    apply (cluster_compact c (extents c n0 n1 n2)); auto. eapply common_compact, H.
  - intros Hs <-. rewrite E3.
    assert (Ev : cvectors c = [(1, 0, 0); (0.5, sqrt 3 / 2, 0)]).
    { cbn [common_cells In] in H. cbn in Hs. repeat destruct H as [H|H]; try contradiction; injection H as <- <-; try (exfalso; repeat destruct Hs as [Hs|Hs]; try discriminate Hs; exact Hs); reflexivity. }
    unfold extents. rewrite Ev. cbn [List.length firstn scale_rows]. intros i Hi. cbn [List.length] in Hi. pose proof s3_sq as Q. assert (N0 : 1 <= IZR n0) by (now apply IZR_le).
    assert (P : 0 <= IZR n0 * IZR n0) by nra.
    destruct i as [|[|i]]; [| |lia]; unfold overlap; cbn [List.length seq fold_right Nat.eqb nth]; rewrite Rplus_0_l, ?Rplus_0_r, Rabs_right by (cbn [vdot vscale]; nra); cbn [vdot vscale]; nra.
Qed.
Print Assumptions C37_suitable.

(** Non-vacuity and an example: a 2 x 3 honeycomb cluster has 12 points. *)
Example honeycomb_2_3 : exists L d, lattice_generator 4 (Name "honeycomb") (AnInt 2) (AnInt 3) (AnInt 1) = Ok (L, d) /\ List.length (points L) = 12%nat /\ nth 0 (vectors L) v0 = (2, 0, 0).
Proof.
  destruct (C37_generator 4 "honeycomb" honeycomb_cell 2 3 1) as (L & d & E & _ & _ & _ & V & Ln & _); try lia; [cbn; tauto|]. exists L, d. split; [exact E|]. split; [exact Ln|].
  rewrite V by (cbn; lia). cbn. apply p3_eq; lra.
Qed.
(** The precision matters: with precision 0 (tolerance 1) the honeycomb cell is
    rejected, as its two points are nearer than 1. *)
Theorem C37_precision_refuted : lattice_generator 0 (Name "honeycomb") (AnInt 1) (AnInt 1) (AnInt 1) = Err ValueError.
Proof.
  change (make_lattice 0 (Arr 2 (cpoints honeycomb_cell)) (Arr 2 (cvectors honeycomb_cell)) = Err ValueError).
  destruct (C31_constructor 0 (Arr 2 (cpoints honeycomb_cell)) (Arr 2 (cvectors honeycomb_cell))) as [_ K]. specialize (K _ _ _ _ eq_refl eq_refl). destruct K as (K & _). apply K.
  intros (_ & _ & _ & _ & A). specialize (A 0%nat 1%nat ltac:(cbn; lia)). destruct (C37_cells "honeycomb" honeycomb_cell) as (_ & _ & _ & D); [cbn; tauto|]. rewrite D in A by (cbn; lia).
  cbn [String.eqb Ascii.eqb Bool.eqb] in A. rewrite inv_s3 in A. unfold view in A. cbn [pow] in A. pose proof s3_bounds. lra.
Qed.
Print Assumptions C37_precision_refuted.
