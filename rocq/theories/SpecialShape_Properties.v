(** C51: the shape of the special clusters. *)
From Coq Require Import String List Reals ZArith Bool Arith Lra Lia Psatz.
From Verif Require Import Py Lattice_Model Lattice_Spec Lattice_Proofs LatticeCases_Properties LatticeGen_Model LatticeGen_Spec LatticeGen_Proofs LatticeGen_Properties SpecialCluster_Spec SpecialCluster_Properties.
Import ListNotations.
Open Scope R_scope.

Section Shape.
  Variables (c sp : cell) (g : gridded c) (T : list entry) (shape : point -> Prop) (zshape : Z -> Z -> bool) (sx sy : R).
  Hypothesis Two : List.length (cvectors c) = 2%nat.
  Hypothesis HT : forall x, In x T -> (fst x < List.length (cpoints c))%nat.
  Hypothesis Hp : cpoints sp = map (fun x => site c (fst x) [fst (snd x); snd (snd x)]) T.
  Let grid j m0 m1 : z3 := gadd (nth j (gpts c g) (0, 0, 0)%Z) (gshift [m0; m1] (gvecs c g)).
  Hypothesis Hsx : gx c g = sx.
  Hypothesis Hsy : gy c g = sy.
  Hypothesis Hs : forall X Y Z, shape (gpoint sx sy (X, Y, Z)) <-> zshape X Y = true.
  Hypothesis Hb : forall j m0 m1, (j < List.length (cpoints c))%nat -> zshape (fst (fst (grid j m0 m1))) (snd (fst (grid j m0 m1))) = true -> (-4 <= m0 < 5)%Z /\ (-4 <= m1 < 5)%Z.
  Hypothesis Hc : forallb (fun j => forallb (fun m0 => forallb (fun m1 => Bool.eqb (zshape (fst (fst (grid j m0 m1))) (snd (fst (grid j m0 m1))))
    (existsb (fun e => Nat.eqb (fst e) j && (fst (snd e) =? m0)%Z && (snd (snd e) =? m1)%Z) T)) (zrange (-4) 5)) (zrange (-4) 5)) (seq 0 (List.length (cpoints c))) = true.
  Hypothesis Hr : forallb (fun e => (-4 <=? fst (snd e))%Z && (fst (snd e) <? 5)%Z && (-4 <=? snd (snd e))%Z && (snd (snd e) <? 5)%Z) T = true.
  Local Lemma checked j m0 m1 : (j < List.length (cpoints c))%nat -> (-4 <= m0 < 5)%Z -> (-4 <= m1 < 5)%Z ->
    zshape (fst (fst (grid j m0 m1))) (snd (fst (grid j m0 m1))) = true <-> In (j, (m0, m1)) T.
  Proof.
    intros Hj H0 H1. pose proof Hc as K. rewrite forallb_forall in K. specialize (K j ltac:(apply in_seq; lia)). rewrite forallb_forall in K. specialize (K m0 ltac:(apply in_zrange; lia)).
    rewrite forallb_forall in K. specialize (K m1 ltac:(apply in_zrange; lia)). apply eqb_prop in K. rewrite K, existsb_exists. split.
    - intros ((j' & a & b) & Hx & E). cbn [fst snd] in E. rewrite !andb_true_iff, Nat.eqb_eq, !Z.eqb_eq in E. destruct E as [[E1 E2] E3]. now subst.
    - intros H. exists (j, (m0, m1)). split; [exact H|]. cbn [fst snd]. now rewrite Nat.eqb_refl, !Z.eqb_refl.
  Qed.
  Lemma shape_of p : In p (cpoints sp) <-> (exists j ms, is_site c j ms /\ p = site c j ms) /\ shape p.
  Proof.
    rewrite Hp, in_map_iff. split.
    - intros ((j & m0 & m1) & <- & Hx). cbn [fst snd]. pose proof (HT _ Hx) as Hj. cbn [fst] in Hj. pose proof Hr as Hr'. rewrite forallb_forall in Hr'. specialize (Hr' _ Hx). cbn [fst snd] in Hr'.
      rewrite !andb_true_iff in Hr'. destruct Hr' as [[[B1 B2] B3] B4]. apply Z.leb_le in B1, B3. apply Z.ltb_lt in B2, B4.
      split; [exists j, [m0; m1]; split; [split; [exact Hj|now rewrite Two]|reflexivity]|]. rewrite (site_grid c g) by exact Hj. fold (grid j m0 m1). rewrite Hsx, Hsy. apply (checked j m0 m1) in Hx; auto. destruct (grid j m0 m1) as [[X Y] Z]. apply Hs. exact Hx.
    - intros [(j & ms & [Hj Hm] & ->) H]. rewrite Two in Hm. destruct ms as [|m0 [|m1 [|]]]; try discriminate. rewrite (site_grid c g) in H by exact Hj. fold (grid j m0 m1) in H. rewrite Hsx, Hsy in H. assert (H' : zshape (fst (fst (grid j m0 m1))) (snd (fst (grid j m0 m1))) = true) by (destruct (grid j m0 m1) as [[X Y] Z]; apply Hs in H; exact H). clear H. rename H' into H.
      destruct (Hb _ _ _ Hj H). apply checked in H; auto. exists (j, (m0, m1)). auto.
  Qed.
End Shape.

(** ** the shapes in grid coordinates *)
Lemma ball_square n X Y : (IZR X * / 2) * (IZR X * / 2) + (IZR Y * / 2) * (IZR Y * / 2) <= IZR n / 4 <-> (X * X + Y * Y <=? n)%Z = true.
Proof.
  rewrite Z.leb_le. split; intros H.
  - apply le_IZR. rewrite plus_IZR, !mult_IZR. lra.
  - apply IZR_le in H. rewrite plus_IZR, !mult_IZR in H. lra.
Qed.
Lemma ball_hex n X Y : (IZR X * / 4) * (IZR X * / 4) + (IZR Y * (sqrt 3 / 12)) * (IZR Y * (sqrt 3 / 12)) <= IZR n / 48 <-> (3 * (X * X) + Y * Y <=? n)%Z = true.
Proof.
  rewrite Z.leb_le. pose proof s3_sq as Q. replace ((IZR Y * (sqrt 3 / 12)) * (IZR Y * (sqrt 3 / 12))) with (IZR Y * IZR Y * (sqrt 3 * sqrt 3) / 144) by field. rewrite Q. split; intros H.
  - apply le_IZR. rewrite plus_IZR, !mult_IZR. lra.
  - apply IZR_le in H. rewrite plus_IZR, !mult_IZR in H. lra.
Qed.
Lemma abs_iff x b : Rabs x <= b <-> - b <= x <= b.
Proof. split; [intros H; split; unfold Rabs in H; destruct (Rcase_abs x); lra|intros [? ?]; apply Rabs_le; lra]. Qed.

Ltac gridc := cbn [gx gy gpts gvecs fst snd nth gadd gscale gshift grid_square11 grid_square10 grid_triangle grid_honeycomb grid_honeycomb10] in *.

Lemma shape_square_cross p : In p (cpoints square_cross) <-> (exists j ms, is_site square11 j ms /\ p = site square11 j ms) /\ (within (5 / 2)) p.
Proof.
  apply (shape_of square11 square_cross grid_square11 [(0%nat, (-1, -1)%Z); (0%nat, (-1, 0)%Z); (0%nat, (0, 0)%Z); (0%nat, (0, -1)%Z); (0%nat, (-1, -2)%Z); (0%nat, (-2, -1)%Z); (0%nat, (-2, 0)%Z); (0%nat, (-1, 1)%Z); (0%nat, (0, 1)%Z); (0%nat, (1, 0)%Z); (0%nat, (1, -1)%Z); (0%nat, (0, -2)%Z)]
    (within (5 / 2)) (fun X Y => (X * X + Y * Y <=? 10)%Z) (/ 2) (/ 2)); try reflexivity.
  - intros x Hx. cbn in Hx. repeat destruct Hx as [<-|Hx]; try contradiction; cbn; lia.
  - cluster_rows.
  - intros X Y Z. cbn [within gpoint]. rewrite <- ball_square. split; intros H; lra.
  - intros j m0 m1 Hj. cbn in Hj. remember (fst (fst (gadd _ _))) as X eqn:EX. remember (snd (fst (gadd _ _))) as Y eqn:EY. intros H. rewrite Z.leb_le in H. assert (Cx : ((-3 <= X <= 3) /\ (-3 <= Y <= 3))%Z) by nia. 
    destruct j as [|[|j]]; [| |lia]; gridc; lia.
Qed.

Lemma shape_square_z p : In p (cpoints square_z) <-> (exists j ms, is_site square10 j ms /\ p = site square10 j ms) /\ z_shape p.
Proof.
  apply (shape_of square10 square_z grid_square10 [(0%nat, (-2, 1)%Z); (0%nat, (-1, 1)%Z); (0%nat, (0, 1)%Z); (0%nat, (-2, 0)%Z); (0%nat, (-1, 0)%Z); (0%nat, (0, 0)%Z); (0%nat, (1, 0)%Z); (0%nat, (-1, -1)%Z); (0%nat, (0, -1)%Z); (0%nat, (1, -1)%Z)]
    z_shape (fun X Y => ((Z.abs X <=? 3) && (Z.abs Y <=? 2) && (X * Y <=? 4))%Z) (/ 2) (/ 2)); try reflexivity.
  - intros x Hx. cbn in Hx. repeat destruct Hx as [<-|Hx]; try contradiction; cbn; lia.
  - cluster_rows.
  - intros X Y Z. cbn [z_shape s_shape gpoint]. rewrite !andb_true_iff, !Z.leb_le, !abs_iff, !Z.abs_le. split; intros H; [destruct H as ((A & B) & (C & D) & E); repeat split; apply le_IZR; rewrite ?mult_IZR, ?opp_IZR; lra|destruct H as [[[A B] [C D]] E]; apply IZR_le in A, B, C, D, E; rewrite ?mult_IZR, ?opp_IZR in *; repeat split; lra].
  - intros j m0 m1 Hj. cbn in Hj. remember (fst (fst (gadd _ _))) as X eqn:EX. remember (snd (fst (gadd _ _))) as Y eqn:EY. intros H. rewrite !andb_true_iff, !Z.leb_le, !Z.abs_le in H. destruct H as [[H1 H2] H3]. 
    destruct j as [|[|j]]; [| |lia]; gridc; lia.
Qed.

Lemma shape_square_s p : In p (cpoints square_s) <-> (exists j ms, is_site square10 j ms /\ p = site square10 j ms) /\ s_shape p.
Proof.
  apply (shape_of square10 square_s grid_square10 [(0%nat, (-1, 1)%Z); (0%nat, (0, 1)%Z); (0%nat, (1, 1)%Z); (0%nat, (-2, 0)%Z); (0%nat, (-1, 0)%Z); (0%nat, (0, 0)%Z); (0%nat, (1, 0)%Z); (0%nat, (-2, -1)%Z); (0%nat, (-1, -1)%Z); (0%nat, (0, -1)%Z)]
    s_shape (fun X Y => ((Z.abs X <=? 3) && (Z.abs Y <=? 2) && (-4 <=? X * Y))%Z) (/ 2) (/ 2)); try reflexivity.
  - intros x Hx. cbn in Hx. repeat destruct Hx as [<-|Hx]; try contradiction; cbn; lia.
  - cluster_rows.
  - intros X Y Z. cbn [z_shape s_shape gpoint]. rewrite !andb_true_iff, !Z.leb_le, !abs_iff, !Z.abs_le. split; intros H; [destruct H as ((A & B) & (C & D) & E); repeat split; apply le_IZR; rewrite ?mult_IZR, ?opp_IZR; lra|destruct H as [[[A B] [C D]] E]; apply IZR_le in A, B, C, D, E; rewrite ?mult_IZR, ?opp_IZR in *; repeat split; lra].
  - intros j m0 m1 Hj. cbn in Hj. remember (fst (fst (gadd _ _))) as X eqn:EX. remember (snd (fst (gadd _ _))) as Y eqn:EY. intros H. rewrite !andb_true_iff, !Z.leb_le, !Z.abs_le in H. destruct H as [[H1 H2] H3]. 
    destruct j as [|[|j]]; [| |lia]; gridc; lia.
Qed.

Lemma shape_triangle_star p : In p (cpoints triangle_star) <-> (exists j ms, is_site triangle_cell j ms /\ p = site triangle_cell j ms) /\ (within 3) p.
Proof.
  apply (shape_of triangle_cell triangle_star grid_triangle [(0%nat, (0, 0)%Z); (0%nat, (0, -1)%Z); (0%nat, (-1, 0)%Z); (0%nat, (-1, 1)%Z); (0%nat, (0, 1)%Z); (0%nat, (1, 0)%Z); (0%nat, (1, -1)%Z); (0%nat, (1, -2)%Z); (0%nat, (-1, -1)%Z); (0%nat, (-2, 1)%Z); (0%nat, (-1, 2)%Z); (0%nat, (1, 1)%Z); (0%nat, (2, -1)%Z)]
    (within 3) (fun X Y => (3 * (X * X) + Y * Y <=? 144)%Z) (/ 4) ((sqrt 3 / 12))); try reflexivity.
  - intros x Hx. cbn in Hx. repeat destruct Hx as [<-|Hx]; try contradiction; cbn; lia.
  - cluster_rows.
  - intros X Y Z. cbn [within gpoint]. rewrite <- ball_hex. split; intros H; lra.
  - intros j m0 m1 Hj. cbn in Hj. remember (fst (fst (gadd _ _))) as X eqn:EX. remember (snd (fst (gadd _ _))) as Y eqn:EY. intros H. rewrite Z.leb_le in H. assert (Cx : ((-6 <= X <= 6) /\ (-12 <= Y <= 12))%Z) by nia. 
    destruct j as [|[|j]]; [| |lia]; gridc; lia.
Qed.

Lemma shape_honeycomb_benzene p : In p (cpoints honeycomb_benzene) <-> (exists j ms, is_site honeycomb10 j ms /\ p = site honeycomb10 j ms) /\ (within (1 / 3)) p.
Proof.
  apply (shape_of honeycomb10 honeycomb_benzene grid_honeycomb10 [(1%nat, (0, -1)%Z); (0%nat, (-1, 0)%Z); (1%nat, (-1, 0)%Z); (0%nat, (-1, 1)%Z); (1%nat, (0, 0)%Z); (0%nat, (0, 0)%Z)]
    (within (1 / 3)) (fun X Y => (3 * (X * X) + Y * Y <=? 16)%Z) (/ 4) ((sqrt 3 / 12))); try reflexivity.
  - intros x Hx. cbn in Hx. repeat destruct Hx as [<-|Hx]; try contradiction; cbn; lia.
  - cluster_rows.
  - intros X Y Z. cbn [within gpoint]. rewrite <- ball_hex. split; intros H; lra.
  - intros j m0 m1 Hj. cbn in Hj. remember (fst (fst (gadd _ _))) as X eqn:EX. remember (snd (fst (gadd _ _))) as Y eqn:EY. intros H. rewrite Z.leb_le in H. assert (Cx : ((-6 <= X <= 6) /\ (-12 <= Y <= 12))%Z) by nia. 
    destruct j as [|[|j]]; [| |lia]; gridc; lia.
Qed.

Lemma shape_honeycomb_diphenyl p : In p (cpoints honeycomb_diphenyl) <-> (exists j ms, is_site honeycomb_cell j ms /\ p = site honeycomb_cell j ms) /\ two_rings p.
Proof.
  apply (shape_of honeycomb_cell honeycomb_diphenyl grid_honeycomb [(1%nat, (0, -1)%Z); (0%nat, (-1, 0)%Z); (1%nat, (-1, 0)%Z); (0%nat, (-1, 1)%Z); (1%nat, (0, 0)%Z); (0%nat, (0, 1)%Z); (1%nat, (1, 0)%Z); (0%nat, (1, 0)%Z); (1%nat, (1, -1)%Z); (0%nat, (0, 0)%Z)]
    two_rings (fun X Y => ((3 * ((X + 2) * (X + 2)) + Y * Y <=? 16) || (3 * ((X - 2) * (X - 2)) + Y * Y <=? 16))%Z) (/ 4) ((sqrt 3 / 12))); try reflexivity.
  - intros x Hx. cbn in Hx. repeat destruct Hx as [<-|Hx]; try contradiction; cbn; lia.
  - cluster_rows.
  - intros X Y Z. cbn [two_rings within gpoint vadd]. unfold two_rings. cbn [within gpoint vadd]. rewrite orb_true_iff, <- !ball_hex, plus_IZR, minus_IZR. split; (intros [H|H]; [left|right]; lra).
  - intros j m0 m1 Hj. cbn in Hj. remember (fst (fst (gadd _ _))) as X eqn:EX. remember (snd (fst (gadd _ _))) as Y eqn:EY. intros H. rewrite orb_true_iff, !Z.leb_le in H. assert (Cx : ((-5 <= X <= 5) /\ (-4 <= Y <= 4))%Z) by (destruct H as [H|H]; [remember (X + 2)%Z as u eqn:Hu|remember (X - 2)%Z as u eqn:Hu]; assert (-2 <= u <= 2)%Z by nia; assert (-4 <= Y <= 4)%Z by nia; lia). 
    destruct j as [|[|j]]; [| |lia]; gridc; lia.
Qed.

Lemma shape_honeycomb_gear p : In p (cpoints honeycomb_gear) <-> (exists j ms, is_site honeycomb10 j ms /\ p = site honeycomb10 j ms) /\ (within (7 / 3)) p.
Proof.
  apply (shape_of honeycomb10 honeycomb_gear grid_honeycomb10 [(1%nat, (0, -1)%Z); (0%nat, (-1, 0)%Z); (1%nat, (-1, 0)%Z); (0%nat, (-1, 1)%Z); (1%nat, (0, 0)%Z); (0%nat, (0, 0)%Z); (0%nat, (0, -1)%Z); (1%nat, (0, -2)%Z); (0%nat, (-1, -1)%Z); (1%nat, (-1, -1)%Z); (0%nat, (-2, 0)%Z); (1%nat, (-2, 0)%Z); (0%nat, (-2, 1)%Z); (1%nat, (-2, 1)%Z); (0%nat, (-2, 2)%Z); (1%nat, (-1, 1)%Z); (0%nat, (-1, 2)%Z); (1%nat, (0, 1)%Z); (0%nat, (0, 1)%Z); (1%nat, (1, 0)%Z); (0%nat, (1, 0)%Z); (1%nat, (1, -1)%Z); (0%nat, (1, -1)%Z); (1%nat, (1, -2)%Z)]
    (within (7 / 3)) (fun X Y => (3 * (X * X) + Y * Y <=? 112)%Z) (/ 4) ((sqrt 3 / 12))); try reflexivity.
  - intros x Hx. cbn in Hx. repeat destruct Hx as [<-|Hx]; try contradiction; cbn; lia.
  - cluster_rows.
  - intros X Y Z. cbn [within gpoint]. rewrite <- ball_hex. split; intros H; lra.
  - intros j m0 m1 Hj. cbn in Hj. remember (fst (fst (gadd _ _))) as X eqn:EX. remember (snd (fst (gadd _ _))) as Y eqn:EY. intros H. rewrite Z.leb_le in H. assert (Cx : ((-6 <= X <= 6) /\ (-12 <= Y <= 12))%Z) by nia. 
    destruct j as [|[|j]]; [| |lia]; gridc; lia.
Qed.

(** The points of each cluster are exactly the sites of the lattice it divides that lie in its shape. *)
Theorem C51_shape : forall prec s n c shape, (1 <= prec)%nat -> In (s, (n, c)) special_table -> In (s, shape) shape_table ->
  exists L d, special_cluster prec (Name s) = Ok (L, d) /\ forall p, In p (points L) <-> (exists j ms, is_site c j ms /\ p = site c j ms) /\ shape p.
Proof.
  intros prec s n c shape Hpr H Hs.
  assert (K : forall sp, find_cell special_clusters s = Some sp -> fine prec n c sp -> (forall p, In p (cpoints sp) <-> (exists j ms, is_site c j ms /\ p = site c j ms) /\ shape p) ->
    exists L d, special_cluster prec (Name s) = Ok (L, d) /\ forall p, In p (points L) <-> (exists j ms, is_site c j ms /\ p = site c j ms) /\ shape p).
  { intros sp E (L & d & A & B & C & D & F & G & I & J) HS. exists L, d. unfold special_cluster. rewrite E. split; [exact A|]. rewrite C. exact HS. }
  cbn [special_table In] in H. repeat destruct H as [H|H]; try contradiction; injection H as <- <- <-;
  (cbn [shape_table In] in Hs; repeat destruct Hs as [Hs|Hs]; try contradiction; try discriminate; injection Hs as <-);
  (eapply K; [reflexivity| |]);
    first [apply fine_cross | apply fine_z | apply fine_s | apply fine_star | apply fine_benzene | apply fine_diphenyl | apply fine_gear
      | exact shape_square_cross | exact shape_square_z | exact shape_square_s | exact shape_triangle_star | exact shape_honeycomb_benzene | exact shape_honeycomb_diphenyl | exact shape_honeycomb_gear]; exact Hpr.
Qed.
Print Assumptions C51_shape.
