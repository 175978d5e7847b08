From Coq Require Import Reals String List ZArith Bool Arith Lia Lra.
From Coquelicot Require Import Complex.
From Verif Require Import Py CVec Line2D_Model Line2D_Proofs Lattice_Model Lattice_Spec Lattice_Proofs LatticeCases_Properties LatticeGen_Model LatticeGen_Spec LatticeGen_Proofs LatticeGen_Properties LatticeHex_Proofs LatticeNearest2_Properties
  GF_Spec Free_Spec Bloch_Spec Bands_Spec.
Import ListNotations.
Local Open Scope nat_scope.

(** the nearest neighbours *)
Definition first_neighbours (name : string) (a : nat) : list (nat * list Z) :=
  if String.eqb name "chain" then [(0%nat, [1]); (0%nat, [-1])]%Z
  else if String.eqb name "square" then [(0%nat, [1; 0]); (0%nat, [-1; 0]); (0%nat, [0; 1]); (0%nat, [0; -1])]%Z
  else if String.eqb name "cubic" then [(0%nat, [1; 0; 0]); (0%nat, [-1; 0; 0]); (0%nat, [0; 1; 0]); (0%nat, [0; -1; 0]); (0%nat, [0; 0; 1]); (0%nat, [0; 0; -1])]%Z
  else if String.eqb name "triangle" then [(0%nat, [1; 0]); (0%nat, [-1; 0]); (0%nat, [0; 1]); (0%nat, [0; -1]); (0%nat, [1; -1]); (0%nat, [-1; 1])]%Z
  else if String.eqb name "honeycomb" then match a with 0 => [(1%nat, [0; 0]); (1%nat, [1; -1]); (1%nat, [0; -1])]%Z | _ => [(0%nat, [0; 0]); (0%nat, [-1; 1]); (0%nat, [0; 1])]%Z end
  else match a with
       | 0 => [(1%nat, [0; 0]); (1%nat, [0; -1]); (2%nat, [0; 0]); (2%nat, [-1; 0])]%Z
       | 1 => [(0%nat, [0; 0]); (0%nat, [0; 1]); (2%nat, [0; 0]); (2%nat, [-1; 1])]%Z
       | _ => [(0%nat, [0; 0]); (0%nat, [1; 0]); (1%nat, [0; 0]); (1%nat, [1; -1])]%Z
       end.
Lemma sqrt_eq_unit (N : Z) (dl : R) : (0 < dl)%R -> (sqrt (IZR N * (dl * dl)) = dl <-> N = 1%Z).
Proof.
  intros Hd. split.
  - intros E. assert (P : (0 < dl * dl)%R) by nra. destruct (Z.le_gt_cases N 0) as [H|H].
    + exfalso. rewrite sqrt_neg_0 in E; [lra|]. apply IZR_le in H. nra.
    + assert (E2 : (sqrt (IZR N * (dl * dl)) * sqrt (IZR N * (dl * dl)) = dl * dl)%R) by now rewrite E. rewrite sqrt_sqrt in E2 by (apply IZR_lt in H; nra). apply eq_IZR. nra.
  - intros ->. rewrite Rmult_1_l. apply sqrt_square. lra.
Qed.
(** H2 x y = 1 has six solutions *)
Lemma H2_one x y : H2 x y = 1%Z <-> In (x, y) [(1, 0); (-1, 0); (0, 1); (0, -1); (1, -1); (-1, 1)]%Z.
Proof.
  split.
  - unfold H2. intros E. assert (Y : (-1 <= y <= 1)%Z) by nia. assert (X : (-1 <= x <= 1)%Z) by nia.
    assert (Cy : (y = -1 \/ y = 0 \/ y = 1)%Z) by lia. assert (Cx : (x = -1 \/ x = 0 \/ x = 1)%Z) by lia. destruct Cy as [->|[->| ->]], Cx as [->|[->| ->]]; try discriminate; cbn; tauto.
  - intros H. cbn in H. repeat destruct H as [H|H]; try contradiction; injection H as <- <-; reflexivity.
Qed.
Lemma pair_in (b b' : nat) (M M' : list Z) : (b, M) = (b', M') <-> b = b' /\ M = M'.
Proof. apply pair_equal_spec. Qed.
Lemma two_eq (x y x' y' : Z) : [x; y] = [x'; y'] <-> x = x' /\ y = y'.
Proof. split; [intros E; now injection E|intros [-> ->]; reflexivity]. Qed.
Lemma three_eq (x y z x' y' z' : Z) : [x; y; z] = [x'; y'; z'] <-> x = x' /\ y = y' /\ z = z'.
Proof. split; [intros E; now injection E|intros (-> & -> & ->); reflexivity]. Qed.
Lemma one_eq (x x' : Z) : [x] = [x'] <-> x = x'.
Proof. split; [intros E; now injection E|intros ->; reflexivity]. Qed.
Lemma pair_z (x y x' y' : Z) : (x, y) = (x', y') <-> x = x' /\ y = y'.
Proof. split; [intros E; now injection E|intros [-> ->]; reflexivity]. Qed.
Ltac clean := cbn [In]; rewrite ?pair_in, ?pair_z, ?two_eq, ?three_eq, ?one_eq.

Lemma first_neighbours_ok name c a : In (name, c) common_cells -> (a < length (cpoints c))%nat -> neighbours c (fun x => x = spacing name) a (first_neighbours name a).
Proof.
  intros H Ha.
  assert (P1 : (0 < 1)%R) by lra. pose proof s3_pos as S3. assert (Pd : (0 < / sqrt 3)%R) by now apply Rinv_0_lt_compat. assert (Ph : (0 < 1 / 2)%R) by lra.
  cbn [common_cells In] in H. repeat destruct H as [H|H]; try contradiction; injection H as <- <-; cbn [cpoints cvectors chain_cell square_cell triangle_cell honeycomb_cell kagome_cell cubic_cell length] in Ha; unfold first_neighbours, spacing; cbn [String.eqb Ascii.eqb Bool.eqb].
  - split; [repeat (apply NoDup_cons; [clean; lia|]); apply NoDup_nil|]. assert (a = 0) by lia. subst a. intros b M. unfold is_site, home. cbn [chain_cell cpoints cvectors length repeat].
    destruct M as [|m [|]]; try (split; [clean; intros X; exfalso; intuition discriminate|cbn; lia]).
    assert (D : forall b, (b < 1)%nat -> dist (site chain_cell 0 [0%Z]) (site chain_cell b [m]) = sqrt (IZR (m * m) * (1 * 1))).
    { intros b' Hb. assert (b' = 0) by lia. subst b'. unfold dist, norm. f_equal. unfold site, shift. cbn [chain_cell cpoints cvectors nth map combination vscale vadd vsub vdot v0]. rewrite mult_IZR. ring. }
    split.
    + intros X. assert (B : b = 0) by (revert X; clean; lia). subst b. split; [split; [lia|reflexivity]|]. rewrite D by lia. rewrite sqrt_eq_unit by lra. revert X. clean. intros X. split; [lia|]. nia.
    + intros ((Hb & _) & N & E). rewrite D in E by exact Hb. apply sqrt_eq_unit in E; [|lra]. clean. nia.
  - split; [repeat (apply NoDup_cons; [clean; lia|]); apply NoDup_nil|]. assert (a = 0) by lia. subst a. intros b M. unfold is_site, home. cbn [square_cell cpoints cvectors length repeat].
    destruct M as [|m [|n [|]]]; try (split; [clean; intros X; exfalso; intuition discriminate|cbn; lia]).
    assert (D : forall b, (b < 1)%nat -> dist (site square_cell 0 [0; 0]%Z) (site square_cell b [m; n]) = sqrt (IZR (m * m + n * n) * (1 * 1))).
    { intros b' Hb. assert (b' = 0) by lia. subst b'. unfold dist, norm. f_equal. unfold site, shift. cbn [square_cell cpoints cvectors nth map combination vscale vadd vsub vdot v0]. rewrite plus_IZR, !mult_IZR. ring. }
    split.
    + intros X. assert (B : b = 0) by (revert X; clean; lia). subst b. split; [split; [lia|reflexivity]|]. rewrite D by lia. rewrite sqrt_eq_unit by lra. revert X. clean. intros X. split; [lia|]. repeat destruct X as [X|X]; try contradiction; destruct X as (_ & <- & <-); reflexivity.
    + intros ((Hb & _) & N & E). rewrite D in E by exact Hb. apply sqrt_eq_unit in E; [|lra]. assert (A1 : (-1 <= m <= 1)%Z) by nia. assert (A2 : (-1 <= n <= 1)%Z) by nia. clean.
      assert (Cm : (m = -1 \/ m = 0 \/ m = 1)%Z) by lia. destruct Cm as [->|[->| ->]]; assert (Cn : (n = -1 \/ n = 0 \/ n = 1)%Z) by lia; destruct Cn as [->|[->| ->]]; try discriminate E; lia.
  - split; [repeat (apply NoDup_cons; [clean; lia|]); apply NoDup_nil|]. assert (a = 0) by lia. subst a. intros b M. unfold is_site, home. cbn [triangle_cell cpoints cvectors length repeat].
    destruct M as [|m [|n [|]]]; try (split; [clean; intros X; exfalso; intuition discriminate|cbn; lia]).
    assert (D : forall b, (b < 1)%nat -> dist (site triangle_cell 0 [0; 0]%Z) (site triangle_cell b [m; n]) = sqrt (IZR (H2 (0 - m) (0 - n)) * (1 * 1))).
    { intros b' Hb. assert (b' = 0) by lia. subst b'. rewrite (hex_site_dist triangle_cell 0 0 _ _ _ _ 0 0 eq_refl).
      - f_equal. unfold hq, H2. rewrite !plus_IZR, !mult_IZR. ring.
      - unfold hex. cbn [triangle_cell cpoints nth combination vscale vadd vsub v0]. apply p3_eq; ring. }
    split.
    + intros X. assert (B : b = 0) by (revert X; clean; lia). subst b. split; [split; [lia|reflexivity]|]. rewrite D by lia. rewrite sqrt_eq_unit, H2_one by lra. revert X. clean. lia.
    + intros ((Hb & _) & N & E). rewrite D in E by exact Hb. apply sqrt_eq_unit in E; [|lra]. apply H2_one in E. revert E. clean. lia.
  - (* honeycomb *)
    assert (G : forall a b, (a < 2)%nat -> (b < 2)%nat -> exists u : Z, (u = Z.of_nat a - Z.of_nat b)%Z /\ vsub (nth a (cpoints honeycomb_cell) v0) (nth b (cpoints honeycomb_cell) v0) = (0, IZR u * (sqrt 3 / 3), 0)%R).
    { clear. intros a b Ha Hb. cbn [cpoints honeycomb_cell]. rewrite !inv_s3. eexists. split; [reflexivity|]. destruct a as [|[|a]]; [| |lia]; (destruct b as [|[|b]]; [| |lia]); cbn [nth vsub Z.of_nat Z.sub Z.add Z.opp Pos.of_succ_nat Z.pos_sub]; apply p3_eq; lra. }
    assert (D : forall a b m n, (a < 2)%nat -> (b < 2)%nat -> let u := (Z.of_nat a - Z.of_nat b)%Z in
       dist (site honeycomb_cell a [0; 0]%Z) (site honeycomb_cell b [m; n]) = sqrt (IZR (3 * H2 m n - 3 * u * n + u * u) * (/ sqrt 3 * / sqrt 3))).
    { clear - G. intros a b m n Ha Hb. destruct (G a b Ha Hb) as (u & Eu & E). cbv zeta. rewrite <- Eu. rewrite (hex_site_dist honeycomb_cell a b _ _ _ _ (- IZR u / 3) (2 * IZR u / 3) eq_refl).
      - f_equal. rewrite third_sq. unfold hq, H2. rewrite !plus_IZR, !minus_IZR, !mult_IZR, !plus_IZR, !mult_IZR. field.
      - rewrite E. unfold hex. cbn [combination vscale vadd v0]. apply p3_eq; lra. }
    split; [destruct a as [|[|]]; [| |lia]; repeat (apply NoDup_cons; [clean; lia|]); apply NoDup_nil|]. intros b M. unfold is_site, home. cbn [honeycomb_cell cpoints cvectors length repeat].
    destruct M as [|m [|n [|]]]; try (split; [destruct a as [|[|]]; [| |lia]; clean; intros X; exfalso; intuition discriminate|cbn; lia]).
    destruct a as [|[|]]; [| |lia].
    + split.
      * intros X. assert (B : b = 1) by (revert X; clean; lia). subst b. split; [split; [lia|reflexivity]|]. rewrite D by lia. rewrite sqrt_eq_unit by exact Pd. revert X. clean. intros X. split; [lia|]. repeat destruct X as [X|X]; try contradiction; destruct X as (_ & <- & <-); reflexivity.
      * intros ((Hb & _) & N & E). rewrite D in E by (exact Hb || lia). apply sqrt_eq_unit in E; [|exact Pd]. destruct b as [|[|b]]; [| |lia]; cbv zeta in E; unfold H2 in E; cbn [Z.of_nat Pos.of_succ_nat] in E.
        -- exfalso. lia.
        -- clean. assert (Q : (m * m + m * n + n * n + n = 0)%Z) by (clear - E; nia).
           pose proof (Z.square_nonneg (2 * n + m + 1)) as U1. pose proof (Z.square_nonneg (2 * m + n)) as U2. assert (A1 : (-1 <= m <= 1)%Z) by (clear - Q U1; nia). assert (A2 : (-2 <= n <= 1)%Z) by (clear - Q U2; nia).
           assert (Cm : (m = -1 \/ m = 0 \/ m = 1)%Z) by lia. assert (Cn : (n = -2 \/ n = -1 \/ n = 0 \/ n = 1)%Z) by lia. destruct Cm as [->|[->| ->]]; destruct Cn as [->|[->|[->| ->]]]; try discriminate Q; lia.
    + split.
      * intros X. assert (B : b = 0) by (revert X; clean; lia). subst b. split; [split; [lia|reflexivity]|]. rewrite D by lia. rewrite sqrt_eq_unit by exact Pd. revert X. clean. intros X. split; [lia|]. repeat destruct X as [X|X]; try contradiction; destruct X as (_ & <- & <-); reflexivity.
      * intros ((Hb & _) & N & E). rewrite D in E by (exact Hb || lia). apply sqrt_eq_unit in E; [|exact Pd]. destruct b as [|[|b]]; [| |lia]; cbv zeta in E; unfold H2 in E; cbn [Z.of_nat Pos.of_succ_nat] in E.
        -- clean. assert (Q : (m * m + m * n + n * n - n = 0)%Z) by (clear - E; nia).
           pose proof (Z.square_nonneg (2 * n + m - 1)) as U1. pose proof (Z.square_nonneg (2 * m + n)) as U2. assert (A1 : (-1 <= m <= 1)%Z) by (clear - Q U1; nia). assert (A2 : (-1 <= n <= 2)%Z) by (clear - Q U2; nia).
           assert (Cm : (m = -1 \/ m = 0 \/ m = 1)%Z) by lia. assert (Cn : (n = 2 \/ n = -1 \/ n = 0 \/ n = 1)%Z) by lia. destruct Cm as [->|[->| ->]]; destruct Cn as [->|[->|[->| ->]]]; try discriminate Q; lia.
        -- exfalso. lia.
  - (* kagome *)
    pose (px := fun a : nat => match a with 2 => 1%Z | _ => 0%Z end). pose (py := fun a : nat => match a with 1 => 1%Z | _ => 0%Z end).
    assert (D : forall a b m n, (a < 3)%nat -> (b < 3)%nat ->
       dist (site kagome_cell a [0; 0]%Z) (site kagome_cell b [m; n]) = sqrt (IZR (H2 (px a - px b - 2 * m) (py a - py b - 2 * n)) * (1 / 2 * (1 / 2)))).
    { clear - px py. intros a b m n Ha Hb. rewrite (hex_site_dist kagome_cell a b _ _ _ _ (IZR (px a - px b) / 2) (IZR (py a - py b) / 2) eq_refl).
      - f_equal. rewrite half_sq. generalize (px a - px b)%Z, (py a - py b)%Z. intros x y. unfold hq, H2. rewrite !plus_IZR, !mult_IZR, !minus_IZR, !mult_IZR. field.
      - cbn [cpoints kagome_cell]. destruct a as [|[|[|a]]]; [| | |lia]; (destruct b as [|[|[|b]]]; [| | |lia]); cbn [px py nth vsub Z.sub Z.add Z.opp Z.pos_sub]; unfold hex; cbn [combination vscale vadd v0]; apply p3_eq; lra. }
    split; [destruct a as [|[|[|]]]; [| | |lia]; repeat (apply NoDup_cons; [clean; lia|]); apply NoDup_nil|]. intros b M. unfold is_site, home. cbn [kagome_cell cpoints cvectors length repeat].
    destruct M as [|m [|n [|]]]; try (split; [destruct a as [|[|[|]]]; [| | |lia]; clean; intros X; exfalso; intuition discriminate|cbn; lia]).
    assert (Q : (b < 3)%nat -> (dist (site kagome_cell a [0; 0]%Z) (site kagome_cell b [m; n]) = (1 / 2)%R <-> In (px a - px b - 2 * m, py a - py b - 2 * n)%Z [(1, 0); (-1, 0); (0, 1); (0, -1); (1, -1); (-1, 1)]%Z)).
    { intros Hb. rewrite D by assumption. rewrite sqrt_eq_unit by lra. apply H2_one. }
    destruct (Nat.lt_ge_cases b 3) as [Hb|Hb]; [|split; [destruct a as [|[|[|]]]; [| | |lia]; clean; lia|intros ((X & _) & _); lia]].
    rewrite (Q Hb). clear D Q Pd S3 P1 Ph. destruct a as [|[|[|]]]; [| | |lia]; (destruct b as [|[|[|b]]]; [| | |lia]); unfold px, py; clean; cbn [length]; (split; [intros X; split; [split; [lia|reflexivity]|split; lia]|intros (_ & Y & X); lia]).
  - split; [repeat (apply NoDup_cons; [clean; lia|]); apply NoDup_nil|]. assert (a = 0) by lia. subst a. intros b M. unfold is_site, home. cbn [cubic_cell cpoints cvectors length repeat].
    destruct M as [|m [|n [|l [|]]]]; try (split; [clean; intros X; exfalso; intuition discriminate|cbn; lia]).
    assert (D : forall b, (b < 1)%nat -> dist (site cubic_cell 0 [0; 0; 0]%Z) (site cubic_cell b [m; n; l]) = sqrt (IZR (m * m + n * n + l * l) * (1 * 1))).
    { intros b' Hb. assert (b' = 0) by lia. subst b'. unfold dist, norm. f_equal. unfold site, shift. cbn [cubic_cell cpoints cvectors nth map combination vscale vadd vsub vdot v0]. rewrite !plus_IZR, !mult_IZR. ring. }
    split.
    + intros X. assert (B : b = 0) by (revert X; clean; lia). subst b. split; [split; [lia|reflexivity]|]. rewrite D by lia. rewrite sqrt_eq_unit by lra. revert X. clean. intros X. split; [lia|]. repeat destruct X as [X|X]; try contradiction; destruct X as (_ & <- & <- & <-); reflexivity.
    + intros ((Hb & _) & N & E). rewrite D in E by exact Hb. apply sqrt_eq_unit in E; [|lra]. assert (A1 : (-1 <= m <= 1)%Z) by nia. assert (A2 : (-1 <= n <= 1)%Z) by nia. assert (A3 : (-1 <= l <= 1)%Z) by nia. clean.
      assert (Cm : (m = -1 \/ m = 0 \/ m = 1)%Z) by lia. destruct Cm as [->|[->| ->]]; assert (Cn : (n = -1 \/ n = 0 \/ n = 1)%Z) by lia; destruct Cn as [->|[->| ->]]; assert (Cl : (l = -1 \/ l = 0 \/ l = 1)%Z) by lia; destruct Cl as [->|[->| ->]]; try discriminate E; lia.
Qed.
