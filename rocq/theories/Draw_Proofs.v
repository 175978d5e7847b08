(** Sites and bonds of Draw2DLattice. *)
From Coq Require Import String List Reals ZArith Bool Lia Lra Psatz.
From Verif Require Import Py Line2D_Model Lattice_Model Lattice_Spec Lattice_Proofs LatticeGen_Model LatticeGen_Spec LatticeGen_Proofs LatticeGen_Properties Neighbors_Proofs Draw_Model Draw_Spec.
Import ListNotations.
Open Scope R_scope.

Definition cell_of (n : net) : cell :=
  match n with Square => draw_square | Triangle => draw_triangle | Honeycomb => draw_honeycomb | Kagome => draw_kagome end.
Lemma named_cell s n : named s n -> find_cell draw_cells s = Some (cell_of n).
Proof. destruct n; intros [-> | ->]; reflexivity. Qed.
Lemma unnamed_cell s : (forall n, ~ named s n) -> find_cell draw_cells s = None.
Proof.
  intros H. unfold find_cell, draw_cells. cbn [find fst].
  pose proof (H Square) as H1. pose proof (H Triangle) as H2. pose proof (H Honeycomb) as H3. pose proof (H Kagome) as H4. cbn [named] in *.
  repeat match goal with |- context [String.eqb ?a s] => destruct (String.eqb_spec a s); [subst; exfalso; tauto|] end. reflexivity.
Qed.
Lemma named_unique s n n' : named s n -> named s n' -> n = n'.
Proof. destruct n, n'; intros [-> | ->] [E | E]; try discriminate; reflexivity. Qed.

(** the list of the sites *)
Definition cells (num0 num1 : Z) : list (Z * Z) := list_prod (zrange (- num0) (num0 + 1)) (zrange (- num1) (num1 + 1)).
Definition drawn (n : net) (num0 num1 : Z) : list point := flat_map (fun ab => map (place n (fst ab) (snd ab)) (seq 0 (members n))) (cells num0 num1).

Lemma place_cell n a b : map (vadd (comb [a; b] (cvectors (cell_of n)))) (cpoints (cell_of n)) = map (place n a b) (seq 0 (members n)).
Proof.
  destruct n; cbn [cell_of draw_square draw_triangle draw_honeycomb draw_kagome cvectors cpoints comb map seq members place fst snd vadd vscale v0];
    repeat (apply f_equal2; [apply p3_eq; unfold Rdiv; lra|]); reflexivity.
Qed.
Lemma cart_pairs r0 r1 : cart [r0; r1] = map (fun ab => [fst ab; snd ab]) (list_prod r0 r1).
Proof.
  cbn [cart]. assert (E : forall r : list Z, flat_map (fun x => map (cons x) [[]]) r = map (fun x => [x]) r) by (induction r as [|x r IH]; [reflexivity|]; cbn in *; now rewrite IH).
  rewrite E. induction r0 as [|x r0 IH]; [reflexivity|]. cbn [flat_map list_prod]. rewrite map_app, IH. f_equal. rewrite !map_map. reflexivity.
Qed.
Lemma sites_named s n num0 num1 : named s n -> sites_factory s num0 num1 = if (num0 <? 0)%Z || (num1 <? 0)%Z then Err ValueError else Ok (drawn n num0 num1).
Proof.
  intros Hn. unfold sites_factory. rewrite (named_cell s n Hn), cart_pairs. fold (cells num0 num1).
  assert (Hl : List.length (cells num0 num1) = (Z.to_nat (2 * num0 + 1) * Z.to_nat (2 * num1 + 1))%nat).
  { unfold cells. rewrite prod_length, !zrange_length. f_equal; f_equal; lia. }
  assert (K : flat_map (fun dR => map (vadd dR) (cpoints (cell_of n))) (map (fun ns => comb ns (cvectors (cell_of n))) (map (fun ab => [fst ab; snd ab]) (cells num0 num1))) = drawn n num0 num1).
  { rewrite map_map, flat_map_map. unfold drawn. apply flat_map_ext. intros [a b]. apply place_cell. }
  destruct (cells num0 num1) as [|c r] eqn:Ec.
  - cbn [map List.length] in *. destruct (Z.ltb_spec num0 0); [reflexivity|]. destruct (Z.ltb_spec num1 0); [reflexivity|]. exfalso. nia.
  - rewrite <- K. cbn [map]. destruct (Z.ltb_spec num0 0) as [H|H].
    { exfalso. replace (Z.to_nat (2 * num0 + 1)) with 0%nat in Hl by lia. discriminate. }
    destruct (Z.ltb_spec num1 0) as [H'|H']; [|reflexivity].
    exfalso. replace (Z.to_nat (2 * num1 + 1)) with 0%nat in Hl by lia. rewrite Nat.mul_0_r in Hl. discriminate.
Qed.
Lemma drawn_length n num0 num1 : (0 <= num0)%Z -> (0 <= num1)%Z -> List.length (drawn n num0 num1) = (Z.to_nat ((2 * num0 + 1) * (2 * num1 + 1)) * members n)%nat.
Proof.
  intros H0 H1. unfold drawn. rewrite (length_blocks _ (members n)) by (intros; now rewrite map_length, seq_length). f_equal.
  unfold cells. rewrite prod_length, !zrange_length, <- Z2Nat.inj_mul by lia. f_equal. lia.
Qed.
Lemma nth_zrange lo hi x d : (lo <= x < hi)%Z -> nth (Z.to_nat (x - lo)) (zrange lo hi) d = x.
Proof.
  intros H. unfold zrange. rewrite (nth_indep _ d ((fun i => lo + Z.of_nat i)%Z 0%nat)) by (rewrite map_length, seq_length; lia).
  rewrite (map_nth (fun i => (lo + Z.of_nat i)%Z)), seq_nth by lia. lia.
Qed.
Lemma list_prod_blocks {A B} (r0 : list A) (r1 : list B) : list_prod r0 r1 = flat_map (fun x => map (pair x) r1) r0.
Proof. induction r0; [reflexivity|]. cbn. now rewrite IHr0. Qed.
Lemma drawn_nth n num0 num1 a b j : drawn_cell num0 num1 a b -> (j < members n)%nat ->
  nth (Z.to_nat ((a + num0) * (2 * num1 + 1) + (b + num1)) * members n + j) (drawn n num0 num1) v0 = place n a b j.
Proof.
  intros [Ha Hb] Hj. unfold drawn.
  assert (L1 : List.length (zrange (- num1) (num1 + 1)) = Z.to_nat (2 * num1 + 1)) by (rewrite zrange_length; f_equal; lia).
  rewrite (nth_blocks _ (members n) _ (0%Z, 0%Z)); [|intros; now rewrite map_length, seq_length| |exact Hj].
  - assert (E : nth (Z.to_nat ((a + num0) * (2 * num1 + 1) + (b + num1))) (cells num0 num1) (0%Z, 0%Z) = (a, b)).
    { unfold cells. rewrite list_prod_blocks. rewrite Z2Nat.inj_add, Z2Nat.inj_mul by nia.
      rewrite (nth_blocks _ (Z.to_nat (2 * num1 + 1)) _ 0%Z); [|intros; now rewrite map_length|rewrite zrange_length; lia|lia].
      replace (a + num0)%Z with (a - (- num0))%Z by lia. replace (b + num1)%Z with (b - (- num1))%Z by lia. rewrite (nth_zrange (- num0) _ a) by lia.
      rewrite (nth_indep _ _ (a, 0%Z)) by (rewrite map_length, L1; lia). rewrite (map_nth (pair a)), nth_zrange by lia. reflexivity. }
    rewrite E. cbn [fst snd]. rewrite (nth_indep _ _ (place n a b 0%nat)) by (now rewrite map_length, seq_length). now rewrite map_nth, seq_nth.
  - unfold cells. rewrite prod_length, L1, zrange_length. assert (0 <= a + num0 < 2 * num0 + 1)%Z by lia. assert (0 <= b + num1 < 2 * num1 + 1)%Z by lia.
    replace (num0 + 1 - - num0)%Z with (2 * num0 + 1)%Z by lia. rewrite <- Z2Nat.inj_mul by lia. apply Z2Nat.inj_lt; nia.
Qed.
Lemma in_drawn n num0 num1 p : In p (drawn n num0 num1) <-> exists a b j, drawn_cell num0 num1 a b /\ (j < members n)%nat /\ p = place n a b j.
Proof.
  unfold drawn. rewrite in_flat_map. split.
  - intros ([a b] & Hc & Hp). apply in_prod_iff in Hc as [Ha Hb]. apply in_zrange in Ha, Hb. apply in_map_iff in Hp as (j & <- & Hj). apply in_seq in Hj.
    exists a, b, j. split; [split; lia|]. split; [lia|reflexivity].
  - intros (a & b & j & [Ha Hb] & Hj & ->). exists (a, b). split.
    + apply in_prod_iff. split; apply in_zrange; lia.
    + apply in_map_iff. exists j. split; [reflexivity|]. apply in_seq. lia.
Qed.
(** every index is the index of one member of one cell *)
Lemma drawn_at n num0 num1 i : (0 <= num0)%Z -> (0 <= num1)%Z -> (i < List.length (drawn n num0 num1))%nat ->
  exists a b j, drawn_cell num0 num1 a b /\ (j < members n)%nat /\ i = (Z.to_nat ((a + num0) * (2 * num1 + 1) + (b + num1)) * members n + j)%nat.
Proof.
  intros H0 H1 Hi. rewrite drawn_length in Hi by auto. assert (M : members n <> 0%nat) by (destruct n; discriminate).
  set (c := Z.of_nat (i / members n)). assert (Hc : (0 <= c < (2 * num0 + 1) * (2 * num1 + 1))%Z).
  { unfold c. assert (i / members n < Z.to_nat ((2 * num0 + 1) * (2 * num1 + 1)))%nat by (apply Nat.div_lt_upper_bound; lia). lia. }
  exists (c / (2 * num1 + 1) - num0)%Z, (c mod (2 * num1 + 1) - num1)%Z, (i mod members n)%nat.
  assert (D : (c = (2 * num1 + 1) * (c / (2 * num1 + 1)) + c mod (2 * num1 + 1))%Z) by (apply Z.div_mod; lia).
  pose proof (Z.mod_pos_bound c (2 * num1 + 1) ltac:(lia)) as B.
  assert (0 <= c / (2 * num1 + 1))%Z by (apply Z.div_pos; lia). assert (c / (2 * num1 + 1) < 2 * num0 + 1)%Z by (apply Z.div_lt_upper_bound; lia).
  split; [split; lia|]. split; [apply Nat.mod_upper_bound; exact M|].
  replace ((c / (2 * num1 + 1) - num0 + num0) * (2 * num1 + 1) + (c mod (2 * num1 + 1) - num1 + num1))%Z with c by lia.
  unfold c. rewrite Nat2Z.id. pose proof (Nat.div_mod i (members n) M). lia.
Qed.

(** ** distances *)
(** the square of the distance in units of the spacing is an integer *)
Definition form (n : net) (a b : Z) (j : nat) (a' b' : Z) (j' : nat) : Z :=
  let x := (a - a')%Z in let y := (b - b')%Z in
  match n with
  | Square => (x * x + y * y)%Z
  | Triangle => (x * x + x * y + y * y)%Z
  | Honeycomb => let e := (Z.of_nat j - Z.of_nat j')%Z in (3 * (x * x + x * y + y * y + e * y) + e * e)%Z
  | Kagome => let s k := (if Nat.eqb k 2 then 1 else 0)%Z in let t k := (if Nat.eqb k 1 then 1 else 0)%Z in
              let u := (2 * x + s j - s j')%Z in let v := (2 * y + t j - t j')%Z in (u * u + u * v + v * v)%Z
  end.
Lemma scaled_dot x y x' y' : let w := vsub (x, sqrt 3 * y, 0) (x', sqrt 3 * y', 0) in vdot w w = (x - x') * (x - x') + 3 * ((y - y') * (y - y')).
Proof. cbn [vsub vdot]. pose proof s3_sq as Q. transitivity ((x - x') * (x - x') + (sqrt 3 * sqrt 3) * ((y - y') * (y - y'))); [ring|]. rewrite Q. ring. Qed.
Definition px (n : net) (a b : Z) (j : nat) : R := IZR a + IZR b / 2 + match n, j with Kagome, 1%nat => / 4 | Kagome, 2%nat => / 2 | _, _ => 0 end.
Definition py (n : net) (b : Z) (j : nat) : R := IZR b / 2 + match n, j with Honeycomb, 1%nat => / 3 | Kagome, 1%nat => / 4 | _, _ => 0 end.
Lemma place_scaled n a b j : n <> Square -> (j < members n)%nat -> place n a b j = (px n a b j, sqrt 3 * py n b j, 0).
Proof.
  assert (I : / sqrt 3 = sqrt 3 / 3) by (pose proof (inv_s3 1) as I; unfold Rdiv in *; rewrite !Rmult_1_l in I; exact I).
  destruct n; intros N Hj; [congruence| | |]; cbn [members] in Hj; (destruct j as [|[|[|j]]]; try lia); cbn [place fst snd]; unfold px, py; rewrite ?I; apply p3_eq; field.
Qed.
Lemma form_dist n a b j a' b' j' : (j < members n)%nat -> (j' < members n)%nat ->
  let w := vsub (place n a b j) (place n a' b' j') in vdot w w = IZR (form n a b j a' b' j') * (spacing n * spacing n).
Proof.
  intros Hj Hj' w. unfold w. pose proof s3_sq as Q. pose proof s3_pos as P.
  assert (I : / sqrt 3 * / sqrt 3 = / 3) by (rewrite <- Rinv_mult, Q; reflexivity).
  destruct n.
  - cbn [form spacing place fst snd vsub vdot]. rewrite plus_IZR, !mult_IZR, !minus_IZR. ring.
  - rewrite !place_scaled, scaled_dot by (auto; discriminate). cbn [form spacing]. unfold px, py. rewrite !plus_IZR, !mult_IZR, !minus_IZR. field.
  - rewrite !place_scaled, scaled_dot by (auto; discriminate). cbn [members] in Hj, Hj'. cbn [form spacing]. rewrite I.
    destruct j as [|[|j]]; [| |lia]; (destruct j' as [|[|j']]; [| |lia]); unfold px, py; cbn [Z.of_nat Pos.of_succ_nat];
      repeat rewrite ?plus_IZR, ?mult_IZR, ?minus_IZR; field.
  - rewrite !place_scaled, scaled_dot by (auto; discriminate). cbn [members] in Hj, Hj'. cbn [form spacing].
    destruct j as [|[|[|j]]]; [| | |lia]; (destruct j' as [|[|[|j']]]; [| | |lia]); unfold px, py; cbn [Nat.eqb];
      repeat rewrite ?plus_IZR, ?mult_IZR, ?minus_IZR; field.
Qed.
Lemma quad_nonneg x y : (0 <= x * x + x * y + y * y)%Z.
Proof. assert (0 <= (2 * x + y) * (2 * x + y) + 3 * (y * y))%Z by (apply Z.add_nonneg_nonneg; [apply Z.square_nonneg|pose proof (Z.square_nonneg y); lia]). nia. Qed.
Lemma quad_zero x y : (x * x + x * y + y * y = 0)%Z -> x = 0%Z /\ y = 0%Z.
Proof. intros H. assert (E : ((2 * x + y) * (2 * x + y) + 3 * (y * y) = 0)%Z) by nia. assert (y = 0)%Z by nia. subst. split; [nia|reflexivity]. Qed.
Lemma form_pos n a b j a' b' j' : (j < members n)%nat -> (j' < members n)%nat -> (a, b, j) <> (a', b', j') -> (1 <= form n a b j a' b' j')%Z.
Proof.
  intros Hj Hj' N. assert (G : (0 <= form n a b j a' b' j')%Z /\ form n a b j a' b' j' <> 0%Z); [|lia].
  destruct n; cbn [members] in Hj, Hj'; cbn [form].
  - assert (j = 0%nat) by lia. assert (j' = 0%nat) by lia. subst. pose proof (Z.square_nonneg (a - a')). pose proof (Z.square_nonneg (b - b')). split; [lia|]. intros E. apply N. assert (E1 : ((a - a') * (a - a') = 0)%Z) by lia. assert (E2 : ((b - b') * (b - b') = 0)%Z) by lia. apply Z.mul_eq_0 in E1, E2. assert (a = a') by lia. assert (b = b') by lia. now subst.
  - assert (j = 0%nat) by lia. assert (j' = 0%nat) by lia. subst. split; [apply quad_nonneg|]. intros E. apply quad_zero in E as [E1 E2]. apply N. assert (a = a') by lia. assert (b = b') by lia. now subst.
  - set (x := (a - a')%Z) in *. set (y := (b - b')%Z) in *. destruct (Nat.eq_dec j j') as [->|D].
    + rewrite Z.sub_diag. pose proof (quad_nonneg x y). split; [lia|]. intros E. assert (Z0 : (x * x + x * y + y * y = 0)%Z) by lia. apply quad_zero in Z0 as [E1 E2]. apply N. assert (a = a') by lia. assert (b = b') by lia. now subst.
    + assert (Ee : (Z.of_nat j - Z.of_nat j' = 1 \/ Z.of_nat j - Z.of_nat j' = -1)%Z) by lia.
      assert (S0 : (0 <= (2 * x + y) * (2 * x + y))%Z) by apply Z.square_nonneg.
      destruct Ee as [-> | ->]; split; try lia.
      * assert (0 <= (3 * y + 2) * (3 * y + 2))%Z by apply Z.square_nonneg. assert (4 * (3 * (x * x + x * y + y * y + 1 * y) + 1 * 1) = 3 * ((2 * x + y) * (2 * x + y)) + (3 * y + 2) * (3 * y + 2))%Z by ring. lia.
      * assert (0 <= (3 * y - 2) * (3 * y - 2))%Z by apply Z.square_nonneg. assert (4 * (3 * (x * x + x * y + y * y + -1 * y) + -1 * -1) = 3 * ((2 * x + y) * (2 * x + y)) + (3 * y - 2) * (3 * y - 2))%Z by ring. lia.
  - split; [apply quad_nonneg|]. intros E. apply quad_zero in E as [E1 E2].
    assert (K : a = a' /\ b = b' /\ j = j').
    { destruct j as [|[|[|j]]]; [| | |lia]; (destruct j' as [|[|[|j']]]; [| | |lia]); cbn [Nat.eqb] in E1, E2; repeat split; try reflexivity; lia. }
    destruct K as (-> & -> & ->). now apply N.
Qed.
Lemma spacing_pos n : / 2 <= spacing n.
Proof.
  destruct n; cbn [spacing]; try lra. pose proof s3_pos. pose proof s3_bounds. apply Rinv_le_contravar; [lra|]. lra.
Qed.
Lemma place_dist n a b j a' b' j' : (j < members n)%nat -> (j' < members n)%nat -> (a, b, j) <> (a', b', j') ->
  spacing n <= dist (place n a b j) (place n a' b' j') /\
  (dist (place n a b j) (place n a' b' j') <= spacing n + 0.0001 -> dist (place n a b j) (place n a' b' j') = spacing n).
Proof.
  intros Hj Hj' N. pose proof (form_dist n a b j a' b' j' Hj Hj') as F. pose proof (form_pos n a b j a' b' j' Hj Hj' N) as G. pose proof (spacing_pos n) as P.
  cbv zeta in F. rewrite <- norm_sq in F. fold (dist (place n a b j) (place n a' b' j')) in F. set (d := dist _ _) in *. assert (D : 0 <= d) by apply norm_nonneg. clearbody d.
  set (q := form n a b j a' b' j') in *. clearbody q. assert (Q : 1 <= IZR q) by (apply IZR_le; exact G). set (s := spacing n) in *. clearbody s. split.
  - apply Rnot_lt_le. intros L. nra.
  - intros L. destruct (Z.eq_dec q 1) as [->|Nq].
    + assert ((d - s) * (d + s) = 0) as Z0 by lra. apply Rmult_integral in Z0 as [Z0|Z0]; lra.
    + exfalso. assert (2 <= IZR q) by (apply IZR_le; lia). assert (2 * (s * s) <= d * d) by nra. nra.
Qed.

(** ** the sites differ *)
Lemma place_inj n a b j a' b' j' : (j < members n)%nat -> (j' < members n)%nat -> place n a b j = place n a' b' j' -> (a, b, j) = (a', b', j').
Proof.
  intros Hj Hj' E. destruct (Z.eq_dec a a') as [->|N]; [destruct (Z.eq_dec b b') as [->|N]; [destruct (Nat.eq_dec j j') as [->|N]; [reflexivity|]|]|]; exfalso.
  1: pose proof (place_dist n a' b' j a' b' j' Hj Hj' ltac:(congruence)) as [G _]. 2: pose proof (place_dist n a' b j a' b' j' Hj Hj' ltac:(congruence)) as [G _].
  3: pose proof (place_dist n a b j a' b' j' Hj Hj' ltac:(congruence)) as [G _].
  all: rewrite E, dist_refl in G; pose proof (spacing_pos n); lra.
Qed.
Lemma drawn_nth_at n num0 num1 i : (0 <= num0)%Z -> (0 <= num1)%Z -> (i < List.length (drawn n num0 num1))%nat ->
  exists a b j, drawn_cell num0 num1 a b /\ (j < members n)%nat /\ i = (Z.to_nat ((a + num0) * (2 * num1 + 1) + (b + num1)) * members n + j)%nat /\ nth i (drawn n num0 num1) v0 = place n a b j.
Proof.
  intros H0 H1 Hi. destruct (drawn_at n num0 num1 i H0 H1 Hi) as (a & b & j & Hc & Hj & E). exists a, b, j. split; [exact Hc|]. split; [exact Hj|]. split; [exact E|]. subst i. now apply drawn_nth.
Qed.
Lemma drawn_nodup n num0 num1 : (0 <= num0)%Z -> (0 <= num1)%Z -> NoDup (drawn n num0 num1).
Proof.
  intros H0 H1. apply (NoDup_nth _ v0). intros i i' Hi Hi' E.
  destruct (drawn_nth_at n num0 num1 i H0 H1 Hi) as (a & b & j & Hc & Hj & Ei & V). destruct (drawn_nth_at n num0 num1 i' H0 H1 Hi') as (a' & b' & j' & Hc' & Hj' & Ei' & V').
  rewrite V, V' in E. apply place_inj in E; auto. injection E as -> -> ->. congruence.
Qed.
Lemma drawn_gap n num0 num1 i i' : (0 <= num0)%Z -> (0 <= num1)%Z -> (i < i' < List.length (drawn n num0 num1))%nat ->
  let d := dist (nth i (drawn n num0 num1) v0) (nth i' (drawn n num0 num1) v0) in spacing n <= d /\ (d <= spacing n + 0.0001 -> d = spacing n).
Proof.
  intros H0 H1 Hi d. unfold d. destruct (drawn_nth_at n num0 num1 i H0 H1 ltac:(lia)) as (a & b & j & Hc & Hj & Ei & ->). destruct (drawn_nth_at n num0 num1 i' H0 H1 ltac:(lia)) as (a' & b' & j' & Hc' & Hj' & Ei' & ->).
  apply place_dist; auto. intros [= -> -> ->]. lia.
Qed.

(** ** pairs *)
Lemma in_pdist ps d : In d (pdist ps) <-> exists i j, (i < j < List.length ps)%nat /\ d = dist (nth i ps v0) (nth j ps v0).
Proof.
  induction ps as [|p ps IH]; cbn [pdist]; [split; [intros []|intros (i & j & H & _); cbn in H; lia]|]. rewrite in_app_iff, IH. split.
  - intros [H|(i & j & H & ->)].
    + apply in_map_iff in H as (q & <- & Hq). apply (In_nth _ _ v0) in Hq as (k & Hk & <-). exists 0%nat, (S k). split; [cbn; lia|reflexivity].
    + exists (S i), (S j). split; [cbn; lia|reflexivity].
  - intros ([|i] & [|j] & H & ->); cbn [List.length] in H; try lia; cbn [nth].
    + left. apply in_map, nth_In. lia.
    + right. exists i, j. split; [lia|reflexivity].
Qed.
Lemma fold_min l : forall x, (In (fold_left Rmin l x) (x :: l)) /\ (forall y, In y (x :: l) -> fold_left Rmin l x <= y).
Proof.
  induction l as [|z l IH]; intros x; cbn [fold_left].
  - split; [now left|]. intros y [<-|[]]. lra.
  - destruct (IH (Rmin x z)) as [A B]. split.
    + destruct A as [A|A]; [|right; now right]. rewrite <- A. unfold Rmin. destruct (Rle_dec x z); [now left|right; now left].
    + intros y [<-|[<-|Hy]]; [| |apply B; now right]; (eapply Rle_trans; [apply B; now left|]); [apply Rmin_l|apply Rmin_r].
Qed.
Lemma py_min_ok l m : In m l -> (forall y, In y l -> m <= y) -> py_min l = Ok m.
Proof.
  intros Hm Hl. destruct l as [|x l]; [destruct Hm|]. cbn [py_min]. destruct (fold_min l x) as [A B]. f_equal. apply Rle_antisym; [now apply B|now apply Hl].
Qed.
Lemma in_query_pairs ps r i j : In (i, j) (query_pairs ps r) <-> (i < j < List.length ps)%nat /\ dist (nth i ps v0) (nth j ps v0) <= r.
Proof.
  unfold query_pairs. rewrite filter_In, in_flat_map. cbn [fst snd]. unfold Rleb. split.
  - intros ((i' & Hi & H) & D). apply in_map_iff in H as (j' & [= -> ->] & Hj). apply in_seq in Hi, Hj. destruct (Rle_dec _ _); [|discriminate]. split; [lia|assumption].
  - intros (H & D). split; [|destruct (Rle_dec _ _); [reflexivity|contradiction]]. exists i. split; [apply in_seq; lia|]. apply in_map, in_seq. lia.
Qed.
Lemma nodup_query_pairs ps r : NoDup (query_pairs ps r).
Proof.
  unfold query_pairs. apply NoDup_filter. generalize (seq_NoDup (List.length ps) 0). generalize (seq 0 (List.length ps)). induction l as [|i l IH]; intros N; cbn [flat_map]; [constructor|]. inversion N; subst.
  apply NoDup_app'; [|now apply IH|].
  - apply FinFun.Injective_map_NoDup; [|apply seq_NoDup]. intros x y [= ->]. reflexivity.
  - intros p Hp Hq. apply in_map_iff in Hp as (y & <- & _). apply in_flat_map in Hq as (i' & Hi' & Hq). apply in_map_iff in Hq as (z & [= -> ->] & _). contradiction.
Qed.

(** some two sites are nearest neighbours, as soon as there are two *)
Lemma near_pair n num0 num1 : (0 <= num0)%Z -> (0 <= num1)%Z -> (2 <= List.length (drawn n num0 num1))%nat ->
  exists i j, (i < j < List.length (drawn n num0 num1))%nat /\ dist (nth i (drawn n num0 num1) v0) (nth j (drawn n num0 num1) v0) = spacing n.
Proof.
  intros H0 H1 L.
  assert (K : forall a b j a' b' j', drawn_cell num0 num1 a b -> drawn_cell num0 num1 a' b' -> (j < members n)%nat -> (j' < members n)%nat -> form n a b j a' b' j' = 1%Z ->
    exists i j, (i < j < List.length (drawn n num0 num1))%nat /\ dist (nth i (drawn n num0 num1) v0) (nth j (drawn n num0 num1) v0) = spacing n).
  { intros a b j a' b' j' Hc Hc' Hj Hj' F.
    assert (D : dist (place n a b j) (place n a' b' j') = spacing n).
    { pose proof (form_dist n a b j a' b' j' Hj Hj') as Q. cbv zeta in Q. rewrite F, Rmult_1_l in Q. unfold dist, norm. rewrite Q. apply sqrt_square. pose proof (spacing_pos n). lra. }
    assert (I1 : In (place n a b j) (drawn n num0 num1)) by (apply in_drawn; eauto 8). assert (I2 : In (place n a' b' j') (drawn n num0 num1)) by (apply in_drawn; eauto 8).
    apply (In_nth _ _ v0) in I1 as (k & Hk & E). apply (In_nth _ _ v0) in I2 as (k' & Hk' & E').
    destruct (lt_eq_lt_dec k k') as [[G|G]|G].
    - exists k, k'. split; [lia|]. now rewrite E, E'.
    - exfalso. subst k'. rewrite E in E'. rewrite E', dist_refl in D. pose proof (spacing_pos n). lra.
    - exists k', k. split; [lia|]. now rewrite E, E', dist_sym. }
  rewrite drawn_length in L by auto. destruct n; cbn [members] in *.
  1,2: assert ((0 < num0) \/ (0 < num1))%Z as [G|G] by (destruct (Z.eq_dec num0 0) as [->|]; [destruct (Z.eq_dec num1 0) as [->|]; [cbn in L; lia|lia]|lia]);
    [apply (K 1%Z 0%Z 0%nat 0%Z 0%Z 0%nat)|apply (K 0%Z 1%Z 0%nat 0%Z 0%Z 0%nat)]; try (split; lia); try lia; reflexivity.
  - apply (K 0%Z 0%Z 1%nat 0%Z 0%Z 0%nat); try (split; lia); try lia; reflexivity.
  - apply (K 0%Z 0%Z 2%nat 0%Z 0%Z 0%nat); try (split; lia); try lia; reflexivity.
Qed.
Lemma bonds_drawn n num0 num1 : (0 <= num0)%Z -> (0 <= num1)%Z -> (2 <= List.length (drawn n num0 num1))%nat ->
  exists pairs, bonds_generator (drawn n num0 num1) = Ok (map (fun ij => (nth (fst ij) (drawn n num0 num1) v0, nth (snd ij) (drawn n num0 num1) v0)) pairs) /\
    NoDup pairs /\ forall i j, In (i, j) pairs <-> (i < j < List.length (drawn n num0 num1))%nat /\ dist (nth i (drawn n num0 num1) v0) (nth j (drawn n num0 num1) v0) = spacing n.
Proof.
  intros H0 H1 L. destruct (near_pair n num0 num1 H0 H1 L) as (i0 & j0 & H & E).
  exists (query_pairs (drawn n num0 num1) (spacing n + 0.0001)). split; [|split; [apply nodup_query_pairs|]].
  - unfold bonds_generator. rewrite (py_min_ok _ (spacing n)); [reflexivity| |].
    + apply in_pdist. exists i0, j0. split; [exact H|now rewrite E].
    + intros y Hy. apply in_pdist in Hy as (i & j & Hij & ->). now apply drawn_gap.
  - intros i j. rewrite in_query_pairs. split; intros [A B]; (split; [exact A|]).
    + now apply drawn_gap.
    + rewrite B. lra.
Qed.
Lemma bonds_few sites : (List.length sites <= 1)%nat -> bonds_generator sites = Err ValueError.
Proof. destruct sites as [|p [|q r]]; cbn [List.length]; intros H; try lia; reflexivity. Qed.
