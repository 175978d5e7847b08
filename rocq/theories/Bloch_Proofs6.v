(** Chain, square and cubic clusters: the neighbour distance is 1 and bonds(1) lists the
    bonds of length 1, after every history. *)
From Coq Require Import Reals List Bool Arith ZArith Lia Lra Permutation Sorted.
From Flocq Require Import Core.Raux.
From Verif Require Import Py CVec LinSolve Line2D_Model Line2D_Proofs Lattice_Model Lattice_Spec Lattice_Proofs Lattice_Proofs2 Lattice_Properties LatticeGen_Model LatticeGen_Spec LatticeGen_Proofs LatticeGen_Properties
  Neighbors_Spec Neighbors_Proofs Neighbors_Proofs2 Neighbors_Properties LatticeBonds_Spec LatticeBonds_Proofs LatticeBonds_Proofs2 LatticeBonds_Properties
  Bloch_Spec Bloch_Proofs Bloch_Proofs2 Bloch_Proofs5.
Import ListNotations.
Local Open Scope R_scope.

Lemma unit_in_box nums : Forall (fun n => (1 <= n)%Z) nums -> (exists e, box nums e /\ sq e = 1%Z) \/ Forall (fun n => n = 1%Z) nums.
Proof.
  intros F. assert (Z0 : forall l, Forall (fun n => (1 <= n)%Z) l -> box l (repeat 0%Z (length l))).
  { clear. intros l F. induction F as [|n l H F IH]; [constructor|]. constructor; [lia|exact IH]. }
  induction F as [|n l H F IH]; [right; constructor|]. destruct IH as [(e & B & S)|IH].
  - left. exists (0%Z :: e). split; [constructor; [lia|exact B]|cbn; lia].
  - destruct (Z.eq_dec n 1) as [->|N]; [right; now constructor|]. left. exists (1%Z :: repeat 0%Z (length l)). split; [constructor; [lia|now apply Z0]|]. cbn [sq]. rewrite sq_repeat. reflexivity.
Qed.
Lemma zero_box l : Forall (fun n => (1 <= n)%Z) l -> box l (repeat 0%Z (length l)).
Proof. intros F. induction F as [|n l H F IH]; [constructor|]. constructor; [lia|exact IH]. Qed.
Lemma ones_count nums : Forall (fun n => n = 1%Z) nums -> count nums = 1%Z.
Proof. induction 1 as [|n l -> _ IH]; [reflexivity|]. unfold count in *. cbn. rewrite IH. reflexivity. Qed.
Lemma sqrt_two n : (2 <= n)%Z -> 7 / 5 <= sqrt (IZR n).
Proof.
  intros H. apply IZR_le in H. rewrite <- (sqrt_square (7 / 5)) by lra. apply sqrt_le_1_alt. lra.
Qed.
Lemma rint_ge z x : IZR z <= x -> (z <= rint x)%Z.
Proof. intros H. pose proof (rint_half x) as B. apply Rabs_le_inv in B. assert (IZR z - 1 < IZR (rint x)) by lra. rewrite <- minus_IZR in H0. apply lt_IZR in H0. lia. Qed.

Section One.
  Variables (c : cell) (p : point).
  Hypothesis Hp : cpoints c = [p].
  Hypothesis Ho : orthonorm (cvectors c).
  Hypothesis Hc : cvectors c <> [].
  Variables (nums : list Z) (L : lattice) (prec : nat).
  Hypothesis Hprec : (1 <= prec)%nat.
  Hypothesis Hnums : Forall (fun n => (1 <= n)%Z) nums.
  Hypothesis Hlen : length nums = length (cvectors c).
  Hypothesis Lp : points L = cluster c nums.
  Hypothesis Lv : vectors L = scale_rows nums (cvectors c).
  Let num := length (points L).
  Let z1 : Z := (10 ^ Z.of_nat prec)%Z.
  Lemma z1_ten : (10 <= z1)%Z.
  Proof. unfold z1. change 10%Z with (10 ^ 1)%Z at 1. apply Z.pow_le_mono_r; lia. Qed.
  Lemma z1_zoom : zoom prec = IZR z1. Proof. apply zoom_Z. Qed.

  Lemma between_root i j cs : (i < num)%nat -> (j < num)%nat -> length cs = length (vectors L) -> differ i j cs -> exists n, (1 <= n)%Z /\ between L i j cs = sqrt (IZR n).
  Proof.
    intros Hi Hj E D. destruct (simple_len c p Hp Ho nums L Hnums Hlen Lp Lv (Link j i cs)) as (n & Hn & El).
    - repeat split; assumption.
    - cbn [to by_ from]. intros X. injection X as X1 X2. destruct D as [D|(x & Hx & Nx)]; [congruence|]. rewrite X2 in Hx. apply repeat_spec in Hx. contradiction.
    - exists n. split; [exact Hn|]. rewrite <- El. unfold between, len, head, tail. cbn [from to by_]. apply dist_sym.
  Qed.
  Lemma root_class n : (1 <= n)%Z -> (rint (sqrt (IZR n) * zoom prec) = z1 /\ n = 1%Z) \/ (z1 + 1 < rint (sqrt (IZR n) * zoom prec) /\ 2 <= n)%Z.
  Proof.
    intros H. pose proof z1_ten as T. rewrite z1_zoom. destruct (Z.eq_dec n 1) as [->|N].
    - left. rewrite sqrt_1, Rmult_1_l, rint_IZR. auto.
    - right. split; [|lia]. pose proof (sqrt_two n ltac:(lia)) as S. apply Z.lt_le_trans with (z1 + 2)%Z; [lia|]. apply rint_ge. rewrite plus_IZR.
      assert (10 <= IZR z1) by (now apply IZR_le). nra.
  Qed.
  Lemma num_pos : (0 < num)%nat.
  Proof. unfold num. rewrite Lp, cluster_length by exact Hnums. pose proof (count_nonneg nums Hnums). rewrite Hp. cbn. lia. Qed.
  Lemma adjacent_inside : (2 <= num)%nat -> exists i j, (i < num)%nat /\ (j < num)%nat /\ i <> j /\ dist (nth i (points L) v0) (nth j (points L) v0) = 1.
  Proof.
    intros H2. destruct (unit_in_box nums Hnums) as [(e & Be & Se)|O1].
    2:{ exfalso. unfold num in H2. rewrite Lp, cluster_length, ones_count, Hp in H2 by assumption. cbn in H2. lia. }
    assert (B0 : box nums (repeat 0%Z (length nums))) by (apply zero_box; exact Hnums).
    assert (N1 : (0 < length (cpoints c))%nat) by (rewrite Hp; cbn; lia).
    destruct (at_place c nums L Hnums Hlen Lp e 0 Be N1) as (Hi & T1 & C1). destruct (at_place c nums L Hnums Hlen Lp _ 0 B0 N1) as (Hj & T2 & C2). cbv zeta in *.
    set (i := (Z.to_nat (position nums e) * length (cpoints c) + 0)%nat) in *. set (j := (Z.to_nat (position nums (repeat 0%Z (length nums))) * length (cpoints c) + 0)%nat) in *.
    exists i, j. split; [exact Hi|]. split; [exact Hj|]. destruct (placed c nums L Hnums Hlen Lp i Hi) as (_ & _ & Ei & _). destruct (placed c nums L Hnums Hlen Lp j Hj) as (_ & _ & Ej & _).
    rewrite T1, C1 in Ei. rewrite T2, C2 in Ej. split.
    - intros X. rewrite X in C1. rewrite C1 in C2. rewrite C2, sq_repeat in Se. discriminate.
    - rewrite Ei, Ej, dist_sym. rewrite Hlen. pose proof (box_length _ _ Be) as Le. fold (home c). destruct (simple_dist c p Hp Ho 0 e) as [_ E]; [split; [exact N1|congruence]|]. rewrite E, Se. apply sqrt_1.
  Qed.
  Lemma adjacent_outside : (num < 2)%nat -> exists cs, length cs = length (vectors L) /\ reach cs = 1%Z /\ (exists x, In x cs /\ x <> 0%Z) /\ between L 0 0 cs = 1.
  Proof.
    intros H2. destruct (unit_in_box nums Hnums) as [(e & Be & Se)|O1].
    - exfalso. pose proof (box_length _ _ Be) as Le. assert (N1 : (0 < length (cpoints c))%nat) by (rewrite Hp; cbn; lia).
      assert (B0 : box nums (repeat 0%Z (length nums))) by (apply zero_box; exact Hnums).
      destruct (at_place c nums L Hnums Hlen Lp e 0 Be N1) as (Hi & T1 & C1). destruct (at_place c nums L Hnums Hlen Lp _ 0 B0 N1) as (Hj & T2 & C2). cbv zeta in *. fold num in Hi, Hj.
      assert (X : (Z.to_nat (position nums e) * length (cpoints c) + 0 = Z.to_nat (position nums (repeat 0%Z (length nums))) * length (cpoints c) + 0)%nat) by lia.
      rewrite X, C2 in C1. rewrite <- C1, sq_repeat in Se. discriminate.
    - pose proof (vectors_length c nums L Hlen Lv) as VL. destruct (cvectors c) as [|v vs] eqn:Ev; [contradiction|].
      exists (1%Z :: repeat 0%Z (length vs)). assert (Ln : length (1%Z :: repeat 0%Z (length vs)) = length (vectors L)) by (cbn; rewrite repeat_length; rewrite VL, Hlen; reflexivity).
      split; [exact Ln|]. split; [|split].
      + cbn. assert (R0 : forall n, reach (repeat 0%Z n) = 0%Z) by (induction n; cbn; [reflexivity|rewrite IHn; reflexivity]). rewrite R0. reflexivity.
      + exists 1%Z. split; [now left|lia].
      + assert (EL : vectors L = v :: vs) by (rewrite Lv; apply ones_scale; assumption). unfold between. rewrite EL. unfold dist. rewrite vadd_sub. unfold norm.
        rewrite norm_shift; [|exact Ho|cbn; now rewrite repeat_length]. cbn [sq]. rewrite sq_repeat. apply sqrt_1.
  Qed.

  Variable ord : list (list Z) -> list (list Z).
  Hypothesis Hord : listing ord.
  Lemma fresh_window : fresh prec L = all_distances prec (sites_factory L ord 0 false).
  Proof.
    unfold fresh. f_equal. unfold sites_factory. assert (T0 : translations L 0 false = []).
    { unfold translations. change (zrange (- 0) (0 + 1)) with [0%Z]. assert (X : forall k, product [0%Z] k = [repeat 0%Z k]) by (induction k as [|k IH]; [reflexivity|]; cbn; now rewrite IH).
      rewrite X. cbn [filter]. replace (zs_eqb _ _) with true; [reflexivity|]. symmetry. clear. induction (length (vectors L)) as [|n IH]; [reflexivity|]. cbn. exact IH. }
    rewrite T0. pose proof (Hord []) as Pn. apply Permutation_sym, Permutation_nil in Pn. rewrite Pn. cbn [flat_map]. rewrite app_nil_r, comb_shift, shift_zero.
    rewrite (map_ext _ (fun p => p)) by apply vadd_0_l. symmetry. apply map_id.
  Qed.
  Lemma zlist_window m : (0 <= m)%Z -> (zlist prec (sites_factory L ord m false) = [] /\ m = 0%Z) \/ exists r, zlist prec (sites_factory L ord m false) = z1 :: r.
  Proof.
    intros Hm. pose proof (zlist_sorted prec (sites_factory L ord m false)) as SS. pose proof (in_zlist prec L ord m z1 Hord Hm) as IZ1. pose proof num_pos as NP.
    assert (LB : forall z, In z (zlist prec (sites_factory L ord m false)) -> (z1 <= z)%Z).
    { intros z Hz. apply in_zlist in Hz as (i & j & cs & Hi & Hj & Lc & _ & D & ->); auto. destruct (between_root i j cs Hi Hj Lc D) as (n & Hn & ->). destruct (root_class n Hn) as [[E _]|[E _]]; lia. }
    assert (In1 : (zlist prec (sites_factory L ord m false) = [] /\ m = 0%Z) \/ In z1 (zlist prec (sites_factory L ord m false))).
    { destruct (Nat.lt_ge_cases num 2) as [H2|H2].
      - destruct (Z.eq_dec m 0) as [->|N0].
        + left. split; [|reflexivity]. destruct (zlist prec (sites_factory L ord 0 false)) as [|z r] eqn:E; [reflexivity|exfalso].
          assert (Hz : In z (zlist prec (sites_factory L ord 0 false))) by (rewrite E; now left). apply in_zlist in Hz as (i & j & cs & Hi & Hj & Lc & Rc & D & _); auto; try lia.
          fold num in Hi, Hj. destruct D as [D|(x & Hx & Nx)]; [lia|]. assert (AB : (Z.abs x <= reach cs)%Z). { clear - Hx. induction cs as [|y cs IH]; [destruct Hx|]. cbn. destruct Hx as [->|Hx]; [lia|]. specialize (IH Hx). lia. }
          lia.
        + right. apply IZ1. destruct (adjacent_outside H2) as (cs & Lc & Rc & X & B). exists 0%nat, 0%nat, cs. split; [exact NP|]. split; [exact NP|]. split; [exact Lc|]. split; [lia|]. split; [now right|].
          rewrite B, Rmult_1_l, z1_zoom. symmetry. apply rint_IZR.
      - right. apply IZ1. destruct (adjacent_inside H2) as (i & j & Hi & Hj & N & E). exists i, j, (repeat 0%Z (length (vectors L))). split; [exact Hi|]. split; [exact Hj|]. split; [apply repeat_length|].
        split; [assert (R0 : forall n, reach (repeat 0%Z n) = 0%Z) by (induction n as [|n IHn]; cbn; [reflexivity|rewrite IHn; reflexivity]); rewrite R0; lia|]. split; [now left|].
        unfold between. rewrite shift_zero, vadd_0_r, E, Rmult_1_l, z1_zoom. symmetry. apply rint_IZR. }
    destruct In1 as [[E E0]|In1]; [now left|right]. destruct (zlist prec (sites_factory L ord m false)) as [|z r] eqn:E; [destruct In1|].
    exists r. f_equal. pose proof (LB z (or_introl eq_refl)) as Q. destruct In1 as [E1|In1]; [congruence|]. inversion SS as [|? ? _ F]; subst. rewrite Forall_forall in F. specialize (F _ In1). lia.
  Qed.
  Lemma one_is : IZR z1 / zoom prec = 1.
  Proof. rewrite z1_zoom. unfold Rdiv. apply Rinv_r. pose proof z1_ten. apply not_0_IZR. lia. Qed.
  Lemma distance_one d : reachable prec L ord (fresh prec L) d -> exists d2, neighbor_distance L ord prec d (AnInt 1) = (Ok 1, d2).
  Proof.
    intros Hr. assert (W : exists m, (0 <= m)%Z /\ d = all_distances prec (sites_factory L ord m false)).
    { induction Hr as [|d n Hr IH]; [exists 0%Z; split; [lia|apply fresh_window]|]. destruct (nd_cache L ord prec d n) as [-> | (m & Hm & _ & _ & ->)]; [exact IH|eauto]. }
    destruct W as (m & Hm & ->). cbn [neighbor_distance]. change (1 <? 0)%Z with false. cbn iota. change (Z.to_nat 1) with 1%nat. rewrite !all_distances_zlist. cbn [map nth_error].
    destruct (zlist_window m Hm) as [[-> _]|(r & ->)].
    - cbn [map nth_error]. destruct (zlist_window 1 ltac:(lia)) as [[_ X]|(r & ->)]; [discriminate|]. cbn [map nth_error]. rewrite one_is. eauto.
    - cbn [map nth_error]. rewrite one_is. eauto.
  Qed.
  Lemma Lpne : points L <> []. Proof. pose proof num_pos as N. unfold num in N. destruct (points L); [cbn in N; lia|discriminate]. Qed.
  Lemma rounded_one v : rounded_distance prec L v -> v = 0 \/ v = 1 \/ exists z, v = IZR z / zoom prec /\ (z1 + 1 < z)%Z.
  Proof.
    intros H. apply (rounded_iff prec L v Lpne) in H as (z & -> & [->|(i & j & cs & Hi & Hj & Lc & D & ->)]); [left; unfold Rdiv; ring|right].
    destruct (between_root i j cs Hi Hj Lc D) as (n & Hn & ->). destruct (root_class n Hn) as [[-> _]|[E _]]; [left; apply one_is|right; eauto].
  Qed.
  Lemma unit_lt a b : (a < b)%Z -> IZR a / zoom prec < IZR b / zoom prec.
  Proof. intros H. apply IZR_lt in H. unfold Rdiv. apply Rmult_lt_compat_r; [apply Rinv_0_lt_compat, zoom_pos|exact H]. Qed.
  Lemma is_rounded_one : rounded_distance prec L 1.
  Proof.
    apply (rounded_iff prec L 1 Lpne). exists z1. split; [symmetry; apply one_is|right]. pose proof num_pos as NP.
    destruct (Nat.lt_ge_cases num 2) as [H2|H2].
    - destruct (adjacent_outside H2) as (cs & Lc & _ & X & B). exists 0%nat, 0%nat, cs. split; [exact NP|]. split; [exact NP|]. split; [exact Lc|]. split; [now right|]. rewrite B, Rmult_1_l, z1_zoom. symmetry. apply rint_IZR.
    - destruct (adjacent_inside H2) as (i & j & Hi & Hj & N & E). exists i, j, (repeat 0%Z (length (vectors L))). split; [exact Hi|]. split; [exact Hj|]. split; [apply repeat_length|]. split; [now left|].
      unfold between. rewrite shift_zero, vadd_0_r, E, Rmult_1_l, z1_zoom. symmetry. apply rint_IZR.
  Qed.
  Lemma is_rounded_zero : rounded_distance prec L 0.
  Proof. apply (rounded_iff prec L 0 Lpne). exists 0%Z. split; [unfold Rdiv; ring|now left]. Qed.
  Lemma rounded_ge0 v : rounded_distance prec L v -> 0 <= v.
  Proof. apply rounded_nonneg. Qed.
  Lemma nth_zero : nth_distance prec L 0 0.
  Proof. split; [apply is_rounded_zero|]. exists []. split; [constructor|]. split; [reflexivity|]. intros u. split; [intros []|]. intros [H1 H2]. apply rounded_ge0 in H1. lra. Qed.
  Lemma nth_one : nth_distance prec L 1 1.
  Proof.
    split; [apply is_rounded_one|]. exists [0]. split; [constructor; [intros []|constructor]|]. split; [reflexivity|]. intros u. split.
    - intros [<-|[]]. split; [apply is_rounded_zero|lra].
    - intros [H1 H2]. apply rounded_one in H1 as [->|[->|(z & -> & Hz)]]; [now left|lra|]. exfalso. pose proof (unit_lt z1 z ltac:(lia)) as Q. rewrite one_is in Q. lra.
  Qed.
  Lemma gap_one : ~ rounded_distance prec L (1 + view prec).
  Proof.
    intros H. rewrite <- one_is, unit_succ in H. apply rounded_one in H. destruct H as [H|[H|(z & H & Hz)]].
    - pose proof (unit_lt 0 (z1 + 1) ltac:(pose proof z1_ten; lia)) as Q. rewrite H in Q. unfold Rdiv in Q. lra.
    - pose proof (unit_lt z1 (z1 + 1) ltac:(lia)) as Q. rewrite one_is in Q. lra.
    - apply unit_div_inj in H. lia.
  Qed.
  Lemma length_one (only : bool) n : (1 <= n)%Z -> (if only then rounded prec (sqrt (IZR n)) = 1 else rounded prec (sqrt (IZR n)) <= 1) <-> sqrt (IZR n) = 1.
  Proof.
    intros Hn. unfold rounded. destruct (root_class n Hn) as [[-> ->]|[E H2]].
    - rewrite one_is, sqrt_1. destruct only; split; intros; lra.
    - pose proof (sqrt_two n H2). assert (Q0 : (z1 < rint (sqrt (IZR n) * zoom prec))%Z) by lia. pose proof (unit_lt z1 _ Q0) as Q. rewrite one_is in Q. destruct only; split; intros; lra.
  Qed.
End One.
