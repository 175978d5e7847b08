(** C38: KPath. *)
From Coq Require Import List ZArith Bool Reals Lra Lia Arith Floats.SpecFloat.
From Flocq Require Import Core.Raux.
From Verif Require Import Py Float64_Model KPath_Model KPath_Spec KPath_Proofs.
Import ListNotations.
Open Scope R_scope.

Lemma real_norm p q d : (d = 2 \/ d = 3)%nat -> length p = d -> length q = d -> row_norm real_arith (row_sub real_arith q p) = gap p q.
Proof.
  intros [->| ->] Hp Hq; repeat (destruct p as [|? p]; try discriminate); repeat (destruct q as [|? q]; try discriminate); unfold row_norm, row_sub, gap; cbn; f_equal; ring.
Qed.
Lemma real_minimum l : l <> [] -> In (minimum real_arith l) l /\ forall y, In y l -> minimum real_arith l <= y.
Proof.
  destruct l as [|x r]; [contradiction|intros _]. apply (minimum_spec real_arith (fun _ => True) Rle); auto using Rle_refl; [exact Rle_trans| |]; intros a b _ _; cbn [less real_arith]; case Rlt_bool_spec; intros; try discriminate; lra.
Qed.
Definition real_row (t : R) (dR start : list R) : list R := map (fun x => t * fst x + snd x) (combine dR start).
Lemma real_segment num dR start : segment real_arith num dR start = Ok (map (fun i => real_row (INR i / INR num) dR start) (seq 0 num)).
Proof.
  unfold segment. apply mapM_ok. intros i Hi. cbn [of_int real_arith bind add mul div one zero]. do 2 f_equal. unfold real_row. apply map_ext. intros [x y]. cbn [fst snd]. rewrite <- !INR_IZR_INZ. unfold Rdiv. ring.
Qed.
Lemma real_row_between t p q : length p = length q -> real_row t (row_sub real_arith q p) p = between t p q.
Proof.
  revert q. induction p as [|x p IH]; intros [|y q] L; try discriminate; auto. unfold real_row, row_sub in *. cbn in *. rewrite IH by lia. f_equal. ring.
Qed.
Lemma between_start p q : length p = length q -> between 0 p q = p.
Proof. revert q. induction p as [|x p IH]; intros [|y q] L; try discriminate; auto. cbn. rewrite IH by (cbn in L; lia). f_equal. ring. Qed.
Lemma real_sampling m s l : (1 <= m)%Z -> 0 < s <= l -> exists n, sampling real_arith m s l = Ok n /\ (0 < n)%nat /\ INR n * s <= IZR m * l < (INR n + 1) * s.
Proof.
  intros Hm Hs. pose proof (IZR_le _ _ Hm) as Hm'. assert (Q : 1 <= IZR m * l / s). { apply Rmult_le_reg_r with s; [lra|]. unfold Rdiv. rewrite Rmult_assoc, Rinv_l, Rmult_1_r by lra. nra. }
  unfold sampling. cbn [of_int real_arith bind to_int div mul]. rewrite Ztrunc_floor by lra. set (k := Zfloor (IZR m * l / s)). assert (Hk : (1 <= k)%Z) by (apply Zfloor_lub; exact Q).
  destruct (Z.ltb_spec k 0); [lia|]. exists (Z.to_nat k). split; [reflexivity|]. split; [lia|]. rewrite INR_IZR_INZ, Z2Nat.id by lia.
  pose proof (Zfloor_lb (IZR m * l / s)) as B1. pose proof (Zfloor_ub (IZR m * l / s)) as B2. fold k in B1, B2.
  assert (E : IZR m * l = IZR m * l / s * s) by (field; lra). rewrite E. split; [apply Rmult_le_compat_r; lra|apply Rmult_lt_compat_r; lra].
Qed.

(** In exact arithmetic KPath samples the route through the given points: every
    anchor is at its advertised index, the points of a leg are evenly spaced and
    their number is floor(min_num * leg / shortest leg). *)
Theorem C38_kpath : forall (rows : list (list R)) m loop ri d, (1 <= m)%Z -> (2 <= length rows)%nat -> (d = 2 \/ d = 3)%nat -> (forall r, In r rows -> length r = d) ->
  (forall i, (S i < length (visited loop rows))%nat -> 1 / 10000 <= leg (visited loop rows) i) ->
  exists ks idx, KPath real_arith (map Vec rows) (CInt m) loop ri = Ok (ks, if ri then Some idx else None) /\ samples (Z.to_nat m) (visited loop rows) ks idx.
Proof.
  intros rows m loop ri d Hm Two Hd Hr Hleg. rewrite (kpath_unfold real_arith rows m loop ri d Hm Two Hd Hr). change (rows ++ (if loop then firstn 1 rows else [])) with (visited loop rows).
  pose proof (route_len rows loop Two) as RL. change (rows ++ (if loop then firstn 1 rows else [])) with (visited loop rows) in RL. pose proof (en_le rows loop Two) as EL. rewrite <- RL in EL.
  set (V := visited loop rows) in *. set (n := (length V - 1)%nat).
  assert (HV : forall i, (i < length V)%nat -> length (nth i V []) = d).
  { intros i Hi. assert (X : In (nth i V []) V) by (now apply nth_In). unfold V at 2, visited in X. apply in_app_or in X as [X|X]; [now apply Hr|]. apply Hr. destruct loop; [|contradiction]. destruct rows; [contradiction|]. destruct X as [<-|[]]. now left. }
  rewrite (map_ext_in _ (leg V)) by (intros i Hi; apply in_seq in Hi; apply (real_norm _ _ d); auto; apply HV; lia).
  set (lengths := map (leg V) (seq 0 n)). assert (Hin : forall i, (S i < length V)%nat -> In (leg V i) lengths) by (intros i Hi; apply in_map, in_seq; lia).
  assert (Lne : lengths <> []) by (intros E; specialize (Hin 0%nat ltac:(lia)); rewrite E in Hin; contradiction).
  destruct (real_minimum lengths Lne) as [M1 M2]. set (s := minimum real_arith lengths) in *.
  assert (Sh : shortest V s) by (split; [apply in_map_iff in M1 as (i & Ei & Hi); apply in_seq in Hi; exists i; split; [lia|exact Ei]|intros i Hi; apply M2, Hin, Hi]).
  assert (Hs : 1 / 10000 <= s) by (destruct Sh as [(i & Hi & <-) _]; now apply Hleg).
  cbn [less tiny real_arith]. rewrite Rlt_bool_false by exact Hs.
  assert (U : forall s', shortest V s' -> s' = s).
  { intros s' [(i & Hi & Ei) B]. destruct Sh as [(j & Hj & Ej) B']. apply Rle_antisym; [rewrite <- Ej; now apply B|rewrite <- Ei; now apply B']. }
  assert (SN : exists nums, mapM (sampling real_arith m s) lengths = Ok nums /\ length nums = n /\ forall i, (i < n)%nat -> (0 < nth i nums 0)%nat /\ INR (nth i nums 0%nat) * s <= IZR m * leg V i < (INR (nth i nums 0%nat) + 1) * s).
  { set (g := fun l : R => match sampling real_arith m s l with Ok k => k | Err _ => 0%nat end). assert (E : mapM (sampling real_arith m s) lengths = Ok (map g lengths)).
    { apply mapM_ok. intros l Hl. unfold g. destruct (real_sampling m s l Hm) as (k & Ek & _); [split; [lra|now apply M2]|]. now rewrite Ek. }
    exists (map g lengths). split; [exact E|]. split; [unfold lengths; now rewrite !map_length, seq_length|]. intros i Hi.
    rewrite (nth_indep _ 0%nat (g 0)) by (unfold lengths; now rewrite !map_length, seq_length). rewrite map_nth. unfold lengths. rewrite (nth_indep _ 0 (leg V 0%nat)) by (now rewrite map_length, seq_length). rewrite map_nth, seq_nth by exact Hi. cbn [Nat.add].
    destruct (real_sampling m s (leg V i) Hm) as (k & Ek & Hk); [split; [lra|apply M2, Hin; lia]|]. unfold g. now rewrite Ek. }
  destruct SN as (nums & -> & Ln & HN). cbn [bind].
  set (blk := fun i => map (fun j => between (INR j / INR (nth i nums 0%nat)) (nth i V []) (nth (S i) V [])) (seq 0 (nth i nums 0%nat))).
  rewrite (mapM_ok _ blk).
  2:{ intros i Hi. apply in_seq in Hi. rewrite real_segment. f_equal. apply map_ext. intros j. apply real_row_between. rewrite !HV by lia. reflexivity. }
  cbn [bind]. set (ks := map blk (seq 0 n)). assert (Lk : map (@length (list R)) ks = nums).
  { unfold ks. rewrite map_map. apply (nth_ext _ _ 0%nat 0%nat); [rewrite map_length, seq_length; congruence|]. intros i Hi. rewrite map_length, seq_length in Hi.
    rewrite (nth_indep _ 0%nat (length (blk 0%nat))) by (now rewrite map_length, seq_length). rewrite (map_nth (fun i => length (blk i))), seq_nth by exact Hi. unfold blk. now rewrite map_length, seq_length. }
  pose proof (blocks ks nums (nth n V []) V [] ltac:(lia) ltac:(lia) Lk) as B. cbv zeta in B. fold n in B.
  exists (concat ks ++ [nth n V []]), (0%nat :: cumsum 0 nums). set (idx := 0%nat :: cumsum 0 nums) in *. destruct B as (B1 & B2 & B3 & B4 & B5). split; [reflexivity|].
  assert (Kn : forall i, (S i < length V)%nat -> nth i ks [] = blk i). { intros i Hi. unfold ks. rewrite (nth_indep _ [] (blk 0%nat)) by (rewrite map_length, seq_length; lia). rewrite map_nth, seq_nth by lia. reflexivity. }
  assert (EV : forall i j, (S i < length V)%nat -> (j < nth i nums 0)%nat -> nth (nth i idx 0%nat + j) (concat ks ++ [nth n V []]) [] = between (INR j / INR (nth i nums 0%nat)) (nth i V []) (nth (S i) V [])).
  { intros i j Hi Hj. rewrite B5 by auto. rewrite Kn by exact Hi. unfold blk. rewrite (nth_indep _ [] (between (INR 0 / INR (nth i nums 0%nat)) (nth i V []) (nth (S i) V []))) by (now rewrite map_length, seq_length).
    rewrite (map_nth (fun j => between (INR j / INR (nth i nums 0%nat)) (nth i V []) (nth (S i) V []))), seq_nth by exact Hj. reflexivity. }
  split; unfold pos.
  - exact B1.
  - reflexivity.
  - exact B2.
  - intros i Hi. destruct (Nat.eq_dec i n) as [->|Ni]; [exact B3|]. assert (Hi' : (S i < length V)%nat) by lia. rewrite <- (Nat.add_0_r (nth i idx 0%nat)). rewrite EV by (try apply HN; lia).
    cbn [INR]. unfold Rdiv. rewrite Rmult_0_l. apply between_start. rewrite !HV by lia. reflexivity.
  - intros i j Hi Hj. pose proof (B4 i Hi) as Q. rewrite Q in Hj |- *. replace (nth i idx 0 + nth i nums 0 - nth i idx 0)%nat with (nth i nums 0%nat) by lia. apply EV; [exact Hi|]. lia.
  - intros i s' Hi Hs'. rewrite (U s' Hs'). pose proof (B4 i Hi) as Q. rewrite Q. replace (nth i idx 0 + nth i nums 0 - nth i idx 0)%nat with (nth i nums 0%nat) by lia. destruct (HN i ltac:(lia)) as [P1 P2]. split; [lia|]. rewrite (INR_IZR_INZ (Z.to_nat m)), Z2Nat.id by lia. exact P2.
Qed.
Print Assumptions C38_kpath.

(** Consequences: a leg of the shortest length gets exactly min_num k-points, the
    others at least as many, and the spacing of the k-points of any two legs
    differs by less than a factor 2. *)
Theorem C38_density : forall m V ks idx, (1 <= m)%nat -> (forall i, (S i < length V)%nat -> 0 < leg V i) -> samples m V ks idx -> (2 <= length V)%nat ->
  exists s, shortest V s /\ 0 < s /\ forall i, (S i < length V)%nat ->
    let n := (pos idx (S i) - pos idx i)%nat in (m <= n)%nat /\ (leg V i = s -> n = m) /\ s / INR m <= leg V i / INR n < 2 * (s / INR m).
Proof.
  intros m V ks idx Hm Hpos Sm H2. set (lengths := map (leg V) (seq 0 (length V - 1))). assert (Hin : forall i, (S i < length V)%nat -> In (leg V i) lengths) by (intros i Hi; apply in_map, in_seq; lia).
  assert (Lne : lengths <> []) by (intros E; specialize (Hin 0%nat ltac:(lia)); rewrite E in Hin; contradiction).
  destruct (real_minimum lengths Lne) as [M1 M2]. set (s := minimum real_arith lengths) in *.
  assert (Sh : shortest V s) by (split; [apply in_map_iff in M1 as (i & Ei & Hi); apply in_seq in Hi; exists i; split; [lia|exact Ei]|intros i Hi; apply M2, Hin, Hi]).
  assert (Hs : 0 < s) by (destruct Sh as [(i & Hi & <-) _]; now apply Hpos). exists s. split; [exact Sh|]. split; [exact Hs|]. intros i Hi. cbv zeta.
  destruct (s_count _ _ _ _ Sm i s Hi Sh) as [P1 P2]. set (n := (pos idx (S i) - pos idx i)%nat) in *. assert (Hle : s <= leg V i) by (apply Sh; exact Hi).
  apply le_INR in Hm. change (INR 1) with 1 in Hm. assert (Hn : 1 <= INR n) by (change 1 with (INR 1); apply le_INR; lia).
  assert (A1 : (m <= n)%nat). { assert (X : INR m < INR n + 1) by (apply Rmult_lt_reg_r with s; [lra|]; nra). rewrite <- S_INR in X. apply INR_lt in X. lia. }
  split; [exact A1|]. split.
  - intros E. rewrite E in P2. assert (X : INR n <= INR m) by (apply Rmult_le_reg_r with s; lra). apply INR_le in X. lia.
  - split.
    + apply Rmult_le_reg_r with (INR n * INR m); [nra|]. replace (s / INR m * (INR n * INR m)) with (INR n * s) by (field; lra). replace (leg V i / INR n * (INR n * INR m)) with (INR m * leg V i) by (field; lra). lra.
    + apply Rmult_lt_reg_r with (INR n * INR m); [nra|]. replace (2 * (s / INR m) * (INR n * INR m)) with (2 * (INR n * s)) by (field; lra). replace (leg V i / INR n * (INR n * INR m)) with (INR m * leg V i) by (field; lra). nra.
Qed.
Print Assumptions C38_density.

(** What is rejected, and with which exception; [A] is exact or floating-point. *)
Theorem C38_errors : forall T (A : arith T) (points : list (anchor T)) loop ri,
  KPath A points COther loop ri = Err AssertionError /\
  (forall m, (m < 1)%Z -> KPath A points (CInt m) loop ri = Err AssertionError) /\
  (forall m, (length points < 2)%nat -> KPath A points (CInt m) loop ri = Err AssertionError) /\
  (forall m pre p post, (1 <= m)%Z -> (2 <= length points)%nat -> points = pre ++ p :: post -> (forall q, In q pre -> exists xs, q = Vec xs /\ (length xs = 2 \/ length xs = 3)%nat) ->
     (p = OtherRank \/ (exists xs, p = Vec xs /\ length xs <> 2%nat /\ length xs <> 3%nat) -> KPath A points (CInt m) loop ri = Err AssertionError) /\
     (p = Shapeless -> KPath A points (CInt m) loop ri = Err AttributeError)) /\
  (forall m, (1 <= m)%Z -> (exists xs ys, In (Vec xs) points /\ In (Vec ys) points /\ length xs = 2%nat /\ length ys = 3%nat) -> (forall q, In q points -> exists xs, q = Vec xs /\ (length xs = 2 \/ length xs = 3)%nat) ->
     KPath A points (CInt m) loop ri = Err ValueError).
Proof.
  intros T A points loop ri. split; [reflexivity|]. split.
  { intros m Hm. unfold KPath. destruct (Z.leb_spec 1 m); [lia|reflexivity]. }
  split.
  { intros m Hl. unfold KPath. destruct (Z.leb_spec 1 m); [|reflexivity]. cbn [assert_ bind]. destruct (Nat.ltb_spec 1 (length points)); [lia|reflexivity]. }
  split.
  - intros m pre p post Hm Hl E Hpre. unfold KPath. destruct (Z.leb_spec 1 m); [|lia]. cbn [assert_ bind]. destruct (Nat.ltb_spec 1 (length points)); [|lia]. cbn [assert_ bind].
    assert (K : forall e, shape_ok p = Err e -> mapM shape_ok points = Err e).
    { intros e He. rewrite E. clear E Hl. induction pre as [|q pre IH]; cbn [app mapM]; [now rewrite He|]. destruct (Hpre q (or_introl eq_refl)) as (xs & -> & Hx). cbn [shape_ok].
      replace (Nat.eqb (length xs) 2 || Nat.eqb (length xs) 3) with true by (destruct Hx as [->| ->]; reflexivity). cbn [assert_ bind]. rewrite IH; auto. intros q Hq. apply Hpre. now right. }
    split; [intros [->|(xs & -> & N2 & N3)]|intros ->]; (erewrite K; [reflexivity|]); try reflexivity. cbn [shape_ok]. apply Nat.eqb_neq in N2, N3. now rewrite N2, N3.
  - intros m Hm (xs & ys & Hx & Hy & Lx & Ly) Hall. unfold KPath. destruct (Z.leb_spec 1 m); [|lia]. cbn [assert_ bind].
    assert (Hl : (1 < length points)%nat). { destruct points as [|a [|b r]]; [contradiction| |cbn; lia]. exfalso. destruct Hx as [Hx|[]], Hy as [Hy|[]]. assert (E : Vec xs = Vec ys) by congruence. injection E as E. rewrite E in Lx. lia. }
    destruct (Nat.ltb_spec 1 (length points)); [|lia]. cbn [assert_ bind].
    assert (K : exists rows, mapM shape_ok points = Ok rows /\ points = map Vec rows).
    { clear Hx Hy Hl H0. induction points as [|q r IH]; [exists []; auto|]. destruct IH as (rows & E1 & E2); [intros q' Hq'; apply Hall; now right|]. destruct (Hall q (or_introl eq_refl)) as (zs & -> & Hz). exists (zs :: rows). cbn [mapM shape_ok].
      replace (Nat.eqb (length zs) 2 || Nat.eqb (length zs) 3) with true by (destruct Hz as [->| ->]; reflexivity). cbn [assert_ bind]. rewrite E1. split; [reflexivity|]. cbn. now rewrite <- E2. }
    destruct K as (rows & -> & E). cbn [bind]. destruct (forallb _ rows) eqn:F; [|reflexivity]. exfalso. rewrite forallb_forall in F. rewrite E in Hx, Hy. apply in_map_iff in Hx as (u & Eu & Hu). apply in_map_iff in Hy as (v & Ev & Hv). injection Eu as ->. injection Ev as ->.
    pose proof (F _ Hu) as F1. pose proof (F _ Hv) as F2. apply Nat.eqb_eq in F1, F2. lia.
Qed.
Print Assumptions C38_errors.

(** Two adjacent anchors closer than 1e-4: ValueError. *)
Theorem C38_identical : forall (rows : list (list R)) m loop ri d, (1 <= m)%Z -> (2 <= length rows)%nat -> (d = 2 \/ d = 3)%nat -> (forall r, In r rows -> length r = d) ->
  (exists i, (S i < length (visited loop rows))%nat /\ leg (visited loop rows) i < 1 / 10000) -> KPath real_arith (map Vec rows) (CInt m) loop ri = Err ValueError.
Proof.
  intros rows m loop ri d Hm Two Hd Hr (i & Hi & Hl). rewrite (kpath_unfold real_arith rows m loop ri d Hm Two Hd Hr). change (rows ++ (if loop then firstn 1 rows else [])) with (visited loop rows). set (V := visited loop rows) in *.
  assert (HV : forall i, (i < length V)%nat -> length (nth i V []) = d).
  { clear i Hi Hl. intros i Hi. assert (X : In (nth i V []) V) by (now apply nth_In). unfold V at 2, visited in X. apply in_app_or in X as [X|X]; [now apply Hr|]. apply Hr. destruct loop; [|contradiction]. destruct rows; [contradiction|]. destruct X as [<-|[]]. now left. }
  rewrite (map_ext_in _ (leg V)) by (intros j Hj; apply in_seq in Hj; apply (real_norm _ _ d); auto; apply HV; lia).
  set (lengths := map (leg V) (seq 0 (length V - 1))). assert (Hin : In (leg V i) lengths) by (apply in_map, in_seq; lia). destruct (real_minimum lengths) as [_ M2]; [intros E; rewrite E in Hin; contradiction|].
  cbn [less tiny real_arith]. rewrite Rlt_bool_true; [reflexivity|]. specialize (M2 _ Hin). lra.
Qed.
Print Assumptions C38_identical.

(** The hypotheses are met: the loop (0,0) -> (1,0) -> (1,1) -> (0,0). *)
Example C38_triangle : exists ks idx, KPath real_arith (map Vec [[0; 0]; [1; 0]; [1; 1]]) (CInt 100) true true = Ok (ks, Some idx) /\ samples 100 [[0; 0]; [1; 0]; [1; 1]; [0; 0]] ks idx.
Proof.
  destruct (C38_kpath [[0; 0]; [1; 0]; [1; 1]] 100 true true 2) as (ks & idx & E & Sm); try lia; auto.
  - cbn. lia.
  - intros r [<-|[<-|[<-|[]]]]; reflexivity.
  - intros i Hi. assert (Hi' : (i < 3)%nat) by (cbn in Hi; lia). clear Hi. assert (C : (i = 0 \/ i = 1 \/ i = 2)%nat) by lia.
    assert (G : forall p q, 1 <= sum_squares p q -> 1 / 10000 <= gap p q) by (intros p q Hpq; unfold gap; apply Rle_trans with (sqrt 1); [rewrite sqrt_1; lra|apply sqrt_le_1; lra]).
    unfold leg. apply G. destruct C as [->|[->| ->]]; cbn [visited app firstn nth sum_squares]; lra.
  - exists ks, idx. split; [exact E|exact Sm].
Qed.
