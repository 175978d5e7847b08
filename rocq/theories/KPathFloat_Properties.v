(** C38 in floating point. *)
From Coq Require Import List ZArith Bool Reals Lra Lia Arith Floats.SpecFloat.
From Flocq Require Import Core.Raux Core.Zaux.
From Verif Require Import Py Float64_Model Float64_Proofs KPath_Model KPath_Spec KPath_Proofs KPathFloat_Proofs.
Import ListNotations.
Open Scope Z_scope.

(** In IEEE doubles, for coordinates of magnitude at most 2^400: KPath either
    raises ValueError or returns an array in which every anchor is exactly (as a
    number) at its index; every leg has at least min_num - 1 points and at least
    one, and some leg has at most min_num. *)
Theorem C38_float : forall (rows : list (list f64)) m loop ri d, 1 <= m < 2 ^ 52 -> (2 <= length rows)%nat -> (d = 2 \/ d = 3)%nat ->
  (forall r, In r rows -> length r = d /\ forall x, In x r -> fvalid x = true /\ ffinite x = true /\ (Rabs (f2R x) <= IZR (2 ^ 400))%R) ->
  let V := visited loop rows in
  KPath float_arith (map Vec rows) (CInt m) loop ri = Err ValueError \/
  exists ks idx, KPath float_arith (map Vec rows) (CInt m) loop ri = Ok (ks, if ri then Some idx else None) /\
    length idx = length V /\ pos idx 0 = 0%nat /\ length ks = S (pos idx (length V - 1)) /\
    (forall i, (i < length V)%nat -> map f2R (nth (pos idx i) ks []) = map f2R (nth i V [])) /\
    (forall i, (S i < length V)%nat -> (pos idx i < pos idx (S i))%nat /\ m - 1 <= Z.of_nat (pos idx (S i) - pos idx i)) /\
    (exists i, (S i < length V)%nat /\ Z.of_nat (pos idx (S i) - pos idx i) <= m).
Proof.
  intros rows m loop ri d Hm Two Hd Hr0. cbv zeta. 
  assert (Hr : forall r, In r rows -> length r = d) by (intros r H; now apply Hr0). assert (Hw : forall r, In r rows -> forall x, In x r -> within 400 x).
  { intros r H x Hx. destruct (Hr0 r H) as [_ K]. destruct (K x Hx) as (A & B & C). split; [exact A|]. split; [exact B|]. rewrite (IZR_Zpower radix2) in C by lia. exact C. }
  clear Hr0. rewrite (kpath_unfold float_arith rows m loop ri d ltac:(lia) Two Hd Hr). change (rows ++ (if loop then firstn 1 rows else [])) with (visited loop rows).
  pose proof (route_len rows loop Two) as RL. change (rows ++ (if loop then firstn 1 rows else [])) with (visited loop rows) in RL. pose proof (en_le rows loop Two) as EL. rewrite <- RL in EL.
  set (V := visited loop rows) in *. set (n := (length V - 1)%nat).
  assert (HVin : forall i, (i < length V)%nat -> In (nth i V []) rows).
  { intros i Hi. assert (X : In (nth i V []) V) by (now apply nth_In). unfold V at 2, visited in X. apply in_app_or in X as [X|X]; [exact X|]. destruct loop; [|contradiction]. destruct rows; [contradiction|]. destruct X as [X|[]]. rewrite <- X. now left. }
  set (D := fun i => row_sub float_arith (nth (S i) V []) (nth i V [])).
  assert (HDl : forall i, (i < n)%nat -> length (D i) = d) by (intros i Hi; unfold D; rewrite row_sub_length; rewrite ?(Hr _ (HVin _ _)) by lia; [apply Hr, HVin; lia|rewrite (Hr (nth i V [])) by (apply HVin; lia); apply Hr, HVin; lia]).
  assert (HDw : forall i, (i < n)%nat -> forall x, In x (D i) -> within 401 x) by (intros i Hi; apply row_sub_within; apply Hw, HVin; lia).
  set (len := fun i => row_norm float_arith (D i)). change (map (fun i => row_norm float_arith (row_sub float_arith (nth (S i) V []) (nth i V []))) (seq 0 n)) with (map len (seq 0 n)).
  assert (Hlen : forall i, (i < n)%nat -> within 804 (len i) /\ (0 <= f2R (len i))%R). { intros i Hi. apply norm_within; [rewrite HDl by exact Hi; exact Hd|now apply HDw]. }
  set (lengths := map len (seq 0 n)). assert (Hin : forall i, (i < n)%nat -> In (len i) lengths) by (intros i Hi; apply in_map, in_seq; lia).
  assert (Lne : lengths <> []) by (intros E; specialize (Hin 0%nat ltac:(lia)); rewrite E in Hin; contradiction).
  assert (Lw : forall x, In x lengths -> within 804 x) by (intros x Hx; apply in_map_iff in Hx as (i & <- & Hi); apply in_seq in Hi; apply Hlen; lia).
  destruct (float_minimum lengths Lne Lw) as [M1 M2]. set (s := minimum float_arith lengths) in *.
  destruct (less float_arith s (tiny float_arith)) eqn:Et; [now left|]. right.
  destruct tiny_ge as (T1 & T2 & T3). destruct (Lw s M1) as (Vs & Fs & Bs). cbn [less float_arith] in Et. rewrite flt_correct in Et by assumption. revert Et. case Rlt_bool_spec; [discriminate|intros Et _].
  assert (Hs : (bpow radix2 (-14) <= f2R s)%R) by (eapply Rle_trans; [exact T1|exact Et]).
  assert (SN : exists nums, mapM (sampling float_arith m s) lengths = Ok nums /\ length nums = n /\ forall i, (i < n)%nat -> 1 <= Z.of_nat (nth i nums 0%nat) <= 2 ^ 900 /\ m - 1 <= Z.of_nat (nth i nums 0%nat) /\ (f2R (len i) = f2R s -> Z.of_nat (nth i nums 0%nat) <= m)).
  { set (g := fun l : f64 => match sampling float_arith m s l with Ok k => k | Err _ => 0%nat end). assert (E : mapM (sampling float_arith m s) lengths = Ok (map g lengths)).
    { apply mapM_ok. intros l Hl. unfold g. destruct (float_sampling m s l Hm (Lw _ M1) (Lw _ Hl)) as (k & Ek & _); [split; [exact Hs|now apply M2]|]. now rewrite Ek. }
    exists (map g lengths). split; [exact E|]. split; [unfold lengths; now rewrite !map_length, seq_length|]. intros i Hi.
    unfold lengths. rewrite map_map. rewrite (nth_indep _ 0%nat (g (len 0%nat))) by (now rewrite map_length, seq_length). rewrite (map_nth (fun i => g (len i))), seq_nth by exact Hi. cbn [Nat.add].
    destruct (float_sampling m s (len i) Hm (Lw _ M1) (Lw _ (Hin i Hi))) as (k & Ek & Hk); [split; [exact Hs|apply M2, Hin, Hi]|]. unfold g. now rewrite Ek. }
  destruct SN as (nums & -> & Ln & HN). cbn [bind].
  assert (SG : exists ks, mapM (fun i => segment float_arith (nth i nums 0%nat) (D i) (nth i V [])) (seq 0 n) = Ok ks /\ length ks = n /\ forall i, (i < n)%nat -> length (nth i ks []) = nth i nums 0%nat /\ map f2R (nth 0 (nth i ks []) []) = map f2R (nth i V [])).
  { assert (K : forall i, (i < n)%nat -> exists b, segment float_arith (nth i nums 0%nat) (D i) (nth i V []) = Ok b /\ length b = nth i nums 0%nat /\ map f2R (nth 0 b []) = map f2R (nth i V [])).
    { intros i Hi. apply float_segment; [apply HN, Hi|rewrite HDl by exact Hi; symmetry; apply Hr, HVin; lia|now apply HDw|apply Hw, HVin; lia]. }
    set (g := fun i => match segment float_arith (nth i nums 0%nat) (D i) (nth i V []) with Ok b => b | Err _ => [] end). exists (map g (seq 0 n)). split; [|split; [now rewrite map_length, seq_length|]].
    - apply mapM_ok. intros i Hi. apply in_seq in Hi. destruct (K i) as (b & Eb & _); [lia|]. unfold g. now rewrite Eb.
    - intros i Hi. rewrite (nth_indep _ [] (g 0%nat)) by (now rewrite map_length, seq_length). rewrite map_nth, seq_nth by exact Hi. cbn [Nat.add]. destruct (K i Hi) as (b & Eb & Hb). unfold g. now rewrite Eb. }
  destruct SG as (ks & E & Lk & HK). unfold D in E. rewrite E. cbn [bind]. clear E.
  assert (Lm : map (@length (list f64)) ks = nums).
  { apply (nth_ext _ _ 0%nat 0%nat); [rewrite map_length; congruence|]. intros i Hi. rewrite map_length, Lk in Hi. change 0%nat with (@length (list f64) []) at 1. rewrite map_nth. now apply HK. }
  pose proof (blocks ks nums (nth n V []) V [] ltac:(lia) ltac:(lia) Lm) as B. cbv zeta in B. fold n in B.
  exists (concat ks ++ [nth n V []]), (0%nat :: cumsum 0 nums). set (idx := 0%nat :: cumsum 0 nums) in *. destruct B as (B1 & B2 & B3 & B4 & B5). split; [reflexivity|]. unfold pos.
  split; [exact B1|]. split; [reflexivity|]. split; [exact B2|]. split; [|split].
  - intros i Hi. destruct (Nat.eq_dec i n) as [->|Ni]; [now rewrite B3|]. rewrite <- (Nat.add_0_r (nth i idx 0%nat)). rewrite B5; [apply HK; lia|lia|]. destruct (HN i ltac:(lia)) as [P _]. lia.
  - intros i Hi. rewrite (B4 i Hi). destruct (HN i ltac:(lia)) as (P1 & P2 & _). split; lia.
  - apply in_map_iff in M1 as (i & Ei & Hi). apply in_seq in Hi. exists i. split; [lia|]. rewrite (B4 i) by lia. destruct (HN i ltac:(lia)) as (_ & _ & P3). rewrite Ei in P3. specialize (P3 eq_refl). lia.
Qed.
Print Assumptions C38_float.

(** "At least min_num points per leg" is false in floating point: the straight
    path from (0,0) to (0.35,0) with min_num = 3 gets two points and its end. *)
Definition f035 : f64 := S754_finite false 6305039478318694 (-54).
Theorem C38_min_num_refuted : exists ks, KPath float_arith [Vec [S754_zero false; S754_zero false]; Vec [f035; S754_zero false]] (CInt 3) false true = Ok (ks, Some [0%nat; 2%nat]) /\ length ks = 3%nat.
Proof. eexists. split; vm_compute; reflexivity. Qed.
Print Assumptions C38_min_num_refuted.
(** With the default min_num = 100, a leg of length 1.36 gets 99. *)
Theorem C38_default_refuted : exists ks, KPath float_arith [Vec [S754_zero false; S754_zero false]; Vec [S754_finite false 6124895493223875 (-52); S754_zero false]] (CInt 100) false true = Ok (ks, Some [0%nat; 99%nat]).
Proof. eexists. vm_compute. reflexivity. Qed.
