(** C38 in doubles: which legs are refused as too short, and how near the k-points
    lie to the evenly spaced points of the legs. *)
From Coq Require Import List ZArith Bool Reals Lra Lia Arith Floats.SpecFloat.
From Flocq Require Import Core.Raux Core.Zaux.
From Verif Require Import Py Float64_Model Float64_Proofs KPath_Model KPath_Spec KPath_Proofs KPathFloat_Proofs KPathFloat2_Proofs KPathRound_Proofs.
Import ListNotations.
Open Scope R_scope.

Lemma nth_map_f2R c l : nth c (map f2R l) 0 = f2R (nth c l (S754_zero false)).
Proof. change 0 with (f2R (S754_zero false)). apply map_nth. Qed.
Lemma nth_between t : forall p q c, (c < length p)%nat -> (c < length q)%nat -> nth c (between t p q) 0 = nth c p 0 + t * (nth c q 0 - nth c p 0).
Proof. induction p as [|x p IH]; intros [|y q] [|c] Hp Hq; cbn in *; try lia; [reflexivity|apply IH; lia]. Qed.
Lemma nth_frow t : forall c dR start, (c < length dR)%nat -> (c < length start)%nat -> nth c (frow t dR start) (S754_zero false) = fadd (fmul t (nth c dR (S754_zero false))) (nth c start (S754_zero false)).
Proof. intros c. induction c as [|c IH]; intros [|x dR] [|y st] H1 H2; cbn in *; try lia; [reflexivity|]. apply IH; lia. Qed.
Lemma nth_row_sub c : forall p q, (c < length p)%nat -> (c < length q)%nat -> nth c (row_sub float_arith p q) (S754_zero false) = fsub (nth c p (S754_zero false)) (nth c q (S754_zero false)).
Proof. induction c as [|c IH]; intros [|x p] [|y q] H1 H2; cbn in *; try lia; [reflexivity|]. apply IH; lia. Qed.

(** In doubles: ValueError if the exact length of some leg is less than 10^-4 by
    one part in 10^12; if all legs are longer by as much, there is an answer, and
    every coordinate of every k-point of a leg is within 3 * 10^-15 of the sizes
    of the leg's ends (and 2^-1074) of the evenly spaced point. *)
Theorem C38_rounding : forall (rows : list (list f64)) m loop ri d, (1 <= m < 2 ^ 52)%Z -> (2 <= length rows)%nat -> (d = 2 \/ d = 3)%nat ->
  (forall r, In r rows -> length r = d /\ forall x, In x r -> fvalid x = true /\ ffinite x = true /\ Rabs (f2R x) <= IZR (2 ^ 400)) ->
  let W := map (map f2R) (visited loop rows) in
  ((exists i, (S i < length W)%nat /\ leg W i <= 1 / 10000 * (1 - 1 / 1000000000000)) -> KPath float_arith (map Vec rows) (CInt m) loop ri = Err ValueError) /\
  ((forall i, (S i < length W)%nat -> 1 / 10000 * (1 + 1 / 1000000000000) <= leg W i) ->
   exists ks idx, KPath float_arith (map Vec rows) (CInt m) loop ri = Ok (ks, if ri then Some idx else None) /\ length idx = length W /\ length ks = S (pos idx (length W - 1)) /\
   forall i j c, (S i < length W)%nat -> (pos idx i + j < pos idx (S i))%nat -> (c < d)%nat ->
     let x := nth c (nth (pos idx i + j) ks []) (S754_zero false) in let p := nth i W [] in let q := nth (S i) W [] in
     ffinite x = true /\
     Rabs (f2R x - nth c (between (INR j / INR (pos idx (S i) - pos idx i)) p q) 0) <= (Rabs (nth c p 0) + Rabs (nth c q 0)) * (3 / 1000000000000000) + / IZR (2 ^ 1074)).
Proof.
  intros rows m loop ri d Hm Two Hd Hr W. pose proof (kpath_float_core rows m loop ri d Hm Two Hd Hr) as K. cbv zeta in K. set (V := visited loop rows) in *.
  assert (LW : length W = length V) by apply map_length. assert (NW : forall i, nth i W [] = map f2R (nth i V [])) by (intros i; change (@nil R) with (map f2R []); unfold W; apply map_nth).
  assert (HVin : forall i, (i < length V)%nat -> In (nth i V []) rows).
  { intros i Hi. assert (X : In (nth i V []) V) by (now apply nth_In). unfold V at 2, visited in X. apply in_app_or in X as [X|X]; [exact X|]. destruct loop; [|contradiction]. destruct rows; [contradiction|]. destruct X as [X|[]]. rewrite <- X. now left. }
  assert (HL : forall i, (i < length V)%nat -> length (nth i V []) = d) by (intros i Hi; now apply Hr, HVin).
  assert (HW : forall i, (i < length V)%nat -> forall x, In x (nth i V []) -> within 400 x).
  { intros i Hi x Hx. destruct (Hr _ (HVin i Hi)) as [_ Q]. destruct (Q x Hx) as (A & B & C). split; [exact A|]. split; [exact B|]. rewrite (IZR_Zpower radix2) in C by lia. exact C. }
  set (len := fun i => row_norm float_arith (row_sub float_arith (nth (S i) V []) (nth i V []))) in *. set (lengths := map len (seq 0 (length V - 1))) in *.
  assert (TwoV : (2 <= length V)%nat) by (unfold V, visited; rewrite app_length; lia).
  assert (Hin : forall i, (S i < length V)%nat -> In (len i) lengths) by (intros i Hi; apply in_map, in_seq; lia).
  assert (Lne : lengths <> []) by (intros E; specialize (Hin 0%nat ltac:(lia)); rewrite E in Hin; contradiction).
  assert (Lw : forall x, In x lengths -> within 804 x).
  { intros x Hx. apply in_map_iff in Hx as (i & <- & Hi). apply in_seq in Hi. apply norm_within; [rewrite row_sub_length; rewrite ?HL by lia; auto|]. apply row_sub_within; apply HW; lia. }
  destruct (float_minimum lengths Lne Lw) as [M1 M2]. set (s := minimum float_arith lengths) in *. destruct (Lw s M1) as (Vs & Fs & _). destruct tiny_ge as (_ & T2 & T3).
  split.
  - intros (i & Hi & G). rewrite LW in Hi. unfold leg in G. rewrite !NW in G. apply short_leg in G; [|rewrite HL by lia; exact Hd|rewrite !HL by lia; reflexivity|apply HW; lia|apply HW; lia].
    destruct K as [[_ E]|[E _]]; [exact E|]. exfalso. cbn [less float_arith] in E. rewrite flt_correct in E by assumption. rewrite tiny_value in E. revert E. case Rlt_bool_spec; [discriminate|]. intros E _. pose proof (M2 _ (Hin i Hi)) as M. fold (len i) in G. lra.
  - intros G. destruct K as [[E _]|[_ (ks & idx & E & L1 & L2 & L3 & L4)]].
    { exfalso. cbn [less float_arith] in E. rewrite flt_correct in E by assumption. rewrite tiny_value in E. revert E. case Rlt_bool_spec; [|discriminate]. intros E _.
      apply in_map_iff in M1 as (i & Ei & Hi). apply in_seq in Hi. specialize (G i ltac:(lia)). unfold leg in G. rewrite !NW in G. apply long_leg in G; [|rewrite HL by lia; exact Hd|rewrite !HL by lia; reflexivity|apply HW; lia|apply HW; lia]. fold (len i) in G. rewrite Ei in G. lra. }
    exists ks, idx. split; [exact E|]. rewrite LW. split; [exact L1|]. split; [exact L2|]. intros i j c Hi Hj Hc. cbv zeta. rewrite (L4 i j Hi Hj). destruct (L3 i Hi) as [P1 P2]. set (n := (pos idx (S i) - pos idx i)%nat) in *.
    assert (Lp : length (nth i V []) = d) by (apply HL; lia). assert (Lq : length (nth (S i) V []) = d) by (apply HL; lia).
    rewrite nth_frow by (rewrite ?row_sub_length; lia). rewrite nth_row_sub by lia. rewrite !NW. rewrite nth_between by (rewrite map_length; lia). rewrite !nth_map_f2R.
    assert (Wa : within 400 (nth c (nth i V []) (S754_zero false))) by (apply (HW i); [lia|apply nth_In; lia]). assert (Wb : within 400 (nth c (nth (S i) V []) (S754_zero false))) by (apply (HW (S i)); [lia|apply nth_In; lia]).
    destruct (point_bounds j n _ _ ltac:(unfold n; lia) ltac:(lia) Wa Wb) as [F B]. split; [exact F|]. exact B.
Qed.
Print Assumptions C38_rounding.
(** The path (0, 0) -> (0.35, 0) of C38_min_num_refuted: its leg is long enough. *)
Example rounding_case : let f035 := S754_finite false 6305039478318694 (-54) in let rows := [[S754_zero false; S754_zero false]; [f035; S754_zero false]] in
  (forall r, In r rows -> length r = 2%nat /\ forall x, In x r -> fvalid x = true /\ ffinite x = true /\ Rabs (f2R x) <= IZR (2 ^ 400)) /\
  (forall i, (S i < length (map (map f2R) (visited false rows)))%nat -> 1 / 10000 * (1 + 1 / 1000000000000) <= leg (map (map f2R) (visited false rows)) i).
Proof.
  cbv zeta. assert (V35 : f2R (S754_finite false 6305039478318694 (-54)) = 6305039478318694 / 18014398509481984) by reflexivity.
  assert (G : 1 <= IZR (2 ^ 400)) by (change 1 with (IZR 1); apply IZR_le; lia). split.
  - intros r [<-|[<-|[]]]; (split; [reflexivity|]); intros x [<-|[<-|[]]]; (split; [reflexivity|]); (split; [reflexivity|]); rewrite ?V35; try (cbn; rewrite Rabs_R0; lra). rewrite Rabs_pos_eq by lra. lra.
  - intros i Hi. cbn in Hi. assert (i = 0%nat) as -> by lia. unfold leg, visited. cbn [app map nth firstn sum_squares gap]. unfold gap. cbn [sum_squares]. rewrite V35. change (f2R (S754_zero false)) with 0. match goal with |- _ <= sqrt ?e => replace e with ((6305039478318694 / 18014398509481984) * (6305039478318694 / 18014398509481984)) by ring end. rewrite sqrt_square by lra. lra.
Qed.
