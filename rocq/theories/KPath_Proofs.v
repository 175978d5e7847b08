(** Proofs about KPath. *)
From Coq Require Import List ZArith Bool Arith Lia.
From Verif Require Import Py KPath_Model.
Import ListNotations.
Local Open Scope nat_scope.

(** ** lists *)
Lemma cumsum_length a l : length (cumsum a l) = length l.
Proof. revert a. induction l; cbn; auto. Qed.
Lemma nth_cumsum l : forall a i, i <= length l -> nth i (a :: cumsum a l) 0 = a + list_sum (firstn i l).
Proof.
  induction l as [|x r IH]; intros a [|i] H; cbn [length] in H; try lia; try (cbn; lia). change (nth i ((a + x) :: cumsum (a + x) r) 0 = a + (x + list_sum (firstn i r))). rewrite (IH (a + x) i) by lia. lia.
Qed.
Lemma list_sum_firstn_S l i : i < length l -> list_sum (firstn (S i) l) = list_sum (firstn i l) + nth i l 0.
Proof. revert i. induction l as [|x r IH]; intros [|i] H; cbn [length] in H; try lia; [cbn; lia|]. change (x + list_sum (firstn (S i) r) = x + list_sum (firstn i r) + nth i r 0). rewrite IH by lia. lia. Qed.
Lemma concat_nth {X} (bs : list (list X)) z d i j : i < length bs -> j < length (nth i bs []) ->
  nth (list_sum (firstn i (map (@length X) bs)) + j) (concat bs ++ z) d = nth j (nth i bs []) d.
Proof.
  revert i. induction bs as [|b r IH]; intros [|i] Hi Hj; cbn [length] in Hi; try lia.
  - cbn [firstn list_sum nth concat] in *. rewrite <- app_assoc, app_nth1 by exact Hj. reflexivity.
  - cbn [nth] in *. cbn [map firstn concat]. change (list_sum (length b :: firstn i (map (length (A:=X)) r))) with (length b + list_sum (firstn i (map (length (A:=X)) r))).
    rewrite <- app_assoc, app_nth2 by lia. replace (_ + _ + j - length b) with (list_sum (firstn i (map (length (A:=X)) r)) + j) by lia. apply IH; auto; lia.
Qed.
Lemma concat_len {X} (bs : list (list X)) : length (concat bs) = list_sum (map (@length X) bs).
Proof. induction bs as [|b r IH]; auto. cbn [concat map]. rewrite app_length, IH. reflexivity. Qed.
Lemma mapM_ok {X Y} (f : X -> res Y) (g : X -> Y) l : (forall x, In x l -> f x = Ok (g x)) -> mapM f l = Ok (map g l).
Proof. induction l as [|x r IH]; intros H; auto. cbn [mapM map]. rewrite (H x), IH; auto; intros; try apply H; cbn; auto. Qed.
Lemma mapM_inv {X Y} (f : X -> res Y) l ys : mapM f l = Ok ys -> length ys = length l /\ forall i d e, i < length l -> f (nth i l d) = Ok (nth i ys e).
Proof.
  revert ys. induction l as [|x r IH]; intros ys H; cbn [mapM] in H.
  - injection H as <-. split; auto. cbn. lia.
  - destruct (f x) as [y|] eqn:E; [|discriminate]. destruct (mapM f r) as [zs|] eqn:E2; [|discriminate]. injection H as <-. destruct (IH zs eq_refl) as [L K]. cbn [length]. split; [lia|]. intros [|i] d e Hi; cbn; auto. apply K. lia.
Qed.
Lemma nth_slice {X} lo hi (l : list X) i d : i < hi - lo -> lo + i < length l -> nth i (slice lo hi l) d = nth (lo + i) l d.
Proof.
  intros H1 H2. unfold slice. assert (E : forall (l : list X) n i d, i < n -> nth i (firstn n l) d = nth i l d).
  { clear. induction l as [|x r IH]; intros [|n] [|i] d H; cbn; auto; try lia. apply IH. lia. }
  rewrite E by exact H1. clear H1 E hi. revert lo i H2. induction l as [|x r IH]; intros [|lo] i H; cbn in *; auto; try lia. apply IH. lia.
Qed.
Lemma slice_length {X} lo hi (l : list X) : lo <= hi -> hi <= length l -> length (slice lo hi l) = hi - lo.
Proof. intros H1 H2. unfold slice. rewrite firstn_length, skipn_length. lia. Qed.

(** ** the route *)
Section Route.
  Context {T : Type} (A : arith T) (rows : list (list T)) (loop : bool).
  Hypothesis Two : 2 <= length rows.
  Let V := rows ++ (if loop then firstn 1 rows else []).
  Let en := if loop then length rows + 1 else length rows.
  Lemma route_len : length V = en.
  Proof. unfold V, en. rewrite app_length. destruct loop; [|cbn; lia]. rewrite firstn_length. lia. Qed.
  Lemma route_nth i d : i < en -> nth i (rows ++ rows) d = nth i V d.
  Proof.
    intros H. unfold V, en in *. destruct (Nat.lt_ge_cases i (length rows)) as [L|L]; [now rewrite !app_nth1|]. rewrite !app_nth2 by lia.
    destruct loop; [|lia]. replace (i - length rows) with 0 by lia. destruct rows; [cbn in Two; lia|reflexivity].
  Qed.
  Lemma en_le : 2 <= en <= length (rows ++ rows).
  Proof. rewrite app_length. unfold en. destruct loop; lia. Qed.
  Let dRs := map (fun x => row_sub A (fst x) (snd x)) (combine (slice 1 en (rows ++ rows)) (slice 0 (en - 1) (rows ++ rows))).
  Lemma dRs_len : length dRs = en - 1.
  Proof. unfold dRs. rewrite map_length, combine_length. pose proof en_le. rewrite !slice_length by lia. lia. Qed.
  Lemma dRs_seq : dRs = map (fun i => row_sub A (nth (S i) V []) (nth i V [])) (seq 0 (en - 1)).
  Proof.
    pose proof en_le as Hen. apply (nth_ext _ _ [] (row_sub A (nth 1 V []) (nth 0 V []))); [rewrite dRs_len, map_length, seq_length; reflexivity|].
    intros i Hi. rewrite dRs_len in Hi. rewrite (map_nth (fun i => row_sub A (nth (S i) V []) (nth i V [])) _ 0). rewrite seq_nth by lia. unfold dRs.
    rewrite (nth_indep _ [] ((fun x => row_sub A (fst x) (snd x)) ([], []))) by (rewrite map_length, combine_length; rewrite !slice_length by lia; lia).
    rewrite (map_nth (fun x => row_sub A (fst x) (snd x))). rewrite combine_nth by (rewrite !slice_length by lia; lia). cbn [fst snd]. rewrite !nth_slice by lia. rewrite !route_nth by lia. reflexivity.
  Qed.
End Route.

Lemma mapM_seq {X Y} (f : X -> res Y) (l : list X) d : mapM f l = mapM (fun i => f (nth i l d)) (seq 0 (length l)).
Proof.
  assert (E : forall n l, length l = n -> mapM f l = mapM (fun i => f (nth i l d)) (seq 0 n)).
  { clear l. assert (Sh : forall (Z0 : Type) (g : nat -> res Z0) (n a : nat), mapM g (seq (S a) n) = mapM (fun i => g (S i)) (seq a n)).
    { induction n as [|n IH]; intros a; auto. cbn [seq mapM]. now rewrite IH. }
    induction n as [|n IH]; intros [|x r] L; try discriminate; auto. cbn [seq mapM nth]. rewrite Sh. cbn [nth]. rewrite <- (IH r) by (cbn in L; lia). reflexivity. }
  now apply E.
Qed.
Lemma mapM_ext {X Y} (f g : X -> res Y) l : (forall x, In x l -> f x = g x) -> mapM f l = mapM g l.
Proof. induction l as [|x r IH]; intros H; auto. cbn [mapM]. rewrite (H x) by (now left). rewrite IH; auto. intros; apply H; now right. Qed.

(** KPath on well-formed input, in terms of the route. *)
Lemma kpath_unfold {T} (A : arith T) (rows : list (list T)) (m : Z) (loop ri : bool) (d : nat) : (1 <= m)%Z -> 2 <= length rows -> (d = 2 \/ d = 3) -> (forall r, In r rows -> length r = d) ->
  let V := rows ++ (if loop then firstn 1 rows else []) in
  let legs := seq 0 (length V - 1) in
  let lengths := map (fun i => row_norm A (row_sub A (nth (S i) V []) (nth i V []))) legs in
  KPath A (map Vec rows) (CInt m) loop ri =
  if less A (minimum A lengths) (tiny A) then Err ValueError
  else bind (mapM (sampling A m (minimum A lengths)) lengths) (fun nums =>
       bind (mapM (fun i => segment A (nth i nums 0) (row_sub A (nth (S i) V []) (nth i V [])) (nth i V [])) legs) (fun ks =>
       Ok (concat ks ++ [nth (length V - 1) V []], if ri then Some (0 :: cumsum 0 nums) else None))).
Proof.
  intros Hm Two Hd Hr. cbv zeta. set (V := rows ++ (if loop then firstn 1 rows else [])). unfold KPath.
  destruct (Z.leb_spec 1 m) as [_|]; [|lia]. cbn [assert_ bind]. rewrite map_length. destruct (Nat.ltb_spec 1 (length rows)) as [_|]; [|lia]. cbn [assert_ bind].
  assert (E : mapM shape_ok (map Vec rows) = Ok rows).
  { clear Two V. induction rows as [|x r IH]; auto. cbn [map mapM shape_ok]. assert (L : length x = d) by (apply Hr; now left). rewrite L.
    replace (Nat.eqb d 2 || Nat.eqb d 3) with true by (destruct Hd; subst; reflexivity). cbn [assert_ bind]. rewrite IH; auto. intros y Hy. apply Hr. now right. }
  rewrite E. cbn [bind].
  assert (F : forallb (fun v => Nat.eqb (length v) (length (hd [] rows))) rows = true).
  { apply forallb_forall. intros x Hx. apply Nat.eqb_eq. rewrite (Hr x Hx). symmetry. apply Hr. destruct rows; [cbn in Two; lia|now left]. }
  rewrite F. cbn [bind]. clear E F.
  pose proof (route_len rows loop Two) as RL. fold V in RL. rewrite <- RL. pose proof (dRs_seq A rows loop Two) as DS. fold V in DS. rewrite <- RL in DS. rewrite DS. rewrite map_map.
  destruct (less A _ (tiny A)); [reflexivity|]. destruct (mapM (sampling A m _) _) as [nums|] eqn:En; [|reflexivity]. cbn [bind].
  apply mapM_inv in En as [Ln _]. rewrite map_length, seq_length in Ln. pose proof (en_le rows loop Two) as EL. rewrite <- RL in EL.
  rewrite (mapM_seq _ (combine nums _) (0, ([], []))). rewrite !combine_length, map_length, seq_length, Ln. replace (Nat.min (length V - 1) (Nat.min (length V - 1) (length (rows ++ rows)))) with (length V - 1) by lia.
  rewrite (mapM_ext _ (fun i => segment A (nth i nums 0) (row_sub A (nth (S i) V []) (nth i V [])) (nth i V []))).
  - rewrite (route_nth rows loop Two) by (rewrite <- RL; fold V; lia). reflexivity.
  - intros i Hi. apply in_seq in Hi. set (D := map _ (seq 0 (length V - 1))). assert (LD : length D = length V - 1) by (unfold D; now rewrite map_length, seq_length).
    assert (N : nth i (combine nums (combine D (rows ++ rows))) (0, ([], [])) = (nth i nums 0, (nth i D [], nth i (rows ++ rows) []))).
    { assert (G : forall {X Y} (a : list X) (b : list Y) i x y, i < length a -> i < length b -> nth i (combine a b) (x, y) = (nth i a x, nth i b y)).
      { clear. induction a as [|u a IH]; intros [|v b] [|i] x y H1 H2; cbn in *; try lia; auto. apply IH; lia. }
      rewrite G; [rewrite G; [reflexivity|lia|lia]|lia|rewrite combine_length; lia]. }
    rewrite N. cbn [fst snd]. f_equal.
    + unfold D. rewrite (nth_indep _ [] (row_sub A (nth 1 V []) (nth 0 V []))) by (rewrite map_length, seq_length; lia). rewrite (map_nth (fun i => row_sub A (nth (S i) V []) (nth i V [])) _ 0). rewrite seq_nth by lia. reflexivity.
    + rewrite (route_nth rows loop Two) by (rewrite <- RL; fold V; lia). reflexivity.
Qed.

(** Positions of the blocks in the concatenation. *)
Lemma blocks {X} (ks : list (list X)) (nums : list nat) z (V : list X) d : length nums = length V - 1 -> 2 <= length V -> map (@length X) ks = nums ->
  let idx := 0 :: cumsum 0 nums in let all := concat ks ++ [z] in
  length idx = length V /\ length all = S (nth (length V - 1) idx 0) /\ nth (nth (length V - 1) idx 0) all d = z /\
  (forall i, S i < length V -> nth (S i) idx 0 = nth i idx 0 + nth i nums 0) /\
  (forall i j, S i < length V -> j < nth i nums 0 -> nth (nth i idx 0 + j) all d = nth j (nth i ks []) d).
Proof.
  intros L H2 E. cbv zeta. assert (C : list_sum (firstn (length V - 1) nums) = length (concat ks)) by (rewrite firstn_all2 by lia; rewrite concat_len, E; reflexivity).
  split; [cbn [length]; rewrite cumsum_length; lia|]. rewrite (nth_cumsum nums 0 (length V - 1)) by lia. cbn [Nat.add]. rewrite C. split; [rewrite app_length; cbn; lia|].
  split; [rewrite app_nth2 by lia; now rewrite Nat.sub_diag|]. split.
  - intros i Hi. rewrite !nth_cumsum by lia. rewrite list_sum_firstn_S by lia. lia.
  - intros i j Hi Hj. rewrite nth_cumsum by lia. cbn [Nat.add]. rewrite <- E. apply concat_nth; [rewrite <- (map_length (@length X)), E; lia|].
    rewrite <- E in Hj. change 0 with (@length X []) in Hj. now rewrite map_nth in Hj.
Qed.

(** ** minimum *)
Section Minimum.
  Context {T : Type} (A : arith T) (good : T -> Prop) (le : T -> T -> Prop).
  Hypothesis le_refl : forall x, le x x.
  Hypothesis le_trans : forall x y z, le x y -> le y z -> le x z.
  Hypothesis less_le : forall x y, good x -> good y -> less A x y = true -> le x y.
  Hypothesis nless_le : forall x y, good x -> good y -> less A x y = false -> le y x.
  Lemma minimum_spec x r : (forall y, In y (x :: r) -> good y) -> In (minimum A (x :: r)) (x :: r) /\ forall y, In y (x :: r) -> le (minimum A (x :: r)) y.
  Proof.
    cbn [minimum]. revert x. induction r as [|y r IH]; intros x G; cbn [fold_left].
    - split; [now left|]. intros z [<-|[]]. apply le_refl.
    - assert (Gx : good x) by (apply G; now left). assert (Gy : good y) by (apply G; right; now left). destruct (less A y x) eqn:E.
      + destruct (IH y) as [I L]; [intros z H; apply G; now right|]. split; [now right|]. intros z [<-|H]; [|now apply L]. eapply le_trans; [apply L; now left|now apply less_le].
      + destruct (IH x) as [I L]; [intros z [<-|H]; [exact Gx|apply G; right; now right]|]. split; [destruct I; [now left|right; now right]|]. intros z [<-|[<-|H]]; [apply L; now left| |apply L; now right]. eapply le_trans; [apply L; now left|now apply nless_le].
  Qed.
End Minimum.
