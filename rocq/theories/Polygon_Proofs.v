From Coq Require Import List Reals Bool Arith Lra Lia Psatz.
From Verif Require Import Py Line2D_Model Line2D_Spec Line2D_Proofs Polygon_Model Polygon_Spec.
Import ListNotations.
Open Scope R_scope.

(** ** sums *)
Lemma sumn_ext n f g : (forall k, (k < n)%nat -> f k = g k) -> sumn n f = sumn n g.
Proof. induction n; cbn; intros H; [reflexivity|]. rewrite IHn, H by (auto with arith). reflexivity. Qed.
Lemma sumn_plus n f g : sumn n (fun k => f k + g k) = sumn n f + sumn n g.
Proof. induction n; cbn; [ring|]. rewrite IHn. ring. Qed.
Lemma sumn_scal n c f : sumn n (fun k => c * f k) = c * sumn n f.
Proof. induction n; cbn; [ring|]. rewrite IHn. ring. Qed.
Lemma sumn_nonneg n f : (forall k, (k < n)%nat -> 0 <= f k) -> 0 <= sumn n f.
Proof. induction n; cbn; intros H; [lra|]. specialize (IHn ltac:(auto with arith)). pose proof (H n ltac:(lia)). lra. Qed.
Lemma sumn_zero n f : (forall k, (k < n)%nat -> 0 <= f k) -> sumn n f = 0 -> forall k, (k < n)%nat -> f k = 0.
Proof.
  induction n; cbn; intros H E k Hk; [lia|].
  pose proof (sumn_nonneg n f ltac:(auto with arith)). pose proof (H n ltac:(lia)).
  destruct (Nat.eq_dec k n) as [->|]; [lra|]. apply IHn; auto with arith; [lra|lia].
Qed.
Lemma sumn_one n f i : (i < n)%nat -> (forall k, (k < n)%nat -> k <> i -> f k = 0) -> sumn n f = f i.
Proof.
  induction n; cbn; intros Hi H; [lia|]. destruct (Nat.eq_dec i n) as [->|].
  - assert (sumn n f = 0).
    { rewrite (sumn_ext n f (fun _ => 0 * 0)); [rewrite sumn_scal; ring|]. intros k Hk. rewrite H by lia. ring. }
    lra.
  - rewrite IHn by (auto with arith; lia). rewrite (H n) by lia. ring.
Qed.
Definition delta (i k : nat) : R := if Nat.eqb i k then 1 else 0.
Lemma sumn_delta n i f : (i < n)%nat -> sumn n (fun k => delta i k * f k) = f i.
Proof.
  intros Hi. rewrite (sumn_one n _ i Hi).
  - unfold delta. rewrite Nat.eqb_refl. ring.
  - intros k _ N. unfold delta. destruct (Nat.eqb_spec i k); [congruence|ring].
Qed.
Lemma sumn_two n f i j : (i < n)%nat -> (j < n)%nat -> i <> j -> (forall k, (k < n)%nat -> k <> i -> k <> j -> f k = 0) -> sumn n f = f i + f j.
Proof.
  intros Hi Hj N H. rewrite (sumn_ext n f (fun k => delta i k * f k + delta j k * f k)).
  - rewrite sumn_plus, !sumn_delta; auto.
  - intros k Hk. unfold delta. destruct (Nat.eqb_spec i k), (Nat.eqb_spec j k); subst; try lia; try ring. rewrite H; auto; ring.
Qed.

(** ** geometry of a convex polygon *)
Section Convex.
Variables (s : R) (vs : list (R * R)).
Hypothesis Hs : s = 1 \/ s = -1.
Hypothesis Hc : convex_with s vs.
Let n := List.length vs.
Definition side (i : nat) (q : R * R) : R := s * cross (vertex vs i) (next vs i) q.

Lemma n3 : (3 <= n)%nat. Proof. apply Hc. Qed.
Definition nx (i : nat) : nat := ((i + 1) mod n)%nat.
Lemma nx_lt i : (nx i < n)%nat. Proof. pose proof n3. apply Nat.mod_upper_bound. lia. Qed.
Lemma nx_small i : (i + 1 < n)%nat -> nx i = (i + 1)%nat. Proof. intros. now apply Nat.mod_small. Qed.
Lemma nx_last : nx (n - 1) = 0%nat. Proof. pose proof n3. unfold nx. replace (n - 1 + 1)%nat with n by lia. apply Nat.mod_same. lia. Qed.
Lemma nx_neq i : (i < n)%nat -> nx i <> i.
Proof.
  intros H. pose proof n3. destruct (Nat.eq_dec i (n - 1)) as [->|N]; [rewrite nx_last; lia|]. rewrite nx_small by lia. lia.
Qed.
Lemma next_vertex i : next vs i = vertex vs (nx i). Proof. reflexivity. Qed.

Lemma side_vertex i k : (i < n)%nat -> (k < n)%nat -> 0 <= side i (vertex vs k) /\ (k <> i -> k <> nx i -> 0 < side i (vertex vs k)).
Proof.
  intros Hi Hk. destruct (Nat.eq_dec k i) as [->|Ni].
  { unfold side, cross. split; [right; ring|tauto]. }
  destruct (Nat.eq_dec k (nx i)) as [->|Nn].
  { rewrite <- next_vertex. unfold side, cross. split; [|tauto]. right. ring. }
  assert (0 < side i (vertex vs k)) by (apply Hc; auto). split; [lra|auto].
Qed.
(** side is affine *)
Lemma side_mean i q w : sumn n w = 1 -> fst q = sumn n (fun k => w k * fst (vertex vs k)) -> snd q = sumn n (fun k => w k * snd (vertex vs k)) ->
  side i q = sumn n (fun k => w k * side i (vertex vs k)).
Proof.
  intros W X Y. unfold side, cross. rewrite X, Y.
  set (p := vertex vs i). set (r := next vs i).
  symmetry. transitivity (sumn n (fun k => (s * (fst r - fst p)) * (w k * snd (vertex vs k)) + ((- (s * (snd r - snd p))) * (w k * fst (vertex vs k)) +
     (s * ((snd r - snd p) * fst p - (fst r - fst p) * snd p)) * w k))).
  { apply sumn_ext. intros k _. ring. }
  rewrite !sumn_plus, !sumn_scal, W. ring.
Qed.
Lemma region_side q : region vs q -> forall i, (i < n)%nat -> 0 <= side i q.
Proof.
  intros (w & Wn & W1 & X & Y) i Hi. rewrite (side_mean i q w W1 X Y). apply sumn_nonneg. intros k Hk.
  apply Rmult_le_pos; [now apply Wn|now apply side_vertex].
Qed.
Lemma region_zero_edge q i : (i < n)%nat -> region vs q -> side i q = 0 -> on_edge_i vs i q.
Proof.
  intros Hi (w & Wn & W1 & X & Y) Z. rewrite (side_mean i q w W1 X Y) in Z.
  assert (Zk : forall k, (k < n)%nat -> k <> i -> k <> nx i -> w k = 0).
  { intros k Hk N1 N2. assert (E : w k * side i (vertex vs k) = 0).
    { apply (sumn_zero n (fun k => w k * side i (vertex vs k))); auto. intros j Hj. apply Rmult_le_pos; [now apply Wn|now apply side_vertex]. }
    destruct (side_vertex i k Hi Hk) as [_ P]. specialize (P N1 N2). apply Rmult_integral in E as [E|E]; [exact E|lra]. }
  assert (T : forall f, sumn n (fun k => w k * f k) = w i * f i + w (nx i) * f (nx i)).
  { intros f. apply (sumn_two n (fun k => w k * f k)); auto; [apply nx_lt|intros E; now apply (nx_neq i Hi)|]. intros k Hk N1 N2. rewrite Zk by auto. ring. }
  change (sumn n w = 1) in W1.
  assert (W1' : w i + w (nx i) = 1).
  { rewrite <- W1. rewrite (sumn_ext n w (fun k => w k * 1)) by (intros; ring). rewrite (T (fun _ => 1)). ring. }
  change (fst q = sumn n (fun k => w k * fst (vertex vs k))) in X. change (snd q = sumn n (fun k => w k * snd (vertex vs k))) in Y.
  rewrite (T (fun k => fst (vertex vs k))) in X. rewrite (T (fun k => snd (vertex vs k))) in Y.
  exists (w (nx i)). pose proof (Wn i Hi). pose proof (Wn (nx i) (nx_lt i)). split; [lra|].
  rewrite next_vertex. replace (1 - w (nx i)) with (w i) by lra. destruct q as [x y]. cbn [fst snd] in X, Y. now rewrite X, Y.
Qed.
Lemma edge_side_zero q i : (i < n)%nat -> on_edge_i vs i q -> side i q = 0.
Proof. intros Hi (t & _ & ->). unfold side, cross. cbn [fst snd]. ring. Qed.
Lemma edge_region q i : (i < n)%nat -> on_edge_i vs i q -> region vs q.
Proof.
  intros Hi (t & Ht & ->). exists (fun k => (1 - t) * delta i k + t * delta (nx i) k). fold n.
  assert (E : forall f, sumn n (fun k => ((1 - t) * delta i k + t * delta (nx i) k) * f k) = (1 - t) * f i + t * f (nx i)).
  { intros f. rewrite (sumn_ext n _ (fun k => (1 - t) * (delta i k * f k) + t * (delta (nx i) k * f k))) by (intros; ring).
    rewrite sumn_plus, !sumn_scal, !sumn_delta; auto using nx_lt. }
  split; [|split; [|split]].
  - intros k _. unfold delta. destruct (Nat.eqb i k), (Nat.eqb (nx i) k); lra.
  - rewrite (sumn_ext n _ (fun k => ((1 - t) * delta i k + t * delta (nx i) k) * 1)) by (intros; ring). rewrite (E (fun _ => 1)). ring.
  - rewrite (E (fun k => fst (vertex vs k))). reflexivity.
  - rewrite (E (fun k => snd (vertex vs k))). reflexivity.
Qed.

(** fan triangulation *)
Lemma fan (g : nat -> R) m : (1 <= m)%nat -> 0 <= g 1%nat -> g m <= 0 -> (2 <= m)%nat ->
  exists i, (1 <= i)%nat /\ (i + 1 <= m)%nat /\ 0 <= g i /\ g (i + 1)%nat <= 0.
Proof.
  intros _ H1 Hm H2. induction m as [|m IH]; [lia|]. destruct (Nat.eq_dec m 1) as [->|N].
  - exists 1%nat. split; [lia|]. split; [lia|]. split; [exact H1|]. exact Hm.
  - destruct (Rle_or_lt (g m) 0) as [L|L].
    + destruct IH as (i & A & B & C & D); [exact L|lia|]. exists i. split; [exact A|]. split; [lia|]. auto.
    + exists m. split; [lia|]. split; [lia|]. split; [lra|]. now replace (m + 1)%nat with (S m) by lia.
Qed.
Lemma side_region q : (forall i, (i < n)%nat -> 0 <= side i q) -> region vs q.
Proof.
  intros H. pose proof n3 as N3.
  destruct (fan (fun i => s * cross (vertex vs 0) (vertex vs i) q) (n - 1)) as (i & I1 & I2 & G0 & G1); try lia.
  { specialize (H 0%nat ltac:(lia)). unfold side in H. rewrite next_vertex, nx_small in H by lia. exact H. }
  { specialize (H (n - 1)%nat ltac:(lia)). unfold side in H. rewrite next_vertex, nx_last in H. revert H. unfold cross. intros H. nra. }
  cbn beta in G0, G1. pose proof (H i ltac:(lia)) as Hi. unfold side in Hi. rewrite next_vertex, nx_small in Hi by lia.
  set (a := vertex vs 0) in *. set (b := vertex vs i) in *. set (c := vertex vs (i + 1)) in *.
  assert (D : 0 < s * cross b c a).
  { pose proof (proj2 (side_vertex i 0 ltac:(lia) ltac:(lia)) ltac:(lia)) as P. rewrite nx_small in P by lia.
    specialize (P ltac:(lia)). unfold side in P. rewrite next_vertex, nx_small in P by lia. exact P. }
  set (A := s * cross b c q) in *. set (B := - (s * cross a c q)). set (E := s * cross a b q) in *. set (DD := s * cross b c a) in *.
  assert (SumD : A + B + E = DD) by (unfold A, B, E, DD, cross; ring).
  assert (Px : A * fst a + B * fst b + E * fst c = DD * fst q) by (unfold A, B, E, DD, cross; ring).
  assert (Py : A * snd a + B * snd b + E * snd c = DD * snd q) by (unfold A, B, E, DD, cross; ring).
  assert (HB : 0 <= B) by (unfold B; lra).
  exists (fun k => A / DD * delta 0 k + (B / DD * delta i k + E / DD * delta (i + 1) k)). fold n.
  assert (SS : forall f, sumn n (fun k => (A / DD * delta 0 k + (B / DD * delta i k + E / DD * delta (i + 1) k)) * f k) = A / DD * f 0%nat + (B / DD * f i + E / DD * f (i + 1)%nat)).
  { intros f. rewrite (sumn_ext n _ (fun k => A / DD * (delta 0 k * f k) + (B / DD * (delta i k * f k) + E / DD * (delta (i + 1) k * f k)))) by (intros; ring).
    rewrite !sumn_plus, !sumn_scal, !sumn_delta by lia. reflexivity. }
  assert (PA : 0 <= A / DD) by (apply Rmult_le_pos; [exact Hi|left; now apply Rinv_0_lt_compat]).
  assert (PB : 0 <= B / DD) by (apply Rmult_le_pos; [exact HB|left; now apply Rinv_0_lt_compat]).
  assert (PE : 0 <= E / DD) by (apply Rmult_le_pos; [exact G0|left; now apply Rinv_0_lt_compat]).
  split; [|split; [|split]].
  - intros k _. unfold delta. destruct (Nat.eqb 0 k), (Nat.eqb i k), (Nat.eqb (i + 1) k); lra.
  - rewrite (sumn_ext n _ (fun k => (A / DD * delta 0 k + (B / DD * delta i k + E / DD * delta (i + 1) k)) * 1)) by (intros; ring).
    rewrite (SS (fun _ => 1)). rewrite !Rmult_1_r. replace 1 with (DD / DD) by (field; lra). rewrite <- SumD at 4. field. lra.
  - rewrite (SS (fun k => fst (vertex vs k))). fold a b c. apply Rmult_eq_reg_l with DD; [|lra]. rewrite <- Px. field. lra.
  - rewrite (SS (fun k => snd (vertex vs k))). fold a b c. apply Rmult_eq_reg_l with DD; [|lra]. rewrite <- Py. field. lra.
Qed.
Lemma interior_iff q : (region vs q /\ ~ on_edge vs q) <-> (forall i, (i < n)%nat -> 0 < side i q).
Proof.
  split.
  - intros [Rq Ne] i Hi. destruct (region_side q Rq i Hi) as [L|L]; [exact L|]. exfalso. apply Ne. exists i. split; [exact Hi|]. apply region_zero_edge; auto.
  - intros H. split.
    + apply side_region. intros i Hi. left. now apply H.
    + intros (i & Hi & O). apply edge_side_zero in O; auto. specialize (H i Hi). lra.
Qed.

Lemma cross_side i q : cross (vertex vs i) (next vs i) q = s * side i q.
Proof. unfold side. destruct Hs as [-> | ->]; ring. Qed.
Lemma edge_distinct i : (i < n)%nat -> vertex vs i <> next vs i.
Proof.
  intros Hi E. pose proof n3. assert (K : exists k, (k < n)%nat /\ k <> i /\ k <> nx i).
  { destruct (Nat.eq_dec 0 i), (Nat.eq_dec 0 (nx i)), (Nat.eq_dec 1 i), (Nat.eq_dec 1 (nx i));
    first [exists 0%nat; lia|exists 1%nat; lia|exists 2%nat; lia]. }
  destruct K as (k & Hk & N1 & N2). pose proof (proj2 (side_vertex i k Hi Hk) N1 N2) as P. unfold side in P. rewrite <- E in P. unfold cross in P. lra.
Qed.
End Convex.

(** ** a line's verdict and the sign of the area *)
Definition verdict (p q : R * R) (tol : R) (r : R * R) : location :=
  if Req_EM_T (fst q) (fst p) then cmp3 ON LEFT RIGHT (fst r) (fst p) tol
  else cmp3 ON BELOW ABOVE (snd r) ((snd q - snd p) / (fst q - fst p) * (fst r - fst p) + snd p) tol.
Lemma loc_eqb_iff a b : loc_eqb a b = true <-> a = b.
Proof. destruct a, b; cbn; split; congruence. Qed.
Lemma sign_mul_pos k a b : k <> 0 -> (0 < (k * a) * (k * b) <-> 0 < a * b).
Proof. intros H. replace (k * a * (k * b)) with ((k * k) * (a * b)) by ring. assert (0 < k * k) by nra. split; nra. Qed.
Lemma verdict_cross p q tol r s : 0 <= tol -> p <> q -> verdict p q tol r <> ON -> verdict p q tol s <> ON ->
  cross p q r <> 0 /\ (verdict p q tol r = verdict p q tol s <-> 0 < cross p q r * cross p q s).
Proof.
  intros Ht N Hr Hss. unfold verdict in *.
  assert (K : forall (o l h : location) v c w d, o <> l -> o <> h -> l <> h -> cmp3 o l h v c tol <> o -> cmp3 o l h w d tol <> o ->
     v - c <> 0 /\ (cmp3 o l h v c tol = cmp3 o l h w d tol <-> 0 < (v - c) * (w - d))).
  { clear -Ht. intros o l h v c w d N1 N2 N3 A B.
    destruct (cmp3_cases o l h v c tol Ht) as [[H X]|[[H X]|[H X]]]; [congruence| |]; rewrite X;
    (destruct (cmp3_cases o l h w d tol Ht) as [[H' X']|[[H' X']|[H' X']]]; [congruence| |]); rewrite X'; (split; [lra|]); split; intros Y; try congruence; nra. }
  destruct (Req_EM_T (fst q) (fst p)) as [X|X].
  - assert (Y : snd q - snd p <> 0) by (intros E; apply N; destruct p, q; cbn in *; f_equal; lra).
    destruct (K ON LEFT RIGHT (fst r) (fst p) (fst s) (fst p)) as [K1 K2]; try discriminate; auto.
    unfold cross. rewrite X. replace (fst p - fst p) with 0 by ring. split.
    + intros E. assert (E' : (snd q - snd p) * (fst r - fst p) = 0) by lra. apply Rmult_integral in E' as [E'|E']; lra.
    + rewrite K2. replace (0 * (snd r - snd p) - (snd q - snd p) * (fst r - fst p)) with (- (snd q - snd p) * (fst r - fst p)) by ring.
      replace (0 * (snd s - snd p) - (snd q - snd p) * (fst s - fst p)) with (- (snd q - snd p) * (fst s - fst p)) by ring.
      symmetry. apply sign_mul_pos. lra.
  - set (k := (snd q - snd p) / (fst q - fst p)) in *.
    destruct (K ON BELOW ABOVE (snd r) (k * (fst r - fst p) + snd p) (snd s) (k * (fst s - fst p) + snd p)) as [K1 K2]; try discriminate; auto.
    assert (C : forall u, cross p q u = (fst q - fst p) * (snd u - (k * (fst u - fst p) + snd p))).
    { intros u. unfold cross, k. field. lra. }
    rewrite !C, K2. split.
    + intros E. apply Rmult_integral in E as [E|E]; lra.
    + symmetry. apply sign_mul_pos. lra.
Qed.
Lemma verdict_zero p q r : p <> q -> (verdict p q 0 r = ON <-> cross p q r = 0).
Proof.
  intros N. unfold verdict.
  assert (Z : forall x, Rabs x <= 0 <-> x = 0).
  { intros x. split; [|intros ->; rewrite Rabs_R0; lra]. unfold Rabs. destruct (Rcase_abs x); lra. }
  destruct (Req_EM_T (fst q) (fst p)) as [X|X].
  - destruct (cmp3_iff ON LEFT RIGHT (fst r) (fst p) 0 ltac:(lra)) as (-> & _); try discriminate. rewrite Z.
    assert (Y : snd q - snd p <> 0) by (intros E; apply N; destruct p, q; cbn in *; f_equal; lra).
    unfold cross. rewrite X. replace (fst p - fst p) with 0 by ring. split; [intros ->; ring|].
    intros E. assert (E' : (snd q - snd p) * (fst r - fst p) = 0) by lra. apply Rmult_integral in E' as [E'|E']; lra.
  - destruct (cmp3_iff ON BELOW ABOVE (snd r) ((snd q - snd p) / (fst q - fst p) * (fst r - fst p) + snd p) 0 ltac:(lra)) as (-> & _); try discriminate.
    rewrite Z. set (k := (snd q - snd p) / (fst q - fst p)) in *.
    assert (C : cross p q r = (fst q - fst p) * (snd r - (k * (fst r - fst p) + snd p))) by (unfold cross, k; field; lra).
    rewrite C. split; [intros ->; ring|]. intros E. apply Rmult_integral in E as [E|E]; lra.
Qed.

(** one step of the loop *)
Lemma edge_loop_cons vs q ref tol i rest : 0 <= tol -> clean tol (vertex vs i) (next vs i) ->
  edge_loop vs q ref tol (i :: rest) =
  (let a := verdict (vertex vs i) (next vs i) tol q in
   let b := verdict (vertex vs i) (next vs i) tol ref in
   if loc_eqb a ON then
     if Rleb (Rmin (fst (vertex vs i)) (fst (next vs i))) (fst q) && Rleb (fst q) (Rmax (fst (vertex vs i)) (fst (next vs i))) then Ok BOUNDARY else Ok OUTSIDE
   else if negb (loc_eqb a b) then Ok OUTSIDE else edge_loop vs q ref tol rest).
Proof.
  intros Ht C. cbn [edge_loop]. fold (vertex vs i) (next vs i).
  destruct (location_clean tol tol _ _ Ht C) as (l & E & L). unfold pt in *. rewrite E. cbn [bind]. rewrite (L q), (L ref). reflexivity.
Qed.
