(** C31-C34: the constructor and reciprocal vectors, site indices, decompose. *)
From Coq Require Import List Reals ZArith Bool Arith Lra Lia Permutation.
From Verif Require Import Py CVec LinSolve Line2D_Model Line2D_Proofs Lattice_Model Lattice_Spec Lattice_Proofs Lattice_Proofs2 Lattice_Proofs3.
Import ListNotations.
Open Scope R_scope.

(** No two rows are nearer than eps. *)
Definition apart (eps : R) (ps : list point) : Prop :=
  forall i j, (i < j < List.length ps)%nat -> eps <= dist (nth i ps v0) (nth j ps v0).
Lemma pdist_apart eps ps : existsb (fun d => Rltb d eps) (pdist ps) = false <-> apart eps ps.
Proof.
  induction ps as [|p ps IH]; [split; [intros _ i j Hij; cbn in Hij; lia|reflexivity]|]. cbn [pdist]. rewrite existsb_app, orb_false_iff, IH.
  assert (H : existsb (fun d => Rltb d eps) (map (dist p) ps) = false <-> forall q, In q ps -> eps <= dist p q).
  { split.
    - intros E q Hq. destruct (Rltb (dist p q) eps) eqn:Eq; [|now apply Rltb_false].
      assert (existsb (fun d => Rltb d eps) (map (dist p) ps) = true); [|congruence]. apply existsb_exists. exists (dist p q). split; [now apply in_map|exact Eq].
    - intros A. destruct (existsb (fun d => Rltb d eps) (map (dist p) ps)) eqn:E; [|reflexivity]. apply existsb_exists in E as (d & Hd & E). apply in_map_iff in Hd as (q & <- & Hq).
      apply Rltb_iff in E. specialize (A q Hq). lra. }
  rewrite H. split.
  - intros [A B] i j Hij. cbn [List.length] in Hij. destruct i as [|i], j as [|j]; try lia; cbn [nth].
    + apply A, nth_In. lia.
    + apply B. lia.
  - intros A. split.
    + intros q Hq. apply (In_nth _ _ v0) in Hq as (j & Hj & <-). apply (A O (S j)). cbn. lia.
    + intros i j Hij. apply (A (S i) (S j)). cbn. lia.
Qed.

(** The constructor: which exception, or which attributes. *)
Theorem C31_constructor : forall prec pts vecs,
  (make_lattice prec pts vecs = Err AssertionError <-> pts = NotArr2 \/ vecs = NotArr2) /\
  (forall dim ps tmp vs, pts = Arr dim ps -> vecs = Arr tmp vs ->
    let valid := (dim <= 3)%nat /\ (List.length vs <= dim)%nat /\ tmp = dim /\ apart (view prec) vs /\ apart (view prec) ps in
    (~ valid <-> make_lattice prec pts vecs = Err ValueError) /\
    (valid -> dependent vs -> make_lattice prec pts vecs = Err LinAlgError) /\
    (valid -> ~ dependent vs -> exists L d, make_lattice prec pts vecs = Ok (L, d) /\ space_dim L = dim /\ points L = ps /\ vectors L = vs)).
Proof.
  intros prec pts vecs. split.
  { destruct pts as [dim ps|], vecs as [tmp vs|]; cbn [make_lattice]; [|split; [intros _; now (left + right)|reflexivity]..]. split; [|intros [H|H]; discriminate H]. intros H. exfalso.
    destruct (Nat.ltb 3 dim); [discriminate|]. destruct (Nat.ltb dim (List.length vs)); [discriminate|]. destruct (negb (Nat.eqb tmp dim)); [discriminate|].
    destruct (existsb _ (pdist vs)); [discriminate|]. destruct (existsb _ (pdist ps)); [discriminate|].
    destruct (solve_columns vs) as [b|e] eqn:E; [discriminate|]. apply solve_columns_err in E as [-> _]. discriminate. }
  intros dim ps tmp vs -> -> valid.
  assert (K : valid \/ (~ valid /\ make_lattice prec (Arr dim ps) (Arr tmp vs) = Err ValueError)).
  { unfold valid. cbn [make_lattice]. destruct (Nat.ltb_spec 3 dim); [right; split; [lia|reflexivity]|].
    destruct (Nat.ltb_spec dim (List.length vs)); [right; split; [lia|reflexivity]|]. destruct (Nat.eqb_spec tmp dim) as [->|]; [|right; split; [lia|reflexivity]]. cbn [negb].
    destruct (existsb (fun d => Rltb d (view prec)) (pdist vs)) eqn:E1; [right; split; [|reflexivity]; intros (_ & _ & _ & A & _); apply pdist_apart in A; congruence|].
    destruct (existsb (fun d => Rltb d (view prec)) (pdist ps)) eqn:E2; [right; split; [|reflexivity]; intros (_ & _ & _ & _ & A); apply pdist_apart in A; congruence|].
    left. repeat (split; [lia|]). split; now apply pdist_apart. }
  assert (Kv : valid -> make_lattice prec (Arr dim ps) (Arr tmp vs) = bind (solve_columns vs) (fun b => Ok (MkLattice dim ps vs b, all_distances prec ps))).
  { intros (A & B & -> & C & D). cbn [make_lattice]. destruct (Nat.ltb_spec 3 dim); [lia|]. destruct (Nat.ltb_spec dim (List.length vs)); [lia|]. rewrite Nat.eqb_refl. cbn [negb].
    apply pdist_apart in C, D. now rewrite C, D. }
  split; [|split].
  - split; [tauto|]. intros E V. rewrite (Kv V) in E. destruct (solve_columns vs) as [b|e] eqn:Es; [discriminate|]. apply solve_columns_err in Es as [-> _]. discriminate.
  - intros V D. rewrite (Kv V). destruct (solve_columns vs) as [b|e] eqn:Es; [|apply solve_columns_err in Es as [-> _]; reflexivity].
    apply solve_columns_ok in Es as (R & _). apply rnonsingular_independent in R. contradiction.
  - intros V D. rewrite (Kv V). destruct (solve_columns_total vs D) as [b ->]. eexists. eexists. split; [reflexivity|]. auto.
Qed.
Print Assumptions C31_constructor.

(** The reciprocal vectors: bs_i . a_j = 2 pi delta_ij, they lie in the span of
    the translation vectors, and they are the only vectors with both properties. *)
Theorem C31_dual : forall prec pts vecs L d, make_lattice prec pts vecs = Ok (L, d) ->
  List.length (bs L) = List.length (vectors L) /\
  (forall i j, (i < List.length (vectors L))%nat -> (j < List.length (vectors L))%nat ->
     vdot (nth i (bs L) v0) (nth j (vectors L) v0) = if Nat.eqb i j then 2 * PI else 0) /\
  (forall i, (i < List.length (vectors L))%nat -> exists xs, List.length xs = List.length (vectors L) /\ nth i (bs L) v0 = combination xs (vectors L)) /\
  (forall i xs, (i < List.length (vectors L))%nat -> List.length xs = List.length (vectors L) ->
     (forall j, (j < List.length (vectors L))%nat -> vdot (combination xs (vectors L)) (nth j (vectors L) v0) = if Nat.eqb i j then 2 * PI else 0) ->
     combination xs (vectors L) = nth i (bs L) v0).
Proof.
  intros prec [dim ps|] [tmp vs|] L d H; cbn [make_lattice] in H; try discriminate.
  destruct (Nat.ltb 3 dim); [discriminate|]. destruct (Nat.ltb dim (List.length vs)); [discriminate|]. destruct (negb (Nat.eqb tmp dim)); [discriminate|].
  destruct (existsb _ (pdist vs)); [discriminate|]. destruct (existsb _ (pdist ps)); [discriminate|].
  destruct (solve_columns vs) as [b|e] eqn:E; [|discriminate]. injection H as <- <-. cbn [bs vectors].
  pose proof (solve_columns_ok _ _ E) as (_ & Lb & D & Sp). split; [exact Lb|]. split; [exact D|].
  assert (Sp' : forall i, (i < List.length vs)%nat -> exists xs, List.length xs = List.length vs /\ nth i b v0 = combination xs vs).
  { intros i Hi. destruct (Sp i Hi) as (c & Ec). exists (map c (seq 0 (List.length vs))). split; [now rewrite map_length, seq_length|exact Ec]. }
  split; [exact Sp'|]. intros i xs Hi Lx Hx. destruct (Sp' i Hi) as (ys & Ly & Ey).
  assert (Z : vdot (vsub (combination xs vs) (nth i b v0)) (vsub (combination xs vs) (nth i b v0)) = 0).
  { set (w := vsub (combination xs vs) (nth i b v0)). assert (W : forall j, (j < List.length vs)%nat -> vdot (nth j vs v0) w = 0).
    { intros j Hj. rewrite vdot_comm. unfold w. rewrite vdot_sub_l, Hx, D by auto. ring. }
    unfold w at 1. rewrite vdot_sub_l, Ey, !dot_combination by auto. rewrite !rsum_zero; [ring| |]; intros j Hj; rewrite (W j Hj); ring. }
  apply vdot_zero in Z. transitivity (vadd (nth i b v0) (vsub (combination xs vs) (nth i b v0))); [now rewrite vsub_add|]. rewrite Z. apply vadd_0_r.
Qed.
Print Assumptions C31_dual.

(** An instance the constructor can return, with at least one point and one
    translation vector. *)
Definition lattice_of (prec : nat) (L : lattice) : Prop :=
  (exists d, make_lattice prec (Arr (space_dim L) (points L)) (Arr (space_dim L) (vectors L)) = Ok (L, d)) /\
  points L <> [] /\ vectors L <> [].
Lemma lattice_of_facts prec L : lattice_of prec L ->
  apart (view prec) (points L) /\ solve_columns (vectors L) = Ok (bs L) /\ (1 <= List.length (vectors L))%nat /\ points L <> [].
Proof.
  intros ((d & H) & Hp & Hv). cbn [make_lattice] in H.
  destruct (Nat.ltb 3 _); [discriminate|]. destruct (Nat.ltb _ (List.length _)); [discriminate|]. destruct (negb _); [discriminate|].
  destruct (existsb _ (pdist (vectors L))); [discriminate|]. destruct (existsb _ (pdist (points L))) eqn:E; [discriminate|].
  destruct (solve_columns (vectors L)) as [b|e]; [|discriminate]. injection H as H _. apply pdist_apart in E.
  split; [exact E|]. split; [now rewrite <- H|]. split; [destruct (vectors L); [contradiction|cbn; lia]|exact Hp].
Qed.
Lemma lattice_of_make prec dim ps vs L d : make_lattice prec (Arr dim ps) (Arr dim vs) = Ok (L, d) -> ps <> [] -> vs <> [] -> lattice_of prec L.
Proof.
  intros H Hp Hv. assert (E : space_dim L = dim /\ points L = ps /\ vectors L = vs).
  { cbn [make_lattice] in H. destruct (Nat.ltb 3 _); [discriminate|]. destruct (Nat.ltb _ (List.length _)); [discriminate|]. destruct (negb _); [discriminate|].
    destruct (existsb _ (pdist vs)); [discriminate|]. destruct (existsb _ (pdist ps)); [discriminate|]. destruct (solve_columns vs); [|discriminate]. injection H as <- _. auto. }
  destruct E as (E1 & E2 & E3). split; [exists d; now rewrite E1, E2, E3|]. now rewrite E2, E3.
Qed.
Lemma apart_neq eps ps i j : 0 < eps -> apart eps ps -> (i < List.length ps)%nat -> (j < List.length ps)%nat -> i <> j -> eps <= dist (nth i ps v0) (nth j ps v0).
Proof. intros He A Hi Hj N. destruct (Nat.lt_gt_cases i j) as [K _]. destruct (K N) as [H|H]; [apply A; lia|]. rewrite dist_sym. apply A. lia. Qed.
Lemma nearest_self nearest prec L i : finds_nearest nearest -> lattice_of prec L -> (i < List.length (points L))%nat ->
  nearest (points L) (nth i (points L) v0) = i.
Proof.
  intros Hn HL Hi. apply lattice_of_facts in HL as (Ha & _ & _ & Hp). destruct (Hn (points L) (nth i (points L) v0) Hp) as [Lt Min].
  destruct (Nat.eq_dec (nearest (points L) (nth i (points L) v0)) i) as [E|N]; [exact E|]. exfalso.
  specialize (Min (nth i (points L) v0) (nth_In _ _ Hi)). rewrite dist_refl in Min.
  pose proof (apart_neq (view prec) (points L) _ i (view_pos prec) Ha Lt Hi N). pose proof (view_pos prec). lra.
Qed.

(** getSite and getIndex are inverse on the cluster, whichever nearest point the
    KD-tree prefers, and whatever precision is set when they are called. *)
Theorem C32_inverse : forall nearest prec prec' fuel L, finds_nearest nearest -> lattice_of prec L ->
  (forall i, (0 <= i < Z.of_nat (List.length (points L)))%Z ->
     exists p, getSite L (AnInt i) = Ok p /\ In p (points L) /\ getIndex L nearest fuel prec' (Site (space_dim L) p) false = Some (Ok i)) /\
  (forall p, In p (points L) ->
     exists i, getIndex L nearest fuel prec' (Site (space_dim L) p) false = Some (Ok i) /\ getSite L (AnInt i) = Ok p).
Proof.
  intros nearest prec prec' fuel L Hn HL. pose proof (lattice_of_facts _ _ HL) as (_ & _ & _ & Hp).
  assert (K : forall i, (i < List.length (points L))%nat -> getIndex L nearest fuel prec' (Site (space_dim L) (nth i (points L) v0)) false = Some (Ok (Z.of_nat i)) /\ getSite L (AnInt (Z.of_nat i)) = Ok (nth i (points L) v0)).
  { intros i Hi. split.
    - unfold getIndex. rewrite Nat.eqb_refl. cbn [negb]. rewrite (nearest_self nearest prec L i Hn HL Hi), dist_refl.
      rewrite (proj2 (Rltb_iff 0 (view prec'))) by apply view_pos. destruct (points L); [contradiction|reflexivity].
    - unfold getSite. destruct (Z.leb_spec 0 (Z.of_nat i)); [|lia]. destruct (Z.ltb_spec (Z.of_nat i) (Z.of_nat (List.length (points L)))); [|lia]. cbn. now rewrite Nat2Z.id. }
  split.
  - intros i Hi. destruct (K (Z.to_nat i) ltac:(lia)) as [A B]. rewrite Z2Nat.id in * by lia. eexists. split; [exact B|]. split; [apply nth_In; lia|exact A].
  - intros p Hin. apply (In_nth _ _ v0) in Hin as (i & Hi & <-). destruct (K i Hi) as [A B]. eauto.
Qed.
Print Assumptions C32_inverse.

(** Invalid arguments, and the meaning of an answer without fold. *)
Theorem C32_answers : forall nearest prec fuel L len s, finds_nearest nearest -> points L <> [] ->
  (forall i, getSite L i = Err AssertionError <-> (forall n, i = AnInt n -> ~ (0 <= n < Z.of_nat (List.length (points L)))%Z)) /\
  getIndex L nearest fuel prec NotSite false = Some (Err AssertionError) /\
  (len <> space_dim L -> getIndex L nearest fuel prec (Site len s) false = Some (Err AssertionError)) /\
  (len = space_dim L -> (forall p, In p (points L) -> view prec <= dist p s) -> getIndex L nearest fuel prec (Site len s) false = Some (Err KeyError)) /\
  (len = space_dim L -> (exists p, In p (points L) /\ dist p s < view prec) ->
     exists i, getIndex L nearest fuel prec (Site len s) false = Some (Ok (Z.of_nat i)) /\ (i < List.length (points L))%nat /\
       forall q, In q (points L) -> dist (nth i (points L) v0) s <= dist q s) /\
  (len = space_dim L -> in_cluster L nearest prec (Site len s) = Ok true <-> len = space_dim L /\ exists p, In p (points L) /\ dist p s < view prec) /\
  (len = space_dim L -> exists b, in_cluster L nearest prec (Site len s) = Ok b).
Proof.
  intros nearest prec fuel L len s Hn Hp.
  assert (G : forall fuel, len = space_dim L -> getIndex L nearest fuel prec (Site len s) false =
     if Rltb (dist (nth (nearest (points L) s) (points L) v0) s) (view prec) then Some (Ok (Z.of_nat (nearest (points L) s))) else Some (Err KeyError)).
  { intros f ->. unfold getIndex. rewrite Nat.eqb_refl. cbn [negb]. destruct (points L); [contradiction|reflexivity]. }
  destruct (Hn (points L) s Hp) as [Lt Min].
  assert (Iff : (exists p, In p (points L) /\ dist p s < view prec) <-> dist (nth (nearest (points L) s) (points L) v0) s < view prec).
  { split; [intros (p & Hin & H); specialize (Min p Hin); lra|]. intros H. eexists. split; [apply nth_In, Lt|exact H]. }
  split; [|split; [|split; [|split; [|split; [|split]]]]].
  - intros [n|]; cbn [getSite].
    + destruct (Z.leb_spec 0 n), (Z.ltb_spec n (Z.of_nat (List.length (points L)))); cbn [andb]; split; try discriminate; try reflexivity; try (intros _ m [= <-]; lia).
      intros K. exfalso. apply (K n eq_refl). lia.
    + split; [intros _ n [=]|reflexivity].
  - reflexivity.
  - intros N. cbn [getIndex]. destruct (Nat.eqb_spec len (space_dim L)); [contradiction|reflexivity].
  - intros E H. rewrite (G fuel E). specialize (H _ (nth_In _ v0 Lt)). apply Rltb_false in H. now rewrite H.
  - intros E H. apply Iff in H. rewrite (G fuel E). exists (nearest (points L) s). rewrite (proj2 (Rltb_iff _ _) H). auto.
  - intros E. unfold in_cluster. rewrite (G O E). destruct (Rltb _ (view prec)) eqn:R.
    + apply Rltb_iff in R. split; [intros _; split; [exact E|now apply Iff]|reflexivity].
    + apply Rltb_false in R. split; [discriminate|]. intros [_ H]. apply Iff in H. lra.
  - intros E. unfold in_cluster. rewrite (G O E). destruct (Rltb _ (view prec)); eauto.
Qed.
Print Assumptions C32_answers.

(** decompose is sound: whatever it returns, for whatever site and fuel. *)
Theorem C33_sound : forall L fuel prec len s p dR, decompose L fuel prec (Site len s) = Some (Ok (p, dR)) ->
  len = space_dim L /\ In p (points L) /\ vadd p dR = s /\
  exists ns, List.length ns = List.length (vectors L) /\ dist (shift ns (vectors L)) dR < view prec.
Proof.
  intros L fuel prec len s p dR H. cbn [decompose] in H. destruct (Nat.eqb_spec len (space_dim L)) as [->|]; [|discriminate]. cbn [negb] in H.
  assert (K : forall rs, searching L prec (database L rs) (map (vsub s) (points L)) = Some (p, dR) ->
     In p (points L) /\ vadd p dR = s /\ exists ns, List.length ns = List.length (vectors L) /\ dist (shift ns (vectors L)) dR < view prec).
  { intros rs Hs. apply searching_some in Hs as (i & Hi & Ni & _ & E). injection E as -> ->. apply near_iff in Ni as (ns & Ln & _ & D).
    split; [now apply nth_In|]. split; [unfold disp; apply vsub_add|]. eauto. }
  split; [reflexivity|].
  destruct (searching L prec (database L [-1; 0; 1]%Z) (map (vsub s) (points L))) as [r|] eqn:E1.
  - injection H as ->. eapply K, E1.
  - destruct (max_list _) as [ref|]; [|discriminate]. destruct (guess_scope L fuel ref) as [[scope|]|]; try discriminate.
    destruct (searching L prec (database L (zrange (- scope) (scope + 1))) (map (vsub s) (points L))) as [r|] eqn:E2; [|discriminate]. injection H as ->. eapply K, E2.
Qed.
Print Assumptions C33_sound.

(** decompose always ends, with an answer or RuntimeError (AssertionError for an
    array of the wrong shape). *)
Theorem C33_total : forall prec prec' L s, lattice_of prec L -> exists F, forall fuel, (F <= fuel)%nat ->
  (s = NotSite \/ (exists len c, s = Site len c /\ len <> space_dim L)) /\ decompose L fuel prec' s = Some (Err AssertionError) \/
  (exists c, s = Site (space_dim L) c) /\ (decompose L fuel prec' s = Some (Err RuntimeError) \/ exists r, decompose L fuel prec' s = Some (Ok r)).
Proof.
  intros prec prec' L s HL. apply lattice_of_facts in HL as (_ & Hb & Hk & Hp).
  destruct s as [len c|]; [|exists O; intros fuel _; left; split; [now left|reflexivity]].
  destruct (Nat.eq_dec len (space_dim L)) as [->|N].
  2:{ exists O. intros fuel _. left. split; [right; eauto|]. cbn. destruct (Nat.eqb_spec len (space_dim L)); [contradiction|reflexivity]. }
  cbn [decompose]. rewrite Nat.eqb_refl. cbn [negb].
  destruct (searching L prec' (database L [-1; 0; 1]%Z) (map (vsub c) (points L))) as [r|]; [exists O; intros; right; split; eauto|].
  destruct (max_list (map norm (map (vsub c) (points L)))) as [ref|e] eqn:Em.
  2:{ exfalso. destruct (points L); [contradiction|discriminate]. }
  destruct (guess_terminates L (bs L) ref Hb Hk Hp) as (F & HF). exists F. intros fuel Hf. right. split; [eauto|].
  destruct (HF fuel Hf) as (r & ->). destruct (searching L prec' (database L (zrange (- r) (r + 1))) (map (vsub c) (points L))) as [q|]; eauto.
Qed.
Print Assumptions C33_total.

(** The separated cluster makes the matching point unique. *)
Lemma separated_unique prec L i j ns rs : separated (view prec) L -> (i < List.length (points L))%nat -> (j < List.length (points L))%nat -> j <> i ->
  List.length ns = List.length (vectors L) -> near prec (database L rs) (disp L (vadd (nth i (points L) v0) (shift ns (vectors L))) j) = false.
Proof.
  intros Hs Hi Hj N Ln. destruct (near _ _ _) eqn:E; [|reflexivity]. exfalso. apply near_iff in E as (ms & Lm & _ & D). unfold disp in D.
  set (m := map (fun p => (fst p - snd p)%Z) (combine ms ns)).
  specialize (Hs i j m Hi Hj (fun E => N (eq_sym E)) ltac:(unfold m; rewrite map_length, combine_length; lia)).
  replace (dist (nth i (points L) v0) (vadd (nth j (points L) v0) (shift m (vectors L)))) with (dist (shift ms (vectors L)) (vsub (vadd (nth i (points L) v0) (shift ns (vectors L))) (nth j (points L) v0))) in Hs; [lra|].
  unfold m. rewrite <- shift_sub by lia. generalize (nth i (points L) v0), (nth j (points L) v0), (shift ms (vectors L)), (shift ns (vectors L)).
  intros p q a b. rewrite dist_sym. unfold dist. f_equal. vring.
Qed.
Lemma near_self prec L i ns rs : (i < List.length (points L))%nat -> List.length ns = List.length (vectors L) -> Forall (fun n => In n rs) ns ->
  near prec (database L rs) (disp L (vadd (nth i (points L) v0) (shift ns (vectors L))) i) = true.
Proof.
  intros Hi Ln F. apply near_iff. exists ns. split; [exact Ln|]. split; [exact F|]. unfold disp. rewrite vadd_sub, dist_refl. apply view_pos.
Qed.

(** Translations by at most one vector in each direction are always found. *)
Theorem C34_small : forall prec L i ns fuel, separated (view prec) L -> (i < List.length (points L))%nat ->
  List.length ns = List.length (vectors L) -> (reach ns <= 1)%Z ->
  decompose L fuel prec (Site (space_dim L) (vadd (nth i (points L) v0) (shift ns (vectors L)))) =
    Some (Ok (nth i (points L) v0, shift ns (vectors L))).
Proof.
  intros prec L i ns fuel Hs Hi Ln R. cbn [decompose]. rewrite Nat.eqb_refl. cbn [negb].
  rewrite (searching_intro prec L _ _ i Hi); [unfold disp; now rewrite vadd_sub| |].
  - apply near_self; auto. apply reach_le in R; [|lia]. eapply Forall_impl; [|exact R]. cbn. intros n Hn. lia.
  - intros j Hj N. now apply separated_unique.
Qed.
Print Assumptions C34_small.

Lemma nth_disp_norm L s i ref : (i < List.length (points L))%nat -> max_list (map norm (map (vsub s) (points L))) = Ok ref -> dist s (nth i (points L) v0) <= ref.
Proof.
  intros Hi Hm. apply (max_list_spec _ _ Hm). unfold dist. apply in_map. apply (in_map (vsub s)). now apply nth_In.
Qed.
(** In general: all translations are found if far ones can be brought nearer
    layer by layer ... *)
Lemma decompose_complete prec0 prec L i ns : lattice_of prec0 L -> separated (view prec) L -> (i < List.length (points L))%nat ->
  List.length ns = List.length (vectors L) -> shrinks (vectors L) (nth i (points L) v0) (nth i (points L) v0) ->
  exists F, forall fuel, (F <= fuel)%nat ->
    decompose L fuel prec (Site (space_dim L) (vadd (nth i (points L) v0) (shift ns (vectors L)))) =
    Some (Ok (nth i (points L) v0, shift ns (vectors L))).
Proof.
  intros HL Hs Hi Ln Sh. pose proof (lattice_of_facts _ _ HL) as (_ & Hb & Hk & Hp).
  set (s := vadd (nth i (points L) v0) (shift ns (vectors L))). cbn [decompose]. rewrite Nat.eqb_refl. cbn [negb].
  assert (U : forall rs r, searching L prec (database L rs) (map (vsub s) (points L)) = Some r -> r = (nth i (points L) v0, shift ns (vectors L))).
  { intros rs r H. apply searching_some in H as (j & Hj & Nj & _ & ->). destruct (Nat.eq_dec j i) as [->|N].
    - unfold disp, s. now rewrite vadd_sub.
    - exfalso. unfold s in Nj. rewrite separated_unique in Nj by auto. discriminate. }
  destruct (searching L prec (database L [-1; 0; 1]%Z) (map (vsub s) (points L))) as [r|] eqn:E1.
  { exists O. intros fuel _. now rewrite (U _ _ E1). }
  destruct (max_list (map norm (map (vsub s) (points L)))) as [ref|e] eqn:Em.
  2:{ exfalso. destruct (points L); [contradiction|discriminate]. }
  destruct (guess_terminates L (bs L) ref Hb Hk Hp) as (F & HF). exists F. intros fuel Hf. destruct (HF fuel Hf) as (r & Hr). rewrite Hr.
  assert (Cov : (reach ns <= r)%Z /\ (0 <= r)%Z).
  { apply (scope_covers L fuel ref r (nth i (points L) v0) (nth i (points L) v0) ns); auto; try (now apply nth_In).
    rewrite (vadd_comm (shift ns (vectors L))). now apply nth_disp_norm. }
  destruct Cov as [C1 C0]. rewrite (searching_intro prec L _ s i Hi); [unfold disp, s; now rewrite vadd_sub| |].
  - apply near_self; auto. apply reach_le in C1; [|lia]. eapply Forall_impl; [|exact C1]. cbn. intros n Hn. apply in_zrange. lia.
  - intros j Hj N. now apply separated_unique.
Qed.
(** ... that is, if the translations of one layer are not nearer than the
    nearest of the layer before: decompose finds every site ... *)
Theorem C34_steady : forall prec0 prec L i ns, lattice_of prec0 L -> separated (view prec) L -> steady (vectors L) [v0] ->
  (i < List.length (points L))%nat -> List.length ns = List.length (vectors L) ->
  exists F, forall fuel, (F <= fuel)%nat ->
    decompose L fuel prec (Site (space_dim L) (vadd (nth i (points L) v0) (shift ns (vectors L)))) =
    Some (Ok (nth i (points L) v0, shift ns (vectors L))).
Proof. intros prec0 prec L i ns HL Hs Hr Hi Ln. apply (decompose_complete prec0); auto. now apply steady_shrinks. Qed.
Print Assumptions C34_steady.

(** ... which holds for reduced cells: decompose finds every site. *)
Theorem C34_reduced : forall prec0 prec L i ns, lattice_of prec0 L -> separated (view prec) L -> reduced (3 / 4) (vectors L) ->
  (i < List.length (points L))%nat -> List.length ns = List.length (vectors L) ->
  exists F, forall fuel, (F <= fuel)%nat ->
    decompose L fuel prec (Site (space_dim L) (vadd (nth i (points L) v0) (shift ns (vectors L)))) =
    Some (Ok (nth i (points L) v0, shift ns (vectors L))).
Proof. intros prec0 prec L i ns HL Hs Hr Hi Ln. apply (decompose_complete prec0); auto. now apply reduced_shrinks. Qed.
Print Assumptions C34_reduced.

(** In particular for every lattice with one translation vector, and for
    orthogonal translation vectors. *)
Lemma overlap_orthogonal vs i : orthogonal vs -> (i < List.length vs)%nat -> overlap vs i = 0.
Proof.
  intros Ho Hi. rewrite overlap_rsum. apply rsum_zero. intros j Hj. destruct (Nat.eqb_spec j i) as [|N]; [reflexivity|].
  unfold a_. rewrite Ho by auto. apply Rabs_R0.
Qed.
Lemma orthogonal_reduced c vs : 0 <= c -> orthogonal vs -> reduced c vs.
Proof. intros Hc Ho i Hi. rewrite overlap_orthogonal by auto. apply Rmult_le_pos; [exact Hc|apply vdot_nonneg]. Qed.
Lemma single_orthogonal vs : (List.length vs <= 1)%nat -> orthogonal vs.
Proof. intros H i j Hi Hj N. lia. Qed.
Theorem C34_orthogonal : forall prec0 prec L i ns, lattice_of prec0 L -> separated (view prec) L ->
  (List.length (vectors L) = 1%nat \/ orthogonal (vectors L)) -> (i < List.length (points L))%nat -> List.length ns = List.length (vectors L) ->
  exists F, forall fuel, (F <= fuel)%nat ->
    decompose L fuel prec (Site (space_dim L) (vadd (nth i (points L) v0) (shift ns (vectors L)))) =
    Some (Ok (nth i (points L) v0, shift ns (vectors L))).
Proof.
  intros prec0 prec L i ns HL Hs Ho Hi Ln. apply (C34_reduced prec0); auto. apply orthogonal_reduced; [lra|]. destruct Ho as [H|H]; [apply single_orthogonal; lia|exact H].
Qed.
Print Assumptions C34_orthogonal.

(** getIndex with fold=True: the index of the equivalent point. *)
Theorem C32_fold : forall nearest prec0 prec fuel L len s, finds_nearest nearest -> lattice_of prec0 L ->
  (forall p dR, decompose L fuel prec (Site len s) = Some (Ok (p, dR)) ->
     exists i, getIndex L nearest fuel prec (Site len s) true = Some (Ok i) /\ getSite L (AnInt i) = Ok p) /\
  (forall e, decompose L fuel prec (Site len s) = Some (Err e) -> getIndex L nearest fuel prec (Site len s) true = Some (Err e)).
Proof.
  intros nearest prec0 prec fuel L len s Hn HL. split.
  - intros p dR H. pose proof (C33_sound _ _ _ _ _ _ _ H) as (-> & Hp & _ & _).
    destruct (C32_inverse nearest prec0 prec fuel L Hn HL) as [_ K]. destruct (K p Hp) as (i & Gi & Si). exists i. split; [|exact Si].
    unfold getIndex in *. rewrite Nat.eqb_refl in *. cbn [negb] in *. rewrite H. exact Gi.
  - intros e H. unfold getIndex. destruct (Nat.eqb_spec len (space_dim L)) as [->|N]; cbn [negb]; [now rewrite H|].
    cbn [decompose] in H. destruct (Nat.eqb_spec len (space_dim L)); [contradiction|]. cbn [negb] in H. now injection H as <-.
Qed.
Print Assumptions C32_fold.
(** So a translated cluster point gets the index of the cluster point: always for
    small translations, for every translation in reduced cells. *)
Theorem C32_fold_translated : forall nearest prec0 prec L i ns, finds_nearest nearest -> lattice_of prec0 L -> separated (view prec) L ->
  (i < List.length (points L))%nat -> List.length ns = List.length (vectors L) -> (reach ns <= 1)%Z \/ reduced (3 / 4) (vectors L) ->
  exists F, forall fuel, (F <= fuel)%nat ->
    getIndex L nearest fuel prec (Site (space_dim L) (vadd (nth i (points L) v0) (shift ns (vectors L)))) true = Some (Ok (Z.of_nat i)).
Proof.
  intros nearest prec0 prec L i ns Hn HL Hs Hi Ln Hr.
  assert (D : exists F, forall fuel, (F <= fuel)%nat -> decompose L fuel prec (Site (space_dim L) (vadd (nth i (points L) v0) (shift ns (vectors L)))) = Some (Ok (nth i (points L) v0, shift ns (vectors L)))).
  { destruct Hr as [Hr|Hr]; [exists O; intros; now apply C34_small|now apply (C34_reduced prec0)]. }
  destruct D as (F & D). exists F. intros fuel Hf. specialize (D fuel Hf).
  unfold getIndex. rewrite Nat.eqb_refl. cbn [negb]. rewrite D. pose proof (lattice_of_facts _ _ HL) as (_ & _ & _ & Hp).
  rewrite (nearest_self nearest prec0 L i Hn HL Hi), dist_refl, (proj2 (Rltb_iff 0 (view prec))) by apply view_pos. destruct (points L); [contradiction|reflexivity].
Qed.
Print Assumptions C32_fold_translated.
