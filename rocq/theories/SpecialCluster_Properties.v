(** C51: special_cluster. *)
From Coq Require Import String List Reals ZArith Bool Arith Lra Lia Permutation.
From Verif Require Import Py CVec LinSolve Line2D_Model Line2D_Proofs Lattice_Model Lattice_Spec Lattice_Proofs Lattice_Proofs2 Lattice_Proofs3 Lattice_Properties LatticeCases_Properties
  Neighbors_Spec LatticeGen_Model LatticeGen_Spec LatticeGen_Proofs LatticeGen_Properties SpecialCluster_Spec.
Import ListNotations.
Open Scope R_scope.

(** ** clusters given in cell coordinates *)
Definition entry : Type := (nat * (Z * Z))%type.
(** m - e is a combination of (a, b) and (c, d) *)
Definition hits (a b c d x y : Z) : bool := ((x * d - y * c) mod (a * d - b * c) =? 0)%Z && ((y * a - x * b) mod (a * d - b * c) =? 0)%Z.
Definition covers (T : list entry) (n : nat) (a b c d : Z) : bool :=
  forallb (fun j => forallb (fun r0 => forallb (fun r1 => existsb (fun e => Nat.eqb (fst e) j && hits a b c d (r0 - fst (snd e)) (r1 - snd (snd e))) T)
    (zrange 0 (a * d - b * c))) (zrange 0 (a * d - b * c))) (seq 0 n).
Definition spread (T : list entry) (a b c d : Z) : bool :=
  forallb (fun i => forallb (fun i' => let e := nth i T (0%nat, (0, 0)%Z) in let e' := nth i' T (0%nat, (0, 0)%Z) in
    Nat.eqb i i' || negb (Nat.eqb (fst e) (fst e')) || negb (hits a b c d (fst (snd e) - fst (snd e')) (snd (snd e) - snd (snd e')))) (seq 0 (List.length T))) (seq 0 (List.length T)).
Lemma hits_iff a b c d x y : (0 < a * d - b * c)%Z -> hits a b c d x y = true <-> exists M0 M1, x = (M0 * a + M1 * c)%Z /\ y = (M0 * b + M1 * d)%Z.
Proof.
  intros HD. unfold hits. rewrite andb_true_iff, !Z.eqb_eq. set (D := (a * d - b * c)%Z) in *. split.
  - intros [H1 H2]. apply Z.mod_divide in H1 as (p & Hp); [|lia]. apply Z.mod_divide in H2 as (q & Hq); [|lia]. exists p, q.
    assert (X : (D * x = D * (p * a + q * c))%Z) by (replace (D * x)%Z with (a * (x * d - y * c) + c * (y * a - x * b))%Z by (unfold D; ring); rewrite Hp, Hq; ring).
    assert (Y : (D * y = D * (p * b + q * d))%Z) by (replace (D * y)%Z with (b * (x * d - y * c) + d * (y * a - x * b))%Z by (unfold D; ring); rewrite Hp, Hq; ring).
    split; apply (Z.mul_reg_l _ _ D); auto; lia.
  - intros (p & q & -> & ->). split; apply Z.mod_divide; try lia; [exists p|exists q]; unfold D; ring.
Qed.

Section Special.
  Variables (c sp : cell) (g : gridded c) (T : list entry) (a b e f : Z) (L : lattice).
  Hypothesis Two : List.length (cvectors c) = 2%nat.
  Hypothesis HD : (0 < a * f - b * e)%Z.
  Hypothesis HT : forall x, In x T -> (fst x < List.length (cpoints c))%nat.
  Hypothesis Hp : cpoints sp = map (fun x => site c (fst x) [fst (snd x); snd (snd x)]) T.
  Hypothesis Hv : cvectors sp = [shift [a; b] (cvectors c); shift [e; f] (cvectors c)].
  Hypothesis Hcov : covers T (List.length (cpoints c)) a b e f = true.
  Hypothesis Hspr : spread T a b e f = true.
  Hypothesis Tne : T <> [].
  Hypothesis Lp : points L = cpoints sp.
  Hypothesis Lv : vectors L = cvectors sp.
  Let en i : entry := nth i T (0%nat, (0, 0)%Z).
  Local Lemma two_vectors : exists u v, cvectors c = [u; v].
  Proof. destruct (cvectors c) as [|u [|v [|]]]; try discriminate. eauto. Qed.
  Local Lemma nth_pt i : (i < List.length T)%nat -> nth i (cpoints sp) v0 = site c (fst (en i)) [fst (snd (en i)); snd (snd (en i))].
  Proof. intros Hi. rewrite Hp. rewrite (nth_indep _ v0 ((fun x => site c (fst x) [fst (snd x); snd (snd x)]) (0%nat, (0, 0)%Z))) by (now rewrite map_length). now rewrite (map_nth (fun x : entry => site c (fst x) [fst (snd x); snd (snd x)])). Qed.
  Local Lemma moved i M0 M1 : (i < List.length T)%nat -> vadd (nth i (cpoints sp) v0) (shift [M0; M1] (cvectors sp)) = site c (fst (en i)) [(fst (snd (en i)) + (M0 * a + M1 * e))%Z; (snd (snd (en i)) + (M0 * b + M1 * f))%Z].
  Proof.
    intros Hi. rewrite nth_pt by exact Hi. rewrite Hv. unfold site, shift. destruct two_vectors as (u & v & ->). cbn [map combination]. generalize (nth (fst (en i)) (cpoints c) v0). rewrite !plus_IZR, !mult_IZR. destruct u as [[u1 u2] u3], v as [[w1 w2] w3]. intros [[p1 p2] p3].
    cbn [vadd vscale v0]. apply p3_eq; ring.
  Qed.
  Local Lemma Tlen : List.length (cpoints sp) = List.length T. Proof. rewrite Hp. apply map_length. Qed.
  Local Lemma vlen : List.length (cvectors sp) = 2%nat. Proof. now rewrite Hv. Qed.
  Local Lemma is_entry i x y : (i < List.length T)%nat -> is_site c (fst (en i)) [x; y].
  Proof. intros Hi. split; [apply HT, nth_In, Hi|now rewrite Two]. Qed.
  Lemma special_gap i Ms i' Ms' : (i < List.length (points L))%nat -> (i' < List.length (points L))%nat -> List.length Ms = List.length (vectors L) -> List.length Ms' = List.length (vectors L) ->
    (i, Ms) <> (i', Ms') -> / 10 <= dist (vadd (nth i (points L) v0) (shift Ms (vectors L))) (vadd (nth i' (points L) v0) (shift Ms' (vectors L))).
  Proof.
    intros Hi Hi' HM HM' N. rewrite Lp, Tlen in Hi, Hi'. rewrite Lv, vlen in HM, HM'. destruct Ms as [|M0 [|M1 [|]]]; try discriminate. destruct Ms' as [|M0' [|M1' [|]]]; try discriminate.
    rewrite Lp, Lv, !moved by auto. apply (site_gap c g); try (now apply is_entry). intros E. pose proof (f_equal fst E) as E1. pose proof (f_equal (fun x => nth 0 (snd x) 0%Z) E) as E2. pose proof (f_equal (fun x => nth 1 (snd x) 0%Z) E) as E3. cbn [fst snd nth] in E1, E2, E3. clear E.
    destruct (Nat.eq_dec i i') as [Hie|Hie].
    - subst i'. apply N. assert (X : ((M0 - M0') * a + (M1 - M1') * e = 0)%Z) by lia. assert (Y : ((M0 - M0') * b + (M1 - M1') * f = 0)%Z) by lia.
      assert (P : ((M0 - M0') * (a * f - b * e) = 0)%Z) by (replace ((M0 - M0') * (a * f - b * e))%Z with (((M0 - M0') * a + (M1 - M1') * e) * f - ((M0 - M0') * b + (M1 - M1') * f) * e)%Z by ring; rewrite X, Y; ring).
      assert (Q : ((M1 - M1') * (a * f - b * e) = 0)%Z) by (replace ((M1 - M1') * (a * f - b * e))%Z with (((M0 - M0') * b + (M1 - M1') * f) * a - ((M0 - M0') * a + (M1 - M1') * e) * b)%Z by ring; rewrite X, Y; ring).
      apply Z.mul_eq_0 in P, Q. assert (M0 = M0') by lia. assert (M1 = M1') by lia. congruence.
    - unfold spread in Hspr. rewrite forallb_forall in Hspr. specialize (Hspr i ltac:(apply in_seq; lia)). rewrite forallb_forall in Hspr. specialize (Hspr i' ltac:(apply in_seq; lia)). cbv zeta in Hspr. fold (en i) (en i') in Hspr.
      apply Nat.eqb_neq in Hie. rewrite Hie, E1, Nat.eqb_refl in Hspr. cbn [orb negb] in Hspr. apply negb_true_iff in Hspr. rewrite <- not_true_iff_false in Hspr. apply Hspr. apply hits_iff; [exact HD|]. exists (M0' - M0)%Z, (M1' - M1)%Z. lia.
  Qed.
  Lemma special_separated : separated (/ 10) L.
  Proof.
    intros i j ns Hi Hj N Ln. pose proof (special_gap i (repeat 0%Z (List.length (vectors L))) j ns Hi Hj (repeat_length _ _) Ln ltac:(congruence)) as G. now rewrite shift_zero, vadd_0_r in G.
  Qed.
  Lemma special_tiles : tiles c L.
  Proof.
    split.
    - intros i Ms Hi HM. rewrite Lp, Tlen in Hi. rewrite Lv, vlen in HM. destruct Ms as [|M0 [|M1 [|]]]; try discriminate. rewrite Lp, Lv, moved by exact Hi. exists (fst (en i)), [(fst (snd (en i)) + (M0 * a + M1 * e))%Z; (snd (snd (en i)) + (M0 * b + M1 * f))%Z]. split; [exact (is_entry i _ _ Hi)|reflexivity].
    - intros j ms [Hj Hm]. rewrite Two in Hm. destruct ms as [|m0 [|m1 [|]]]; try discriminate. set (D := (a * f - b * e)%Z) in *.
      unfold covers in Hcov. fold D in Hcov. rewrite forallb_forall in Hcov. specialize (Hcov j ltac:(apply in_seq; lia)). rewrite forallb_forall in Hcov. specialize (Hcov (m0 mod D)%Z ltac:(apply in_zrange; apply Z.mod_pos_bound; lia)).
      rewrite forallb_forall in Hcov. specialize (Hcov (m1 mod D)%Z ltac:(apply in_zrange; apply Z.mod_pos_bound; lia)). apply existsb_exists in Hcov as (x & Hx & Hh). apply andb_true_iff in Hh as [Hh1 Hh2]. apply Nat.eqb_eq in Hh1.
      apply hits_iff in Hh2 as (p & q & P1 & P2); [|exact HD]. apply (In_nth _ _ (0%nat, (0, 0)%Z)) in Hx as (i & Hi & Ex). change (en i = x) in Ex.
      set (k0 := (m0 / D)%Z). set (k1 := (m1 / D)%Z). pose proof (Z.div_mod m0 D ltac:(lia)) as D0. pose proof (Z.div_mod m1 D ltac:(lia)) as D1. fold k0 in D0. fold k1 in D1.
      set (M0 := (p + (k0 * f - k1 * e))%Z). set (M1 := (q + (k1 * a - k0 * b))%Z).
      assert (E : vadd (nth i (points L) v0) (shift [M0; M1] (vectors L)) = site c j [m0; m1]).
      { rewrite Lp, Lv, moved by exact Hi. rewrite Ex, Hh1. f_equal. f_equal; [|f_equal]; rewrite D0 || rewrite D1; unfold M0, M1.
        - replace (m0 mod D)%Z with (fst (snd x) + (p * a + q * e))%Z by lia. unfold D. ring.
        - replace (m1 mod D)%Z with (snd (snd x) + (p * b + q * f))%Z by lia. unfold D. ring. }
      assert (Hi' : (i < List.length (points L))%nat) by (now rewrite Lp, Tlen). assert (HMs : List.length [M0; M1] = List.length (vectors L)) by (now rewrite Lv, vlen).
      exists i, [M0; M1]. split; [auto|]. intros i' Ms' Hii HMM E'.
      destruct (Nat.eq_dec i' i) as [Hie|N]; [destruct (list_eq_dec Z.eq_dec Ms' [M0; M1]) as [HMe|N]; [auto|]|]; exfalso;
        pose proof (special_gap i' Ms' i [M0; M1] Hii Hi' HMM HMs ltac:(congruence)) as G; rewrite E, E', dist_refl in G; lra.
  Qed.
End Special.
Lemma special_accepted prec c sp (g : gridded c) T a b e f : (1 <= prec)%nat -> List.length (cvectors c) = 2%nat -> (0 < a * f - b * e)%Z -> (forall x, In x T -> (fst x < List.length (cpoints c))%nat) ->
  cpoints sp = map (fun x => site c (fst x) [fst (snd x); snd (snd x)]) T -> cvectors sp = [shift [a; b] (cvectors c); shift [e; f] (cvectors c)] ->
  covers T (List.length (cpoints c)) a b e f = true -> spread T a b e f = true -> T <> [] -> cdim sp = 2%nat ->
  exists L d, make_lattice prec (Arr (cdim sp) (cpoints sp)) (Arr (cdim sp) (cvectors sp)) = Ok (L, d) /\ space_dim L = 2%nat /\ points L = cpoints sp /\ vectors L = cvectors sp /\ lattice_of prec L /\
    List.length (points L) = List.length T /\ separated (/ 10) L /\ tiles c L.
Proof.
  intros Hpr Two HD HT Hp Hv Hcov Hspr Tne Hdim. pose proof (view_tenth prec Hpr) as V.
  assert (Sep : forall L, points L = cpoints sp -> vectors L = cvectors sp -> separated (/ 10) L) by (intros L H1 H2; eapply (special_separated c sp g T a b e f L); eauto).
  destruct (cvectors c) as [|u [|v [|]]] eqn:Ec; try discriminate.
  assert (Nd : ~ dependent (cvectors sp)).
  { intros (xs & Lx & (x & Hx & Nx) & E). rewrite Hv in Lx, E. destruct xs as [|x1 [|x2 [|]]]; try discriminate. apply (g_indep c g). rewrite Ec.
    exists [x1 * IZR a + x2 * IZR e; x1 * IZR b + x2 * IZR f]. split; [reflexivity|]. split.
    - assert (Q : IZR (a * f - b * e) <> 0) by (apply not_0_IZR; lia). rewrite minus_IZR, !mult_IZR in Q.
      destruct (Req_dec (x1 * IZR a + x2 * IZR e) 0) as [Z1|Z1]; [|eexists; split; [now left|exact Z1]]. destruct (Req_dec (x1 * IZR b + x2 * IZR f) 0) as [Z2|Z2]; [|eexists; split; [right; now left|exact Z2]]. exfalso.
      assert (A1 : x1 * (IZR a * IZR f - IZR b * IZR e) = 0) by (replace (x1 * (IZR a * IZR f - IZR b * IZR e)) with ((x1 * IZR a + x2 * IZR e) * IZR f - (x1 * IZR b + x2 * IZR f) * IZR e) by ring; rewrite Z1, Z2; ring).
      assert (A2 : x2 * (IZR a * IZR f - IZR b * IZR e) = 0) by (replace (x2 * (IZR a * IZR f - IZR b * IZR e)) with ((x1 * IZR b + x2 * IZR f) * IZR a - (x1 * IZR a + x2 * IZR e) * IZR b) by ring; rewrite Z1, Z2; ring).
      apply Rmult_integral in A1 as [A1|A1]; [|contradiction]. apply Rmult_integral in A2 as [A2|A2]; [|contradiction]. destruct Hx as [<-|[<-|[]]]; contradiction.
    - rewrite <- E. unfold shift. cbn [map combination]. destruct u as [[u1 u2] u3], v as [[w1 w2] w3]. cbn [vadd vscale v0]. apply p3_eq; ring. }
  destruct (C31_constructor prec (Arr (cdim sp) (cpoints sp)) (Arr (cdim sp) (cvectors sp))) as [_ K]. specialize (K _ _ _ _ eq_refl eq_refl). destruct K as (_ & _ & K).
  destruct K as (L & d & H & E1 & E2 & E3).
  - rewrite Hdim. split; [lia|]. split; [rewrite Hv; cbn; lia|]. split; [reflexivity|]. split.
    + rewrite Hv. apply apart2. eapply Rle_trans; [exact V|].
      assert (P0 : (0 < List.length (cpoints c))%nat) by (pose proof (g_some c g); destruct (cpoints c); [contradiction|cbn; lia]).
      assert (G : / 10 <= dist (site c 0 [a; b]) (site c 0 [e; f])).
      { apply (site_gap c g); try (split; [exact P0|now rewrite Ec]). intros E. injection E as Ea Eb. subst. lia. }
      unfold site in G. rewrite Ec in G. unfold dist in *. replace (vsub (vadd _ _) (vadd _ _)) with (vsub (shift [a; b] [u; v]) (shift [e; f] [u; v])) in G; [exact G|].
      generalize (nth 0 (cpoints c) v0), (shift [a; b] [u; v]), (shift [e; f] [u; v]). vring.
    + intros i j Hij. eapply Rle_trans; [exact V|]. pose proof (Sep (MkLattice 0 (cpoints sp) (cvectors sp) []) eq_refl eq_refl i j (repeat 0%Z (List.length (cvectors sp)))) as G. cbn [points vectors] in G. rewrite shift_zero, vadd_0_r in G. apply G; try lia. apply repeat_length.
  - exact Nd.
  - exists L, d. split; [exact H|]. split; [congruence|]. split; [exact E2|]. split; [exact E3|]. split.
    + eapply lattice_of_make; [exact H|rewrite Hp; destruct T; [contradiction|discriminate]|rewrite Hv; discriminate].
    + split; [rewrite E2, Hp; apply map_length|]. split; [now apply Sep|]. rewrite <- Ec in Hv. eapply (special_tiles c sp g T a b e f L); eauto. now rewrite Ec.
Qed.

(** ** the displaced cells *)
Definition square11 := displaced (1 / 2, 1 / 2, 0) square_cell.
Definition square10 := displaced (1 / 2, 0, 0) square_cell.
Definition honeycomb10 := displaced (1 / 2, 0, 0) honeycomb_cell.
Ltac drows := cbn [cpoints cvectors square11 square10 honeycomb10 displaced square_cell honeycomb_cell map gpoint vadd]; rewrite ?inv_s3; repeat (apply f_equal2; [apply p3_eq; lra|]); reflexivity.
Definition grid_square11 : gridded square11.
Proof.
  refine (Gridded square11 (/ 2) (/ 2) [(1, 1, 0)%Z] [(2, 0, 0); (0, 2, 0)]%Z _ _ _ _ _ (g_indep _ grid_square) _ _); try lra; try discriminate; [drows|drows|site_cases|cbn; lia].
Defined.
Definition grid_square10 : gridded square10.
Proof.
  refine (Gridded square10 (/ 2) (/ 2) [(1, 0, 0)%Z] [(2, 0, 0); (0, 2, 0)]%Z _ _ _ _ _ (g_indep _ grid_square) _ _); try lra; try discriminate; [drows|drows|site_cases|cbn; lia].
Defined.
Definition grid_honeycomb10 : gridded honeycomb10.
Proof.
  refine (Gridded honeycomb10 (/ 4) (sqrt 3 / 12) [(2, -2, 0); (2, 2, 0)]%Z [(4, 0, 0); (2, 6, 0)]%Z _ hex_step _ hex_vectors _ hex_independent _ _); try lra; try discriminate; [drows|site_cases|cbn; lia].
Defined.

(** ** the clusters in cell coordinates *)
Ltac cluster_rows := cbn [cpoints cvectors square_cross square_z square_s triangle_star honeycomb_benzene honeycomb_diphenyl honeycomb_gear map fst snd]; unfold site, shift;
  cbn [cpoints cvectors square11 square10 honeycomb10 displaced square_cell triangle_cell honeycomb_cell map nth combination vadd vscale v0]; rewrite ?inv_s3; repeat (apply f_equal2; [apply p3_eq; lra|]); reflexivity.
Definition fine (prec n : nat) (c sp : cell) : Prop :=
  exists L d, make_lattice prec (Arr (cdim sp) (cpoints sp)) (Arr (cdim sp) (cvectors sp)) = Ok (L, d) /\ space_dim L = 2%nat /\ points L = cpoints sp /\ vectors L = cvectors sp /\ lattice_of prec L /\
    List.length (points L) = n /\ separated (/ 10) L /\ tiles c L.
Lemma fine_cross prec : (1 <= prec)%nat -> fine prec 12 square11 square_cross.
Proof.
  intros Hp. apply (special_accepted prec square11 square_cross grid_square11 [(0%nat, (-1, -1)%Z); (0%nat, (-1, 0)%Z); (0%nat, (0, 0)%Z); (0%nat, (0, -1)%Z); (0%nat, (-1, -2)%Z); (0%nat, (-2, -1)%Z); (0%nat, (-2, 0)%Z); (0%nat, (-1, 1)%Z); (0%nat, (0, 1)%Z); (0%nat, (1, 0)%Z); (0%nat, (1, -1)%Z); (0%nat, (0, -2)%Z)] (3) (-2) (3) (2)); try lia; try reflexivity; try discriminate; [|cluster_rows|cluster_rows].
  intros x Hx. cbn in Hx. repeat destruct Hx as [<-|Hx]; try contradiction; cbn; lia.
Qed.
Lemma fine_z prec : (1 <= prec)%nat -> fine prec 10 square10 square_z.
Proof.
  intros Hp. apply (special_accepted prec square10 square_z grid_square10 [(0%nat, (-2, 1)%Z); (0%nat, (-1, 1)%Z); (0%nat, (0, 1)%Z); (0%nat, (-2, 0)%Z); (0%nat, (-1, 0)%Z); (0%nat, (0, 0)%Z); (0%nat, (1, 0)%Z); (0%nat, (-1, -1)%Z); (0%nat, (0, -1)%Z); (0%nat, (1, -1)%Z)] (1) (-3) (3) (1)); try lia; try reflexivity; try discriminate; [|cluster_rows|cluster_rows].
  intros x Hx. cbn in Hx. repeat destruct Hx as [<-|Hx]; try contradiction; cbn; lia.
Qed.
Lemma fine_s prec : (1 <= prec)%nat -> fine prec 10 square10 square_s.
Proof.
  intros Hp. apply (special_accepted prec square10 square_s grid_square10 [(0%nat, (-1, 1)%Z); (0%nat, (0, 1)%Z); (0%nat, (1, 1)%Z); (0%nat, (-2, 0)%Z); (0%nat, (-1, 0)%Z); (0%nat, (0, 0)%Z); (0%nat, (1, 0)%Z); (0%nat, (-2, -1)%Z); (0%nat, (-1, -1)%Z); (0%nat, (0, -1)%Z)] (3) (-1) (1) (3)); try lia; try reflexivity; try discriminate; [|cluster_rows|cluster_rows].
  intros x Hx. cbn in Hx. repeat destruct Hx as [<-|Hx]; try contradiction; cbn; lia.
Qed.
Lemma fine_star prec : (1 <= prec)%nat -> fine prec 13 triangle_cell triangle_star.
Proof.
  intros Hp. apply (special_accepted prec triangle_cell triangle_star grid_triangle [(0%nat, (0, 0)%Z); (0%nat, (0, -1)%Z); (0%nat, (-1, 0)%Z); (0%nat, (-1, 1)%Z); (0%nat, (0, 1)%Z); (0%nat, (1, 0)%Z); (0%nat, (1, -1)%Z); (0%nat, (1, -2)%Z); (0%nat, (-1, -1)%Z); (0%nat, (-2, 1)%Z); (0%nat, (-1, 2)%Z); (0%nat, (1, 1)%Z); (0%nat, (2, -1)%Z)] (3) (1) (-1) (4)); try lia; try reflexivity; try discriminate; [|cluster_rows|cluster_rows].
  intros x Hx. cbn in Hx. repeat destruct Hx as [<-|Hx]; try contradiction; cbn; lia.
Qed.
Lemma fine_benzene prec : (1 <= prec)%nat -> fine prec 6 honeycomb10 honeycomb_benzene.
Proof.
  intros Hp. apply (special_accepted prec honeycomb10 honeycomb_benzene grid_honeycomb10 [(1%nat, (0, -1)%Z); (0%nat, (-1, 0)%Z); (1%nat, (-1, 0)%Z); (0%nat, (-1, 1)%Z); (1%nat, (0, 0)%Z); (0%nat, (0, 0)%Z)] (2) (-1) (1) (1)); try lia; try reflexivity; try discriminate; [|cluster_rows|cluster_rows].
  intros x Hx. cbn in Hx. repeat destruct Hx as [<-|Hx]; try contradiction; cbn; lia.
Qed.
Lemma fine_diphenyl prec : (1 <= prec)%nat -> fine prec 10 honeycomb_cell honeycomb_diphenyl.
Proof.
  intros Hp. apply (special_accepted prec honeycomb_cell honeycomb_diphenyl grid_honeycomb [(1%nat, (0, -1)%Z); (0%nat, (-1, 0)%Z); (1%nat, (-1, 0)%Z); (0%nat, (-1, 1)%Z); (1%nat, (0, 0)%Z); (0%nat, (0, 1)%Z); (1%nat, (1, 0)%Z); (0%nat, (1, 0)%Z); (1%nat, (1, -1)%Z); (0%nat, (0, 0)%Z)] (3) (-1) (2) (1)); try lia; try reflexivity; try discriminate; [|cluster_rows|cluster_rows].
  intros x Hx. cbn in Hx. repeat destruct Hx as [<-|Hx]; try contradiction; cbn; lia.
Qed.
Lemma fine_gear prec : (1 <= prec)%nat -> fine prec 24 honeycomb10 honeycomb_gear.
Proof.
  intros Hp. apply (special_accepted prec honeycomb10 honeycomb_gear grid_honeycomb10 [(1%nat, (0, -1)%Z); (0%nat, (-1, 0)%Z); (1%nat, (-1, 0)%Z); (0%nat, (-1, 1)%Z); (1%nat, (0, 0)%Z); (0%nat, (0, 0)%Z); (0%nat, (0, -1)%Z); (1%nat, (0, -2)%Z); (0%nat, (-1, -1)%Z); (1%nat, (-1, -1)%Z); (0%nat, (-2, 0)%Z); (1%nat, (-2, 0)%Z); (0%nat, (-2, 1)%Z); (1%nat, (-2, 1)%Z); (0%nat, (-2, 2)%Z); (1%nat, (-1, 1)%Z); (0%nat, (-1, 2)%Z); (1%nat, (0, 1)%Z); (0%nat, (0, 1)%Z); (1%nat, (1, 0)%Z); (0%nat, (1, 0)%Z); (1%nat, (1, -1)%Z); (0%nat, (1, -1)%Z); (1%nat, (1, -2)%Z)] (4) (-2) (2) (2)); try lia; try reflexivity; try discriminate; [|cluster_rows|cluster_rows].
  intros x Hx. cbn in Hx. repeat destruct Hx as [<-|Hx]; try contradiction; cbn; lia.
Qed.

(** Every special cluster is accepted (precision at least 1), has the stated
    number of points, none of them equivalent to another, and tiles the lattice it
    is meant to divide. *)
Theorem C51_special : forall prec s n c, (1 <= prec)%nat -> In (s, (n, c)) special_table ->
  exists L d, special_cluster prec (Name s) = Ok (L, d) /\ space_dim L = 2%nat /\ lattice_of prec L /\ List.length (points L) = n /\ List.length (vectors L) = 2%nat /\ separated (/ 10) L /\ tiles c L.
Proof.
  intros prec s n c Hpr H.
  assert (K : forall sp, find_cell special_clusters s = Some sp -> List.length (cvectors sp) = 2%nat -> fine prec n c sp ->
    exists L d, special_cluster prec (Name s) = Ok (L, d) /\ space_dim L = 2%nat /\ lattice_of prec L /\ List.length (points L) = n /\ List.length (vectors L) = 2%nat /\ separated (/ 10) L /\ tiles c L).
  { intros sp E Ev (L & d & A & B & C & D & F & G & I & J). exists L, d. unfold special_cluster. rewrite E. rewrite D. auto 8. }
  cbn [special_table In] in H. repeat destruct H as [H|H]; try contradiction; injection H as <- <- <-; (eapply K; [reflexivity|reflexivity|]);
    first [apply fine_cross | apply fine_z | apply fine_s | apply fine_star | apply fine_benzene | apply fine_diphenyl | apply fine_gear]; exact Hpr.
Qed.
Print Assumptions C51_special.

Theorem C51_errors : forall prec, special_cluster prec Unhashable = Err TypeError /\ special_cluster prec OtherKey = Err KeyError /\
  forall s, ~ In s (map fst special_table) -> special_cluster prec (Name s) = Err KeyError.
Proof.
  intros prec. split; [reflexivity|]. split; [reflexivity|]. intros s Hs. unfold special_cluster. rewrite find_none; [reflexivity|]. intros c H. apply Hs.
  change (map fst special_table) with (map fst special_clusters). apply in_map_iff. exists (s, c). auto.
Qed.
Print Assumptions C51_errors.
