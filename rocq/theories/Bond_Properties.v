(** C39: bonds. *)
From Coq Require Import List ZArith Bool Reals Floats.SpecFloat Lia Lra.
From Flocq Require Import Core.Core.
From Verif Require Import Py Float64_Model Float64_Proofs State_Model State_Spec State_Proofs Bond_Model Bond_Spec Bond_Proofs.
Import ListNotations.
Open Scope Z_scope.

(** Two sequences of 1, 2 or 3 numbers, equally many: a bond with these
    endpoints; any other shape raises AssertionError. *)
Theorem C39_constructor : forall p l0 l1 d,
  0 <= p <= 15 -> Forall (moderate p) l0 -> Forall (moderate p) l1 ->
  ((1 <= List.length l0 <= 3)%nat /\ List.length l1 = List.length l0 ->
     exists b, make_bond (10 ^ p) (PVec l0) (PVec l1) d = Ok b /\ b_dir b = d /\
               values (fst (endpoints b)) = map coord_value l0 /\ values (snd (endpoints b)) = map coord_value l1) /\
  (~ ((1 <= List.length l0 <= 3)%nat /\ List.length l1 = List.length l0) ->
     make_bond (10 ^ p) (PVec l0) (PVec l1) d = Err AssertionError) /\
  (forall sh, make_bond (10 ^ p) (PVec l0) (PShape sh) d = Err AssertionError /\
              make_bond (10 ^ p) (PShape sh) (PVec l0) d = Err AssertionError).
Proof.
  intros p l0 l1 d Hp H0 H1.
  destruct (cells_correct p l0 Hp H0) as (a0 & E0 & C0 & A0 & V0).
  destruct (cells_correct p l1 Hp H1) as (a1 & E1 & C1 & A1 & V1).
  split; [|split].
  - intros [L0 L1]. destruct (make_ok p l0 l1 d Hp H0 H1 L0 L1) as (b0 & b1 & E & F0 & F1).
    rewrite E0 in F0. injection F0 as <-. rewrite E1 in F1. injection F1 as <-. eexists. split; [exact E|]. auto.
  - intros N. unfold make_bond. rewrite E0, E1. cbn [bind]. unfold init. rewrite A0, A1.
    destruct (Nat.eqb_spec (List.length l1) (List.length l0)) as [E|E].
    + destruct (List.length l0) as [|[|[|[|n]]]] eqn:L; try reflexivity; exfalso; apply N; lia.
    + destruct (List.length l0) as [|[|[|[|n]]]]; reflexivity.
  - intros sh. unfold make_bond. rewrite E0. split; reflexivity.
Qed.
Print Assumptions C39_constructor.

(** Directional bonds are equal iff their endpoints agree in order. *)
Theorem C39_directional_equality : forall p l0 l1 m0 m1 b c,
  0 <= p <= 15 -> Forall (moderate p) l0 -> Forall (moderate p) l1 -> Forall (moderate p) m0 -> Forall (moderate p) m1 ->
  make_bond (10 ^ p) (PVec l0) (PVec l1) true = Ok b -> make_bond (10 ^ p) (PVec m0) (PVec m1) true = Ok c ->
  (bond_eq b (OBond c) = true <-> same_point p l0 m0 /\ same_point p l1 m1).
Proof.
  intros p l0 l1 m0 m1 b c Hp H0 H1 G0 G1 Eb Ec.
  destruct (made_form _ _ _ _ _ Hp H0 H1 Eb) as [Fb _]. destruct (made_form _ _ _ _ _ Hp G0 G1 Ec) as [Fc _].
  cbn [bond_eq]. rewrite form_eqb_iff, Fb, Fc, !same_point_iff. unfold form_of. split; [intros [= -> ->]; auto|intros [-> ->]; auto].
Qed.
Print Assumptions C39_directional_equality.

(** Undirected bonds are equal iff their endpoints agree up to swapping ... *)
Theorem C39_undirected_equality : forall p l0 l1 m0 m1 b c,
  0 <= p <= 15 -> Forall (moderate p) l0 -> Forall (moderate p) l1 -> Forall (moderate p) m0 -> Forall (moderate p) m1 ->
  make_bond (10 ^ p) (PVec l0) (PVec l1) false = Ok b -> make_bond (10 ^ p) (PVec m0) (PVec m1) false = Ok c ->
  (bond_eq b (OBond c) = true <->
   (same_point p l0 m0 /\ same_point p l1 m1) \/ (same_point p l0 m1 /\ same_point p l1 m0)).
Proof.
  intros p l0 l1 m0 m1 b c Hp H0 H1 G0 G1 Eb Ec.
  destruct (made_form _ _ _ _ _ Hp H0 H1 Eb) as [Fb _]. destruct (made_form _ _ _ _ _ Hp G0 G1 Ec) as [Fc _].
  cbn [bond_eq]. rewrite form_eqb_iff, Fb, Fc, !same_point_iff. apply form_undirected.
Qed.
Print Assumptions C39_undirected_equality.

(** ... and a directional bond never equals an undirected one, nor something
    that is no bond; != is the negation of ==; bonds have no order. *)
Theorem C39_never_equal : forall zoom p0 p1 q0 q1 b c,
  make_bond zoom p0 p1 true = Ok b -> make_bond zoom q0 q1 false = Ok c ->
  bond_eq b (OBond c) = false /\ bond_eq c (OBond b) = false /\ bond_eq b OOther = false /\
  (forall o, bond_ne b o = negb (bond_eq b o)) /\ (forall op o, bond_cmp op b o = Err TypeError).
Proof.
  intros zoom p0 p1 q0 q1 b c Eb Ec.
  assert (F : forall p0 p1 d b, make_bond zoom p0 p1 d = Ok b -> snd (b_form b) = d).
  { clear. intros p0 p1 d b E. destruct p0 as [l0|], p1 as [l1|]; try discriminate.
    - destruct (make_inv _ _ _ _ _ E) as (a0 & a1 & _ & _ & I). destruct (init_inv _ _ _ _ _ I) as (t0 & t1 & _ & _ & _ & _ & ->).
      cbn [b_form]. unfold form_of. destruct d; [reflexivity|]. destruct (lexb t0 t1); reflexivity.
    - unfold make_bond in E. destruct (np_array l0); discriminate.
    - unfold make_bond in E. destruct (np_array l1); discriminate. }
  apply F in Eb, Ec.
  assert (N : forall u v, snd (b_form u) <> snd (b_form v) -> bond_eq u (OBond v) = false).
  { intros u v H. cbn [bond_eq]. destruct (form_eqb _ _) eqn:E; [|reflexivity]. apply form_eqb_iff in E. congruence. }
  split; [apply N; congruence|]. split; [apply N; congruence|]. split; [reflexivity|]. split; [intros [o|]; reflexivity|reflexivity].
Qed.
Print Assumptions C39_never_equal.

(** Equality is an equivalence and equal bonds hash alike (the hash is a
    function of [hash_key]). *)
Theorem C39_hash_and_equivalence : forall b c d,
  (bond_eq b (OBond c) = true <-> hash_key b = hash_key c) /\
  bond_eq b (OBond b) = true /\
  (bond_eq b (OBond c) = true -> bond_eq c (OBond b) = true) /\
  (bond_eq b (OBond c) = true -> bond_eq c (OBond d) = true -> bond_eq b (OBond d) = true).
Proof.
  intros b c d. cbn [bond_eq]. rewrite !form_eqb_iff. unfold hash_key. split; [tauto|]. split; [reflexivity|]. split; congruence.
Qed.
Print Assumptions C39_hash_and_equivalence.

(** The same point: numerically equal coordinates agree (1 and 1.0), and
    coordinates in the same cell are less than 3 units of the last digit apart. *)
Theorem C39_same_point : forall p l m, Forall (moderate p) l -> Forall (moderate p) m ->
  (map coord_value l = map coord_value m -> same_point p l m) /\
  (same_point p l m -> Forall2 (fun a b => (Rabs (IZR (10 ^ p) * coord_value a - IZR (10 ^ p) * coord_value b) < 3)%R) l m).
Proof.
  intros p l m Hl Hm. split.
  - intros E. apply same_point_iff. rewrite <- (map_map coord_value (cell p)), E. apply map_map.
  - intros H. induction H as [|a b l m E _ IH]; [constructor|]. inversion_clear Hl as [|? ? Ha Hl']. inversion_clear Hm as [|? ? Hb Hm'].
    constructor; [|auto]. destruct Ha as [_ Ha], Hb as [_ Hb]. unfold cell in E. change to_double with rnd64 in E.
    pose proof (rnd64_error _ Ha) as Ea. pose proof (rnd64_error _ Hb) as Eb.
    assert (T : forall x y, Ztrunc x = Ztrunc y -> (Rabs (x - y) < 2)%R).
    { clear. intros x y E.
      assert (B : forall z, (IZR (Ztrunc z) - 1 < z < IZR (Ztrunc z) + 1)%R).
      { intros z. destruct (Rle_or_lt 0 z) as [H|H].
        - rewrite (Ztrunc_floor z H). pose proof (Zfloor_lb z). pose proof (Zfloor_ub z). lra.
        - rewrite (Ztrunc_ceil z) by lra. pose proof (Zceil_ub z). pose proof (Zceil_lb z). lra. }
      pose proof (B x) as Bx. pose proof (B y) as By. rewrite E in Bx. apply Rabs_def1; lra. }
    specialize (T _ _ E). apply Rabs_le_inv in Ea, Eb. apply Rabs_def2 in T.
    revert T Ea Eb. generalize (rnd64 (IZR (10 ^ p) * coord_value a)) (rnd64 (IZR (10 ^ p) * coord_value b)) (IZR (10 ^ p) * coord_value a)%R (IZR (10 ^ p) * coord_value b)%R.
    intros. apply Rabs_def1; lra.
Qed.
Print Assumptions C39_same_point.

(** flip swaps the endpoints and is an involution, as long as the precision is
    not changed in between. *)
Theorem C39_flip : forall zoom p0 p1 b, make_bond zoom p0 p1 true = Ok b ->
  exists c, flip zoom b = Ok c /\ endpoints c = (snd (endpoints b), fst (endpoints b)) /\ b_dir c = true /\ flip zoom c = Ok b.
Proof.
  intros zoom p0 p1 b E. destruct p0 as [l0|], p1 as [l1|]; try discriminate;
    [|unfold make_bond in E; destruct (np_array l0); discriminate|unfold make_bond in E; destruct (np_array l1); discriminate].
  destruct (make_inv _ _ _ _ _ E) as (a0 & a1 & _ & _ & I). destruct (init_inv _ _ _ _ _ I) as (t0 & t1 & C0 & C1 & L0 & L1 & ->).
  unfold flip. cbn [b_dir b_p0 b_p1]. rewrite (init_ok _ _ _ _ _ _ C1 C0) by lia. eexists. split; [reflexivity|].
  split; [reflexivity|]. split; [reflexivity|]. cbn [b_dir b_p0 b_p1]. rewrite (init_ok _ _ _ _ _ _ C0 C1) by lia. reflexivity.
Qed.
Print Assumptions C39_flip.

(** b.oppositeTo(c) iff b.flip() == c iff c runs between the same points the
    other way round; it is symmetric; TypeError for something else. *)
Theorem C39_opposite : forall p l0 l1 m0 m1 b c,
  0 <= p <= 15 -> Forall (moderate p) l0 -> Forall (moderate p) l1 -> Forall (moderate p) m0 -> Forall (moderate p) m1 ->
  make_bond (10 ^ p) (PVec l0) (PVec l1) true = Ok b -> make_bond (10 ^ p) (PVec m0) (PVec m1) true = Ok c ->
  (exists f, flip (10 ^ p) b = Ok f /\ oppositeTo (10 ^ p) b (OBond c) = Ok (bond_eq f (OBond c))) /\
  (oppositeTo (10 ^ p) b (OBond c) = Ok true <-> same_point p l0 m1 /\ same_point p l1 m0) /\
  (oppositeTo (10 ^ p) b (OBond c) = oppositeTo (10 ^ p) c (OBond b)) /\
  oppositeTo (10 ^ p) b OOther = Err TypeError.
Proof.
  intros p l0 l1 m0 m1 b c Hp H0 H1 G0 G1 Eb Ec.
  assert (K : forall l0 l1 b, Forall (moderate p) l0 -> Forall (moderate p) l1 -> make_bond (10 ^ p) (PVec l0) (PVec l1) true = Ok b ->
    b_dir b = true /\ exists f, flip (10 ^ p) b = Ok f /\ b_form f = form_of true (map (fun c => cell p (coord_value c)) l1) (map (fun c => cell p (coord_value c)) l0)).
  { clear -Hp. intros l0 l1 b H0 H1 E. destruct (make_inv _ _ _ _ _ E) as (a0 & a1 & E0 & E1 & I).
    destruct (init_inv _ _ _ _ _ I) as (t0 & t1 & C0 & C1 & L0 & L1 & ->). split; [reflexivity|].
    unfold flip. cbn [b_dir b_p0 b_p1]. rewrite (init_ok _ _ _ _ _ _ C1 C0) by lia. eexists. split; [reflexivity|].
    destruct (cells_correct p l0 Hp H0) as (x0 & X0 & X & _). destruct (cells_correct p l1 Hp H1) as (x1 & Y0 & Y & _).
    cbn [b_form]. congruence. }
  destruct (made_form _ _ _ _ _ Hp H0 H1 Eb) as [Fb Db]. destruct (made_form _ _ _ _ _ Hp G0 G1 Ec) as [Fc Dc].
  destruct (K _ _ _ H0 H1 Eb) as (_ & f & Ef & Ff). destruct (K _ _ _ G0 G1 Ec) as (_ & g & Eg & Fg).
  assert (Ob : oppositeTo (10 ^ p) b (OBond c) = Ok (bond_eq f (OBond c))) by (unfold oppositeTo; rewrite Db, Ef; reflexivity).
  assert (Oc : oppositeTo (10 ^ p) c (OBond b) = Ok (bond_eq g (OBond b))) by (unfold oppositeTo; rewrite Dc, Eg; reflexivity).
  assert (Ib : bond_eq f (OBond c) = true <-> same_point p l0 m1 /\ same_point p l1 m0).
  { cbn [bond_eq]. rewrite form_eqb_iff, Ff, Fc, !same_point_iff. unfold form_of. split; [intros [= -> ->]; auto|intros [-> ->]; auto]. }
  assert (Ic : bond_eq g (OBond b) = true <-> same_point p l0 m1 /\ same_point p l1 m0).
  { cbn [bond_eq]. rewrite form_eqb_iff, Fg, Fb, !same_point_iff. unfold form_of. split; [intros [= -> ->]; auto|intros [-> ->]; auto]. }
  split; [eauto|]. rewrite Ob, Oc. split; [rewrite <- Ib; split; congruence|]. split.
  - f_equal. destruct (bond_eq f (OBond c)), (bond_eq g (OBond b)); auto; exfalso.
    + destruct Ic as [_ Ic]. discriminate Ic. now apply Ib.
    + destruct Ib as [_ Ib]. discriminate Ib. now apply Ic.
  - unfold oppositeTo. now rewrite Db.
Qed.
Print Assumptions C39_opposite.

(** An undirected bond raises NotImplementedError for direction-dependent questions. *)
Theorem C39_undirected_raises : forall zoom zoom' p0 p1 b o nd rad, make_bond zoom p0 p1 false = Ok b ->
  flip zoom' b = Err NotImplementedError /\ oppositeTo zoom' b o = Err NotImplementedError /\
  getDisplace b nd = Err NotImplementedError /\ getAzimuth b rad nd = Err NotImplementedError.
Proof.
  intros zoom zoom' p0 p1 b o nd rad E.
  assert (D : b_dir b = false).
  { destruct p0 as [l0|], p1 as [l1|]; try discriminate;
    [|unfold make_bond in E; destruct (np_array l0); discriminate|unfold make_bond in E; destruct (np_array l1); discriminate].
    destruct (make_inv _ _ _ _ _ E) as (a0 & a1 & _ & _ & I). destruct (init_inv _ _ _ _ _ I) as (t0 & t1 & _ & _ & _ & _ & ->). reflexivity. }
  unfold flip, oppositeTo, getDisplace, getAzimuth. rewrite D. auto.
Qed.
Print Assumptions C39_undirected_raises.

(** The displacement runs from p0 to p1, each component correctly rounded, and
    changes sign under flip. *)
Theorem C39_displacement : forall zoom l0 l1 b nd, Forall tame l0 -> Forall tame l1 ->
  make_bond zoom (PVec l0) (PVec l1) true = Ok b ->
  getDisplace b None = Ok (displacement l0 l1) /\
  getDisplace b nd = Ok (map (around nd) (displacement l0 l1)) /\
  exists c, flip zoom b = Ok c /\ getDisplace c None = Ok (map Ropp (displacement l0 l1)) /\
            getDisplace c nd = Ok (map Ropp (map (around nd) (displacement l0 l1))).
Proof.
  intros zoom l0 l1 b nd T0 T1 E. destruct (make_inv _ _ _ _ _ E) as (a0 & a1 & E0 & E1 & I).
  destruct (init_inv _ _ _ _ _ I) as (t0 & t1 & C0 & C1 & L0 & L1 & ->).
  destruct (arr_sub_displacement l0 l1 a0 a1 E0 E1 T0 T1) as [D1 D2].
  unfold getDisplace at 1 2. cbn [b_dir b_p0 b_p1]. rewrite D1. split; [f_equal; apply map_id|]. split; [reflexivity|].
  unfold flip. cbn [b_dir b_p0 b_p1]. rewrite (init_ok _ _ _ _ _ _ C1 C0) by lia. eexists. split; [reflexivity|].
  unfold getDisplace. cbn [b_dir b_p0 b_p1]. rewrite D2. split; [f_equal; apply map_id|]. f_equal. rewrite !map_map. apply map_ext.
  intros x. apply around_opp.
Qed.
Print Assumptions C39_displacement.

(** The length is the Euclidean norm of the displacement, the same both ways
    and independent of directional. *)
Theorem C39_length : forall zoom l0 l1 d e b c nd, Forall tame l0 -> Forall tame l1 ->
  make_bond zoom (PVec l0) (PVec l1) d = Ok b -> make_bond zoom (PVec l1) (PVec l0) e = Ok c ->
  getLength b None = euclid (displacement l0 l1) /\ getLength c nd = getLength b nd /\
  (d = true -> exists f, flip zoom b = Ok f /\ getLength f nd = getLength b nd).
Proof.
  intros zoom l0 l1 d e b c nd T0 T1 E E'. destruct (make_inv _ _ _ _ _ E) as (a0 & a1 & E0 & E1 & I).
  destruct (make_inv _ _ _ _ _ E') as (a1' & a0' & E1' & E0' & I'). rewrite E0 in E0'. injection E0' as <-. rewrite E1 in E1'. injection E1' as <-.
  destruct (init_inv _ _ _ _ _ I) as (t0 & t1 & C0 & C1 & L0 & L1 & ->).
  destruct (init_inv _ _ _ _ _ I') as (t0' & t1' & _ & _ & _ & _ & ->).
  destruct (arr_sub_displacement l0 l1 a0 a1 E0 E1 T0 T1) as [D1 D2].
  unfold getLength at 1 2 3. cbn [b_p0 b_p1]. rewrite D1, D2, norm_opp. split; [apply norm_euclid|]. split; [reflexivity|].
  intros ->. unfold flip. cbn [b_dir b_p0 b_p1]. rewrite (init_ok _ _ _ _ _ _ C1 C0) by lia. eexists. split; [reflexivity|].
  unfold getLength. cbn [b_p0 b_p1]. now rewrite D1, D2, norm_opp.
Qed.
Print Assumptions C39_length.

(** The azimuth in radians: the polar angle (alpha, beta: the spherical angles)
    of the displacement; in degrees it is 180/pi times that. *)
Theorem C39_azimuth : forall zoom l0 l1 b, Forall tame l0 -> Forall tame l1 ->
  make_bond zoom (PVec l0) (PVec l1) true = Ok b ->
  let L := getLength b None in
  match displacement l0 l1 with
  | [x] => exists t, getAzimuth b true None = Ok (AzOne t) /\ (t = 0 \/ t = - PI)%R /\ (L * cos t = x)%R /\
             getAzimuth b false None = Ok (AzOne (180 / PI * t)%R)
  | [x; y] => exists t, getAzimuth b true None = Ok (AzOne t) /\ (- PI < t <= PI)%R /\
             (L * cos t = x)%R /\ (L * sin t = y)%R /\ getAzimuth b false None = Ok (AzOne (180 / PI * t)%R)
  | [x; y; z] => exists alpha beta, getAzimuth b true None = Ok (AzTwo alpha beta) /\
             (0 <= alpha <= PI)%R /\ (- PI < beta <= PI)%R /\
             (L * cos alpha = z)%R /\ (L * sin alpha * cos beta = x)%R /\ (L * sin alpha * sin beta = y)%R /\
             getAzimuth b false None = Ok (AzTwo (180 / PI * alpha)%R (180 / PI * beta)%R)
  | _ => False
  end.
Proof.
  intros zoom l0 l1 b T0 T1 E. destruct (make_inv _ _ _ _ _ E) as (a0 & a1 & E0 & E1 & I).
  destruct (init_inv _ _ _ _ _ I) as (t0 & t1 & C0 & C1 & L0 & L1 & ->).
  destruct (arr_sub_displacement l0 l1 a0 a1 E0 E1 T0 T1) as [D1 D2].
  unfold getAzimuth, getLength. cbn [b_dir b_p0 b_p1 around]. rewrite D2, norm_opp, D1.
  assert (LL : List.length (displacement l0 l1) = alen a0).
  { unfold displacement. rewrite map_length, combine_length, <- (np_array_len _ _ E0), <- (np_array_len _ _ E1). lia. }
  destruct (displacement l0 l1) as [|x [|y [|z [|w r]]]]; cbn [List.length] in LL; try lia.
  - eexists. rewrite Rmult_1_l. split; [reflexivity|]. unfold norm. cbn [map sumR fold_right]. rewrite Rplus_0_r. fold (Rsqr x). rewrite sqrt_Rsqr_abs.
    destruct (Rle_dec 0 x) as [H|H].
    + rewrite cos_0, Rabs_pos_eq by lra. split; [auto|]. split; [ring|reflexivity].
    + rewrite cos_neg, cos_PI, Rabs_left by lra. split; [auto|]. split; [ring|reflexivity].
  - eexists. rewrite Rmult_1_l. split; [reflexivity|]. unfold norm. cbn [map sumR fold_right]. rewrite Rplus_0_r.
    destruct (atan2_spec y x) as (B & Cx & Cy). auto.
  - do 2 eexists. rewrite !Rmult_1_l. split; [reflexivity|]. unfold norm. cbn [map sumR fold_right]. rewrite Rplus_0_r, <- Rplus_assoc.
    destruct (atan2_spec y x) as (B & Cx & Cy). destruct (atan2_spec (sqrt (x * x + y * y)) z) as (B' & Cx' & Cy').
    rewrite sqrt_sqrt in Cx', Cy' by nra. rewrite (Rplus_comm (z * z)) in Cx', Cy'.
    split; [split; [apply atan2_nonneg, sqrt_pos|lra]|]. split; [exact B|]. rewrite Cy'. repeat split; auto.
Qed.
Print Assumptions C39_azimuth.

(** ** Boundaries *)

(** Refuted: flip after a change of precision does not give the bond back. *)
Theorem C39_flip_precision_refuted :
  exists b c d, make_bond (10 ^ 4) (PVec [NInt 0]) (PVec [NInt 1]) true = Ok b /\
    flip (10 ^ 2) b = Ok c /\ flip (10 ^ 2) c = Ok d /\ bond_eq d (OBond b) = false /\ endpoints d = endpoints b.
Proof. do 3 eexists. repeat (split; [vm_compute; reflexivity|]); vm_compute; reflexivity. Qed.
Print Assumptions C39_flip_precision_refuted.

(** Refuted: different points give different bonds.  0.0002 and 0.0003 share a
    cell; 2^60 overflows int64 and is taken for 0. *)
Theorem C39_distinct_points_refuted :
  (exists x y b c, int_true_div 2 10000 = Ok x /\ int_true_div 3 10000 = Ok y /\
     make_bond (10 ^ 4) (PVec [NInt 1]) (PVec [NFlt x]) true = Ok b /\ make_bond (10 ^ 4) (PVec [NInt 1]) (PVec [NFlt y]) true = Ok c /\
     bond_eq b (OBond c) = true) /\
  (exists b c, make_bond (10 ^ 4) (PVec [NInt 1]) (PVec [NInt (2 ^ 60)]) true = Ok b /\
     make_bond (10 ^ 4) (PVec [NInt 1]) (PVec [NInt 0]) true = Ok c /\ bond_eq b (OBond c) = true).
Proof.
  split; [do 4 eexists|do 2 eexists]; repeat (split; [vm_compute; reflexivity|]); vm_compute; reflexivity.
Qed.
Print Assumptions C39_distinct_points_refuted.

(** Non-vacuity: a two-dimensional bond with an int and a float endpoint. *)
Example C39_example :
  exists h b c, int_true_div 1 2 = Ok h /\
    Forall (moderate 4) [NInt 1; NFlt h] /\ Forall tame [NInt 1; NFlt h] /\ Forall (moderate 4) [NInt 0; NInt 2] /\ Forall tame [NInt 0; NInt 2] /\
    make_bond (10 ^ 4) (PVec [NInt 1; NFlt h]) (PVec [NInt 0; NInt 2]) true = Ok b /\
    make_bond (10 ^ 4) (PVec [NInt 0; NInt 2]) (PVec [NInt 1; NFlt h]) true = Ok c /\
    oppositeTo (10 ^ 4) b (OBond c) = Ok true /\ bond_eq b (OBond c) = false.
Proof.
  assert (Hh : int_true_div 1 2 = Ok (S754_finite false 4503599627370496 (-53))) by (vm_compute; reflexivity).
  assert (V : coord_value (NFlt (S754_finite false 4503599627370496 (-53))) = (1 / 2)%R).
  { cbn [coord_value]. change (bpow radix2 (-53)) with (/ IZR (2 ^ 53))%R. change (2 ^ 53) with 9007199254740992. lra. }
  assert (P : bpow radix2 51 = IZR (2 ^ 51)) by reflexivity.
  assert (Q : (2 <= bpow radix2 1022)%R) by (change 2%R with (bpow radix2 1); apply bpow_le; lia).
  change (2 ^ 51) with 2251799813685248 in P.
  assert (M : Forall (moderate 4) [NInt 1; NFlt (S754_finite false 4503599627370496 (-53))] /\ Forall (moderate 4) [NInt 0; NInt 2]).
  { assert (I : forall z, -2 <= z <= 2 -> moderate 4 (NInt z)).
    { intros z Hz. split; [exact I|]. rewrite P. cbn [coord_value]. rewrite <- mult_IZR, <- abs_IZR. apply IZR_le. change (10 ^ 4) with 10000. lia. }
    assert (F : moderate 4 (NFlt (S754_finite false 4503599627370496 (-53)))).
    { split; [reflexivity|]. rewrite V, P. change (10 ^ 4) with 10000. apply Rabs_le. lra. }
    split; (apply Forall_cons; [apply I; lia|apply Forall_cons; [|apply Forall_nil]]); [exact F|apply I; lia]. }
  assert (T : Forall tame [NInt 1; NFlt (S754_finite false 4503599627370496 (-53))] /\ Forall tame [NInt 0; NInt 2]).
  { assert (I : forall z, -2 <= z <= 2 -> tame (NInt z)) by (intros z Hz; cbn [tame]; change (2 ^ 52) with 4503599627370496; lia).
    split; (apply Forall_cons; [apply I; lia|apply Forall_cons; [|apply Forall_nil]]); [|apply I; lia].
    split; [reflexivity|]. rewrite V. apply Rabs_le. lra. }
  do 3 eexists. split; [exact Hh|]. split; [apply M|]. split; [apply T|]. split; [apply M|]. split; [apply T|].
  split; [vm_compute; reflexivity|]. split; [vm_compute; reflexivity|]. split; vm_compute; reflexivity.
Qed.
