(** C62: the first Brillouin zone and the lines drawn. *)
From Coq Require Import String List Reals ZArith Bool Arith Lra Lia Psatz.
From Verif Require Import Py Line2D_Model Lattice_Model Lattice_Spec Lattice_Proofs Lattice_Proofs2 LatticeGen_Model Reciprocal_Model Reciprocal_Spec Reciprocal_Proofs Reciprocal_Properties Zone_Proofs BrillouinZone_Proofs
  ColorPrint_Model Text_Model Figures_Model Figures_Spec Figures_Proofs.
Import ListNotations.
Open Scope R_scope.

Lemma abs_bounds a b : Rabs a <= b -> - b <= a <= b.
Proof. unfold Rabs. destruct (Rcase_abs a); lra. Qed.
Definition orth (K : point) : point := (- coord 1 K, coord 0 K, 0).
Definition at_ (K : point) (u : R) : point := vadd (vscale (1 / 2) K) (vscale u (orth K)).
Lemma bisector_points s K p : on_segment (fst (bisector s K)) (snd (bisector s K)) p <-> exists u, Rabs u <= Rabs s /\ p = at_ K u.
Proof.
  unfold bisector, at_. cbn [fst snd]. fold (orth K). generalize (vscale (1 / 2) K) (orth K). intros C O. clear K. split.
  - intros (t & Ht & ->). exists ((1 - 2 * t) * s). split.
    + rewrite Rabs_mult. rewrite <- (Rmult_1_l (Rabs s)) at 2. apply Rmult_le_compat_r; [apply Rabs_pos|]. apply Rabs_le. lra.
    + destruct C as [[? ?] ?], O as [[? ?] ?]. cbn. apply p3_eq; ring.
  - intros (u & Hu & ->). destruct (Req_dec s 0) as [->|Ns].
    + rewrite Rabs_R0 in Hu. assert (u = 0) as ->. { pose proof (Rabs_pos u). destruct (Req_dec u 0); [assumption|]. apply Rabs_pos_lt in H0. lra. }
      exists 0. split; [lra|]. destruct C as [[? ?] ?], O as [[? ?] ?]. cbn. apply p3_eq; ring.
    + exists ((1 - u / s) / 2). assert (R1 : Rabs (u / s) <= 1). { unfold Rdiv. rewrite Rabs_mult, Rabs_inv. apply (Rmult_le_reg_r (Rabs s)); [now apply Rabs_pos_lt|]. rewrite Rmult_assoc, Rinv_l by (now apply Rabs_no_R0). lra. }
      apply abs_bounds in R1. split; [lra|]. destruct C as [[? ?] ?], O as [[? ?] ?]. cbn. apply p3_eq; field; auto.
Qed.
Lemma equi_iff k g : norm k = dist k g <-> 2 * vdot k g = vdot g g.
Proof.
  split; intros H.
  - apply Rle_antisym; [apply near_iff; lra|]. apply Rnot_lt_le. intros L. apply nearer_iff in L. lra.
  - apply Rle_antisym; [apply near_iff; lra|]. apply Rnot_lt_le. intros L. apply nearer_iff in L. lra.
Qed.
Lemma on_line K k : in_space 2 K -> in_space 2 k -> K <> v0 -> 2 * vdot k K = vdot K K -> exists u, k = at_ K u.
Proof.
  destruct K as [[x y] z], k as [[u v] w]. cbn [in_space]. intros -> -> N H. cbn [vdot] in H.
  assert (P : x * x + y * y <> 0). { intros E. apply N. destruct (Rplus_sqr_eq_0 x y E) as [-> ->]. reflexivity. }
  set (s := ((v - 1 / 2 * y) * x - (u - 1 / 2 * x) * y) / (x * x + y * y)).
  assert (Es : s * (x * x + y * y) = (v - 1 / 2 * y) * x - (u - 1 / 2 * x) * y) by (unfold s; field; exact P).
  assert (Eu : u - 1 / 2 * x = - s * y).
  { apply (Rmult_eq_reg_r (x * x + y * y)); [|exact P]. transitivity (- (s * (x * x + y * y)) * y); [rewrite Es|ring].
    transitivity ((u - 1 / 2 * x) * (x * x + y * y) - x * (u * x + v * y - 1 / 2 * (x * x + y * y))); [replace (u * x + v * y) with (1 / 2 * (x * x + y * y)) by lra; ring|ring]. }
  assert (Ev : v - 1 / 2 * y = s * x).
  { apply (Rmult_eq_reg_r (x * x + y * y)); [|exact P]. transitivity ((s * (x * x + y * y)) * x); [rewrite Es|ring].
    transitivity ((v - 1 / 2 * y) * (x * x + y * y) - y * (u * x + v * y - 1 / 2 * (x * x + y * y))); [replace (u * x + v * y) with (1 / 2 * (x * x + y * y)) by lra; ring|ring]. }
  exists s. clearbody s. unfold at_, orth. cbn [coord vadd vscale]. apply p3_eq; lra.
Qed.
Lemma at_line K u : in_space 2 K -> 2 * vdot (at_ K u) K = vdot K K.
Proof. destruct K as [[x y] z]. cbn [in_space]. intros ->. unfold at_, orth. cbn. field. Qed.
Lemma at_space K u : in_space 2 K -> in_space 2 (at_ K u).
Proof. destruct K as [[x y] z]. cbn. intros ->. ring. Qed.
Lemma at_inj K u u' : in_space 2 K -> K <> v0 -> at_ K u = at_ K u' -> u = u'.
Proof.
  destruct K as [[x y] z]. cbn [in_space]. intros -> N E. unfold at_, orth in E. cbn in E. apply point_inj in E as (E1 & E2 & _).
  destruct (Req_dec x 0) as [->|Nx]; [destruct (Req_dec y 0) as [->|Ny]; [exfalso; now apply N|]|].
  - apply (Rmult_eq_reg_r y); [lra|exact Ny].
  - apply (Rmult_eq_reg_r x); [lra|exact Nx].
Qed.
Lemma Rle_abs_both a b : - b <= a <= b <-> Rabs a <= b.
Proof. split; [apply Rabs_le|]. intros H. now apply abs_bounds in H. Qed.
Lemma abs_cases r a : 0 <= a -> Rabs r = a -> r = a \/ r = - a.
Proof. intros _ H. unfold Rabs in H. destruct (Rcase_abs r); lra. Qed.

Section Pair.
  Variables (b0 b1 : point).
  Hypothesis (S0 : in_space 2 b0) (S1 : in_space 2 b1).
  Let A := vdot b0 b0. Let B := vdot b1 b1. Let c := vdot b0 b1.
  Let D := coord 0 b0 * coord 1 b1 - coord 1 b0 * coord 0 b1.
  Hypothesis (HD : D <> 0) (HA : 2 * Rabs c <= A) (HB : 2 * Rabs c <= B).
  Definition Kmn (m n : Z) : point := vadd (vscale (IZR m) b0) (vscale (IZR n) b1).
  Lemma Kmn_space m n : in_space 2 (Kmn m n). Proof. apply in_space_add; now apply in_space_scale. Qed.
  Lemma Kmn_sq m n : vdot (Kmn m n) (Kmn m n) = rhs A B c m n.
  Proof. unfold Kmn, rhs, A, B, c. rewrite vdot_add_l, !vdot_add_r, !vdot_scale_l, !vdot_scale_r, (vdot_comm b1 b0). ring. Qed.
  Lemma Kmn_dot k m n : 2 * vdot k (Kmn m n) = IZR m * (2 * vdot k b0) + IZR n * (2 * vdot k b1).
  Proof. unfold Kmn. rewrite vdot_add_r, !vdot_scale_r. ring. Qed.
  Lemma D2 : D * D = A * B - c * c.
  Proof. unfold D, A, B, c. destruct b0 as [[? ?] ?], b1 as [[? ?] ?]. cbn in *. subst. ring. Qed.
  Lemma Kmn_nz m n : (m, n) <> (0, 0)%Z -> Kmn m n <> v0.
  Proof.
    clear HA HB S0 S1. intros N E. apply N. unfold Kmn in E. destruct b0 as [[x y] z], b1 as [[x' y'] z']. cbn in E. apply point_inj in E as (E1 & E2 & _). unfold D in HD. cbn in HD.
    assert (M1 : IZR m * (x * y' - y * x') = 0) by (transitivity ((IZR m * x + IZR n * x') * y' - (IZR m * y + IZR n * y') * x'); [ring|rewrite E1, E2; ring]).
    assert (M2 : IZR n * (x * y' - y * x') = 0) by (transitivity ((IZR m * y + IZR n * y') * x - (IZR m * x + IZR n * x') * y); [ring|rewrite E1, E2; ring]).
    apply Rmult_integral in M1 as [M1|M1]; [|contradiction]. apply Rmult_integral in M2 as [M2|M2]; [|contradiction]. apply eq_IZR in M1, M2. now subst.
  Qed.
  Lemma zone_iff k : first_BZ 2 [b0; b1] k <-> in_space 2 k /\ four A B c (2 * vdot k b0) (2 * vdot k b1).
  Proof.
    split; intros [Sk H]; (split; [exact Sk|]).
    - apply four_of. intros m n _ _. rewrite <- Kmn_dot, <- Kmn_sq. apply near_iff. specialize (H [m; n] eq_refl). destruct (pair_shift [m; n] b0 b1 eq_refl) as (m' & n' & E & ES). injection E as <- <-. rewrite ES in H. exact H.
    - intros ns L. destruct (pair_shift ns b0 b1 L) as (m & n & -> & ES). rewrite ES. fold (Kmn m n). apply near_iff. rewrite Kmn_dot, Kmn_sq. destruct (Z.eq_dec m 0) as [->|Nm]; [destruct (Z.eq_dec n 0) as [->|Nn]|].
      + unfold rhs. lra.
      + now apply half_planes; [..|congruence].
      + now apply half_planes; [..|congruence].
  Qed.
  Definition tight4 (x y : R) : Prop := Rabs x = A \/ Rabs y = B \/ Rabs (x + y) = A + B + 2 * c \/ Rabs (x - y) = A + B - 2 * c.
  Lemma boundary_four k : zone_boundary [b0; b1] k -> in_space 2 k /\ four A B c (2 * vdot k b0) (2 * vdot k b1) /\ tight4 (2 * vdot k b0) (2 * vdot k b1).
  Proof.
    intros (Z & ns & L & (q & Hq & Nq) & E). apply zone_iff in Z as [Sk F]. split; [exact Sk|]. split; [exact F|]. destruct (pair_shift ns b0 b1 L) as (m & n & -> & ES). rewrite ES in E. fold (Kmn m n) in E. apply equi_iff in E.
    rewrite Kmn_dot, Kmn_sq in E. apply (half_planes A B c _ _ m n); auto. intros X. injection X as -> ->. destruct Hq as [<-|[<-|[]]]; contradiction.
  Qed.
  Lemma boundary_of k m n : in_space 2 k -> four A B c (2 * vdot k b0) (2 * vdot k b1) -> (m, n) <> (0, 0)%Z -> 2 * vdot k (Kmn m n) = vdot (Kmn m n) (Kmn m n) -> zone_boundary [b0; b1] k.
  Proof.
    intros Sk F N E. split; [now apply zone_iff|]. exists [m; n]. split; [reflexivity|]. split.
    - destruct (Z.eq_dec m 0) as [->|Nm]; [exists n|exists m]; cbn; split; auto. intros ->. now apply N.
    - apply equi_iff. change (shift [m; n] [b0; b1]) with (vadd (vscale (IZR m) b0) (vadd (vscale (IZR n) b1) v0)). rewrite vadd_0_r. exact E.
  Qed.
  Lemma at_dots m n u : 2 * vdot (at_ (Kmn m n) u) b0 = IZR m * A + IZR n * c - 2 * IZR n * u * D /\ 2 * vdot (at_ (Kmn m n) u) b1 = IZR m * c + IZR n * B + 2 * IZR m * u * D.
  Proof. unfold at_, orth, Kmn, D, A, B, c. destruct b0 as [[? ?] ?], b1 as [[? ?] ?]. cbn in *. subst. split; field. Qed.
  (** how far an edge of the zone reaches *)
  Lemma edge_length m n u : (-1 <= m <= 1)%Z -> (-1 <= n <= 1)%Z -> (m, n) <> (0, 0)%Z -> four A B c (2 * vdot (at_ (Kmn m n) u) b0) (2 * vdot (at_ (Kmn m n) u) b1) ->
    Rabs (2 * u * D) <= Rmax A B - Rabs c.
  Proof.
    intros Hm Hn N (X & Y & P & M). destruct (at_dots m n u) as [E0 E1]. rewrite E0, E1 in *. clear E0 E1.
    apply Rle_abs_both in X, Y, P, M. pose proof (Rmax_l A B) as ML. pose proof (Rmax_r A B) as MR.
    assert (Am : (m = -1 \/ m = 0 \/ m = 1)%Z) by lia. assert (An : (n = -1 \/ n = 0 \/ n = 1)%Z) by lia.
    assert (C1 : Rabs c = c \/ Rabs c = - c) by (unfold Rabs; destruct (Rcase_abs c); auto).
    assert (C2 : c <= Rabs c /\ - c <= Rabs c) by (split; [apply Rle_abs|rewrite <- Rabs_Ropp; apply Rle_abs]).
    apply Rabs_le. destruct Am as [-> | [-> | ->]], An as [-> | [-> | ->]]; try (exfalso; now apply N); destruct C1 as [C1|C1]; lra.
  Qed.
  Lemma tight_Kmn k : tight4 (2 * vdot k b0) (2 * vdot k b1) -> exists m n, (-1 <= m <= 1)%Z /\ (-1 <= n <= 1)%Z /\ (m, n) <> (0, 0)%Z /\ 2 * vdot k (Kmn m n) = vdot (Kmn m n) (Kmn m n).
  Proof.
    intros T. assert (W : forall r a, Rabs r = a -> r = a \/ - r = a) by (intros r a; unfold Rabs; destruct (Rcase_abs r); lra).
    destruct T as [T|[T|[T|T]]]; apply W in T as [T|T]; [exists 1%Z, 0%Z|exists (-1)%Z, 0%Z|exists 0%Z, 1%Z|exists 0%Z, (-1)%Z|exists 1%Z, 1%Z|exists (-1)%Z, (-1)%Z|exists 1%Z, (-1)%Z|exists (-1)%Z, 1%Z];
      (split; [lia|]; split; [lia|]; split; [congruence|]; rewrite Kmn_dot, Kmn_sq; unfold rhs; lra).
  Qed.
  Lemma Apos : 0 < A. Proof. assert (0 < D * D) by nra. rewrite D2 in H. unfold A, B in *. pose proof (vdot_nonneg b0). pose proof (vdot_nonneg b1). destruct (Req_dec (vdot b0 b0) 0) as [E|E]; [rewrite E in H; nra|lra]. Qed.
  Lemma Bpos : 0 < B. Proof. assert (0 < D * D) by nra. rewrite D2 in H. unfold A, B in *. pose proof (vdot_nonneg b0). pose proof (vdot_nonneg b1). destruct (Req_dec (vdot b1 b1) 0) as [E|E]; [rewrite E in H; nra|lra]. Qed.
  Definition lines (s : R) : list (point * point) :=
    map (fun coeff => bisector s (comb coeff [b0; b1])) (filter (fun coeff => negb (zs_eqb coeff [0; 0]%Z)) (product (zrange (-1) 2) 2)).
  Lemma comb_pair m n : comb [m; n] [b0; b1] = Kmn m n.
  Proof. unfold Kmn. cbn [comb]. now rewrite vadd_0_r. Qed.
  Lemma lines_in s g : In g (lines s) <-> exists m n, (-1 <= m <= 1)%Z /\ (-1 <= n <= 1)%Z /\ (m, n) <> (0, 0)%Z /\ g = bisector s (Kmn m n).
  Proof.
    unfold lines. split.
    - intros H. apply in_map_iff in H as (co & <- & H). apply filter_In in H as [H Nz]. apply in_product in H as [L F]. destruct co as [|m [|n [|]]]; try discriminate.
      inversion F as [|? ? Fm F']; subst. inversion F' as [|? ? Fn _]; subst. apply in_zrange in Fm, Fn. exists m, n. split; [lia|]. split; [lia|]. split; [intros E; injection E as -> ->; discriminate|]. now rewrite comb_pair.
    - intros (m & n & Hm & Hn & N & ->). apply in_map_iff. exists [m; n]. rewrite comb_pair. split; [reflexivity|]. apply filter_In. split.
      + apply in_product. split; [reflexivity|]. apply Forall_cons; [apply in_zrange; lia|]. apply Forall_cons; [apply in_zrange; lia|]. constructor.
      + cbn [zs_eqb]. destruct (Z.eqb_spec m 0) as [->|], (Z.eqb_spec n 0) as [->|]; try reflexivity. exfalso. now apply N.
  Qed.
  Lemma drawn_iff s p : drawn (lines s) p <-> exists m n u, (-1 <= m <= 1)%Z /\ (-1 <= n <= 1)%Z /\ (m, n) <> (0, 0)%Z /\ Rabs u <= Rabs s /\ p = at_ (Kmn m n) u.
  Proof.
    split.
    - intros (g & Hg & Hp). apply lines_in in Hg as (m & n & Hm & Hn & N & ->). apply bisector_points in Hp as (u & Hu & ->). exists m, n, u. auto.
    - intros (m & n & u & Hm & Hn & N & Hu & ->). exists (bisector s (Kmn m n)). split; [apply lines_in; eauto 8|]. apply bisector_points. eauto.
  Qed.
  Lemma covered s : Rmax A B - Rabs c <= 2 * Rabs s * Rabs D -> forall k, zone_boundary [b0; b1] k -> drawn (lines s) k.
  Proof.
    intros H k Hk. apply boundary_four in Hk as (Sk & F & T). apply tight_Kmn in T as (m & n & Hm & Hn & N & E).
    destruct (on_line (Kmn m n) k (Kmn_space m n) Sk (Kmn_nz m n N) E) as (u & ->). apply drawn_iff. exists m, n, u. repeat (split; [assumption|]). split; [|reflexivity].
    pose proof (edge_length m n u Hm Hn N F) as G. rewrite !Rabs_mult, (Rabs_right 2) in G by lra. apply (Rmult_le_reg_r (Rabs D)); [now apply Rabs_pos_lt|]. lra.
  Qed.
  Lemma not_covered s : 2 * Rabs s * Rabs D < Rmax A B - Rabs c -> exists k, zone_boundary [b0; b1] k /\ ~ drawn (lines s) k.
  Proof.
    intros H. pose proof (Rabs_pos_lt D HD) as PD. pose proof (Rabs_pos s) as PS. pose proof Apos as PA. pose proof Bpos as PB.
    set (u := (Rabs s + (Rmax A B - Rabs c) / (2 * Rabs D)) / 2). set (q := (Rmax A B - Rabs c) / (2 * Rabs D)) in *.
    assert (Q : 2 * Rabs D * q = Rmax A B - Rabs c) by (unfold q; field; lra). assert (SQ : Rabs s < q) by (apply (Rmult_lt_reg_l (2 * Rabs D)); lra).
    assert (U : Rabs s < u < q) by (unfold u; lra). clearbody u q. assert (UD : Rabs (2 * u * D) < Rmax A B - Rabs c).
    { rewrite !Rabs_mult, (Rabs_right 2), (Rabs_right u) by lra. rewrite <- Q. replace (2 * u * Rabs D) with (2 * Rabs D * u) by ring. apply Rmult_lt_compat_l; lra. }
    assert (CB : c <= Rabs c /\ - c <= Rabs c) by (split; [apply Rle_abs|rewrite <- Rabs_Ropp; apply Rle_abs]).
    assert (UU : - (Rmax A B - Rabs c) < 2 * u * D < Rmax A B - Rabs c) by (unfold Rabs at 1 in UD; destruct (Rcase_abs (2 * u * D)); lra).
    destruct (Rle_or_lt A B) as [AB|AB].
    - rewrite (Rmax_right A B AB) in UU. exists (at_ (Kmn 1 0) u). destruct (at_dots 1 0 u) as [E0 E1]. ring_simplify in E0. assert (E1' : 2 * vdot (at_ (Kmn 1 0) u) b1 = c + 2 * u * D) by (rewrite E1; ring).
      assert (E0' : 2 * vdot (at_ (Kmn 1 0) u) b0 = A) by lra. clear E0 E1. split.
      + apply (boundary_of _ 1 0); [apply at_space, Kmn_space| |congruence|apply at_line, Kmn_space]. rewrite E0', E1'. repeat split; apply Rabs_le; lra.
      + intros Dr. apply drawn_iff in Dr as (m & n & u' & Hm & Hn & N & Hu & E). pose proof (at_line (Kmn m n) u' (Kmn_space m n)) as L. rewrite <- E, Kmn_dot, Kmn_sq, E0', E1' in L. unfold rhs in L.
        assert (Am : (m = -1 \/ m = 0 \/ m = 1)%Z) by lia. assert (An : (n = -1 \/ n = 0 \/ n = 1)%Z) by lia.
        destruct Am as [-> | [-> | ->]], An as [-> | [-> | ->]]; try (exfalso; now apply N); try lra.
        apply at_inj in E; [|apply Kmn_space|apply Kmn_nz; congruence]. rewrite <- E, Rabs_right in Hu by lra. lra.
    - rewrite (Rmax_left A B) in UU by lra. exists (at_ (Kmn 0 1) u). destruct (at_dots 0 1 u) as [E0 E1]. assert (E0' : 2 * vdot (at_ (Kmn 0 1) u) b0 = c - 2 * u * D) by (rewrite E0; ring).
      assert (E1' : 2 * vdot (at_ (Kmn 0 1) u) b1 = B) by lra. clear E0 E1. split.
      + apply (boundary_of _ 0 1); [apply at_space, Kmn_space| |congruence|apply at_line, Kmn_space]. rewrite E0', E1'. repeat split; apply Rabs_le; lra.
      + intros Dr. apply drawn_iff in Dr as (m & n & u' & Hm & Hn & N & Hu & E). pose proof (at_line (Kmn m n) u' (Kmn_space m n)) as L. rewrite <- E, Kmn_dot, Kmn_sq, E0', E1' in L. unfold rhs in L.
        assert (Am : (m = -1 \/ m = 0 \/ m = 1)%Z) by lia. assert (An : (n = -1 \/ n = 0 \/ n = 1)%Z) by lia.
        destruct Am as [-> | [-> | ->]], An as [-> | [-> | ->]]; try (exfalso; now apply N); try lra.
        apply at_inj in E; [|apply Kmn_space|apply Kmn_nz; congruence]. rewrite <- E, Rabs_right in Hu by lra. lra.
  Qed.
End Pair.
