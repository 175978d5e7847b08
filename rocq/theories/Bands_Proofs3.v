From Coq Require Import Reals String List ZArith Bool Arith Lia Lra.
From Coquelicot Require Import Complex.
From Verif Require Import Py CVec Line2D_Model Line2D_Proofs Lattice_Model Lattice_Spec Lattice_Proofs LatticeCases_Properties LatticeGen_Model LatticeGen_Spec LatticeHex_Proofs
  GF_Spec Free_Spec Bloch_Spec Bands_Spec Bands_Proofs Bands_Proofs2.
Import ListNotations.
Local Open Scope nat_scope.
Local Open Scope C_scope.

Lemma vdot_shift1 k a m : vdot k (shift [m] [a]) = (IZR m * vdot k a)%R.
Proof. destruct k as [[k1 k2] k3], a as [[a1 a2] a3]. unfold shift. cbn. ring. Qed.
Lemma vdot_shift2 k a b m n : vdot k (shift [m; n] [a; b]) = (IZR m * vdot k a + IZR n * vdot k b)%R.
Proof. destruct k as [[k1 k2] k3], a as [[a1 a2] a3], b as [[b1 b2] b3]. unfold shift. cbn. ring. Qed.
Lemma vdot_shift3 k a b c m n l : vdot k (shift [m; n; l] [a; b; c]) = (IZR m * vdot k a + IZR n * vdot k b + IZR l * vdot k c)%R.
Proof. destruct k as [[k1 k2] k3], a as [[a1 a2] a3], b as [[b1 b2] b3], c as [[d1 d2] d3]. unfold shift. cbn. ring. Qed.
Lemma half_is : 0.5%R = (1 / 2)%R. Proof. lra. Qed.

Section Hex.
  Variable k : point.
  Let x := vdot k angle1.
  Let y := vdot k angle2.
  Lemma hex_plane m n : plane k (shift [m; n] [(1, 0, 0); (0.5, sqrt 3 / 2, 0)]%R) = ei (IZR m * x + IZR n * y).
  Proof. rewrite plane_ei, vdot_shift2. unfold x, y, angle1, angle2. rewrite half_is. reflexivity. Qed.
  Lemma hexagon_is : hexagon angle1 angle2 k = (cos x + cos y + cos (x - y))%R.
  Proof. unfold hexagon, x, y. do 2 f_equal. generalize angle1, angle2. intros [[a1 a2] a3] [[b1 b2] b3]. destruct k as [[k1 k2] k3]. cbn. ring. Qed.
  (** the phases and their inverses *)
  Let u := ei x. Let u' := ei (- x). Let v := ei y. Let v' := ei (- y).
  Lemma uu : u * u' = c1. Proof. apply ei_inv. Qed.
  Lemma vv : v * v' = c1. Proof. apply ei_inv. Qed.
  Lemma hexagon_C : RtoC (2 * hexagon angle1 angle2 k) = u + u' + v + v' + u * v' + u' * v.
  Proof.
    rewrite hexagon_is. replace (2 * (cos x + cos y + cos (x - y)))%R with (2 * cos x + 2 * cos y + 2 * cos (x - y))%R by ring. rewrite !RtoC_plus, <- !ei_sum.
    replace (x - y)%R with (x + - y)%R by ring. replace (- (x + - y))%R with (- x + y)%R by ring. rewrite !ei_add. fold u u' v v'. ring.
  Qed.
  Lemma dirac_sq : (dirac k * dirac k = 3 + 2 * hexagon angle1 angle2 k)%R.
  Proof.
    unfold dirac. apply sqrt_sqrt. rewrite hexagon_is, cos_minus. pose proof (sin2_cos2 x) as A. pose proof (sin2_cos2 y) as B. unfold Rsqr in A, B.
    replace (3 + 2 * (cos x + cos y + (cos x * cos y + sin x * sin y)))%R with ((1 + cos x + cos y) * (1 + cos x + cos y) + (sin x + sin y) * (sin x + sin y))%R; [apply Rplus_le_le_0_compat; apply Rle_0_sqr|].
    replace 3%R with (1 + (sin x * sin x + cos x * cos x) + (sin y * sin y + cos y * cos y))%R by lra. ring.
  Qed.
  Lemma dirac_C : RtoC (dirac k) * RtoC (dirac k) = RtoC 3 + (u + u' + v + v' + u * v' + u' * v).
  Proof. rewrite <- RtoC_mult, dirac_sq, RtoC_plus, hexagon_C. reflexivity. Qed.
  Definition three_is : RtoC 3 = RtoC 1 + RtoC 1 + RtoC 1.
  Proof. rewrite <- !RtoC_plus. f_equal. ring. Qed.

  Variables (t omega eta : R) (G : cmat).
  Hypothesis He : eta <> 0%R.
  Let z := frequency omega eta.

  Ltac phases := rewrite ?hex_plane;
    repeat match goal with |- context [ei (IZR ?m * x + IZR ?n * y)] =>
      first [ replace (IZR m * x + IZR n * y)%R with 0%R by ring
            | replace (IZR m * x + IZR n * y)%R with x by ring | replace (IZR m * x + IZR n * y)%R with (- x)%R by ring
            | replace (IZR m * x + IZR n * y)%R with y by ring | replace (IZR m * x + IZR n * y)%R with (- y)%R by ring
            | replace (IZR m * x + IZR n * y)%R with (x + - y)%R by ring | replace (IZR m * x + IZR n * y)%R with (- x + y)%R by ring ] end;
    rewrite ?ei_0, ?ei_add; fold u u' v v'.
  Ltac entry := unfold bloch_matrix, first_neighbours; cbn [String.eqb Ascii.eqb Bool.eqb filter fst snd Nat.eqb cvectors triangle_cell honeycomb_cell kagome_cell total fold_right]; phases; change c0 with (RtoC 0); change c1 with (RtoC 1); try ring.

  Lemma triangle_trace : resolvent 1 (bloch_matrix triangle_cell t (first_neighbours "triangle") k) z G ->
    csum 1 (fun a => G a a) = / (z - RtoC (2 * t * hexagon angle1 angle2 k)).
  Proof.
    intros H. apply trace1 in H.
    assert (E : bloch_matrix triangle_cell t (first_neighbours "triangle") k 0%nat 0%nat = RtoC (2 * t * hexagon angle1 angle2 k)).
    { transitivity (RtoC t * (u + u' + v + v' + u * v' + u' * v)); [entry|]. rewrite <- hexagon_C, <- RtoC_mult. f_equal. ring. }
    rewrite E in H. pose proof (off_axis omega eta (2 * t * hexagon angle1 angle2 k) He) as N. fold z in N. cbn [csum]. rewrite Cplus_0_l.
    rewrite <- (Cmult_1_r (G 0%nat 0%nat)), <- (Cinv_r _ N), Cmult_assoc, H. apply Cmult_1_l.
  Qed.
  Lemma honeycomb_trace : resolvent 2 (bloch_matrix honeycomb_cell t (first_neighbours "honeycomb") k) z G ->
    csum 2 (fun a => G a a) = / (z - RtoC (t * dirac k)) + / (z - RtoC (- (t * dirac k))).
  Proof.
    intros H. apply trace2 in H. set (T := csum 2 (fun a => G a a)) in *.
    assert (E00 : bloch_matrix honeycomb_cell t (first_neighbours "honeycomb") k 0%nat 0%nat = RtoC 0) by entry.
    assert (E11 : bloch_matrix honeycomb_cell t (first_neighbours "honeycomb") k 1%nat 1%nat = RtoC 0) by entry.
    assert (E01 : bloch_matrix honeycomb_cell t (first_neighbours "honeycomb") k 0%nat 1%nat = RtoC t * (RtoC 1 + u * v' + v')) by entry.
    assert (E10 : bloch_matrix honeycomb_cell t (first_neighbours "honeycomb") k 1%nat 0%nat = RtoC t * (RtoC 1 + u' * v + v)) by entry.
    rewrite E00, E11, E01, E10 in H.
    assert (P : (RtoC 1 + u * v' + v') * (RtoC 1 + u' * v + v) = RtoC (dirac k) * RtoC (dirac k)).
    { rewrite dirac_C, three_is. pose proof uu as U. pose proof vv as V. transitivity (RtoC 1 + u' * v + v + u * v' + (u * u') * (v * v') + u * (v * v') + v' + u' * (v * v') + v * v'); [ring|]. rewrite U, V. change c1 with (RtoC 1). ring. }
    pose proof (off_axis omega eta (t * dirac k) He) as N1. pose proof (off_axis omega eta (- (t * dirac k)) He) as N2. fold z in N1, N2. rewrite RtoC_opp, RtoC_mult in *. set (D := RtoC (dirac k)) in *. set (tt := RtoC t) in *.
    replace ((z - RtoC 0) * (z - RtoC 0) - tt * (RtoC 1 + u * v' + v') * (tt * (RtoC 1 + u' * v + v))) with ((z - tt * D) * (z - - (tt * D))) in H.
    2:{ transitivity (z * z - tt * tt * (D * D)); [ring|]. rewrite <- P. ring. }
    set (A := z - tt * D) in *. set (B := z - - (tt * D)) in *. replace (z - RtoC 0 + (z - RtoC 0)) with (A + B) in H by (unfold A, B; ring).
    change c0 with (RtoC 0) in N1, N2.
    rewrite <- (Cmult_1_r T), <- (Cinv_r (A * B)), Cmult_assoc, H by (now apply Cmult_neq_0). field. split; assumption.
  Qed.
  Lemma kagome_trace : resolvent 3 (bloch_matrix kagome_cell t (first_neighbours "kagome") k) z G ->
    csum 3 (fun a => G a a) = / (z - RtoC (- (2 * t))) + (/ (z - RtoC (t + t * dirac k)) + / (z - RtoC (t - t * dirac k))).
  Proof.
    intros H. apply trace3 in H; [|entry|entry|entry]. set (T := csum 3 (fun a => G a a)) in *.
    assert (E01 : bloch_matrix kagome_cell t (first_neighbours "kagome") k 0%nat 1%nat = RtoC t * (RtoC 1 + v')) by entry.
    assert (E10 : bloch_matrix kagome_cell t (first_neighbours "kagome") k 1%nat 0%nat = RtoC t * (RtoC 1 + v)) by entry.
    assert (E02 : bloch_matrix kagome_cell t (first_neighbours "kagome") k 0%nat 2%nat = RtoC t * (RtoC 1 + u')) by entry.
    assert (E20 : bloch_matrix kagome_cell t (first_neighbours "kagome") k 2%nat 0%nat = RtoC t * (RtoC 1 + u)) by entry.
    assert (E12 : bloch_matrix kagome_cell t (first_neighbours "kagome") k 1%nat 2%nat = RtoC t * (RtoC 1 + u' * v)) by entry.
    assert (E21 : bloch_matrix kagome_cell t (first_neighbours "kagome") k 2%nat 1%nat = RtoC t * (RtoC 1 + u * v')) by entry.
    rewrite E01, E10, E02, E20, E12, E21 in H. clear E01 E10 E02 E20 E12 E21.
    pose proof (off_axis omega eta (- (2 * t)) He) as N1. pose proof (off_axis omega eta (t + t * dirac k) He) as N2. pose proof (off_axis omega eta (t - t * dirac k) He) as N3. fold z in N1, N2, N3.
    pose proof dirac_C as DC. pose proof uu as U. pose proof vv as V. rewrite three_is in DC. change c1 with (RtoC 1) in U, V. change c0 with (RtoC 0) in N1, N2, N3.
    replace (RtoC (- (2 * t))) with (- (RtoC t + RtoC t)) in * by (rewrite <- RtoC_plus, <- RtoC_opp; f_equal; ring). rewrite RtoC_minus, RtoC_plus, RtoC_mult in *. set (D := RtoC (dirac k)) in *. set (tt := RtoC t) in *.
    set (A := z - - (tt + tt)) in *. set (B := z - (tt + tt * D)) in *. set (F := z - (tt - tt * D)) in *.
    assert (S2 : tt * (RtoC 1 + v') * (tt * (RtoC 1 + v)) + tt * (RtoC 1 + u') * (tt * (RtoC 1 + u)) + tt * (RtoC 1 + u' * v) * (tt * (RtoC 1 + u * v')) = tt * tt * (D * D + RtoC 1 + RtoC 1 + RtoC 1)).
    { rewrite DC. transitivity (tt * tt * (RtoC 1 + RtoC 1 + RtoC 1 + v * v' + u * u' + (u * u') * (v * v') + (u + u' + v + v' + u * v' + u' * v))); [ring|]. rewrite U, V. ring. }
    assert (S3 : tt * (RtoC 1 + v') * (tt * (RtoC 1 + u' * v)) * (tt * (RtoC 1 + u)) + tt * (RtoC 1 + u') * (tt * (RtoC 1 + v)) * (tt * (RtoC 1 + u * v')) = (RtoC 1 + RtoC 1) * (tt * tt * tt) * (D * D - RtoC 1)).
    { rewrite DC. transitivity (tt * tt * tt * ((RtoC 1 + u' * v + v' + u' * (v * v') + u + (u * u') * v + u * v' + (u * u') * (v * v')) + (RtoC 1 + v + u * v' + u * (v * v') + u' + u' * v + (u * u') * v' + (u * u') * (v * v')))); [ring|]. rewrite U, V. ring. }
    rewrite S2, S3 in H. replace (z * z * z - z * (tt * tt * (D * D + RtoC 1 + RtoC 1 + RtoC 1)) - (RtoC 1 + RtoC 1) * (tt * tt * tt) * (D * D - RtoC 1)) with (A * B * F) in H by (unfold A, B, F; ring).
    replace (RtoC 3 * (z * z) - tt * tt * (D * D + RtoC 1 + RtoC 1 + RtoC 1)) with (B * F + A * F + A * B) in H by (rewrite three_is; unfold A, B, F; ring).
    rewrite <- (Cmult_1_r T), <- (Cinv_r (A * B * F)), Cmult_assoc, H by (apply Cmult_neq_0; [now apply Cmult_neq_0|assumption]). field. repeat split; assumption.
  Qed.
End Hex.
