(** Proofs for C59: the array and the whole program. *)
From Coq Require Import Reals String List Arith ZArith Lia Lra.
From Coquelicot Require Import Complex.
From Verif Require Import Py CVec LinSolve MatrixRepr_Model Lattice_Model Lanczos_Spec Lanczos_Proofs2 GF_Model GF_Spec GF_Proofs2 Free_Spec Free_Proofs7 Spectrum_Spec Spectrum_Proofs Spectrum_Proofs2
  CPT_Model CPT_Spec CPT_Proofs CPT_Proofs2 CPT_Proofs3.
Import ListNotations.
Local Open Scope C_scope.

Section Array.
  Context {K : Type}.
  Variables (keqb : K -> K -> bool) (dagger : K -> K) (site_of : K -> point) (derive : K -> point -> K) (mk : otype -> Z -> point -> K) (same : point -> point -> bool).
  Hypothesis OP : operators keqb dagger site_of derive mk same.

  Lemma creators_two s0 s1 L : creators mk [s0; s1] L = map (mk CREATION s0) (points L) ++ map (mk CREATION s1) (points L).
  Proof. unfold creators. cbn [flat_map]. now rewrite app_nil_r. Qed.
  Lemma creators_two_length s0 s1 L : length (creators mk [s0; s1] L) = (length (points L) + length (points L))%nat.
  Proof. rewrite creators_two, app_length, !map_length. reflexivity. Qed.
  Lemma creators_low s0 s1 L i p : nth_error (points L) i = Some p -> nth_error (creators mk [s0; s1] L) i = Some (mk CREATION s0 p).
  Proof.
    intros H. rewrite creators_two, nth_error_app1, nth_error_map, H; [reflexivity|]. rewrite map_length. apply nth_error_Some. congruence.
  Qed.
  Lemma creators_high s0 s1 L i p : nth_error (points L) i = Some p -> nth_error (creators mk [s0; s1] L) (length (points L) + i)%nat = Some (mk CREATION s1 p).
  Proof.
    intros H. rewrite creators_two, nth_error_app2; rewrite map_length; [|lia]. replace (length (points L) + i - length (points L))%nat with i by lia. now rewrite nth_error_map, H.
  Qed.
  Lemma point_at (l : list point) i : (i < length l)%nat -> exists p, nth_error l i = Some p.
  Proof. intros H. destruct (nth_error l i) eqn:E; [eauto|]. apply nth_error_None in E. lia. Qed.
  Lemma array_direct L omegas s0 s1 g0 g1 dd w omega i j :
    two_spins keqb mk (points L) omegas s0 s1 g0 g1 dd -> nth_error omegas w = Some omega ->
    (i < length (points L) + length (points L))%nat -> (j < length (points L) + length (points L))%nat ->
    gfs_array keqb dagger dd (creators mk [s0; s1] L) (annihilators dagger mk [s0; s1] L) w i j = direct_sum (length (points L)) (g0 omega) (g1 omega) i j.
  Proof.
    intros T Hw Hi Hj.
    assert (NV : forall g : R -> C, nth w (map g omegas) c0 = g omega).
    { intros g. rewrite (nth_error_nth (map g omegas) w c0 (x := g omega)); [reflexivity|]. now rewrite nth_error_map, Hw. }
    unfold gfs_array, annihilators. rewrite nth_error_map.
    assert (DD : forall s p, dagger (mk CREATION s p) = mk ANNIHILATION s p /\ dagger (dagger (mk CREATION s p)) = mk CREATION s p).
    { intros s p. destruct (op_dagger _ _ _ _ _ _ OP s p) as [E1 E2]. now rewrite E1, E2. }
    destruct (split_index _ _ i Hi) as [H|(i' & Hi' & ->)]; destruct (split_index _ _ j Hj) as [H'|(j' & Hj' & ->)].
    - destruct (point_at _ _ H) as (p & Ep). destruct (point_at _ _ H') as (q & Eq). rewrite (creators_low s0 s1 L i p Ep), (creators_low s0 s1 L j q Eq). cbn [option_map].
      rewrite (proj1 (DD s0 p)), (proj2 (DD s0 q)). destruct (T i j p q Ep Eq) as (-> & _). rewrite NV. now rewrite direct_ll.
    - destruct (point_at _ _ H) as (p & Ep). destruct (point_at _ _ Hj') as (q & Eq). rewrite (creators_low s0 s1 L i p Ep), (creators_high s0 s1 L j' q Eq). cbn [option_map].
      rewrite (proj1 (DD s0 p)), (proj2 (DD s1 q)). destruct (T i j' p q Ep Eq) as (_ & _ & -> & _). now rewrite direct_lr.
    - destruct (point_at _ _ Hi') as (p & Ep). destruct (point_at _ _ H') as (q & Eq). rewrite (creators_high s0 s1 L i' p Ep), (creators_low s0 s1 L j q Eq). cbn [option_map].
      rewrite (proj1 (DD s1 p)), (proj2 (DD s0 q)). destruct (T i' j p q Ep Eq) as (_ & _ & _ & ->). now rewrite direct_rl.
    - destruct (point_at _ _ Hi') as (p & Ep). destruct (point_at _ _ Hj') as (q & Eq). rewrite (creators_high s0 s1 L i' p Ep), (creators_high s0 s1 L j' q Eq). cbn [option_map].
      rewrite (proj1 (DD s1 p)), (proj2 (DD s1 q)). destruct (T i' j' p q Ep Eq) as (_ & -> & _ & _). rewrite NV. now rewrite direct_rr.
  Qed.
End Array.

(** ** The step only reads the d x d entries *)
Lemma nonsingular_ext d A B : (forall i j, (i < d)%nat -> (j < d)%nat -> A i j = B i j) -> nonsingular d A -> nonsingular d B.
Proof.
  intros E H u Hu. apply H. intros i Hi. rewrite <- (Hu i Hi). apply csum_ext. intros j Hj. now rewrite E.
Qed.
Lemma dyson_ext d A B V G' : (forall i j, (i < d)%nat -> (j < d)%nat -> A i j = B i j) -> dyson d A V G' -> dyson d B V G'.
Proof.
  intros E D i j Hi Hj. destruct (D i j Hi Hj) as [D1 D2]. split.
  - rewrite D1, E by assumption. f_equal. apply csum_ext. intros k Hk. apply csum_ext. intros. now rewrite E.
  - rewrite D2, E by assumption. f_equal. apply csum_ext. intros k Hk. apply csum_ext. intros. now rewrite E.
Qed.
Lemma cpt_at d eta (G : R -> cmat) V : (0 < eta)%R -> lehmann d eta G -> hermitian d V ->
  exists G', lehmann d eta G' /\ forall omega A, (forall i j, (i < d)%nat -> (j < d)%nat -> A i j = G omega i j) ->
    exists X, cpt d A V = Ok X /\ (forall i j, (i < d)%nat -> (j < d)%nat -> X i j = G' omega i j) /\ dyson d A V X.
Proof.
  intros He L HV. destruct (cpt_lehmann d eta G V He L HV) as (G' & L' & P). exists G'. split; [exact L'|]. intros omega A EA.
  destruct (P omega) as (X & _ & EX & D).
  assert (NS : nonsingular d A) by (apply (nonsingular_ext d (G omega)); [intros; now rewrite EA|now apply (lehmann_nonsingular d eta)]).
  destruct (cpt_dyson d A V X NS) as (Y & EY & EYX & DY).
  { intros i j Hi Hj. apply (dyson_ext d (G omega) A V X); [intros; now rewrite EA|exact D|assumption|assumption]. }
  exists Y. split; [exact EY|]. split; [|exact DY]. intros. now rewrite EYX, EX.
Qed.
Lemma form_ext d A B v : (forall i j, (i < d)%nat -> (j < d)%nat -> A i j = B i j) -> form d A v = form d B v.
Proof. intros E. apply csum_ext. intros i Hi. apply csum_ext. intros j Hj. now rewrite E. Qed.

(** Each diagonal element of the periodised function is a density of weight |v|^2. *)
Lemma lehmann_density d eta G v : (0 < eta)%R -> lehmann d eta G ->
  (forall omega, (0 <= spectrum (form d (G omega) v))%R /\ ((0 < rsum d (fun i => weight2 (v i)))%R -> (0 < spectrum (form d (G omega) v))%R)) /\
  integrates_to (fun omega => spectrum (form d (G omega) v)) (rsum d (fun i => weight2 (v i))).
Proof.
  intros He (n & M & b & HM & O & Gr).
  assert (F : forall omega, green "-" n M 0 (frequency omega eta) (superposition d v b) (superposition d v b) (form d (G omega) v)).
  { intros. apply lehmann_form; auto; lra. }
  rewrite <- (orthonormal_weight d n b v O). split.
  - intros omega. destruct (density_pos "-" n M 0 omega eta _ _ HM He (F omega)) as [P Z]. split; [exact P|]. intros W. destruct P as [P|P]; [exact P|].
    exfalso. symmetry in P. apply Z in P. assert (N0 : norm2 n (superposition d v b) = 0%R).
    { apply RtoC_inj. rewrite <- inner_self, (inner_ext _ _ vzero _ vzero P P). apply csum_zero. intros. unfold vzero, c0. ring. }
    lra.
  - now apply (density_weight "-" n M 0 eta).
Qed.
Lemma integrates_sum n (f : nat -> R -> R) l : (forall k, (k < n)%nat -> integrates_to (f k) (l k)) -> integrates_to (fun x => rsum n (fun k => f k x)) (rsum n l).
Proof.
  induction n as [|n IH]; intros H; cbn [rsum]; [exact integrates_0|]. apply integrates_plus; [apply IH; intros; apply H; lia|apply H; lia].
Qed.
Lemma rsum_nonneg n f : (forall k, (k < n)%nat -> (0 <= f k)%R) -> (0 <= rsum n f)%R.
Proof. induction n as [|n IH]; intros H; cbn [rsum]; [lra|]. specialize (IH ltac:(intros; apply H; lia)). specialize (H n ltac:(lia)). lra. Qed.
Lemma rsum_pos n f : (forall k, (k < n)%nat -> (0 <= f k)%R) -> (0 < rsum n f)%R <-> exists k, (k < n)%nat /\ (0 < f k)%R.
Proof.
  induction n as [|n IH]; intros H; cbn [rsum]; [split; [lra|intros (k & Hk & _); lia]|].
  pose proof (H n ltac:(lia)) as Hn. pose proof (rsum_nonneg n f ltac:(intros; apply H; lia)) as Hr. specialize (IH ltac:(intros; apply H; lia)). split.
  - intros P. destruct Hn as [Hn|Hn]; [exists n; split; [lia|exact Hn]|]. rewrite <- Hn, Rplus_0_r in P. apply IH in P as (k & Hk & P). exists k. split; [lia|exact P].
  - intros (k & Hk & P). destruct (Nat.eq_dec k n) as [->|Hne]; [lra|]. assert (0 < rsum n f)%R by (apply IH; exists k; split; [lia|exact P]). lra.
Qed.
Lemma weight2_nonneg v : (0 <= weight2 v)%R.
Proof. unfold weight2. pose proof (Rle_0_sqr (Re v)). pose proof (Rle_0_sqr (Im v)). unfold Rsqr in *. lra. Qed.
Lemma lehmann_cells k n m eta G ci Rc : (0 < eta)%R -> lehmann n eta G -> (0 < n)%nat -> (forall i, (i < n)%nat -> (ci i < m)%nat) ->
  (forall omega, (0 < spectrum (csum m (fun a => form n (G omega) (cell_wave k ci Rc a))))%R) /\
  integrates_to (fun omega => spectrum (csum m (fun a => form n (G omega) (cell_wave k ci Rc a)))) (INR n).
Proof.
  intros He L Hn B. rewrite <- (cell_weight k n m ci Rc B). split.
  - intros omega. rewrite spectral_csum. apply rsum_pos.
    + intros a Ha. apply (lehmann_density n eta G (cell_wave k ci Rc a) He L).
    + exists (ci 0%nat). split; [now apply B|]. apply (lehmann_density n eta G (cell_wave k ci Rc (ci 0%nat)) He L). apply rsum_pos; [intros; apply weight2_nonneg|].
      exists 0%nat. split; [exact Hn|]. unfold cell_wave. rewrite Nat.eqb_refl, cexp_unit. lra.
  - apply (integrates_ext (fun omega => rsum m (fun a => spectrum (form n (G omega) (cell_wave k ci Rc a))))); [intros; now rewrite spectral_csum|].
    apply integrates_sum. intros a Ha. now apply (lehmann_density n eta G).
Qed.
Lemma spectrum_div x r : (r <> 0)%R -> spectrum (x / RtoC r) = (/ r * spectrum x)%R.
Proof.
  intros H. unfold spectrum, Cdiv. rewrite <- RtoC_inv by assumption. unfold Im, Cmult, RtoC. cbn [fst snd]. pose proof PI_RGT_0. field. split; lra.
Qed.

(** final_gfs, entry by entry *)
Lemma final_gfs_ok n m num (omegas : list R) arr VT FTs kpoints (F : point -> R -> cmat -> Prop) :
  (forall k w omega, In k kpoints -> nth_error omegas w = Some omega -> exists X, cpt n (arr w) (v_matrix k VT) = Ok X /\ F k omega X) ->
  exists rows, final_gfs n m num (length omegas) arr VT FTs kpoints = Ok rows /\
    tabulates omegas kpoints rows (fun k omega x => exists X, F k omega X /\ x = trace m (periodise k FTs X) / RtoC (INR num)).
Proof.
  intros H. unfold final_gfs.
  assert (IN : forall w, In w (seq 0 (length omegas)) -> exists omega, nth_error omegas w = Some omega).
  { intros w Hw. apply in_seq in Hw. destruct (nth_error omegas w) eqn:E; [eauto|]. apply nth_error_None in E. lia. }
  match goal with |- context [mapM ?f kpoints] => destruct (mapM_all f kpoints) as (rows & E) end.
  { intros k Hk. cbv beta. destruct (mapM_all (fun w => cpt n (arr w) (v_matrix k VT)) (seq 0 (length omegas))) as (gs & ->); [|eauto].
    intros w Hw. destruct (IN w Hw) as (omega & Ew). destruct (H k w omega Hk Ew) as (X & -> & _). eauto. }
  exists rows. split; [exact E|]. apply mapM_ok in E as [L P]. split; [exact L|]. intros a k Ha. destruct (P a k Ha) as (row & Er & Ek).
  destruct (mapM (fun w => cpt n (arr w) (v_matrix k VT)) (seq 0 (length omegas))) as [gs|] eqn:Em; [|discriminate]. injection Ek as <-.
  exists (map (fun G => trace m (periodise k FTs G) / RtoC (INR num)) gs). split; [exact Er|]. apply mapM_ok in Em as [Lg Pg]. rewrite seq_length in Lg. split; [now rewrite map_length|].
  intros w omega Hw. assert (Lw : (w < length omegas)%nat) by (apply nth_error_Some; congruence).
  destruct (Pg w w (nth_error_seq' _ w Lw)) as (X & EX & Ec). destruct (H k w omega (nth_error_In _ _ Ha) Hw) as (X' & Ec' & HF). rewrite Ec in Ec'. injection Ec' as <-.
  eexists. rewrite nth_error_map, EX. cbn [option_map]. split; [reflexivity|]. exists X. split; [exact HF|reflexivity].
Qed.

(** A Hermitian hopping matrix has a resolvent at every frequency off the real axis. *)
Lemma resolvent_exists d t omega eta : hermitian d t -> eta <> 0%R -> exists G, resolvent d t (frequency omega eta) G.
Proof.
  intros H He. pose proof (hermitian_invertible "-" d t 0 omega eta H He) as I. apply nonsingular_invertible in I.
  destruct (np_inv_total d _ I) as (X & EX). exists X. pose proof (np_inv_ok d _ X EX) as Inv.
  assert (E : forall i j, gf_matrix "-" (frequency omega eta) 0 t i j = frequency omega eta * delta i j - t i j).
  { intros i j. unfold gf_matrix, delta, eye. cbn [String.eqb Ascii.eqb Bool.eqb]. destruct (Nat.eqb i j); unfold c0, c1; apply injective_projections; cbn; ring. }
  intros i j Hi Hj. destruct (Inv i j Hi Hj) as [I1 I2]. split.
  - rewrite <- I1. apply csum_ext. intros. now rewrite E.
  - rewrite <- I2. apply csum_ext. intros. now rewrite E.
Qed.
Lemma hermitian_add d A B : hermitian d A -> hermitian d B -> hermitian d (add A B).
Proof. intros HA HB i j Hi Hj. unfold add. now rewrite Cj_add, (HA i j Hi Hj), (HB i j Hi Hj). Qed.
