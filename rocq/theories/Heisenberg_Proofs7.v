(** Proofs for C61, part 7: Lanczos, weights, the uniform spectrum, the sum over momenta. *)
From Coq Require Import Reals String List ZArith Bool Arith Lia Lra Permutation.
From Coquelicot Require Import Complex.
From Verif Require Import Py GQ Mat CVec LinSolve State_Model MatrixRepr_Model Particle_Model Spin_Model Spin_Spec Spin_Proofs Spin_Proofs2 Spin_Proofs3
  Lattice_Model Lattice_Spec Lattice_Proofs Lattice_Properties Lanczos_Model Lanczos_Spec GF_Model GF_Spec GF_Proofs GF_Proofs2 GF_Proofs3 GF_Proofs5 GF_Properties Lanczos_Properties
  Free_Spec Free_Proofs2 CPT_Model Spectrum_Spec Spectrum_Proofs Spectrum_Proofs2 Spectrum_Properties Heisenberg_Model Heisenberg_Spec Heisenberg_Proofs Heisenberg_Proofs2 Heisenberg_Proofs5 Heisenberg_Proofs6.
Import ListNotations.
Local Open Scope nat_scope.

Section Lanczos.
  Context {K : Type}.
  Variables (keqb : K -> K -> bool) (dagger : K -> K) (site_of : K -> point) (mk : string -> point -> K).
  Hypothesis SK : spin_keys keqb dagger site_of mk.
  Variables (nearest : list point -> point -> nat) (prec0 prec : nat) (L : lattice).
  Hypothesis (Hn : finds_nearest nearest) (HL : lattice_of prec0 L) (ND : NoDup (points L)) (NE : points L <> []).
  Variables (HM : smat) (H : mat) (GE : R) (gs : vec) (eta : R) (junk : nat -> nat -> nat -> C) (omegas : list R) (kpoints : list point).
  Let n := length (points L).
  Hypothesis (RH : represents n HM H) (HH : eqm (2 ^ n) (mdag H) H) (He : eta <> 0%R).
  Hypothesis (NZ : forall i, (i < n)%nat -> ~ veqn (2 ^ n) (lowered n gs i) vzero) (OM : omegas <> []).
  Variable dim : Z.
  Hypothesis Hdim : (Z.of_nat (2 ^ n) <= dim)%Z.

  Lemma lanczos_program fuel : exists rows (G : R -> cmat),
    lanczos_spectrum keqb dagger site_of mk L nearest fuel prec (Z.of_nat n) HM GE gs eta junk omegas kpoints 0 dim = Some (Ok rows) /\
    (forall omega, spin_gf L H GE gs eta omega (G omega)) /\
    rows_of omegas kpoints rows (fun omega k x => x = spectrum (kspace n (G omega) (fun j => cexp k (nth j (points L) v0)))).
  Proof.
    destruct (program_es keqb dagger site_of mk SK nearest prec0 prec L Hn HL ND gs fuel) as (vals & es & Lv & Ees & NDes & E & LK).
    set (As := map (mk "p") (points L)) in *. set (Bs := map (mk "m") (points L)) in *.
    pose proof (HM_hermitian L HM H RH HH) as HMh. fold n in HMh, LK, E, Lv. destruct RH as (R1 & R2 & R3).
    assert (NTH : forall i, (i < n)%nat -> nth_error (points L) i = Some (nth i (points L) v0)) by (intros i Hi; now apply nth_error_nth').
    assert (HPos : forall p, In p es -> (0 < CVec.norm (2 ^ n) (snd p))%R).
    { intros [key v] Hp. cbn [snd]. assert (Hp' := Hp). rewrite Ees in Hp. apply in_combine_l in Hp. apply in_map_iff in Hp as (q & <- & Hq). apply In_nth with (d := v0) in Hq as (i & Hi & <-).
      destruct (LK i _ (NTH i Hi)) as (v' & Lv' & Vv). assert (v' = v).
      { clear - Lv' Hp' NDes SK. induction es as [|[k w] r IH]; [destruct Hp'|]. cbn in Lv', NDes. inversion NDes as [|? ? N1 N2]; subst. destruct Hp' as [X|X].
        - injection X as -> ->. rewrite (proj2 (sk_eq _ _ _ _ SK _ _) eq_refl) in Lv'. now injection Lv'.
        - destruct (keqb k (mk "m" (nth i (points L) v0))) eqn:Ek; [|now apply IH]. apply (sk_eq _ _ _ _ SK) in Ek. subst k. exfalso. apply N1. change (mk "m"%string (nth i (points L) v0)) with (fst (mk "m"%string (nth i (points L) v0), v)). now apply in_map. }
      subst v'. pose proof (norm2_nonneg (2 ^ n) v) as P. unfold CVec.norm. apply sqrt_lt_R0. destruct (Req_dec (norm2 (2 ^ n) v) 0) as [Z|]; [|lra]. exfalso. apply (NZ i Hi). intros r Hr. rewrite <- (Vv r Hr). now apply (norm2_zero (2 ^ n) v Z). }
    destruct (C44_per_key K (2 ^ n) (cm (s_ent HM)) 0 es dim HMh (Rle_refl 0) HPos) as (ms & vs & MK & _).
    set (Gs := fun omega i j => val (GFSolverLanczosSingle keqb dagger GE ms vs eta omega (mk "p" (nth i (points L) v0)) (mk "m" (nth j (points L) v0)) "-")).
    assert (HS : forall omega i j, (i < n)%nat -> (j < n)%nat ->
      GFSolverLanczosSingle keqb dagger GE ms vs eta omega (mk "p" (nth i (points L) v0)) (mk "m" (nth j (points L) v0)) "-" = Ok (Gs omega i j) /\
      green "-" (2 ^ n) (cm H) GE (frequency omega eta) (lowered n gs i) (lowered n gs j) (Gs omega i j)).
    { intros omega i j Hi Hj. destruct (LK i _ (NTH i Hi)) as (a & La & Va). destruct (LK j _ (NTH j Hj)) as (b & Lb & Vb).
      destruct (C46_full_krylov_space K keqb (sk_eq _ _ _ _ SK) dagger (2 ^ n) (cm (s_ent HM)) es dim ms vs GE eta omega (mk "p"%string (nth i (points L) v0)) (mk "m"%string (nth j (points L) v0)) "-" b a HMh NDes Hdim He MK Lb) as (g & X1 & X2).
      { now rewrite (sk_dagger _ _ _ _ SK). }
      unfold Gs. rewrite X1. cbn [val]. split; [reflexivity|].
      apply exact_single_iff in X2 as (a' & b' & E1 & E2 & _ & Hg). rewrite (sk_dagger _ _ _ _ SK), La in E2. rewrite Lb in E1. injection E1 as <-. injection E2 as <-.
      apply (green_ext "-" (2 ^ n) _ GE _ a _ b _ _ Va Vb). apply (green_mat_ext "-" (2 ^ n) (cm (s_ent HM))); [|exact Hg]. intros r c Hr Hc. unfold cm. now rewrite (R3 r c Hr Hc). }
    assert (IN : forall o X, In X (map (mk o) (points L)) -> exists i, (i < n)%nat /\ X = mk o (nth i (points L) v0)).
    { intros o X Hx. apply in_map_iff in Hx as (p & <- & Hp). apply In_nth with (d := v0) in Hp as (i & Hi & <-). eauto. }
    destruct (C45_lanczos_multiple_returns K keqb (sk_eq _ _ _ _ SK) dagger GE ms vs eta junk omegas As Bs "-" "array") as (r0 & Er).
    { unfold As. destruct (points L); [contradiction|discriminate]. } { exact OM. }
    { intros omega A B _ HA HB. apply IN in HA as (i & Hi & ->). apply IN in HB as (j & Hj & ->). eexists. apply HS; assumption. }
    destruct (lanczos_array_ok keqb dagger GE ms vs eta junk omegas As Bs "-" r0 Er) as (arr & -> & Sh & HA).
    unfold a3_shape in Sh. injection Sh as S0 S1 S2.
    assert (TD : exists d, to_dict keqb As Bs arr = Ok d).
    { unfold to_dict. unfold for_enum at 1. rewrite (table_loop keqb (sk_eq _ _ _ _ SK) (a3_row arr)); [eauto|apply (mk_nodup site_of mk (sk_site _ _ _ _ SK)); exact ND..|intros A B _ []]. }
    destruct TD as (d & TD).
    exists (spectrum_rows site_of d (Z.of_nat n) (length omegas) kpoints), Gs. split; [|split].
    - unfold lanczos_spectrum. rewrite E. cbn [obind]. rewrite R1. unfold owrap. rewrite MK. cbn [obind]. rewrite (lmultiple_array keqb dagger GE ms vs eta junk omegas As Bs "-" "dict").
      rewrite Er. cbn [bind]. unfold finish. cbn [String.eqb Ascii.eqb Bool.eqb]. rewrite TD. reflexivity.
    - intros omega i j Hi Hj. now apply HS.
    - apply (rows_ok site_of L H GE gs eta omegas kpoints d Gs); [intros omega i j Hi Hj; now apply HS|]. intros w omega k Hw.
      apply (kspace_gfs_ok keqb site_of mk (sk_eq _ _ _ _ SK) (sk_site _ _ _ _ SK) (points L) omegas arr d Gs ND NE S2); [|exact TD|exact Hw].
      intros i j w' omega' Hi Hj Hw'. specialize (HA i j w' (mk "p"%string (nth i (points L) v0)) (mk "m"%string (nth j (points L) v0)) omega').
      rewrite (proj1 (HS omega' i j Hi Hj)) in HA. unfold As, Bs in HA. rewrite !(map_nth_error _ _ _ (NTH _ Hi)), !(map_nth_error _ _ _ (NTH _ Hj)) in HA.
      specialize (HA eq_refl eq_refl Hw'). injection HA as HA. now symmetry.
  Qed.
End Lanczos.

Lemma nth_error_eq {A} (l : list A) : forall l', (forall i, nth_error l i = nth_error l' i) -> l = l'.
Proof.
  induction l as [|x l IH]; intros [|y l'] H; [reflexivity|discriminate (H 0)|discriminate (H 0)|].
  assert (x = y) by (specialize (H 0); cbn in H; congruence). subst. f_equal. apply IH. intros i. exact (H (S i)).
Qed.
Lemma rows_unique {X Y V} (xs : list X) (ys : list Y) (r r' : list (list V)) (f f' : X -> Y -> V) :
  rows_of xs ys r (fun x y v => v = f x y) -> rows_of xs ys r' (fun x y v => v = f' x y) -> (forall x y, In x xs -> In y ys -> f x y = f' x y) -> r = r'.
Proof.
  intros [L1 H1] [L2 H2] E. apply nth_error_eq. intros w. destruct (nth_error xs w) as [x|] eqn:Ex.
  - destruct (H1 w x Ex) as (a & -> & La & Ha). destruct (H2 w x Ex) as (b & -> & Lb & Hb). f_equal. apply nth_error_eq. intros q. destruct (nth_error ys q) as [y|] eqn:Ey.
    + destruct (Ha q y Ey) as (u & -> & ->). destruct (Hb q y Ey) as (v & -> & ->). f_equal. apply E; eapply nth_error_In; eassumption.
    + apply nth_error_None in Ey. rewrite !(proj2 (nth_error_None _ _)); [reflexivity|lia|lia].
  - apply nth_error_None in Ex. rewrite !(proj2 (nth_error_None _ _)); [reflexivity|lia|lia].
Qed.

(** ** Weights *)
Lemma spectrum_div (g : C) (c : R) : c <> 0%R -> spectrum (g / RtoC c)%C = (/ c * spectrum g)%R.
Proof.
  intros H. unfold spectrum. replace (g / RtoC c)%C with (RtoC (/ c) * g)%C by (rewrite RtoC_inv by exact H; field; intros X; apply H; now apply RtoC_inj).
  unfold Im, RtoC, Cmult. cbn. field. split; [exact PI_neq0|exact H].
Qed.

Section Weight.
  Variables (n : nat) (H : mat) (GE eta : R) (gs : vec) (G : R -> cmat).
  Hypothesis (Hn : (0 < n)%nat) (HH : hermitian (2 ^ n) (cm H)) (He : (0 < eta)%R).
  Hypothesis HG : forall omega i j, (i < n)%nat -> (j < n)%nat -> green "-" (2 ^ n) (cm H) GE (frequency omega eta) (lowered n gs i) (lowered n gs j) (G omega i j).
  Lemma kspace_weight v : (forall omega, (0 <= spectrum (kspace n (G omega) v))%R) /\
    integrates_to (fun omega => spectrum (kspace n (G omega) v)) (/ INR n * norm2 (2 ^ n) (superposition n v (lowered n gs))).
  Proof.
    assert (NZ : INR n <> 0%R) by (apply not_0_INR; lia). assert (NP : (0 < / INR n)%R) by (apply Rinv_0_lt_compat, lt_0_INR; lia).
    assert (F : forall omega, green "-" (2 ^ n) (cm H) GE (frequency omega eta) (superposition n v (lowered n gs)) (superposition n v (lowered n gs)) (form n (G omega) v)).
    { intros omega. apply form_green; [exact HH|lra|]. intros i j Hi Hj. now apply HG. }
    assert (E : forall omega, spectrum (kspace n (G omega) v) = (/ INR n * spectrum (form n (G omega) v))%R) by (intros omega; now apply spectrum_div).
    split.
    - intros omega. rewrite E. destruct (density_pos "-" (2 ^ n) (cm H) GE omega eta _ _ HH He (F omega)) as [P _]. apply Rmult_le_pos; lra.
    - apply (integrates_ext (fun omega => / INR n * spectrum (form n (G omega) v))%R); [intros omega; now rewrite E|]. apply integrates_scal. now apply (density_weight "-" (2 ^ n) (cm H) GE eta).
  Qed.
  Lemma local_weight i : (i < n)%nat -> (forall omega, (0 <= spectrum (G omega i i))%R) /\
    integrates_to (fun omega => spectrum (G omega i i)) (norm2 (2 ^ n) (lowered n gs i)).
  Proof.
    intros Hi. split; [intros omega; now apply (density_pos "-" (2 ^ n) (cm H) GE omega eta (lowered n gs i) _ HH He (HG omega i i Hi Hi))|].
    apply (density_weight "-" (2 ^ n) (cm H) GE eta); auto.
  Qed.
  (** an excitation that is itself an eigenvector with the same energy *)
  Lemma uniform_kspace v : veqn (2 ^ n) (mv (2 ^ n) (cm H) (superposition n v (lowered n gs))) (fun i => (RtoC GE * superposition n v (lowered n gs) i)%C) ->
    forall omega, kspace n (G omega) v = (RtoC (norm2 (2 ^ n) (superposition n v (lowered n gs)) / INR n) / frequency omega eta)%C.
  Proof.
    intros E omega. assert (NZ : INR n <> 0%R) by (apply not_0_INR; lia). set (w := superposition n v (lowered n gs)) in *.
    assert (F : green "-" (2 ^ n) (cm H) GE (frequency omega eta) w w (form n (G omega) v)).
    { apply form_green; [exact HH|lra|]. intros i j Hi Hj. now apply HG. }
    assert (FZ : frequency omega eta <> c0) by (unfold frequency, c0; intros X; injection X as _ X; lra).
    assert (F' : green "-" (2 ^ n) (cm H) GE (frequency omega eta) w w (RtoC (norm2 (2 ^ n) w) / frequency omega eta)%C).
    { exists (fun r => (/ frequency omega eta * w r)%C). split.
      - intros r Hr. unfold shifted. cbn [String.eqb Ascii.eqb Bool.eqb].
        change (mv (2 ^ n) (cm H) (fun r => (/ frequency omega eta * w r)%C) r) with (mv (2 ^ n) (cm H) (CVec.vscale (/ frequency omega eta)%C w) r).
        rewrite mv_scale, (E r Hr). field. exact FZ.
      - rewrite <- inner_self. unfold inner. unfold Cdiv. rewrite Cmult_comm, <- csum_mul_l. apply csum_ext. intros r _. ring. }
    unfold kspace. change (csum n (fun i => csum n (fun j => G omega i j * (v j * Cj (v i))))%C) with (form n (G omega) v).
    rewrite (green_unique "-" (2 ^ n) (cm H) GE _ _ _ _ _ (hermitian_invertible "-" (2 ^ n) (cm H) GE omega eta HH ltac:(lra)) F F').
    rewrite RtoC_div by exact NZ. field. split; [intros X; apply NZ; now apply RtoC_inj|exact FZ].
  Qed.
End Weight.

(** sum of the S-_j is S-_tot *)
Lemma lowered_total n gs v : (forall j, (j < n)%nat -> v j = c1) -> forall r, superposition n v (lowered n gs) r = mv (2 ^ n) (cm (total_spin n SM)) gs r.
Proof.
  intros Hv r. unfold superposition, lowered, mv. rewrite (csum_ext n _ (fun j => csum (2 ^ n) (fun c => cm (spin_at n j SM) r c * gs c)%C)) by (intros j Hj; rewrite Hv by exact Hj; unfold c1; ring).
  rewrite csum_swap. apply csum_ext. intros c _. unfold cm, total_spin. rewrite gc_bigsum, <- csum_mul_r. reflexivity.
Qed.
Lemma commuting_eigen d (A B : mat) GE gs : eqm d (comm d A B) mzero -> veqn d (mv d (cm A) gs) (fun i => (RtoC GE * gs i)%C) ->
  veqn d (mv d (cm A) (mv d (cm B) gs)) (fun i => (RtoC GE * mv d (cm B) gs i)%C).
Proof.
  intros HC E i Hi. rewrite <- (mv_mmul d d A B gs i). transitivity (mv d (cm (mmul d B A)) gs i).
  - apply mv_ext_mat. intros j Hj. unfold cm. f_equal. specialize (HC i j Hi Hj). unfold comm, msub, mzero in HC. replace (mmul d A B i j) with ((mmul d A B i j - mmul d B A i j) + mmul d B A i j)%gq by ring. rewrite HC. ring.
  - rewrite (mv_mmul d d B A gs i). rewrite (mv_ext d (cm B) _ _ E i). change (fun i => (RtoC GE * gs i)%C) with (CVec.vscale (RtoC GE) gs). now rewrite mv_scale.
Qed.
(** the weight of a site *)
Lemma lowered_norm n gs i : (i < n)%nat -> inner (2 ^ n) gs gs = c1 -> norm2 (2 ^ n) (lowered n gs i) = (1 / 2 + Re (expectation n (spin_at n i SZ) gs))%R.
Proof.
  intros Hi N1. assert (E : RtoC (norm2 (2 ^ n) (lowered n gs i)) = (RtoC (1 / 2) + expectation n (spin_at n i SZ) gs)%C).
  { rewrite <- inner_self. unfold lowered. rewrite adjoint.
    assert (D : eqm (2 ^ n) (mdag (spin_at n i SM)) (spin_at n i SP)) by (intros r c Hr Hc; rewrite (spin_at_dag n i SM r c); reflexivity).
    transitivity (inner (2 ^ n) gs (mv (2 ^ n) (cm (madd (mscale ghalf mid) (spin_at n i SZ))) gs)).
    - apply inner_ext; [intros r _; reflexivity|]. intros r Hr. rewrite (mv_cm_ext (2 ^ n) _ _ _ D r Hr), <- (mv_mmul (2 ^ n) (2 ^ n) _ _ gs r). apply (mv_cm_ext (2 ^ n) _ _ gs (raise_lower n i Hi) r Hr).
    - unfold expectation. rewrite <- (Cmult_1_r (RtoC (1 / 2))). change (RtoC 1) with c1. rewrite <- N1. set (m := mv (2 ^ n) (cm (spin_at n i SZ)) gs).
      transitivity (inner (2 ^ n) gs (fun r => (RtoC (1 / 2) * gs r + c1 * m r)%C)); [|rewrite inner_lin; unfold c1; ring].
      apply inner_ext; [intros r _; reflexivity|]. intros r Hr. unfold madd. rewrite mv_cm_add. f_equal; [|unfold c1, m; ring].
      unfold mv. rewrite (csum_single (2 ^ n) _ r Hr).
      + unfold cm, mscale, mid. rewrite Nat.eqb_refl. f_equal. replace (ghalf * g1)%gq with ghalf by ring. unfold gc, ghalf, RtoC. cbn. f_equal; unfold Q2R; cbn; lra.
      + intros j _ Hj. unfold cm, mscale, mid. destruct (Nat.eqb_spec r j); [congruence|]. replace (ghalf * g0)%gq with g0 by ring. rewrite gc_0. unfold c0. ring. }
  apply (f_equal Re) in E. exact E.
Qed.

(** ** The sum over the momenta *)
Definition cis (t : R) : C := (cos t, sin t).
Lemma cis_add a b : cis (a + b) = (cis a * cis b)%C.
Proof. unfold cis, Cmult. cbn. rewrite cos_plus, sin_plus. apply injective_projections; cbn; ring. Qed.
Fixpoint cpow (q : C) (n : nat) : C := match n with O => c1 | S m => (q * cpow q m)%C end.
Lemma cis_mul n t : cis (INR n * t) = cpow (cis t) n.
Proof.
  induction n as [|n IH]; [cbn [INR]; rewrite Rmult_0_l; unfold cis; rewrite cos_0, sin_0; reflexivity|].
  rewrite S_INR. replace ((INR n + 1) * t)%R with (t + INR n * t)%R by ring. rewrite cis_add, IH. reflexivity.
Qed.
Lemma geometric q n : ((c1 - q) * csum n (cpow q))%C = (c1 - cpow q n)%C.
Proof. induction n as [|n IH]; [cbn; unfold c0, c1; ring|]. cbn [csum cpow]. rewrite Cmult_plus_distr_l, IH. unfold c1. ring. Qed.
Lemma cis_ne t : (0 < t < 2 * PI)%R -> cis t <> c1.
Proof.
  intros [A B] E. unfold cis, c1, RtoC in E. injection E as E _.
  replace t with (2 * (t / 2))%R in E by field. rewrite cos_2a_sin in E. pose proof (sin_gt_0 (t / 2) ltac:(lra) ltac:(lra)) as P. nra.
Qed.
Lemma phase_orthogonal N i j : (i < N)%nat -> (j < N)%nat ->
  csum N (fun m => (Cj (phase (bloch N m) i) * phase (bloch N m) j)%C) = if Nat.eqb i j then RtoC (INR N) else c0.
Proof.
  intros Hi Hj. assert (NZ : INR N <> 0%R) by (apply not_0_INR; lia). set (t := (2 * PI * (INR j - INR i) / INR N)%R).
  rewrite (csum_ext N _ (cpow (cis t))).
  2:{ intros m _. rewrite <- cis_mul. unfold phase, Cj, Cconj, cis, bloch. replace (INR m * t)%R with (2 * PI * INR m / INR N * INR j - 2 * PI * INR m / INR N * INR i)%R by (unfold t; field; exact NZ).
      rewrite cos_minus, sin_minus. apply injective_projections; cbn; ring. }
  destruct (Nat.eqb_spec i j) as [->|NE].
  - replace t with 0%R by (unfold t; field; exact NZ). unfold cis. rewrite cos_0, sin_0. change (1%R, 0%R) with c1.
    rewrite (csum_ext N (cpow c1) (fun _ => c1)) by (intros m _; induction m as [|m IH]; [reflexivity|cbn; rewrite IH; unfold c1; ring]).
    clear. induction N as [|N IH]; [reflexivity|]. cbn [csum]. rewrite IH, S_INR, RtoC_plus. unfold c1. ring.
  - assert (Q : cis t <> c1).
    { assert (0 < INR N)%R by (apply lt_0_INR; lia). pose proof PI_RGT_0 as PP.
      assert (BD : forall a b, (a < b)%nat -> (b < N)%nat -> (0 < 2 * PI * (INR b - INR a) / INR N < 2 * PI)%R).
      { intros a b Hab Hb. assert (0 < INR b - INR a < INR N)%R.
        { apply lt_INR in Hab, Hb. pose proof (pos_INR a). lra. }
        split; [apply Rmult_lt_0_compat; [nra|now apply Rinv_0_lt_compat]|]. apply (Rmult_lt_reg_r (INR N)); [assumption|]. unfold Rdiv. rewrite Rmult_assoc, Rinv_l by lra. nra. }
      destruct (Nat.lt_total i j) as [Hij|[|Hij]]; [apply cis_ne, BD; assumption|contradiction|].
      intros E. apply (cis_ne (- t)); [unfold t; replace (- (2 * PI * (INR j - INR i) / INR N))%R with (2 * PI * (INR i - INR j) / INR N)%R by (field; lra); now apply BD|].
      unfold cis in *. rewrite cos_neg, sin_neg. unfold c1, RtoC in *. injection E as E1 E2. rewrite E1, E2. f_equal. ring. }
    pose proof (geometric (cis t) N) as G. rewrite <- cis_mul in G.
    assert (P1 : cis (INR N * t) = c1).
    { unfold t. replace (INR N * (2 * PI * (INR j - INR i) / INR N))%R with (2 * INR j * PI - 2 * INR i * PI)%R by (field; exact NZ).
      assert (C2 : forall q, cos (2 * INR q * PI) = 1%R /\ sin (2 * INR q * PI) = 0%R).
      { intros q. pose proof (cos_period 0 q) as X. pose proof (sin_period 0 q) as Y. rewrite Rplus_0_l in X, Y. rewrite X, Y, cos_0, sin_0. auto. }
      unfold cis. rewrite cos_minus, sin_minus. destruct (C2 j) as [-> ->], (C2 i) as [-> ->]. unfold c1, RtoC. f_equal; ring. }
    rewrite P1 in G. replace (c1 - c1)%C with c0 in G by (unfold c0, c1; ring). 
    assert (NZ1 : (c1 - cis t)%C <> c0). { intros X. apply Q. replace (cis t) with (c1 - (c1 - cis t))%C by (unfold c1; ring). rewrite X. unfold c0, c1. ring. }
    set (s := csum N _) in *. replace s with (/ (c1 - cis t) * ((c1 - cis t) * s))%C by (field; exact NZ1). rewrite G. unfold c0. ring.
Qed.
Lemma momentum_sum N d (b : nat -> vec) :
  rsum N (fun m => norm2 d (superposition N (phase (bloch N m)) b)) = (INR N * rsum N (fun i => norm2 d (b i)))%R.
Proof.
  apply RtoC_inj. rewrite RtoC_mult, <- !csum_R. rewrite <- csum_mul_l.
  rewrite (csum_ext N _ (fun m => csum N (fun i => csum N (fun j => Cj (phase (bloch N m) i) * phase (bloch N m) j * inner d (b i) (b j)))%C)) by (intros m _; apply norm2_superposition).
  rewrite csum_swap. apply csum_ext. intros i Hi. rewrite csum_swap.
  rewrite (csum_ext N _ (fun j => (if Nat.eqb i j then RtoC (INR N) else c0) * inner d (b i) (b j))%C).
  2:{ intros j Hj. rewrite <- (phase_orthogonal N i j Hi Hj), <- csum_mul_r. reflexivity. }
  rewrite (csum_single N _ i Hi); [rewrite Nat.eqb_refl, inner_self; reflexivity|]. intros j _ Hj. destruct (Nat.eqb_spec i j); [congruence|]. unfold c0. ring.
Qed.
