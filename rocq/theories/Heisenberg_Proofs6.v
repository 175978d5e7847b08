(** Proofs for C61, part 6: the program returns, and what the table holds. *)
From Coq Require Import Reals String List ZArith Bool Arith Lia Lra Permutation.
From Coquelicot Require Import Complex.
From Verif Require Import Py GQ Mat CVec LinSolve State_Model MatrixRepr_Model Particle_Model Spin_Model Spin_Spec Spin_Proofs Spin_Proofs2 Spin_Proofs3
  Lattice_Model Lattice_Spec Lattice_Proofs Lattice_Proofs2 Lattice_Proofs3 Lattice_Properties Lanczos_Model Lanczos_Spec GF_Model GF_Spec GF_Proofs GF_Proofs2 GF_Proofs3 GF_Proofs5 GF_Properties Lanczos_Properties
  Free_Spec Free_Proofs2 CPT_Model Spectrum_Spec Spectrum_Proofs2 Spectrum_Properties Heisenberg_Model Heisenberg_Spec Heisenberg_Proofs Heisenberg_Proofs2 Heisenberg_Proofs5.
Import ListNotations.
Local Open Scope nat_scope.

Lemma separated_nodup prec L : separated (view prec) L -> NoDup (points L).
Proof.
  intros H. apply (NoDup_nth (points L) v0). intros i j Hi Hj E. destruct (Nat.eq_dec i j) as [|N]; [assumption|]. exfalso.
  specialize (H i j (repeat 0%Z (length (vectors L))) Hi Hj N (repeat_length _ _)). rewrite shift_zero, vadd_0_r, E, dist_refl in H. pose proof (view_pos prec). lra.
Qed.
Lemma green_mat_ext sign n (H H' : cmat) GE z a b g : (forall i j, (i < n)%nat -> (j < n)%nat -> H i j = H' i j) -> green sign n H GE z a b g -> green sign n H' GE z a b g.
Proof.
  intros E (x & Hx & ->). exists x. split; [|reflexivity]. intros i Hi. rewrite <- (Hx i Hi). unfold shifted. rewrite (mv_ext_mat n H' H x i); [reflexivity|]. intros j Hj. symmetry. now apply E.
Qed.

Section Program.
  Context {K : Type}.
  Variables (keqb : K -> K -> bool) (dagger : K -> K) (site_of : K -> point) (mk : string -> point -> K).
  Hypothesis SK : spin_keys keqb dagger site_of mk.
  Variables (nearest : list point -> point -> nat) (prec0 prec : nat) (L : lattice).
  Hypothesis (Hn : finds_nearest nearest) (HL : lattice_of prec0 L) (ND : NoDup (points L)) (NE : points L <> []).
  Variables (HM : smat) (H : mat) (GE : R) (gs : vec) (eta : R) (junk : nat -> nat -> nat -> C) (omegas : list R) (kpoints : list point).
  Let n := length (points L).
  Hypothesis (RH : represents n HM H) (HH : eqm (2 ^ n) (mdag H) H) (He : eta <> 0%R).

  Lemma cm_hermitian : hermitian (2 ^ n) (cm H).
  Proof. intros i j Hi Hj. unfold cm. rewrite <- gc_conj. f_equal. symmetry. exact (HH i j Hi Hj). Qed.
  Lemma HM_hermitian : hermitian (2 ^ n) (cm (s_ent HM)).
  Proof. destruct RH as (_ & _ & R). intros i j Hi Hj. unfold cm. rewrite (R i j Hi Hj), (R j i Hj Hi). exact (cm_hermitian i j Hi Hj). Qed.

  (** the functions of the Hamiltonian H *)
  Definition spin_gf (omega : R) (G : cmat) : Prop := forall i j, (i < n)%nat -> (j < n)%nat ->
    green "-" (2 ^ n) (cm H) GE (frequency omega eta) (lowered n gs i) (lowered n gs j) (G i j).

  Lemma rows_ok d (G : R -> cmat) : (forall omega, spin_gf omega (G omega)) ->
    (forall w omega k, nth_error omegas w = Some omega -> kspace_gfs site_of d (Z.of_nat n) w k = kspace n (G omega) (fun j => cexp k (nth j (points L) v0))) ->
    rows_of omegas kpoints (spectrum_rows site_of d (Z.of_nat n) (length omegas) kpoints)
      (fun omega k x => x = spectrum (kspace n (G omega) (fun j => cexp k (nth j (points L) v0)))).
  Proof.
    intros HG Hk. unfold spectrum_rows. split; [now rewrite map_length, seq_length|]. intros w omega Hw. eexists. split.
    - apply map_nth_error. rewrite (nth_error_nth' _ 0) by (rewrite seq_length; apply nth_error_Some; congruence). rewrite seq_nth by (apply nth_error_Some; congruence). reflexivity.
    - split; [now rewrite map_length|]. intros a k Ha. eexists. split; [apply map_nth_error; exact Ha|]. cbv beta. cbn [Nat.add]. unfold spectrum. rewrite (Hk w omega k Hw). reflexivity.
  Qed.

  Lemma program_es fuel : exists vals es, length vals = n /\ es = combine (map (mk "m") (points L)) vals /\ NoDup (map fst es) /\
    excited_states keqb mk L nearest fuel prec (Z.of_nat n) gs = Some (Ok (map (mk "p") (points L), map (mk "m") (points L), es)) /\
    forall i p, nth_error (points L) i = Some p -> exists v, lookup keqb (mk "m" p) es = Ok v /\ veqn (2 ^ n) v (lowered n gs i).
  Proof.
    destruct (excited_ok keqb site_of mk (sk_eq _ _ _ _ SK) (sk_site _ _ _ _ SK) nearest prec0 prec fuel L gs Hn HL ND (points L) [] eq_refl [] [] [] eq_refl) as (vals & Lv & E & Hv).
    pose proof (mk_nodup site_of mk (sk_site _ _ _ _ SK) "m" (points L) ND) as NM.
    exists vals, (combine (map (mk "m") (points L)) vals). split; [exact Lv|]. split; [reflexivity|]. split.
    { assert (X : forall (ks : list K) (vs : list vec), length vs = length ks -> map fst (combine ks vs) = ks).
      { induction ks as [|x ks IH]; intros [|y vs] Z; try discriminate; [reflexivity|]. cbn in *. f_equal. apply IH. now injection Z. }
      rewrite X; [exact NM|]. now rewrite map_length. }
    split; [exact E|]. intros i p Hi. assert (Hi' : (i < length vals)%nat) by (rewrite Lv; apply nth_error_Some; congruence).
    destruct (nth_error vals i) as [v|] eqn:Ev; [|apply nth_error_None in Ev; lia]. exists v. split; [|exact (Hv i v Ev)].
    apply (lookup_nth_key keqb (sk_eq _ _ _ _ SK) _ _ i); [exact NM|now apply map_nth_error|exact Ev].
  Qed.

  (** The program of HeisenbergChain1 *)
  Lemma exact_program fuel : exists rows (G : R -> cmat),
    exact_spectrum keqb dagger site_of mk L nearest fuel prec (Z.of_nat n) HM GE gs eta junk omegas kpoints = Some (Ok rows) /\
    (forall omega, spin_gf omega (G omega)) /\
    rows_of omegas kpoints rows (fun omega k x => x = spectrum (kspace n (G omega) (fun j => cexp k (nth j (points L) v0)))).
  Proof.
    destruct (program_es fuel) as (vals & es & Lv & Ees & NDes & E & LK). set (As := map (mk "p") (points L)) in *. set (Bs := map (mk "m") (points L)) in *.
    destruct RH as (R1 & R2 & R3).
    set (Gs := fun omega i j => val (GFSolverExactSingle keqb dagger (2 ^ n) GE (cm (s_ent HM)) es eta omega (mk "p" (nth i (points L) v0)) (mk "m" (nth j (points L) v0)) "-")).
    assert (NTH : forall i, (i < n)%nat -> nth_error (points L) i = Some (nth i (points L) v0)) by (intros i Hi; now apply nth_error_nth').
    assert (HS : forall omega i j, (i < n)%nat -> (j < n)%nat ->
      GFSolverExactSingle keqb dagger (2 ^ n) GE (cm (s_ent HM)) es eta omega (mk "p" (nth i (points L) v0)) (mk "m" (nth j (points L) v0)) "-" = Ok (Gs omega i j) /\
      green "-" (2 ^ n) (cm H) GE (frequency omega eta) (lowered n gs i) (lowered n gs j) (Gs omega i j)).
    { intros omega i j Hi Hj. destruct (LK i _ (NTH i Hi)) as (a & La & Va). destruct (LK j _ (NTH j Hj)) as (b & Lb & Vb).
      pose proof (hermitian_invertible "-" (2 ^ n) (cm (s_ent HM)) GE omega eta HM_hermitian He) as IV.
      assert (X : exists g, GFSolverExactSingle keqb dagger (2 ^ n) GE (cm (s_ent HM)) es eta omega (mk "p" (nth i (points L) v0)) (mk "m" (nth j (points L) v0)) "-" = Ok g).
      { destruct (C58_lehmann K keqb dagger (2 ^ n) GE (cm (s_ent HM)) es HM_hermitian) as (E0 & e0 & _ & X).
        eexists. apply (X eta omega _ _ "-"%string a b He Lb). now rewrite (sk_dagger _ _ _ _ SK). }
      destruct X as (g & X). unfold Gs. rewrite X. cbn [val]. split; [reflexivity|].
      apply exact_single_iff in X as (a' & b' & E1 & E2 & _ & Hg). rewrite (sk_dagger _ _ _ _ SK), La in E2. rewrite Lb in E1. injection E1 as <-. injection E2 as <-.
      apply (green_ext "-" (2 ^ n) _ GE _ a _ b _ _ Va Vb). apply (green_mat_ext "-" (2 ^ n) (cm (s_ent HM))); [|exact Hg]. intros r c Hr Hc. unfold cm. now rewrite (R3 r c Hr Hc). }
    assert (IN : forall o X, In X (map (mk o) (points L)) -> exists i, (i < n)%nat /\ X = mk o (nth i (points L) v0)).
    { intros o X Hx. apply in_map_iff in Hx as (p & <- & Hp). apply In_nth with (d := v0) in Hp as (i & Hi & <-). eauto. }
    destruct (C45_exact_multiple_returns K keqb (sk_eq _ _ _ _ SK) dagger (2 ^ n) GE (cm (s_ent HM)) es eta junk omegas As Bs "-" "array") as (r0 & Er).
    { unfold As. destruct (points L); [contradiction|discriminate]. } { unfold Bs. destruct (points L); [contradiction|discriminate]. }
    { intros omega A B _ HA HB. apply IN in HA as (i & Hi & ->). apply IN in HB as (j & Hj & ->). eexists. apply HS; assumption. }
    destruct (exact_array_ok keqb dagger (2 ^ n) GE (cm (s_ent HM)) es eta junk omegas As Bs "-" r0 Er) as (arr & -> & Sh & HA).
    unfold a3_shape in Sh. injection Sh as S0 S1 S2.
    assert (TD : exists d, to_dict keqb As Bs arr = Ok d).
    { unfold to_dict. unfold for_enum at 1. rewrite (table_loop keqb (sk_eq _ _ _ _ SK) (a3_row arr)); [eauto|apply (mk_nodup site_of mk (sk_site _ _ _ _ SK)); exact ND..|intros A B _ []]. }
    destruct TD as (d & TD).
    exists (spectrum_rows site_of d (Z.of_nat n) (length omegas) kpoints), Gs. split; [|split].
    - unfold exact_spectrum. rewrite E. cbn [obind]. rewrite R1, (multiple_array keqb dagger (2 ^ n) GE (cm (s_ent HM)) es eta junk omegas As Bs "-" "dict").
      unfold owrap. rewrite Er. cbn [bind]. unfold finish. cbn [String.eqb Ascii.eqb Bool.eqb]. rewrite TD. reflexivity.
    - intros omega i j Hi Hj. now apply HS.
    - apply rows_ok; [intros omega i j Hi Hj; now apply HS|]. intros w omega k Hw.
      apply (kspace_gfs_ok keqb site_of mk (sk_eq _ _ _ _ SK) (sk_site _ _ _ _ SK) (points L) omegas arr d Gs ND NE S2); [|exact TD|exact Hw].
      intros i j w' omega' Hi Hj Hw'. specialize (HA i j w' (mk "p"%string (nth i (points L) v0)) (mk "m"%string (nth j (points L) v0)) omega').
      rewrite (proj1 (HS omega' i j Hi Hj)) in HA. unfold As, Bs in HA. rewrite !(map_nth_error _ _ _ (NTH _ Hi)), !(map_nth_error _ _ _ (NTH _ Hj)) in HA.
      specialize (HA eq_refl eq_refl Hw'). injection HA as HA. now symmetry.
  Qed.
End Program.
