(** The ferromagnetic state is the lowest one for J < 0; the Green functions of single
    spins down are the resolvent of the magnon matrix. *)
From Coq Require Import Reals Qreals String List ZArith Bool Arith Lia Lra QArith.Qcanon.
From Coquelicot Require Import Complex.
From Verif Require Import Py GQ Mat CVec Spin_Model Spin_Spec Spin_Proofs Free_Spec Free_Proofs2 Free_Proofs7 Heisenberg_Spec Heisenberg_Proofs2 Heisenberg_Proofs7
  GF_Spec GF_Proofs GF_Proofs2 CPT_Proofs CPT_Proofs4 Bloch_Proofs4 SpinWave_Spec SpinWave_Proofs SpinWave_Proofs2.
Import ListNotations.
Local Open Scope nat_scope.

Section Projector.
  Local Open Scope gq_scope.
  Variables (n i j : nat).
  Hypotheses (Hi : (i < n)%nat) (Hj : (j < n)%nat) (Hij : i <> j).
  (** 1/4 - S_i . S_j *)
  Definition singlet : mat := msub (mscale gquarter mid) (site_dot n i j).
  Lemma singlet_entry r c : (r < 2 ^ n)%nat -> (c < 2 ^ n)%nat ->
    singlet r c = if Bool.eqb (Nat.testbit c i) (Nat.testbit c j) then 0 else (if Nat.eqb r c then ghalf else 0) - (if Nat.eqb r (flip i (flip j c)) then ghalf else 0).
  Proof.
    intros Hr Hc. unfold singlet, msub, mscale, mid. rewrite site_dot_entry by assumption. unfold dot_entry. rewrite <- qq2.
    destruct (Bool.eqb _ _), (Nat.eqb r c), (Nat.eqb r (flip i (flip j c))); ring.
  Qed.
  Lemma flip_flip x c : flip x (flip x c) = c.
  Proof. unfold flip. now rewrite Nat.lxor_assoc, Nat.lxor_nilpotent, Nat.lxor_0_r. Qed.
  Lemma swap_swap c : flip i (flip j (flip i (flip j c))) = c.
  Proof. rewrite (flip_comm i j c), (flip_flip j), flip_flip. reflexivity. Qed.
  Lemma singlet_square : eqm (2 ^ n) (mmul (2 ^ n) singlet singlet) singlet.
  Proof.
    intros r c Hr Hc. unfold mmul. set (s := flip i (flip j c)). assert (Hs : (s < 2 ^ n)%nat) by (apply flip_lt; auto; apply flip_lt; auto).
    destruct (Bool.eqb (Nat.testbit c i) (Nat.testbit c j)) eqn:B.
    - rewrite (singlet_entry r c Hr Hc), B. apply bigsum_zero. intros l Hl. rewrite (singlet_entry l c Hl Hc), B. ring.
    - rewrite (bigsum_ext _ _ (fun l => singlet r l * (if Nat.eqb l c then ghalf else 0) + singlet r l * (if Nat.eqb l s then - ghalf else 0))).
      2:{ intros l Hl. rewrite (singlet_entry l c Hl Hc), B. fold s. destruct (Nat.eqb l c), (Nat.eqb l s); ring. }
      unfold bigsum. rewrite lsum_add. change (lsum ?g (seq 0 ?d)) with (bigsum d g). rewrite !bigsum_pick by assumption.
      assert (X : singlet r s = - singlet r c).
      { rewrite (singlet_entry r s Hr Hs), (singlet_entry r c Hr Hc), B. unfold s at 1 2. rewrite !flip_bit, !Nat.eqb_refl.
        destruct (Nat.eqb_spec j i) as [E|_]; [congruence|]. destruct (Nat.eqb_spec i j) as [E|_]; [congruence|].
        rewrite !xorb_false_r. replace (Bool.eqb (xorb (Nat.testbit c i) true) (xorb (Nat.testbit c j) true)) with (Bool.eqb (Nat.testbit c i) (Nat.testbit c j)) by (destruct (Nat.testbit c i), (Nat.testbit c j); reflexivity). rewrite B.
        unfold s at 2. rewrite swap_swap. fold s. destruct (Nat.eqb r c), (Nat.eqb r s); ring. }
      rewrite X. transitivity (singlet r c * (ghalf + ghalf)); [ring|]. rewrite ghalf_double. ring.
  Qed.
  Lemma singlet_dag : eqm (2 ^ n) (mdag singlet) singlet.
  Proof.
    intros r c Hr Hc. unfold mdag. rewrite (singlet_entry c r Hc Hr), (singlet_entry r c Hr Hc).
    assert (HB : gconj ghalf = ghalf) by (apply gq_eq; [reflexivity|apply Qc_is_canon; reflexivity]).
    assert (Z : gconj 0 = 0) by apply gconj_0.
    assert (SW : Nat.eqb c (flip i (flip j r)) = Nat.eqb r (flip i (flip j c))).
    { destruct (Nat.eqb_spec c (flip i (flip j r))) as [E0|N]; destruct (Nat.eqb_spec r (flip i (flip j c))) as [E|N']; auto.
      - exfalso. apply N'. rewrite E0. now rewrite swap_swap.
      - exfalso. apply N. rewrite E. now rewrite swap_swap. }
    rewrite SW, (Nat.eqb_sym c r).
    destruct (Nat.eqb_spec r c) as [->|N].
    - destruct (Bool.eqb _ _); [exact Z|]. destruct (Nat.eqb c (flip i (flip j c))); [replace (ghalf - ghalf) with 0 by ring; exact Z|]. replace (ghalf - 0) with ghalf by ring. exact HB.
    - destruct (Nat.eqb_spec r (flip i (flip j c))) as [->|N'].
      + rewrite !flip_bit, !Nat.eqb_refl.
        destruct (Nat.eqb_spec j i) as [E|_]; [congruence|]. destruct (Nat.eqb_spec i j) as [E|_]; [congruence|]. rewrite !xorb_false_r.
        replace (Bool.eqb (xorb (Nat.testbit c i) true) (xorb (Nat.testbit c j) true)) with (Bool.eqb (Nat.testbit c i) (Nat.testbit c j)) by (destruct (Nat.testbit c i), (Nat.testbit c j); reflexivity).
        destruct (Bool.eqb _ _); [exact Z|]. replace (0 - ghalf) with (- ghalf) by ring. now rewrite gconj_opp, HB.
      + replace (0 - 0) with 0 by ring. destruct (Bool.eqb _ _), (Bool.eqb _ _); exact Z.
  Qed.
  Local Open Scope C_scope.
  Lemma site_dot_bound (x : vec) : exists s : R, (0 <= s)%R /\ inner (2 ^ n) x (mv (2 ^ n) (cm (site_dot n i j)) x) = RtoC (1 / 4) * inner (2 ^ n) x x - RtoC s.
  Proof.
    set (y := mv (2 ^ n) (cm singlet) x). exists (norm2 (2 ^ n) y). split; [apply norm2_nonneg|].
    assert (E : inner (2 ^ n) x y = RtoC (norm2 (2 ^ n) y)).
    { rewrite <- inner_self. unfold y at 2. rewrite adjoint. apply inner_ext; [intros r _; reflexivity|]. intros r Hr.
      rewrite (mv_cm_ext (2 ^ n) _ _ _ singlet_dag r Hr). unfold y. rewrite <- (mv_mmul (2 ^ n) (2 ^ n) _ _ x r). symmetry. apply (mv_cm_ext (2 ^ n) _ _ x singlet_square r Hr). }
    rewrite <- E. unfold inner. rewrite <- csum_mul_l, <- csum_sub. apply csum_ext. intros r Hr. unfold y, mv.
    transitivity (Cj (x r) * (RtoC (1 / 4) * x r - csum (2 ^ n) (fun c => cm singlet r c * x c))); [|ring]. f_equal.
    rewrite <- (csum_delta_l (2 ^ n) x r Hr) at 1. rewrite <- csum_mul_l, <- csum_sub. apply csum_ext. intros c Hc. unfold cm, singlet, msub.
    replace (mscale gquarter mid r c - site_dot n i j r c)%gq with (mscale gquarter mid r c + - site_dot n i j r c)%gq by ring. rewrite gc_add, gc_opp.
    unfold mscale, mid. replace (gc (gquarter * (if Nat.eqb r c then g1 else g0))%gq) with (RtoC (1 / 4) * delta r c); [ring|].
    rewrite gc_mul, gc_quarter, delta_if, gc_1. change c1 with (RtoC 1). ring.
  Qed.
End Projector.

Local Open Scope C_scope.
Lemma exchange_bound n J pairs (x : vec) : gconj J = J -> Forall (proper n) pairs -> exists s : R, (0 <= s)%R /\
  inner (2 ^ n) x (mv (2 ^ n) (cm (exchange n J pairs)) x) = RtoC (coupling J) * (RtoC (INR (length pairs) / 4) * inner (2 ^ n) x x - RtoC s).
Proof.
  intros HJ F. induction F as [|p l (H1 & H2 & H3) F (s & Hs & IH)].
  - exists 0%R. split; [lra|]. unfold inner at 1. rewrite csum_zero; [cbn [length INR]; replace (0 / 4)%R with 0%R by lra; change c0 with (RtoC 0); ring|].
    intros r _. unfold mv. rewrite csum_zero; [change c0 with (RtoC 0); ring|]. intros c _. unfold cm, exchange. cbn [lsum]. replace (J * g0)%gq with g0 by ring. rewrite gc_0. change c0 with (RtoC 0); ring.
  - destruct (site_dot_bound n (fst p) (snd p) H1 H2 H3 x) as (s' & Hs' & E). exists (s' + s)%R. split; [lra|].
    transitivity (RtoC (coupling J) * inner (2 ^ n) x (mv (2 ^ n) (cm (site_dot n (fst p) (snd p))) x) + inner (2 ^ n) x (mv (2 ^ n) (cm (exchange n J l)) x)).
    + unfold inner. rewrite <- csum_mul_l, <- csum_add. apply csum_ext. intros r _. unfold mv.
      transitivity (Cj (x r) * (RtoC (coupling J) * csum (2 ^ n) (fun c => cm (site_dot n (fst p) (snd p)) r c * x c) + csum (2 ^ n) (fun c => cm (exchange n J l) r c * x c))); [|ring]. f_equal.
      rewrite <- csum_mul_l, <- csum_add. apply csum_ext. intros c _. unfold cm, exchange. cbn [lsum]. rewrite !gc_mul, gc_add, <- gc_real by exact HJ. ring.
    + rewrite E, IH. cbn [length]. rewrite S_INR. replace ((INR (length l) + 1) / 4)%R with (1 / 4 + INR (length l) / 4)%R by lra. rewrite !RtoC_plus. ring.
Qed.

Lemma up_eigen n J pairs : gconj J = J -> Forall (proper n) pairs -> eigenvector (2 ^ n) (cm (exchange n J pairs)) (coupling J * INR (length pairs) / 4) all_up.
Proof.
  intros HJ F. split.
  - change all_up with (fun c => delta c 0). now rewrite inner_delta by apply zero_lt.
  - intros r Hr. change all_up with (fun c => delta c 0). rewrite mv_basis by apply zero_lt. unfold cm. rewrite exchange_up by assumption. rewrite gc_real by assumption.
    replace (coupling J * INR (length pairs) / 4)%R with (coupling J * (INR (length pairs) / 4))%R by lra. rewrite RtoC_mult. ring.
Qed.
Lemma down_orthonormal n i j : (i < n)%nat -> (j < n)%nat -> inner (2 ^ n) (lowered n all_up i) (lowered n all_up j) = delta i j.
Proof.
  intros Hi Hj. transitivity (inner (2 ^ n) (fun r => delta r (2 ^ i)) (fun r => delta r (2 ^ j))).
  - apply inner_ext; intros r Hr; now apply lowered_up.
  - rewrite inner_delta by now apply pow_lt. unfold delta. destruct (Nat.eqb_spec i j) as [->|N]; [now rewrite Nat.eqb_refl|]. destruct (Nat.eqb_spec (2 ^ i) (2 ^ j)) as [E|_]; [|reflexivity]. now apply pow_inj in E.
Qed.

Lemma multiplicity_sym pairs i j : multiplicity pairs i j = multiplicity pairs j i.
Proof. unfold multiplicity. f_equal. apply filter_ext. intros p. unfold connects. apply andb_comm. Qed.
Lemma magnon_hermitian d J pairs : hermitian d (magnon_matrix J pairs).
Proof.
  intros i j _ _. unfold magnon_matrix. rewrite (Nat.eqb_sym j i). destruct (Nat.eqb_spec i j) as [->|N]; [now rewrite Cj_R|]. now rewrite Cj_R, multiplicity_sym.
Qed.
Lemma magnon_resolvent n J pairs z eta (G : cmat) : gconj J = J -> Forall (proper n) pairs -> eta <> 0%R ->
  (forall i j, (i < n)%nat -> (j < n)%nat -> green "-"%string (2 ^ n) (cm (exchange n J pairs)) (coupling J * INR (length pairs) / 4) (frequency z eta) (lowered n all_up i) (lowered n all_up j) (G i j)) ->
  resolvent n (magnon_matrix (coupling J) pairs) (frequency z eta) G.
Proof.
  intros HJ F He HG. set (GE := (coupling J * INR (length pairs) / 4)%R) in *. set (w := frequency z eta) in *. set (h := magnon_matrix (coupling J) pairs).
  assert (FF : Forall (fun p => (fst p < n)%nat /\ (snd p < n)%nat) pairs) by (eapply Forall_impl; [|exact F]; intros p (A & B & _); auto).
  assert (LEFT : forall i j, (i < n)%nat -> (j < n)%nat -> csum n (fun k => (w * delta i k - h i k) * G k j) = delta i j).
  { intros i j Hi Hj. destruct (HG i j Hi Hj) as (x & Ex & Eg).
    assert (Gx : forall k, (k < n)%nat -> G k j = x (2 ^ k)%nat).
    { intros k Hk. destruct (HG k j Hk Hj) as (y & Ey & ->).
      assert (U : veqn (2 ^ n) y x).
      { assert (HH : hermitian (2 ^ n) (cm (exchange n J pairs))).
        { intros r c Hr Hc. unfold cm. rewrite <- gc_conj. f_equal. symmetry. apply (exchange_hermitian n J pairs HJ FF r c Hr Hc). }
        pose proof (hermitian_invertible "-"%string (2 ^ n) (cm (exchange n J pairs)) GE z eta HH He (fun r => y r - x r)) as I.
        intros r Hr. enough (y r - x r = c0) as D by (transitivity (y r - x r + x r); [ring|rewrite D; change c0 with (RtoC 0); ring]). apply (I); [|exact Hr].
        intros q Hq. pose proof (Ey q Hq) as E1. pose proof (Ex q Hq) as E2. unfold shifted in *. cbn [String.eqb Ascii.eqb Bool.eqb] in *. fold w.
        assert (MS : mv (2 ^ n) (cm (exchange n J pairs)) (fun r0 => y r0 - x r0) q = mv (2 ^ n) (cm (exchange n J pairs)) y q - mv (2 ^ n) (cm (exchange n J pairs)) x q) by (unfold mv; rewrite <- csum_sub; apply csum_ext; intros; ring). rewrite MS. unfold vzero. transitivity (lowered n all_up j q - lowered n all_up j q); [rewrite <- E1 at 1; rewrite <- E2; ring|change c0 with (RtoC 0); ring]. }
      transitivity (inner (2 ^ n) (fun r => delta r (2 ^ k)) x); [apply inner_ext; [intros r Hr; now apply lowered_up|exact U]|]. now rewrite inner_delta by now apply pow_lt. }
    pose proof (Ex (2 ^ i)%nat (pow_lt n i Hi)) as E. unfold shifted in E. cbn [String.eqb Ascii.eqb Bool.eqb] in E. rewrite lowered_up in E by auto using pow_lt.
    replace (delta (2 ^ i) (2 ^ j)) with (delta i j) in E.
    2:{ unfold delta. destruct (Nat.eqb_spec i j) as [->|N]; [now rewrite Nat.eqb_refl|]. destruct (Nat.eqb_spec (2 ^ i) (2 ^ j)) as [Q|_]; [|reflexivity]. now apply pow_inj in Q. }
    rewrite <- E. clear E.
    assert (M : mv (2 ^ n) (cm (exchange n J pairs)) x (2 ^ i)%nat = RtoC GE * x (2 ^ i)%nat + csum n (fun k => h i k * x (2 ^ k)%nat)).
    { unfold mv. transitivity (csum (2 ^ n) (fun c => gc J * (RtoC (INR (length pairs) / 4 - INR (degree pairs i) / 2) * (delta (2 ^ i) c * x c)) +
          gc J * RtoC (1 / 2) * csum n (fun k => (if Nat.eqb k i then c0 else RtoC (INR (multiplicity pairs i k))) * (delta (2 ^ k) c * x c)))).
      - apply csum_ext. intros c Hc. unfold cm.
        assert (HS : gc (exchange n J pairs (2 ^ i) c) = Cj (gc (exchange n J pairs c (2 ^ i)))).
        { rewrite <- gc_conj. f_equal. symmetry. apply (exchange_hermitian n J pairs HJ FF (2 ^ i)%nat c (pow_lt n i Hi) Hc). }
        rewrite HS, (exchange_down n J pairs i c F Hi Hc). rewrite (gc_real J HJ). rewrite !Cj_mul, Cj_add, !Cj_mul, !Cj_R, csum_conj.
        assert (CD : forall a b, Cj (delta a b) = delta b a). { intros a b. unfold delta. rewrite (Nat.eqb_sym b a). destruct (Nat.eqb a b); [apply Cj_1|apply Cj_0]. }
        rewrite CD. rewrite (csum_ext n (fun k => (if Nat.eqb k i then c0 else RtoC (INR (multiplicity pairs i k))) * (delta (2 ^ k) c * x c)) (fun k => Cj (if Nat.eqb k i then c0 else RtoC (INR (multiplicity pairs i k)) * delta c (2 ^ k)) * x c)).
        { rewrite csum_mul_r. ring. }
        intros k _. destruct (Nat.eqb k i); [rewrite Cj_0; change c0 with (RtoC 0); ring|]. rewrite Cj_mul, Cj_R, CD. ring.
      - rewrite csum_add, csum_mul_l, csum_mul_l, csum_delta_l by now apply pow_lt. rewrite csum_mul_l, csum_swap.
        rewrite (csum_ext n (fun k => csum (2 ^ n) _) (fun k => (if Nat.eqb k i then c0 else RtoC (INR (multiplicity pairs i k))) * x (2 ^ k)%nat)).
        2:{ intros k Hk. rewrite csum_mul_l, csum_delta_l by now apply pow_lt. reflexivity. }
        rewrite (csum_ext n (fun k => h i k * x (2 ^ k)%nat) (fun k => RtoC (- (coupling J / 2 * INR (degree pairs i))) * (delta i k * x (2 ^ k)%nat) + RtoC (coupling J / 2) * ((if Nat.eqb k i then c0 else RtoC (INR (multiplicity pairs i k))) * x (2 ^ k)%nat))).
        { rewrite csum_add, csum_mul_l, csum_mul_l, (csum_delta_l n (fun k => x (2 ^ k)%nat) i Hi). rewrite (gc_real J HJ).
          replace (RtoC GE) with (RtoC (coupling J) * RtoC (INR (length pairs) / 4)) by (rewrite <- RtoC_mult; unfold GE; f_equal; lra).
          replace (RtoC (- (coupling J / 2 * INR (degree pairs i)))) with (- (RtoC (coupling J) * RtoC (INR (degree pairs i) / 2))) by (rewrite <- RtoC_mult, <- RtoC_opp; f_equal; lra).
          replace (RtoC (coupling J / 2)) with (RtoC (coupling J) * RtoC (1 / 2)) by (rewrite <- RtoC_mult; f_equal; lra).
          rewrite RtoC_minus. ring. }
        intros k _. unfold h, magnon_matrix, delta. rewrite (Nat.eqb_sym k i). destruct (Nat.eqb_spec i k) as [<-|N]; [change c1 with (RtoC 1); change c0 with (RtoC 0); ring|]. rewrite RtoC_mult. change c0 with (RtoC 0). ring. }
    rewrite M. rewrite (csum_ext n _ (fun k => w * (delta i k * x (2 ^ k)%nat) - h i k * x (2 ^ k)%nat)) by (intros k Hk; rewrite (Gx k Hk); ring).
    rewrite csum_sub, csum_mul_l, (csum_delta_l n (fun k => x (2 ^ k)%nat) i Hi). ring. }
  destruct (resolvent_exists n h z eta (magnon_hermitian n _ pairs) He) as (R0 & HR). fold w in HR.
  apply (resolvent_ext n h h w R0 G); auto. intros i j Hi Hj.
  rewrite <- (csum_delta_r n (fun k => R0 i k) j Hj).
  rewrite (csum_ext n _ (fun k => csum n (fun l => R0 i k * ((w * delta k l - h k l) * G l j)))) by (intros k Hk; rewrite csum_mul_l; now rewrite (LEFT k j Hk Hj)).
  rewrite csum_swap. rewrite (csum_ext n _ (fun l => delta i l * G l j)); [exact (csum_delta_l n (fun l => G l j) i Hi)|].
  intros l Hl. rewrite <- (proj2 (HR i l Hi Hl)), <- csum_mul_r. apply csum_ext. intros. ring.
Qed.
