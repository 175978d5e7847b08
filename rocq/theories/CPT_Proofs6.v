(** Waves that a matrix maps among each other (for C59_bloch). *)
From Coq Require Import Reals List Bool Arith ZArith Lia Lra Permutation.
From Coquelicot Require Import Complex.
From Verif Require Import Py CVec Free_Spec Spectrum_Spec CPT_Model CPT_Spec CPT_Proofs CPT_Proofs2 CPT_Proofs3.
Import ListNotations.
Local Open Scope nat_scope.
Local Open Scope C_scope.

Section Waves.
  Variables (n m : nat) (H h : cmat) (ci : nat -> nat) (w : nat -> C) (cnt : R).
  Definition wave (b i : nat) : C := if Nat.eqb (ci i) b then w i else c0.
  Hypothesis Bound : forall i, (i < n)%nat -> (ci i < m)%nat.
  Hypothesis Unit : forall i, (i < n)%nat -> w i * Cj (w i) = c1.
  Hypothesis Count : forall b, (b < m)%nat -> csum n (fun i => if Nat.eqb (ci i) b then c1 else c0) = RtoC cnt.
  Hypothesis Mapped : forall b i, (b < m)%nat -> (i < n)%nat -> csum n (fun j => H i j * wave b j) = h (ci i) b * w i.

  Lemma wave_overlap a b : (a < m)%nat -> (b < m)%nat -> csum n (fun i => Cj (wave a i) * wave b i) = RtoC cnt * delta a b.
  Proof.
    intros Ha Hb. unfold delta. destruct (Nat.eqb_spec a b) as [<-|N].
    - replace (RtoC cnt * c1) with (RtoC cnt) by (unfold c1; ring). rewrite <- (Count a Ha). apply csum_ext. intros i Hi. unfold wave. destruct (Nat.eqb_spec (ci i) a); [rewrite Cmult_comm; now apply Unit|unfold c0; ring].
    - rewrite csum_zero; [unfold c0; ring|]. intros i Hi. unfold wave. destruct (Nat.eqb_spec (ci i) a), (Nat.eqb_spec (ci i) b); try congruence; rewrite ?Cj_0; unfold c0; ring.
  Qed.
  Lemma waves_matrix a b : (a < m)%nat -> (b < m)%nat -> csum n (fun i => Cj (wave a i) * csum n (fun j => H i j * wave b j)) = RtoC cnt * h a b.
  Proof.
    intros Ha Hb. rewrite (csum_ext n _ (fun i => (if Nat.eqb (ci i) a then c1 else c0) * h a b)).
    - rewrite csum_mul_r, Count by exact Ha. reflexivity.
    - intros i Hi. rewrite Mapped by assumption. unfold wave. destruct (Nat.eqb_spec (ci i) a) as [<-|N]; [|rewrite Cj_0; unfold c0; ring].
      transitivity (w i * Cj (w i) * h (ci i) b); [ring|]. now rewrite Unit.
  Qed.
  Lemma waves_hermitian : cnt <> 0%R -> hermitian n H -> hermitian m h.
  Proof.
    intros Hc HH a b Ha Hb. assert (N0 : RtoC cnt <> c0) by (intros E; apply Hc; now apply RtoC_inj in E).
    assert (E : RtoC cnt * Cj (h a b) = RtoC cnt * h b a).
    { transitivity (Cj (RtoC cnt * h a b)); [rewrite Cj_mul; f_equal; unfold Cj, RtoC; cbn; now rewrite Ropp_0|].
      rewrite <- (waves_matrix a b), <- (waves_matrix b a) by assumption. rewrite csum_conj.
      rewrite (csum_ext n (fun i => Cj (wave b i) * _) (fun i => csum n (fun j => Cj (wave b i) * (H i j * wave a j)))) by (intros; now rewrite csum_mul_l).
      rewrite csum_swap. apply csum_ext. intros i Hi. rewrite Cj_mul, Cj_Cj, csum_conj, <- csum_mul_l. apply csum_ext. intros j Hj.
      rewrite Cj_mul. rewrite <- (HH j i Hj Hi). ring. }
    apply (f_equal (fun x => / RtoC cnt * x)) in E. rewrite !Cmult_assoc, !Cinv_l, !Cmult_1_l in E by exact N0. rewrite <- E. now rewrite Cj_Cj.
  Qed.
  Lemma waves_resolvent z X g b : (b < m)%nat -> resolvent n H z X -> resolvent m h z g -> form n X (wave b) = RtoC cnt * g b b.
  Proof.
    intros Hb HX Hg.
    assert (HW : forall i, (i < n)%nat -> csum n (fun j => (z * delta i j - H i j) * (w j * g (ci j) b)) = wave b i).
    { intros i Hi.
      assert (EW : forall j, (j < n)%nat -> w j * g (ci j) b = csum m (fun a => wave a j * g a b)).
      { intros j Hj. rewrite (csum_single m _ (ci j) (Bound j Hj)); [unfold wave; now rewrite Nat.eqb_refl|]. intros a _ Na. unfold wave. destruct (Nat.eqb_spec (ci j) a); [congruence|unfold c0; ring]. }
      rewrite (csum_ext n _ (fun j => delta i j * (z * (w j * g (ci j) b)) - H i j * (w j * g (ci j) b))) by (intros; ring).
      rewrite csum_sub, (csum_delta_l n (fun j => z * (w j * g (ci j) b)) i Hi).
      rewrite (csum_ext n (fun j => H i j * _) (fun j => csum m (fun a => H i j * wave a j * g a b))).
      2:{ intros j Hj. rewrite EW by exact Hj. rewrite <- csum_mul_l. apply csum_ext. intros. ring. }
      rewrite csum_swap. rewrite (csum_ext m _ (fun a => w i * (h (ci i) a * g a b))).
      2:{ intros a Ha. rewrite csum_mul_r, Mapped by assumption. ring. }
      rewrite csum_mul_l. pose proof (proj1 (Hg (ci i) b (Bound i Hi) Hb)) as E.
      rewrite (csum_ext m _ (fun k => delta (ci i) k * (z * g k b) - h (ci i) k * g k b)) in E by (intros; ring).
      rewrite csum_sub, (csum_delta_l m (fun k => z * g k b) (ci i) (Bound i Hi)) in E.
      transitivity (w i * (z * g (ci i) b - csum m (fun k => h (ci i) k * g k b))); [ring|]. rewrite E. unfold wave, delta. destruct (Nat.eqb (ci i) b); unfold c1, c0; ring. }
    assert (XW : forall i, (i < n)%nat -> csum n (fun j => X i j * wave b j) = w i * g (ci i) b).
    { intros i Hi. rewrite (csum_ext n _ (fun j => csum n (fun k => X i j * (z * delta j k - H j k) * (w k * g (ci k) b)))).
      2:{ intros j Hj. rewrite <- (HW j Hj), <- csum_mul_l. apply csum_ext. intros. ring. }
      rewrite csum_swap. rewrite (csum_ext n _ (fun k => delta i k * (w k * g (ci k) b))).
      2:{ intros k Hk. rewrite csum_mul_r. f_equal. apply (proj2 (HX i k Hi Hk)). }
      now apply (csum_delta_l n (fun k => w k * g (ci k) b)). }
    unfold form. rewrite (csum_ext n _ (fun i => (if Nat.eqb (ci i) b then c1 else c0) * g b b)).
    - now rewrite csum_mul_r, Count.
    - intros i Hi. rewrite (csum_ext n _ (fun j => Cj (wave b i) * (X i j * wave b j))) by (intros; ring). rewrite csum_mul_l, XW by exact Hi.
      unfold wave. destruct (Nat.eqb_spec (ci i) b) as [<-|N]; [|rewrite Cj_0; unfold c0; ring].
      transitivity (w i * Cj (w i) * g (ci i) (ci i)); [ring|]. now rewrite Unit.
  Qed.
End Waves.

(** Two copies. *)
Lemma resolvent_direct m k A B z G G' : resolvent m A z G -> resolvent k B z G' -> resolvent (m + k) (direct_sum m A B) z (direct_sum m G G').
Proof.
  intros HG HG' i j Hi Hj.
  assert (D0 : forall a b, (a < m)%nat -> delta a (m + b) = c0) by (intros; unfold delta; destruct (Nat.eqb_spec a (m + b)); [lia|reflexivity]).
  assert (D1 : forall a b, (a < m)%nat -> delta (m + b) a = c0) by (intros; unfold delta; destruct (Nat.eqb_spec (m + b) a); [lia|reflexivity]).
  assert (D2 : forall a b, delta (m + a) (m + b) = delta a b) by (intros; unfold delta; destruct (Nat.eqb_spec (m + a) (m + b)), (Nat.eqb_spec a b); lia || reflexivity).
  rewrite !csum_block.
  apply split_index in Hi as [Hi|(i' & Hi & ->)]; apply split_index in Hj as [Hj|(j' & Hj & ->)].
  - split.
    + rewrite (csum_zero k) by (intros; rewrite direct_rl by exact Hj; unfold c0; ring). rewrite <- (proj1 (HG i j Hi Hj)).
      rewrite (csum_ext m _ (fun l => (z * delta i l - A i l) * G l j)) by (intros; now rewrite !direct_ll). unfold c0; ring.
    + rewrite (csum_zero k) by (intros; rewrite direct_lr by exact Hi; unfold c0; ring). rewrite <- (proj2 (HG i j Hi Hj)).
      rewrite (csum_ext m _ (fun l => G i l * (z * delta l j - A l j))) by (intros; now rewrite !direct_ll). unfold c0; ring.
  - split; rewrite !csum_zero; rewrite ?D0 by assumption; try (unfold c0; ring); intros l Hl; cbv beta;
      rewrite ?direct_lr, ?D0, ?D2 by assumption; unfold c0; ring.
  - split; rewrite !csum_zero; rewrite ?D1 by assumption; try (unfold c0; ring); intros l Hl; cbv beta;
      first [rewrite (direct_rl m _ _ i' l Hl)|rewrite (direct_rl m _ _ l j Hj)|idtac]; rewrite ?(direct_rl m _ _ _ j Hj), ?(D1 j _ Hj); try rewrite (D1 l _ Hl); unfold c0; ring.
  - rewrite D2. split.
    + rewrite (csum_zero m) by (intros; rewrite direct_lr by assumption; unfold c0; ring). rewrite <- (proj1 (HG' i' j' Hi Hj)).
      rewrite (csum_ext k _ (fun l => (z * delta i' l - B i' l) * G' l j')) by (intros; now rewrite !direct_rr, D2). unfold c0; ring.
    + rewrite (csum_zero m) by (intros; rewrite direct_rl by assumption; unfold c0; ring). rewrite <- (proj2 (HG' i' j' Hi Hj)).
      rewrite (csum_ext k _ (fun l => G' i' l * (z * delta l j' - B l j'))) by (intros; now rewrite !direct_rr, D2). unfold c0; ring.
Qed.
