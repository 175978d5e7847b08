(** Proofs for C59: the class of Lehmann functions is closed under the step, under
    adding particle and hole parts and under direct sums. *)
From Coq Require Import Reals String List Arith Lia Lra.
From Coquelicot Require Import Complex.
From Verif Require Import Py CVec LinSolve Lanczos_Spec Lanczos_Proofs2 GF_Model GF_Spec GF_Proofs2 Free_Spec Free_Proofs7 Spectrum_Spec Spectrum_Proofs Spectrum_Proofs2
  CPT_Model CPT_Spec CPT_Proofs.
Import ListNotations.
Local Open Scope C_scope.

Lemma green_total sign n H GE omega eta a b : hermitian n H -> eta <> 0%R -> exists g, green sign n H GE (frequency omega eta) a b g.
Proof.
  intros HH He. destruct (eigenbasis_exists n H HH) as (E & e & B). eexists. exact (green_eigenbasis sign n H GE omega eta a b E e He B).
Qed.
Lemma solution_total sign n H GE omega eta b : hermitian n H -> eta <> 0%R -> exists x, veqn n (shifted sign n H GE (frequency omega eta) x) b.
Proof. intros HH He. destruct (green_total sign n H GE omega eta b b HH He) as (g & x & Hx & _). eauto. Qed.

(** ** G' = b+ (z - M - b V b+)^-1 b *)
Section Step.
  Variables (d n : nat) (M V : cmat) (b : nat -> vec).
  Hypothesis HM : hermitian n M.
  Hypothesis HV : hermitian d V.
  Definition dressed : cmat := fun k l => M k l + csum d (fun i => csum d (fun j => b i k * V i j * Cj (b j l))).
  Lemma dressed_hermitian : hermitian n dressed.
  Proof.
    intros k l Hk Hl. unfold dressed. rewrite Cj_add, (HM k l Hk Hl). f_equal.
    rewrite csum_conj, csum_swap. apply csum_ext. intros j Hj. rewrite csum_conj. apply csum_ext. intros i Hi.
    rewrite !Cj_mul, Cj_Cj, (HV i j Hi Hj). ring.
  Qed.
  Lemma mv_dressed x k : mv n dressed x k = mv n M x k + csum d (fun i => b i k * csum d (fun j => V i j * inner n (b j) x)).
  Proof.
    unfold mv, dressed. rewrite (csum_ext n _ (fun l => M k l * x l + csum d (fun i => csum d (fun j => b i k * V i j * Cj (b j l) * x l)))).
    2:{ intros l Hl. rewrite Cmult_plus_distr_r. f_equal. rewrite <- csum_mul_r. apply csum_ext. intros i Hi. now rewrite <- csum_mul_r. }
    rewrite csum_add. f_equal. rewrite csum_swap. apply csum_ext. intros i Hi. rewrite csum_swap, <- csum_mul_l. apply csum_ext. intros j Hj.
    unfold inner. rewrite <- !csum_mul_l. apply csum_ext. intros. ring.
  Qed.
  Lemma dressed_dyson omega eta (G G' : cmat) : eta <> 0%R ->
    (forall i j, (i < d)%nat -> (j < d)%nat -> green "-" n M 0 (frequency omega eta) (b i) (b j) (G i j)) ->
    (forall i j, (i < d)%nat -> (j < d)%nat -> green "-" n dressed 0 (frequency omega eta) (b i) (b j) (G' i j)) ->
    forall i j, (i < d)%nat -> (j < d)%nat -> G' i j = G i j + csum d (fun k => csum d (fun l => G i k * V k l * G' l j)).
  Proof.
    intros He HG HG' i j Hi Hj. set (z := frequency omega eta) in *.
    destruct (solution_total "-" n dressed 0 omega eta (b j) dressed_hermitian He) as (x' & Hx').
    assert (E' : forall l, (l < d)%nat -> G' l j = inner n (b l) x').
    { intros l Hl. apply (green_unique "-" n dressed 0 z (b l) (b j)).
      - apply hermitian_invertible; [exact dressed_hermitian|exact He].
      - now apply HG'.
      - exists x'. split; [exact Hx'|reflexivity]. }
    (* (z - M) x' = b_j + sum_k b_k (V G')_kj *)
    set (c := fun k => csum d (fun l => V k l * G' l j)).
    assert (S' : veqn n (shifted "-" n M 0 z x') (CVec.vadd (b j) (superposition d c b))).
    { intros r Hr. specialize (Hx' r Hr). unfold shifted in Hx' |- *. cbn [String.eqb Ascii.eqb Bool.eqb] in Hx' |- *. rewrite mv_dressed in Hx'.
      unfold CVec.vadd, superposition. rewrite <- Hx'.
      rewrite (csum_ext d (fun i => b i r * csum d (fun j => V i j * inner n (b j) x')) (fun k => c k * b k r)).
      2:{ intros k Hk. unfold c. rewrite (csum_ext d (fun l => V k l * inner n (b l) x') (fun l => V k l * G' l j)); [ring|]. intros l Hl. now rewrite E'. }
      fold z. ring. }
    rewrite (E' i Hi). 
    assert (Gt : forall k, (k < d)%nat -> exists y, veqn n (shifted "-" n M 0 z y) (b k) /\ G i k = inner n (b i) y) by (intros k Hk; exact (HG i k Hi Hk)).
    (* the solution for the right-hand side, by linearity *)
    assert (Gs : green "-" n M 0 z (b i) (CVec.vadd (b j) (superposition d c b)) (G i j + csum d (fun k => c k * G i k))).
    { destruct (Gt j Hj) as (yj & Yj & Ej).
      assert (X : exists Y : nat -> vec, forall k, (k < d)%nat -> veqn n (shifted "-" n M 0 z (Y k)) (b k) /\ G i k = inner n (b i) (Y k)).
      { clear - Gt. induction d as [|m IH]; [exists (fun _ => vzero); intros; lia|].
        destruct IH as (Y & HY); [intros; apply Gt; lia|]. destruct (Gt m ltac:(lia)) as (y & Hy).
        exists (fun k => if Nat.eqb k m then y else Y k). intros k Hk. destruct (Nat.eqb_spec k m) as [->|]; [exact Hy|]. apply HY. lia. }
      destruct X as (Y & HY). exists (CVec.vadd yj (superposition d c Y)). split.
      - intros r Hr. unfold shifted. cbn [String.eqb Ascii.eqb Bool.eqb]. rewrite mv_add.
        assert (E1 : mv n M (superposition d c Y) r = csum d (fun k => c k * mv n M (Y k) r)).
        { unfold superposition. rewrite (mv_csum n M d (fun k j => c k * Y k j) r). apply csum_ext. intros k Hk. apply (mv_scale n M (c k) (Y k)). }
        rewrite E1. unfold CVec.vadd, superposition. specialize (Yj r Hr). unfold shifted in Yj. cbn [String.eqb Ascii.eqb Bool.eqb] in Yj. rewrite <- Yj.
        rewrite (csum_ext d (fun k => c k * b k r) (fun k => (z + RtoC 0) * (c k * Y k r) - c k * mv n M (Y k) r)).
        2:{ intros k Hk. destruct (HY k Hk) as [Yk _]. specialize (Yk r Hr). unfold shifted in Yk. cbn [String.eqb Ascii.eqb Bool.eqb] in Yk. rewrite <- Yk. ring. }
        rewrite csum_sub, csum_mul_l. ring.
      - rewrite inner_add_r, <- Ej. f_equal. change (superposition d c Y) with (combo d c Y). rewrite inner_combo. apply csum_ext. intros k Hk. now rewrite (proj2 (HY k Hk)). }
    rewrite (green_unique "-" n M 0 z (b i) (CVec.vadd (b j) (superposition d c b)) (inner n (b i) x') (G i j + csum d (fun k => c k * G i k))
      (hermitian_invertible "-" n M 0 omega eta HM He) (ex_intro _ x' (conj S' eq_refl)) Gs).
    f_equal. apply csum_ext. intros k Hk. unfold c. rewrite <- csum_mul_r. apply csum_ext. intros. ring.
  Qed.
End Step.

Lemma cpt_lehmann d eta (G : R -> cmat) V : (0 < eta)%R -> lehmann d eta G -> hermitian d V ->
  exists G', lehmann d eta G' /\ forall omega, exists X, cpt d (G omega) V = Ok X /\
    (forall i j, (i < d)%nat -> (j < d)%nat -> X i j = G' omega i j) /\ dyson d (G omega) V X.
Proof.
  intros He L HV. pose proof L as (n & M & b & HM & O & Gr).
  destruct (eigenbasis_exists n (dressed d M V b) (dressed_hermitian d n M V b HM HV)) as (E & e & B).
  pose (G' := fun omega i j => csum n (fun k => inner n (b i) (e k) * inner n (e k) (b j) / shifted_value "-" (E k) 0 (frequency omega eta))).
  assert (HG' : forall omega i j, green "-" n (dressed d M V b) 0 (frequency omega eta) (b i) (b j) (G' omega i j)).
  { intros. apply green_eigenbasis; [lra|exact B]. }
  exists G'. split.
  - exists n, (dressed d M V b), b. split; [now apply dressed_hermitian|]. split; [exact O|]. intros. apply HG'.
  - intros omega. apply cpt_dyson; [now apply (lehmann_nonsingular d eta)|].
    apply (dressed_dyson d n M V b HM HV omega eta (G omega) (G' omega)); [lra|apply Gr|intros; apply HG'].
Qed.

Lemma lehmann_ext d eta (G G' : R -> cmat) : (forall omega i j, (i < d)%nat -> (j < d)%nat -> G omega i j = G' omega i j) -> lehmann d eta G -> lehmann d eta G'.
Proof.
  intros E (n & M & b & HM & O & Gr). exists n, M, b. split; [exact HM|]. split; [exact O|]. intros. rewrite <- E by assumption. now apply Gr.
Qed.

(** ** Block structure *)
Definition block (m : nat) (u v : vec) : vec := fun i => if Nat.ltb i m then u i else v (i - m)%nat.
Lemma csum_block m k (f : nat -> C) : csum (m + k)%nat f = csum m f + csum k (fun i => f (m + i)%nat).
Proof.
  induction k as [|k IH]; [rewrite Nat.add_0_r; cbn [csum]; unfold c0; ring|]. rewrite Nat.add_succ_r. cbn [csum]. rewrite IH. ring.
Qed.
Lemma block_l m u v i : (i < m)%nat -> block m u v i = u i.
Proof. intros H. unfold block. destruct (Nat.ltb_spec i m); [reflexivity|lia]. Qed.
Lemma block_r m u v i : block m u v (m + i)%nat = v i.
Proof. unfold block. destruct (Nat.ltb_spec (m + i) m); [lia|]. f_equal. lia. Qed.
Lemma inner_block m k u v u' v' : inner (m + k)%nat (block m u v) (block m u' v') = inner m u u' + inner k v v'.
Proof.
  unfold inner. rewrite csum_block. f_equal.
  - apply csum_ext. intros i Hi. now rewrite !block_l.
  - apply csum_ext. intros i Hi. now rewrite !block_r.
Qed.
Lemma direct_ll m A B i j : (i < m)%nat -> (j < m)%nat -> direct_sum m A B i j = A i j.
Proof. intros. unfold direct_sum. destruct (Nat.ltb_spec i m), (Nat.ltb_spec j m); try lia. reflexivity. Qed.
Lemma direct_lr m A B i j : (i < m)%nat -> direct_sum m A B i (m + j)%nat = c0.
Proof. intros. unfold direct_sum. destruct (Nat.ltb_spec i m), (Nat.ltb_spec (m + j) m); try lia. reflexivity. Qed.
Lemma direct_rl m A B i j : (j < m)%nat -> direct_sum m A B (m + i)%nat j = c0.
Proof. intros. unfold direct_sum. destruct (Nat.ltb_spec (m + i) m), (Nat.ltb_spec j m); try lia. reflexivity. Qed.
Lemma direct_rr m A B i j : direct_sum m A B (m + i)%nat (m + j)%nat = B i j.
Proof. intros. unfold direct_sum. destruct (Nat.ltb_spec (m + i) m), (Nat.ltb_spec (m + j) m); try lia. f_equal; lia. Qed.
Lemma split_index m k i : (i < m + k)%nat -> (i < m)%nat \/ exists i', (i' < k)%nat /\ i = (m + i')%nat.
Proof. intros H. destruct (Nat.lt_ge_cases i m); [now left|]. right. exists (i - m)%nat. lia. Qed.
Lemma mv_direct m k A B u v i : (i < m + k)%nat -> mv (m + k)%nat (direct_sum m A B) (block m u v) i = block m (mv m A u) (mv k B v) i.
Proof.
  intros Hi. unfold mv. rewrite csum_block. destruct (split_index m k i Hi) as [H|(i' & Hi' & ->)].
  - rewrite (block_l m _ _ i H). rewrite (csum_zero k).
    + rewrite (csum_ext m _ (fun j => A i j * u j)); [unfold c0; ring|]. intros j Hj. now rewrite direct_ll, block_l.
    + intros j Hj. rewrite direct_lr by assumption. unfold c0. ring.
  - rewrite block_r. rewrite (csum_zero m).
    + rewrite (csum_ext k _ (fun j => B i' j * v j)); [unfold c0; ring|]. intros j Hj. now rewrite direct_rr, block_r.
    + intros j Hj. rewrite direct_rl by assumption. unfold c0. ring.
Qed.
Lemma hermitian_direct m k A B : hermitian m A -> hermitian k B -> hermitian (m + k)%nat (direct_sum m A B).
Proof.
  intros HA HB i j Hi Hj. destruct (split_index m k i Hi) as [H|(i' & Hi' & ->)], (split_index m k j Hj) as [H'|(j' & Hj' & ->)].
  - rewrite !direct_ll by assumption. now apply HA.
  - rewrite direct_lr, direct_rl by assumption. now rewrite Cj_0.
  - rewrite direct_lr, direct_rl by assumption. now rewrite Cj_0.
  - rewrite !direct_rr. now apply HB.
Qed.
Lemma green_block m k A B z u v u' v' g g' :
  green "-" m A 0 z u u' g -> green "-" k B 0 z v v' g' -> green "-" (m + k)%nat (direct_sum m A B) 0 z (block m u v) (block m u' v') (g + g').
Proof.
  intros (x & Hx & ->) (y & Hy & ->). exists (block m x y). split; [|now rewrite inner_block].
  intros i Hi. unfold shifted. cbn [String.eqb Ascii.eqb Bool.eqb]. rewrite mv_direct by assumption.
  destruct (split_index m k i Hi) as [H|(i' & Hi' & ->)].
  - rewrite !block_l by assumption. specialize (Hx i H). unfold shifted in Hx. cbn [String.eqb Ascii.eqb Bool.eqb] in Hx. exact Hx.
  - rewrite !block_r. specialize (Hy i' Hi'). unfold shifted in Hy. cbn [String.eqb Ascii.eqb Bool.eqb] in Hy. exact Hy.
Qed.
Lemma green_zero_l sign n H GE omega eta b : hermitian n H -> eta <> 0%R -> green sign n H GE (frequency omega eta) vzero b c0.
Proof.
  intros HH He. destruct (solution_total sign n H GE omega eta b HH He) as (x & Hx). exists x. split; [exact Hx|]. now rewrite inner_zero_l.
Qed.
Lemma green_zero_r sign n H GE omega eta a : hermitian n H -> eta <> 0%R -> green sign n H GE (frequency omega eta) a vzero c0.
Proof.
  intros HH He. exists vzero. split; [|now rewrite inner_zero_r]. intros i Hi. unfold shifted.
  assert (E : mv n H vzero i = c0) by (apply csum_zero; intros; unfold vzero, c0; ring). rewrite E. unfold vzero. destruct (String.eqb sign "+"); unfold c0; ring.
Qed.
(** Two spins. *)
Lemma lehmann_direct d1 d2 eta (G1 G2 : R -> cmat) : eta <> 0%R -> lehmann d1 eta G1 -> lehmann d2 eta G2 ->
  lehmann (d1 + d2)%nat eta (fun omega => direct_sum d1 (G1 omega) (G2 omega)).
Proof.
  intros He (n1 & M1 & b1 & H1 & O1 & Gr1) (n2 & M2 & b2 & H2 & O2 & Gr2).
  exists (n1 + n2)%nat, (direct_sum n1 M1 M2), (fun i => if Nat.ltb i d1 then block n1 (b1 i) vzero else block n1 vzero (b2 (i - d1)%nat)).
  assert (BL : forall i, (i < d1)%nat -> (if Nat.ltb i d1 then block n1 (b1 i) vzero else block n1 vzero (b2 (i - d1)%nat)) = block n1 (b1 i) vzero).
  { intros i Hi. destruct (Nat.ltb_spec i d1); [reflexivity|lia]. }
  assert (BR : forall i, (if Nat.ltb (d1 + i)%nat d1 then block n1 (b1 (d1 + i)%nat) vzero else block n1 vzero (b2 (d1 + i - d1)%nat)) = block n1 vzero (b2 i)).
  { intros i. destruct (Nat.ltb_spec (d1 + i) d1); [lia|]. now replace (d1 + i - d1)%nat with i by lia. }
  split; [now apply hermitian_direct|]. split.
  - intros i j Hi Hj. cbv beta. destruct (split_index d1 d2 i Hi) as [H|(i' & Hi' & ->)], (split_index d1 d2 j Hj) as [H'|(j' & Hj' & ->)].
    + rewrite (BL i H), (BL j H'), inner_block, inner_zero_l, O1 by assumption. unfold c0. ring.
    + rewrite (BL i H), (BR j'), inner_block, inner_zero_l, inner_zero_r. unfold delta. destruct (Nat.eqb_spec i (d1 + j')); [lia|]. unfold c0. ring.
    + rewrite (BR i'), (BL j H'), inner_block, inner_zero_l, inner_zero_r. unfold delta. destruct (Nat.eqb_spec (d1 + i') j); [lia|]. unfold c0. ring.
    + rewrite (BR i'), (BR j'), inner_block, inner_zero_l, O2 by assumption. unfold delta, c0. destruct (Nat.eqb_spec i' j'), (Nat.eqb_spec (d1 + i') (d1 + j')); try lia; ring.
  - intros omega i j Hi Hj. cbv beta. destruct (split_index d1 d2 i Hi) as [H|(i' & Hi' & ->)], (split_index d1 d2 j Hj) as [H'|(j' & Hj' & ->)].
    + rewrite (BL i H), (BL j H'), direct_ll by assumption. replace (G1 omega i j) with (G1 omega i j + c0) by (unfold c0; ring).
      apply green_block; [now apply Gr1|now apply green_zero_l].
    + rewrite (BL i H), (BR j'), direct_lr by assumption. replace c0 with (c0 + c0) by (unfold c0; ring). apply green_block; [now apply green_zero_r|now apply green_zero_l].
    + rewrite (BR i'), (BL j H'), direct_rl by assumption. replace c0 with (c0 + c0) by (unfold c0; ring). apply green_block; [now apply green_zero_l|now apply green_zero_r].
    + rewrite (BR i'), (BR j'), direct_rr. replace (G2 omega i' j') with (c0 + G2 omega i' j') by (unfold c0; ring).
      apply green_block; [now apply green_zero_l|now apply Gr2].
Qed.

(** Particle and hole parts. *)
Definition shift_energy (A : cmat) (E : R) : cmat := fun i j => A i j - RtoC E * delta i j.
Lemma mv_shift n A E x i : (i < n)%nat -> mv n (shift_energy A E) x i = mv n A x i - RtoC E * x i.
Proof.
  intros Hi. unfold mv, shift_energy. rewrite (csum_ext n _ (fun j => A i j * x j - RtoC E * (delta i j * x j))) by (intros; ring).
  rewrite csum_sub, csum_mul_l, csum_delta_l by assumption. reflexivity.
Qed.
Lemma hermitian_shift n A E : hermitian n A -> hermitian n (shift_energy A E).
Proof.
  intros H i j Hi Hj. unfold shift_energy. rewrite Cj_sub, Cj_mul, Cj_R, (H i j Hi Hj). do 2 f_equal. unfold delta. rewrite (Nat.eqb_sym j i).
  destruct (Nat.eqb i j); [now rewrite Cj_1|now rewrite Cj_0].
Qed.
Definition mirror (A : cmat) : cmat := fun i j => - Cj (A i j).
Lemma hermitian_mirror n A : hermitian n A -> hermitian n (mirror A).
Proof. intros H i j Hi Hj. unfold mirror. now rewrite Cj_opp, (H i j Hi Hj). Qed.
Definition conj_vec (v : vec) : vec := fun i => Cj (v i).
Lemma inner_conj_vec n u v : inner n (conj_vec u) (conj_vec v) = inner n v u.
Proof. unfold inner, conj_vec. apply csum_ext. intros. rewrite Cj_Cj. ring. Qed.
Lemma green_particle n A E z a b g : green "-" n A E z a b g -> green "-" n (shift_energy A E) 0 z a b g.
Proof.
  intros (x & Hx & ->). exists x. split; [|reflexivity]. intros i Hi. specialize (Hx i Hi). unfold shifted in *. cbn [String.eqb Ascii.eqb Bool.eqb] in *.
  rewrite mv_shift by assumption. rewrite <- Hx. ring.
Qed.
Lemma green_hole n A E omega eta a b g : hermitian n A -> eta <> 0%R -> green "+" n A E (frequency omega eta) a b g ->
  green "-" n (mirror (shift_energy A E)) 0 (frequency omega eta) (conj_vec b) (conj_vec a) g.
Proof.
  intros HA He (y & Hy & ->). set (z := frequency omega eta) in *.
  destruct (solution_total "-" n (mirror (shift_energy A E)) 0 omega eta (conj_vec a) (hermitian_mirror n _ (hermitian_shift n A E HA)) He) as (y' & Hy').
  exists y'. split; [exact Hy'|]. fold z in Hy'.
  (* <a, y> = sum (A^T y')_k y_k = sum y'_l (A y)_l *)
  assert (E1 : inner n a y = csum n (fun k => (z * y' k + csum n (fun l => shift_energy A E l k * y' l)) * y k)).
  { unfold inner. apply csum_ext. intros k Hk. f_equal. specialize (Hy' k Hk). unfold shifted in Hy'. cbn [String.eqb Ascii.eqb Bool.eqb] in Hy'. unfold conj_vec in Hy'. rewrite <- Hy'.
    unfold mv. rewrite (csum_ext n (fun j => mirror (shift_energy A E) k j * y' j) (fun l => - (shift_energy A E l k * y' l))).
    - rewrite csum_opp. ring.
    - intros l Hl. unfold mirror. rewrite <- (hermitian_shift n A E HA l k Hl Hk). ring. }
  assert (E2 : inner n (conj_vec b) y' = csum n (fun l => y' l * (z * y l + csum n (fun k => shift_energy A E l k * y k)))).
  { unfold inner, conj_vec. apply csum_ext. intros l Hl. rewrite Cj_Cj. specialize (Hy l Hl). unfold shifted in Hy. cbn [String.eqb Ascii.eqb Bool.eqb] in Hy. rewrite <- Hy.
    change (csum n (fun k => shift_energy A E l k * y k)) with (mv n (shift_energy A E) y l). rewrite mv_shift by assumption. ring. }
  rewrite E1, E2. 
  rewrite (csum_ext n _ (fun k => z * (y' k * y k) + csum n (fun l => y' l * shift_energy A E l k * y k))).
  2:{ intros k Hk. rewrite Cmult_plus_distr_r, <- csum_mul_r. f_equal; [ring|]. apply csum_ext. intros. ring. }
  rewrite (csum_ext n (fun l => y' l * (z * y l + csum n (fun k => shift_energy A E l k * y k))) (fun l => z * (y' l * y l) + csum n (fun k => y' l * shift_energy A E l k * y k))).
  2:{ intros l Hl. rewrite Cmult_plus_distr_l, <- csum_mul_l. f_equal; [ring|]. apply csum_ext. intros. ring. }
  rewrite !csum_add. f_equal. apply csum_swap.
Qed.
Lemma lehmann_sectors d eta np nh HP HH GE (p h : nat -> vec) (g1 g2 : R -> cmat) : eta <> 0%R -> hermitian np HP -> hermitian nh HH ->
  (forall i j, (i < d)%nat -> (j < d)%nat -> inner np (p i) (p j) + inner nh (h j) (h i) = delta i j) ->
  (forall omega i j, (i < d)%nat -> (j < d)%nat -> green "-" np HP GE (frequency omega eta) (p i) (p j) (g1 omega i j) /\ green "+" nh HH GE (frequency omega eta) (h j) (h i) (g2 omega i j)) ->
  lehmann d eta (fun omega i j => g1 omega i j + g2 omega i j).
Proof.
  intros He H1 H2 O Gr. exists (np + nh)%nat, (direct_sum np (shift_energy HP GE) (mirror (shift_energy HH GE))), (fun i => block np (p i) (conj_vec (h i))).
  split; [apply hermitian_direct; [now apply hermitian_shift|apply hermitian_mirror; now apply hermitian_shift]|]. split.
  - intros i j Hi Hj. rewrite inner_block, inner_conj_vec. now apply O.
  - intros omega i j Hi Hj. destruct (Gr omega i j Hi Hj) as [A B]. apply green_block; [now apply green_particle|now apply green_hole].
Qed.
