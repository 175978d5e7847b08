(** Lemmas for C43, C44: the whole functions, and the dimension bound. *)
From Coq Require Import Reals List ZArith Bool Arith Lia Lra.
From Coquelicot Require Import Complex.
From Verif Require Import Py CVec Lanczos_Model Lanczos_Spec Lanczos_Proofs.
Import ListNotations.
Local Open Scope nat_scope.
Local Open Scope C_scope.

Lemma unit_ket n v0 : norm n v0 <> 0%R -> let k := fun i => v0 i / RtoC (norm n v0) in inner n k k = c1.
Proof.
  intros H k. assert (E : veqn n k (vscale (/ RtoC (norm n v0)) v0)) by (intros i _; unfold k, vscale, Cdiv; ring).
  rewrite (inner_ext _ _ _ _ _ E E), inner_scale_l, inner_scale_r, inner_self, <- norm_sq, Cj_inv, Cj_R, RtoC_mult.
  unfold c1. field. now apply RtoC_neq0.
Qed.
Lemma power_scale n M k c v i : (i < n)%nat -> power n M k (vscale c v) i = c * power n M k v i.
Proof.
  intros _. revert i. induction k as [|k IH]; intros i; [reflexivity|]. cbn [power].
  rewrite <- (mv_scale n M c (power n M k v) i). apply mv_ext. intros j _. apply IH.
Qed.
Lemma power_ext n M k u v : veqn n u v -> forall i, (i < n)%nat -> power n M k u i = power n M k v i.
Proof.
  intros H. induction k as [|k IH]; intros i Hi; [now apply H|]. cbn [power]. apply mv_ext. exact IH.
Qed.

Lemma krylov_err {K} n M thr (vectors : list (K * vec)) v0 dim :
  (norm n v0 <= thr)%R -> KrylovRepresentation n M thr vectors v0 dim = Err ValueError.
Proof. intros H. unfold KrylovRepresentation. destruct (Rlt_dec thr (norm n v0)); [lra|reflexivity]. Qed.

Lemma krylov_ok {K} n M thr (vectors : list (K * vec)) v0 dim :
  hermitian n M -> (0 <= thr)%R -> (thr < norm n v0)%R ->
  exists m pv d b,
    KrylovRepresentation n M thr vectors v0 dim = Ok (m, pv) /\
    (d <= Z.to_nat dim)%nat /\ ((0 < dim)%Z -> (0 < d)%nat) /\
    veqn n (b O) (fun i => v0 i / RtoC (norm n v0)) /\
    orthonormal n d b /\
    represents_matrix n M d b m /\
    (length pv = length vectors /\
     forall pos key v, nth_error vectors pos = Some (key, v) -> exists l, nth_error pv pos = Some (key, l) /\ coordinates n d b v l) /\
    (forall i j, (i < d)%nat -> (j < d)%nat -> nd_el m i j = nd_el m j i /\ ((S i < j)%nat -> nd_el m i j = 0%R) /\ (S i = j -> (thr < nd_el m i j)%R)) /\
    (forall k, (k < d)%nat -> in_span n (S k) (fun j => power n M j v0) (b k) /\ in_span n (S k) b (power n M k v0)) /\
    (forall k, (S k < d)%nat -> (thr < norm n (residual n M (S k) b (b k)))%R) /\
    (d = Z.to_nat dim \/ exists d', d = S d' /\ (norm n (residual n M d b (b d')) <= thr)%R) /\
    (* used by the Green-function lemmas *)
    (forall k, (S k < d)%nat -> nd_el m k (S k) = norm n (residual n M (S k) b (b k))).
Proof.
  intros HM Hthr Hv0. unfold KrylovRepresentation. destruct (Rlt_dec thr (norm n v0)) as [_|]; [|contradiction].
  set (ket0 := fun i => v0 i / RtoC (norm n v0)).
  assert (N0 : norm n v0 <> 0%R) by lra.
  assert (U : inner n ket0 ket0 = c1) by now apply unit_ket.
  destruct (loop_spec (K := K) n M thr ket0 vectors (Z.to_nat dim) 0) as (d & D1 & D2 & D3 & D4).
  change (kt n M ket0 0) with ket0 in D2. change (od n M ket0 0) with vzero in D2. cbn [plus] in D3, D4.
  cbv zeta. rewrite D2.
  assert (Hn : forall k, (S k < d)%nat -> nr n M ket0 k <> 0%R) by (intros k Hk; specialize (D3 k Hk); lra).
  destruct (assemble (K := K) n M ket0 HM U vectors d Hn) as (m & E & R1 & R2 & R3).
  destruct (nd_add _ _) as [a|] eqn:EA; [|discriminate]. cbn [bind] in E |- *. rewrite E. cbn [bind].
  eexists m, _, d, (kt n M ket0). split; [reflexivity|].
  assert (RES : forall k, (k < d)%nat -> norm n (residual n M (S k) (kt n M ket0) (kt n M ket0 k)) = nr n M ket0 k).
  { intros k Hk. unfold nr, norm. f_equal. apply RtoC_inj'. rewrite <- !inner_self.
    assert (G := rs_residual n M ket0 HM U k (fun j Hj => Hn j ltac:(lia))).
    symmetry. now apply inner_ext. }
  split; [exact D1|]. split.
  { intros Hd. destruct D4 as [->|(d' & -> & _)]; lia. }
  split; [intros i _; reflexivity|]. split.
  { intros i j Hi Hj. apply (ortho n M ket0 HM U (d - 1)); [intros; apply Hn; lia|lia|lia]. }
  split.
  { split; [exact R1|]. split; [exact R2|]. intros i j Hi Hj. rewrite R3 by assumption. now apply (tri_ok n M ket0 HM U d). }
  split.
  { split; [now rewrite map_length, combine_length, seq_length, Nat.min_id|].
    intros pos key v Hp. eexists.
    assert (Hlen : (pos < length vectors)%nat) by (apply nth_error_Some; rewrite Hp; discriminate).
    split.
    - assert (G : nth_error (combine (seq 0 (length vectors)) vectors) pos = Some (pos, (key, v))).
      { assert (GEN : forall (l : list (K * vec)) s p x, nth_error l p = Some x -> nth_error (combine (seq s (length l)) l) p = Some ((s + p)%nat, x)).
        { induction l as [|y l IH]; intros s p x Hx; [destruct p; discriminate|].
          destruct p as [|p]; cbn in *; [rewrite Nat.add_0_r; congruence|]. rewrite (IH (S s) p x Hx). f_equal. f_equal. lia. }
        exact (GEN vectors 0%nat pos _ Hp). }
      rewrite (map_nth_error _ _ _ G). cbn [fst]. reflexivity.
    - split; [now rewrite !map_length, seq_length|]. intros i Hi. rewrite map_map.
      assert (NM : forall (f : nat -> C), nth i (map f (seq 0 d)) c0 = f i).
      { intros f. rewrite (nth_indep _ c0 (f 0%nat)) by (rewrite map_length, seq_length; assumption).
        rewrite map_nth, seq_nth by assumption. reflexivity. }
      rewrite NM. unfold mkstep, st_proj.
      erewrite (nth_error_nth (map _ vectors)); [|rewrite (map_nth_error _ _ _ Hp); reflexivity]. reflexivity. }
  split.
  { intros i j Hi Hj. rewrite !R3 by assumption. split; [apply tri_sym|]. unfold tri. split; intros Hij.
    - destruct (Nat.eqb_spec i j); [lia|]. destruct (Nat.eqb_spec (S i) j); [lia|]. destruct (Nat.eqb_spec i (S j)); [lia|reflexivity].
    - destruct (Nat.eqb_spec i j); [lia|]. subst j. rewrite Nat.eqb_refl. apply D3. exact Hj. }
  split.
  { intros k Hk. assert (Hk' : forall j, (j < k)%nat -> nr n M ket0 j <> 0%R) by (intros; apply Hn; lia). split.
    - destruct (span_kt n M ket0 k Hk') as (c & Hc). exists (fun j => c j / RtoC (norm n v0)). intros i Hi. rewrite Hc by assumption.
      apply csum_ext. intros j _. rewrite (power_ext n M j ket0 (vscale (/ RtoC (norm n v0)) v0)), power_scale by (try assumption; intros x _; unfold ket0, vscale, Cdiv; ring).
      unfold Cdiv. ring.
    - destruct (span_power n M ket0 k Hk') as (c & Hc). exists (fun j => RtoC (norm n v0) * c j). intros i Hi.
      transitivity (RtoC (norm n v0) * power n M k ket0 i).
      + rewrite <- power_scale by assumption. apply power_ext; [|assumption]. intros x _. unfold ket0, vscale. field. now apply RtoC_neq0.
      + rewrite Hc by assumption. rewrite <- csum_mul_l. apply csum_ext. intros. ring. }
  split.
  { intros k Hk. rewrite RES by lia. now apply D3. }
  split.
  { destruct D4 as [->|(d' & -> & D4)]; [now left|]. right. exists d'. split; [reflexivity|]. rewrite RES by lia. exact D4. }
  intros k Hk. rewrite R3, RES by lia. unfold tri. destruct (Nat.eqb_spec k (S k)); [lia|]. now rewrite Nat.eqb_refl.
Qed.

(** ** Bessel's inequality and the dimension bound *)
Definition combo (d : nat) (c : nat -> C) (b : nat -> vec) : vec := fun i => csum d (fun k => c k * b k i).
Lemma inner_combo n d c b u : inner n u (combo d c b) = csum d (fun k => c k * inner n u (b k)).
Proof.
  unfold combo. rewrite (inner_csum_r n u d (fun k i => c k * b k i)). apply csum_ext. intros k _. apply (inner_scale_r n u (c k) (b k)).
Qed.
Lemma inner_ortho n d b c k : orthonormal n d b -> (k < d)%nat -> inner n (b k) (combo d c b) = c k.
Proof.
  intros H Hk. rewrite inner_combo. rewrite (csum_single d _ k Hk).
  - rewrite H, Nat.eqb_refl by assumption. unfold c1. ring.
  - intros i Hi Hik. rewrite H by assumption. destruct (Nat.eqb_spec k i); [congruence|]. unfold c0. ring.
Qed.
Lemma bessel n d b v : orthonormal n d b ->
  (rsum d (fun k => Re (inner n (b k) v) * Re (inner n (b k) v) + Im (inner n (b k) v) * Im (inner n (b k) v)) <= norm2 n v)%R.
Proof.
  intros H. set (c := fun k => inner n (b k) v). set (S := rsum d _).
  assert (E1 : inner n v (combo d c b) = RtoC S).
  { rewrite inner_combo. unfold S. rewrite <- csum_R. apply csum_ext. intros k Hk. rewrite <- inner_conj. fold (c k).
    rewrite <- Cmul_j. ring. }
  assert (E2 : inner n (combo d c b) (combo d c b) = RtoC S).
  { rewrite inner_combo. unfold S. rewrite <- csum_R. apply csum_ext. intros k Hk. rewrite <- inner_conj, (inner_ortho n d b c k H Hk).
    fold (c k). rewrite <- Cmul_j. ring. }
  assert (G : RtoC (norm2 n (vsub v (combo d c b))) = RtoC (norm2 n v - S)).
  { rewrite <- inner_self, inner_sub_r, !inner_sub_l, E2, E1, inner_self, RtoC_minus.
    rewrite <- (inner_conj n v (combo d c b)), E1, Cj_R. ring. }
  apply RtoC_inj' in G. assert (P := norm2_nonneg n (vsub v (combo d c b))). lra.
Qed.
Lemma orthonormal_bound n d b : orthonormal n d b -> (d <= n)%nat.
Proof.
  intros H. apply INR_le. 
  assert (N1 : forall k, (k < d)%nat -> norm2 n (b k) = 1%R).
  { intros k Hk. apply RtoC_inj'. rewrite <- inner_self, H, Nat.eqb_refl by assumption. reflexivity. }
  replace (INR d) with (rsum d (fun k => norm2 n (b k))).
  2:{ rewrite (rsum_ext d _ (fun _ => 1%R)) by (intros; now apply N1). rewrite rsum_const. ring. }
  unfold norm2. rewrite rsum_swap.
  replace (INR n) with (rsum n (fun _ => 1%R)) by (rewrite rsum_const; ring).
  apply rsum_le. intros j Hj.
  pose (e := fun i => if Nat.eqb i j then c1 else c0).
  assert (IE : forall k, inner n (b k) e = Cj (b k j)).
  { intros k. unfold inner. rewrite (csum_single n _ j Hj).
    - unfold e. rewrite Nat.eqb_refl. unfold c1. ring.
    - intros i _ Hi. unfold e. destruct (Nat.eqb_spec i j); [contradiction|]. unfold c0. ring. }
  assert (NE : norm2 n e = 1%R).
  { apply RtoC_inj'. rewrite <- inner_self. unfold inner. rewrite (csum_single n _ j Hj).
    - unfold e. rewrite Nat.eqb_refl, Cj_1. unfold c1. ring.
    - intros i _ Hi. unfold e. destruct (Nat.eqb_spec i j); [contradiction|]. unfold c0. ring. }
  assert (B := bessel n d b e H). rewrite NE in B. erewrite rsum_ext; [exact B|].
  intros k _. cbv beta. rewrite IE. unfold Re, Im, Cj. cbn. ring.
Qed.

(** ** MultiKrylov *)
Lemma multi_fold {K} n M thr (vectors todo : list (K * vec)) dim ms vs :
  (forall p, In p todo -> (thr < norm n (snd p))%R) -> hermitian n M -> (0 <= thr)%R ->
  exists ms' vs',
  fold_left (fun acc p => bind acc (fun '(ms, vs) => bind (KrylovRepresentation n M thr vectors (snd p) dim) (fun '(m, v) => Ok (ms ++ [(fst p, m)], vs ++ [(fst p, v)])))) todo (Ok (ms, vs))
   = Ok (ms ++ ms', vs ++ vs') /\ length ms' = length todo /\ length vs' = length todo /\
  forall pos key v0, nth_error todo pos = Some (key, v0) -> exists m v, nth_error ms' pos = Some (key, m) /\ nth_error vs' pos = Some (key, v) /\
    KrylovRepresentation n M thr vectors v0 dim = Ok (m, v).
Proof.
  intros Hp HM Ht. revert ms vs. induction todo as [|[k w] todo IH]; intros ms vs.
  - exists [], []. cbn. rewrite !app_nil_r. split; [reflexivity|]. split; [reflexivity|]. split; [reflexivity|]. intros [|]; discriminate.
  - cbn [fold_left bind fst snd]. destruct (krylov_ok n M thr vectors w dim HM Ht (Hp (k, w) (or_introl eq_refl))) as (m & v & _ & _ & E & _).
    rewrite E. cbn [bind]. destruct (IH (fun p H => Hp p (or_intror H)) (ms ++ [(k, m)]) (vs ++ [(k, v)])) as (ms' & vs' & F & L1 & L2 & G).
    exists ((k, m) :: ms'), ((k, v) :: vs'). rewrite F, <- !app_assoc. split; [reflexivity|]. split; [cbn; congruence|]. split; [cbn; congruence|].
    intros [|pos] key v0 H; [|exact (G pos key v0 H)]. cbn in H. injection H as <- <-. exists m, v. split; [reflexivity|]. split; [reflexivity|]. exact E.
Qed.
Lemma multi_fold_err {K} n M thr (vectors todo : list (K * vec)) dim e :
  fold_left (fun acc p => bind acc (fun '(ms, vs) => bind (KrylovRepresentation n M thr vectors (snd p) dim) (fun '(m, v) => Ok (ms ++ [(fst p, m)], vs ++ [(fst p, v)])))) todo (Err e)
   = Err e.
Proof. induction todo as [|p todo IH]; [reflexivity|]. exact IH. Qed.
Lemma multi_fold_bad {K} n M thr (vectors todo : list (K * vec)) dim ms vs p :
  In p todo -> (norm n (snd p) <= thr)%R -> hermitian n M -> (0 <= thr)%R ->
  fold_left (fun acc p => bind acc (fun '(ms, vs) => bind (KrylovRepresentation n M thr vectors (snd p) dim) (fun '(m, v) => Ok (ms ++ [(fst p, m)], vs ++ [(fst p, v)])))) todo (Ok (ms, vs))
   = Err ValueError.
Proof.
  intros Hin Hp HM Ht. revert ms vs. induction todo as [|[k w] todo IH]; intros ms vs; [contradiction|].
  cbn [fold_left bind fst snd].
  destruct (Rlt_dec thr (norm n w)) as [L|L].
  - destruct (krylov_ok n M thr vectors w dim HM Ht L) as (m & v & _ & _ & E & _). rewrite E. cbn [bind].
    destruct Hin as [<-|Hin]; [cbn in Hp; lra|]. now apply IH.
  - rewrite krylov_err by lra. cbn [bind]. apply multi_fold_err.
Qed.
