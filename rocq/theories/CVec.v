(** Complex vectors and matrices given by entry functions; exact arithmetic.
    Definitions used by models and specifications (nothing here comes from the
    code) and their algebra.  [C] is Coquelicot's type of pairs of reals. *)
From Coq Require Import Reals Arith Lia Lra.
From Coquelicot Require Import Complex.
Local Open Scope C_scope.

Definition c0 : C := RtoC 0.
Definition c1 : C := RtoC 1.
(** Complex conjugate and real part. *)
Definition Cj (z : C) : C := (fst z, Ropp (snd z)).
Definition Re (z : C) : R := fst z.
Definition Im (z : C) : R := snd z.

(** f 0 + ... + f (n-1). *)
Fixpoint csum (n : nat) (f : nat -> C) : C :=
  match n with O => c0 | S m => csum m f + f m end.
Fixpoint rsum (n : nat) (f : nat -> R) : R :=
  match n with O => 0%R | S m => (rsum m f + f m)%R end.

Definition vec := nat -> C.
Definition cmat := nat -> nat -> C.
(** <u|v> = sum conj(u_i) v_i in C^n. *)
Definition inner (n : nat) (u v : vec) : C := csum n (fun i => Cj (u i) * v i).
(** |v|^2 and |v|. *)
Definition norm2 (n : nat) (v : vec) : R := rsum n (fun i => (Re (v i) * Re (v i) + Im (v i) * Im (v i))%R).
Definition norm (n : nat) (v : vec) : R := sqrt (norm2 n v).
(** Matrix times vector (n columns), linear combinations. *)
Definition mv (n : nat) (A : cmat) (v : vec) : vec := fun i => csum n (fun j => A i j * v j).
Definition vadd (u v : vec) : vec := fun i => u i + v i.
Definition vsub (u v : vec) : vec := fun i => u i - v i.
Definition vscale (c : C) (v : vec) : vec := fun i => c * v i.
Definition vzero : vec := fun _ => c0.
(** Equality in C^n; Hermitian n x n matrices. *)
Definition veqn (n : nat) (u v : vec) : Prop := forall i, (i < n)%nat -> u i = v i.
Definition hermitian (n : nat) (A : cmat) : Prop := forall i j, (i < n)%nat -> (j < n)%nat -> A i j = Cj (A j i).
(** <u|A v>. *)
Definition sandwich (n : nat) (u : vec) (A : cmat) (v : vec) : C := inner n u (mv n A v).

Lemma C_eq (x y : C) : fst x = fst y -> snd x = snd y -> x = y.
Proof. destruct x, y; cbn; congruence. Qed.

Lemma Cj_add x y : Cj (x + y) = Cj x + Cj y.
Proof. apply C_eq; cbn; ring. Qed.
Lemma Cj_sub x y : Cj (x - y) = Cj x - Cj y.
Proof. apply C_eq; cbn; ring. Qed.
Lemma Cj_opp x : Cj (- x) = - Cj x.
Proof. apply C_eq; cbn; ring. Qed.
Lemma Cj_mul x y : Cj (x * y) = Cj x * Cj y.
Proof. apply C_eq; cbn; ring. Qed.
Lemma Cj_inv x : Cj (/ x) = / Cj x.
Proof. apply C_eq; cbn; [|unfold Rdiv]; replace (- snd x * (- snd x * 1))%R with (snd x * (snd x * 1))%R by ring; unfold Rdiv; ring. Qed.
Lemma Cj_div x y : Cj (x / y) = Cj x / Cj y.
Proof. unfold Cdiv. rewrite Cj_mul, Cj_inv. reflexivity. Qed.
Lemma Cj_Cj x : Cj (Cj x) = x.
Proof. apply C_eq; cbn; ring. Qed.
Lemma Cj_R r : Cj (RtoC r) = RtoC r.
Proof. apply C_eq; cbn; ring. Qed.
Lemma Cj_0 : Cj c0 = c0. Proof. apply Cj_R. Qed.
Lemma Cj_1 : Cj c1 = c1. Proof. apply Cj_R. Qed.
Lemma Cj_i : Cj Ci = - Ci. Proof. apply C_eq; cbn; ring. Qed.
Lemma Cj_inj x y : Cj x = Cj y -> x = y.
Proof. intros H. rewrite <- (Cj_Cj x), <- (Cj_Cj y), H. reflexivity. Qed.
(** A complex number is real iff it is its own conjugate. *)
Lemma Cj_real z : Cj z = z <-> z = RtoC (Re z).
Proof.
  unfold Re, Cj. destruct z as [a b]; cbn. split; intros H.
  - injection H as H. apply C_eq; cbn; [reflexivity|lra].
  - injection H as H. rewrite H. apply C_eq; cbn; [reflexivity|ring].
Qed.
Lemma Im0_real z : Im z = 0%R <-> z = RtoC (Re z).
Proof.
  destruct z as [a b]; unfold Re, Im; cbn. split; intros H.
  - now subst.
  - now injection H.
Qed.
Lemma Cmul_j z : Cj z * z = RtoC (Re z * Re z + Im z * Im z).
Proof. apply C_eq; cbn; unfold Re, Im; ring. Qed.
Lemma RtoC_inj' a b : RtoC a = RtoC b -> a = b.
Proof. intros H. now injection H. Qed.
Lemma RtoC_neq0 a : a <> 0%R -> RtoC a <> c0.
Proof. intros H E. apply H. now apply RtoC_inj'. Qed.
Lemma c0_opp : - c0 = c0. Proof. apply C_eq; cbn; ring. Qed.
Lemma RtoC_sqrt_sq a : (0 <= a)%R -> RtoC (sqrt a) * RtoC (sqrt a) = RtoC a.
Proof. intros H. rewrite <- RtoC_mult, sqrt_sqrt; auto. Qed.
Lemma Cmul_eq0 x y : x * y = c0 -> x = c0 \/ y = c0.
Proof.
  intros H. destruct (Req_dec (Cmod x) 0) as [E|E].
  - left. now apply Cmod_eq_0.
  - right. apply Cmod_eq_0. apply (f_equal Cmod) in H. rewrite Cmod_mult in H.
    unfold c0 in H. rewrite Cmod_0 in H. destruct (Rmult_integral _ _ H); [contradiction|assumption].
Qed.

(** ** Sums *)
Lemma csum_ext n f g : (forall i, (i < n)%nat -> f i = g i) -> csum n f = csum n g.
Proof. induction n as [|n IH]; cbn; intros H; [reflexivity|]. rewrite IH by (intros; apply H; lia). rewrite H by lia. reflexivity. Qed.
Lemma csum_0 n : csum n (fun _ => c0) = c0.
Proof. induction n as [|n IH]; cbn; [reflexivity|]. rewrite IH. unfold c0. ring. Qed.
Lemma csum_zero n f : (forall i, (i < n)%nat -> f i = c0) -> csum n f = c0.
Proof. intros H. rewrite (csum_ext n f (fun _ => c0)) by assumption. apply csum_0. Qed.
Lemma csum_add n f g : csum n (fun i => f i + g i) = csum n f + csum n g.
Proof. induction n as [|n IH]; cbn; [unfold c0; ring|]. rewrite IH. ring. Qed.
Lemma csum_sub n f g : csum n (fun i => f i - g i) = csum n f - csum n g.
Proof. induction n as [|n IH]; cbn; [unfold c0; ring|]. rewrite IH. ring. Qed.
Lemma csum_opp n f : csum n (fun i => - f i) = - csum n f.
Proof. induction n as [|n IH]; cbn; [unfold c0; ring|]. rewrite IH. ring. Qed.
Lemma csum_mul_l n c f : csum n (fun i => c * f i) = c * csum n f.
Proof. induction n as [|n IH]; cbn; [unfold c0; ring|]. rewrite IH. ring. Qed.
Lemma csum_mul_r n c f : csum n (fun i => f i * c) = csum n f * c.
Proof. induction n as [|n IH]; cbn; [unfold c0; ring|]. rewrite IH. ring. Qed.
Lemma csum_conj n f : Cj (csum n f) = csum n (fun i => Cj (f i)).
Proof. induction n as [|n IH]; cbn; [apply Cj_0|]. rewrite Cj_add, IH. reflexivity. Qed.
Lemma csum_swap n m (f : nat -> nat -> C) :
  csum n (fun i => csum m (fun j => f i j)) = csum m (fun j => csum n (fun i => f i j)).
Proof.
  induction n as [|n IH]; cbn.
  - symmetry. apply csum_0.
  - rewrite IH, <- csum_add. reflexivity.
Qed.
Lemma csum_single n f k : (k < n)%nat -> (forall i, (i < n)%nat -> i <> k -> f i = c0) -> csum n f = f k.
Proof.
  induction n as [|n IH]; cbn; intros Hk H; [lia|].
  destruct (Nat.eq_dec k n) as [->|E].
  - rewrite csum_zero by (intros; apply H; lia). unfold c0. ring.
  - rewrite IH by (intros; try apply H; lia). rewrite (H n) by lia. unfold c0. ring.
Qed.
Lemma csum_R n f : csum n (fun i => RtoC (f i)) = RtoC (rsum n f).
Proof. induction n as [|n IH]; cbn; [reflexivity|]. rewrite IH, RtoC_plus. reflexivity. Qed.
Lemma rsum_ext n f g : (forall i, (i < n)%nat -> f i = g i) -> rsum n f = rsum n g.
Proof. induction n as [|n IH]; cbn; intros H; [reflexivity|]. rewrite IH by (intros; apply H; lia). rewrite H by lia. reflexivity. Qed.
Lemma rsum_nonneg n f : (forall i, (i < n)%nat -> (0 <= f i)%R) -> (0 <= rsum n f)%R.
Proof. induction n as [|n IH]; cbn; intros H; [lra|]. specialize (IH (fun i Hi => H i (Nat.lt_lt_succ_r _ _ Hi))). specialize (H n ltac:(lia)). lra. Qed.
Lemma rsum_le n f g : (forall i, (i < n)%nat -> (f i <= g i)%R) -> (rsum n f <= rsum n g)%R.
Proof. induction n as [|n IH]; cbn; intros H; [lra|]. specialize (IH (fun i Hi => H i (Nat.lt_lt_succ_r _ _ Hi))). specialize (H n ltac:(lia)). lra. Qed.
Lemma rsum_const n c : rsum n (fun _ => c) = (INR n * c)%R.
Proof. induction n as [|n IH]; [cbn; ring|]. cbn [rsum]. rewrite IH, S_INR. ring. Qed.
Lemma rsum_swap n m (f : nat -> nat -> R) :
  rsum n (fun i => rsum m (fun j => f i j)) = rsum m (fun j => rsum n (fun i => f i j)).
Proof.
  induction n as [|n IH]; cbn.
  - rewrite rsum_const. ring.
  - rewrite IH. clear IH. induction m as [|m IH2]; cbn; [ring|]. rewrite <- IH2. ring.
Qed.
Lemma rsum_zero_all n f : (forall i, (i < n)%nat -> (0 <= f i)%R) -> rsum n f = 0%R -> forall i, (i < n)%nat -> f i = 0%R.
Proof.
  induction n as [|n IH]; cbn; intros H E i Hi; [lia|].
  assert (H1 := rsum_nonneg n f (fun i Hi => H i (Nat.lt_lt_succ_r _ _ Hi))).
  assert (H2 := H n ltac:(lia)).
  destruct (Nat.eq_dec i n) as [->|Hn]; [lra|].
  apply IH; [intros; apply H; lia|lra|lia].
Qed.

(** ** Inner product *)
Section Inner.
  Variable n : nat.
  Notation "<< u | v >>" := (inner n u v).
  Lemma inner_ext u u' v v' : veqn n u u' -> veqn n v v' -> <<u|v>> = <<u'|v'>>.
  Proof. intros H1 H2. apply csum_ext. intros i Hi. rewrite H1, H2; auto. Qed.
  Lemma inner_conj u v : Cj <<u|v>> = <<v|u>>.
  Proof. unfold inner. rewrite csum_conj. apply csum_ext. intros. rewrite Cj_mul, Cj_Cj. ring. Qed.
  Lemma inner_add_r u v w : <<u|vadd v w>> = <<u|v>> + <<u|w>>.
  Proof. unfold inner, vadd. rewrite <- csum_add. apply csum_ext. intros. ring. Qed.
  Lemma inner_sub_r u v w : <<u|vsub v w>> = <<u|v>> - <<u|w>>.
  Proof. unfold inner, vsub. rewrite <- csum_sub. apply csum_ext. intros. ring. Qed.
  Lemma inner_scale_r u c v : <<u|vscale c v>> = c * <<u|v>>.
  Proof. unfold inner, vscale. rewrite <- csum_mul_l. apply csum_ext. intros. ring. Qed.
  Lemma inner_scale_l c u v : <<vscale c u|v>> = Cj c * <<u|v>>.
  Proof. unfold inner, vscale. rewrite <- csum_mul_l. apply csum_ext. intros. rewrite Cj_mul. ring. Qed.
  Lemma inner_add_l u v w : <<vadd u v|w>> = <<u|w>> + <<v|w>>.
  Proof. unfold inner, vadd. rewrite <- csum_add. apply csum_ext. intros. rewrite Cj_add. ring. Qed.
  Lemma inner_sub_l u v w : <<vsub u v|w>> = <<u|w>> - <<v|w>>.
  Proof. unfold inner, vsub. rewrite <- csum_sub. apply csum_ext. intros. rewrite Cj_sub. ring. Qed.
  Lemma inner_zero_l v : <<vzero|v>> = c0.
  Proof. unfold inner, vzero. apply csum_zero. intros. rewrite Cj_0. unfold c0. ring. Qed.
  Lemma inner_zero_r v : <<v|vzero>> = c0.
  Proof. unfold inner, vzero. apply csum_zero. intros. unfold c0. ring. Qed.
  Lemma inner_self v : <<v|v>> = RtoC (norm2 n v).
  Proof. unfold inner, norm2. rewrite <- csum_R. apply csum_ext. intros. apply Cmul_j. Qed.
  Lemma inner_csum_r u m (f : nat -> vec) : <<u|fun i => csum m (fun k => f k i)>> = csum m (fun k => <<u|f k>>).
  Proof.
    unfold inner. rewrite csum_swap. apply csum_ext. intros i Hi. rewrite <- csum_mul_l. reflexivity.
  Qed.
  Lemma norm2_nonneg v : (0 <= norm2 n v)%R.
  Proof. apply rsum_nonneg. intros i Hi. assert (G1 := Rle_0_sqr (Re (v i))). assert (G2 := Rle_0_sqr (Im (v i))). unfold Rsqr in *. lra. Qed.
  Lemma norm2_zero v : norm2 n v = 0%R -> veqn n v vzero.
  Proof.
    intros H i Hi. assert (E := rsum_zero_all n _ (fun i _ => Rplus_le_le_0_compat _ _ (Rle_0_sqr (Re (v i))) (Rle_0_sqr (Im (v i)))) H i Hi). cbv beta in E.
    unfold Re, Im in E. assert (G1 := Rle_0_sqr (fst (v i))). assert (G2 := Rle_0_sqr (snd (v i))).
    apply C_eq; cbn; apply Rsqr_0_uniq; unfold Rsqr in *; lra.
  Qed.
  Lemma norm2_0_iff v : norm2 n v = 0%R <-> veqn n v vzero.
  Proof.
    split; [apply norm2_zero|]. intros H. apply RtoC_inj'. rewrite <- inner_self.
    rewrite (inner_ext _ vzero _ vzero) by assumption. apply inner_zero_l.
  Qed.
  Lemma norm_nonneg v : (0 <= norm n v)%R.
  Proof. apply sqrt_pos. Qed.
  Lemma norm_sq v : (norm n v * norm n v)%R = norm2 n v.
  Proof. apply sqrt_sqrt, norm2_nonneg. Qed.
  Lemma norm_0_iff v : norm n v = 0%R <-> veqn n v vzero.
  Proof.
    rewrite <- norm2_0_iff. rewrite <- norm_sq. split; intros H; [rewrite H; ring|].
    destruct (Rmult_integral _ _ H); assumption.
  Qed.
  Lemma mv_ext A u v : veqn n u v -> forall i, mv n A u i = mv n A v i.
  Proof. intros H i. apply csum_ext. intros j Hj. rewrite H; auto. Qed.
  Lemma mv_scale A c v i : mv n A (vscale c v) i = c * mv n A v i.
  Proof. unfold mv, vscale. rewrite <- csum_mul_l. apply csum_ext. intros. ring. Qed.
  Lemma mv_add A u v i : mv n A (vadd u v) i = mv n A u i + mv n A v i.
  Proof. unfold mv, vadd. rewrite <- csum_add. apply csum_ext. intros. ring. Qed.
  Lemma mv_csum A m (f : nat -> vec) i : mv n A (fun j => csum m (fun k => f k j)) i = csum m (fun k => mv n A (f k) i).
  Proof.
    unfold mv. rewrite csum_swap. apply csum_ext. intros j Hj. rewrite <- csum_mul_l. reflexivity.
  Qed.
  (** <u|A v> = <A u|v> for Hermitian A. *)
  Lemma hermitian_move A u v : hermitian n A -> <<u|mv n A v>> = <<mv n A u|v>>.
  Proof.
    intros H. unfold inner, mv.
    transitivity (csum n (fun i => csum n (fun j => Cj (u i) * A i j * v j))).
    - apply csum_ext. intros i Hi. rewrite <- csum_mul_l. apply csum_ext. intros. ring.
    - rewrite csum_swap. apply csum_ext. intros j Hj. rewrite csum_conj, <- csum_mul_r.
      apply csum_ext. intros i Hi. rewrite Cj_mul, (H i j) by assumption. ring.
  Qed.
  Lemma hermitian_real A u : hermitian n A -> <<u|mv n A u>> = RtoC (Re <<u|mv n A u>>).
  Proof. intros H. apply Cj_real. rewrite inner_conj. symmetry. now apply hermitian_move. Qed.
End Inner.
