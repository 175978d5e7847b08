(** Tensor products and the algebra of single-spin operators. *)
From Coq Require Import List ZArith NArith Bool Arith String Lia Ring Setoid Morphisms.
From Verif Require Import Py GQ Mat State_Model State_Spec MatrixRepr_Model Fock_Spec Particle_Model Spin_Model Spin_Spec.
Import ListNotations.
Local Open Scope nat_scope.
Local Open Scope gq_scope.

(** ** Sums over a product range *)
Lemma lsum_seq_shift (f : nat -> GQ) k n : lsum f (seq k n) = lsum (fun i => f (k + i)%nat) (seq 0 n).
Proof.
  revert k. induction n as [|n IH]; intros k; [reflexivity|].
  cbn [seq lsum]. rewrite IH, Nat.add_0_r. f_equal.
  rewrite <- seq_shift, lsum_map. apply lsum_ext. intros x _. f_equal. lia.
Qed.
Lemma bigsum_prod m d f : bigsum (m * d) f = bigsum m (fun x => bigsum d (fun y => f (x * d + y)%nat)).
Proof.
  unfold bigsum. induction m as [|m IH]; [reflexivity|].
  rewrite Nat.mul_succ_l, seq_app, lsum_app, IH, seq_S, lsum_app. cbn [lsum]. f_equal.
  rewrite lsum_seq_shift. cbn. ring.
Qed.

(** ** Kronecker products of square matrices *)
Definition kr (d : nat) (a b : mat) : mat := fun i j => a (i / d)%nat (j / d)%nat * b (i mod d) (j mod d).

Lemma kr_mul m d a b a' b' i j : (d <> 0)%nat ->
  mmul (m * d) (kr d a b) (kr d a' b') i j = kr d (mmul m a a') (mmul d b b') i j.
Proof.
  intros Hd. unfold mmul, kr. rewrite bigsum_prod. unfold bigsum. rewrite <- lsum_mul_r.
  apply lsum_ext. intros x _. rewrite <- lsum_mul_l. apply lsum_ext. intros y Hy. apply in_seq in Hy.
  rewrite Nat.div_add_l by lia. rewrite (Nat.div_small y d), Nat.add_0_r by lia.
  assert (E : ((x * d + y) mod d = y)%nat) by (rewrite Nat.add_comm, Nat.mod_add, Nat.mod_small by lia; reflexivity).
  rewrite E. ring.
Qed.
Lemma kr_ext m d a b a' b' : (d <> 0)%nat -> meq m m a a' -> meq d d b b' ->
  meq (m * d) (m * d) (kr d a b) (kr d a' b').
Proof.
  intros Hd Ha Hb i j Hi Hj. unfold kr.
  rewrite Ha, Hb; auto; try (apply Nat.mod_upper_bound; auto); apply Nat.div_lt_upper_bound; auto; lia.
Qed.
Lemma mod_mul_div i e d : (d <> 0)%nat -> (e <> 0)%nat -> (i mod (e * d) / d)%nat = ((i / d) mod e)%nat.
Proof.
  intros Hd He. rewrite (Nat.mul_comm e d), Nat.mod_mul_r by auto.
  rewrite (Nat.mul_comm d), Nat.div_add by auto. rewrite Nat.div_small; [lia|]. now apply Nat.mod_upper_bound.
Qed.
Lemma mod_mul_mod i e d : (d <> 0)%nat -> (e <> 0)%nat -> ((i mod (e * d)) mod d)%nat = (i mod d)%nat.
Proof.
  intros Hd He. rewrite (Nat.mul_comm e d), Nat.mod_mul_r by auto.
  rewrite (Nat.mul_comm d), Nat.mod_add by auto. now apply Nat.mod_mod.
Qed.
Lemma kr_assoc e d a b c i j : (d <> 0)%nat -> (e <> 0)%nat ->
  kr (e * d) a (kr d b c) i j = kr d (kr e a b) c i j.
Proof.
  intros Hd He. unfold kr. rewrite !mod_mul_div, !mod_mul_mod by auto.
  rewrite (Nat.mul_comm e d), !Nat.div_div by auto. ring.
Qed.
Lemma kr_id d i j : (d <> 0)%nat -> kr d mid mid i j = mid i j.
Proof.
  intros Hd. unfold kr, mid.
  destruct (Nat.eqb_spec i j) as [->|Hn]; [rewrite !Nat.eqb_refl; ring|].
  destruct (Nat.eqb_spec (i / d) (j / d)) as [E|E]; [|ring].
  destruct (Nat.eqb_spec (i mod d) (j mod d)) as [E'|E']; [|ring].
  exfalso. apply Hn. rewrite (Nat.div_mod i d), (Nat.div_mod j d) by auto. congruence.
Qed.

(** ** One spin *)
(** I (x) (A (x) I_{2^i}). *)
Definition emb (i : nat) (a : mat) : mat := kr (2 * 2 ^ i) mid (kr (2 ^ i) a mid).
Lemma pow_nz i : (2 ^ i <> 0)%nat. Proof. now apply Nat.pow_nonzero. Qed.
Lemma pow2_nz i : (2 * 2 ^ i <> 0)%nat. Proof. pose proof (pow_nz i). lia. Qed.
#[global] Hint Resolve pow_nz pow2_nz : core.

Lemma pow_split n i : (i < n)%nat -> (2 ^ n = 2 ^ (n - i - 1) * (2 * 2 ^ i))%nat.
Proof. intros H. replace (2 * 2 ^ i)%nat with (2 ^ S i)%nat by reflexivity. rewrite <- Nat.pow_add_r. f_equal. lia. Qed.

Lemma kr_ext_r d a b b' i j : (d <> 0)%nat -> (forall x y, (x < d)%nat -> (y < d)%nat -> b x y = b' x y) -> kr d a b i j = kr d a b' i j.
Proof. intros Hd H. unfold kr. rewrite H; auto; now apply Nat.mod_upper_bound. Qed.
Lemma kr_ext_l d a a' b i j : (forall x y, a x y = a' x y) -> kr d a b i j = kr d a' b i j.
Proof. intros H. unfold kr. now rewrite H. Qed.
Lemma kr_ext_all d a b a' b' i j : (forall x y, a x y = a' x y) -> (forall x y, b x y = b' x y) ->
  kr d a b i j = kr d a' b' i j.
Proof. intros H H'. unfold kr. now rewrite H, H'. Qed.

Lemma emb_mul n i a b : (i < n)%nat -> meq (2 ^ n) (2 ^ n) (mmul (2 ^ n) (emb i a) (emb i b)) (emb i (mmul 2 a b)).
Proof.
  intros Hi r c Hr Hc. rewrite (pow_split n i Hi) in *. unfold emb. rewrite kr_mul by auto.
  refine (kr_ext _ _ _ _ _ _ (pow2_nz i) _ _ r c Hr Hc).
  - intros x y Hx Hy. now apply mmul_id_l.
  - intros x y Hx Hy. rewrite kr_mul by auto.
    refine (kr_ext _ _ _ _ _ _ (pow_nz i) _ _ x y Hx Hy); [intros ? ? ? ?; reflexivity|].
    intros u v Hu Hv. now apply mmul_id_l.
Qed.

(** Two spins, j < i. *)
Definition emb2 (i j : nat) (a b : mat) : mat :=
  let d := (2 ^ j)%nat in let e := (2 ^ (i - j - 1))%nat in
  kr (2 * (e * (2 * d))) mid (kr (e * (2 * d)) a (kr (2 * d) mid (kr d b mid))).
Lemma emb2_dims i j : (j < i)%nat -> (2 ^ (i - j - 1) * (2 * 2 ^ j) = 2 ^ i)%nat.
Proof. intros H. symmetry. now apply pow_split. Qed.
Lemma emb_emb2_l i j a r c : (j < i)%nat -> emb i a r c = emb2 i j a mid r c.
Proof.
  intros H. unfold emb, emb2. cbv zeta. rewrite emb2_dims by auto.
  apply kr_ext_all; [reflexivity|]. intros x y. apply kr_ext_all; [reflexivity|]. intros u v.
  rewrite <- (kr_id (2 * 2 ^ j) u v) by auto. apply kr_ext_all; [reflexivity|]. intros. now rewrite kr_id.
Qed.
Lemma emb_emb2_r i j b r c : (j < i)%nat -> emb j b r c = emb2 i j mid b r c.
Proof.
  intros H. unfold emb, emb2. cbv zeta.
  set (d := (2 * 2 ^ j)%nat). set (e := (2 ^ (i - j - 1))%nat).
  assert (Hd : (d <> 0)%nat) by apply pow2_nz. assert (He : (e <> 0)%nat) by apply pow_nz.
  rewrite (kr_ext_r (2 * (e * d)) mid _ (kr d (kr e mid mid) (kr (2 ^ j) b mid))); [|nia|intros; now rewrite kr_assoc].
  rewrite (kr_ext_r (2 * (e * d)) mid _ (kr d mid (kr (2 ^ j) b mid))); [|nia|intros; apply kr_ext_all; [intros; now apply kr_id|reflexivity]].
  rewrite Nat.mul_assoc, kr_assoc by (auto; lia).
  apply kr_ext_all; [|reflexivity]. intros. now rewrite kr_id by lia.
Qed.
Lemma emb2_mul n i j a b a' b' : (j < i < n)%nat ->
  meq (2 ^ n) (2 ^ n) (mmul (2 ^ n) (emb2 i j a b) (emb2 i j a' b')) (emb2 i j (mmul 2 a a') (mmul 2 b b')).
Proof.
  intros [Hj Hi] r c Hr Hc. unfold emb2. cbv zeta.
  rewrite (pow_split n i Hi) in *. rewrite <- (emb2_dims i j Hj) in *.
  set (d := (2 ^ j)%nat) in *. set (e := (2 ^ (i - j - 1))%nat) in *. set (f := (2 ^ (n - i - 1))%nat) in *.
  assert (Hd : (d <> 0)%nat) by apply pow_nz. assert (He : (e <> 0)%nat) by apply pow_nz.
  rewrite kr_mul by nia. refine (kr_ext f _ _ _ _ _ _ _ _ r c Hr Hc); [nia| |].
  { intros x y Hx Hy. now apply mmul_id_l. }
  intros x y Hx Hy. rewrite kr_mul by nia. refine (kr_ext 2 _ _ _ _ _ _ _ _ x y Hx Hy); [nia| |].
  { intros ? ? ? ?; reflexivity. }
  intros u v Hu Hv. rewrite kr_mul by nia. refine (kr_ext e _ _ _ _ _ _ _ _ u v Hu Hv); [nia| |].
  { intros p q Hp Hq. now apply mmul_id_l. }
  intros p q Hp Hq. rewrite kr_mul by nia. refine (kr_ext 2 _ _ _ _ _ _ _ _ p q Hp Hq); [nia| |].
  { intros ? ? ? ?; reflexivity. }
  intros s t Hs Ht. now apply mmul_id_l.
Qed.
Lemma emb2_ext n i j a b a' b' : (j < i < n)%nat -> meq 2 2 a a' -> meq 2 2 b b' ->
  meq (2 ^ n) (2 ^ n) (emb2 i j a b) (emb2 i j a' b').
Proof.
  intros [Hj Hi] Ha Hb r c Hr Hc. unfold emb2. cbv zeta.
  rewrite (pow_split n i Hi) in *. rewrite <- (emb2_dims i j Hj) in *.
  set (d := (2 ^ j)%nat) in *. set (e := (2 ^ (i - j - 1))%nat) in *. set (f := (2 ^ (n - i - 1))%nat) in *.
  assert (Hd : (d <> 0)%nat) by apply pow_nz. assert (He : (e <> 0)%nat) by apply pow_nz.
  refine (kr_ext f _ _ _ _ _ _ _ _ r c Hr Hc); [nia|intros ? ? ? ?; reflexivity|].
  apply kr_ext; [nia|auto|]. apply kr_ext; [nia|intros ? ? ? ?; reflexivity|].
  apply kr_ext; [nia|auto|intros ? ? ? ?; reflexivity].
Qed.

Lemma emb_pair n i j a b : (j < i < n)%nat -> meq (2 ^ n) (2 ^ n) (mmul (2 ^ n) (emb i a) (emb j b)) (emb2 i j a b).
Proof.
  intros H r c Hr Hc.
  assert (Hji : (j < i)%nat) by lia.
  rewrite (mmul_ext (2 ^ n) (2 ^ n) (2 ^ n) (emb i a) (emb2 i j a mid) (emb j b) (emb2 i j mid b)
    (fun x y _ _ => emb_emb2_l i j a x y Hji) (fun x y _ _ => emb_emb2_r i j b x y Hji) r c Hr Hc).
  rewrite emb2_mul by auto. refine (emb2_ext n i j _ _ _ _ H _ _ r c Hr Hc).
  - intros x y Hx Hy. now apply mmul_id_r.
  - intros x y Hx Hy. now apply mmul_id_l.
Qed.
Lemma emb_pair' n i j a b : (j < i < n)%nat -> meq (2 ^ n) (2 ^ n) (mmul (2 ^ n) (emb j b) (emb i a)) (emb2 i j a b).
Proof.
  intros H r c Hr Hc.
  assert (Hji : (j < i)%nat) by lia.
  rewrite (mmul_ext (2 ^ n) (2 ^ n) (2 ^ n) (emb j b) (emb2 i j mid b) (emb i a) (emb2 i j a mid)
    (fun x y _ _ => emb_emb2_r i j b x y Hji) (fun x y _ _ => emb_emb2_l i j a x y Hji) r c Hr Hc).
  rewrite emb2_mul by auto. refine (emb2_ext n i j _ _ _ _ H _ _ r c Hr Hc).
  - intros x y Hx Hy. now apply mmul_id_l.
  - intros x y Hx Hy. now apply mmul_id_r.
Qed.

(** ** Bits *)
Definition bmat (f : bool -> bool -> GQ) : mat := fun i j => f (Nat.odd i) (Nat.odd j).

Lemma eq_bits x y n : (x < 2 ^ n)%nat -> (y < 2 ^ n)%nat ->
  (forall p, (p < n)%nat -> Nat.testbit x p = Nat.testbit y p) -> x = y.
Proof.
  intros Hx Hy H. apply Nat.bits_inj. intros p. destruct (lt_dec p n) as [L|L]; auto.
  assert (B : forall z, (z < 2 ^ n)%nat -> Nat.testbit z p = false).
  { intros z Hz. rewrite Nat.testbit_eqb. rewrite Nat.div_small; [reflexivity|].
    apply Nat.lt_le_trans with (1 := Hz). apply Nat.pow_le_mono_r; lia. }
  now rewrite !B.
Qed.
Lemma mod_bits x i p : Nat.testbit (x mod 2 ^ i) p = (Nat.ltb p i && Nat.testbit x p)%bool.
Proof.
  destruct (Nat.ltb_spec p i) as [L|L]; cbn.
  - now apply Nat.mod_pow2_bits_low.
  - apply Nat.mod_pow2_bits_high. lia.
Qed.
Lemma mod_eq_bits x y i : (x mod 2 ^ i = y mod 2 ^ i)%nat <-> forall p, (p < i)%nat -> Nat.testbit x p = Nat.testbit y p.
Proof.
  split.
  - intros E p Hp. assert (F := f_equal (fun z => Nat.testbit z p) E). cbn beta in F.
    rewrite !mod_bits in F. apply Nat.ltb_lt in Hp. now rewrite Hp in F.
  - intros H. apply (eq_bits _ _ i); try (apply Nat.mod_upper_bound; auto).
    intros p Hp. rewrite !mod_bits. apply H in Hp as ->. reflexivity.
Qed.
Lemma div_eq_bits x y i n : (x < 2 ^ n)%nat -> (y < 2 ^ n)%nat ->
  (x / 2 ^ i = y / 2 ^ i)%nat <-> forall p, (i <= p < n)%nat -> Nat.testbit x p = Nat.testbit y p.
Proof.
  intros Hx Hy. split.
  - intros E p Hp. assert (F := f_equal (fun z => Nat.testbit z (p - i)) E). cbn beta in F.
    rewrite !Nat.div_pow2_bits in F. now replace (p - i + i)%nat with p in F by lia.
  - intros H. apply (eq_bits _ _ n).
    + apply Nat.le_lt_trans with x; auto. apply Nat.div_le_upper_bound; auto. pose proof (pow_nz i). nia.
    + apply Nat.le_lt_trans with y; auto. apply Nat.div_le_upper_bound; auto. pose proof (pow_nz i). nia.
    + intros p Hp. rewrite !Nat.div_pow2_bits. destruct (lt_dec (p + i) n) as [L|L]; [apply H; lia|].
      assert (B : forall z, (z < 2 ^ n)%nat -> Nat.testbit z (p + i) = false).
      { intros z Hz. rewrite Nat.testbit_eqb. rewrite Nat.div_small; [reflexivity|].
        apply Nat.lt_le_trans with (1 := Hz). apply Nat.pow_le_mono_r; lia. }
      now rewrite !B.
Qed.
Lemma emb_bits n i f : (i < n)%nat -> meq (2 ^ n) (2 ^ n) (emb i (bmat f)) (on_site n i f).
Proof.
  intros Hi r c Hr Hc. unfold emb, kr, on_site, mid at 1 2, bmat.
  rewrite !mod_mul_div, !mod_mul_mod by auto.
  rewrite <- (Nat.bit0_odd ((r / 2 ^ i) mod 2)), <- (Nat.bit0_odd ((c / 2 ^ i) mod 2)).
  change ((r / 2 ^ i) mod 2)%nat with ((r / 2 ^ i) mod 2 ^ 1)%nat.
  change ((c / 2 ^ i) mod 2)%nat with ((c / 2 ^ i) mod 2 ^ 1)%nat.
  rewrite !Nat.mod_pow2_bits_low, !Nat.div_pow2_bits by lia. cbn [plus Nat.add].
  change (2 * 2 ^ i)%nat with (2 ^ S i)%nat.
  pose proof (div_eq_bits r c (S i) n Hr Hc) as D. pose proof (mod_eq_bits r c i) as M.
  destruct (forallb _ _) eqn:E.
  - rewrite forallb_forall in E.
    assert (E' : forall p, (p < n)%nat -> p <> i -> Nat.testbit r p = Nat.testbit c p).
    { intros p Hp Hn. specialize (E p). rewrite in_seq in E. apply orb_prop in E as [E|E]; [|now apply eqb_prop|lia].
      apply Nat.eqb_eq in E. contradiction. }
    rewrite (proj2 D), Nat.eqb_refl by (intros; apply E'; lia).
    rewrite (proj2 M), Nat.eqb_refl by (intros; apply E'; lia). ring.
  - destruct (Nat.eqb_spec (r / 2 ^ S i) (c / 2 ^ S i)) as [E1|E1]; [|ring].
    destruct (Nat.eqb_spec (r mod 2 ^ i) (c mod 2 ^ i)) as [E2|E2]; [|ring].
    exfalso. apply not_true_iff_false in E. apply E. apply forallb_forall. intros p Hp. apply in_seq in Hp.
    destruct (Nat.eqb_spec p i) as [->|Hn]; [reflexivity|]. cbn.
    apply eqb_true_iff. destruct (lt_dec p i); [apply M; auto|apply D; auto; lia].
Qed.

(** ** Matrices up to [meq d d] *)
Definition eqm (d : nat) (a b : mat) : Prop := meq d d a b.
Global Instance eqm_equiv d : Equivalence (eqm d).
Proof.
  split.
  - intros a i j _ _. reflexivity.
  - intros a b H i j Hi Hj. now rewrite H.
  - intros a b c H H' i j Hi Hj. now rewrite H, H'.
Qed.
Global Instance mmul_proper d : Proper (eqm d ==> eqm d ==> eqm d) (mmul d).
Proof. intros a a' Ha b b' Hb. now apply mmul_ext. Qed.
Global Instance madd_proper d : Proper (eqm d ==> eqm d ==> eqm d) madd.
Proof. intros a a' Ha b b' Hb i j Hi Hj. unfold madd. now rewrite Ha, Hb. Qed.
Global Instance msub_proper d : Proper (eqm d ==> eqm d ==> eqm d) msub.
Proof. intros a a' Ha b b' Hb i j Hi Hj. unfold msub. now rewrite Ha, Hb. Qed.
Global Instance mscale_proper d c : Proper (eqm d ==> eqm d) (mscale c).
Proof. intros a a' Ha i j Hi Hj. unfold mscale. now rewrite Ha. Qed.
Global Instance mdag_proper d : Proper (eqm d ==> eqm d) mdag.
Proof. intros a a' Ha i j Hi Hj. unfold mdag. now rewrite Ha. Qed.

Lemma mmul_A d a b c : eqm d (mmul d (mmul d a b) c) (mmul d a (mmul d b c)).
Proof. intros i j _ _. apply mmul_assoc. Qed.
Lemma mmul_1l d a : eqm d (mmul d mid a) a.
Proof. intros i j Hi Hj. now apply mmul_id_l. Qed.
Lemma mmul_1r d a : eqm d (mmul d a mid) a.
Proof. intros i j Hi Hj. now apply mmul_id_r. Qed.
Lemma mmul_scale_l d c a b i j : mmul d (mscale c a) b i j = mscale c (mmul d a b) i j.
Proof. unfold mmul, mscale, bigsum. rewrite <- lsum_mul_l. apply lsum_ext. intros; ring. Qed.
Lemma mmul_scale_r d c a b i j : mmul d a (mscale c b) i j = mscale c (mmul d a b) i j.
Proof. unfold mmul, mscale, bigsum. rewrite <- lsum_mul_l. apply lsum_ext. intros; ring. Qed.
Lemma mmul_add_l d a b c i j : mmul d (madd a b) c i j = madd (mmul d a c) (mmul d b c) i j.
Proof. unfold mmul, madd, bigsum. rewrite <- lsum_add. apply lsum_ext. intros; ring. Qed.
Lemma mmul_add_r d a b c i j : mmul d a (madd b c) i j = madd (mmul d a b) (mmul d a c) i j.
Proof. unfold mmul, madd, bigsum. rewrite <- lsum_add. apply lsum_ext. intros; ring. Qed.
Lemma mmul_sub_l d a b c i j : mmul d (msub a b) c i j = msub (mmul d a c) (mmul d b c) i j.
Proof. unfold mmul, msub, bigsum. rewrite <- lsum_sub. apply lsum_ext. intros; ring. Qed.
Lemma mmul_sub_r d a b c i j : mmul d a (msub b c) i j = msub (mmul d a b) (mmul d a c) i j.
Proof. unfold mmul, msub, bigsum. rewrite <- lsum_sub. apply lsum_ext. intros; ring. Qed.

(** ** On-site operators *)
Definition fmul (f g : bool -> bool -> GQ) : bool -> bool -> GQ :=
  fun a b => f a false * g false b + f a true * g true b.
Lemma on_site_mul n i f g : (i < n)%nat ->
  eqm (2 ^ n) (mmul (2 ^ n) (on_site n i f) (on_site n i g)) (on_site n i (fmul f g)).
Proof.
  intros Hi. rewrite <- (emb_bits n i f Hi : eqm _ _ _), <- (emb_bits n i g Hi : eqm _ _ _).
  rewrite <- (emb_bits n i (fmul f g) Hi : eqm _ _ _). rewrite (emb_mul n i _ _ Hi : eqm _ _ _).
  intros r c _ _. unfold emb. apply kr_ext_all; [reflexivity|]. intros u v. apply kr_ext_all; [|reflexivity].
  intros x y. unfold mmul, bigsum, bmat, fmul. cbn. ring.
Qed.
Lemma on_site_comm n i j f g : (i < n)%nat -> (j < n)%nat -> i <> j ->
  eqm (2 ^ n) (mmul (2 ^ n) (on_site n i f) (on_site n j g)) (mmul (2 ^ n) (on_site n j g) (on_site n i f)).
Proof.
  intros Hi Hj Hn. rewrite <- (emb_bits n i f Hi : eqm _ _ _), <- (emb_bits n j g Hj : eqm _ _ _).
  destruct (lt_dec j i).
  - rewrite (emb_pair n i j _ _ (conj l Hi) : eqm _ _ _), (emb_pair' n i j _ _ (conj l Hi) : eqm _ _ _). reflexivity.
  - assert (L : (i < j)%nat) by lia.
    rewrite (emb_pair n j i _ _ (conj L Hj) : eqm _ _ _), (emb_pair' n j i _ _ (conj L Hj) : eqm _ _ _). reflexivity.
Qed.
Lemma on_site_ext n i f g r c : (forall a b, f a b = g a b) -> on_site n i f r c = on_site n i g r c.
Proof. intros H. unfold on_site. now rewrite H. Qed.
Lemma on_site_add n i f g r c : on_site n i (fun a b => f a b + g a b) r c = madd (on_site n i f) (on_site n i g) r c.
Proof. unfold on_site, madd. destruct (forallb _ _); ring. Qed.
Lemma on_site_sub n i f g r c : on_site n i (fun a b => f a b - g a b) r c = msub (on_site n i f) (on_site n i g) r c.
Proof. unfold on_site, msub. destruct (forallb _ _); ring. Qed.
Lemma on_site_scale n i k f r c : on_site n i (fun a b => k * f a b) r c = mscale k (on_site n i f) r c.
Proof. unfold on_site, mscale. destruct (forallb _ _); ring. Qed.
Lemma on_site_id n i r c : (r < 2 ^ n)%nat -> (c < 2 ^ n)%nat ->
  on_site n i (fun a b => if Bool.eqb a b then 1 else 0) r c = mid r c.
Proof.
  intros Hr Hc. unfold on_site, mid. destruct (Nat.eqb_spec r c) as [->|Hn].
  - rewrite (proj2 (forallb_forall _ _)), eqb_reflx; [reflexivity|].
    intros p _. rewrite eqb_reflx. apply orb_true_r.
  - destruct (forallb _ _) eqn:E; [|reflexivity]. destruct (Bool.eqb _ _) eqn:E'; [|reflexivity].
    exfalso. apply Hn. apply (eq_bits _ _ n); auto. intros p Hp. rewrite forallb_forall in E. specialize (E p).
    rewrite in_seq in E. apply orb_prop in E as [E|E]; [|now apply eqb_prop|lia].
    apply Nat.eqb_eq in E as ->. now apply eqb_prop.
Qed.
Lemma forallb_ext {A} (f g : A -> bool) l : (forall x, f x = g x) -> forallb f l = forallb g l.
Proof. intros H. induction l as [|x l IH]; cbn; [reflexivity|]. now rewrite H, IH. Qed.
Lemma on_site_dag n i f r c : mdag (on_site n i f) r c = on_site n i (fun a b => gconj (f b a)) r c.
Proof.
  unfold mdag, on_site.
  rewrite (forallb_ext (fun p => (p =? i)%nat || Bool.eqb (Nat.testbit c p) (Nat.testbit r p))
            (fun p => (p =? i)%nat || Bool.eqb (Nat.testbit r p) (Nat.testbit c p))).
  - destruct (forallb _ _); [reflexivity|apply gconj_0].
  - intros p. f_equal. now destruct (Nat.testbit r p), (Nat.testbit c p).
Qed.

(** ** Angular momentum *)
Lemma half_canon : (ghalf * ghalf + ghalf * ghalf = ghalf)%gq.
Proof. apply gq_eq; apply Qcanon.Qc_is_canon; reflexivity. Qed.
Ltac bool_elems := intros [] []; cbn; apply gq_eq; apply Qcanon.Qc_is_canon; reflexivity.

Lemma spin_at_comm_same n i o1 o2 o3 k : (i < n)%nat ->
  (forall a b, fmul (half_elem o1) (half_elem o2) a b - fmul (half_elem o2) (half_elem o1) a b = k * half_elem o3 a b) ->
  eqm (2 ^ n) (comm (2 ^ n) (spin_at n i o1) (spin_at n i o2)) (mscale k (spin_at n i o3)).
Proof.
  intros Hi H. unfold comm, spin_at. rewrite !on_site_mul by auto.
  intros r c _ _. rewrite <- on_site_sub, <- on_site_scale. now apply on_site_ext.
Qed.
Lemma spin_algebra n i : (i < n)%nat ->
  eqm (2 ^ n) (comm (2 ^ n) (spin_at n i SX) (spin_at n i SY)) (mscale gi (spin_at n i SZ)) /\
  eqm (2 ^ n) (comm (2 ^ n) (spin_at n i SY) (spin_at n i SZ)) (mscale gi (spin_at n i SX)) /\
  eqm (2 ^ n) (comm (2 ^ n) (spin_at n i SZ) (spin_at n i SX)) (mscale gi (spin_at n i SY)).
Proof. intros Hi. repeat split; (apply spin_at_comm_same; [auto|bool_elems]). Qed.
Lemma spin_at_comm_diff n i j o o' : (i < n)%nat -> (j < n)%nat -> i <> j ->
  eqm (2 ^ n) (mmul (2 ^ n) (spin_at n i o) (spin_at n j o')) (mmul (2 ^ n) (spin_at n j o') (spin_at n i o)).
Proof. intros. now apply on_site_comm. Qed.
Lemma spin_casimir n i : (i < n)%nat ->
  eqm (2 ^ n) (madd (mmul (2 ^ n) (spin_at n i SX) (spin_at n i SX))
              (madd (mmul (2 ^ n) (spin_at n i SY) (spin_at n i SY))
                    (mmul (2 ^ n) (spin_at n i SZ) (spin_at n i SZ))))
              (mscale (mkGQ (Qcanon.Q2Qc (QArith_base.Qmake 3 4)) (Qcanon.Q2Qc (QArith_base.inject_Z 0))) mid).
Proof.
  intros Hi. unfold spin_at. rewrite !on_site_mul by auto.
  intros r c Hr Hc. unfold mscale. rewrite <- (on_site_id n i r c Hr Hc).
  change (madd ?a (madd ?b ?d) r c) with (a r c + (b r c + d r c)).
  unfold on_site. destruct (forallb _ _); [|ring].
  generalize (Nat.testbit r i), (Nat.testbit c i). bool_elems.
Qed.
Lemma spin_ladder n i r c :
  spin_at n i SP r c = madd (spin_at n i SX) (mscale gi (spin_at n i SY)) r c /\
  spin_at n i SM r c = msub (spin_at n i SX) (mscale gi (spin_at n i SY)) r c.
Proof.
  unfold madd, msub, mscale, spin_at, on_site. destruct (forallb _ _); [|split; ring].
  generalize (Nat.testbit r i), (Nat.testbit c i). split; revert b b0; bool_elems.
Qed.
Lemma spin_at_dag n i o r c : mdag (spin_at n i o) r c = spin_at n i (adj_otype o) r c.
Proof.
  unfold spin_at. rewrite on_site_dag. apply on_site_ext. destruct o; bool_elems.
Qed.
