(** Proofs for C57: ladder operators and quadratic Hamiltonians on lists of kets. *)
From Coq Require Import List ZArith NArith Bool Arith Lia Ring.
From Verif Require Import Py GQ Mat MatrixRepr_Model Fock_Spec Fock_Proofs MatrixRepr_Proofs MatrixRepr_Proofs2 Particle_Proofs2 Conserve_Proofs.
Import ListNotations.
Local Open Scope nat_scope.
Local Open Scope gq_scope.

(** Anticommutator inside a product. *)
Lemma gz_neg_amp (o : option (bool * N)) (bra : N) :
  gz (match neg_out o with None => 0 | Some (s, k) => if (k =? bra)%N then (if s then -1 else 1) else 0 end)%Z +
  gz (match o with None => 0 | Some (s, k) => if (k =? bra)%N then (if s then -1 else 1) else 0 end)%Z = 0.
Proof.
  destruct o as [[s k]|]; cbn [neg_out]; [|apply gq_eq; reflexivity].
  destruct (k =? bra)%N; [destruct s|]; apply gq_eq; apply Qcanon.Qc_is_canon; reflexivity.
Qed.
Lemma amp_car u v i oi j oj bra ket :
  gz (amp (u ++ (i, oi) :: (j, oj) :: v) bra ket) + gz (amp (u ++ (j, oj) :: (i, oi) :: v) bra ket) =
  if (Nat.eqb i j && negb (otype_eqb oi oj))%bool then gz (amp (u ++ v) bra ket) else 0.
Proof.
  destruct (Nat.eqb_spec i j) as [<-|Hij]; cbn [andb].
  - assert (W : forall o o', word_act (u ++ (i, o) :: (i, o') :: v) ket =
        match word_act v ket with None => None | Some (s, k) =>
          match word_act [(i, o); (i, o')] k with None => None | Some (s', k') => xor_out s (xor_out s' (word_act u k')) end end).
    { intros o o'. rewrite word_act_app. change ((i, o) :: (i, o') :: v) with ([(i, o); (i, o')] ++ v). rewrite word_act_app.
      destruct (word_act v ket) as [[s k]|]; [|reflexivity]. destruct (word_act [(i, o); (i, o')] k) as [[s' k']|]; cbn [xor_out]; [|reflexivity].
      destruct (word_act u k') as [[s'' k'']|]; cbn [xor_out]; [|reflexivity]. now rewrite xorb_assoc. }
    assert (Z0 : gz 0 + gz 0 = 0) by (apply gq_eq; reflexivity).
    assert (E0 : forall a, a + gz 0 = a) by (intros a; change (gz 0) with g0; ring).
    assert (E1 : forall a, gz 0 + a = a) by (intros a; change (gz 0) with g0; ring).
    assert (X : forall o, xor_out false o = o) by (intros [[[] k]|]; reflexivity).
    unfold amp. rewrite !W. rewrite (word_act_app u v).
    destruct oi, oj; cbn [otype_eqb negb].
    + destruct (word_act v ket) as [[s k]|]; [rewrite word_same_otype|]; exact Z0.
    + destruct (word_act v ket) as [[s k]|]; [|exact Z0]. rewrite word_number, word_hole. destruct (occ k i); rewrite ?X, ?E0, ?E1; reflexivity.
    + destruct (word_act v ket) as [[s k]|]; [|exact Z0]. rewrite word_number, word_hole. destruct (occ k i); rewrite ?X, ?E0, ?E1; reflexivity.
    + destruct (word_act v ket) as [[s k]|]; [rewrite word_same_otype|]; exact Z0.
  - unfold amp. rewrite (word_swap u i oi j oj v ket Hij). apply gz_neg_amp.
Qed.

Definition cr (i : nat) : nat * otype := (i, CREATION).
Definition an (i : nat) : nat * otype := (i, ANNIHILATION).
Lemma hop_create a b j bra ket :
  gz (amp [cr a; an b; cr j] bra ket) = gz (amp [cr j; cr a; an b] bra ket) + (if Nat.eqb b j then gz (amp [cr a] bra ket) else 0).
Proof.
  pose proof (amp_car [cr a] [] b ANNIHILATION j CREATION bra ket) as H1.
  pose proof (amp_car [] [an b] a CREATION j CREATION bra ket) as H2.
  cbn [app otype_eqb negb] in H1, H2. rewrite andb_true_r in H1. rewrite andb_false_r in H2. unfold cr, an in *.
  rewrite <- H1.
  transitivity (gz (amp [(a, CREATION); (b, ANNIHILATION); (j, CREATION)] bra ket) + 0); [ring|]. rewrite <- H2. ring.
Qed.
Lemma hop_annihilate a b i bra ket :
  gz (amp [cr a; an b; an i] bra ket) + (if Nat.eqb a i then gz (amp [an b] bra ket) else 0) = gz (amp [an i; cr a; an b] bra ket).
Proof.
  pose proof (amp_car [] [an b] i ANNIHILATION a CREATION bra ket) as H1.
  pose proof (amp_car [cr a] [] i ANNIHILATION b ANNIHILATION bra ket) as H2.
  cbn [app otype_eqb negb] in H1, H2. rewrite andb_true_r in H1. rewrite andb_false_r in H2. unfold cr, an in *.
  rewrite (Nat.eqb_sym a i), <- H1.
  transitivity (gz (amp [(i, ANNIHILATION); (a, CREATION); (b, ANNIHILATION)] bra ket) + 0); [|ring]. rewrite <- H2. ring.
Qed.

(** ** Quadratic Hamiltonians: a list of (coefficient, (creator, annihilator)) *)
Definition pairs := list (GQ * (nat * nat)).
Definition quad (P : pairs) (L : list N) : mat :=
  fun r s => lsum (fun p => word_mat (fst p) [cr (fst (snd p)); an (snd (snd p))] L L r s) P.
Definition flip_pairs (P : pairs) : pairs := map (fun p => (gconj (fst p), (snd (snd p), fst (snd p)))) P.
Definition closed_pairs (P : pairs) (L : list N) : Prop :=
  Forall (fun p => closed_on [cr (fst (snd p)); an (snd (snd p))] L L) P.
Definition total (P : pairs) (a b : nat) : GQ :=
  lsum (fun p => if (Nat.eqb (fst (snd p)) a && Nat.eqb (snd (snd p)) b)%bool then fst p else 0) P.

Lemma mmul_lsum_l {A} k (f : A -> mat) l (b : mat) i j :
  mmul k (fun r s => lsum (fun x => f x r s) l) b i j = lsum (fun x => mmul k (f x) b i j) l.
Proof.
  unfold mmul, bigsum. rewrite <- lsum_swap. apply lsum_ext. intros m _. now rewrite lsum_mul_r.
Qed.
Lemma mmul_lsum_r {A} k (f : A -> mat) l (b : mat) i j :
  mmul k b (fun r s => lsum (fun x => f x r s) l) i j = lsum (fun x => mmul k b (f x) i j) l.
Proof.
  unfold mmul, bigsum. rewrite <- lsum_swap. apply lsum_ext. intros m _. now rewrite lsum_mul_l.
Qed.
Lemma quad_create P L Lp j r s : NoDup L -> NoDup Lp -> closed_on [cr j] L Lp -> closed_pairs P L ->
  (r < length Lp)%nat -> (s < length L)%nat ->
  mmul (length Lp) (quad P Lp) (word_mat g1 [cr j] Lp L) r s =
  mmul (length L) (word_mat g1 [cr j] Lp L) (quad P L) r s +
  lsum (fun p => if Nat.eqb (snd (snd p)) j then fst p * word_mat g1 [cr (fst (snd p))] Lp L r s else 0) P.
Proof.
  intros N1 N2 Cj Cl Hr Hs. unfold quad. rewrite mmul_lsum_l, mmul_lsum_r, <- lsum_add. apply lsum_ext. intros [c [a b]] Hp. cbn [fst snd].
  repeat match goal with |- context [mmul ?k (fun r s => word_mat ?x ?w ?y ?z r s)] => change (fun r s => word_mat x w y z r s) with (word_mat x w y z) end.
  repeat match goal with |- context [mmul ?k ?u (fun r s => word_mat ?x ?w ?y ?z r s)] => change (fun r s => word_mat x w y z r s) with (word_mat x w y z) end.
  rewrite (word_mat_mul c g1 [cr a; an b] [cr j] Lp Lp L N2 Cj r s Hr Hs).
  unfold closed_pairs in Cl. rewrite Forall_forall in Cl. specialize (Cl _ Hp). cbn [fst snd] in Cl.
  rewrite (word_mat_mul g1 c [cr j] [cr a; an b] Lp L L N1 Cl r s Hr Hs).
  unfold word_mat. cbn [app]. rewrite hop_create. destruct (Nat.eqb b j); ring.
Qed.
Lemma quad_annihilate P L Lh i r s : NoDup L -> NoDup Lh -> closed_on [an i] L Lh -> closed_pairs P L ->
  (r < length Lh)%nat -> (s < length L)%nat ->
  mmul (length Lh) (quad P Lh) (word_mat g1 [an i] Lh L) r s +
  lsum (fun p => if Nat.eqb (fst (snd p)) i then fst p * word_mat g1 [an (snd (snd p))] Lh L r s else 0) P =
  mmul (length L) (word_mat g1 [an i] Lh L) (quad P L) r s.
Proof.
  intros N1 N2 Cj Cl Hr Hs. unfold quad. rewrite mmul_lsum_l, mmul_lsum_r, <- lsum_add. apply lsum_ext. intros [c [a b]] Hp. cbn [fst snd].
  repeat match goal with |- context [mmul ?k (fun r s => word_mat ?x ?w ?y ?z r s)] => change (fun r s => word_mat x w y z r s) with (word_mat x w y z) end.
  repeat match goal with |- context [mmul ?k ?u (fun r s => word_mat ?x ?w ?y ?z r s)] => change (fun r s => word_mat x w y z r s) with (word_mat x w y z) end.
  rewrite (word_mat_mul c g1 [cr a; an b] [an i] Lh Lh L N2 Cj r s Hr Hs).
  unfold closed_pairs in Cl. rewrite Forall_forall in Cl. specialize (Cl _ Hp). cbn [fst snd] in Cl.
  rewrite (word_mat_mul g1 c [an i] [cr a; an b] Lh L L N1 Cl r s Hr Hs).
  unfold word_mat. cbn [app]. rewrite <- hop_annihilate. destruct (Nat.eqb a i); ring.
Qed.
(** Sums over terms regrouped by state; J lists the states. *)
Lemma regroup_create P (J : list nat) j (F : nat -> GQ) : NoDup J ->
  (forall p, In p P -> snd (snd p) = j -> In (fst (snd p)) J) ->
  lsum (fun p => if Nat.eqb (snd (snd p)) j then fst p * F (fst (snd p)) else 0) P = lsum (fun k => total P k j * F k) J.
Proof.
  intros ND H. unfold total. rewrite (lsum_ext (fun k => lsum _ P * F k) (fun k => lsum (fun p => (if (Nat.eqb (fst (snd p)) k && Nat.eqb (snd (snd p)) j)%bool then fst p else 0) * F k) P)).
  2:{ intros k _. now rewrite lsum_mul_r. }
  rewrite <- lsum_swap. apply lsum_ext. intros [c [a b]] Hp. cbn [fst snd]. destruct (Nat.eqb_spec b j) as [E|E].
  - rewrite (lsum_single _ J a ND (H _ Hp E)).
    + rewrite Nat.eqb_refl. reflexivity.
    + intros y _ Hy. destruct (Nat.eqb_spec a y); [congruence|]. cbn [andb]. ring.
  - symmetry. apply lsum_zero. intros k _. rewrite andb_false_r. ring.
Qed.
Lemma regroup_annihilate P (J : list nat) i (F : nat -> GQ) : NoDup J ->
  (forall p, In p P -> fst (snd p) = i -> In (snd (snd p)) J) ->
  lsum (fun p => if Nat.eqb (fst (snd p)) i then fst p * F (snd (snd p)) else 0) P = lsum (fun k => total P i k * F k) J.
Proof.
  intros ND H. unfold total. rewrite (lsum_ext (fun k => lsum _ P * F k) (fun k => lsum (fun p => (if (Nat.eqb (fst (snd p)) i && Nat.eqb (snd (snd p)) k)%bool then fst p else 0) * F k) P)).
  2:{ intros k _. now rewrite lsum_mul_r. }
  rewrite <- lsum_swap. apply lsum_ext. intros [c [a b]] Hp. cbn [fst snd]. destruct (Nat.eqb_spec a i) as [E|E].
  - rewrite (lsum_single _ J b ND (H _ Hp E)).
    + rewrite Nat.eqb_refl. reflexivity.
    + intros y _ Hy. destruct (Nat.eqb_spec b y); [congruence|]. rewrite andb_false_r. ring.
  - symmetry. apply lsum_zero. intros k _. cbn [andb]. ring.
Qed.
(** The anticommutator between states of the basis: C_i+ C_j + A_j+ A_i. *)
Lemma overlap L Lp Lh i j r s : NoDup L -> NoDup Lp -> NoDup Lh -> closed_on [cr j] L Lp -> closed_on [an i] L Lh ->
  (r < length L)%nat -> (s < length L)%nat ->
  mmul (length Lp) (mdag (word_mat g1 [cr i] Lp L)) (word_mat g1 [cr j] Lp L) r s +
  mmul (length Lh) (mdag (word_mat g1 [an j] Lh L)) (word_mat g1 [an i] Lh L) r s =
  if (Nat.eqb i j && Nat.eqb r s)%bool then 1 else 0.
Proof.
  intros N N1 N2 C1 C2 Hr Hs.
  assert (D : forall c w X Y k, mmul k (mdag (word_mat g1 w X Y)) c r s = mmul k (word_mat g1 (word_dagger w) Y X) c r s).
  { intros c w X Y k. unfold mmul. apply bigsum_ext. intros l _. rewrite <- word_mat_dagger. now rewrite gconj_1. }
  rewrite !D. cbn [word_dagger map rev app fst snd cr an flip_otype].
  rewrite (word_mat_mul g1 g1 [(i, ANNIHILATION)] [cr j] L Lp L N1 C1 r s Hr Hs).
  rewrite (word_mat_mul g1 g1 [(j, CREATION)] [an i] L Lh L N2 C2 r s Hr Hs).
  unfold word_mat. cbn [app]. pose proof (amp_car [] [] i ANNIHILATION j CREATION (nth r L 0%N) (nth s L 0%N)) as H.
  cbn [app otype_eqb negb] in H. rewrite andb_true_r in H. unfold cr, an.
  transitivity (gz (amp [(i, ANNIHILATION); (j, CREATION)] (nth r L 0%N) (nth s L 0%N)) + gz (amp [(j, CREATION); (i, ANNIHILATION)] (nth r L 0%N) (nth s L 0%N))); [ring|].
  rewrite H. destruct (Nat.eqb i j); cbn [andb]; [|reflexivity]. rewrite amp_nil.
  destruct (Nat.eqb_spec r s) as [->|Hne]; [rewrite N.eqb_refl; apply gq_eq; reflexivity|].
  destruct (N.eqb_spec (nth s L 0%N) (nth r L 0%N)) as [E|_]; [|apply gq_eq; reflexivity].
  exfalso. apply Hne. symmetry. exact (proj1 (NoDup_nth L 0%N) N s r Hs Hr E).
Qed.
