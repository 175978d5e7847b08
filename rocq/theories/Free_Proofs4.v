(** Proofs for C57: the states c_j+|GS>, c_j|GS> and the Green functions built from them. *)
From Coq Require Import Reals Qreals QArith Qcanon String List ZArith NArith Bool Arith Lia Ring.
From Coquelicot Require Import Complex.
From Verif Require Import Py GQ Mat CVec State_Model State_Spec MatrixRepr_Model Fock_Spec Fock_Proofs MatrixRepr_Proofs MatrixRepr_Proofs2
  Particle_Model Particle_Spec Particle_Proofs Particle_Proofs2 Conserve_Spec Conserve_Proofs Conserve_Proofs2
  GF_Model GF_Spec GF_Proofs GF_Proofs2 Free_Spec Free_Proofs Free_Proofs2 Free_Proofs3.
Import ListNotations.
Local Open Scope nat_scope.
Local Open Scope C_scope.

Lemma lsum_seq d f : lsum f (seq 0 d) = bigsum d f.
Proof. reflexivity. Qed.
Lemma mv_csum n d (A : nat -> cmat) (c : nat -> C) v i :
  mv n (fun r s => csum d (fun k => c k * A k r s)) v i = csum d (fun k => c k * mv n (A k) v i).
Proof.
  unfold mv. rewrite (csum_ext n _ (fun j => csum d (fun k => c k * (A k i j * v j)))).
  2:{ intros j _. rewrite <- csum_mul_r. apply csum_ext. intros k _. ring. }
  rewrite csum_swap. apply csum_ext. intros k _. now rewrite csum_mul_l.
Qed.
Lemma mv_scal n (A : cmat) a v i : mv n A (fun j => a * v j) i = a * mv n A v i.
Proof. unfold mv. rewrite <- csum_mul_l. apply csum_ext. intros. ring. Qed.

Section Vec.
  Variables (P : pairs) (L Lp Lh : list N) (d : nat) (ix : nat -> nat) (gs : vec) (GE : R).
  Hypothesis NL : NoDup L.
  Hypothesis NLp : NoDup Lp.
  Hypothesis NLh : NoDup Lh.
  Hypothesis CP : closed_pairs P L.
  Hypothesis inj : forall k l, (k < d)%nat -> (l < d)%nat -> ix k = ix l -> k = l.
  Hypothesis stay : forall p, In p P -> In (fst (snd p)) (map ix (seq 0 d)) <-> In (snd (snd p)) (map ix (seq 0 d)).
  Hypothesis eig : veqn (length L) (mv (length L) (cm (quad P L)) gs) (fun i => RtoC GE * gs i).
  Hypothesis gs1 : inner (length L) gs gs = c1.
  Hypothesis Cc : forall k, (k < d)%nat -> closed_on [cr (ix k)] L Lp.
  Hypothesis Ca : forall k, (k < d)%nat -> closed_on [an (ix k)] L Lh.
  Let t : cmat := fun i j => gc (total P (ix i) (ix j)).
  Let p (j : nat) : vec := mv (length L) (cm (word_mat g1 [cr (ix j)] Lp L)) gs.
  Let h (j : nat) : vec := mv (length L) (cm (word_mat g1 [an (ix j)] Lh L)) gs.
  Lemma ndJ : NoDup (map ix (seq 0 d)).
  Proof.
    apply NoDup_nth with (d := ix 0%nat). rewrite map_length, seq_length. intros k l Hk Hl E. apply inj; auto.
    rewrite !(map_nth ix), !seq_nth in E by assumption. exact E.
  Qed.
  Lemma inJ j : (j < d)%nat -> In (ix j) (map ix (seq 0 d)).
  Proof. intros H. apply in_map. apply in_seq. lia. Qed.

  Lemma vec_create j : (j < d)%nat ->
    veqn (length Lp) (mv (length Lp) (cm (quad P Lp)) (p j)) (fun r => RtoC GE * p j r + csum d (fun k => t k j * p k r)).
  Proof.
    intros Hj r Hr. unfold p at 1. rewrite <- mv_mmul.
    rewrite (mv_ext_mat _ _ (cm (fun r s => gadd (mmul (length L) (word_mat g1 [cr (ix j)] Lp L) (quad P L) r s)
        (bigsum d (fun k => gmul (total P (ix k) (ix j)) (word_mat g1 [cr (ix k)] Lp L r s)))))).
    2:{ intros s Hs. unfold cm. rewrite (quad_create P L Lp (ix j) r s NL NLp (Cc j Hj) CP Hr Hs). do 2 f_equal.
        rewrite (regroup_create P (map ix (seq 0 d)) (ix j) (fun k => word_mat g1 [cr k] Lp L r s) ndJ).
        - now rewrite lsum_map.
        - intros q Hq E. apply stay; [exact Hq|]. rewrite E. now apply inJ. }
    rewrite mv_cm_add, mv_mmul. f_equal.
    - rewrite (mv_ext _ _ _ _ eig), mv_scal. reflexivity.
    - rewrite (mv_ext_mat _ _ (fun r s => csum d (fun k => t k j * cm (word_mat g1 [cr (ix k)] Lp L) r s))).
      + rewrite mv_csum. reflexivity.
      + intros s _. unfold cm at 1. rewrite gc_bigsum. apply csum_ext. intros k _. now rewrite gc_mul.
  Qed.
  Lemma vec_annihilate i : (i < d)%nat ->
    veqn (length Lh) (fun r => mv (length Lh) (cm (quad P Lh)) (h i) r + csum d (fun k => t i k * h k r)) (fun r => RtoC GE * h i r).
  Proof.
    intros Hi r Hr. unfold h at 1. rewrite <- mv_mmul.
    transitivity (mv (length L) (cm (mmul (length L) (word_mat g1 [an (ix i)] Lh L) (quad P L))) gs r).
    - rewrite (mv_ext_mat _ (cm (mmul (length L) (word_mat g1 [an (ix i)] Lh L) (quad P L)))
        (cm (fun r s => gadd (mmul (length Lh) (quad P Lh) (word_mat g1 [an (ix i)] Lh L) r s)
          (bigsum d (fun k => gmul (total P (ix i) (ix k)) (word_mat g1 [an (ix k)] Lh L r s)))))).
      + rewrite mv_cm_add. f_equal. symmetry.
        rewrite (mv_ext_mat _ _ (fun r s => csum d (fun k => t i k * cm (word_mat g1 [an (ix k)] Lh L) r s))).
        * rewrite mv_csum. reflexivity.
        * intros s _. unfold cm at 1. rewrite gc_bigsum. apply csum_ext. intros k _. now rewrite gc_mul.
      + intros s Hs. unfold cm. rewrite <- (quad_annihilate P L Lh (ix i) r s NL NLh (Ca i Hi) CP Hr Hs). do 2 f_equal.
        rewrite (regroup_annihilate P (map ix (seq 0 d)) (ix i) (fun k => word_mat g1 [an k] Lh L r s) ndJ).
        * now rewrite lsum_map.
        * intros q Hq E. apply stay; [exact Hq|]. rewrite E. now apply inJ.
    - rewrite mv_mmul, (mv_ext _ _ _ _ eig), mv_scal. reflexivity.
  Qed.
  Lemma inner_mv n m (A B : mat) u v : inner n (mv m (cm A) u) (mv m (cm B) v) = inner m u (mv m (cm (mmul n (mdag A) B)) v).
  Proof.
    rewrite (inner_ext m u u (mv m (cm (mmul n (mdag A) B)) v) (mv n (cm (mdag A)) (mv m (cm B) v))).
    - generalize (mv m (cm B) v). intros w. unfold inner, mv, cm, mdag.
      rewrite (csum_ext n _ (fun i => csum m (fun j => Cj (gc (A i j)) * Cj (u j) * w i))).
      2:{ intros i _. rewrite csum_conj, <- csum_mul_r. apply csum_ext. intros j _. now rewrite Cj_mul. }
      rewrite csum_swap. apply csum_ext. intros j _. rewrite <- csum_mul_l. apply csum_ext. intros i _. rewrite gc_conj. ring.
    - intros i _. reflexivity.
    - intros i _. apply mv_mmul.
  Qed.
  Lemma vec_overlap i j : (i < d)%nat -> (j < d)%nat ->
    inner (length Lp) (p i) (p j) + inner (length Lh) (h j) (h i) = delta i j.
  Proof.
    intros Hi Hj. unfold p, h. rewrite !inner_mv.
    assert (Ir : forall n u v w, inner n u v + inner n u w = inner n u (fun i => v i + w i)).
    { intros n u v w. unfold inner. rewrite <- csum_add. apply csum_ext. intros. ring. }
    rewrite Ir. rewrite (inner_ext (length L) gs gs _ (fun r => delta i j * gs r) (fun _ _ => eq_refl)).
    - transitivity (delta i j * inner (length L) gs gs); [|rewrite gs1; unfold c1; ring].
      unfold inner. rewrite <- csum_mul_l. apply csum_ext. intros. ring.
    - intros r Hr. rewrite <- mv_cm_add. unfold mv. rewrite (csum_single (length L) _ r Hr).
      + unfold cm. rewrite (overlap L Lp Lh (ix i) (ix j) r r NL NLp NLh (Cc j Hj) (Ca i Hi) Hr Hr). rewrite Nat.eqb_refl, andb_true_r.
        unfold delta. destruct (Nat.eqb_spec i j) as [->|Hne].
        * rewrite Nat.eqb_refl, gc_1. reflexivity.
        * destruct (Nat.eqb_spec (ix i) (ix j)) as [E|_]; [exfalso; apply Hne; now apply inj|]. rewrite gc_0. reflexivity.
      + intros s Hs Hne. unfold cm. rewrite (overlap L Lp Lh (ix i) (ix j) r s NL NLp NLh (Cc j Hj) (Ca i Hi) Hr Hs).
        destruct (Nat.eqb_spec r s); [congruence|]. rewrite andb_false_r, gc_0. unfold c0. ring.
  Qed.
End Vec.
