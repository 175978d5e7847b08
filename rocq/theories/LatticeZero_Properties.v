(** C33: a cluster without translation vectors. *)
From Coq Require Import List Reals ZArith Bool Arith Lra Lia.
From Verif Require Import Py CVec LinSolve Line2D_Model Line2D_Proofs Lattice_Model Lattice_Spec Lattice_Proofs Lattice_Proofs2 Lattice_Proofs3 Lattice_Properties.
Import ListNotations.
Open Scope R_scope.

Lemma near_origin prec L x rs : vectors L = [] -> (near prec (database L rs) x = true <-> dist v0 x < view prec).
Proof.
  intros E. unfold near, database. rewrite E. cbn [List.length product map existsb comb]. rewrite orb_false_r. apply Rltb_iff.
Qed.

(** A site is split as itself and nothing exactly if one cluster point, and one
    only, is within the tolerance; for any other site the second search fails with
    IndexError rather than with the documented RuntimeError, and in a cluster
    without points with ValueError. *)
Theorem C33_no_vectors : forall L fuel prec s, vectors L = [] -> (1 <= fuel)%nat ->
  (forall i, (i < List.length (points L))%nat -> (forall j, (j < List.length (points L))%nat -> dist (nth j (points L) v0) s < view prec <-> j = i) ->
     decompose L fuel prec (Site (space_dim L) s) = Some (Ok (nth i (points L) v0, vsub s (nth i (points L) v0)))) /\
  ((forall i, (i < List.length (points L))%nat -> dist (nth i (points L) v0) s < view prec ->
      exists j, (j < List.length (points L))%nat /\ j <> i /\ dist (nth j (points L) v0) s < view prec) ->
     decompose L fuel prec (Site (space_dim L) s) = Some (Err (match points L with [] => ValueError | _ => IndexError end))).
Proof.
  intros L fuel prec s E Hf.
  assert (Near : forall rs j, near prec (database L rs) (disp L s j) = true <-> dist (nth j (points L) v0) s < view prec).
  { intros rs j. rewrite near_origin by exact E. unfold disp. replace (dist v0 (vsub s (nth j (points L) v0))) with (dist (nth j (points L) v0) s); [reflexivity|].
    unfold dist. f_equal. unfold v0. generalize (nth j (points L) (0, 0, 0)). intros p. vring. }
  split.
  - intros i Hi H. cbn [decompose]. rewrite Nat.eqb_refl. cbn [negb].
    rewrite (searching_intro prec L _ s i Hi); [reflexivity| |].
    + apply Near. now apply H.
    + intros j Hj N. destruct (near _ _ _) eqn:Q; [|reflexivity]. apply Near in Q. apply H in Q; [contradiction|exact Hj].
  - intros H. cbn [decompose]. rewrite Nat.eqb_refl. cbn [negb].
    destruct (searching L prec (database L [-1; 0; 1]%Z) (map (vsub s) (points L))) as [r|] eqn:Q.
    { exfalso. apply searching_some in Q as (i & Hi & Ni & U & _). apply Near in Ni. destruct (H i Hi Ni) as (j & Hj & N & Dj).
      apply (Near [-1; 0; 1]%Z) in Dj. rewrite U in Dj; [discriminate|exact Hj|exact N]. }
    destruct (points L) as [|p ps] eqn:Ep; [reflexivity|]. cbn [map max_list].
    unfold guess_scope. destruct fuel as [|f]; [lia|]. cbn [guess_loop]. unfold edge_min, layer. rewrite E. cbn [List.length product filter zs_eqb existsb orb negb].
    reflexivity.
Qed.
Print Assumptions C33_no_vectors.

(** One point and no vectors: the point is found, another site raises IndexError. *)
Example no_vectors_case : forall prec, (1 <= prec)%nat -> let L := MkLattice 2 [v0] [] [] in
  decompose L 1 prec (Site 2 v0) = Some (Ok (v0, v0)) /\ decompose L 1 prec (Site 2 (1, 0, 0)) = Some (Err IndexError).
Proof.
  intros prec Hp L. assert (V : view prec < 1).
  { unfold view. destruct prec as [|p]; [lia|]. rewrite <- Rinv_1. apply Rinv_lt_contravar; [|cbn; pose proof (pow_R1_Rle 10 p ltac:(lra)); lra].
    rewrite Rmult_1_l. apply pow_lt. lra. }
  split.
  - destruct (C33_no_vectors L 1 prec v0 eq_refl (le_n 1)) as (A & _). specialize (A 0%nat (le_n 1)). cbn [space_dim L points nth] in A.
    rewrite A; [do 3 f_equal; unfold v0; vring|]. intros j Hj. cbn in Hj. replace j with 0%nat by lia. cbn [nth]. rewrite dist_refl. split; [reflexivity|]. intros _. apply view_pos.
  - destruct (C33_no_vectors L 1 prec (1, 0, 0) eq_refl (le_n 1)) as (_ & B). apply B. intros i Hi D. exfalso. cbn in Hi. replace i with 0%nat in D by lia.
    revert D. cbn [L points nth]. unfold dist, norm, vsub, vdot, v0. replace ((0 - 1) * (0 - 1) + (0 - 0) * (0 - 0) + (0 - 0) * (0 - 0)) with 1 by ring. rewrite sqrt_1. lra.
Qed.
