(** Proofs about the Green-function solvers, part 3: containers, retarded functions, Lanczos against exact. *)
From Coq Require Import Reals String List ZArith Bool Arith Lia Lra.
From Coquelicot Require Import Complex.
From Verif Require Import Py CVec LinSolve Lanczos_Model Lanczos_Spec Lanczos_Proofs Lanczos_Proofs2 GF_Model GF_Spec GF_Proofs GF_Proofs2.
Import ListNotations.
Local Open Scope res_scope.
Local Open Scope nat_scope.
Local Open Scope C_scope.

Lemma seq_map_nth {X Y} (f : X -> Y) (g : nat -> Y) (l : list X) :
  (forall k x, nth_error l k = Some x -> g k = f x) -> map g (seq 0 (length l)) = map f l.
Proof.
  intros H. assert (G : forall i l', (forall k x, nth_error l' k = Some x -> g (i + k)%nat = f x) -> map g (seq i (length l')) = map f l').
  { intros i l'. revert i. induction l' as [|x l' IH]; intros i Hl; [reflexivity|]. cbn. f_equal.
    - specialize (Hl 0%nat x eq_refl). now rewrite Nat.add_0_r in Hl.
    - apply IH. intros k y Hk. replace (S i + k)%nat with (i + S k)%nat by lia. exact (Hl (S k) y Hk). }
  now apply G.
Qed.

Section GF.
  Context {K : Type}.
  Variable keqb : K -> K -> bool.
  Hypothesis keqb_eq : forall a b, keqb a b = true <-> a = b.
  Variable dagger : K -> K.

  Lemma holds_finish structure omegas As Bs f arr :
    a3_shape arr = (length As, length Bs, length omegas) ->
    (forall i j k A B omega, nth_error As i = Some A -> nth_error Bs j = Some B -> nth_error omegas k = Some omega -> a3_el arr i j k = f omega A B) ->
    exists r, finish keqb structure As Bs arr = Ok r /\ holds keqb structure omegas As Bs f r.
  Proof.
    intros Sh H. unfold a3_shape in Sh. injection Sh as S0 S1 S2. unfold finish, holds. destruct (String.eqb structure "dict").
    - destruct (dict_loop keqb keqb_eq (a3_row arr) As Bs (fun A B => map (fun omega => f omega A B) omegas)) as (d & E & H1 & H2).
      + intros i j A B Hi Hj. unfold a3_row. rewrite S2. apply seq_map_nth. intros k omega Hk. now apply H.
      + unfold to_dict. rewrite E. cbn [bind]. exists (GDict d). split; [reflexivity|]. exists d. split; [reflexivity|]. split; assumption.
    - exists (GArray arr). split; [reflexivity|]. exists arr. repeat split; assumption.
  Qed.

  Definition val (r : res C) : C := match r with Ok g => g | Err _ => c0 end.

  Section Exact.
    Variables (n : nat) (GE : R) (HM : cmat) (es : list (K * vec)) (eta : R).
    Let Single := GFSolverExactSingle keqb dagger n GE HM es eta.
    Let Multiple := GFSolverExactMultiple keqb dagger n GE HM es eta.
    Lemma multiple_array junk omegas As Bs sign structure :
      Multiple junk omegas As Bs sign structure =
      bind (Multiple junk omegas As Bs sign "array") (fun r => match r with GArray arr => finish keqb structure As Bs arr | GDict _ => Err TypeError end).
    Proof. unfold Multiple, GFSolverExactMultiple. cbv zeta. destruct (for_enum _ _ _); reflexivity. Qed.
    Lemma exact_multiple_ok junk omegas As Bs sign structure r : Multiple junk omegas As Bs sign structure = Ok r ->
      (forall omega A B, In omega omegas -> In A As -> In B Bs -> exists g, Single omega A B sign = Ok g) /\
      holds keqb structure omegas As Bs (fun omega A B => val (Single omega A B sign)) r.
    Proof.
      rewrite multiple_array. intros H. destruct (Multiple junk omegas As Bs sign "array") as [r0|] eqn:E; [|discriminate].
      apply exact_array_ok in E. destruct E as (arr & -> & Sh & G). split.
      - intros omega A B Ho HA HB. apply In_nth_error in Ho, HA, HB. destruct Ho as (k & Hk), HA as (i & Hi), HB as (j & Hj).
        eexists. exact (G i j k A B omega Hi Hj Hk).
      - cbn [bind] in H. destruct (holds_finish structure omegas As Bs (fun omega A B => val (Single omega A B sign)) arr Sh) as (r' & E' & H').
        + intros i j k A B omega Hi Hj Hk. unfold Single. rewrite (G i j k A B omega Hi Hj Hk). reflexivity.
        + rewrite H in E'. injection E' as <-. exact H'.
    Qed.
    Lemma exact_multiple_total junk omegas As Bs sign structure : As <> [] -> Bs <> [] ->
      (forall omega A B, In omega omegas -> In A As -> In B Bs -> exists g, Single omega A B sign = Ok g) ->
      exists r, Multiple junk omegas As Bs sign structure = Ok r.
    Proof.
      intros HA HB H. rewrite multiple_array. destruct (exact_array_total keqb dagger n GE HM es eta junk omegas As Bs sign HA HB H) as (r & E).
      unfold exact_array in E. unfold Multiple. rewrite E. cbn [bind]. apply exact_array_ok in E. destruct E as (arr & -> & Sh & G).
      destruct (holds_finish structure omegas As Bs (fun omega A B => val (Single omega A B sign)) arr Sh) as (r' & E' & _).
      - intros i j k A B omega Hi Hj Hk. unfold Single. rewrite (G i j k A B omega Hi Hj Hk). reflexivity.
      - eauto.
    Qed.
    Lemma rgf_exact_single omega A B sign g : RGFSolverExactSingle keqb dagger n GE HM es eta omega A B sign = Ok g <->
      exists g1 g2, Single omega A B "-" = Ok g1 /\ Single omega B A "+" = Ok g2 /\ g = if String.eqb sign "+" then g1 + g2 else g1 - g2.
    Proof.
      unfold RGFSolverExactSingle, Single, GFSolverExactSingle, gf_matrix. cbn [String.eqb Ascii.eqb Bool.eqb].
      destruct (lookup keqb A es) as [a|], (lookup keqb B es) as [b|], (lookup keqb (dagger A) es) as [ad|], (lookup keqb (dagger B) es) as [bd|];
        cbn [bind]; try (split; [discriminate|intros (g1 & g2 & E1 & E2 & _); try discriminate E1; try discriminate E2;
          repeat match type of E1 with bind ?x _ = _ => destruct x; try discriminate E1 | _ => fail end;
          repeat match type of E2 with bind ?x _ = _ => destruct x; try discriminate E2 | _ => fail end]).
      destruct (solve n _ b) as [x|]; cbn [bind]; [|split; [discriminate|intros (g1 & g2 & E1 & _); discriminate]].
      destruct (solve n _ a) as [y|]; cbn [bind]; [|split; [discriminate|intros (g1 & g2 & _ & E1 & _); discriminate]].
      split.
      - intros H. injection H as <-. eexists _, _. split; [reflexivity|]. split; reflexivity.
      - intros (g1 & g2 & E1 & E2 & ->). injection E1 as <-. injection E2 as <-. reflexivity.
    Qed.
  End Exact.

  Section Lanczos.
    Variables (GE : R) (ms : list (K * ndarray2)) (vs : list (K * list (K * list C))) (eta : R).
    Let Single := GFSolverLanczosSingle keqb dagger GE ms vs eta.
    Let Multiple := GFSolverLanczosMultiple keqb dagger GE ms vs eta.
    Lemma lmultiple_array junk omegas As Bs sign structure :
      Multiple junk omegas As Bs sign structure =
      bind (Multiple junk omegas As Bs sign "array") (fun r => match r with GArray arr => finish keqb structure As Bs arr | GDict _ => Err TypeError end).
    Proof. unfold Multiple, GFSolverLanczosMultiple. cbv zeta. destruct (for_enum _ _ _); reflexivity. Qed.
    Lemma lanczos_multiple_ok junk omegas As Bs sign structure r : Multiple junk omegas As Bs sign structure = Ok r ->
      (forall omega A B, In omega omegas -> In A As -> In B Bs -> exists g, Single omega A B sign = Ok g) /\
      holds keqb structure omegas As Bs (fun omega A B => val (Single omega A B sign)) r.
    Proof.
      rewrite lmultiple_array. intros H. destruct (Multiple junk omegas As Bs sign "array") as [r0|] eqn:E; [|discriminate].
      apply lanczos_array_ok in E. destruct E as (arr & -> & Sh & G). split.
      - intros omega A B Ho HA HB. apply In_nth_error in Ho, HA, HB. destruct Ho as (k & Hk), HA as (i & Hi), HB as (j & Hj).
        eexists. exact (G i j k A B omega Hi Hj Hk).
      - cbn [bind] in H. destruct (holds_finish structure omegas As Bs (fun omega A B => val (Single omega A B sign)) arr Sh) as (r' & E' & H').
        + intros i j k A B omega Hi Hj Hk. unfold Single. rewrite (G i j k A B omega Hi Hj Hk). reflexivity.
        + rewrite H in E'. injection E' as <-. exact H'.
    Qed.
    Lemma lanczos_multiple_total junk omegas As Bs sign structure : As <> [] -> omegas <> [] ->
      (forall omega A B, In omega omegas -> In A As -> In B Bs -> exists g, Single omega A B sign = Ok g) ->
      exists r, Multiple junk omegas As Bs sign structure = Ok r.
    Proof.
      intros HA HB H. rewrite lmultiple_array. destruct (lanczos_array_total keqb dagger GE ms vs eta junk omegas As Bs sign HA HB H) as (r & E).
      unfold lanczos_array in E. unfold Multiple. rewrite E. cbn [bind]. apply lanczos_array_ok in E. destruct E as (arr & -> & Sh & G).
      destruct (holds_finish structure omegas As Bs (fun omega A B => val (Single omega A B sign)) arr Sh) as (r' & E' & _).
      - intros i j k A B omega Hi Hj Hk. unfold Single. rewrite (G i j k A B omega Hi Hj Hk). reflexivity.
      - eauto.
    Qed.
  End Lanczos.

  (** combine_rgf on two arrays that hold f1 (As x Bs) and f2 (Bs x As). *)
  Lemma combine_ok junk omegas As Bs sign structure f1 f2 r1 r2 :
    holds keqb "array" omegas As Bs f1 r1 -> holds keqb "array" omegas Bs As f2 r2 ->
    exists r, combine_rgf keqb junk As Bs sign structure r1 r2 = Ok r /\
      holds keqb structure omegas As Bs (fun omega A B => if String.eqb sign "+" then f1 omega A B + f2 omega B A else f1 omega A B - f2 omega B A) r.
  Proof.
    intros (ab & -> & A0 & A1 & A2 & HA) (ba & -> & B0 & B1 & B2 & HB). cbn [combine_rgf]. cbv zeta. unfold holds.
    destruct (String.eqb structure "dict").
    - match goal with |- context [for_enum As (fun d i A => for_enum Bs (fun d j B => Ok (dict_set _ _ (@?row0 i j) d)) d) []] =>
        destruct (dict_loop keqb keqb_eq row0 As Bs (fun A B => map (fun omega => if String.eqb sign "+" then f1 omega A B + f2 omega B A else f1 omega A B - f2 omega B A) omegas)) as (d & E & H1 & H2) end.
      + intros i j A B Hi Hj. cbv beta. rewrite A2. apply seq_map_nth. intros k omega Hk.
        rewrite (HA i j k A B omega Hi Hj Hk), (HB j i k B A omega Hj Hi Hk). reflexivity.
      + cbv beta in E. rewrite E. cbn [bind]. exists (GDict d). split; [reflexivity|]. exists d. split; [reflexivity|]. split; assumption.
    - match goal with |- context [for_enum As (fun a i A => for_enum Bs (fun a j B => Ok (a3_set_row a i j (@?row0 i j))) a) ?a0] =>
        destruct (row_loop row0 As Bs a0) as (a & E & Sh & G) end.
      cbv beta in E. rewrite E. cbn [bind]. exists (GArray a). split; [reflexivity|]. exists a. split; [reflexivity|].
      unfold a3_shape in Sh. cbn in Sh. injection Sh as S0 S1 S2. split; [congruence|]. split; [congruence|]. split; [congruence|].
      intros i j k A B omega Hi Hj Hk. rewrite G; [|apply nth_error_Some; congruence|apply nth_error_Some; congruence].
      rewrite (HA i j k A B omega Hi Hj Hk), (HB j i k B A omega Hj Hi Hk). reflexivity.
  Qed.
  Lemma holds_ext structure omegas As Bs f g r : (forall omega A B, In omega omegas -> In A As -> In B Bs -> f omega A B = g omega A B) ->
    holds keqb structure omegas As Bs f r -> holds keqb structure omegas As Bs g r.
  Proof.
    intros H. unfold holds. destruct (String.eqb structure "dict").
    - intros (d & -> & H1 & H2). exists d. split; [reflexivity|]. split; [|exact H2]. intros A B HA HB. rewrite H1 by assumption. f_equal. apply map_ext_in. intros omega Ho. now apply H.
    - intros (arr & -> & A0 & A1 & A2 & HA). exists arr. repeat (split; [assumption || reflexivity|]). intros i j k A B omega Hi Hj Hk.
      rewrite (HA i j k A B omega Hi Hj Hk). apply H; eapply nth_error_In; eassumption.
  Qed.
  Lemma rgf_exact_multiple_ok n GE HM es eta j1 j2 j3 omegas As Bs sign structure r :
    RGFSolverExactMultiple keqb dagger n GE HM es eta j1 j2 j3 omegas As Bs sign structure = Ok r ->
    (forall omega A B, In omega omegas -> In A As -> In B Bs -> exists g, RGFSolverExactSingle keqb dagger n GE HM es eta omega A B sign = Ok g) /\
    holds keqb structure omegas As Bs (fun omega A B => val (RGFSolverExactSingle keqb dagger n GE HM es eta omega A B sign)) r.
  Proof.
    unfold RGFSolverExactMultiple. intros H.
    destruct (GFSolverExactMultiple _ _ _ _ _ _ _ j1 _ _ _ _ _) as [r1|] eqn:E1; [|discriminate]. cbn [bind] in H.
    destruct (GFSolverExactMultiple _ _ _ _ _ _ _ j2 _ _ _ _ _) as [r2|] eqn:E2; [|discriminate]. cbn [bind] in H.
    apply exact_multiple_ok in E1, E2. destruct E1 as [T1 H1], E2 as [T2 H2].
    destruct (combine_ok j3 omegas As Bs sign structure _ _ r1 r2 H1 H2) as (r' & E & G). rewrite H in E. injection E as <-.
    assert (S : forall omega A B, In omega omegas -> In A As -> In B Bs ->
      RGFSolverExactSingle keqb dagger n GE HM es eta omega A B sign = Ok (if String.eqb sign "+"
        then val (GFSolverExactSingle keqb dagger n GE HM es eta omega A B "-") + val (GFSolverExactSingle keqb dagger n GE HM es eta omega B A "+")
        else val (GFSolverExactSingle keqb dagger n GE HM es eta omega A B "-") - val (GFSolverExactSingle keqb dagger n GE HM es eta omega B A "+"))).
    { intros omega A B Ho HA HB. apply rgf_exact_single. destruct (T1 omega A B Ho HA HB) as (g1 & ->), (T2 omega B A Ho HB HA) as (g2 & ->).
      exists g1, g2. repeat split. }
    split.
    - intros omega A B Ho HA HB. eexists. now apply S.
    - eapply holds_ext; [|exact G]. intros omega A B Ho HA HB. cbv beta. now rewrite S by assumption.
  Qed.
  Lemma rgf_exact_multiple_total n GE HM es eta j1 j2 j3 omegas As Bs sign structure : As <> [] -> Bs <> [] ->
    (forall omega A B, In omega omegas -> In A As -> In B Bs -> exists g, RGFSolverExactSingle keqb dagger n GE HM es eta omega A B sign = Ok g) ->
    exists r, RGFSolverExactMultiple keqb dagger n GE HM es eta j1 j2 j3 omegas As Bs sign structure = Ok r.
  Proof.
    intros HA HB H. unfold RGFSolverExactMultiple.
    destruct (exact_multiple_total n GE HM es eta j1 omegas As Bs "-" "array" HA HB) as (r1 & E1).
    { intros omega A B Ho HiA HiB. destruct (H omega A B Ho HiA HiB) as (g & G). apply rgf_exact_single in G. destruct G as (g1 & _ & G & _). eauto. }
    destruct (exact_multiple_total n GE HM es eta j2 omegas Bs As "+" "array" HB HA) as (r2 & E2).
    { intros omega B A Ho HiB HiA. destruct (H omega A B Ho HiA HiB) as (g & G). apply rgf_exact_single in G. destruct G as (_ & g2 & _ & G & _). eauto. }
    rewrite E1, E2. cbn [bind]. apply exact_multiple_ok in E1, E2. destruct E1 as [T1 H1], E2 as [T2 H2].
    destruct (combine_ok j3 omegas As Bs sign structure _ _ r1 r2 H1 H2) as (r' & E & _). eauto.
  Qed.
  Lemma rgf_lanczos_single GE ms vs eta omega A B sign g : RGFSolverLanczosSingle keqb dagger GE ms vs eta omega A B sign = Ok g <->
    exists g1 g2, GFSolverLanczosSingle keqb dagger GE ms vs eta omega A B "-" = Ok g1 /\ GFSolverLanczosSingle keqb dagger GE ms vs eta omega B A "+" = Ok g2 /\
      g = if String.eqb sign "+" then g1 + g2 else g1 - g2.
  Proof.
    unfold RGFSolverLanczosSingle. split.
    - intros H. destruct (GFSolverLanczosSingle _ _ _ _ _ _ _ A B _) as [g1|]; [|discriminate]. cbn [bind] in H.
      destruct (GFSolverLanczosSingle _ _ _ _ _ _ _ B A _) as [g2|]; [|discriminate]. cbn [bind] in H. injection H as <-. exists g1, g2. repeat split.
    - intros (g1 & g2 & -> & -> & ->). reflexivity.
  Qed.
  Lemma rgf_lanczos_multiple_ok GE ms vs eta j1 j2 j3 omegas As Bs sign structure r :
    RGFSolverLanczosMultiple keqb dagger GE ms vs eta j1 j2 j3 omegas As Bs sign structure = Ok r ->
    (forall omega A B, In omega omegas -> In A As -> In B Bs -> exists g, RGFSolverLanczosSingle keqb dagger GE ms vs eta omega A B sign = Ok g) /\
    holds keqb structure omegas As Bs (fun omega A B => val (RGFSolverLanczosSingle keqb dagger GE ms vs eta omega A B sign)) r.
  Proof.
    unfold RGFSolverLanczosMultiple. intros H.
    destruct (GFSolverLanczosMultiple _ _ _ _ _ _ j1 _ _ _ _ _) as [r1|] eqn:E1; [|discriminate]. cbn [bind] in H.
    destruct (GFSolverLanczosMultiple _ _ _ _ _ _ j2 _ _ _ _ _) as [r2|] eqn:E2; [|discriminate]. cbn [bind] in H.
    apply lanczos_multiple_ok in E1, E2. destruct E1 as [T1 H1], E2 as [T2 H2].
    destruct (combine_ok j3 omegas As Bs sign structure _ _ r1 r2 H1 H2) as (r' & E & G). rewrite H in E. injection E as <-.
    assert (S : forall omega A B, In omega omegas -> In A As -> In B Bs ->
      RGFSolverLanczosSingle keqb dagger GE ms vs eta omega A B sign = Ok (if String.eqb sign "+"
        then val (GFSolverLanczosSingle keqb dagger GE ms vs eta omega A B "-") + val (GFSolverLanczosSingle keqb dagger GE ms vs eta omega B A "+")
        else val (GFSolverLanczosSingle keqb dagger GE ms vs eta omega A B "-") - val (GFSolverLanczosSingle keqb dagger GE ms vs eta omega B A "+"))).
    { intros omega A B Ho HA HB. apply rgf_lanczos_single. destruct (T1 omega A B Ho HA HB) as (g1 & ->), (T2 omega B A Ho HB HA) as (g2 & ->).
      exists g1, g2. repeat split. }
    split.
    - intros omega A B Ho HA HB. eexists. now apply S.
    - eapply holds_ext; [|exact G]. intros omega A B Ho HA HB. cbv beta. now rewrite S by assumption.
  Qed.
  Lemma rgf_lanczos_multiple_total GE ms vs eta j1 j2 j3 omegas As Bs sign structure : As <> [] -> Bs <> [] -> omegas <> [] ->
    (forall omega A B, In omega omegas -> In A As -> In B Bs -> exists g, RGFSolverLanczosSingle keqb dagger GE ms vs eta omega A B sign = Ok g) ->
    exists r, RGFSolverLanczosMultiple keqb dagger GE ms vs eta j1 j2 j3 omegas As Bs sign structure = Ok r.
  Proof.
    intros HA HB HO H. unfold RGFSolverLanczosMultiple.
    destruct (lanczos_multiple_total GE ms vs eta j1 omegas As Bs "-" "array" HA HO) as (r1 & E1).
    { intros omega A B Ho HiA HiB. destruct (H omega A B Ho HiA HiB) as (g & G). apply rgf_lanczos_single in G. destruct G as (g1 & _ & G & _). eauto. }
    destruct (lanczos_multiple_total GE ms vs eta j2 omegas Bs As "+" "array" HB HO) as (r2 & E2).
    { intros omega B A Ho HiB HiA. destruct (H omega A B Ho HiA HiB) as (g & G). apply rgf_lanczos_single in G. destruct G as (_ & g2 & _ & G & _). eauto. }
    rewrite E1, E2. cbn [bind]. apply lanczos_multiple_ok in E1, E2. destruct E1 as [T1 H1], E2 as [T2 H2].
    destruct (combine_ok j3 omegas As Bs sign structure _ _ r1 r2 H1 H2) as (r' & E & _). eauto.
  Qed.
End GF.
