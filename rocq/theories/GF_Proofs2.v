(** Proofs about the Green-function solvers, part 2: values. *)
From Coq Require Import Reals String List ZArith Bool Arith Lia Lra.
From Coquelicot Require Import Complex.
From Verif Require Import Py CVec LinSolve Lanczos_Model Lanczos_Spec GF_Model GF_Spec GF_Proofs.
Import ListNotations.
Local Open Scope res_scope.
Local Open Scope nat_scope.
Local Open Scope C_scope.

Lemma gf_z_eq omega eta : gf_z omega eta = frequency omega eta.
Proof. unfold gf_z, frequency. apply C_eq; cbn; ring. Qed.
Lemma csum_eye n c x i : (i < n)%nat -> csum n (fun j => c * eye i j * x j) = c * x i.
Proof.
  intros Hi. rewrite (csum_single n _ i Hi).
  - unfold eye. rewrite Nat.eqb_refl. unfold c1. ring.
  - intros j _ Hj. unfold eye. destruct (Nat.eqb_spec i j); [congruence|]. unfold c0. ring.
Qed.
Lemma gf_matrix_mv sign n z GE H x i : (i < n)%nat -> csum n (fun j => gf_matrix sign z GE H i j * x j) = shifted sign n H GE z x i.
Proof.
  intros Hi. unfold gf_matrix, shifted. destruct (String.eqb sign "+").
  - rewrite <- (csum_eye n (z - RtoC GE) x i Hi). unfold mv. rewrite <- csum_add. apply csum_ext. intros. ring.
  - rewrite <- (csum_eye n (z + RtoC GE) x i Hi). unfold mv. rewrite <- csum_sub. apply csum_ext. intros. ring.
Qed.
Lemma solves_shifted sign n z GE H x b : solves n (gf_matrix sign z GE H) x b <-> veqn n (shifted sign n H GE z x) b.
Proof.
  split; intros G i Hi.
  - rewrite <- gf_matrix_mv by assumption. now apply G.
  - rewrite gf_matrix_mv by assumption. now apply G.
Qed.
Lemma nonsingular_invertible sign n z GE H : nonsingular n (gf_matrix sign z GE H) <-> invertible sign n H GE z.
Proof. split; intros G x Hx; apply G; now apply solves_shifted. Qed.

(** Hermitian H, real GE and omega, eta <> 0. *)
Lemma shifted_inner sign n H GE omega eta x : hermitian n H ->
  Im (inner n x (shifted sign n H GE (frequency omega eta) x)) = (eta * norm2 n x)%R.
Proof.
  intros HH.
  assert (E : inner n x (shifted sign n H GE (frequency omega eta) x) =
    if String.eqb sign "+" then (frequency omega eta - RtoC GE) * inner n x x + inner n x (mv n H x)
    else (frequency omega eta + RtoC GE) * inner n x x - inner n x (mv n H x)).
  { destruct (String.eqb sign "+") eqn:ES.
    - rewrite <- (inner_scale_r n x), <- inner_add_r. apply inner_ext; [intros i _; reflexivity|]. intros i _. unfold shifted, vadd, vscale. now rewrite ES.
    - rewrite <- (inner_scale_r n x), <- inner_sub_r. apply inner_ext; [intros i _; reflexivity|]. intros i _. unfold shifted, vsub, vscale. now rewrite ES. }
  rewrite E, inner_self, (hermitian_real n H x HH). destruct (String.eqb sign "+"); unfold Im, Re, frequency; cbn; ring.
Qed.
Lemma hermitian_invertible sign n H GE omega eta : hermitian n H -> eta <> 0%R -> invertible sign n H GE (frequency omega eta).
Proof.
  intros HH He x Hx. apply norm2_zero.
  assert (E := shifted_inner sign n H GE omega eta x HH).
  rewrite (inner_ext n x x _ vzero (fun i _ => eq_refl) Hx), inner_zero_r in E. unfold Im, c0 in E. cbn in E.
  symmetry in E. destruct (Rmult_integral _ _ E); [contradiction|assumption].
Qed.
Lemma green_unique sign n H GE z a b g g' : invertible sign n H GE z -> green sign n H GE z a b g -> green sign n H GE z a b g' -> g = g'.
Proof.
  intros HI (x & Hx & ->) (y & Hy & ->). apply inner_ext; [intros i _; reflexivity|].
  apply (solve_unique n (gf_matrix sign z GE H) x y b); [now apply nonsingular_invertible|now apply solves_shifted|now apply solves_shifted].
Qed.
Lemma shifted_csum sign n H GE z m (c : nat -> C) (f : nat -> vec) i :
  shifted sign n H GE z (fun i => csum m (fun k => c k * f k i)) i = csum m (fun k => c k * shifted sign n H GE z (f k) i).
Proof.
  unfold shifted. rewrite (mv_csum n H m (fun k i => c k * f k i) i).
  assert (E : csum m (fun k => mv n H (fun i0 => c k * f k i0) i) = csum m (fun k => c k * mv n H (f k) i)).
  { apply csum_ext. intros k _. apply (mv_scale n H (c k) (f k) i). }
  rewrite E. destruct (String.eqb sign "+"); rewrite <- csum_mul_l; [rewrite <- csum_add|rewrite <- csum_sub]; apply csum_ext; intros; ring.
Qed.
Lemma shifted_eigen sign n H GE z E (e : vec) : veqn n (mv n H e) (fun i => RtoC E * e i) ->
  veqn n (shifted sign n H GE z e) (fun i => shifted_value sign E GE z * e i).
Proof. intros He i Hi. unfold shifted, shifted_value. rewrite (He i Hi). destruct (String.eqb sign "+"); ring. Qed.
Lemma shifted_value_neq0 sign E GE omega eta : eta <> 0%R -> shifted_value sign E GE (frequency omega eta) <> c0.
Proof.
  intros He F. apply He. assert (G : Im (shifted_value sign E GE (frequency omega eta)) = eta).
  { unfold shifted_value, frequency, Im. destruct (String.eqb sign "+"); cbn; ring. }
  rewrite F in G. unfold Im, c0 in G. cbn in G. now symmetry.
Qed.
(** Lehmann representation. *)
Lemma green_lehmann sign n H GE omega eta a b m (c : nat -> C) (E : nat -> R) (e : nat -> vec) : eta <> 0%R ->
  (forall k, (k < m)%nat -> veqn n (mv n H (e k)) (fun i => RtoC (E k) * e k i)) ->
  veqn n b (fun i => csum m (fun k => c k * e k i)) ->
  green sign n H GE (frequency omega eta) a b (csum m (fun k => c k * inner n a (e k) / shifted_value sign (E k) GE (frequency omega eta))).
Proof.
  intros He HE Hb. set (z := frequency omega eta).
  exists (fun i => csum m (fun k => (c k / shifted_value sign (E k) GE z) * e k i)). split.
  - intros i Hi. rewrite shifted_csum, Hb by assumption. apply csum_ext. intros k Hk.
    rewrite (shifted_eigen sign n H GE z (E k) (e k) (HE k Hk) i Hi). field. now apply shifted_value_neq0.
  - rewrite (inner_csum_r n a m (fun k i => (c k / shifted_value sign (E k) GE z) * e k i)). apply csum_ext. intros k Hk.
    transitivity (c k / shifted_value sign (E k) GE z * inner n a (e k)).
    + field. now apply shifted_value_neq0.
    + symmetry. apply (inner_scale_r n a (c k / shifted_value sign (E k) GE z) (e k)).
Qed.
(** <b|(z -/+ (H-GE))^-1|b> has imaginary part of the sign opposite to eta. *)
Lemma green_im sign n H GE omega eta b g : hermitian n H -> green sign n H GE (frequency omega eta) b b g ->
  exists x, veqn n (shifted sign n H GE (frequency omega eta) x) b /\ Im g = (- eta * norm2 n x)%R.
Proof.
  intros HH (x & Hx & ->). exists x. split; [exact Hx|].
  assert (E := shifted_inner sign n H GE omega eta x HH).
  rewrite (inner_ext n x x _ b (fun i _ => eq_refl) Hx) in E.
  rewrite <- inner_conj. unfold Im, Cj in *. cbn. rewrite E. ring.
Qed.

Section GF.
  Context {K : Type}.
  Variable keqb : K -> K -> bool.
  Hypothesis keqb_eq : forall a b, keqb a b = true <-> a = b.
  Variable dagger : K -> K.

  Lemma lookup_in {V} key (d : list (K * V)) v : lookup keqb key d = Ok v -> In (key, v) d.
  Proof.
    induction d as [|[k w] d IH]; [discriminate|]. cbn. destruct (keqb k key) eqn:E; intros H.
    - injection H as <-. apply keqb_eq in E. subst. now left.
    - right. now apply IH.
  Qed.
  Lemma lookup_ok {V} key (d : list (K * V)) v : NoDup (map fst d) -> In (key, v) d -> lookup keqb key d = Ok v.
  Proof.
    induction d as [|[k w] d IH]; [intros _ []|]. cbn. intros N H. inversion N as [|? ? N1 N2]; subst.
    destruct (keqb k key) eqn:E.
    - apply keqb_eq in E. subst. destruct H as [H|H]; [now injection H as <-|]. elim N1. now apply (in_map fst) in H.
    - destruct H as [H|H]; [injection H as <- <-|now apply IH]. assert (F := proj2 (keqb_eq k k) eq_refl). congruence.
  Qed.
  Lemma lookup_err {V} key (d : list (K * V)) e : lookup keqb key d = Err e -> e = KeyError.
  Proof. induction d as [|[k w] d IH]; cbn; [congruence|]. destruct (keqb k key); [discriminate|assumption]. Qed.

  Section Exact.
    Variables (n : nat) (GE : R) (HM : cmat) (es : list (K * vec)) (eta : R).
    Let Single := GFSolverExactSingle keqb dagger n GE HM es eta.
    Lemma exact_single_iff omega A B sign g : Single omega A B sign = Ok g <->
      exists a b, lookup keqb B es = Ok b /\ lookup keqb (dagger A) es = Ok a /\
        invertible sign n HM GE (frequency omega eta) /\ green sign n HM GE (frequency omega eta) a b g.
    Proof.
      unfold Single, GFSolverExactSingle. rewrite gf_z_eq. split.
      - intros H. destruct (lookup keqb B es) as [b|]; [|discriminate]. destruct (lookup keqb (dagger A) es) as [a|]; [|discriminate].
        cbn [bind] in H. destruct (solve n _ b) as [x|] eqn:E; [|discriminate]. cbn [bind] in H. injection H as <-.
        apply solve_ok in E. destruct E as [E1 E2]. exists a, b. split; [reflexivity|]. split; [reflexivity|].
        split; [now apply nonsingular_invertible|]. exists x. split; [now apply solves_shifted|reflexivity].
      - intros (a & b & -> & -> & HI & HG). cbn [bind].
        destruct (solve_nonsingular n (gf_matrix sign (frequency omega eta) GE HM) b) as (x & E); [now apply nonsingular_invertible|].
        rewrite E. cbn [bind]. f_equal. apply (green_unique sign n HM GE (frequency omega eta) a b); [assumption| |assumption].
        exists x. split; [|reflexivity]. apply solves_shifted. now apply solve_ok in E.
    Qed.
    Lemma exact_single_singular omega A B sign a b : lookup keqb B es = Ok b -> lookup keqb (dagger A) es = Ok a ->
      ~ invertible sign n HM GE (frequency omega eta) -> Single omega A B sign = Err LinAlgError.
    Proof.
      intros E1 E2 HN. unfold Single, GFSolverExactSingle. rewrite E1, E2, gf_z_eq. cbn [bind].
      destruct (solve n _ b) as [x|e] eqn:E.
      - elim HN. apply nonsingular_invertible. now apply solve_ok in E.
      - apply solve_err in E. destruct E as [-> _]. reflexivity.
    Qed.
    Lemma exact_single_keyerror omega A B sign :
      (lookup keqb B es = Err KeyError \/ lookup keqb (dagger A) es = Err KeyError) -> Single omega A B sign = Err KeyError.
    Proof.
      unfold Single, GFSolverExactSingle. intros [E|E]; [now rewrite E|].
      destruct (lookup keqb B es) as [b|e] eqn:F; [|apply lookup_err in F; now subst]. rewrite E. reflexivity.
    Qed.

    (** The Multiple solver is the triple loop over the Single one. *)
    Lemma exact_fill junk omegas As Bs sign :
      for_enum (map (fun omega => gf_z omega eta) omegas) (fun arr ZIndex z =>
               let M := gf_matrix sign z GE HM in
               for_enum Bs (fun arr BIndex B =>
                 bind (lookup keqb B es) (fun b =>
                 bind (solve n M b) (fun ket =>
                 for_enum As (fun arr AIndex A =>
                   bind (lookup keqb (dagger A) es) (fun a =>
                   Ok (a3_set arr AIndex BIndex ZIndex (inner n a ket)))) arr))) arr)
             (MkA3 (length As) (length Bs) (length (map (fun omega => gf_z omega eta) omegas)) junk) =
      fill (P := C) (fun z : C => Ok z) (fun z B => bind (lookup keqb B es) (fun b => solve n (gf_matrix sign z GE HM) b))
        (fun (_ : C) (_ : C) ket A => bind (lookup keqb (dagger A) es) (fun a => Ok (inner n a ket)))
        (fun arr i j k v => a3_set arr k j i v) (map (fun omega => gf_z omega eta) omegas) Bs As
        (MkA3 (length As) (length Bs) (length (map (fun omega => gf_z omega eta) omegas)) junk).
    Proof.
      unfold fill, for_enum. apply for_ext. intros s i z. cbn [bind]. unfold mid_loop, for_enum. apply for_ext. intros t j B.
      destruct (lookup keqb B es) as [b|]; [|reflexivity]. cbn [bind]. destruct (solve n _ b) as [x|]; [|reflexivity]. cbn [bind].
      unfold inner_loop, for_enum. apply for_ext. intros u k A. destruct (lookup keqb (dagger A) es); reflexivity.
    Qed.
    Lemma exact_single_fill omega A B sign g :
      single (P := C) (fun z : C => Ok z) (fun z B => bind (lookup keqb B es) (fun b => solve n (gf_matrix sign z GE HM) b))
        (fun (_ : C) (_ : C) ket A => bind (lookup keqb (dagger A) es) (fun a => Ok (inner n a ket))) (gf_z omega eta) B A = Ok g
      <-> Single omega A B sign = Ok g.
    Proof.
      unfold single, Single, GFSolverExactSingle. cbn [bind].
      destruct (lookup keqb B es) as [b|]; [|split; discriminate]. cbn [bind].
      destruct (lookup keqb (dagger A) es) as [a|]; cbn [bind].
      - reflexivity.
      - destruct (solve n _ b); cbn; split; discriminate.
    Qed.
    Definition exact_array junk omegas As Bs sign := GFSolverExactMultiple keqb dagger n GE HM es eta junk omegas As Bs sign "array".
    Lemma put_law a i j k v i' j' k' : (fun (a : array3) i j k => a3_el a k j i) ((fun arr i j k v => a3_set arr k j i v) a i j k v) i' j' k' =
      if Nat.eqb i' i && Nat.eqb j' j && Nat.eqb k' k then v else (fun (a : array3) i j k => a3_el a k j i) a i' j' k'.
    Proof.
      cbv beta. rewrite a3_get_set. destruct (Nat.eqb i' i), (Nat.eqb j' j), (Nat.eqb k' k); reflexivity.
    Qed.
    Lemma exact_array_ok junk omegas As Bs sign r : exact_array junk omegas As Bs sign = Ok r ->
      exists arr, r = GArray arr /\ a3_shape arr = (length As, length Bs, length omegas) /\
        forall i j k A B omega, nth_error As i = Some A -> nth_error Bs j = Some B -> nth_error omegas k = Some omega ->
          Single omega A B sign = Ok (a3_el arr i j k).
    Proof.
      unfold exact_array, GFSolverExactMultiple. cbv zeta. rewrite exact_fill. intros H.
      destruct (fill _ _ _ _ _ _ _ _) as [arr|] eqn:E; [|discriminate]. cbn [bind finish] in H. unfold finish in H. cbn in H. injection H as <-.
      exists arr. split; [reflexivity|].
      apply (fill_ok _ _ _ _ (fun a i j k => a3_el a k j i) put_law a3_shape (fun _ _ _ _ _ => eq_refl)) in E.
      destruct E as [E1 E2]. split; [rewrite E1; unfold a3_shape; cbn; now rewrite map_length|].
      intros i j k A B omega Hi Hj Hk. apply exact_single_fill. refine (E2 k (gf_z omega eta) j B i A _ Hj Hi). now apply (map_nth_error (fun omega => gf_z omega eta)).
    Qed.
    Lemma exact_array_total junk omegas As Bs sign : As <> [] -> Bs <> [] ->
      (forall omega A B, In omega omegas -> In A As -> In B Bs -> exists g, Single omega A B sign = Ok g) ->
      exists r, exact_array junk omegas As Bs sign = Ok r.
    Proof.
      intros HA HB H. unfold exact_array, GFSolverExactMultiple. cbv zeta. rewrite exact_fill.
      match goal with |- exists r, bind (fill ?p ?m ?v ?pt ?l1 ?l2 ?l3 ?a) _ = _ => destruct (fill_total p m v pt l1 l2 l3 a HB HA) as (arr & E) end.
      - intros z B A Hz HiB HiA. apply in_map_iff in Hz. destruct Hz as (omega & <- & Ho).
        destruct (H omega A B Ho HiA HiB) as (g & G). exists g. now apply exact_single_fill.
      - rewrite E. cbn [bind]. eexists. reflexivity.
    Qed.
  End Exact.

  Section Lanczos.
    Variables (GE : R) (ms : list (K * ndarray2)) (vs : list (K * list (K * list C))) (eta : R).
    Let Single := GFSolverLanczosSingle keqb dagger GE ms vs eta.
    Definition lpre (B : K) : res (ndarray2 * list C) :=
      bind (lookup keqb B ms) (fun HM => bind (lookup keqb B vs) (fun pvB => bind (lookup keqb B pvB) (fun temp => bind (first_only temp) (fun b => Ok (HM, b))))).
    Definition lmk (sign : string) (p : ndarray2 * list C) (z : C) : res vec :=
      solve_len (nd_rows (fst p)) (gf_matrix sign z GE (nd_cmat (fst p))) (snd p).
    Definition lval (B : K) (p : ndarray2 * list C) (ket : vec) (A : K) : res C :=
      bind (lookup keqb B vs) (fun pvB => bind (lookup keqb (dagger A) pvB) (fun a => vdot_len (nd_rows (fst p)) a ket)).
    Lemma lanczos_fill junk omegas As Bs sign :
      for_enum Bs (fun arr BIndex B =>
               bind (lookup keqb B ms) (fun HM =>
               bind (lookup keqb B vs) (fun pvB =>
               bind (lookup keqb B pvB) (fun temp =>
               bind (first_only temp) (fun B_dot_GS =>
               for_enum (map (fun omega => gf_z omega eta) omegas) (fun arr ZIndex z =>
                 let M := gf_matrix sign z GE (nd_cmat HM) in
                 bind (solve_len (nd_rows HM) M B_dot_GS) (fun ket =>
                 for_enum As (fun arr AIndex A =>
                   bind (lookup keqb B vs) (fun pvB' =>
                   bind (lookup keqb (dagger A) pvB') (fun a =>
                   bind (vdot_len (nd_rows HM) a ket) (fun v =>
                   Ok (a3_set arr AIndex BIndex ZIndex v))))) arr)) arr)))))
             (MkA3 (length As) (length Bs) (length (map (fun omega => gf_z omega eta) omegas)) junk) =
      fill lpre (lmk sign) lval (fun arr i j k v => a3_set arr k i j v) Bs (map (fun omega => gf_z omega eta) omegas) As
        (MkA3 (length As) (length Bs) (length (map (fun omega => gf_z omega eta) omegas)) junk).
    Proof.
      unfold fill, for_enum. apply for_ext. intros s i B. unfold lpre.
      destruct (lookup keqb B ms) as [HM|]; [|reflexivity]. cbn [bind].
      destruct (lookup keqb B vs) as [pvB|] eqn:EV; [|reflexivity]. cbn [bind]. destruct (lookup keqb B pvB) as [temp|]; [|reflexivity]. cbn [bind].
      destruct (first_only temp) as [b|]; [|reflexivity]. cbn [bind].
      unfold mid_loop, for_enum. apply for_ext. intros t j z. unfold lmk. cbn [fst snd].
      destruct (solve_len _ _ b) as [x|]; [|reflexivity]. cbn [bind].
      unfold inner_loop, for_enum. apply for_ext. intros u k A. unfold lval. rewrite EV. cbn [bind fst].
      destruct (lookup keqb (dagger A) pvB) as [a|]; [|reflexivity]. cbn [bind]. destruct (vdot_len _ a x); reflexivity.
    Qed.
    Lemma lanczos_single_fill omega A B sign g : single lpre (lmk sign) lval B (gf_z omega eta) A = Ok g <-> Single omega A B sign = Ok g.
    Proof.
      unfold single, Single, GFSolverLanczosSingle, lpre, lmk, lval.
      destruct (lookup keqb B ms) as [HM|]; [|reflexivity]. cbn [bind].
      destruct (lookup keqb B vs) as [pvB|] eqn:EV; [|reflexivity]. cbn [bind]. destruct (lookup keqb B pvB) as [temp|]; [|reflexivity]. cbn [bind].
      destruct (first_only temp) as [b|]; [|reflexivity]. cbn [bind fst snd].
      destruct (lookup keqb (dagger A) pvB) as [a|]; cbn [bind]; [reflexivity|].
      destruct (solve_len _ _ b); cbn; split; discriminate.
    Qed.
    Definition lanczos_array junk omegas As Bs sign := GFSolverLanczosMultiple keqb dagger GE ms vs eta junk omegas As Bs sign "array".
    Lemma put_law2 a i j k v i' j' k' : (fun (a : array3) i j k => a3_el a k i j) ((fun arr i j k v => a3_set arr k i j v) a i j k v) i' j' k' =
      if Nat.eqb i' i && Nat.eqb j' j && Nat.eqb k' k then v else (fun (a : array3) i j k => a3_el a k i j) a i' j' k'.
    Proof.
      cbv beta. rewrite a3_get_set. destruct (Nat.eqb i' i), (Nat.eqb j' j), (Nat.eqb k' k); reflexivity.
    Qed.
    Lemma lanczos_array_ok junk omegas As Bs sign r : lanczos_array junk omegas As Bs sign = Ok r ->
      exists arr, r = GArray arr /\ a3_shape arr = (length As, length Bs, length omegas) /\
        forall i j k A B omega, nth_error As i = Some A -> nth_error Bs j = Some B -> nth_error omegas k = Some omega ->
          Single omega A B sign = Ok (a3_el arr i j k).
    Proof.
      unfold lanczos_array, GFSolverLanczosMultiple. cbv zeta. rewrite lanczos_fill. intros H.
      destruct (fill _ _ _ _ _ _ _ _) as [arr|] eqn:E; [|discriminate]. cbn [bind finish] in H. unfold finish in H. cbn in H. injection H as <-.
      exists arr. split; [reflexivity|].
      apply (fill_ok _ _ _ _ (fun a i j k => a3_el a k i j) put_law2 a3_shape (fun _ _ _ _ _ => eq_refl)) in E.
      destruct E as [E1 E2]. split; [rewrite E1; unfold a3_shape; cbn; now rewrite map_length|].
      intros i j k A B omega Hi Hj Hk. apply lanczos_single_fill. refine (E2 j B k (gf_z omega eta) i A Hj _ Hi). now apply (map_nth_error (fun omega => gf_z omega eta)).
    Qed.
    Lemma lanczos_array_total junk omegas As Bs sign : As <> [] -> omegas <> [] ->
      (forall omega A B, In omega omegas -> In A As -> In B Bs -> exists g, Single omega A B sign = Ok g) ->
      exists r, lanczos_array junk omegas As Bs sign = Ok r.
    Proof.
      intros HA HO H. unfold lanczos_array, GFSolverLanczosMultiple. cbv zeta. rewrite lanczos_fill.
      assert (HO' : map (fun omega => gf_z omega eta) omegas <> []) by (destruct omegas; [contradiction|discriminate]).
      match goal with |- exists r, bind (fill ?p ?m ?v ?pt ?l1 ?l2 ?l3 ?a) _ = _ => destruct (fill_total p m v pt l1 l2 l3 a HO' HA) as (arr & E) end.
      - intros B z A HiB Hz HiA. apply in_map_iff in Hz. destruct Hz as (omega & <- & Ho).
        destruct (H omega A B Ho HiA HiB) as (g & G). exists g. now apply lanczos_single_fill.
      - rewrite E. cbn [bind]. eexists. reflexivity.
    Qed.
  End Lanczos.
End GF.
