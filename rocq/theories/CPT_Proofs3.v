(** Proofs for C59: the periodisation. *)
From Coq Require Import Reals String List Arith ZArith Lia Lra.
From Coquelicot Require Import Complex.
From Verif Require Import Py CVec LinSolve MatrixRepr_Model Lattice_Model Lanczos_Spec Lanczos_Proofs2 GF_Model GF_Spec GF_Proofs2 Free_Spec Free_Proofs7 Spectrum_Spec Spectrum_Proofs Spectrum_Proofs2
  CPT_Model CPT_Spec CPT_Proofs CPT_Proofs2.
Import ListNotations.
Local Open Scope C_scope.

Lemma v_matrix_hermitian n k VT : hermitian n (v_matrix k VT).
Proof. intros r c _ _. unfold v_matrix. rewrite Cj_add, Cj_Cj. ring. Qed.

Lemma obind_ok {A B} (x : option (res A)) (f : A -> option (res B)) y : obind x f = Some (Ok y) -> exists a, x = Some (Ok a) /\ f a = Some (Ok y).
Proof. destruct x as [[a|e]|]; cbn; intros H; try discriminate. eauto. Qed.
Lemma omap_map {A B} (f : A -> option (res B)) (g : A -> B) l ys : omap f l = Some (Ok ys) -> (forall a y, In a l -> f a = Some (Ok y) -> y = g a) ->
  ys = map g l /\ forall a, In a l -> f a = Some (Ok (g a)).
Proof.
  revert ys. induction l as [|x l IH]; cbn [omap]; intros ys H E; [injection H as <-; split; [reflexivity|intros a []]|].
  apply obind_ok in H as (y & Hy & H). apply obind_ok in H as (zs & Hz & H). injection H as <-.
  pose proof (E x y (or_introl eq_refl) Hy). subst y. destruct (IH zs Hz) as [-> P]; [intros; apply E; [now right|assumption]|].
  split; [reflexivity|]. intros a [<-|Ha]; [exact Hy|now apply P].
Qed.
Lemma list_index_lt {A} eqb (x : A) l i : list_index eqb x l = Ok i -> (i < length l)%nat.
Proof.
  revert i. induction l as [|y l IH]; cbn; intros i H; [discriminate|]. destruct (eqb y x); [injection H as <-; lia|].
  destruct (list_index eqb x l) as [j|]; [|discriminate]. injection H as <-. specialize (IH j eq_refl). lia.
Qed.
Lemma list_index_map {A B} (eqb : A -> A -> bool) (eqb' : B -> B -> bool) (f : A -> B) x y l :
  (forall z, In z l -> eqb' (f z) y = eqb z x) -> list_index eqb' y (map f l) = list_index eqb x l.
Proof.
  induction l as [|z l IH]; cbn; intros H; [reflexivity|]. rewrite (H z (or_introl eq_refl)). destruct (eqb z x); [reflexivity|].
  rewrite IH; [reflexivity|]. intros. apply H. now right.
Qed.
Lemma enumerate_in {A} (l : list A) i a : In (i, a) (enumerate l) <-> nth_error l i = Some a.
Proof.
  unfold enumerate. assert (G : forall s, In (i, a) (combine (seq s (length l)) l) <-> (s <= i)%nat /\ nth_error l (i - s) = Some a).
  { induction l as [|x l IH]; intros s; cbn [length seq combine].
    - split; [intros []|]. intros [_ H]. now destruct (i - s)%nat.
    - cbn [In]. rewrite (IH (S s)). split.
      + intros [E|[H1 H2]]; [injection E as -> ->; rewrite Nat.sub_diag; split; [lia|reflexivity]|].
        split; [lia|]. replace (i - s)%nat with (S (i - S s)) by lia. exact H2.
      + intros [H1 H2]. destruct (Nat.eq_dec i s) as [->|N]; [left; rewrite Nat.sub_diag in H2; cbn in H2; congruence|].
        right. split; [lia|]. replace (i - s)%nat with (S (i - S s)) in H2 by lia. exact H2. }
  rewrite (G 0%nat), Nat.sub_0_r. intuition lia.
Qed.
Lemma enumerate_map {A B} (l : list A) (g : nat -> B) : map (fun ia => g (fst ia)) (enumerate l) = map g (seq 0 (length l)).
Proof.
  unfold enumerate. generalize 0%nat. induction l as [|x l IH]; intros s; [reflexivity|]. cbn. now rewrite IH.
Qed.

(** *** sums over lists *)
Fixpoint lcsum {A} (f : A -> C) (l : list A) : C := match l with [] => c0 | x :: l' => f x + lcsum f l' end.
Lemma lcsum_app {A} (f : A -> C) l l' : lcsum f (l ++ l') = lcsum f l + lcsum f l'.
Proof. induction l as [|x l IH]; cbn; [unfold c0; ring|]. rewrite IH. ring. Qed.
Lemma lcsum_concat {A} (f : A -> C) ll : lcsum f (concat ll) = lcsum (lcsum f) ll.
Proof. induction ll as [|l ll IH]; cbn; [reflexivity|]. now rewrite lcsum_app, IH. Qed.
Lemma lcsum_map {A B} (f : B -> C) (g : A -> B) l : lcsum f (map g l) = lcsum (fun a => f (g a)) l.
Proof. induction l as [|x l IH]; cbn; [reflexivity|]. now rewrite IH. Qed.
Lemma lcsum_seq f n : lcsum f (seq 0 n) = csum n f.
Proof.
  assert (G : forall s, lcsum f (seq s n) = csum n (fun i => f (s + i)%nat)).
  { induction n as [|m IH]; intros s; [reflexivity|]. rewrite seq_S, lcsum_app, IH. cbn. unfold c0. ring. }
  apply (G 0%nat).
Qed.
Lemma lcsum_ext {A} (f g : A -> C) l : (forall a, In a l -> f a = g a) -> lcsum f l = lcsum g l.
Proof. induction l as [|x l IH]; cbn; intros H; [reflexivity|]. rewrite H, IH by auto. reflexivity. Qed.
Definition ft_value (k : point) (G : cmat) (r c : nat) (e : nat * nat * nat * nat * point) : C :=
  let '(i0, j0, i1, j1, dR) := e in if (Nat.eqb r i1 && Nat.eqb c j1)%bool then G i0 j0 * cexp k dR else c0.
Lemma periodise_sum k FTs G r c : periodise k FTs G r c = lcsum (ft_value k G r c) FTs.
Proof.
  unfold periodise.
  assert (H : forall T, fold_left (fun T e => let '(i0, j0, i1, j1, dR) := e in
      fun r c => if (Nat.eqb r i1 && Nat.eqb c j1)%bool then T r c + G i0 j0 * cexp k dR else T r c) FTs T r c = T r c + lcsum (ft_value k G r c) FTs).
  { induction FTs as [|[[[[i0 j0] i1] j1] dR] FTs IH]; intros T; cbn [fold_left lcsum]; [unfold c0; ring|]. rewrite IH. cbn [ft_value].
    destruct (Nat.eqb r i1 && Nat.eqb c j1)%bool; unfold c0; ring. }
  rewrite H. unfold c0. ring.
Qed.
Lemma cexp_sub k u v : cexp k (Lattice_Model.vsub u v) = cexp k u * Cj (cexp k v).
Proof.
  unfold cexp, Cj. assert (E : vdot k (Lattice_Model.vsub u v) = (vdot k u - vdot k v)%R).
  { destruct k as [[k1 k2] k3], u as [[u1 u2] u3], v as [[w1 w2] w3]. cbn. ring. }
  rewrite E, cos_minus, sin_minus. apply injective_projections; cbn; ring.
Qed.
Lemma cexp_unit k u : weight2 (cexp k u) = 1%R.
Proof. unfold weight2, cexp, Re, Im. cbn. pose proof (sin2_cos2 (vdot k u)) as H. unfold Rsqr in H. lra. Qed.

Section Fourier.
  Context {K : Type}.
  Variables (keqb : K -> K -> bool) (dagger : K -> K) (site_of : K -> point) (derive : K -> point -> K) (mk : otype -> Z -> point -> K) (same : point -> point -> bool).
  Hypothesis OP : operators keqb dagger site_of derive mk same.
  Lemma creators_in spins L c : In c (creators mk spins L) <-> exists s p, In s spins /\ In p (points L) /\ c = mk CREATION s p.
  Proof.
    unfold creators. rewrite in_flat_map. split.
    - intros (s & Hs & Hc). apply in_map_iff in Hc as (p & <- & Hp). eauto.
    - intros (s & p & Hs & Hp & ->). exists s. split; [exact Hs|]. apply in_map_iff. eauto.
  Qed.
  Lemma creators_length spins L : length (creators mk spins L) = (length spins * length (points L))%nat.
  Proof. unfold creators. induction spins as [|s l IH]; [reflexivity|]. cbn. rewrite app_length, map_length, IH. reflexivity. Qed.
  Lemma keqb_dagger s p s' p' : keqb (mk ANNIHILATION s p) (mk ANNIHILATION s' p') = keqb (mk CREATION s p) (mk CREATION s' p').
  Proof.
    destruct OP as [_ _ _ _ E]. destruct (keqb (mk CREATION s p) (mk CREATION s' p')) eqn:H.
    - apply E in H as (_ & -> & H). apply E. auto.
    - destruct (keqb (mk ANNIHILATION s p) (mk ANNIHILATION s' p')) eqn:H'; [|reflexivity]. apply E in H' as (_ & -> & H').
      assert (X : keqb (mk CREATION s' p) (mk CREATION s' p') = true) by (apply E; auto). congruence.
  Qed.
  (** The index in the cell and the cell's position, for each cluster operator. *)
  Lemma fourier_terms_ok fuel prec spins cell cluster FTs :
    fourier_terms keqb site_of derive fuel prec cell (creators mk spins cluster) (annihilators dagger mk spins cluster)
      (creators mk spins cell) (annihilators dagger mk spins cell) = Some (Ok FTs) ->
    exists (ci : nat -> nat) (Rc : nat -> point),
      (forall i s p, nth_error (creators mk spins cluster) i = Some (mk CREATION s p) ->
         exists q, decompose cell fuel prec (Site (space_dim cell) p) = Some (Ok (q, Rc i)) /\
                   list_index keqb (mk CREATION s q) (creators mk spins cell) = Ok (ci i)) /\
      let n := length (creators mk spins cluster) in
      FTs = concat (map (fun i => map (fun j => (i, j, ci i, ci j, Lattice_Model.vsub (Rc j) (Rc i))) (seq 0 n)) (seq 0 n)).
  Proof.
    intros H. unfold fourier_terms in H. apply obind_ok in H as (ll & H & E). injection E as <-.
    set (Cs := creators mk spins cluster) in *. set (As := annihilators dagger mk spins cluster) in *.
    pose (dec := fun c => match decompose cell fuel prec (Site (space_dim cell) (site_of c)) with Some (Ok pd) => pd | _ => (v0, v0) end).
    pose (cidx := fun c => match list_index keqb (derive c (fst (dec c))) (creators mk spins cell) with Ok x => x | Err _ => O end).
    pose (ci := fun i => match nth_error Cs i with Some c => cidx c | None => O end).
    pose (Rc := fun i => match nth_error Cs i with Some c => snd (dec c) | None => v0 end).
    assert (LA : length As = length Cs) by (unfold As, annihilators; apply map_length).
    assert (NA : forall j a, nth_error As j = Some a -> exists c, nth_error Cs j = Some c /\ a = dagger c).
    { intros j a Ha. unfold As, annihilators in Ha. fold Cs in Ha. rewrite nth_error_map in Ha. destruct (nth_error Cs j) as [c|]; [|discriminate]. cbn in Ha. injection Ha as <-. eauto. }
    assert (SA : forall c, In c Cs -> site_of (dagger c) = site_of c /\
       forall p, list_index keqb (derive (dagger c) p) (annihilators dagger mk spins cell) = list_index keqb (derive c p) (creators mk spins cell)).
    { intros c Hc. apply creators_in in Hc as (s & p & _ & _ & ->). destruct (op_dagger _ _ _ _ _ _ OP s p) as [D1 _]. rewrite D1.
      rewrite !(op_site _ _ _ _ _ _ OP). split; [reflexivity|]. intros q. rewrite !(op_derive _ _ _ _ _ _ OP). unfold annihilators.
      apply list_index_map. intros z Hz. apply creators_in in Hz as (s' & p' & _ & _ & ->). rewrite (proj1 (op_dagger _ _ _ _ _ _ OP s' p')). apply keqb_dagger. }
    apply (omap_map _ (fun ic => map (fun j => (fst ic, j, ci (fst ic), ci j, Lattice_Model.vsub (Rc j) (Rc (fst ic)))) (seq 0 (length Cs)))) in H.
    2:{ intros [i c] y Hin Hy. apply enumerate_in in Hin. apply obind_ok in Hy as (pd0 & D0 & Hy). apply obind_ok in Hy as (x0 & X0 & Hy).
        apply (omap_map _ (fun ja => (i, fst ja, x0, ci (fst ja), Lattice_Model.vsub (Rc (fst ja)) (snd pd0)))) in Hy.
        - destruct Hy as [-> _]. rewrite (enumerate_map As (fun j => (i, j, x0, ci j, Lattice_Model.vsub (Rc j) (snd pd0)))), LA. apply map_ext. intros j. cbn [fst].
          assert (E1 : dec c = pd0) by (unfold dec; now rewrite D0).
          assert (E2 : cidx c = x0) by (unfold cidx; rewrite E1; unfold owrap in X0; injection X0 as ->; reflexivity).
          assert (E3 : ci i = x0) by (unfold ci; now rewrite Hin). assert (E4 : Rc i = snd pd0) by (unfold Rc; now rewrite Hin, E1).
          now rewrite E3, E4.
        - intros [j a] z Hj Hz. apply enumerate_in in Hj. apply obind_ok in Hz as (pd1 & D1 & Hz). apply obind_ok in Hz as (x1 & X1 & Hz). injection Hz as <-. cbn [fst].
          destruct (NA j a Hj) as (c' & Hc' & ->). pose proof (nth_error_In _ _ Hc') as In'. destruct (SA c' In') as [S1 S2]. rewrite S1 in D1. unfold owrap in X1. injection X1 as X1. rewrite S2 in X1.
          assert (E1 : dec c' = pd1) by (unfold dec; now rewrite D1).
          assert (E2 : cidx c' = x1) by (unfold cidx; now rewrite E1, X1).
          unfold ci, Rc. rewrite Hc', E1, E2. reflexivity. }
    destruct H as [-> P]. exists ci, Rc. split.
    - intros i s p Hi. specialize (P (i, mk CREATION s p)). cbv beta iota in P. specialize (P (proj2 (enumerate_in Cs i _) Hi)).
      apply obind_ok in P as (pd0 & D0 & P). apply obind_ok in P as (x0 & X0 & _). unfold owrap in X0. injection X0 as X0. rewrite (op_site _ _ _ _ _ _ OP) in D0. rewrite (op_derive _ _ _ _ _ _ OP) in X0.
      assert (E1 : dec (mk CREATION s p) = pd0) by (unfold dec; now rewrite (op_site _ _ _ _ _ _ OP), D0).
      exists (fst pd0). split.
      + rewrite D0. do 2 f_equal. unfold Rc. rewrite Hi, E1. now destruct pd0.
      + rewrite X0. f_equal. unfold ci. rewrite Hi. unfold cidx. rewrite E1, (op_derive _ _ _ _ _ _ OP), X0. reflexivity.
    - cbv zeta. f_equal. apply (enumerate_map Cs (fun i => map (fun j => (i, j, ci i, ci j, Lattice_Model.vsub (Rc j) (Rc i))) (seq 0 (length Cs)))).
  Qed.
End Fourier.

(** The trace of the periodised function is a sum of forms. *)
Definition cell_wave (k : point) (ci : nat -> nat) (Rc : nat -> point) (a i : nat) : C := if Nat.eqb (ci i) a then cexp k (Rc i) else c0.
Lemma trace_periodise k n m ci Rc G :
  trace m (periodise k (concat (map (fun i => map (fun j => (i, j, ci i, ci j, Lattice_Model.vsub (Rc j) (Rc i))) (seq 0 n)) (seq 0 n))) G) =
  csum m (fun a => form n G (cell_wave k ci Rc a)).
Proof.
  unfold trace. apply csum_ext. intros a Ha. rewrite periodise_sum, lcsum_concat, lcsum_map, lcsum_seq. unfold form. apply csum_ext. intros i Hi.
  rewrite lcsum_map, lcsum_seq. apply csum_ext. intros j Hj. cbn [ft_value]. unfold cell_wave. rewrite (Nat.eqb_sym a (ci i)), (Nat.eqb_sym a (ci j)).
  destruct (Nat.eqb (ci i) a), (Nat.eqb (ci j) a); cbn [andb]; rewrite ?Cj_0; [rewrite cexp_sub; ring|unfold c0; ring..].
Qed.
Lemma cell_weight k n m ci Rc : (forall i, (i < n)%nat -> (ci i < m)%nat) ->
  rsum m (fun a => rsum n (fun i => weight2 (cell_wave k ci Rc a i))) = INR n.
Proof.
  intros B. rewrite rsum_swap. transitivity (rsum n (fun _ => 1%R)).
  - apply rsum_ext. intros i Hi. apply RtoC_inj. rewrite <- csum_R. rewrite (csum_single m _ (ci i) (B i Hi)).
    + unfold cell_wave. rewrite Nat.eqb_refl. now rewrite cexp_unit.
    + intros a _ Hne. unfold cell_wave. destruct (Nat.eqb_spec (ci i) a); [congruence|]. unfold weight2, c0, Re, Im, RtoC. cbn. f_equal. ring.
  - rewrite rsum_const. ring.
Qed.
