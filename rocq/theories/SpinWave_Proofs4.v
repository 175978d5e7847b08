(** One spin down on a periodic cluster: plane waves of the cell. *)
From Coq Require Import Reals String List ZArith Bool Arith Lia Lra Permutation.
From Coquelicot Require Import Complex.
From Verif Require Import Py GQ Mat CVec LinSolve Spin_Model Spin_Spec
  Lattice_Model Lattice_Spec Lattice_Proofs Lattice_Properties LatticeGen_Model LatticeGen_Spec LatticeGen_Proofs LatticeGen_Properties LatticeBonds_Spec LatticeBonds_Proofs2
  GF_Spec Free_Spec Free_Proofs7 CPT_Model CPT_Spec CPT_Proofs CPT_Proofs2 CPT_Proofs3 CPT_Proofs6 Bloch_Spec Bloch_Proofs Bloch_Proofs2 Heisenberg_Spec HeisenbergBonds_Spec HeisenbergBonds_Proofs SpinWave_Spec SpinWave_Proofs2 SpinWave_Proofs3.
Import ListNotations.
Local Open Scope nat_scope.
Local Open Scope C_scope.

(** ** The magnon matrix of a list of links that contains the opposite of each *)
Section Row.
  Variables (L : lattice) (P : R -> Prop) (O : list link).
  Hypothesis HO : all_links L P O.
  Hypothesis NS : forall l, In l O -> from l <> to l.
  Let n := length (points L).
  Lemma stays_opposite l : stays L l <-> stays L (opposite l).
  Proof.
    unfold stays. cbn [from to by_ opposite]. split; intros [A B]; (split; [congruence|]).
    - intros x Hx. apply in_map_iff in Hx as (y & <- & Hy). rewrite (B y Hy). reflexivity.
    - intros x Hx. specialize (B (- x)%Z (in_map Z.opp _ _ Hx)). lia.
  Qed.
  Lemma opposites : Permutation (map opposite O) O.
  Proof.
    destruct HO as [N I]. apply NoDup_Permutation; [|exact N|].
    - apply FinFun.Injective_map_NoDup; [|exact N]. intros a b E. rewrite <- (opposite_twice L a), E. apply (opposite_twice L).
    - intros l. rewrite in_map_iff. split.
      + intros (l' & <- & H). apply I in H as (V & S & Q). apply I. split; [now apply opposite_valid|]. split; [rewrite <- stays_opposite; exact S|]. now rewrite (len_opposite L l').
      + intros H. exists (opposite l). split; [apply (opposite_twice L)|]. apply I in H as (V & S & Q). apply I. split; [now apply opposite_valid|]. split; [rewrite <- stays_opposite; exact S|]. now rewrite (len_opposite L l).
  Qed.
  Definition leaving (i : nat) : list link := filter (fun l => Nat.eqb (from l) i) O.
  Definition number_of (f : link -> bool) : C := lcsum (fun l => bnum (f l)) O.
  Lemma number_filter {A} (f : A -> bool) l : RtoC (INR (length (filter f l))) = lcsum (fun x => bnum (f x)) l.
  Proof. induction l as [|x l IH]; [reflexivity|]. rewrite length_bnum, IH. reflexivity. Qed.
  Lemma number_opposite f : lcsum (fun l => f (opposite l)) O = lcsum f O.
  Proof. rewrite <- (lcsum_perm f _ _ opposites), lcsum_map. reflexivity. Qed.
  Lemma lcsum_add {A} (f g : A -> C) l : lcsum (fun x => f x + g x) l = lcsum f l + lcsum g l.
  Proof. induction l as [|x l IH]; cbn; [change c0 with (RtoC 0); ring|]. rewrite IH. ring. Qed.
  Lemma degree_links i : RtoC (INR (degree (map ends O) i)) = RtoC 2 * lcsum (fun l => bnum (Nat.eqb (from l) i)) O.
  Proof.
    unfold degree. rewrite number_filter, lcsum_map.
    transitivity (lcsum (fun l => bnum (Nat.eqb (from l) i) + bnum (Nat.eqb (to l) i)) O).
    - apply lcsum_ext. intros l Hl. pose proof (NS l Hl) as N. unfold touches, ends. cbn [fst snd]. destruct (Nat.eqb_spec (from l) i), (Nat.eqb_spec (to l) i); cbn; try congruence; change c0 with (RtoC 0); change c1 with (RtoC 1); ring.
    - rewrite lcsum_add. rewrite <- (number_opposite (fun l => bnum (Nat.eqb (to l) i))). cbn [opposite to]. replace (RtoC 2) with (RtoC 1 + RtoC 1) by (apply C_eq; cbn; lra). ring.
  Qed.
  Lemma multiplicity_links i j : i <> j -> RtoC (INR (multiplicity (map ends O) i j)) = RtoC 2 * lcsum (fun l => bnum (Nat.eqb (from l) i && Nat.eqb (to l) j)) O.
  Proof.
    intros Hij. unfold multiplicity. rewrite number_filter, lcsum_map.
    transitivity (lcsum (fun l => bnum (Nat.eqb (from l) i && Nat.eqb (to l) j) + bnum (Nat.eqb (to l) i && Nat.eqb (from l) j)) O).
    - apply lcsum_ext. intros l Hl. pose proof (NS l Hl) as N. unfold connects, touches, ends. cbn [fst snd].
      destruct (Nat.eqb_spec (from l) i), (Nat.eqb_spec (to l) i), (Nat.eqb_spec (from l) j), (Nat.eqb_spec (to l) j); cbn; try congruence; change c0 with (RtoC 0); change c1 with (RtoC 1); ring.
    - rewrite lcsum_add. rewrite <- (number_opposite (fun l => bnum (Nat.eqb (to l) i && Nat.eqb (from l) j))). cbn [opposite to from]. replace (RtoC 2) with (RtoC 1 + RtoC 1) by (apply C_eq; cbn; lra). ring.
  Qed.
  Lemma magnon_row J i (v : vec) : (i < n)%nat ->
    csum n (fun j => magnon_matrix J (map ends O) i j * v j) = RtoC J * lcsum (fun l => v (to l) - v i) (leaving i).
  Proof.
    intros Hi. unfold leaving. rewrite lcsum_filter.
    transitivity (csum n (fun j => delta i j * (RtoC (- (J / 2 * INR (degree (map ends O) i))) * v j) + RtoC J * lcsum (fun l => bnum (Nat.eqb (from l) i) * (delta (to l) j * v j)) O)).
    - apply csum_ext. intros j Hj. unfold magnon_matrix, delta at 1. destruct (Nat.eqb_spec i j) as [<-|N].
      + assert (Z : lcsum (fun l => bnum (Nat.eqb (from l) i) * (delta (to l) i * v i)) O = c0).
        { rewrite (lcsum_ext _ (fun _ => c0)); [clear; induction O as [|x l IH]; cbn; [reflexivity|rewrite IH; change c0 with (RtoC 0); ring]|].
          intros l Hl. pose proof (NS l Hl) as X. destruct (Nat.eqb_spec (from l) i); [|cbn; change c0 with (RtoC 0); ring]. unfold delta. destruct (Nat.eqb_spec (to l) i); [congruence|]. change c0 with (RtoC 0). ring. }
        rewrite Z. change c1 with (RtoC 1). change c0 with (RtoC 0). ring.
      + rewrite RtoC_mult, multiplicity_links by exact N.
        replace (lcsum (fun l => bnum (Nat.eqb (from l) i) * (delta (to l) j * v j)) O) with (lcsum (fun l => bnum (Nat.eqb (from l) i && Nat.eqb (to l) j)) O * v j).
        * replace (RtoC J) with (RtoC (J / 2) * RtoC 2) by (rewrite <- RtoC_mult; f_equal; lra). change c0 with (RtoC 0). ring.
        * rewrite Cmult_comm, <- lcsum_mul_l. apply lcsum_ext. intros l _. unfold delta. destruct (Nat.eqb (from l) i), (Nat.eqb (to l) j); cbn; change c1 with (RtoC 1); change c0 with (RtoC 0); ring.
    - rewrite csum_add, (csum_delta_l n (fun j => RtoC (- (J / 2 * INR (degree (map ends O) i))) * v j) i Hi), csum_mul_l.
      rewrite lcsum_csum. rewrite (lcsum_ext _ (fun l => bnum (Nat.eqb (from l) i) * v (to l)) O).
      2:{ intros l Hl. rewrite csum_mul_l. f_equal. apply csum_delta_l. destruct HO as [_ I]. apply I in Hl as ((_ & V & _) & _). exact V. }
      replace (RtoC (- (J / 2 * INR (degree (map ends O) i)))) with (- (RtoC (J / 2) * RtoC (INR (degree (map ends O) i)))) by (rewrite <- RtoC_mult, <- RtoC_opp; reflexivity).
      rewrite degree_links.
      rewrite (lcsum_ext (fun a => if Nat.eqb (from a) i then v (to a) - v i else c0) (fun a => bnum (Nat.eqb (from a) i) * v (to a) + (- v i) * bnum (Nat.eqb (from a) i)) O) by (intros l _; destruct (Nat.eqb (from l) i); cbn; change c1 with (RtoC 1); change c0 with (RtoC 0); ring).
      rewrite lcsum_add, lcsum_mul_l. replace (RtoC J) with (RtoC (J / 2) * RtoC 2) by (rewrite <- RtoC_mult; f_equal; lra). ring.
  Qed.
End Row.

Lemma cis_turn (m : Z) : (cos (2 * PI * IZR m), sin (2 * PI * IZR m)) = c1.
Proof.
  assert (P : forall q : nat, (cos (2 * PI * IZR (Z.of_nat q)), sin (2 * PI * IZR (Z.of_nat q))) = c1).
  { intros q. rewrite <- INR_IZR_INZ. replace (2 * PI * INR q)%R with (0 + 2 * INR q * PI)%R by ring. rewrite cos_period, sin_period, cos_0, sin_0. reflexivity. }
  destruct (Z.le_gt_cases 0 m) as [H|H].
  - rewrite <- (Z2Nat.id m H). apply P.
  - specialize (P (Z.to_nat (- m))). rewrite Z2Nat.id in P by lia. injection P as P1 P2. rewrite opp_IZR in P1, P2.
    replace (2 * PI * - IZR m)%R with (- (2 * PI * IZR m))%R in P1, P2 by ring. rewrite cos_neg in P1. rewrite sin_neg in P2. apply C_eq; cbn; lra.
Qed.
Lemma allowed_shift k : forall vs ms, (forall v, In v vs -> exists m : Z, vdot k v = (2 * PI * IZR m)%R) -> cexp k (shift ms vs) = c1.
Proof.
  induction vs as [|v vs IH]; intros ms H.
  - unfold shift. destruct ms; cbn; unfold cexp; replace (vdot k v0) with 0%R by (destruct k as [[? ?] ?]; cbn; ring); rewrite cos_0, sin_0; reflexivity.
  - destruct ms as [|m ms]; [unfold shift; cbn; unfold cexp; replace (vdot k v0) with 0%R by (destruct k as [[? ?] ?]; cbn; ring); rewrite cos_0, sin_0; reflexivity|].
    change (shift (m :: ms) (v :: vs)) with (Lattice_Model.vadd (Lattice_Model.vscale (IZR m) v) (shift ms vs)). rewrite cexp_add, IH by (intros; apply H; now right).
    destruct (H v (or_introl eq_refl)) as (q & Hq). unfold cexp. replace (vdot k (Lattice_Model.vscale (IZR m) v)) with (2 * PI * IZR (m * q))%R.
    + rewrite cis_turn. change c1 with (RtoC 1). ring.
    + rewrite mult_IZR. transitivity (IZR m * vdot k v)%R; [rewrite Hq; ring|]. destruct k as [[? ?] ?], v as [[? ?] ?]. cbn. ring.
Qed.

(** ** Plane waves *)
Section Waves.
  Variables (c : cell) (nums : list Z) (L : lattice).
  Hypothesis Hnums : Forall (fun n => (1 <= n)%Z) nums.
  Hypothesis Hlen : length nums = length (cvectors c).
  Hypothesis Lp : points L = cluster c nums.
  Hypothesis Lv : vectors L = scale_rows nums (cvectors c).
  Let num := length (points L).
  Let nc := length (cpoints c).
  Variables (P : R -> Prop) (O : list link) (D : nat -> list (nat * list Z)).
  Hypothesis HO : all_links L P O.
  Hypothesis NS : forall l, In l O -> from l <> to l.
  Hypothesis HD : forall a, (a < nc)%nat -> neighbours c P a (D a).
  Variable (k : point).
  Hypothesis Hk : allowed L k.
  Definition wave (b i : nat) : C := if Nat.eqb (ty c i) b then cexp k (shift (cellnum c nums i) (cvectors c)) else c0.
  Let cp (i : nat) : C := cexp k (shift (cellnum c nums i) (cvectors c)).

  Lemma leaving_perm i : (i < num)%nat -> Permutation (map (rel c nums i) (leaving O i)) (D (ty c i)).
  Proof.
    intros Hi. destruct (placed c nums L Hnums Hlen Lp i Hi) as (Hti & _). destruct (HD (ty c i) Hti) as [ND ID]. destruct HO as [NO IO].
    assert (IL : forall l, In l (leaving O i) <-> valid L l /\ from l = i /\ (to l, by_ l) <> (i, still L) /\ P (len L l)).
    { intros l. unfold leaving. rewrite filter_In, Nat.eqb_eq, IO. split.
      - intros ((V & S & Q) & F). repeat (split; [assumption|]). split; [|exact Q]. intros X. apply S. injection X as X1 X2. split; [congruence|]. rewrite X2. intros x Hx. now apply repeat_spec in Hx.
      - intros (V & F & N & Q). split; [|exact F]. split; [exact V|]. split; [|exact Q]. intros [X1 X2]. apply N. f_equal; [congruence|].
        destruct (still_or_crossing L (by_ l) (proj2 (proj2 V))) as [E|(x & Hx & Nx)]; [exact E|]. now elim (Nx (X2 x Hx)). }
    assert (NL : NoDup (leaving O i)) by (apply NoDup_filter; exact NO).
    apply NoDup_Permutation; [|exact ND|].
    - assert (X : forall l, (forall x, In x l -> In x (leaving O i)) -> NoDup l -> NoDup (map (rel c nums i) l)).
      { induction l as [|x l IH]; intros HI N; [constructor|]. inversion N; subst. cbn. constructor; [|apply IH; [intros; apply HI; now right|assumption]].
        intros Y. apply in_map_iff in Y as (y & E & Hy). pose proof (proj1 (IL x) (HI x (or_introl eq_refl))) as (Vx & Fx & _). pose proof (proj1 (IL y) (HI y (or_intror Hy))) as (Vy & Fy & _).
        apply (rel_inj c nums L Hnums Hlen Lp Lv) in E; auto. congruence. }
      apply X; auto.
    - intros [b' M]. rewrite in_map_iff, ID. split.
      + intros (l & E & Hl). apply IL in Hl as (V & F & N & HP). destruct (rel_moved c nums L Hnums Hlen Lp Lv i l Hi V F N) as [S1 S2]. rewrite (len_rel c nums L Hnums Hlen Lp Lv i l V F) in HP. rewrite E in *. cbn [fst snd] in *. auto.
      + intros (S & N & HP). destruct (rel_surj c nums L Hnums Hlen Lp Lv i b' M Hi S N) as (l & V & F & N' & E). exists l. split; [exact E|]. apply IL. repeat (split; [assumption|]). rewrite (len_rel c nums L Hnums Hlen Lp Lv i l V F), E. exact HP.
  Qed.
  Let magnon_cell (J : R) : cmat := spin_wave_matrix c D J k.
  Lemma magnon_wave J b i : (b < nc)%nat -> (i < num)%nat ->
    csum num (fun j => magnon_matrix J (map ends O) i j * wave b j) = magnon_cell J (ty c i) b * cp i.
  Proof.
    intros Hb Hi. unfold num. rewrite (magnon_row L P O HO NS J i (wave b) Hi).
    unfold magnon_cell, spin_wave_matrix. transitivity (RtoC J * (lcsum (fun l => wave b (to l)) (leaving O i) - RtoC (INR (length (D (ty c i)))) * wave b i)).
    - f_equal. rewrite <- (Permutation_length (leaving_perm i Hi)), map_length. induction (leaving O i) as [|x l IH]; [cbn; change c0 with (RtoC 0); ring|]. cbn [lcsum length]. rewrite IH, S_INR, RtoC_plus. ring.
    - replace (wave b i) with (delta (ty c i) b * cp i) by (unfold wave, delta, cp; destruct (Nat.eqb (ty c i) b); change c1 with (RtoC 1); change c0 with (RtoC 0); ring).
      replace (lcsum (fun l => wave b (to l)) (leaving O i)) with (cp i * total (fun e => plane k (shift (snd e) (cvectors c))) (filter (fun e => Nat.eqb (fst e) b) (D (ty c i)))).
      + unfold bloch_matrix. rewrite RtoC_mult. ring.
      + rewrite <- lcsum_total, lcsum_filter, <- (lcsum_perm _ _ _ (leaving_perm i Hi)), lcsum_map, <- lcsum_mul_l. apply lcsum_ext. intros l Hl. unfold leaving in Hl. apply filter_In in Hl as [Hl F]. apply Nat.eqb_eq in F. destruct HO as [_ IO]. apply IO in Hl as (V & _).
        cbn [rel fst snd]. unfold wave. destruct (Nat.eqb (ty c (to l)) b); [|change c0 with (RtoC 0); ring].
        pose proof (placed_length c nums L Hnums Hlen Lp i Hi) as M3. pose proof (placed_length c nums L Hnums Hlen Lp _ (proj1 (proj2 V))) as M4. pose proof (proj2 (proj2 V)) as M5. rewrite (vectors_length c nums L Hlen Lv) in M5.
        destruct (link_end c nums L Hnums Hlen Lp Lv l V) as [_ M1].
        change plane with cexp. unfold cp, zsub. rewrite <- shift_sub by congruence. rewrite <- cexp_add. rewrite shift_muladd, <- Lv by congruence.
        replace (cexp k (shift (cellnum c nums (to l)) (cvectors c))) with (cexp k (Lattice_Model.vadd (shift (cellnum c nums (to l)) (cvectors c)) (shift (by_ l) (vectors L)))).
        * f_equal. generalize (shift (cellnum c nums i) (cvectors c)), (shift (by_ l) (vectors L)), (shift (cellnum c nums (to l)) (cvectors c)). clear. vring.
        * rewrite cexp_add, (allowed_shift k (vectors L) (by_ l) Hk). change c1 with (RtoC 1). ring.
  Qed.
  Lemma resolvent_wave J z G X : resolvent num (magnon_matrix J (map ends O)) z G -> resolvent nc (magnon_cell J) z X ->
    forall b i, (b < nc)%nat -> (i < num)%nat -> csum num (fun j => G i j * wave b j) = X (ty c i) b * cp i.
  Proof.
    intros HG HX b i Hb Hi. set (h := magnon_matrix J (map ends O)) in *. set (y := fun i => X (ty c i) b * cp i).
    assert (Ty : forall i, (i < num)%nat -> (ty c i < nc)%nat) by (intros j Hj; now apply (placed c nums L Hnums Hlen Lp j Hj)).
    assert (Y : forall i, (i < num)%nat -> y i = csum nc (fun a => wave a i * X a b)).
    { intros j Hj. unfold y. rewrite (csum_single nc _ (ty c j) (Ty j Hj)); [unfold wave; rewrite Nat.eqb_refl; fold (cp j); ring|]. intros a _ Ha. unfold wave. destruct (Nat.eqb_spec (ty c j) a); [congruence|]. change c0 with (RtoC 0). ring. }
    assert (E : forall l, (l < num)%nat -> csum num (fun j => (z * delta l j - h l j) * y j) = wave b l).
    { intros l Hl. rewrite (csum_ext num _ (fun j => z * (delta l j * y j) - csum nc (fun a => h l j * wave a j * X a b))).
      2:{ intros j Hj. rewrite <- (csum_ext nc (fun a => h l j * (wave a j * X a b))) by (intros; ring). rewrite csum_mul_l, <- (Y j Hj). ring. }
      rewrite csum_sub, csum_mul_l, (csum_delta_l num y l Hl), csum_swap.
      rewrite (csum_ext nc (fun a => csum num (fun j => h l j * wave a j * X a b)) (fun a => magnon_cell J (ty c l) a * cp l * X a b)).
      2:{ intros a Ha. rewrite csum_mul_r. unfold h. now rewrite (magnon_wave J a l Ha Hl). }
      transitivity (cp l * csum nc (fun a => (z * delta (ty c l) a - magnon_cell J (ty c l) a) * X a b)).
      - rewrite (csum_ext nc (fun a => (z * delta (ty c l) a - magnon_cell J (ty c l) a) * X a b) (fun a => z * (delta (ty c l) a * X a b) - magnon_cell J (ty c l) a * X a b)) by (intros; ring).
        rewrite csum_sub, csum_mul_l, (csum_delta_l nc (fun a => X a b) (ty c l) (Ty l Hl)). rewrite (csum_ext nc (fun a => magnon_cell J (ty c l) a * cp l * X a b) (fun a => cp l * (magnon_cell J (ty c l) a * X a b))) by (intros; ring). rewrite csum_mul_l. unfold y. ring.
      - rewrite (proj1 (HX (ty c l) b (Ty l Hl) Hb)). unfold wave, delta. fold (cp l). destruct (Nat.eqb (ty c l) b); change c1 with (RtoC 1); change c0 with (RtoC 0); ring. }
    change (csum num (fun j => G i j * wave b j) = y i). rewrite <- (csum_delta_l num y i Hi).
    rewrite (csum_ext num (fun j => G i j * wave b j) (fun j => csum num (fun q => G i j * ((z * delta j q - h j q) * y q)))) by (intros j Hj; rewrite csum_mul_l; now rewrite (E j Hj)).
    rewrite csum_swap. apply csum_ext. intros q Hq. rewrite <- (proj2 (HG i q Hi Hq)), <- csum_mul_r. apply csum_ext. intros. ring.
  Qed.
  (** the spectrum at an allowed momentum is that of the cell *)
  Lemma kspace_cell J z G X : resolvent num (magnon_matrix J (map ends O)) z G -> resolvent nc (magnon_cell J) z X ->
    kspace num G (fun j => cexp k (nth j (points L) v0)) = kspace nc X (fun a => plane k (nth a (cpoints c) v0)).
  Proof.
    intros HG HX. set (ph := fun a => cexp k (nth a (cpoints c) v0)).
    assert (Ty : forall i, (i < num)%nat -> (ty c i < nc)%nat) by (intros j Hj; now apply (placed c nums L Hnums Hlen Lp j Hj)).
    assert (V : forall j, (j < num)%nat -> cexp k (nth j (points L) v0) = ph (ty c j) * cp j).
    { intros j Hj. destruct (placed c nums L Hnums Hlen Lp j Hj) as (_ & _ & -> & _). unfold site. now rewrite cexp_add. }
    assert (W : forall j, (j < num)%nat -> cexp k (nth j (points L) v0) = csum nc (fun b => ph b * wave b j)).
    { intros j Hj. rewrite (V j Hj). rewrite (csum_single nc _ (ty c j) (Ty j Hj)); [unfold wave; rewrite Nat.eqb_refl; reflexivity|]. intros a _ Ha. unfold wave. destruct (Nat.eqb_spec (ty c j) a); [congruence|]. change c0 with (RtoC 0). ring. }
    set (F := fun a => csum nc (fun b => X a b * (ph b * Cj (ph a)))).
    assert (S : csum num (fun i => csum num (fun j => G i j * (cexp k (nth j (points L) v0) * Cj (cexp k (nth i (points L) v0))))) = RtoC (INR (Z.to_nat (count nums))) * csum nc F).
    { transitivity (csum num (fun i => F (ty c i))).
      - apply csum_ext. intros i Hi. transitivity (Cj (cexp k (nth i (points L) v0)) * csum nc (fun b => ph b * csum num (fun j => G i j * wave b j))).
        + rewrite <- csum_mul_l. rewrite (csum_ext num _ (fun j => csum nc (fun b => Cj (cexp k (nth i (points L) v0)) * (ph b * (G i j * wave b j))))).
          * rewrite csum_swap. apply csum_ext. intros b _. rewrite csum_mul_l, csum_mul_l. reflexivity.
          * intros j Hj. rewrite (W j Hj). rewrite csum_mul_l. rewrite (csum_ext nc (fun b => ph b * (G i j * wave b j)) (fun b => G i j * (ph b * wave b j))) by (intros; ring). rewrite csum_mul_l. ring.
        + rewrite (V i Hi), Cj_mul. unfold F. rewrite <- csum_mul_l. apply csum_ext. intros b Hb. rewrite (resolvent_wave J z G X HG HX b i Hb Hi).
          transitivity (X (ty c i) b * (ph b * Cj (ph (ty c i))) * (cp i * Cj (cp i))); [ring|]. unfold cp. rewrite cexp_unit'. change c1 with (RtoC 1). ring.
      - rewrite (csum_ext num _ (fun i => csum nc (fun a => (if Nat.eqb (ty c i) a then c1 else c0) * F a))).
        2:{ intros i Hi. rewrite (csum_single nc _ (ty c i) (Ty i Hi)); [rewrite Nat.eqb_refl; change c1 with (RtoC 1); ring|]. intros a _ Ha. destruct (Nat.eqb_spec (ty c i) a); [congruence|]. change c0 with (RtoC 0). ring. }
        rewrite csum_swap. rewrite <- csum_mul_l. apply csum_ext. intros a Ha. rewrite csum_mul_r. f_equal. now apply (cell_count c nums L Hnums Hlen Lp a Ha). }
    unfold kspace. rewrite S. change plane with cexp.
    assert (CN : (0 < Z.to_nat (count nums))%nat) by (pose proof (count_nonneg nums Hnums); lia).
    unfold num. rewrite Lp, cluster_length by exact Hnums. fold nc. rewrite mult_INR, RtoC_mult. apply lt_INR in CN. cbn [INR] in CN.
    destruct (Nat.eq_dec nc 0) as [Z0|Z0]; [rewrite Z0; cbn [csum INR]; unfold Cdiv; change c0 with (RtoC 0); ring|].
    assert (NN : (0 < INR nc)%R) by (apply lt_0_INR; lia). change (csum nc (fun i => csum nc (fun j => X i j * (cexp k (nth j (cpoints c) v0) * Cj (cexp k (nth i (cpoints c) v0)))))) with (csum nc F). field. split; intros X0; apply RtoC_inj' in X0; lra.
  Qed.
  Lemma cell_hermitian J : hermitian nc (magnon_cell J).
  Proof.
    assert (CN : (0 < Z.to_nat (count nums))%nat) by (pose proof (count_nonneg nums Hnums); lia). apply lt_0_INR in CN.
    apply (waves_hermitian num nc (magnon_matrix J (map ends O)) _ (ty c) cp (INR (Z.to_nat (count nums)))).
    - intros i _. apply cexp_unit'.
    - intros b Hb. now apply (cell_count c nums L Hnums Hlen Lp).
    - intros b i Hb Hi. exact (magnon_wave J b i Hb Hi).
    - lra.
    - apply magnon_hermitian.
  Qed.
End Waves.
