(** Proofs for C61, part 5: the dictionaries of the program and the sums over them. *)
From Coq Require Import Reals String List ZArith Bool Arith Lia Lra Permutation.
From Coquelicot Require Import Complex.
From Verif Require Import Py GQ Mat CVec LinSolve State_Model MatrixRepr_Model Particle_Model Spin_Model Spin_Spec Spin_Proofs2
  Lattice_Model Lattice_Spec Lattice_Proofs Lattice_Properties Lanczos_Model GF_Model GF_Spec GF_Proofs GF_Proofs2 GF_Proofs3
  Free_Spec Free_Proofs2 CPT_Model Spectrum_Spec Heisenberg_Model Heisenberg_Spec.
Import ListNotations.
Local Open Scope nat_scope.

Section Dict.
  Context {K : Type}.
  Variable keqb : K -> K -> bool.
  Hypothesis keqb_eq : forall a b, keqb a b = true <-> a = b.
  Lemma keqb_false a b : a <> b -> keqb a b = false.
  Proof. intros H. destruct (keqb a b) eqn:E; [|reflexivity]. apply keqb_eq in E. contradiction. Qed.

  Lemma dict_set_new {V} (key : K * K) (v : V) d : ~ In key (map fst d) -> dict_set keqb key v d = (d ++ [(key, v)])%list.
  Proof.
    induction d as [|[[a b] w] d IH]; intros H; [reflexivity|]. cbn [dict_set app map fst snd] in *. destruct key as [x y]. cbn [fst snd].
    destruct (keqb a x && keqb b y) eqn:E; [|rewrite IH; [reflexivity|intros X; apply H; now right]].
    exfalso. apply H. left. apply andb_true_iff in E as [E1 E2]. apply keqb_eq in E1, E2. congruence.
  Qed.
  Lemma row_loop {V} (row : nat -> V) A Bs : NoDup Bs -> forall i d, (forall B, In B Bs -> ~ In (A, B) (map fst d)) ->
    for_from i Bs (fun d j B => Ok (dict_set keqb (A, B) (row j) d)) d = Ok (d ++ map (fun jB => ((A, snd jB), row (fst jB))) (combine (seq i (length Bs)) Bs))%list.
  Proof.
    induction 1 as [|B Bs NB ND IH]; intros i d H; cbn [for_from length seq combine map]; [now rewrite app_nil_r|].
    rewrite dict_set_new by (apply H; now left). cbn [bind]. rewrite IH.
    - rewrite <- app_assoc. reflexivity.
    - intros B' HB'. rewrite map_app, in_app_iff. cbn. intros [X|[X|[]]]; [apply (H B'); auto; now right|]. injection X as <-. contradiction.
  Qed.
  Lemma table_loop {V} (row : nat -> nat -> V) As Bs : NoDup As -> NoDup Bs -> forall i d, (forall A B, In A As -> ~ In (A, B) (map fst d)) ->
    for_from i As (fun d i A => for_enum Bs (fun d j B => Ok (dict_set keqb (A, B) (row i j) d)) d) d =
    Ok (d ++ flat_map (fun iA => map (fun jB => ((snd iA, snd jB), row (fst iA) (fst jB))) (combine (seq 0 (length Bs)) Bs)) (combine (seq i (length As)) As))%list.
  Proof.
    intros NA NB. induction NA as [|A As NI NA IH]; intros i d H; cbn [for_from length seq combine flat_map fst snd]; [now rewrite app_nil_r|].
    unfold for_enum at 1. rewrite (row_loop (row i) A Bs NB) by (intros B HB; apply H; now left). cbn [bind]. rewrite IH.
    - rewrite <- app_assoc. reflexivity.
    - intros A' B' HA'. rewrite map_app, in_app_iff, map_map. cbn [fst snd]. intros [X|X]; [apply (H A' B'); auto; now right|].
      apply in_map_iff in X as ([j B] & X & _). injection X as <- <-. contradiction.
  Qed.
End Dict.

Lemma fold_add_acc {A} (f : A -> C) l : forall acc, fold_left (fun a x => (a + f x)%C) l acc = (acc + fold_left (fun a x => (a + f x)%C) l c0)%C.
Proof.
  induction l as [|x l IH]; intros acc; cbn [fold_left]; [unfold c0; ring|]. rewrite IH, (IH (c0 + f x)%C). unfold c0. ring.
Qed.
Lemma fold_add_app {A} (f : A -> C) l l' : fold_left (fun a x => (a + f x)%C) (l ++ l') c0 = (fold_left (fun a x => (a + f x)%C) l c0 + fold_left (fun a x => (a + f x)%C) l' c0)%C.
Proof. rewrite fold_left_app. apply fold_add_acc. Qed.
Lemma fold_add_flat {A B} (f : B -> C) (g : A -> list B) l : fold_left (fun a x => (a + f x)%C) (flat_map g l) c0 = fold_left (fun a x => (a + fold_left (fun a y => (a + f y)%C) (g x) c0)%C) l c0.
Proof.
  induction l as [|x l IH]; cbn [flat_map fold_left]; [reflexivity|]. rewrite fold_add_app, (fold_add_acc (fun x => fold_left (fun a y => (a + f y)%C) (g x) c0)), IH. unfold c0. ring.
Qed.
Lemma fold_add_map {A B} (f : B -> C) (g : A -> B) l : forall acc, fold_left (fun a x => (a + f x)%C) (map g l) acc = fold_left (fun a x => (a + f (g x))%C) l acc.
Proof. induction l as [|x l IH]; intros acc; cbn [map fold_left]; [reflexivity|apply IH]. Qed.
Lemma csum_shift n f : csum (S n) f = (f 0%nat + csum n (fun i => f (S i)))%C.
Proof. induction n as [|n IH]; [cbn; ring|]. cbn [csum] in *. rewrite IH. ring. Qed.
Lemma fold_add_enum {A} (f : nat * A -> C) (d : A) l : fold_left (fun a x => (a + f x)%C) (combine (seq 0 (length l)) l) c0 = csum (length l) (fun i => f (i, nth i l d)).
Proof.
  enough (G : forall i, fold_left (fun a x => (a + f x)%C) (combine (seq i (length l)) l) c0 = csum (length l) (fun j => f (i + j, nth j l d))) by apply (G 0).
  induction l as [|x l IH]; intros i; [reflexivity|]. cbn [length seq combine fold_left]. rewrite fold_add_acc, IH, csum_shift. cbn [nth]. rewrite Nat.add_0_r.
  rewrite (csum_ext (length l) (fun j => f (i + S j, nth j l d)) (fun j => f (S i + j, nth j l d))); [unfold c0; ring|]. intros j _. now rewrite Nat.add_succ_r.
Qed.

Section Table.
  Context {K : Type}.
  Variables (keqb : K -> K -> bool) (site_of : K -> point) (mk : string -> point -> K).
  Hypothesis keqb_eq : forall a b, keqb a b = true <-> a = b.
  Hypothesis site_mk : forall o p, site_of (mk o p) = p.
  Lemma mk_nodup o pts : NoDup pts -> NoDup (map (mk o) pts).
  Proof. intros H. apply FinFun.Injective_map_NoDup; [|exact H]. intros p q E. rewrite <- (site_mk o p), <- (site_mk o q). congruence. Qed.
  Lemma cexp_diff k p q : cexp k (vsub q p) = (cexp k q * Cj (cexp k p))%C.
  Proof.
    unfold cexp. replace (vdot k (vsub q p)) with (vdot k q - vdot k p)%R by (destruct k as [[? ?] ?], p as [[? ?] ?], q as [[? ?] ?]; cbn; ring).
    rewrite cos_minus, sin_minus. unfold Cj, Cconj, Cmult. cbn. apply injective_projections; cbn; ring.
  Qed.
  Lemma kfold_eq w k (l : list ((K * K) * list C)) acc :
    fold_left (fun acc (e : (K * K) * list C) => let '((A, B), values) := e in (acc + nth w values c0 * cexp k (vsub (site_of B) (site_of A)))%C) l acc =
    fold_left (fun acc e => (acc + nth w (snd e) c0 * cexp k (vsub (site_of (snd (fst e))) (site_of (fst (fst e)))))%C) l acc.
  Proof. revert acc. induction l as [|[[A B] values] l IH]; intros acc; cbn [fold_left fst snd]; [reflexivity|apply IH]. Qed.
  (** the sum the program takes over its dictionary *)
  Lemma kspace_gfs_ok pts omegas arr d (G : R -> cmat) : NoDup pts -> pts <> [] ->
    a3_2 arr = length omegas ->
    (forall i j w omega, (i < length pts)%nat -> (j < length pts)%nat -> nth_error omegas w = Some omega -> a3_el arr i j w = G omega i j) ->
    to_dict keqb (map (mk "p") pts) (map (mk "m") pts) arr = Ok d ->
    forall w omega k, nth_error omegas w = Some omega ->
    kspace_gfs site_of d (Z.of_nat (length pts)) w k = kspace (length pts) (G omega) (fun j => cexp k (nth j pts v0)).
  Proof.
    intros ND NE Sh HG E w omega k Hw. unfold to_dict in E. unfold for_enum at 1 in E. rewrite (table_loop keqb keqb_eq (a3_row arr)) in E; [|now apply mk_nodup..|intros A B _ []].
    cbn [app] in E. injection E as <-. unfold kspace_gfs, kspace. rewrite <- INR_IZR_INZ. f_equal.
    rewrite kfold_eq.
    rewrite fold_add_flat, (fold_add_enum _ (mk "p" v0)), map_length. apply csum_ext. intros i Hi. rewrite fold_add_map, (fold_add_enum _ (mk "m" v0)), map_length. apply csum_ext. intros j Hj.
    cbn [fst snd]. rewrite !map_nth, !site_mk, cexp_diff. f_equal. unfold a3_row. rewrite Sh.
    assert (Hw' : (w < length omegas)%nat) by (apply nth_error_Some; congruence).
    rewrite (nth_indep _ c0 (a3_el arr i j 0)) by (now rewrite map_length, seq_length). rewrite map_nth, seq_nth by exact Hw'. now apply HG.
  Qed.

  Lemma es_set_new {V} (key : K) (v : V) d : ~ In key (map fst d) -> es_set keqb key v d = (d ++ [(key, v)])%list.
  Proof.
    induction d as [|[a w] d IH]; intros H; [reflexivity|]. cbn [es_set app map fst snd] in *. destruct (keqb a key) eqn:E; [apply keqb_eq in E; exfalso; apply H; now left|].
    rewrite IH; [reflexivity|intros X; apply H; now right].
  Qed.
  Lemma lookup_nth_key {V} (keys : list K) (vals : list V) i key v : NoDup keys -> nth_error keys i = Some key -> nth_error vals i = Some v ->
    lookup keqb key (combine keys vals) = Ok v.
  Proof.
    revert vals i. induction keys as [|k keys IH]; intros [|w vals] [|i] ND E1 E2; try discriminate; cbn in *.
    - injection E1 as <-. injection E2 as <-. now rewrite (proj2 (keqb_eq k k) eq_refl).
    - inversion ND; subst. rewrite (keqb_false keqb keqb_eq) by (intros ->; apply nth_error_In in E1; contradiction). now apply (IH vals i).
  Qed.

  Lemma excited_ok nearest prec0 prec fuel L gs : finds_nearest nearest -> lattice_of prec0 L -> NoDup (points L) -> forall pts done,
    points L = (done ++ pts)%list -> forall As Bs es, map fst es = map (mk "m") done ->
    exists vals, length vals = length pts /\
      excited_loop keqb mk L nearest fuel prec (Z.of_nat (length (points L))) gs pts (As, Bs, es) =
        Some (Ok (As ++ map (mk "p") pts, Bs ++ map (mk "m") pts, es ++ combine (map (mk "m") pts) vals)%list) /\
      forall i v, nth_error vals i = Some v -> veqn (2 ^ length (points L)) v (mv (2 ^ length (points L)) (cm (spin_at (length (points L)) (length done + i) SM)) gs).
  Proof.
    intros Hn HL ND. induction pts as [|p pts IH]; intros done EP As Bs es HK.
    - exists []. split; [reflexivity|]. cbn [excited_loop map combine]. rewrite !app_nil_r. split; [reflexivity|]. intros [|i] v X; discriminate.
    - cbn [excited_loop].
      assert (Hi : (length done < length (points L))%nat) by (rewrite EP, app_length; cbn; lia).
      assert (Np : nth (length done) (points L) v0 = p) by (rewrite EP, app_nth2 by lia; now rewrite Nat.sub_diag).
      assert (EI : getIndex L nearest fuel prec (Site (space_dim L) p) false = Some (Ok (Z.of_nat (length done)))).
      { destruct (C32_inverse nearest prec0 prec fuel L Hn HL) as [H1 _]. destruct (H1 (Z.of_nat (length done)) ltac:(lia)) as (q & G & _ & E).
        unfold getSite in G. destruct (Z.leb_spec 0 (Z.of_nat (length done))); [|lia]. destruct (Z.ltb_spec (Z.of_nat (length done)) (Z.of_nat (length (points L)))); [|lia].
        cbn in G. rewrite Nat2Z.id, Np in G. injection G as <-. exact E. }
      rewrite EI. cbn [obind]. destruct (single_ok (length (points L)) (length done) SM Hi) as (m & Em & R1 & R2 & Rm). cbn [otype_name] in Em. rewrite Em. cbn [owrap obind].
      rewrite es_set_new.
      2:{ rewrite HK. intros X. apply in_map_iff in X as (q & Eq & Hq). assert (q = p) by (rewrite <- (site_mk "m" q), <- (site_mk "m" p); now f_equal). subst q.
          rewrite EP in ND. apply NoDup_remove_2 in ND. apply ND. apply in_app_iff. now left. }
      destruct (IH (done ++ [p])%list) with (As := (As ++ [mk "p" p])%list) (Bs := (Bs ++ [mk "m" p])%list) (es := (es ++ [(mk "m" p, mv (s_cols m) (cm (s_ent m)) gs)])%list) as (vals & Lv & E & Hv).
      + rewrite <- app_assoc. exact EP.
      + rewrite !map_app, HK. reflexivity.
      + exists (mv (s_cols m) (cm (s_ent m)) gs :: vals). split; [cbn; now rewrite Lv|]. split.
        * unfold owrap. cbn [obind]. rewrite E. cbn [map combine]. rewrite <- !app_assoc. reflexivity.
        * intros [|i] v X; cbn in X.
          -- injection X as <-. rewrite Nat.add_0_r, R2. intros a Ha. apply mv_ext_mat. intros b Hb. unfold cm. now rewrite (Rm a b Ha Hb).
          -- specialize (Hv i v X). rewrite app_length in Hv. cbn in Hv. replace (length done + S i) with (length done + 1 + i) by lia. exact Hv.
  Qed.
End Table.
