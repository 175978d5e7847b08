(** The Schwinger-fermion representation: the code's terms. *)
From Coq Require Import String List ZArith NArith Bool Arith Lia.
From Verif Require Import Py GQ Mat IndexTable_Model State_Model State_Spec State_Proofs MatrixRepr_Model Fock_Spec Fock_Proofs
  MatrixRepr_Proofs MatrixRepr_Proofs2 Particle_Model Particle_Spec Particle_Proofs Particle_Proofs2 Particle_Proofs3
  Spin_Model Spin_Spec Spin_Proofs Spin_Proofs2 Spin_Proofs3 Spin_Proofs4.
Import ListNotations.
Local Open Scope nat_scope.

Definition spin_no (down : bool) : Z := if down then 0%Z else 1%Z.
Definition fst_of (s : siteid) (down : bool) : stateid := MkState s (spin_no down) 0.
Definition pt (x : spinop) (ab : bool * bool) : pterm :=
  MkTerm [MkAoc CREATION (fst_of (so_site x) (fst ab)); MkAoc ANNIHILATION (fst_of (so_site x) (snd ab))]
         (half_elem (so_otype x) (fst ab) (snd ab)) Tgeneral.
Definition nzx (x : spinop) (ab : bool * bool) : bool := negb (geqb (half_elem (so_otype x) (fst ab) (snd ab)) g0).

Lemma make_aoc_built zoom x ot down : built_spin zoom x -> (ot = 0 \/ ot = 1)%Z ->
  make_aoc zoom ot (s_coord (so_site x)) (NInt (spin_no down)) (NInt 0) =
  Ok (MkAoc (if (ot =? 0)%Z then ANNIHILATION else CREATION) (fst_of (so_site x) down)).
Proof.
  intros (o & site & E) Hot. unfold make_spin in E. destruct (otype_of_name o) as [so|]; [|discriminate].
  destruct (make_site zoom site) as [s|] eqn:Es; [|discriminate]. cbn in E. injection E as <-. cbn [so_site].
  pose proof (make_site_inv _ _ _ Es) as ->.
  assert (M : make_state zoom site (NInt (spin_no down)) (NInt 0) = Ok (fst_of s down)).
  { unfold make_state. destruct down; cbn; rewrite Es; reflexivity. }
  destruct Hot as [->| ->].
  - change 0%Z with (int_of_otype ANNIHILATION) at 1. rewrite make_aoc_split, M. reflexivity.
  - change 1%Z with (int_of_otype CREATION) at 1. rewrite make_aoc_split, M. reflexivity.
Qed.

Lemma spin_schwinger_ok zoom x : built_spin zoom x ->
  spin_schwinger zoom x = Ok (map (pt x) (filter (nzx x) ab4)).
Proof.
  intros Hb. unfold spin_schwinger.
  pose proof (make_aoc_built zoom x 1 false Hb (or_intror eq_refl)) as E1. pose proof (make_aoc_built zoom x 1 true Hb (or_intror eq_refl)) as E2.
  pose proof (make_aoc_built zoom x 0 false Hb (or_introl eq_refl)) as E3. pose proof (make_aoc_built zoom x 0 true Hb (or_introl eq_refl)) as E4.
  cbn [spin_no] in *. rewrite E1. cbn [bind]. rewrite E2. cbn [bind]. rewrite E3. cbn [bind]. rewrite E4. cbn [bind Z.eqb].
  unfold schwinger_terms, spin_matrix. cbn [fold_left bind].
  pose proof (SPIN_MATRIX_ent (so_otype x)) as M.
  rewrite (M 0 0), (M 0 1), (M 1 0), (M 1 1) by lia.
  change (bmat (half_elem (so_otype x)) 0 0) with (half_elem (so_otype x) false false).
  change (bmat (half_elem (so_otype x)) 0 1) with (half_elem (so_otype x) false true).
  change (bmat (half_elem (so_otype x)) 1 0) with (half_elem (so_otype x) true false).
  change (bmat (half_elem (so_otype x)) 1 1) with (half_elem (so_otype x) true true).
  unfold ab4, pt. cbn [filter fst snd]. unfold nzx. cbn [fst snd].
  destruct (geqb (half_elem (so_otype x) false false) g0), (geqb (half_elem (so_otype x) false true) g0),
    (geqb (half_elem (so_otype x) true false) g0), (geqb (half_elem (so_otype x) true true) g0); reflexivity.
Qed.

(** The product of the chosen terms. *)
Definition res_of (c : GQ) (ts : list pterm) : operand :=
  match ts with
  | [] => OScalar c
  | _ => OTerm (MkTerm (flat_map t_aocs ts) (fold_left (fun g t => gmul g (t_coeff t)) ts c) Tgeneral)
  end.
Lemma fold_terms zoom ts : forall l c,
  fold_left (fun (acc : res operand) sub_term => bind acc (fun a => py_mul zoom a (OTerm sub_term))) ts (Ok (OTerm (MkTerm l c Tgeneral))) =
  Ok (OTerm (MkTerm (l ++ flat_map t_aocs ts) (fold_left (fun g t => gmul g (t_coeff t)) ts c) Tgeneral)).
Proof.
  induction ts as [|t ts IH]; intros l c; cbn [fold_left flat_map].
  - now rewrite app_nil_r.
  - cbn [bind]. change (py_mul zoom (OTerm (MkTerm l c Tgeneral)) (OTerm t)) with
      (Ok (OTerm (MkTerm (l ++ t_aocs t) (gmul c (t_coeff t)) Tgeneral))). rewrite IH. now rewrite app_assoc.
Qed.
Lemma fold_res zoom ts c :
  fold_left (fun (acc : res operand) sub_term => bind acc (fun a => py_mul zoom a (OTerm sub_term))) ts (Ok (OScalar c)) = Ok (res_of c ts).
Proof.
  destruct ts as [|t ts]; [reflexivity|]. cbn [fold_left bind].
  change (py_mul zoom (OScalar c) (OTerm t)) with (Ok (OTerm (MkTerm (t_aocs t) (gmul c (t_coeff t)) Tgeneral))).
  now rewrite fold_terms.
Qed.
Lemma cartesian_map {A B} (f : A -> B) ls : cartesian (map (map f) ls) = map (map f) (cartesian ls).
Proof.
  induction ls as [|l ls IH]; [reflexivity|]. cbn [map cartesian]. rewrite IH. clear IH.
  induction l as [|x l IHl]; [reflexivity|]. cbn [map flat_map]. rewrite map_app, <- IHl. f_equal. rewrite !map_map. reflexivity.
Qed.
Definition xchoices (ops : list spinop) : list (list (spinop * (bool * bool))) :=
  cartesian (map (fun x => map (pair x) (filter (nzx x) ab4)) ops).
Definition ptp (p : spinop * (bool * bool)) : pterm := pt (fst p) (snd p).
Lemma inter_schwinger_ok zoom t : Forall (built_spin zoom) (i_ops t) ->
  inter_schwinger zoom t = Ok (map (fun ch => res_of (i_coeff t) (map ptp ch)) (xchoices (i_ops t))).
Proof.
  intros H. unfold inter_schwinger.
  assert (E : mapM (spin_schwinger zoom) (i_ops t) = Ok (map (map ptp) (map (fun x => map (pair x) (filter (nzx x) ab4)) (i_ops t)))).
  { induction H as [|x l Hx _ IH]; [reflexivity|]. cbn [mapM map]. rewrite spin_schwinger_ok, IH by auto. cbn [bind].
    f_equal. f_equal. rewrite map_map. reflexivity. }
  rewrite E. cbn [bind]. rewrite cartesian_map. fold (xchoices (i_ops t)).
  induction (xchoices (i_ops t)) as [|ch l IH]; [reflexivity|]. cbn [map mapM]. rewrite fold_res, IH. reflexivity.
Qed.

Section Code.
  Variables (sobjs fobjs : list loc) (stbl ftbl : state_table) (start : Z) (idx : nat -> bool -> nat).
  Hypothesis Hs : make_state_table sobjs 0 = Ok stbl.
  Hypothesis Hf : make_state_table fobjs start = Ok ftbl.
  Hypothesis Hidx : fermion_index sobjs ftbl idx.
  Let n := length sobjs.

  Lemma idx_inj k a k' a' : k < n -> k' < n -> idx k a = idx k' a' -> k = k' /\ a = a'.
  Proof.
    intros Hk Hk' E. destruct (Hidx k Hk) as (s & Es & Is), (Hidx k' Hk') as (s' & Es' & Is').
    specialize (Is a). specialize (Is' a'). rewrite <- E in Is'.
    destruct (table_facts _ _ _ Hf) as (T & _). pose proof (proj1 (T _ _ _ _ Is Is') eq_refl) as S.
    unfold same_st, same_key in S. cbn in S.
    destruct (site_facts _ _ _ Hs) as (T1 & _ & _ & T2 & _).
    pose proof (proj2 (T1 _ _ _ _ (T2 _ _ Es) (T2 _ _ Es'))) as T3.
    split; [|destruct a, a'; try reflexivity; destruct S as (_ & S & _); discriminate].
    apply Nat2Z.inj. apply Z.add_reg_l with 0%Z. apply T3. apply S.
  Qed.
  Lemma fermion_of x down : known stbl x -> state_index ftbl (fst_of (so_site x) down) = Ok (Z.of_nat (idx (idx_of stbl x) down)).
  Proof.
    intros Kn. destruct (known_idx sobjs stbl Hs x Kn) as [Ex Rx]. destruct (Hidx _ Rx) as (s & Es & Is).
    destruct (site_facts _ _ _ Hs) as (T1 & _ & _ & T2 & _). specialize (T2 _ _ Es). rewrite Z.add_0_l in T2.
    pose proof (proj1 (T1 _ _ _ _ T2 Ex) eq_refl) as SF.
    destruct (table_facts _ _ _ Hf) as (_ & T & _). apply (T (MkState s (spin_no down) 0)); [apply Is|].
    unfold same_st, same_key, fst_of. cbn. auto.
  Qed.
  Definition nch (ch : list (spinop * (bool * bool))) : list ((nat * sotype) * (bool * bool)) :=
    map (fun p => ((idx_of stbl (fst p), so_otype (fst p)), snd p)) ch.
  Lemma xchoices_nch ops : map nch (xchoices ops) = choices (pairs_of stbl ops).
  Proof.
    unfold xchoices, choices, nch. rewrite <- cartesian_map. f_equal. unfold pairs_of. rewrite !map_map. apply map_ext.
    intros x. rewrite !map_map. reflexivity.
  Qed.
  Lemma xchoices_in ops ch : In ch (xchoices ops) -> map fst ch = ops.
  Proof.
    unfold xchoices. revert ch. induction ops as [|x ops IH]; intros ch H.
    - destruct H as [<-|[]]. reflexivity.
    - cbn [map cartesian] in H. apply in_flat_map in H as (p & Hp & H). apply in_map_iff in H as (ch' & <- & Hc).
      apply in_map_iff in Hp as (ab & <- & _). cbn [map fst]. f_equal. now apply IH.
  Qed.
  Lemma term_of_choice ch : Forall (known stbl) (map fst ch) -> exists term,
    term_of ftbl (ops (flat_map t_aocs (map ptp ch))) = Ok term /\ word_of term = ch_word idx (nch ch).
  Proof.
    induction ch as [|[x [a b]] ch IH]; intros Kn.
    - exists []. split; reflexivity.
    - inversion Kn as [|? ? Kx Kr]; subst. cbn [fst] in *. destruct (IH Kr) as (term & E & W).
      exists ((Z.of_nat (idx (idx_of stbl x) a), CREATION) :: (Z.of_nat (idx (idx_of stbl x) b), ANNIHILATION) :: term). split.
      + cbn [map flat_map ptp pt t_aocs fst snd app]. unfold ops. cbn [map a_otype a_state]. unfold term_of. cbn [mapM fst snd].
        rewrite (fermion_of x a Kx), (fermion_of x b Kx). unfold term_of in E. unfold ops in E. rewrite E. reflexivity.
      + unfold word_of. cbn [map fst snd]. rewrite !Nat2Z.id. unfold word_of in W. rewrite W. reflexivity.
  Qed.
  Lemma coeff_of_choice ch c : fold_left (fun g t => gmul g (t_coeff t)) (map ptp ch) c = gmul c (wts (nch ch)).
  Proof.
    revert c. induction ch as [|[x [a b]] ch IH]; intros c; [cbn [map fold_left nch wts fold_right]; ring|].
    cbn [map fold_left]. rewrite IH.
    change (wts (nch ((x, (a, b)) :: ch))) with (gmul (half_elem (so_otype x) a b) (wts (nch ch))).
    change (t_coeff (ptp (x, (a, b)))) with (half_elem (so_otype x) a b). ring.
  Qed.
  Lemma choice_matrix (zoom : Z) c ch bs m : sorted_bases bs -> Forall (known stbl) (map fst ch) ->
    matrix_of ftbl bs (res_of c (map ptp ch)) m ->
    meq (length bs) (length bs) m (word_mat (gmul c (wts (nch ch))) (ch_word idx (nch ch)) bs bs).
  Proof.
    intros Hb Kn Hm.
    destruct (matrix_of_repr fobjs start ftbl bs zoom (res_of c (map ptp ch)) m Hf Hb) as (term & E & _ & _ & _ & M); auto.
    { destruct ch; [exact I|reflexivity]. }
    destruct (term_of_choice ch Kn) as (term' & E' & W).
    assert (EQ : operand_ops zoom (res_of c (map ptp ch)) = ops (flat_map t_aocs (map ptp ch))) by (destruct ch; reflexivity).
    rewrite EQ in E. assert (term' = term) by congruence. subst term'. rewrite W in M.
    replace (operand_coeff (res_of c (map ptp ch))) with (gmul c (wts (nch ch))) in M; [exact M|].
    rewrite <- coeff_of_choice. destruct ch; reflexivity.
  Qed.
  Lemma lsum_F2 {A} (P : A -> mat -> Prop) (F : A -> GQ) i j l ms : Forall2 P l ms ->
    (forall x m, In x l -> P x m -> m i j = F x) -> lsum (fun m : mat => m i j) ms = lsum F l.
  Proof.
    induction 1 as [|x m l ms H _ IH]; intros K; [reflexivity|]. cbn [lsum].
    rewrite (K x m (or_introl eq_refl) H). f_equal. apply IH. intros y m' Hy. apply K. now right.
  Qed.
  Lemma F2_map {A B C} (f : A -> B) (P : B -> C -> Prop) l ms : Forall2 P (map f l) ms <-> Forall2 (fun x m => P (f x) m) l ms.
  Proof.
    split; revert ms; induction l as [|x l IH]; intros ms H; inversion H; subst; constructor; auto.
  Qed.

  Lemma schwinger_sum zoom t terms bs ms i j c bra :
    Forall (built_spin zoom) (i_ops t) -> Forall (known stbl) (i_ops t) -> inter_schwinger zoom t = Ok terms ->
    sorted_bases bs -> Forall2 (matrix_of ftbl bs) terms ms ->
    nth_error bs i = Some bra -> nth_error bs j = Some (spin_ket idx n c) -> c < 2 ^ n ->
    lsum (fun m : mat => m i j) ms =
    gmul (i_coeff t) (lsum (fun ch => gmul (wts ch) (gz (amp (ch_word idx ch) bra (spin_ket idx n c)))) (choices (pairs_of stbl (i_ops t)))).
  Proof.
    intros Hb Kn E Hbs F Hi Hj Hc. rewrite (inter_schwinger_ok zoom t Hb) in E. injection E as <-.
    apply (proj1 (F2_map _ _ _ _)) in F. rewrite (lsum_F2 _ (fun ch => gmul (gmul (i_coeff t) (wts (nch ch))) (gz (amp (ch_word idx (nch ch)) bra (spin_ket idx n c)))) i j _ _ F).
    - rewrite <- xchoices_nch, lsum_map, <- lsum_mul_l. apply lsum_ext. intros; ring.
    - intros ch m Hch Hm. assert (Li : i < length bs) by (apply nth_error_Some; congruence).
      assert (Lj : j < length bs) by (apply nth_error_Some; congruence).
      rewrite (choice_matrix zoom (i_coeff t) ch bs m Hbs ltac:(rewrite (xchoices_in _ _ Hch); exact Kn) Hm i j Li Lj).
      unfold word_mat. rewrite (nth_error_nth _ _ _ Hi), (nth_error_nth _ _ _ Hj). reflexivity.
  Qed.

  Lemma schwinger_inter zoom t terms bs ms S : 
    Forall (built_spin zoom) (i_ops t) -> Forall (known stbl) (i_ops t) -> inter_schwinger zoom t = Ok terms ->
    fst (inter_matrix_repr stbl t None) = Ok S ->
    sorted_bases bs -> Forall2 (matrix_of ftbl bs) terms ms ->
    forall i j c, nth_error bs j = Some (spin_ket idx n c) -> c < 2 ^ n ->
    (forall r, r < 2 ^ n -> nth_error bs i = Some (spin_ket idx n r) ->
       lsum (fun m : mat => m i j) ms = gmul (gmul (ket_sign idx n r) (ket_sign idx n c)) (s_ent S r c)) /\
    (forall bra, nth_error bs i = Some bra -> (forall r, r < 2 ^ n -> bra <> spin_ket idx n r) ->
       lsum (fun m : mat => m i j) ms = g0).
  Proof.
    intros Hb Kn E ES Hbs F i j c Hj Hc.
    assert (Rg : Forall (fun p => fst p < n) (pairs_of stbl (i_ops t))) by (now apply (known_range sobjs stbl Hs)).
    split.
    - intros r Hr Hi. rewrite (schwinger_sum zoom t terms bs ms i j c _ Hb Kn E Hbs F Hi Hj Hc).
      rewrite (choices_sum n idx idx_inj _ Rg r c Hr Hc).
      destruct (inter_repr_ok sobjs stbl Hs t Kn) as (S' & ES' & _ & _ & M). assert (S' = S) by congruence. subst S'.
      rewrite (M r c Hr Hc). unfold mscale. fold n. ring.
    - intros bra Hi Hn. rewrite (schwinger_sum zoom t terms bs ms i j c _ Hb Kn E Hbs F Hi Hj Hc).
      rewrite lsum_zero; [ring|]. intros ch Hch.
      assert (A : amp (ch_word idx ch) bra (spin_ket idx n c) = 0%Z).
      { unfold amp. destruct (word_act (ch_word idx ch) (spin_ket idx n c)) as [[s k]|] eqn:W; [|reflexivity].
        destruct (bils_act n idx idx_inj _ (choices_in n _ Rg ch Hch) c Hc s k W) as (r & Hr & ->).
        destruct (N.eqb_spec (spin_ket idx n r) bra) as [Eq|]; [|reflexivity]. exfalso. now apply (Hn r Hr). }
      rewrite A. change (gz 0) with g0. ring.
  Qed.

  (** The matrices exist on the full Fock space of m states. *)
  Lemma schwinger_exists zoom t terms m : (0 <= start)%Z -> (start + Z.of_nat (length fobjs) <= Z.of_nat m)%Z -> m <= 64 ->
    Forall (built_spin zoom) (i_ops t) -> Forall (known stbl) (i_ops t) -> inter_schwinger zoom t = Ok terms ->
    exists ms, Forall2 (matrix_of ftbl (full_bases m)) terms ms.
  Proof.
    intros H0 H1 H2 Hb Kn E. rewrite (inter_schwinger_ok zoom t Hb) in E. injection E as <-.
    assert (H : forall l, (forall ch, In ch l -> Forall (known stbl) (map fst ch)) -> exists ms,
      Forall2 (matrix_of ftbl (full_bases m)) (map (fun ch => res_of (i_coeff t) (map ptp ch)) l) ms).
    { induction l as [|ch l IH]; intros K; [exists []; constructor|].
      destruct IH as (ms & F); [intros; apply K; now right|].
      destruct (full_matrix_of fobjs start ftbl m zoom (res_of (i_coeff t) (map ptp ch)) Hf H0 H1 H2) as (mm & Hm).
      - destruct ch; [exact I|reflexivity].
      - destruct ch; discriminate.
      - unfold operand_known. pose proof (K ch (or_introl eq_refl)) as Kc. destruct ch as [|p ch]; [constructor|].
        cbn [map res_of operand_ops t_aocs]. change (flat_map t_aocs (ptp p :: map ptp ch)) with (flat_map t_aocs (map ptp (p :: ch))).
        revert Kc. generalize (p :: ch). clear - Hs Hf Hidx. induction l as [|[x [a b]] l IH]; intros Kc; [constructor|].
        inversion Kc as [|? ? Kx Kr]; subst. cbn. constructor; [eexists; apply (fermion_of x a Kx)|].
        constructor; [eexists; apply (fermion_of x b Kx)|]. apply IH, Kr.
      - destruct ch as [|[x [a b]] ch]; [left; exact I|right; discriminate].
      - exists (mm :: ms). constructor; auto. }
    apply H. intros ch Hch. rewrite (xchoices_in _ _ Hch). exact Kn.
  Qed.
End Code.

(** A single operator is the interaction with that operator and coefficient 1. *)
Lemma spin_as_inter zoom x terms : built_spin zoom x -> spin_schwinger zoom x = Ok terms ->
  inter_schwinger zoom (MkInter [x] g1) = Ok (map OTerm terms).
Proof.
  intros Hb E. rewrite (spin_schwinger_ok zoom x Hb) in E.
  assert (T : terms = map (pt x) (filter (nzx x) ab4)) by congruence. subst terms. clear E.
  rewrite inter_schwinger_ok by (repeat constructor; exact Hb). cbn [i_ops i_coeff]. unfold xchoices. cbn [map cartesian].
  f_equal. generalize (filter (nzx x) ab4). intros l0. induction l0 as [|ab l IH]; [reflexivity|]. cbn [map flat_map app]. f_equal; [|exact IH].
  unfold ptp, pt. cbn [map res_of flat_map t_aocs fst snd app fold_left t_coeff]. f_equal. f_equal. ring.
Qed.
