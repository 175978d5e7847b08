(** Proofs for C61, part 3: the bonds of a cluster and the exchange pairs. *)
From Coq Require Import Reals String List ZArith Bool Arith Lia Lra Permutation.
From Verif Require Lattice_Proofs3.
From Verif Require Import Py GQ Mat State_Model MatrixRepr_Model Particle_Model Spin_Model Spin_Spec
  Lattice_Model Lattice_Spec Lattice_Proofs Lattice_Properties LatticeCases_Properties LatticeGen_Model LatticeGen_Spec LatticeGen_Proofs LatticeGen_Properties
  Neighbors_Spec Neighbors_Proofs Neighbors_Properties LatticeBonds_Spec LatticeBonds_Proofs2 LatticeBonds_Properties
  CPT_Model CPT_Spec CPT_Proofs CPT_Proofs2 CPT_Proofs3 CPT_Proofs4 CPT_Proofs5 CPT_Proofs6 Bloch_Spec Bloch_Proofs Bloch_Proofs2 Bloch_Proofs3 Bloch_Proofs4 Bloch_Proofs5 Bloch_Proofs6 Bloch_Properties Bloch2_Properties
  Free_Spec Heisenberg_Model Heisenberg_Spec Heisenberg_Proofs.
Import ListNotations.
Local Open Scope nat_scope.

Lemma lsum_perm {A} (f : A -> GQ) l l' : Permutation l l' -> lsum f l = lsum f l'.
Proof.
  induction 1 as [|x l l' _ IH|x y l|l l' l'' _ IH1 _ IH2]; cbn [lsum]; try congruence. ring.
Qed.
Lemma exchange_perm n J l l' r c : Permutation l l' -> exchange n J l r c = exchange n J l' r c.
Proof. intros H. unfold exchange. f_equal. now apply lsum_perm. Qed.

Lemma fuel_all {A} (P : nat -> A -> Prop) l : (forall x, In x l -> exists F, forall fuel, (F <= fuel)%nat -> P fuel x) ->
  exists F, forall fuel, (F <= fuel)%nat -> Forall (P fuel) l.
Proof.
  induction l as [|x l IH]; intros H; [exists 0; constructor|]. destruct (H x (or_introl eq_refl)) as (F1 & H1). destruct IH as (F2 & H2); [intros y Hy; apply H; now right|].
  exists (Nat.max F1 F2). intros fuel Hf. constructor; [apply H1; lia|apply H2; lia].
Qed.
Lemma Forall_Forall2_map {A B C} (R : B -> C -> Prop) (f : A -> B) (g : A -> C) l : Forall (fun x => R (f x) (g x)) l -> Forall2 R (map f l) (map g l).
Proof. induction 1; constructor; assumption. Qed.

Lemma fold_translated nearest prec0 prec L i ns : finds_nearest nearest -> lattice_of prec0 L -> separated (view prec) L ->
  (i < length (points L))%nat -> length ns = length (vectors L) -> (reach ns <= 1)%Z \/ reduced (3 / 4) (vectors L) \/ steady (vectors L) [v0] ->
  exists F, forall fuel, (F <= fuel)%nat ->
    getIndex L nearest fuel prec (Site (space_dim L) (vadd (nth i (points L) v0) (shift ns (vectors L)))) true = Some (Ok (Z.of_nat i)).
Proof.
  intros Hn HL Hs Hi Ln [Hr|[Hr|Hr]]; [apply (C32_fold_translated nearest prec0); auto|apply (C32_fold_translated nearest prec0); auto|].
  destruct (C34_steady prec0 prec L i ns HL Hs Hr Hi Ln) as (F & D). exists F. intros fuel Hf. specialize (D fuel Hf).
  unfold getIndex. rewrite Nat.eqb_refl. cbn [negb]. rewrite D. pose proof (lattice_of_facts _ _ HL) as (_ & _ & _ & Hp).
  rewrite (nearest_self nearest prec0 L i Hn HL Hi), dist_refl, (proj2 (Lattice_Proofs3.Rltb_iff 0 (view prec))) by apply Lattice_Proofs3.view_pos. destruct (points L); [contradiction|reflexivity].
Qed.
Lemma bonds_matrix nearest prec0 prec L J intra inter I T : finds_nearest nearest -> lattice_of prec0 L -> separated (view prec) L -> gconj J = J ->
  Permutation intra (map (fun ij => (nth (fst ij) (points L) v0, nth (snd ij) (points L) v0)) I) ->
  (forall i j, In (i, j) I -> (i < length (points L))%nat /\ (j < length (points L))%nat) ->
  Permutation inter (map (fun k => (head L k, tail L k)) T) ->
  (forall k, In k T -> valid L k /\ ((reach (by_ k) <= 1)%Z \/ reduced (3 / 4) (vectors L) \/ steady (vectors L) [v0])) ->
  (I <> [] \/ T <> []) ->
  exists F, forall fuel, (F <= fuel)%nat -> exists m, heisenberg_matrix L nearest fuel prec (Z.of_nat (length (points L))) J intra inter = Some (Ok m) /\
    represents (length (points L)) m (madd (exchange (length (points L)) J (I ++ map ends T)) (self_field (length (points L)) J (I ++ map ends T))).
Proof.
  intros Hn HL Hs HJ P1 V1 P2 V2 NE.
  apply Permutation_map_inv in P1 as (I' & -> & PI). apply Permutation_map_inv in P2 as (T' & -> & PT).
  assert (RZ : (reach (repeat 0%Z (length (vectors L))) <= 1)%Z) by (induction (length (vectors L)) as [|q IH]; cbn; lia).
  assert (IN : forall i, (i < length (points L))%nat -> exists F, forall fuel, (F <= fuel)%nat ->
    getIndex L nearest fuel prec (Site (space_dim L) (nth i (points L) v0)) true = Some (Ok (Z.of_nat i))).
  { intros i Hi. destruct (C32_fold_translated nearest prec0 prec L i (repeat 0%Z (length (vectors L))) Hn HL Hs Hi (repeat_length _ _) (or_introl RZ)) as (F & HF).
    exists F. intros fuel Hf. specialize (HF fuel Hf). rewrite shift_zero, vadd_0_r in HF. exact HF. }
  destruct (fuel_all (fun fuel ij => indexed L nearest fuel prec (nth (fst ij) (points L) v0, nth (snd ij) (points L) v0) ij) I') as (F1 & HF1).
  { intros [i j] H. apply (Permutation_in _ (Permutation_sym PI)) in H. destruct (V1 i j H) as (Hi & Hj). destruct (IN i Hi) as (A & HA). destruct (IN j Hj) as (B & HB).
    exists (Nat.max A B). intros fuel Hf. split; cbn [fst snd]; [apply HA|apply HB]; lia. }
  destruct (fuel_all (fun fuel k => indexed L nearest fuel prec (head L k, tail L k) (ends k)) T') as (F2 & HF2).
  { intros k H. apply (Permutation_in _ (Permutation_sym PT)) in H. destruct (V2 k H) as ((Hi & Hj & Lk) & Hr). destruct (IN (from k) Hi) as (A & HA).
    destruct (fold_translated nearest prec0 prec L (to k) (by_ k) Hn HL Hs Hj Lk Hr) as (B & HB).
    exists (Nat.max A B). intros fuel Hf. split; cbn [fst snd ends]; [apply HA|apply HB]; lia. }
  exists (Nat.max F1 F2). intros fuel Hf.
  destruct (heisenberg_general L nearest fuel prec (length (points L)) J (map (fun ij => (nth (fst ij) (points L) v0, nth (snd ij) (points L) v0)) I') (map (fun k => (head L k, tail L k)) T') (I' ++ map ends T')) as (m & E & R1 & R2 & R3).
  - apply Forall2_app; [rewrite <- (map_id I') at 2|]; apply Forall_Forall2_map; [apply HF1; lia|apply HF2; lia].
  - intros X. apply app_eq_nil in X as [-> X]. apply map_eq_nil in X as ->. destruct NE as [N|N]; apply N; apply Permutation_nil; now apply Permutation_sym.
  - exact HJ.
  - apply Forall_app. split; apply Forall_forall.
    + intros [i j] H. apply (Permutation_in _ (Permutation_sym PI)) in H. exact (V1 i j H).
    + intros p H. apply in_map_iff in H as (k & <- & H). apply (Permutation_in _ (Permutation_sym PT)) in H. destruct (V2 k H) as ((Hi & Hj & _) & _). cbn. auto.
  - exists m. split; [exact E|]. split; [exact R1|]. split; [exact R2|]. intros r c Hr Hc. rewrite (R3 r c Hr Hc).
    assert (PP : Permutation (I' ++ map ends T') (I ++ map ends T)) by (apply Permutation_app; [now apply Permutation_sym|]; apply Permutation_map; now apply Permutation_sym).
    unfold madd. f_equal; [now apply exchange_perm|]. unfold self_field. f_equal. now apply lsum_perm.
Qed.

(** The first-neighbour bonds of chain, square and cubic clusters. *)
Lemma simple_bonds prec name c n0 n1 n2 L dL ord pord d only : (1 <= prec)%nat -> In name ["chain"; "square"; "cubic"]%string -> In (name, c) common_cells -> (1 <= n0)%Z -> (1 <= n1)%Z -> (1 <= n2)%Z ->
  lattice_generator prec (Name name) (AnInt n0) (AnInt n1) (AnInt n2) = Ok (L, dL) ->
  listing ord -> listing pord -> reachable prec L ord (fresh prec L) d ->
  exists F, forall fuel, (F <= fuel)%nat -> exists intra inter T,
    fst (bonds L ord pord fuel prec d (AnInt 1) only false) = Some (Ok (intra, Some inter)) /\
    lists_intra L (fun x => x = 1%R) intra /\ lists_inter L (fun x => x = 1%R) false inter T /\
    forall k, valid L k -> crossing k -> len L k = 1%R -> In k T \/ In (opposite k) T.
Proof.
  intros Hp Hs Hn H0 H1 H2 EL Ho Hpo Hr.
  destruct (simple_cells name c Hs Hn) as ((p & Cp) & On & Cne).
  destruct (generated prec name c n0 n1 n2 L dL Hp Hn H0 H1 H2 EL) as (Lp & Lv & _ & SL).
  destruct (extents_ok name c n0 n1 n2 Hn H0 H1 H2) as [Fn Hl]. set (nums := extents c n0 n1 n2) in *.
  destruct (C37_generator prec name c n0 n1 n2 Hp Hn H0 H1 H2) as (L' & d' & E' & HL & _). rewrite EL in E'. injection E' as <- <-.
  destruct (C37_suitable prec name c n0 n1 n2 L dL Hp Hn H0 H1 H2 EL) as (_ & Res & _ & A & _). destruct (A Hs) as (Ni & _ & _). clear A.
  assert (NV : exists a, In a (vectors L) /\ (view prec <= norm a)%R).
  { destruct (cvectors c) as [|v vs] eqn:Ev; [contradiction|]. destruct nums as [|m ms] eqn:En; [cbn in Hl; discriminate|]. rewrite Lv. eexists. split; [now left|].
    inversion Fn as [|? ? Hm _]; subst. pose proof (view_tenth prec Hp) as V. destruct On as [O1 _]. unfold norm.
    match goal with |- (_ <= sqrt ?x)%R => assert (X : (1 <= x)%R) end.
    { replace 1%R with (1 * 1)%R by ring. destruct v as [[x y] z]. cbn in O1 |- *. apply IZR_le in Hm.
      match goal with |- (_ <= ?e)%R => replace e with (IZR m * IZR m * (x * x + y * y + z * z))%R by ring end. rewrite O1, Rmult_1_r. nra. }
    apply sqrt_le_1_alt in X. rewrite sqrt_1 in X. lra. }
  destruct (C36_total prec L ord pord d 1 only false Ho Hpo HL Ni SL NV Hr ltac:(lia)) as (F & HF).
  exists F. intros fuel Hf. destruct (HF fuel Hf) as (intra & inter & EB). exists intra, inter.
  destruct (distance_one c p Cp On Cne nums L prec Hp Fn Hl Lp Lv ord Ho d Hr) as (d2 & D1).
  assert (D0 : fst (neighbor_distance L ord prec d2 (AnInt 0)) = Ok 0%R).
  { pose proof (Lpne c p Cp nums L prec Hp Fn Hl Lp) as PN. destruct (C35_sound prec L ord d 1 1%R d2 Ho PN Hr D1) as (_ & _ & _ & _ & Hm).
    destruct (Hm 0%Z ltac:(lia)) as (u & Eu & _). assert (R2 : reachable prec L ord (fresh prec L) d2).
    { replace d2 with (snd (neighbor_distance L ord prec d (AnInt 1))) by now rewrite D1. constructor. exact Hr. }
    destruct (C35_sound prec L ord d2 0 u d2 Ho PN R2 Eu) as (_ & _ & Z & _). rewrite Eu. now rewrite Z. }
  pose proof (C36_exact prec L ord pord fuel d 0 only false intra (Some inter) d2 1%R 0%R Ho Hpo HL Hr Ni Res (or_introl eq_refl) D1 D0
    (nth_one c p Cp On Cne nums L prec Hp Fn Hl Lp Lv) (nth_zero c p Cp nums L prec Hp Fn Hl Lp)
    (gap_one c p Cp On nums L prec Hp Fn Hl Lp Lv) ltac:(lia)) as EX.
  destruct EX as (LI & J & T & EJ & (NT & VT & PT) & AT).
  { intros k Vk Ck Hk. exfalso. destruct (simple_len c p Cp On nums L Fn Hl Lp Lv k Vk) as (n & Hn' & En).
    - intros X. injection X as _ X. destruct Ck as (x & Hx & Nx). rewrite X in Hx. apply repeat_spec in Hx. contradiction.
    - rewrite En in Hk. now apply (above_one n prec Hp Hn'). }
  { exact EB. }
  injection EJ as <-. exists T. split; [exact EB|].
  assert (CV : forall k, valid L k -> (to k, by_ k) <> (from k, still L) -> ((if only then rounded prec (len L k) = 1%R else (rounded prec (len L k) <= 1)%R) <-> len L k = 1%R)).
  { intros k Vk Ck. destruct (simple_len c p Cp On nums L Fn Hl Lp Lv k Vk Ck) as (n & Hn' & ->). apply (length_one c nums L prec Hp Hl only n Hn'). }
  assert (CR : forall k, crossing k -> (to k, by_ k) <> (from k, still L)).
  { intros k Ck X. injection X as _ X. destruct Ck as (x & Hx & Nx). rewrite X in Hx. apply repeat_spec in Hx. contradiction. }
  split; [|split].
  - destruct LI as (I & NI & II & PI). exists I. split; [exact NI|]. split; [|exact PI]. intros i j. rewrite II.
    assert (X : (i < j < length (points L))%nat -> ((if only then rounded prec (dist (nth i (points L) v0) (nth j (points L) v0)) = 1%R else (rounded prec (dist (nth i (points L) v0) (nth j (points L) v0)) <= 1)%R) <-> dist (nth i (points L) v0) (nth j (points L) v0) = 1%R)).
    { intros Hij. assert (V : valid L (Link i j (still L))) by (repeat split; cbn; [lia|lia|apply repeat_length]).
      pose proof (CV (Link i j (still L)) V) as C1. unfold len, head, tail in C1. cbn [from to by_] in C1. unfold still in C1. rewrite shift_zero, vadd_0_r in C1. apply C1. intros Y. injection Y as Y. lia. }
    split; intros [A B]; (split; [exact A|]); now apply X.
  - split; [exact NT|]. split; [|exact PT]. intros k Hk. destruct (VT k Hk) as (V1 & V2 & V3 & V4). split; [exact V1|]. split; [exact V2|]. split; [|exact V4]. apply CV; auto.
  - intros k V1 V2 V3. apply (AT k V1 V2). apply CV; auto.
Qed.
