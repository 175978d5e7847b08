(** Proofs for C59: the two lists of terms are computed for every pair of lattices
    that tile the same infinite lattice. *)
From Coq Require Import Reals String List Bool Arith ZArith Lia Lra.
From Coquelicot Require Import Complex.
From Verif Require Import Py CVec MatrixRepr_Model Particle_Model Lattice_Model GF_Model GF_Spec Free_Spec Lattice_Spec Lattice_Properties LatticeGen_Model LatticeGen_Spec
  CPT_Model CPT_Spec CPT_Proofs CPT_Proofs2 CPT_Proofs3 CPT_Proofs4.
Import ListNotations.
Local Open Scope nat_scope.

(** A computation that returns if the loop may run long enough. *)
Definition eventually {A} (f : nat -> option (res A)) (P : A -> Prop) : Prop := exists F, forall fuel, (F <= fuel) -> exists y, f fuel = Some (Ok y) /\ P y.
Lemma eventually_bind {A B} (f : nat -> option (res A)) (k : nat -> A -> option (res B)) P Q :
  eventually f P -> (exists F, forall fuel a, (F <= fuel) -> P a -> exists y, k fuel a = Some (Ok y) /\ Q y) -> eventually (fun fuel => obind (f fuel) (k fuel)) Q.
Proof.
  intros (F & HF) (F' & HF'). exists (Nat.max F F'). intros fuel Hf. destruct (HF fuel ltac:(lia)) as (a & -> & Pa). cbn [obind]. apply HF'; [lia|exact Pa].
Qed.
Lemma omap_eventually {A B} (f : nat -> A -> option (res B)) l : (forall a, In a l -> eventually (fun fuel => f fuel a) (fun _ => True)) ->
  eventually (fun fuel => omap (f fuel) l) (fun _ => True).
Proof.
  induction l as [|x l IH]; intros H; [exists 0; intros; cbn; eauto|].
  destruct (H x (or_introl eq_refl)) as (F & HF). destruct IH as (F' & HF'); [intros; apply H; now right|].
  exists (Nat.max F F'). intros fuel Hf. destruct (HF fuel ltac:(lia)) as (y & Ey & _). destruct (HF' fuel ltac:(lia)) as (ys & Eys & _).
  cbn [omap]. rewrite Ey. cbn [obind]. rewrite Eys. cbn [obind]. eauto.
Qed.
Lemma eventually_weaken {A} (f : nat -> option (res A)) (P Q : A -> Prop) : (forall a, P a -> Q a) -> eventually f P -> eventually f Q.
Proof. intros H (F & HF). exists F. intros fuel Hf. destruct (HF fuel Hf) as (y & E & Py). eauto. Qed.

Definition folds (prec : nat) (L : lattice) (p : point) : Prop :=
  eventually (fun fuel => decompose L fuel prec (Site (space_dim L) p)) (fun r => In (fst r) (points L)).

Section Runs.
  Context {K : Type}.
  Variables (keqb : K -> K -> bool) (dagger : K -> K) (site_of : K -> point) (derive : K -> point -> K) (mk : otype -> Z -> point -> K) (same : point -> point -> bool).
  Hypothesis OP : operators keqb dagger site_of derive mk same.
  Lemma list_index_in {A} (eqb : A -> A -> bool) x l : (exists y, In y l /\ eqb y x = true) -> exists i, list_index eqb x l = Ok i.
  Proof.
    induction l as [|z l IH]; intros (y & Hy & E); [contradiction|]. cbn. destruct (eqb z x) eqn:Ez; [eauto|].
    destruct Hy as [->|Hy]; [congruence|]. destruct IH as (i & ->); eauto.
  Qed.
  Lemma creators_index spins L s p : In s spins -> In p (points L) -> exists i, list_index keqb (mk CREATION s p) (creators mk spins L) = Ok i.
  Proof.
    intros Hs Hp. apply list_index_in. exists (mk CREATION s p). split; [apply creators_in; eauto|].
    apply (op_eq _ _ _ _ _ _ OP). split; [reflexivity|]. split; [reflexivity|]. apply (op_same _ _ _ _ _ _ OP).
  Qed.
  Lemma annihilators_index spins L s p : In s spins -> In p (points L) -> exists i, list_index keqb (mk ANNIHILATION s p) (annihilators dagger mk spins L) = Ok i.
  Proof.
    intros Hs Hp. apply list_index_in. exists (mk ANNIHILATION s p). split.
    - unfold annihilators. apply in_map_iff. exists (mk CREATION s p). split; [apply (op_dagger _ _ _ _ _ _ OP)|apply creators_in; eauto].
    - apply (op_eq _ _ _ _ _ _ OP). split; [reflexivity|]. split; [reflexivity|]. apply (op_same _ _ _ _ _ _ OP).
  Qed.
  Lemma enumerate_snd {A} (l : list A) i a : In (i, a) (enumerate l) -> In a l.
  Proof. intros H. apply enumerate_in in H. exact (nth_error_In _ _ H). Qed.
  Lemma owrap_const {A} (x : res A) a : x = Ok a -> owrap x = Some (Ok a).
  Proof. now intros ->. Qed.

  Lemma fourier_terms_run prec spins cell cluster : (forall p, In p (points cluster) -> folds prec cell p) ->
    eventually (fun fuel => fourier_terms keqb site_of derive fuel prec cell (creators mk spins cluster) (annihilators dagger mk spins cluster)
      (creators mk spins cell) (annihilators dagger mk spins cell)) (fun _ => True).
  Proof.
    intros H. unfold fourier_terms. refine (eventually_bind _ _ (fun _ => True) _ _ _); [|exists 0; eauto].
    apply omap_eventually. intros [i c] Hc. apply enumerate_snd, creators_in in Hc as (s & p & Hs & Hp & ->).
    rewrite (op_site _ _ _ _ _ _ OP). specialize (H p Hp) as Hfold.
    destruct Hfold as (F & HF). 
    assert (I : eventually (fun fuel => omap (fun ja : nat * K => let (j, a) := ja in
               obind (decompose cell fuel prec (Site (space_dim cell) (site_of a))) (fun pd1 =>
               obind (owrap (list_index keqb (derive a (fst pd1)) (annihilators dagger mk spins cell))) (fun index1 => Some (Ok (j, index1, snd pd1)))))
               (enumerate (annihilators dagger mk spins cluster))) (fun _ => True)).
    { apply omap_eventually. intros [j a] Ha. apply enumerate_snd in Ha. unfold annihilators in Ha. apply in_map_iff in Ha as (c & <- & Hc).
      apply creators_in in Hc as (s' & p' & Hs' & Hp' & ->). rewrite (proj1 (op_dagger _ _ _ _ _ _ OP s' p')), (op_site _ _ _ _ _ _ OP).
      refine (eventually_bind _ _ (fun r => In (fst r) (points cell)) _ (H p' Hp') _). exists 0. intros fuel r _ Hr.
      rewrite (op_derive _ _ _ _ _ _ OP). destruct (annihilators_index spins cell s' (fst r) Hs' Hr) as (x & ->). cbn. eauto. }
    destruct I as (F' & HF'). exists (Nat.max F F'). intros fuel Hf. destruct (HF fuel ltac:(lia)) as (r & -> & Hr). cbn [obind].
    rewrite (op_derive _ _ _ _ _ _ OP). destruct (creators_index spins cell s (fst r) Hs Hr) as (x & Ex). rewrite (owrap_const _ _ Ex). cbn [obind].
    destruct (HF' fuel ltac:(lia)) as (ys & Eys & _).
    assert (G : forall l, (exists ys, omap (fun ja : nat * K => let (j, a) := ja in
               obind (decompose cell fuel prec (Site (space_dim cell) (site_of a))) (fun pd1 =>
               obind (owrap (list_index keqb (derive a (fst pd1)) (annihilators dagger mk spins cell))) (fun index1 => Some (Ok (j, index1, snd pd1))))) l = Some (Ok ys)) ->
             exists zs, omap (fun ja : nat * K => let (j, a) := ja in
               obind (decompose cell fuel prec (Site (space_dim cell) (site_of a))) (fun pd1 =>
               obind (owrap (list_index keqb (derive a (fst pd1)) (annihilators dagger mk spins cell))) (fun index1 =>
               Some (Ok (i, j, x, index1, Lattice_Model.vsub (snd pd1) (snd r)))))) l = Some (Ok zs)).
    { clear. induction l as [|[j a] l IH]; intros (ys & E); [cbn; eauto|]. cbn [omap] in *. apply obind_ok in E as (y & Ey & E). apply obind_ok in E as (ys' & Ey' & _).
      apply obind_ok in Ey as (pd & Ep & Ey). apply obind_ok in Ey as (x1 & Ex & _). rewrite Ep. cbn [obind]. rewrite Ex. cbn [obind]. destruct IH as (zs & ->); [eauto|]. cbn. eauto. }
    destruct (G _ (ex_intro _ ys Eys)) as (zs & ->). eauto.
  Qed.
  Lemma v_terms_run prec spins cluster t bonds : (forall p q, In (p, q) bonds -> folds prec cluster p /\ folds prec cluster q) ->
    eventually (fun fuel => v_terms keqb mk fuel prec cluster spins (creators mk spins cluster) (annihilators dagger mk spins cluster) t bonds) (fun _ => True).
  Proof.
    intros H. unfold v_terms. refine (eventually_bind _ _ (fun _ => True) _ _ _); [|exists 0; eauto].
    apply omap_eventually. intros [p q] Hb. destruct (H p q Hb) as [Fp Fq].
    refine (eventually_bind _ _ _ _ Fp _). destruct Fq as (F & HF). exists F. intros fuel r Hf Hr. destruct (HF fuel Hf) as (r' & -> & Hr'). cbn [obind].
    assert (G : forall l, incl l spins -> exists zs, omap (fun spin =>
               let c := mk CREATION spin (fst r) in let a := mk ANNIHILATION spin (fst r') in
               obind (owrap (list_index keqb c (creators mk spins cluster))) (fun index0 =>
               obind (owrap (list_index keqb a (annihilators dagger mk spins cluster))) (fun index1 =>
               Some (Ok (index0, index1, t, Lattice_Model.vsub (snd r') (snd r)))))) l = Some (Ok zs)).
    { induction l as [|s l IH]; intros I; [cbn; eauto|]. cbn [omap]. cbv zeta.
      destruct (creators_index spins cluster s (fst r) (I s (or_introl eq_refl)) Hr) as (x & Ex). destruct (annihilators_index spins cluster s (fst r') (I s (or_introl eq_refl)) Hr') as (x' & Ex').
      rewrite (owrap_const _ _ Ex). cbn [obind]. rewrite (owrap_const _ _ Ex'). cbn [obind]. destruct IH as (zs & Ez); [intros z Hz; apply I; now right|]. cbv zeta in Ez. rewrite Ez. cbn. eauto. }
    destruct (G spins (incl_refl _)) as (zs & Ez). cbv zeta in Ez |- *. rewrite Ez. eauto.
  Qed.
End Runs.

Lemma folds_tiles prec0 prec c L p : lattice_of prec0 L -> separated (view prec) L -> reduced (3 / 4) (vectors L) -> tiles c L ->
  (exists j ms, is_site c j ms /\ p = site c j ms) -> folds prec L p.
Proof.
  intros HL HS HR [_ T] (j & ms & Hj & ->). destruct (T j ms Hj) as (i & Ms & (Hi & Lm & E) & _).
  destruct (C34_reduced prec0 prec L i Ms HL HS HR Hi Lm) as (F & HF). exists F. intros fuel Hf. rewrite <- E. rewrite (HF fuel Hf). eexists. split; [reflexivity|]. cbn [fst]. now apply nth_In.
Qed.
Lemma tiles_point c L p : tiles c L -> In p (points L) -> exists j ms, is_site c j ms /\ p = site c j ms.
Proof.
  intros [T _] Hp. apply (In_nth _ _ v0) in Hp as (i & Hi & <-).
  destruct (T i (repeat 0%Z (length (vectors L))) Hi (repeat_length _ _)) as (j & ms & Hj & E). exists j, ms. split; [exact Hj|]. rewrite <- E.
  assert (Z : forall vs, shift (repeat 0%Z (length vs)) vs = v0).
  { induction vs as [|v vs IH]; [reflexivity|]. unfold shift in *. cbn. rewrite IH. destruct v as [[x y] z]. cbn. unfold v0. repeat f_equal; ring. }
  rewrite Z. destruct (nth i (points L) v0) as [[x y] z]. cbn. repeat f_equal; ring.
Qed.

(** ** Non-vacuity: operators and a dictionary exist *)
Definition op_key : Type := (otype * Z * point)%type.
Definition point_eqb (p q : point) : bool :=
  let '(x, y, z) := p in let '(x', y', z') := q in
  if Req_EM_T x x' then if Req_EM_T y y' then if Req_EM_T z z' then true else false else false else false.
Lemma point_eqb_eq p q : point_eqb p q = true <-> p = q.
Proof.
  destruct p as [[x y] z], q as [[x' y'] z']. cbn. destruct (Req_EM_T x x'), (Req_EM_T y y'), (Req_EM_T z z'); split; intros H; try discriminate; try (injection H as <- <- <-; contradiction); try congruence; reflexivity.
Qed.
Definition otype_eqb (a b : otype) : bool := match a, b with CREATION, CREATION | ANNIHILATION, ANNIHILATION => true | _, _ => false end.
Definition op_keqb (a b : op_key) : bool := let '(o, s, p) := a in let '(o', s', p') := b in (otype_eqb o o' && Z.eqb s s' && point_eqb p p')%bool.
Lemma op_keqb_eq a b : op_keqb a b = true <-> a = b.
Proof.
  destruct a as [[o s] p], b as [[o' s'] p']. cbn. rewrite !andb_true_iff, Z.eqb_eq, point_eqb_eq. split.
  - intros [[H ->] ->]. destruct o, o'; try discriminate; reflexivity.
  - intros E. injection E as <- <- <-. destruct o; auto.
Qed.
Definition op_swap (a : op_key) : op_key := let '(o, s, p) := a in (match o with CREATION => ANNIHILATION | ANNIHILATION => CREATION end, s, p).
Definition op_at (a : op_key) : point := snd a.
Definition op_moved (a : op_key) (p : point) : op_key := let '(o, s, _) := a in (o, s, p).
Definition op_mk (o : otype) (s : Z) (p : point) : op_key := (o, s, p).
Lemma op_instance : operators op_keqb op_swap op_at op_moved op_mk point_eqb.
Proof.
  split; try reflexivity; [intros; split; reflexivity|intros p; now apply point_eqb_eq|].
  intros. rewrite op_keqb_eq, point_eqb_eq. unfold op_mk. split; [intros E; injection E as <- <- <-; auto|now intros (-> & -> & ->)].
Qed.
Lemma dict_get_some {K V} (keqb : K -> K -> bool) (d : list ((K * K) * V)) a b v :
  (forall a' b' v', In ((a', b'), v') d -> keqb a' a = true -> keqb b' b = true -> v' = v) ->
  (exists a' b' v', In ((a', b'), v') d /\ keqb a' a = true /\ keqb b' b = true) -> GF_Spec.dict_get keqb a b d = Some v.
Proof.
  induction d as [|[[x y] w] d IH]; intros H (a' & b' & v' & I & Ea & Eb); [contradiction|]. cbn.
  destruct (keqb x a && keqb y b)%bool eqn:E.
  - apply andb_true_iff in E as [E1 E2]. f_equal. apply (H x y w); auto. now left.
  - destruct I as [I|I]; [injection I as -> -> ->; rewrite Ea, Eb in E; discriminate|]. apply IH; [intros; eapply H; eauto; now right|eauto 10].
Qed.
Lemma dict_get_none {K V} (keqb : K -> K -> bool) (d : list ((K * K) * V)) a b :
  (forall a' b' v', In ((a', b'), v') d -> keqb a' a = true -> keqb b' b = true -> False) -> GF_Spec.dict_get keqb a b d = None.
Proof.
  induction d as [|[[x y] w] d IH]; intros H; [reflexivity|]. cbn. destruct (keqb x a && keqb y b)%bool eqn:E.
  - apply andb_true_iff in E as [E1 E2]. destruct (H x y w (or_introl eq_refl) E1 E2).
  - apply IH. intros a' b' v' I Ea Eb. exact (H a' b' v' (or_intror I) Ea Eb).
Qed.
Lemma two_spins_exists pts omegas s0 s1 g0 g1 : NoDup pts -> s0 <> s1 -> exists dd, two_spins op_keqb op_mk pts omegas s0 s1 g0 g1 dd.
Proof.
  intros ND Hs.
  set (blk := fun s (g : R -> cmat) => flat_map (fun ip : nat * point => map (fun jq : nat * point =>
     ((op_mk ANNIHILATION s (snd ip), op_mk CREATION s (snd jq)), map (fun omega => g omega (fst ip) (fst jq)) omegas)) (enumerate pts)) (enumerate pts)).
  assert (IN : forall s g a b v, In ((a, b), v) (blk s g) <-> exists i j p q, nth_error pts i = Some p /\ nth_error pts j = Some q /\
      a = op_mk ANNIHILATION s p /\ b = op_mk CREATION s q /\ v = map (fun omega => g omega i j) omegas).
  { intros s g a b v. unfold blk. rewrite in_flat_map. split.
    - intros ([i p] & Hi & H). apply in_map_iff in H as ([j q] & E & Hj). apply enumerate_in in Hi, Hj. cbn [fst snd] in E. injection E as <- <- <-. eauto 10.
    - intros (i & j & p & q & Hi & Hj & -> & -> & ->). exists (i, p). split; [now apply enumerate_in|]. apply in_map_iff. exists (j, q). split; [reflexivity|now apply enumerate_in]. }
  assert (UN : forall i j p, nth_error pts i = Some p -> nth_error pts j = Some p -> i = j).
  { intros i j p Hi Hj. apply (proj1 (NoDup_nth_error pts) ND); [apply nth_error_Some; congruence|congruence]. }
  exists (blk s0 g0 ++ blk s1 g1). intros i j p q Hi Hj.
  assert (V : forall s (g : R -> cmat), s = s0 /\ g = g0 \/ s = s1 /\ g = g1 -> GF_Spec.dict_get op_keqb (op_mk ANNIHILATION s p) (op_mk CREATION s q) (blk s0 g0 ++ blk s1 g1) = Some (map (fun omega => g omega i j) omegas)).
  { intros s g Hsg. apply dict_get_some.
    - intros a b v Hv Ea Eb. apply op_keqb_eq in Ea, Eb. subst a b. apply in_app_iff in Hv as [Hv|Hv]; apply IN in Hv as (i' & j' & p' & q' & Hi' & Hj' & E1 & E2 & ->);
        unfold op_mk in E1, E2; assert (Ep : p' = p) by congruence; assert (Eq : q' = q) by congruence; subst p' q'; rewrite (UN i i' p Hi Hi'), (UN j j' q Hj Hj'); destruct Hsg as [[-> ->]|[-> ->]]; congruence.
    - exists (op_mk ANNIHILATION s p), (op_mk CREATION s q), (map (fun omega => g omega i j) omegas). split; [|split; now apply op_keqb_eq].
      apply in_app_iff. destruct Hsg as [[-> ->]|[-> ->]]; [left|right]; apply IN; exists i, j, p, q; auto. }
  split; [apply V; auto|]. split; [apply V; auto|].
  split; apply dict_get_none; intros a b v Hv Ea Eb; apply op_keqb_eq in Ea, Eb; subst a b; apply in_app_iff in Hv as [Hv|Hv]; apply IN in Hv as (i' & j' & p' & q' & _ & _ & E1 & E2 & _);
    unfold op_mk in E1, E2; congruence.
Qed.
(** The functions of a free cluster are of the required kind. *)
Lemma resolvent_lehmann d t eta (G : R -> cmat) : hermitian d t -> (forall omega, resolvent d t (frequency omega eta) (G omega)) -> lehmann d eta G.
Proof.
  intros H HG. exists d, t, unit_vec. split; [exact H|].
  assert (U : forall i x, (i < d) -> inner d (unit_vec i) x = x i).
  { intros i x Hi. unfold inner. rewrite (csum_single d _ i Hi); unfold unit_vec; [rewrite Nat.eqb_refl, Cj_1; unfold c1; apply Cmult_1_l|].
    intros k _ Hne. destruct (Nat.eqb_spec k i); [contradiction|]. rewrite Cj_0. unfold c0. apply Cmult_0_l. }
  split.
  - intros i j Hi Hj. rewrite U by assumption. unfold unit_vec, delta. reflexivity.
  - intros omega i j Hi Hj. exists (fun r => G omega r j). split; [|now rewrite U].
    intros r Hr. destruct (HG omega r j Hr Hj) as [E _]. unfold shifted. cbn [String.eqb Ascii.eqb Bool.eqb].
    rewrite (csum_ext d _ (fun k => (frequency omega eta * (delta r k * G omega k j) - t r k * G omega k j)%C)) in E by (intros; ring).
    rewrite csum_sub, csum_mul_l, csum_delta_l in E by assumption. unfold mv. unfold unit_vec. fold (delta r j). rewrite <- E. ring.
Qed.
