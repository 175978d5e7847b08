(** Proofs about Lattice.bonds. *)
From Coq Require Import List Reals ZArith Bool Arith Lra Lia Permutation.
From Verif Require Import Py CVec LinSolve Line2D_Model Line2D_Proofs Lattice_Model Lattice_Spec Lattice_Proofs Lattice_Proofs2 Lattice_Proofs3 Lattice_Properties LatticeCases_Properties
  Neighbors_Spec Neighbors_Proofs Neighbors_Proofs2 Neighbors_Properties LatticeBonds_Spec.
Import ListNotations.
Open Scope R_scope.

(** ** one of c and -c *)
Definition keep_step (kept : list (list Z)) (config : list Z) : list (list Z) := if existsb (zs_eqb (map Z.opp config)) kept then kept else kept ++ [config].
Lemma opp_opp c : map Z.opp (map Z.opp c) = c.
Proof. rewrite map_map. rewrite <- (map_id c) at 2. apply map_ext. intros. lia. Qed.
Lemma nodup_snoc {A} (l : list A) x : NoDup l -> ~ In x l -> NoDup (l ++ [x]).
Proof. intros Hl Hx. apply NoDup_app'; [exact Hl|repeat constructor; tauto|]. intros y Hy [<-|[]]. contradiction. Qed.
Lemma keep_spec l : forall kept, NoDup l -> NoDup kept -> (forall x, In x l -> ~ In x kept) -> (forall c, In c kept -> In (map Z.opp c) kept -> map Z.opp c = c) ->
  let r := fold_left keep_step l kept in
  NoDup r /\ incl kept r /\ (forall c, In c r -> In c kept \/ In c l) /\ (forall c, In c l -> In c r \/ In (map Z.opp c) r) /\ (forall c, In c r -> In (map Z.opp c) r -> map Z.opp c = c).
Proof.
  induction l as [|x l IH]; intros kept Nl Nk Dis Anti; cbn [fold_left].
  - split; [exact Nk|]. split; [intros c; auto|]. split; [auto|]. split; [intros c []|exact Anti].
  - inversion Nl; subst. assert (Es : keep_step kept x = if existsb (zs_eqb (map Z.opp x)) kept then kept else kept ++ [x]) by reflexivity. destruct (existsb (zs_eqb (map Z.opp x)) kept) eqn:E; rewrite Es.
    + apply existsb_zs in E. destruct (IH kept) as (A & B & C & D & F); auto; [intros y Hy; apply Dis; now right|].
      split; [exact A|]. split; [exact B|]. split; [intros c Hc; destruct (C c Hc); cbn; auto|]. split; [|exact F].
      intros c [<-|Hc]; [right; now apply B|now apply D].
    + assert (Nx : ~ In (map Z.opp x) kept) by (intros H; apply existsb_zs in H; congruence).
      destruct (IH (kept ++ [x])) as (A & B & C & D & F); auto.
      * apply nodup_snoc; [exact Nk|]. apply Dis. now left.
      * intros y Hy Hi. apply in_app_or in Hi as [Hi|[<-|[]]]; [revert Hi; apply Dis; now right|contradiction].
      * intros c Hc Ho. apply in_app_or in Hc as [Hc|[<-|[]]], Ho as [Ho|[Ho|[]]]; auto; [|now exfalso]. exfalso. apply Nx. rewrite Ho, opp_opp. exact Hc.
      * split; [exact A|]. split; [intros c Hc; apply B, in_or_app; now left|]. split; [|split; [|exact F]].
        -- intros c Hc. destruct (C c Hc) as [Hk|Hl]; [|right; now right]. apply in_app_or in Hk as [Hk|[<-|[]]]; [now left|right; now left].
        -- intros c [<-|Hc]; [left; apply B, in_or_app; right; now left|now apply D].
Qed.
Lemma opp_fix_zero c : map Z.opp c = c -> forall n, In n c -> n = 0%Z.
Proof. induction c as [|x c IH]; intros E n []; cbn in E; injection E as Ex Ec; [lia|auto]. Qed.
Lemma reach_opp c : reach (map Z.opp c) = reach c.
Proof. induction c as [|x c IH]; cbn; [reflexivity|]. rewrite IH. lia. Qed.
Lemma cross_opp c : (exists n, In n c /\ n <> 0%Z) -> exists n, In n (map Z.opp c) /\ n <> 0%Z.
Proof. intros (n & Hn & N). exists (- n)%Z. split; [now apply in_map|lia]. Qed.
Lemma translations_half L S : (0 <= S)%Z ->
  NoDup (translations L S true) /\
  (forall c, In c (translations L S true) -> List.length c = List.length (vectors L) /\ (reach c <= S)%Z /\ (exists n, In n c /\ n <> 0%Z) /\ ~ In (map Z.opp c) (translations L S true)) /\
  (forall c, List.length c = List.length (vectors L) -> (reach c <= S)%Z -> (exists n, In n c /\ n <> 0%Z) -> In c (translations L S true) \/ In (map Z.opp c) (translations L S true)).
Proof.
  intros HS. unfold translations. set (mesh := product (zrange (- S) (S + 1)) (List.length (vectors L))).
  change (fold_left (fun kept config => if existsb (zs_eqb (map Z.opp config)) kept then kept else kept ++ [config]) mesh []) with (fold_left keep_step mesh []).
  destruct (keep_spec mesh []) as (A & _ & C & D & F); [apply nodup_product, nodup_zrange|constructor|auto|intros c []|]. set (r := fold_left keep_step mesh []) in *.
  split; [now apply NoDup_filter|]. split.
  - intros c Hc. apply filter_In in Hc as [Hc Nz]. apply negb_true_iff in Nz. destruct (C c Hc) as [[]|Hm]. apply in_cube in Hm as [Lc Rc]; [|exact HS].
    apply (nonzero_iff _ c Lc) in Nz. split; [exact Lc|]. split; [exact Rc|]. split; [exact Nz|]. intros Ho. apply filter_In in Ho as [Ho _].
    pose proof (opp_fix_zero c (F c Hc Ho)) as Z0. destruct Nz as (n & Hn & N). apply N. now apply Z0.
  - intros c Lc Rc Nz. assert (Hm : In c mesh) by (apply in_cube; auto). destruct (D c Hm) as [H|H]; [left|right]; apply filter_In; (split; [exact H|]); apply negb_true_iff.
    + now apply nonzero_iff.
    + apply nonzero_iff; [now rewrite map_length|now apply cross_opp].
Qed.

(** ** indices of sites *)
Lemma nth_prod_seq {A} (W : list A) N w i d : (i < N)%nat -> (w < List.length W)%nat -> nth (w * N + i) (list_prod W (seq 0 N)) (d, O) = (nth w W d, i).
Proof.
  revert w. induction W as [|x W IH]; intros w Hi Hw; cbn in Hw; [lia|]. cbn [list_prod].
  assert (Ll : List.length (map (fun y => (x, y)) (seq 0 N)) = N) by (now rewrite map_length, seq_length).
  destruct w as [|w].
  - cbn [Nat.mul Nat.add nth]. rewrite app_nth1 by (rewrite Ll; exact Hi). rewrite (nth_indep _ _ (x, O)) by (rewrite Ll; exact Hi).
    change (x, O) with ((fun y => (x, y)) O). rewrite map_nth, seq_nth by exact Hi. reflexivity.
  - rewrite app_nth2 by (rewrite Ll; cbn; lia). rewrite Ll. replace (S w * N + i - N)%nat with (w * N + i)%nat by (cbn; lia). apply IH; [exact Hi|lia].
Qed.
Lemma length_prod_seq {A} (W : list A) N : List.length (list_prod W (seq 0 N)) = (List.length W * N)%nat.
Proof. rewrite prod_length, seq_length. reflexivity. Qed.
Lemma nth_sites L W w i : (i < List.length (points L))%nat -> (w < List.length W)%nat ->
  nth (w * List.length (points L) + i) (map (site_of L) (list_prod W (seq 0 (List.length (points L))))) v0 = vadd (shift (nth w W []) (vectors L)) (nth i (points L) v0).
Proof.
  intros Hi Hw. rewrite (nth_indep _ v0 (site_of L ([], O))).
  - rewrite map_nth, nth_prod_seq by auto. unfold site_of. cbn [fst snd]. now rewrite comb_shift.
  - rewrite map_length, length_prod_seq. nia.
Qed.

(** ** pairs *)
Lemma Rleb_iff a b : Rleb a b = true <-> a <= b.
Proof. unfold Rleb. destruct (Rle_dec a b); split; congruence || lra. Qed.
Lemma in_query_pairs sites r i j : In (i, j) (query_pairs sites r) <-> (i < j < List.length sites)%nat /\ dist (nth i sites v0) (nth j sites v0) <= r.
Proof.
  unfold query_pairs. rewrite filter_In, in_flat_map. cbn [fst snd]. rewrite Rleb_iff. split.
  - intros [(x & Hx & Hp) D]. apply in_map_iff in Hp as (y & [= -> ->] & Hy). apply in_seq in Hx, Hy. split; [lia|exact D].
  - intros [H D]. split; [|exact D]. exists i. split; [apply in_seq; lia|]. apply in_map_iff. exists j. split; [reflexivity|]. apply in_seq. lia.
Qed.
Lemma nodup_flat_map {A B} (f : A -> list B) l : NoDup l -> (forall x, In x l -> NoDup (f x)) -> (forall x y b, In x l -> In y l -> In b (f x) -> In b (f y) -> x = y) -> NoDup (flat_map f l).
Proof.
  induction l as [|x l IH]; intros Nl Nf Inj; cbn; [constructor|]. inversion Nl; subst. apply NoDup_app'.
  - apply Nf. now left.
  - apply IH; auto with datatypes. intros a b c Ha Hb. apply Inj; now right.
  - intros b Hb Hb'. apply in_flat_map in Hb' as (y & Hy & Hby). assert (x = y) by (eapply Inj; cbn; eauto). congruence.
Qed.
Lemma nodup_query_pairs sites r : NoDup (query_pairs sites r).
Proof.
  apply NoDup_filter, nodup_flat_map; [apply seq_NoDup| |].
  - intros x _. apply FinFun.Injective_map_NoDup; [intros a b [= ->]; reflexivity|apply seq_NoDup].
  - intros x y [a b] _ _ Hx Hy. apply in_map_iff in Hx as (? & [= -> _] & _), Hy as (? & [= -> _] & _). reflexivity.
Qed.
Lemma existsb_pair p l : existsb (pair_eqb p) l = true <-> In p l.
Proof.
  rewrite existsb_exists. unfold pair_eqb. split.
  - intros ([a b] & Hin & E). destruct p as [x y]. cbn in E. apply andb_true_iff in E as [E1 E2]. apply Nat.eqb_eq in E1, E2. now subst.
  - intros H. exists p. split; [exact H|]. now rewrite !Nat.eqb_refl.
Qed.

(** ** the loop *)
Definition dec_point (L : lattice) (fuel prec : nat) (s : point) : point :=
  match decompose L fuel prec (Site (space_dim L) s) with Some (Ok (p, _)) => p | _ => v0 end.
Definition is_intra (L : lattice) (ab : nat * nat) : bool := Nat.ltb (snd ab) (List.length (points L)).
Definition is_inter (L : lattice) (ab : nat * nat) : bool := negb (Nat.ltb (snd ab) (List.length (points L))) && Nat.ltb (fst ab) (List.length (points L)).
Lemma bond_loop_spec L fuel prec fold sites : forall pairs a b I J,
  bond_loop L fuel prec fold sites pairs a b = Some (Ok (I, J)) ->
  I = a ++ map (fun ab => (nth (fst ab) sites v0, nth (snd ab) sites v0)) (filter (is_intra L) pairs) /\
  J = b ++ map (fun ab => (nth (fst ab) sites v0, if fold then dec_point L fuel prec (nth (snd ab) sites v0) else nth (snd ab) sites v0)) (filter (is_inter L) pairs) /\
  forall ab, In ab pairs -> is_inter L ab = true -> exists r, decompose L fuel prec (Site (space_dim L) (nth (snd ab) sites v0)) = Some (Ok r).
Proof.
  induction pairs as [|[i j] pairs IH]; intros a b I J H; cbn [bond_loop] in H.
  - injection H as <- <-. cbn. rewrite !app_nil_r. repeat split; auto. intros ab [].
  - cbn [filter]. unfold is_intra at 1, is_inter at 1. cbn [fst snd]. destruct (Nat.ltb j (List.length (points L))) eqn:Ej; cbn [negb andb].
    + apply IH in H as (-> & -> & D). rewrite <- app_assoc. split; [reflexivity|]. split; [reflexivity|].
      intros ab [<-|Hab] Hi; [unfold is_inter in Hi; cbn [fst snd] in Hi; rewrite Ej in Hi; discriminate|auto].
    + destruct (Nat.ltb i (List.length (points L))) eqn:Ei.
      * destruct (decompose L fuel prec (Site (space_dim L) (nth j sites v0))) as [[[p t]|e]|] eqn:Ed; try discriminate.
        apply IH in H as (-> & -> & D). split; [reflexivity|]. split.
        -- rewrite <- app_assoc. cbn [map app fst snd]. unfold dec_point at 2. rewrite Ed. destruct fold; reflexivity.
        -- intros ab [<-|Hab] Hi; [cbn [snd]; rewrite Ed; eauto|auto].
      * apply IH in H as (-> & -> & D). split; [reflexivity|]. split; [reflexivity|].
        intros ab [<-|Hab] Hi; [unfold is_inter in Hi; cbn [fst snd] in Hi; rewrite Ej, Ei in Hi; discriminate|auto].
Qed.
Lemma bond_loop_total L fuel prec fold sites : forall pairs a b,
  (forall ab, In ab pairs -> is_inter L ab = true -> exists r, decompose L fuel prec (Site (space_dim L) (nth (snd ab) sites v0)) = Some (Ok r)) ->
  exists I J, bond_loop L fuel prec fold sites pairs a b = Some (Ok (I, J)).
Proof.
  induction pairs as [|[i j] pairs IH]; intros a b H; cbn [bond_loop]; [eauto|].
  destruct (Nat.ltb j (List.length (points L))) eqn:Ej; [apply IH; auto with datatypes|].
  destruct (Nat.ltb i (List.length (points L))) eqn:Ei; [|apply IH; auto with datatypes].
  destruct (H (i, j) (or_introl eq_refl)) as ([p t] & Ed); [unfold is_inter; cbn [fst snd]; now rewrite Ej, Ei|]. cbn [snd] in Ed. rewrite Ed. apply IH; auto with datatypes.
Qed.
