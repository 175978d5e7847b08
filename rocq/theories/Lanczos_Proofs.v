(** Lemmas for C43, C44. *)
From Coq Require Import Reals List ZArith Bool Arith Lia Lra.
From Coquelicot Require Import Complex.
From Verif Require Import Py CVec Lanczos_Model Lanczos_Spec.
Import ListNotations.
Local Open Scope nat_scope.
Local Open Scope C_scope.

Section Run.
  Context {K : Type}.
  Variables (n : nat) (M : cmat) (threshold : R) (ket0 : vec).
  Hypothesis HM : hermitian n M.
  Hypothesis Hthr : (0 <= threshold)%R.

  (** The (possibly infinite) sequence of kets, ignoring the stopping test. *)
  Definition resid (ket old : vec) : vec :=
    vsub (vsub (mv n M ket) (vscale (inner n ket (mv n M ket)) ket)) (vscale (inner n old (mv n M ket)) old).
  Fixpoint pairs (k : nat) : vec * vec :=
    match k with
    | O => (ket0, vzero)
    | S k' => let '(ket, old) := pairs k' in
              (fun i => resid ket old i / RtoC (norm n (resid ket old)), ket)
    end.
  Definition kt k := fst (pairs k).
  Definition od k := snd (pairs k).
  Definition rs k := resid (kt k) (od k).
  Definition nr k := norm n (rs k).
  Definition al k := inner n (kt k) (mv n M (kt k)).
  Definition be k := inner n (od k) (mv n M (kt k)).
  Lemma od_S k : od (S k) = kt k.
  Proof. unfold od, kt. cbn [pairs]. now destruct (pairs k). Qed.
  Lemma od_0 : od 0 = vzero. Proof. reflexivity. Qed.
  Lemma kt_S k : kt (S k) = fun i => rs k i / RtoC (nr k).
  Proof. unfold nr, rs. unfold kt, od. cbn [pairs]. now destruct (pairs k). Qed.
  Lemma pairs_S k : pairs (S k) = (fun i => rs k i / RtoC (nr k), kt k).
  Proof. unfold nr, rs. unfold kt, od. cbn [pairs]. now destruct (pairs k). Qed.

  (** M kt_k = al kt_k + be od_k + nr kt_(k+1). *)
  Lemma three_term k i : nr k <> 0%R -> mv n M (kt k) i = al k * kt k i + be k * od k i + RtoC (nr k) * kt (S k) i.
  Proof.
    intros H. rewrite kt_S. unfold rs at 1, resid, vsub, vscale. fold (al k) (be k).
    field. now apply RtoC_neq0.
  Qed.

  Hypothesis Hket0 : inner n ket0 ket0 = c1.
  Definition delta (i j : nat) : C := if Nat.eqb i j then c1 else c0.

  Lemma inner_three k u : nr k <> 0%R ->
    inner n u (mv n M (kt k)) = al k * inner n u (kt k) + be k * inner n u (od k) + RtoC (nr k) * inner n u (kt (S k)).
  Proof.
    intros H. rewrite <- !inner_scale_r, <- !inner_add_r. apply inner_ext; [intros i _; reflexivity|].
    intros i _. rewrite three_term by assumption. reflexivity.
  Qed.
  Lemma inner_kt_S u k : nr k <> 0%R -> inner n u (kt (S k)) = inner n u (rs k) / RtoC (nr k).
  Proof.
    intros H. transitivity (inner n u (vscale (/ RtoC (nr k)) (rs k))).
    - apply inner_ext; [intros i _; reflexivity|]. intros i _. rewrite kt_S. unfold vscale, Cdiv. ring.
    - rewrite inner_scale_r. unfold Cdiv. ring.
  Qed.
  Lemma norm_kt_S k : nr k <> 0%R -> inner n (kt (S k)) (kt (S k)) = c1.
  Proof.
    intros H. rewrite inner_kt_S by assumption. rewrite <- (Cj_Cj (inner n (kt (S k)) (rs k))), inner_conj, inner_kt_S by assumption.
    rewrite Cj_div, Cj_R, inner_conj, inner_self, <- norm_sq. fold (nr k). rewrite RtoC_mult. unfold c1. field. now apply RtoC_neq0.
  Qed.

  (** Orthonormality as long as no residual vanishes. *)
  Lemma ortho m : (forall j, (j < m)%nat -> nr j <> 0%R) ->
    forall i j, (i <= m)%nat -> (j <= m)%nat -> inner n (kt i) (kt j) = delta i j.
  Proof.
    induction m as [|m IH]; intros Hn i j Hi Hj.
    - replace i with 0%nat by lia. replace j with 0%nat by lia. exact Hket0.
    - assert (IHm := IH (fun j Hj => Hn j (Nat.lt_lt_succ_r _ _ Hj))). clear IH.
      assert (Hm : nr m <> 0%R) by (apply Hn; lia).
      assert (KEY : forall i, (i <= m)%nat -> inner n (kt i) (kt (S m)) = c0).
      { clear i j Hi Hj. intros i Hi. rewrite inner_kt_S by assumption.
        replace (inner n (kt i) (rs m)) with c0; [unfold c0; field; now apply RtoC_neq0|]. symmetry.
        unfold rs, resid. rewrite !inner_sub_r, !inner_scale_r. fold (al m) (be m).
        destruct (Nat.eq_dec i m) as [->|Ei].
        - rewrite (IHm m m) by lia. unfold delta. rewrite Nat.eqb_refl.
          assert (E : inner n (kt m) (od m) = c0 ).
          { destruct m as [|m']; [apply inner_zero_r|]. rewrite od_S, IHm by lia. unfold delta. destruct (Nat.eqb_spec (S m') m'); [lia|reflexivity]. }
          rewrite E. fold (al m). unfold c0, c1. ring.
        - rewrite (IHm i m) by lia. unfold delta. destruct (Nat.eqb_spec i m) as [|_]; [contradiction|].
          destruct m as [|m']; [lia|]. rewrite od_S.
          destruct (Nat.eq_dec i m') as [->|Ei'].
          + rewrite (IHm m' m') by lia. unfold delta. rewrite Nat.eqb_refl. unfold be. rewrite od_S. unfold c0, c1. ring.
          + rewrite (IHm i m') by lia. unfold delta. destruct (Nat.eqb_spec i m') as [|_]; [contradiction|].
            rewrite hermitian_move by assumption. rewrite <- inner_conj.
            rewrite inner_three by (apply Hn; lia).
            rewrite (IHm (S m') i), (IHm (S m') (S i)) by lia. unfold delta.
            destruct (Nat.eqb_spec (S m') i); [lia|]. destruct (Nat.eqb_spec (S m') (S i)); [lia|].
            assert (E : inner n (kt (S m')) (od i) = c0).
            { destruct i as [|i']; [apply inner_zero_r|]. rewrite od_S, IHm by lia. unfold delta. destruct (Nat.eqb_spec (S m') i'); [lia|reflexivity]. }
            rewrite E. replace (al i * c0 + be i * c0 + RtoC (nr i) * c0) with c0 by (unfold c0; ring).
            rewrite Cj_0. unfold c0. ring. }
      destruct (Nat.eq_dec i (S m)) as [->|Ei], (Nat.eq_dec j (S m)) as [->|Ej].
      + unfold delta. rewrite Nat.eqb_refl. now apply norm_kt_S.
      + rewrite <- inner_conj, KEY, Cj_0 by lia. unfold delta. destruct (Nat.eqb_spec (S m) j); [lia|reflexivity].
      + rewrite KEY by lia. unfold delta. destruct (Nat.eqb_spec i (S m)); [lia|reflexivity].
      + apply IHm; lia.
  Qed.

  (** Matrix elements. *)
  Definition tri (i j : nat) : R :=
    if Nat.eqb i j then Re (al i) else if Nat.eqb (S i) j then nr i else if Nat.eqb i (S j) then nr j else 0%R.
  Lemma tri_upper d i j : (forall k, (S k < d)%nat -> nr k <> 0%R) -> (i < j)%nat -> (j < d)%nat ->
    inner n (kt i) (mv n M (kt j)) = RtoC (tri i j).
  Proof.
    intros Hn Hi Hj. rewrite hermitian_move by assumption. rewrite <- inner_conj, inner_three by (apply Hn; lia).
    assert (O : forall a b, (a <= d - 1)%nat -> (b <= d - 1)%nat -> inner n (kt a) (kt b) = delta a b) by (apply ortho; intros; apply Hn; lia).
    rewrite (O j i), (O j (S i)) by lia.
    assert (E : inner n (kt j) (od i) = c0).
    { destruct i as [|i']; [apply inner_zero_r|]. rewrite od_S, O by lia. unfold delta. destruct (Nat.eqb_spec j i'); [lia|reflexivity]. }
    rewrite E. unfold delta, tri. destruct (Nat.eqb_spec j i); [lia|]. destruct (Nat.eqb_spec i j); [lia|].
    rewrite (Nat.eqb_sym j (S i)). destruct (Nat.eqb_spec (S i) j).
    - replace (al i * c0 + be i * c0 + RtoC (nr i) * c1) with (RtoC (nr i)) by (unfold c0, c1; ring). apply Cj_R.
    - destruct (Nat.eqb_spec i (S j)); [lia|].
      replace (al i * c0 + be i * c0 + RtoC (nr i) * c0) with c0 by (unfold c0; ring). apply Cj_0.
  Qed.
  Lemma tri_sym i j : tri i j = tri j i.
  Proof.
    unfold tri. rewrite (Nat.eqb_sym j i). destruct (Nat.eqb_spec i j) as [->|]; [reflexivity|].
    rewrite (Nat.eqb_sym (S j) i), (Nat.eqb_sym j (S i)).
    destruct (Nat.eqb_spec (S i) j), (Nat.eqb_spec i (S j)); try reflexivity. lia.
  Qed.
  Lemma tri_ok d i j : (forall k, (S k < d)%nat -> nr k <> 0%R) -> (i < d)%nat -> (j < d)%nat ->
    inner n (kt i) (mv n M (kt j)) = RtoC (tri i j).
  Proof.
    intros Hn Hi Hj. destruct (Nat.lt_trichotomy i j) as [L|[->|L]].
    - now apply (tri_upper d).
    - unfold tri. rewrite Nat.eqb_refl. apply hermitian_real, HM.
    - rewrite hermitian_move, <- inner_conj by assumption. rewrite (tri_upper d j i) by assumption. rewrite Cj_R. f_equal. apply tri_sym.
  Qed.
  Lemma be_S d k : (forall k, (S k < d)%nat -> nr k <> 0%R) -> (S k < d)%nat -> be (S k) = RtoC (nr k).
  Proof.
    intros Hn Hk. unfold be. rewrite od_S, (tri_upper d) by (try assumption; lia). unfold tri.
    destruct (Nat.eqb_spec k (S k)); [lia|]. now rewrite Nat.eqb_refl.
  Qed.
  (** The residual of the last ket is what the algorithm's test looks at. *)
  Lemma rs_residual d : (forall k, (k < d)%nat -> nr k <> 0%R) ->
    veqn n (rs d) (residual n M (S d) kt (kt d)).
  Proof.
    intros Hn i Hi. unfold rs, resid, residual, vsub, vscale. fold (al d) (be d). cbn [csum]. fold (al d).
    replace (csum d (fun k => inner n (kt k) (mv n M (kt d)) * kt k i)) with (be d * od d i); [ring|].
    destruct d as [|d']; [unfold od; cbn; unfold vzero, c0; ring|].
    rewrite od_S. cbn [csum].
    rewrite csum_zero.
    - unfold be. rewrite od_S. unfold c0. ring.
    - intros k Hk. rewrite (tri_upper (S (S d'))) by (try lia; intros; apply Hn; lia). unfold tri.
      destruct (Nat.eqb_spec k (S d')); [lia|]. destruct (Nat.eqb_spec (S k) (S d')); [lia|]. destruct (Nat.eqb_spec k (S (S d'))); [lia|].
      unfold c0. ring.
  Qed.

  (** ** The loop *)
  Variable vectors : list (K * vec).
  Definition mkstep k : step := MkStep (Re (al k)) (Re (be k)) (map (fun p : K * vec => (fst p, inner n (kt k) (snd p))) vectors).
  Lemma loop_spec fuel : forall k, exists d, (d <= fuel)%nat /\
    loop n M threshold fuel vectors (kt k) (od k) = map mkstep (seq k d) /\
    (forall j, (S j < d)%nat -> (threshold < nr (k + j))%R) /\
    (d = fuel \/ exists d', d = S d' /\ (nr (k + d') <= threshold)%R).
  Proof.
    induction fuel as [|f IH]; intros k.
    - exists 0%nat. split; [lia|]. split; [reflexivity|]. split; [intros; lia|]. now left.
    - cbn [loop]. change (norm n _) with (nr k). destruct (Rlt_dec threshold (nr k)) as [L|L].
      + destruct (IH (S k)) as (d & H1 & H2 & H3 & H4). exists (S d). split; [lia|]. split; [|split].
        * cbn [seq map]. f_equal. rewrite <- H2, od_S, kt_S. reflexivity.
        * intros j Hj. destruct j as [|j]; [now rewrite Nat.add_0_r|]. replace (k + S j)%nat with (S k + j)%nat by lia. apply H3. lia.
        * destruct H4 as [->|(d' & -> & H4)]; [now left|]. right. exists (S d'). split; [reflexivity|].
          replace (k + S d')%nat with (S k + d')%nat by lia. assumption.
      + exists 1%nat. split; [lia|]. split; [reflexivity|]. split; [intros; lia|]. right. exists 0%nat. split; [reflexivity|].
        rewrite Nat.add_0_r. lra.
  Qed.

  (** ** Assembling the matrix *)
  Lemma nth_map_seq {A} (f : nat -> A) d i x : (i < d)%nat -> nth i (map f (seq 0 d)) x = f i.
  Proof.
    intros H. rewrite (nth_indep _ x (f 0%nat)) by (rewrite map_length, seq_length; assumption).
    rewrite map_nth, seq_nth by assumption. reflexivity.
  Qed.
  Lemma tl_map_seq {A} (f : nat -> A) d : tl (map f (seq 0 d)) = map (fun k => f (S k)) (seq 0 (d - 1)).
  Proof.
    destruct d as [|d]; [reflexivity|]. cbn [seq map tl]. rewrite <- seq_shift, map_map. f_equal. f_equal. lia.
  Qed.
  Lemma assemble d : (forall k, (S k < d)%nat -> nr k <> 0%R) ->
    let steps := map mkstep (seq 0 d) in
    exists m, bind (nd_add (np_diag (map (@st_A K) steps) 0 0) (np_diag (tl (map (@st_B K) steps)) 0 1))
                   (fun a => nd_add a (np_diag (tl (map (@st_B K) steps)) 1 0)) = Ok m /\
      nd_rows m = d /\ nd_cols m = d /\ forall i j, (i < d)%nat -> (j < d)%nat -> nd_el m i j = tri i j.
  Proof.
    intros Hn steps. unfold steps. rewrite !map_map, tl_map_seq. cbn [mkstep st_A st_B].
    set (As := map (fun x => Re (al x)) (seq 0 d)). set (Bs := map (fun k => Re (be (S k))) (seq 0 (d - 1))).
    assert (LA : length As = d) by (unfold As; now rewrite map_length, seq_length).
    assert (LB : length Bs = (d - 1)%nat) by (unfold Bs; now rewrite map_length, seq_length).
    unfold nd_add, np_diag. cbn [nd_rows nd_cols nd_el]. rewrite LA, LB.
    replace (d + 0 + 0)%nat with d by lia. replace (d - 1 + 0 + 1)%nat with (d - 1 + 1)%nat by lia.
    destruct (Nat.eq_dec d 0) as [->|Hd].
    - cbn. eexists. split; [reflexivity|]. cbn. split; [reflexivity|]. split; [reflexivity|]. intros; lia.
    - replace (d - 1 + 1)%nat with d by lia. replace (d - 1 + 1 + 0)%nat with d by lia.
      unfold bcast. rewrite !Nat.eqb_refl. cbn [bind nd_rows nd_cols nd_el]. replace (d + 0)%nat with d by lia. rewrite ?Nat.eqb_refl.
      eexists. split; [reflexivity|]. cbn [nd_rows nd_cols nd_el]. split; [reflexivity|]. split; [reflexivity|].
      intros i j Hi Hj.
      assert (B1 : forall x, (x < d)%nat -> bidx d x = x) by (intros x Hx; unfold bidx; destruct (Nat.eqb_spec d 1); lia).
      rewrite !(B1 i Hi), !(B1 j Hj), ?(B1 i Hi), ?(B1 j Hj). unfold tri.
      rewrite !Nat.add_0_r. replace (j + 1)%nat with (S j) by lia. replace (i + 1)%nat with (S i) by lia.
      destruct (Nat.eqb_spec i j) as [->|E1].
      + destruct (Nat.eqb_spec j (S j)); [lia|]. destruct (Nat.eqb_spec (S j) j); [lia|].
        rewrite Nat.min_id. unfold As. rewrite nth_map_seq by assumption. ring.
      + destruct (Nat.eqb_spec (S i) j) as [<-|E2].
        * destruct (Nat.eqb_spec i (S (S i))); [lia|]. rewrite Nat.min_l by lia. unfold Bs. rewrite nth_map_seq by lia.
          rewrite (be_S d) by (try assumption; lia). cbn [Re RtoC fst]. unfold Re. cbn. ring.
        * destruct (Nat.eqb_spec i (S j)) as [->|E3]; [|ring].
          rewrite Nat.min_r by lia. unfold Bs. rewrite nth_map_seq by lia.
          rewrite (be_S d) by (try assumption; lia). unfold Re. cbn. ring.
  Qed.

  (** ** Krylov spaces *)
  Lemma span_kt k : (forall j, (j < k)%nat -> nr j <> 0%R) -> in_span n (S k) (fun j => power n M j ket0) (kt k).
  Proof.
    intros Hn. enough (G : in_span n (S k) (fun j => power n M j ket0) (kt k) /\ in_span n (S k) (fun j => power n M j ket0) (od k)) by apply G.
    induction k as [|k IH].
    - split; [exists (fun _ => c1)|exists (fun _ => c0)]; intros i _; cbn; unfold kt, od, vzero, c0, c1; cbn; ring.
    - destruct IH as [(c & Hc) (e & He)]; [intros; apply Hn; lia|].
      assert (EXT : forall (a : nat -> C) i, csum (S (S k)) (fun j => (if Nat.ltb j (S k) then a j else c0) * power n M j ket0 i) = csum (S k) (fun j => a j * power n M j ket0 i)).
      { intros a i. change (csum (S (S k))) with (fun f => csum (S k) f + f (S k)). cbv beta. rewrite Nat.ltb_irrefl.
        transitivity (csum (S k) (fun j => a j * power n M j ket0 i) + c0); [|unfold c0; ring]. f_equal; [|unfold c0; ring].
        apply csum_ext. intros j Hj. destruct (Nat.ltb_spec j (S k)); [reflexivity|lia]. }
      split.
      + assert (H : nr k <> 0%R) by (apply Hn; lia).
        assert (MV : forall i, (i < n)%nat -> mv n M (kt k) i = csum (S k) (fun j => c j * power n M (S j) ket0 i)).
        { intros i Hi. transitivity (mv n M (fun i => csum (S k) (fun j => c j * power n M j ket0 i)) i).
          - apply mv_ext. exact Hc.
          - rewrite (mv_csum n M (S k) (fun j i => c j * power n M j ket0 i) i). apply csum_ext. intros j _.
            exact (mv_scale n M (c j) (power n M j ket0) i). }
        exists (fun j => / RtoC (nr k) * ((match j with O => c0 | S j' => c j' end) - al k * (if Nat.ltb j (S k) then c j else c0) - be k * (if Nat.ltb j (S k) then e j else c0))).
        intros i Hi. rewrite kt_S. unfold rs at 1, resid, vsub, vscale. fold (al k) (be k). rewrite (MV i Hi), (Hc i Hi), (He i Hi).
        rewrite <- (EXT c i), <- (EXT e i).
        transitivity (/ RtoC (nr k) * (csum (S (S k)) (fun j => (match j with O => c0 | S j' => c j' end) * power n M j ket0 i)
           - al k * csum (S (S k)) (fun j => (if Nat.ltb j (S k) then c j else c0) * power n M j ket0 i)
           - be k * csum (S (S k)) (fun j => (if Nat.ltb j (S k) then e j else c0) * power n M j ket0 i))).
        * assert (E0 : csum (S (S k)) (fun j => (match j with O => c0 | S j' => c j' end) * power n M j ket0 i) = csum (S k) (fun j => c j * power n M (S j) ket0 i)).
          { assert (SP : forall m f, csum (S m) f = f O + csum m (fun i => f (S i))).
            { intros m f. induction m as [|m IHm]; [cbn; unfold c0; ring|]. cbn [csum] in *. rewrite IHm. ring. }
            rewrite SP. unfold c0. ring. }
          rewrite E0. unfold Cdiv. ring.
        * rewrite <- !csum_mul_l, <- !csum_sub, <- csum_mul_l. apply csum_ext. intros j _. ring.
      + rewrite od_S. exists (fun j => if Nat.ltb j (S k) then c j else c0). intros i Hi. rewrite (EXT c i). now apply Hc.
  Qed.
  Lemma span_power k : (forall j, (j < k)%nat -> nr j <> 0%R) -> in_span n (S k) kt (power n M k ket0).
  Proof.
    induction k as [|k IH]; intros Hn.
    - exists (fun _ => c1). intros i _. cbn. unfold kt, c0, c1. cbn. ring.
    - destruct IH as (c & Hc); [intros; apply Hn; lia|].
      exists (fun j => (if Nat.ltb j (S k) then al j * c j else c0) + (match j with O => c0 | S j' => RtoC (nr j') * c j' end)
                       + (if Nat.ltb j k then be (S j) * c (S j) else c0)).
      intros i Hi. cbn [power].
      transitivity (mv n M (fun i => csum (S k) (fun j => c j * kt j i)) i); [now apply mv_ext|].
      rewrite (mv_csum n M (S k) (fun j i => c j * kt j i) i).
      transitivity (csum (S k) (fun j => c j * (al j * kt j i + be j * od j i + RtoC (nr j) * kt (S j) i))).
      { apply csum_ext. intros j Hj. rewrite <- three_term by (apply Hn; lia). exact (mv_scale n M (c j) (kt j) i). }
      assert (SP : forall m f, csum (S m) f = f O + csum m (fun i => f (S i))).
      { intros m f. induction m as [|m IHm]; [cbn; unfold c0; ring|]. cbn [csum] in *. rewrite IHm. ring. }
      transitivity (csum (S k) (fun j => al j * c j * kt j i) + csum (S k) (fun j => c j * be j * od j i) + csum (S k) (fun j => RtoC (nr j) * c j * kt (S j) i)).
      { rewrite <- !csum_add. apply csum_ext. intros. ring. }
      transitivity (csum (S (S k)) (fun j => (if Nat.ltb j (S k) then al j * c j else c0) * kt j i)
        + csum (S (S k)) (fun j => (match j with O => c0 | S j' => RtoC (nr j') * c j' end) * kt j i)
        + csum (S (S k)) (fun j => (if Nat.ltb j k then be (S j) * c (S j) else c0) * kt j i)).
      2:{ rewrite <- !csum_add. apply csum_ext. intros. ring. }
      assert (P1 : csum (S (S k)) (fun j => (if Nat.ltb j (S k) then al j * c j else c0) * kt j i) = csum (S k) (fun j => al j * c j * kt j i)).
      { change (csum (S (S k))) with (fun f => csum (S k) f + f (S k)). cbv beta. rewrite Nat.ltb_irrefl.
        transitivity (csum (S k) (fun j => al j * c j * kt j i) + c0); [|unfold c0; ring]. f_equal; [|unfold c0; ring].
        apply csum_ext. intros j Hj. destruct (Nat.ltb_spec j (S k)); [reflexivity|lia]. }
      assert (P2 : csum (S (S k)) (fun j => (match j with O => c0 | S j' => RtoC (nr j') * c j' end) * kt j i) = csum (S k) (fun j => RtoC (nr j) * c j * kt (S j) i)).
      { rewrite SP. unfold c0. ring. }
      assert (P3 : csum (S (S k)) (fun j => (if Nat.ltb j k then be (S j) * c (S j) else c0) * kt j i) = csum (S k) (fun j => c j * be j * od j i)).
      { rewrite (SP k). change (csum (S (S k))) with (fun f => csum k f + f k + f (S k)). cbv beta.
        rewrite Nat.ltb_irrefl. destruct (Nat.ltb_spec (S k) k); [lia|].
        rewrite od_0. unfold vzero.
        transitivity (csum k (fun j => (if Nat.ltb j k then be (S j) * c (S j) else c0) * kt j i)); [unfold c0; ring|].
        transitivity (csum k (fun j => c (S j) * be (S j) * od (S j) i)); [|unfold c0; ring].
        apply csum_ext. intros j Hj. rewrite od_S. destruct (Nat.ltb_spec j k); [|lia]. ring. }
      rewrite P1, P2, P3. ring.
  Qed.
End Run.
