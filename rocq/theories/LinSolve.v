(** [np.linalg.solve] in exact arithmetic: Gaussian elimination, with its
    correctness.  numpy (LAPACK gesv) factorises with partial pivoting; in exact
    arithmetic every pivoting order gives the unique solution, or finds the
    matrix singular (LinAlgError). *)
From Coq Require Import Reals Arith Lia Lra.
From Coquelicot Require Import Complex.
From Verif Require Import Py CVec.
Local Open Scope C_scope.

Lemma C_dec (z : C) : {z = c0} + {z <> c0}.
Proof.
  destruct z as [a b]. destruct (Req_EM_T a 0) as [->|H]; [destruct (Req_EM_T b 0) as [->|H]|].
  - left. reflexivity.
  - right. intros E. apply H. now injection E.
  - right. intros E. apply H. now injection E.
Qed.

(** The first row at or below [i] ([k] rows left) whose entry in column 0 is not zero. *)
Fixpoint find_pivot (A : cmat) (i k : nat) : option nat :=
  match k with
  | O => None
  | S k' => if C_dec (A i O) then find_pivot A (S i) k' else Some i
  end.
Definition swap_row (p i : nat) : nat := if Nat.eqb i 0 then p else if Nat.eqb i p then 0%nat else i.
(** Solve the n equations sum_j A i j x j = b i. *)
Fixpoint solve (n : nat) (A : cmat) (b : vec) : res vec :=
  match n with
  | O => Ok vzero
  | S m =>
      match find_pivot A 0 n with
      | None => Err LinAlgError
      | Some p =>
          let A1 := fun i j => A (swap_row p i) j in
          let b1 := fun i => b (swap_row p i) in
          let f := fun i => A1 (S i) O / A1 O O in
          match solve m (fun i j => A1 (S i) (S j) - f i * A1 O (S j)) (fun i => b1 (S i) - f i * b1 O) with
          | Err e => Err e
          | Ok y => Ok (fun i => match i with
                                 | O => (b1 O - csum m (fun j => A1 O (S j) * y j)) / A1 O O
                                 | S i' => y i'
                                 end)
          end
      end
  end.

Lemma csum_split n f : csum (S n) f = f O + csum n (fun i => f (S i)).
Proof. induction n as [|n IH]; [cbn; unfold c0; ring|]. cbn [csum] in *. rewrite IH. ring. Qed.

Lemma find_pivot_some A i k p : find_pivot A i k = Some p -> (i <= p < i + k)%nat /\ A p O <> c0.
Proof.
  revert i. induction k as [|k IH]; cbn; intros i H; [discriminate|].
  destruct (C_dec (A i O)).
  - apply IH in H. destruct H. split; [lia|assumption].
  - injection H as <-. split; [lia|assumption].
Qed.
Lemma find_pivot_none A i k : find_pivot A i k = None -> forall q, (i <= q < i + k)%nat -> A q O = c0.
Proof.
  revert i. induction k as [|k IH]; cbn; intros i H q Hq; [lia|].
  destruct (C_dec (A i O)) as [E|]; [|discriminate].
  destruct (Nat.eq_dec q i) as [->|]; [assumption|]. apply (IH (S i)); [assumption|lia].
Qed.
Lemma swap_row_lt p n i : (p < n)%nat -> (i < n)%nat -> (swap_row p i < n)%nat.
Proof. unfold swap_row. intros. destruct (Nat.eqb_spec i 0); [assumption|]. destruct (Nat.eqb_spec i p); lia. Qed.
Lemma swap_row_invol p i : swap_row p (swap_row p i) = i.
Proof.
  unfold swap_row. destruct (Nat.eqb_spec i 0) as [->|].
  - destruct (Nat.eqb_spec p 0); [congruence|]. now rewrite Nat.eqb_refl.
  - destruct (Nat.eqb_spec i p) as [->|E]; [reflexivity|].
    destruct (Nat.eqb_spec i 0); [contradiction|]. now destruct (Nat.eqb_spec i p).
Qed.

(** A x = b in the first n coordinates. *)
Definition solves (n : nat) (A : cmat) (x b : vec) : Prop := forall i, (i < n)%nat -> csum n (fun j => A i j * x j) = b i.
Definition nonsingular (n : nat) (A : cmat) : Prop := forall u, solves n A u vzero -> veqn n u vzero.

Section Step.
  Variables (m : nat) (A : cmat) (p : nat).
  Hypothesis Hp : (p < S m)%nat.
  Hypothesis Hp0 : A p O <> c0.
  Let A1 := fun i j => A (swap_row p i) j.
  Let f := fun i => A1 (S i) O / A1 O O.
  Let A2 := fun i j => A1 (S i) (S j) - f i * A1 O (S j).
  (** The system is equivalent to its first (swapped) row plus the reduced system. *)
  Lemma step_equiv x b : let b1 := fun i => b (swap_row p i) in
    solves (S m) A x b <->
    A1 O O * x O + csum m (fun j => A1 O (S j) * x (S j)) = b1 O /\
    solves m A2 (fun j => x (S j)) (fun i => b1 (S i) - f i * b1 O).
  Proof.
    intros b1. assert (E : solves (S m) A x b <-> (forall i, (i < S m)%nat -> csum (S m) (fun j => A1 i j * x j) = b1 i)).
    { split; intros H i Hi.
      - apply (H (swap_row p i)). now apply swap_row_lt.
      - specialize (H (swap_row p i) (swap_row_lt _ _ _ Hp Hi)). unfold A1, b1 in H. now rewrite swap_row_invol in H. }
    rewrite E. clear E.
    assert (A10 : A1 O O <> c0) by exact Hp0.
    assert (R : forall i, csum m (fun j => A2 i j * x (S j)) =
                 csum m (fun j => A1 (S i) (S j) * x (S j)) - f i * csum m (fun j => A1 O (S j) * x (S j))).
    { intros i. rewrite <- csum_mul_l, <- csum_sub. apply csum_ext. intros. unfold A2. ring. }
    split.
    - intros H. assert (H0 := H O ltac:(lia)). rewrite csum_split in H0. split; [assumption|].
      intros i Hi. specialize (H (S i) ltac:(lia)). rewrite csum_split in H. rewrite R, <- H, <- H0. unfold f. field. assumption.
    - intros [H0 H] i Hi. rewrite csum_split. destruct i as [|i]; [assumption|].
      specialize (H i ltac:(lia)). cbv beta in H. rewrite R in H. rewrite <- H0 in H.
      transitivity (A1 (S i) O * x O + (csum m (fun j => A1 (S i) (S j) * x (S j)) - f i * csum m (fun j => A1 O (S j) * x (S j))) + f i * csum m (fun j => A1 O (S j) * x (S j))); [ring|].
      rewrite H. unfold f. field. assumption.
  Qed.
End Step.

Lemma solves_ext n A x x' b b' : veqn n x x' -> veqn n b b' -> solves n A x b -> solves n A x' b'.
Proof. intros Hx Hb H i Hi. rewrite <- Hb, <- H by assumption. apply csum_ext. intros j Hj. now rewrite Hx. Qed.

(** Success: the solution, and the matrix is non-singular. *)
Lemma solve_ok n : forall A b x, solve n A b = Ok x -> solves n A x b /\ nonsingular n A.
Proof.
  induction n as [|m IH]; intros A b x H.
  - split; [intros i Hi; lia|intros u _ i Hi; lia].
  - cbn [solve] in H. destruct (find_pivot A 0 (S m)) as [p|] eqn:EP; [|discriminate].
    apply find_pivot_some in EP. destruct EP as [Hp Hp0]. assert (Hp' : (p < S m)%nat) by lia.
    cbv zeta in H. destruct (solve m _ _) as [y|] eqn:EY; [|discriminate]. injection H as <-.
    apply IH in EY. destruct EY as [EY NS]. split.
    + apply (step_equiv m A p Hp' Hp0). split; [|exact EY]. field. exact Hp0.
    + intros u Hu. apply (step_equiv m A p Hp' Hp0) in Hu. destruct Hu as [H0 H1].
      assert (Z : veqn m (fun j => u (S j)) vzero).
      { apply NS. eapply solves_ext; [| |exact H1]; intros i _; [reflexivity|]. unfold vzero, c0. ring. }
      intros [|i] Hi; [|apply (Z i); lia].
      rewrite csum_zero in H0.
      * assert (G : A (swap_row p 0) 0%nat * u 0%nat = c0). { change (vzero (swap_row p 0)) with c0 in H0. rewrite <- H0. unfold c0. ring. }
        destruct (Cmul_eq0 _ _ G) as [G'|G']; [contradiction|exact G'].
      * intros j Hj. rewrite (Z j Hj). unfold vzero, c0. ring.
Qed.
(** Failure: LinAlgError, and the matrix is singular. *)
Lemma solve_err n : forall A b e, solve n A b = Err e -> e = LinAlgError /\ ~ nonsingular n A.
Proof.
  induction n as [|m IH]; intros A b e H; [discriminate|].
  cbn [solve] in H. destruct (find_pivot A 0 (S m)) as [p|] eqn:EP.
  - apply find_pivot_some in EP. destruct EP as [Hp Hp0]. assert (Hp' : (p < S m)%nat) by lia.
    cbv zeta in H. destruct (solve m _ _) as [y|e'] eqn:EY; [discriminate|]. injection H as <-.
    apply IH in EY. destruct EY as [-> NS]. split; [reflexivity|]. intros NA. apply NS. intros u Hu.
    set (A10 := A (swap_row p 0) O).
    pose (w := fun i => match i with O => - csum m (fun j => A (swap_row p 0) (S j) * u j) / A10 | S i' => u i' end).
    assert (W : solves (S m) A w vzero).
    { apply (step_equiv m A p Hp' Hp0). split.
      - cbn [w]. unfold vzero. fold A10. change (A10 * (- csum m (fun j => A (swap_row p 0) (S j) * u j) / A10) + csum m (fun j => A (swap_row p 0) (S j) * u j) = c0).
        unfold c0. field. exact Hp0.
      - eapply solves_ext; [| |exact Hu]; intros i _; [reflexivity|]. unfold vzero, c0. ring. }
    intros i Hi. apply (NA w W (S i)). lia.
  - injection H as <-. split; [reflexivity|]. intros NA.
    pose (w := fun i => match i with O => c1 | S _ => c0 end).
    assert (W : solves (S m) A w vzero).
    { intros i Hi. rewrite csum_split. rewrite (find_pivot_none _ _ _ EP i ltac:(lia)).
      rewrite csum_zero; [unfold w, vzero, c0, c1; ring|]. intros j _. unfold w, c0. ring. }
    specialize (NA w W O ltac:(lia)). cbn in NA. apply (RtoC_neq0 1); [lra|exact NA].
Qed.
Lemma solve_unique n A x y b : nonsingular n A -> solves n A x b -> solves n A y b -> veqn n x y.
Proof.
  intros NS Hx Hy i Hi. assert (Z : solves n A (vsub x y) vzero).
  { intros k Hk. transitivity (csum n (fun j => A k j * x j) - csum n (fun j => A k j * y j)).
    - rewrite <- csum_sub. apply csum_ext. intros. unfold vsub. ring.
    - rewrite Hx, Hy by assumption. unfold vzero, c0. ring. }
  specialize (NS _ Z i Hi). unfold vsub, vzero in NS.
  transitivity (x i - y i + y i); [ring|]. rewrite NS. unfold c0. ring.
Qed.
(** The result is determined by the matrix and the right-hand side below n. *)
Lemma solve_nonsingular n A b : nonsingular n A -> exists x, solve n A b = Ok x.
Proof. intros H. destruct (solve n A b) as [x|e] eqn:E; [eauto|]. apply solve_err in E. now elim (proj2 E). Qed.
