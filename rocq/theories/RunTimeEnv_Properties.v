(** C48: RunTimeEnv (tools/runtimeenv.py). *)
From Coq Require Import String List ZArith Bool Arith Lia.
From Verif Require Import Py RunTimeEnv_Model RunTimeEnv_Spec RunTimeEnv_Proofs.
Import ListNotations.
Local Open Scope string_scope.

Section C48.
(** What the operating system, the clock, the interpreter and mkl answer: arbitrary. *)
Variable name_time : nat -> Z.
Variable text_time : nat -> string.
Variables exc_type exc_value exc_tb : exn -> string.
Variable get_max_threads : Z -> Z.
Notation exec := (exec name_time text_time exc_type exc_value exc_tb get_max_threads).
Notation block := (block name_time text_time exc_type exc_value exc_tb get_max_threads).

(** After any properly nested program, finished or aborted by an exception,
    sys.stdout is what it was. *)
Theorem C48_stdout_restored : forall l w,
  all_nested [] l -> stdout_open w -> out (fst (block l w)) = out w.
Proof.
  intros l w Hn So. destruct (block_run name_time text_time exc_type exc_value exc_tb get_max_threads l (rds_of w) [] w Hn So (fun _ => eq_refl)) as (w' & E & P).
  rewrite E. apply (p_out _ _ _ _ _ P).
Qed.

(** ... every log opened meanwhile is closed, and the files that were open stay open. *)
Theorem C48_logs_closed : forall l w h hd,
  all_nested [] l -> stdout_open w -> nth_error (handles (fst (block l w))) h = Some hd ->
  match nth_error (handles w) h with
  | None => h_open hd = false
  | Some hd0 => h_open hd = h_open hd0 /\ h_name hd = h_name hd0
  end.
Proof.
  intros l w h hd Hn So. destruct (block_run name_time text_time exc_type exc_value exc_tb get_max_threads l (rds_of w) [] w Hn So (fun _ => eq_refl)) as (w' & E & P).
  rewrite E. cbn [fst]. intros H. destruct (nth_error (handles w) h) as [hd0|] eqn:H0.
  - apply (p_old _ _ _ _ _ P) in H0. rewrite H in H0. injection H0 as ->. split; [apply bump_open|apply bump_name].
  - apply (p_new _ _ _ _ _ P h hd H0 H).
Qed.

(** The program ends with the exception it would have without the environments
    (they swallow none and add none but the ValueError of a bad thread number),
    and exactly the text printed outside every redirecting environment reaches
    the original stdout. *)
Theorem C48_behaves_like : forall l w,
  all_nested [] l -> stdout_open w ->
  snd (block l w) = snd (saids (rds_of w) l) /\
  (out w = Console -> console (fst (block l w)) = console w ++ fst (saids (rds_of w) l)) /\
  (forall h, out w = Log h -> console (fst (block l w)) = console w /\
     (injective name_time -> fileinv name_time w -> forall hd, nth_error (handles w) h = Some hd ->
        files (fst (block l w)) (h_name hd) = option_map (fun c => c ++ fst (saids (rds_of w) l)) (files w (h_name hd)))).
Proof.
  intros l w Hn So. destruct (block_run name_time text_time exc_type exc_value exc_tb get_max_threads l (rds_of w) [] w Hn So (fun _ => eq_refl)) as (w' & E & P).
  rewrite E. cbn [fst snd]. split; auto. split.
  - intros Ho. rewrite (p_console _ _ _ _ _ P), Ho. reflexivity.
  - intros h Ho. split.
    + rewrite (p_console _ _ _ _ _ P), Ho. apply sapp_nil.
    + intros Hi Hf hd Hh. destruct (p_files _ _ _ _ _ P Hi Hf) as [_ G]. rewrite (G h hd Hh), Ho. cbn [grow]. now rewrite Nat.eqb_refl.
Qed.

(** A redirecting with statement leaves behind, closed, a log that holds the
    header, exactly what its body printed (outside inner redirections), and the
    footer that reports the body's exception -- provided no two logs are opened
    within the same second. *)
Theorem C48_log_contents : forall path tn body w,
  all_nested [] body -> stdout_open w -> (forall t, tn = Some t -> (0 < t)%Z) ->
  injective name_time -> fileinv name_time w ->
  let w' := fst (exec (CWithNew true path tn body) w) in
  exists t1 t2 hd,
    nth_error (handles w') (List.length (handles w)) = Some hd /\ h_open hd = false /\ fst (h_name hd) = path /\
    files w' (h_name hd) = Some (log_text t1 (fst (saids (rds_of w) body))
                                   (footer exc_type exc_value exc_tb (snd (saids (rds_of w) body))) t2) /\
    snd (exec (CWithNew true path tn body) w) = snd (saids (rds_of w) body).
Proof.
  intros path tn body w Hn So Ht Hi Hf w'. unfold w'. clear w'.
  destruct (with_new_rd name_time text_time exc_type exc_value exc_tb get_max_threads (rds_of w) [] path tn body w Hn) as (w' & t1 & t2 & E & P & Nh & Fl); auto.
  { apply Forall_forall. intros c _. apply all_run. }
  exists t1, t2, {| h_name := (path, name_time (opened w));
                    h_pos := String.length (log_text t1 (fst (saids (rds_of w) body)) (footer exc_type exc_value exc_tb (snd (saids (rds_of w) body))) t2);
                    h_open := false |}.
  rewrite E. cbn [fst snd]. split; [exact Nh|]. cbn [h_open h_name fst].
  split; [reflexivity|]. split; [reflexivity|]. split; [exact (Fl Hi Hf)|reflexivity].
Qed.

(** The premise about files holds before anything is opened and is kept by every program. *)
Theorem C48_files_invariant :
  (forall w, handles w = [] -> fileinv name_time w) /\
  (forall l w, all_nested [] l -> stdout_open w -> injective name_time -> fileinv name_time w ->
     fileinv name_time (fst (block l w)) /\ stdout_open (fst (block l w))).
Proof.
  split.
  - intros w H. unfold fileinv. rewrite H. split; [|split]; intros [|h]; discriminate.
  - intros l w Hn So Hi Hf.
    destruct (block_run name_time text_time exc_type exc_value exc_tb get_max_threads l (rds_of w) [] w Hn So (fun _ => eq_refl)) as (w' & E & P).
    rewrite E. split; [apply (p_files _ _ _ _ _ P Hi Hf)|]. exact (post_open _ _ _ _ _ P So).
Qed.

(** A thread number that is not positive is refused before anything changes. *)
Theorem C48_bad_threads : forall rd path t body w, (t <= 0)%Z ->
  exec (CWithNew rd path (Some t) body) w = (w, Some ValueError).
Proof. intros. rewrite exec_new. cbn [init]. destruct (Z.ltb_spec 0 t); [lia|reflexivity]. Qed.

(** The thread setting, on the other hand, is not restored: it becomes
    whatever mkl reports as its maximum when the environment is left. *)
Theorem C48_threads_after : forall rd path t w, (0 < t)%Z ->
  stdout_open w ->
  threads (fst (exec (CWithNew rd path (Some t) []) w)) = get_max_threads t.
Proof.
  intros rd path t w Ht So. rewrite exec_new. cbn [init]. destruct (Z.ltb_spec 0 t); [|lia]. destruct rd.
  - set (i := {| i_threads := t; i_rd := true; i_path := path; i_stdout := None; i_fp := None |}).
    destruct (enter_rd name_time text_time [] i w eq_refl) as (i1 & w0 & w1 & t1 & Ee & O & P1 & A1 & A2 & A3 & A4 & A5 & T1).
    rewrite Ee. cbn [RunTimeEnv_Model.block].
    pose proof (post_open _ _ _ _ _ P1 (opens_open _ _ _ _ O)) as S1.
    assert (O2 : out w1 = Log (List.length (handles w))) by (rewrite (p_out _ _ _ _ _ P1); apply (o_out _ _ _ _ O)).
    unfold stdout_open in S1. rewrite O2 in S1. destruct S1 as (hd & Nh & Oh).
    destruct (exit_rd name_time text_time exc_type exc_value exc_tb get_max_threads [] i1 None w1 _ hd (out w) A1 A4 A5 O2 Nh Oh) as (w3 & t2 & P3 & Ex & T3).
    rewrite Ex. destruct (leave name_time [] w _ w0 _ w3 O (post_trans _ _ _ _ _ _ _ P1 P3)) as (w4 & E4 & P4 & T4 & _).
    rewrite E4. cbn [after_exit fst]. rewrite T4, T3, T1. reflexivity.
  - rewrite enter_plain by reflexivity. cbn [RunTimeEnv_Model.block]. rewrite exit_plain by reflexivity. reflexivity.
Qed.
End C48.
Print Assumptions C48_stdout_restored.
Print Assumptions C48_logs_closed.
Print Assumptions C48_behaves_like.
Print Assumptions C48_log_contents.
Print Assumptions C48_files_invariant.
Print Assumptions C48_bad_threads.
Print Assumptions C48_threads_after.

(** ** Concrete environments: mkl reports the current setting. *)
Definition tt_ (n : nat) : string := "t".
Definition et (e : exn) : string := "e".
Definition fresh (l : list inst) : world :=
  {| out := Console; console := ""; handles := []; files := fun _ => None; threads := 8; opened := 0; tick := 0; insts := l |}.
Definition env0 : inst := {| i_threads := 2; i_rd := true; i_path := 0; i_stdout := None; i_fp := None |}.

(** Refuted without proper nesting: re-entering an active instance leaves
    sys.stdout redirected to the first log, which stays open. *)
Theorem C48_reentrant_refuted :
  let w := fst (exec Z.of_nat tt_ et et et (fun z => z) (CWith 0 [CWith 0 [CPrint "x"]]) (fresh [env0])) in
  out w = Log 0 /\ exists hd, nth_error (handles w) 0 = Some hd /\ h_open hd = true.
Proof.
  cbv zeta. split; [vm_compute; reflexivity|].
  match goal with |- exists hd, ?x = _ /\ _ => destruct x as [hd|] eqn:E end.
  - exists hd. split; auto. vm_compute in E. injection E as <-. reflexivity.
  - vm_compute in E. discriminate.
Qed.
Print Assumptions C48_reentrant_refuted.

(** Refuted: two logs opened within the same second in the same directory are
    one file; the inner environment overwrites what the outer one had logged. *)
Theorem C48_same_second_refuted :
  let prog := CWithNew true 0 (Some 1%Z) [CPrint "outer text"; CWithNew true 0 (Some 1%Z) [CPrint "inner"]] in
  let w := fst (exec (fun _ => 7%Z) tt_ et et et (fun z => z) prog (fresh [])) in
  nested [] prog /\
  files w (0%Z, 7%Z) <> Some (log_text "t" ("outer text" ++ newline) (footer et et et None) "t") /\
  files w (0%Z, 7%Z) <> Some (log_text "t" ("inner" ++ newline) (footer et et et None) "t").
Proof. vm_compute. repeat split; discriminate. Qed.
Print Assumptions C48_same_second_refuted.

(** Refuted: eight threads before, one thread afterwards. *)
Theorem C48_threads_restored_refuted :
  threads (fresh []) = 8%Z /\
  threads (fst (exec Z.of_nat tt_ et et et (fun z => z) (CWithNew true 0 (Some 1%Z) []) (fresh []))) = 1%Z.
Proof. split; [reflexivity|vm_compute; reflexivity]. Qed.
Print Assumptions C48_threads_restored_refuted.

(** Non-vacuity: a nested program with a re-used instance, an exception inside
    two environments, caught outside; the console gets only "before", "after". *)
Definition prog : list cmd :=
  [CPrint "before"; CWith 0 [CPrint "a"];
   CTry [CWith 0 [CPrint "b"; CWithNew true 1 None [CPrint "c"; CRaise ValueError; CPrint "never"]; CPrint "never"]];
   CPrint "after"; CWithNew false 0 None [CRaise KeyError]].
Example C48_example :
  all_nested [] prog /\ stdout_open (fresh [env0]) /\ injective Z.of_nat /\ fileinv Z.of_nat (fresh [env0]) /\
  saids (rds_of (fresh [env0])) prog = ("before" ++ newline ++ "after" ++ newline, Some KeyError) /\
  let w := fst (block Z.of_nat tt_ et et et (fun z => z) prog (fresh [env0])) in
  out w = Console /\ console w = "before" ++ newline ++ "after" ++ newline /\
  files w (0%Z, 1%Z) = Some (log_text "t" ("b" ++ newline) (footer et et et (Some ValueError)) "t") /\
  files w (1%Z, 2%Z) = Some (log_text "t" ("c" ++ newline) (footer et et et (Some ValueError)) "t") /\
  map h_open (handles w) = [false; false; false].
Proof.
  split. { cbn. intuition. }
  split; [exact I|]. split; [intros j k; apply Nat2Z.inj|].
  split; [apply (proj1 (C48_files_invariant Z.of_nat tt_ et et et (fun z => z))); reflexivity|].
  split; [vm_compute; reflexivity|]. vm_compute. repeat split.
Qed.
