(** Proofs about RunTimeEnv programs. *)
From Coq Require Import String List ZArith Bool Arith Lia.
From Verif Require Import Py RunTimeEnv_Model RunTimeEnv_Spec.
Import ListNotations.
Local Open Scope string_scope.

Lemma sapp_assoc (a b c : string) : (a ++ b) ++ c = a ++ (b ++ c).
Proof. induction a as [|x a IH]; cbn; congruence. Qed.
Lemma sapp_nil (a : string) : a ++ "" = a.
Proof. induction a as [|x a IH]; cbn; congruence. Qed.
Lemma slen_app (a b : string) : String.length (a ++ b) = String.length a + String.length b.
Proof. induction a as [|x a IH]; cbn; congruence. Qed.
Lemma stake_len s : stake (String.length s) s = s.
Proof. induction s as [|x s IH]; cbn; congruence. Qed.
Lemma sdrop_big s : forall n, String.length s <= n -> sdrop n s = "".
Proof. induction s as [|x s IH]; intros [|n] H; cbn in *; try reflexivity; try lia. apply IH. lia. Qed.
Lemma write_at_end s c : write_at (String.length c) s c = c ++ s.
Proof. unfold write_at. rewrite stake_len, sdrop_big by lia. now rewrite sapp_nil. Qed.

Lemma update_length {A} (l : list A) i x : i < List.length l -> List.length (update l i x) = List.length l.
Proof. intros H. unfold update. rewrite app_length, firstn_length. cbn [List.length]. rewrite skipn_length. lia. Qed.
Lemma nth_update {A} (l : list A) i x j : i < List.length l ->
  nth_error (update l i x) j = if Nat.eqb j i then Some x else nth_error l j.
Proof.
  intros H. unfold update. destruct (Nat.eqb_spec j i) as [->|E].
  - rewrite nth_error_app2; rewrite firstn_length, Nat.min_l by lia; [|lia]. now rewrite Nat.sub_diag.
  - destruct (Nat.lt_ge_cases j i).
    + rewrite nth_error_app1 by (rewrite firstn_length; lia).
      rewrite <- (firstn_skipn i l) at 2. rewrite nth_error_app1 by (rewrite firstn_length; lia). reflexivity.
    + rewrite nth_error_app2 by (rewrite firstn_length; lia). rewrite firstn_length, Nat.min_l by lia.
      destruct (j - i) as [|k] eqn:K; [lia|]. cbn [nth_error].
      rewrite <- (firstn_skipn (S i) l) at 2. rewrite nth_error_app2 by (rewrite firstn_length; lia).
      rewrite firstn_length, Nat.min_l by lia. f_equal. lia.
Qed.
Lemma fname_eqb_spec a b : reflect (a = b) (fname_eqb a b).
Proof.
  destruct a as [a1 a2], b as [b1 b2]. unfold fname_eqb. cbn.
  destruct (Z.eqb_spec a1 b1), (Z.eqb_spec a2 b2); constructor; congruence.
Qed.

Section P.
Variable name_time : nat -> Z.
Variable text_time : nat -> string.
Variables exc_type exc_value exc_tb : exn -> string.
Variable get_max_threads : Z -> Z.
Notation exec := (exec name_time text_time exc_type exc_value exc_tb get_max_threads).
Notation block := (block name_time text_time exc_type exc_value exc_tb get_max_threads).
Notation enter := (enter name_time text_time).
Notation exit_ := (exit_ text_time exc_type exc_value exc_tb get_max_threads).

(** The model's inner loop is [block]; the spec's is [saids]. *)
Lemma exec_try body w : exec (CTry body) w = (fst (block body w), None). Proof. reflexivity. Qed.
Lemma exec_new rd path tn body w : exec (CWithNew rd path tn body) w =
  match init get_max_threads rd path tn w with
  | Err e => (w, Some e)
  | Ok i => match enter i w with
            | (_, (w1, Some e)) => (w1, Some e)
            | (i1, (w1, None)) => let (w2, exc) := block body w1 in after_exit exc (exit_ i1 exc w2)
            end
  end.
Proof. reflexivity. Qed.
Lemma exec_with v body w : exec (CWith v body) w =
  match nth_error (insts w) v with
  | None => (w, Some IndexError)
  | Some i =>
    match enter i w with
    | (i1, (w1, Some e)) => (set_insts w1 (update (insts w1) v i1), Some e)
    | (i1, (w1, None)) =>
      let w1 := set_insts w1 (update (insts w1) v i1) in
      let (w2, exc) := block body w1 in
      match nth_error (insts w2) v with
      | None => (w2, Some IndexError)
      | Some i2 => after_exit exc (exit_ i2 exc w2)
      end
    end
  end.
Proof. reflexivity. Qed.

(** No two handles share a file, and every handle is at the end of its file. *)
Definition fileinv (w : world) : Prop :=
  (forall h hd, nth_error (handles w) h = Some hd -> exists j, j < opened w /\ snd (h_name hd) = name_time j) /\
  (forall h hd h' hd', nth_error (handles w) h = Some hd -> nth_error (handles w) h' = Some hd' ->
     h_name hd = h_name hd' -> h = h') /\
  (forall h hd, nth_error (handles w) h = Some hd ->
     exists c, files w (h_name hd) = Some c /\ String.length c = h_pos hd).
Definition injective := forall j k, name_time j = name_time k -> j = k.

Definition bump (o : stream) (h : nat) (n : nat) (hd : handle) : handle :=
  match o with
  | Log h' => if Nat.eqb h h' then {| h_name := h_name hd; h_pos := h_pos hd + n; h_open := h_open hd |} else hd
  | Console => hd
  end.
Definition grow (o : stream) (h : nat) (t : string) (c : option string) : option string :=
  match o with
  | Log h' => if Nat.eqb h h' then option_map (fun c => c ++ t) c else c
  | Console => c
  end.

(** [post act w t w']: between w and w' exactly the text t went to the current
    stdout, which is again current; everything opened meanwhile is closed. *)
Record post (act : list nat) (w : world) (t : string) (w' : world) : Prop := {
  p_out : out w' = out w;
  p_console : console w' = console w ++ (match out w with Console => t | _ => "" end);
  p_old : forall h hd, nth_error (handles w) h = Some hd -> nth_error (handles w') h = Some (bump (out w) h (String.length t) hd);
  p_new : forall h hd, nth_error (handles w) h = None -> nth_error (handles w') h = Some hd -> h_open hd = false;
  p_len : List.length (insts w') = List.length (insts w);
  p_static : forall v i, nth_error (insts w) v = Some i -> exists i', nth_error (insts w') v = Some i' /\
             i_rd i' = i_rd i /\ i_path i' = i_path i /\ i_threads i' = i_threads i;
  p_active : forall v, In v act -> nth_error (insts w') v = nth_error (insts w) v;
  p_opened : opened w <= opened w';
  p_files : injective -> fileinv w -> fileinv w' /\
            forall h hd, nth_error (handles w) h = Some hd -> files w' (h_name hd) = grow (out w) h t (files w (h_name hd))
}.

Lemma bump_name o h n hd : h_name (bump o h n hd) = h_name hd.
Proof. unfold bump. destruct o; auto. destruct (Nat.eqb _ _); auto. Qed.
Lemma bump_open o h n hd : h_open (bump o h n hd) = h_open hd.
Proof. unfold bump. destruct o; auto. destruct (Nat.eqb _ _); auto. Qed.

Lemma post_open act w t w' : post act w t w' -> stdout_open w -> stdout_open w'.
Proof.
  intros P. unfold stdout_open. rewrite (p_out _ _ _ _ P). destruct (out w) as [|h]; auto.
  intros (hd & H & Ho). eexists. split; [apply (p_old _ _ _ _ P), H|]. now rewrite bump_open.
Qed.
Lemma post_refl act w : post act w "" w.
Proof.
  constructor; auto.
  - destruct (out w); now rewrite sapp_nil.
  - intros h hd H. rewrite H. f_equal. unfold bump. destruct (out w); auto. destruct (Nat.eqb _ _); auto.
    destruct hd; cbn. f_equal. lia.
  - intros h hd H H'. congruence.
  - intros v i H. exists i. auto.
  - intros Hi Hf. split; auto. intros h hd H. unfold grow. destruct (out w); auto. destruct (Nat.eqb _ _); auto.
    destruct (files w (h_name hd)); cbn; auto. now rewrite sapp_nil.
Qed.
Lemma post_trans act w t w1 t' w2 : post act w t w1 -> post act w1 t' w2 -> post act w (t ++ t') w2.
Proof.
  intros P Q. pose proof (p_out _ _ _ _ P) as Eo.
  constructor.
  - rewrite (p_out _ _ _ _ Q). exact Eo.
  - rewrite (p_console _ _ _ _ Q), (p_console _ _ _ _ P), Eo. destruct (out w); rewrite ?sapp_nil; auto. now rewrite sapp_assoc.
  - intros h hd H. apply (p_old _ _ _ _ P) in H. apply (p_old _ _ _ _ Q) in H. rewrite H, Eo. f_equal.
    unfold bump. destruct (out w); auto. destruct (Nat.eqb _ _); auto. cbn. f_equal. rewrite slen_app. lia.
  - intros h hd H H'. destruct (nth_error (handles w1) h) as [hd1|] eqn:E.
    + pose proof (p_new _ _ _ _ P h hd1 H E) as C. apply (p_old _ _ _ _ Q) in E. rewrite E in H'. injection H' as <-.
      now rewrite bump_open.
    + apply (p_new _ _ _ _ Q h hd E H').
  - rewrite (p_len _ _ _ _ Q). apply (p_len _ _ _ _ P).
  - intros v i H. apply (p_static _ _ _ _ P) in H as (i1 & H1 & A1 & B1 & C1).
    apply (p_static _ _ _ _ Q) in H1 as (i2 & H2 & A2 & B2 & C2). exists i2. repeat split; congruence.
  - intros v H. rewrite (p_active _ _ _ _ Q) by auto. now apply (p_active _ _ _ _ P).
  - pose proof (p_opened _ _ _ _ P). pose proof (p_opened _ _ _ _ Q). lia.
  - intros Hi Hf. destruct (p_files _ _ _ _ P Hi Hf) as [F1 G1]. destruct (p_files _ _ _ _ Q Hi F1) as [F2 G2].
    split; auto. intros h hd H. pose proof (p_old _ _ _ _ P h hd H) as H1. apply G2 in H1. rewrite bump_name in H1.
    rewrite H1, (G1 h hd H), Eo. unfold grow. destruct (out w); auto. destruct (Nat.eqb _ _); auto.
    destruct (files w (h_name hd)); cbn; auto. now rewrite sapp_assoc.
Qed.
Lemma post_weaken act act' w t w' : incl act' act -> post act w t w' -> post act' w t w'.
Proof. intros Hi P. destruct P. constructor; auto. Qed.
Lemma post_text act w t t' w' : t = t' -> post act w t w' -> post act w t' w'.
Proof. now intros ->. Qed.

(** Changes of the fields that post does not look at. *)
Lemma post_same act w w' : out w' = out w -> console w' = console w -> handles w' = handles w -> insts w' = insts w ->
  opened w' = opened w -> files w' = files w -> post act w "" w'.
Proof.
  intros A B C D E F. destruct w as [a1 a2 a3 a4 a5 a6 a7 a8], w' as [b1 b2 b3 b4 b5 b6 b7 b8]. cbn [out console handles insts opened files] in *. subst.
  match goal with |- post _ ?x _ _ => destruct (post_refl act x) end. constructor; assumption.
Qed.

Lemma fwrite_post act h s w hd : out w = Log h -> nth_error (handles w) h = Some hd -> h_open hd = true ->
  exists w', fwrite h s w = (w', None) /\ post act w s w' /\ threads w' = threads w /\ tick w' = tick w.
Proof.
  intros Eo H Ho. unfold fwrite. rewrite H, Ho.
  assert (L : h < List.length (handles w)) by (apply nth_error_Some; congruence).
  eexists; split; [reflexivity|]. split; [|split; reflexivity].
  constructor; cbn [out console handles files threads opened tick insts set_files set_handles]; auto.
  - rewrite Eo. now rewrite sapp_nil.
  - intros h' hd' H'. rewrite nth_update by auto. rewrite Eo. cbn [bump].
    destruct (Nat.eqb_spec h' h) as [->|E]; auto. f_equal. assert (hd' = hd) by congruence. subst. now rewrite Ho.
  - intros h' hd' Hn H'. rewrite nth_update in H' by auto. destruct (Nat.eqb_spec h' h) as [->|E]; congruence.
  - intros v i Hv. exists i. auto.
  - intros Hi (F1 & F2 & F3).
    assert (Nm : forall h' hd', nth_error (update (handles w) h {| h_name := h_name hd; h_pos := h_pos hd + String.length s; h_open := true |}) h' = Some hd' ->
      exists hd0, nth_error (handles w) h' = Some hd0 /\ h_name hd' = h_name hd0 /\
                  h_pos hd' = (if Nat.eqb h' h then h_pos hd0 + String.length s else h_pos hd0)).
    { intros h' hd' H'. rewrite nth_update in H' by auto. destruct (Nat.eqb_spec h' h) as [->|E].
      - injection H' as <-. exists hd. auto.
      - exists hd'. auto. }
    destruct (F3 h hd H) as (c & Fc & Lc).
    assert (Old : forall h' hd', nth_error (handles w) h' = Some hd' ->
       put (files w) (h_name hd) (write_at (h_pos hd) s match files w (h_name hd) with Some c0 => c0 | None => "" end) (h_name hd')
       = (if Nat.eqb h' h then Some (c ++ s) else files w (h_name hd'))).
    { intros h' hd' H'. unfold put. rewrite Fc, <- Lc, write_at_end. destruct (fname_eqb_spec (h_name hd') (h_name hd)) as [E|E].
      - assert (h' = h) by (eapply F2; eauto). subst. now rewrite Nat.eqb_refl.
      - destruct (Nat.eqb_spec h' h) as [->|E']; auto. elim E. congruence. }
    split.
    + split; [|split]; cbn [handles opened files set_files set_handles].
      * intros h' hd' H'. apply Nm in H' as (hd0 & H0 & -> & _). eauto.
      * intros h1 hd1 h2 hd2 H1 H2 E. apply Nm in H1 as (a & Ha & Ea & _). apply Nm in H2 as (b & Hb & Eb & _).
        eapply F2; eauto. congruence.
      * intros h' hd' H'. apply Nm in H' as (hd0 & H0 & E0 & Ep). rewrite E0, Ep. rewrite (Old h' hd0 H0).
        destruct (Nat.eqb_spec h' h) as [->|E].
        -- exists (c ++ s). split; auto. rewrite slen_app, Lc. assert (hd0 = hd) by congruence. now subst.
        -- eapply F3; eauto.
    + intros h' hd' H'. rewrite (Old h' hd' H'), Eo. cbn [grow]. destruct (Nat.eqb_spec h' h) as [->|E]; auto.
      assert (hd' = hd) by congruence. subst. now rewrite Fc.
Qed.

Lemma print_post act s w : stdout_open w ->
  exists w', print s w = (w', None) /\ post act w (s ++ newline) w' /\ threads w' = threads w.
Proof.
  unfold stdout_open, print. destruct (out w) as [|h] eqn:Eo.
  - intros _. eexists; split; [reflexivity|]. split; [|reflexivity].
    constructor; cbn [out console handles files threads opened tick insts set_console]; auto.
    + now rewrite Eo.
    + intros h hd H. now rewrite Eo.
    + intros h hd H H'. congruence.
    + intros v i H. exists i. auto.
    + intros Hi Hf. split; [exact Hf|]. intros h hd H. now rewrite Eo.
  - intros (hd & H & Ho). destruct (fwrite_post act h (s ++ newline) w hd Eo H Ho) as (w' & E & P & T & _). eauto.
Qed.
Lemma time_post act pre w : stdout_open w ->
  exists t w', with_time text_time (fun t => print (pre ++ t)) w = (w', None) /\ post act w (pre ++ t ++ newline) w' /\ threads w' = threads w.
Proof.
  intros Ho. unfold with_time. exists (text_time (tick w)).
  pose proof (post_same act w (set_tick w (S (tick w))) eq_refl eq_refl eq_refl eq_refl eq_refl eq_refl) as P0.
  destruct (print_post act (pre ++ text_time (tick w)) (set_tick w (S (tick w)))) as (w' & E & P & T).
  { exact Ho. }
  exists w'. split; auto. split; [|exact T].
  eapply post_text; [|exact (post_trans _ _ _ _ _ _ P0 P)]. cbn. now rewrite sapp_assoc.
Qed.

Lemma seq_post act a b w t w1 t' w2 : a w = (w1, None) -> post act w t w1 -> b w1 = (w2, None) -> post act w1 t' w2 ->
  (a >> b) w = (w2, None) /\ post act w (t ++ t') w2.
Proof. intros E P E' Q. unfold seqa. rewrite E. split; auto. eapply post_trans; eauto. Qed.

(** [w0] is [w] just after a log [n] has been opened and made current. *)
Record opens (w : world) (n : fname) (w0 : world) : Prop := {
  o_out : out w0 = Log (List.length (handles w));
  o_console : console w0 = console w;
  o_handles : handles w0 = (handles w ++ [{| h_name := n; h_pos := 0; h_open := true |}])%list;
  o_insts : insts w0 = insts w;
  o_opened : opened w0 = S (opened w);
  o_files : files w0 = put (files w) n "";
  o_name : snd n = name_time (opened w)
}.
Lemma opens_open w n w0 : opens w n w0 -> stdout_open w0.
Proof.
  intros O. unfold stdout_open. rewrite (o_out _ _ _ O), (o_handles _ _ _ O). eexists. split.
  - rewrite nth_error_app2, Nat.sub_diag by lia. reflexivity.
  - reflexivity.
Qed.
Lemma opens_inv w n w0 : opens w n w0 -> injective -> fileinv w -> fileinv w0 /\
  forall h hd, nth_error (handles w) h = Some hd -> files w0 (h_name hd) = files w (h_name hd).
Proof.
  intros O Hi (F1 & F2 & F3).
  assert (Dif : forall h hd, nth_error (handles w) h = Some hd -> h_name hd <> n).
  { intros h hd H E. destruct (F1 h hd H) as (j & Lj & Ej). rewrite E, (o_name _ _ _ O) in Ej. apply Hi in Ej. lia. }
  assert (Nth : forall h hd, nth_error (handles w0) h = Some hd ->
     (nth_error (handles w) h = Some hd) \/ (h = List.length (handles w) /\ hd = {| h_name := n; h_pos := 0; h_open := true |})).
  { intros h hd H. rewrite (o_handles _ _ _ O) in H. destruct (Nat.lt_ge_cases h (List.length (handles w))) as [L|L].
    - rewrite nth_error_app1 in H by auto. auto.
    - right. rewrite nth_error_app2 in H by auto. destruct (h - List.length (handles w)) as [|k] eqn:K.
      + cbn in H. injection H as <-. split; auto. lia.
      + cbn in H. destruct k; discriminate. }
  split; [split; [|split]|].
  - intros h hd H. rewrite (o_opened _ _ _ O). apply Nth in H as [H|[-> ->]].
    + apply F1 in H as (j & Lj & Ej). exists j. split; auto.
    + exists (opened w). split; [lia|]. exact (o_name _ _ _ O).
  - intros h hd h' hd' H H' E. apply Nth in H as [H|[-> ->]]; apply Nth in H' as [H'|[-> ->]]; auto.
    + eauto.
    + elim (Dif _ _ H). exact E.
    + elim (Dif _ _ H'). now symmetry.
  - intros h hd H. rewrite (o_files _ _ _ O). unfold put. apply Nth in H as [H|[-> ->]].
    + destruct (fname_eqb_spec (h_name hd) n) as [E|E]; [elim (Dif _ _ H E)|]. eauto.
    + cbn [h_name h_pos]. destruct (fname_eqb_spec n n); [|congruence]. exists "". auto.
  - intros h hd H. rewrite (o_files _ _ _ O). unfold put. destruct (fname_eqb_spec (h_name hd) n) as [E|E]; auto.
    elim (Dif _ _ H E).
Qed.

Lemma enter_rd act i w : i_rd i = true ->
  exists i1 w0 w1 t, enter i w = (i1, (w1, None)) /\ opens w (i_path i, name_time (opened w)) w0 /\
    post act w0 ("Entering run time environment at " ++ t ++ newline ++ rule ++ newline) w1 /\
    i_rd i1 = true /\ i_path i1 = i_path i /\ i_threads i1 = i_threads i /\
    i_stdout i1 = Some (out w) /\ i_fp i1 = Some (List.length (handles w)) /\ threads w1 = i_threads i.
Proof.
  intros Hr. unfold enter. rewrite Hr. cbn [handles files opened out set_opened set_files set_handles set_threads].
  match goal with |- context[(_ >> _) ?x] => set (w0 := x) end.
  assert (O : opens w (i_path i, name_time (opened w)) w0) by (constructor; reflexivity).
  pose proof (opens_open _ _ _ O) as So.
  destruct (time_post act "Entering run time environment at " w0 So) as (t & wa & Ea & Pa & Ta).
  destruct (print_post act rule wa (post_open _ _ _ _ Pa So)) as (wb & Eb & Pb & Tb).
  pose proof (seq_post act _ _ _ _ _ _ _ Ea Pa Eb Pb) as [E P].
  rewrite E. eexists _, w0, wb, t. split; [reflexivity|]. split; [exact O|]. split.
  - eapply post_text; [|exact P]. rewrite !sapp_assoc. reflexivity.
  - cbn [i_rd i_path i_threads i_stdout i_fp]. repeat split; auto. rewrite Tb, Ta. reflexivity.
Qed.

Lemma exit_rd act i exc w h hd o : i_rd i = true -> i_stdout i = Some o -> i_fp i = Some h ->
  out w = Log h -> nth_error (handles w) h = Some hd -> h_open hd = true ->
  exists w1 t, post act w (rule ++ newline ++ footer exc_type exc_value exc_tb exc ++ rule ++ newline ++
                           "Exit run time environment at: " ++ t ++ newline) w1 /\
    exit_ i exc w = fclose h (set_out w1 o) /\ threads w1 = get_max_threads (threads w).
Proof.
  intros Hr Hs Hf Eo Hh Ho. unfold exit_. rewrite Hr, Hs, Hf.
  set (wt := set_threads w (get_max_threads (threads w))).
  assert (Pt : post act w "" wt) by (apply post_same; reflexivity).
  assert (So : stdout_open wt). { unfold stdout_open. cbn. rewrite Eo. eauto. }
  destruct (print_post act rule wt So) as (wa & Ea & Pa & Ta).
  pose proof (post_open _ _ _ _ Pa So) as Sa.
  assert (Mid : exists wb, match exc with
     | None => print "Non exception has occurred!"
     | Some e => print ("Exc_type: " ++ exc_type e) >> print ("Exc_value: " ++ exc_value e) >>
                 print "Traceback:" >> fwrite h (exc_tb e)
     end wa = (wb, None) /\ post act wa (footer exc_type exc_value exc_tb exc) wb /\ threads wb = threads wa).
  { destruct exc as [e|].
    - destruct (print_post act ("Exc_type: " ++ exc_type e) wa Sa) as (w1 & E1 & P1 & T1).
      pose proof (post_open _ _ _ _ P1 Sa) as S1.
      destruct (print_post act ("Exc_value: " ++ exc_value e) w1 S1) as (w2 & E2 & P2 & T2).
      pose proof (post_open _ _ _ _ P2 S1) as S2.
      destruct (print_post act "Traceback:" w2 S2) as (w3 & E3 & P3 & T3).
      pose proof (post_open _ _ _ _ P3 S2) as S3.
      assert (O3 : out w3 = Log h).
      { rewrite (p_out _ _ _ _ P3), (p_out _ _ _ _ P2), (p_out _ _ _ _ P1), (p_out _ _ _ _ Pa). exact Eo. }
      unfold stdout_open in S3. rewrite O3 in S3. destruct S3 as (hd3 & N3 & Op3).
      destruct (fwrite_post act h (exc_tb e) w3 hd3 O3 N3 Op3) as (w4 & E4 & P4 & T4 & _).
      exists w4. unfold seqa. rewrite E1, E2, E3, E4. split; auto. split; [|congruence].
      eapply post_text; [|exact (post_trans _ _ _ _ _ _ P1 (post_trans _ _ _ _ _ _ P2 (post_trans _ _ _ _ _ _ P3 P4)))].
      unfold footer. rewrite !sapp_assoc. reflexivity.
    - destruct (print_post act "Non exception has occurred!" wa Sa) as (w1 & E1 & P1 & T1). exists w1. auto. }
  destruct Mid as (wb & Eb & Pb & Tb). pose proof (post_open _ _ _ _ Pb Sa) as Sb.
  destruct (print_post act rule wb Sb) as (wc & Ec & Pc & Tc).
  pose proof (post_open _ _ _ _ Pc Sb) as Sc.
  destruct (time_post act "Exit run time environment at: " wc Sc) as (t & wd & Ed & Pd & Td).
  exists wd, t. split; [|split].
  - eapply post_text; [|exact (post_trans _ _ _ _ _ _ Pt (post_trans _ _ _ _ _ _ Pa (post_trans _ _ _ _ _ _ Pb (post_trans _ _ _ _ _ _ Pc Pd))))].
    cbn [append]. rewrite !sapp_assoc. reflexivity.
  - unfold seqa at 1. rewrite Ea. unfold seqa at 1. rewrite Eb. unfold seqa. rewrite Ec, Ed. reflexivity.
  - rewrite Td, Tc, Tb, Ta. reflexivity.
Qed.

Lemma bump_nil o h hd : bump o h 0 hd = hd.
Proof. unfold bump. destruct o; auto. destruct (Nat.eqb _ _); auto. rewrite Nat.add_0_r. now destruct hd. Qed.
Lemma grow_nil o h c : grow o h "" c = c.
Proof. unfold grow. destruct o; auto. destruct (Nat.eqb _ _); auto. destruct c; cbn; auto. now rewrite sapp_nil. Qed.

(** Leaving a redirecting environment. *)
Lemma leave act w n w0 T w2 : opens w n w0 -> post act w0 T w2 ->
  exists w3, fclose (List.length (handles w)) (set_out w2 (out w)) = (w3, None) /\ post act w "" w3 /\
    threads w3 = threads w2 /\
    nth_error (handles w3) (List.length (handles w)) = Some {| h_name := n; h_pos := String.length T; h_open := false |} /\
    (injective -> fileinv w -> files w3 n = Some T).
Proof.
  intros O P. set (h := List.length (handles w)) in *.
  assert (N0 : nth_error (handles w0) h = Some {| h_name := n; h_pos := 0; h_open := true |}).
  { rewrite (o_handles _ _ _ O). unfold h. rewrite nth_error_app2, Nat.sub_diag by lia. reflexivity. }
  pose proof (p_old _ _ _ _ P _ _ N0) as N2. rewrite (o_out _ _ _ O) in N2. fold h in N2. cbn [bump] in N2.
  rewrite Nat.eqb_refl in N2. cbn [h_name h_pos h_open] in N2. cbn [Nat.add] in N2.
  unfold fclose. cbn [handles set_out]. rewrite N2. cbn [h_name h_pos].
  assert (L : h < List.length (handles w2)) by (apply nth_error_Some; congruence).
  eexists; split; [reflexivity|].
  assert (Old : forall h' hd, nth_error (handles w) h' = Some hd -> h' <> h /\ nth_error (handles w2) h' = Some hd).
  { intros h' hd H. assert (Lh : h' < h) by (unfold h; apply nth_error_Some; congruence). split; [lia|].
    assert (H0 : nth_error (handles w0) h' = Some hd) by (rewrite (o_handles _ _ _ O), nth_error_app1; auto).
    apply (p_old _ _ _ _ P) in H0. rewrite (o_out _ _ _ O) in H0. cbn [bump] in H0.
    destruct (Nat.eqb_spec h' (List.length (handles w))); [unfold h in *; lia|]. exact H0. }
  assert (FI : injective -> fileinv w -> fileinv w2 /\ (forall h' hd, nth_error (handles w) h' = Some hd -> files w2 (h_name hd) = files w (h_name hd)) /\ files w2 n = Some T).
  { intros Hi Hf. destruct (opens_inv _ _ _ O Hi Hf) as [F0 G0]. destruct (p_files _ _ _ _ P Hi F0) as [F2 G2].
    split; auto. split.
    - intros h' hd H. destruct (Old h' hd H) as [D _].
      assert (H0 : nth_error (handles w0) h' = Some hd).
      { rewrite (o_handles _ _ _ O), nth_error_app1; auto. apply nth_error_Some. congruence. }
      rewrite (G2 h' hd H0), <- (G0 h' hd H). rewrite (o_out _ _ _ O). cbn [grow].
      destruct (Nat.eqb_spec h' (List.length (handles w))); [unfold h in *; lia|]. reflexivity.
    - pose proof (G2 h _ N0) as G. cbn [h_name] in G. rewrite G. rewrite (o_out _ _ _ O). fold h. cbn [grow]. rewrite Nat.eqb_refl. cbn [h_name].
      rewrite (o_files _ _ _ O). unfold put. destruct (fname_eqb_spec n n); [|congruence]. reflexivity. }
  split; [|split; [reflexivity|split]].
  - constructor; cbn [out console handles insts opened files set_out set_handles].
    + reflexivity.
    + rewrite (p_console _ _ _ _ P), (o_console _ _ _ O), (o_out _ _ _ O). destruct (out w); now rewrite sapp_nil.
    + intros h' hd H. rewrite nth_update by auto. destruct (Old h' hd H) as [D N]. rewrite bump_nil.
      destruct (Nat.eqb_spec h' h); [lia|]. exact N.
    + intros h' hd H H'. rewrite nth_update in H' by auto. destruct (Nat.eqb_spec h' h) as [->|D].
      * injection H' as <-. reflexivity.
      * apply (p_new _ _ _ _ P h' hd); auto. rewrite (o_handles _ _ _ O). apply nth_error_None.
        apply nth_error_None in H. rewrite app_length. cbn. unfold h in *. lia.
    + rewrite (p_len _ _ _ _ P). now rewrite (o_insts _ _ _ O).
    + intros v i H. rewrite <- (o_insts _ _ _ O) in H. apply (p_static _ _ _ _ P) in H. exact H.
    + intros v H. rewrite (p_active _ _ _ _ P) by auto. now rewrite (o_insts _ _ _ O).
    + pose proof (p_opened _ _ _ _ P). rewrite (o_opened _ _ _ O) in *. lia.
    + intros Hi Hf. destruct (FI Hi Hf) as ((A & B & C) & D & _). split.
      * assert (Nm : forall h' hd', nth_error (update (handles w2) h {| h_name := n; h_pos := String.length T; h_open := false |}) h' = Some hd' ->
          exists hd0, nth_error (handles w2) h' = Some hd0 /\ h_name hd' = h_name hd0 /\ h_pos hd' = h_pos hd0).
        { intros h' hd' H'. rewrite nth_update in H' by auto. destruct (Nat.eqb_spec h' h) as [->|E].
          - injection H' as <-. eexists. split; [exact N2|]. auto.
          - exists hd'. auto. }
        split; [|split]; cbn [handles opened files set_handles set_out].
        -- intros h' hd' H'. apply Nm in H' as (hd0 & H0 & -> & _). eauto.
        -- intros h1 hd1 h2 hd2 H1 H2 E. apply Nm in H1 as (a & Ha & Ea & _). apply Nm in H2 as (b & Hb & Eb & _).
           eapply B; eauto. congruence.
        -- intros h' hd' H'. apply Nm in H' as (hd0 & H0 & -> & ->). eauto.
      * intros h' hd H. rewrite grow_nil. eauto.
  - cbn [handles set_handles]. rewrite nth_update by auto. now rewrite Nat.eqb_refl.
  - intros Hi Hf. cbn [files set_handles set_out]. now apply FI.
Qed.

(** ** programs *)
Lemma cmd_rect' (P : cmd -> Prop) :
  (forall s, P (CPrint s)) -> (forall e, P (CRaise e)) -> (forall b, Forall P b -> P (CTry b)) ->
  (forall rd path tn b, Forall P b -> P (CWithNew rd path tn b)) -> (forall v b, Forall P b -> P (CWith v b)) ->
  forall c, P c.
Proof.
  intros H1 H2 H3 H4 H5. fix IH 1. intros [s|e|b|rd path tn b|v b].
  - apply H1.
  - apply H2.
  - apply H3. induction b; constructor; auto.
  - apply H4. induction b; constructor; auto.
  - apply H5. induction b; constructor; auto.
Qed.

Lemma rds_post rds act w t w' : (forall v, rds_of w v = rds v) -> post act w t w' -> forall v, rds_of w' v = rds v.
Proof.
  intros H P v. rewrite <- H. unfold rds_of. destruct (nth_error (insts w) v) as [i|] eqn:E.
  - apply (p_static _ _ _ _ P) in E as (i' & -> & -> & _). reflexivity.
  - replace (nth_error (insts w') v) with (@None inst); auto. symmetry. apply nth_error_None.
    rewrite (p_len _ _ _ _ P). now apply nth_error_None.
Qed.

Definition runs (c : cmd) : Prop := forall rds act w, nested act c -> stdout_open w -> (forall v, rds_of w v = rds v) ->
  exists w', exec c w = (w', snd (said rds c)) /\ post act w (fst (said rds c)) w'.
Lemma block_runs l : Forall runs l -> forall rds act w, all_nested act l -> stdout_open w -> (forall v, rds_of w v = rds v) ->
  exists w', block l w = (w', snd (saids rds l)) /\ post act w (fst (saids rds l)) w'.
Proof.
  induction 1 as [|c l Hc Hl IH]; intros rds act w Hn So Hr.
  - exists w. split; auto. apply post_refl.
  - destruct Hn as [Hn1 Hn2]. destruct (Hc rds act w Hn1 So Hr) as (w1 & E1 & P1). cbn [RunTimeEnv_Model.block saids]. rewrite E1.
    destruct (said rds c) as [s [e|]] eqn:Es; cbn [fst snd] in *.
    + exists w1. auto.
    + destruct (IH rds act w1 Hn2 (post_open _ _ _ _ P1 So) (rds_post _ _ _ _ _ Hr P1)) as (w2 & E2 & P2). exists w2.
      destruct (saids rds l) as [s' e]; cbn [fst snd] in *. split; auto. eapply post_trans; eauto.
Qed.
Lemma nested_all a l : (fix all (a : list nat) (l : list cmd) : Prop :=
    match l with [] => True | c :: r => nested a c /\ all a r end) a l = all_nested a l.
Proof. induction l as [|c l IH]; cbn; congruence. Qed.

Lemma enter_plain i w : i_rd i = false -> enter i w = (i, (set_threads w (i_threads i), None)).
Proof. intros H. unfold enter. now rewrite H. Qed.
Lemma exit_plain i exc w : i_rd i = false -> exit_ i exc w = (set_threads w (get_max_threads (threads w)), None).
Proof. intros H. unfold exit_. now rewrite H. Qed.

(** One with statement, given what its body does: [bind1]/[read] say how the
    instance is stored during the body (a variable, or only on the stack). *)
Lemma set_inst_post act w v i i1 : nth_error (insts w) v = Some i -> ~ In v act ->
  i_rd i1 = i_rd i -> i_path i1 = i_path i -> i_threads i1 = i_threads i ->
  post act w "" (set_insts w (update (insts w) v i1)).
Proof.
  intros Hv Hn A B C. assert (L : v < List.length (insts w)) by (apply nth_error_Some; congruence).
  destruct (post_refl act w). constructor; cbn [out console handles insts opened files set_insts]; auto.
  - now rewrite update_length.
  - intros u j H. rewrite nth_update by auto. destruct (Nat.eqb_spec u v) as [->|D]; [|eauto].
    exists i1. assert (j = i) by congruence. subst. auto.
  - intros u Hu. rewrite nth_update by auto. destruct (Nat.eqb_spec u v) as [->|D]; [tauto|auto].
Qed.

(** The complete description of a redirecting with statement. *)
Lemma with_new_rd rds act path tn body w : all_nested act body -> Forall runs body -> stdout_open w ->
  (forall v, rds_of w v = rds v) -> (forall t, tn = Some t -> (0 < t)%Z) ->
  let n := (path, name_time (opened w)) in
  exists w' t1 t2, exec (CWithNew true path tn body) w = (w', snd (saids rds body)) /\ post act w "" w' /\
    let T := log_text t1 (fst (saids rds body)) (footer exc_type exc_value exc_tb (snd (saids rds body))) t2 in
    nth_error (handles w') (List.length (handles w)) = Some {| h_name := n; h_pos := String.length T; h_open := false |} /\
    (injective -> fileinv w -> files w' n = Some T).
Proof.
  intros Hn Hb So Hr Ht n. rewrite exec_new.
  assert (Hi : exists th, init get_max_threads true path tn w = Ok {| i_threads := th; i_rd := true; i_path := path; i_stdout := None; i_fp := None |}).
  { unfold init. destruct tn as [t|]; [|eauto]. specialize (Ht t eq_refl). destruct (Z.ltb_spec 0 t); [eauto|lia]. }
  destruct Hi as [th ->]. set (i := {| i_threads := th; i_rd := true; i_path := path; i_stdout := None; i_fp := None |}).
  destruct (enter_rd act i w eq_refl) as (i1 & w0 & w1 & t1 & Ee & O & P1 & A1 & A2 & A3 & A4 & A5 & _).
  rewrite Ee. pose proof (post_open _ _ _ _ P1 (opens_open _ _ _ O)) as S1.
  assert (Hr0 : forall v, rds_of w0 v = rds v) by (intros v; rewrite <- Hr; unfold rds_of; now rewrite (o_insts _ _ _ O)).
  destruct (block_runs body Hb rds act w1 Hn S1 (rds_post _ _ _ _ _ Hr0 P1)) as (w2 & E2 & P2). rewrite E2.
  pose proof (post_open _ _ _ _ P2 S1) as S2.
  assert (O2 : out w2 = Log (List.length (handles w))).
  { rewrite (p_out _ _ _ _ P2), (p_out _ _ _ _ P1). apply (o_out _ _ _ O). }
  unfold stdout_open in S2. rewrite O2 in S2. destruct S2 as (hd & Nh & Oh).
  destruct (exit_rd act i1 (snd (saids rds body)) w2 _ hd (out w) A1 A4 A5 O2 Nh Oh) as (w3 & t2 & P3 & Ex & _).
  rewrite Ex.
  destruct (leave act w n w0 _ w3 O (post_trans _ _ _ _ _ _ P1 (post_trans _ _ _ _ _ _ P2 P3))) as (w4 & E4 & P4 & _ & Nw & Fl).
  rewrite E4. cbn [after_exit].
  exists w4, t1, t2. split; auto. split; auto. cbv zeta.
  match type of Nw with context[String.length ?X] => assert (ET : X = log_text t1 (fst (saids rds body)) (footer exc_type exc_value exc_tb (snd (saids rds body))) t2) end.
  { unfold log_text. rewrite !sapp_assoc. reflexivity. }
  rewrite ET in Nw, Fl. auto.
Qed.

Lemma with_var_rd rds act v i body w : all_nested (v :: act) body -> Forall runs body -> stdout_open w ->
  (forall v, rds_of w v = rds v) -> nth_error (insts w) v = Some i -> i_rd i = true -> ~ In v act ->
  let n := (i_path i, name_time (opened w)) in
  exists w' t1 t2, exec (CWith v body) w = (w', snd (saids rds body)) /\ post act w "" w' /\
    let T := log_text t1 (fst (saids rds body)) (footer exc_type exc_value exc_tb (snd (saids rds body))) t2 in
    nth_error (handles w') (List.length (handles w)) = Some {| h_name := n; h_pos := String.length T; h_open := false |} /\
    (injective -> fileinv w -> files w' n = Some T).
Proof.
  intros Hn Hb So Hr Hv Hrd Hna n. rewrite exec_with, Hv.
  destruct (enter_rd act i w Hrd) as (i1 & w0 & w1 & t1 & Ee & O & P1 & A1 & A2 & A3 & A4 & A5 & _).
  rewrite Ee. cbv zeta.
  assert (Hv0 : nth_error (insts w0) v = Some i) by (rewrite (o_insts _ _ _ O); auto).
  pose proof (p_static _ _ _ _ P1 v i Hv0) as (i' & Hv1 & B1 & B2 & B3).
  assert (L1 : v < List.length (insts w1)) by (apply nth_error_Some; congruence).
  set (w1' := set_insts w1 (update (insts w1) v i1)).
  assert (P1' : post act w1 "" w1') by (apply set_inst_post with (i := i'); auto; congruence).
  pose proof (post_open _ _ _ _ P1' (post_open _ _ _ _ P1 (opens_open _ _ _ O))) as S1.
  assert (Hr0 : forall v, rds_of w0 v = rds v) by (intros u; rewrite <- Hr; unfold rds_of; now rewrite (o_insts _ _ _ O)).
  destruct (block_runs body Hb rds (v :: act) w1' Hn S1 (rds_post _ _ _ _ _ (rds_post _ _ _ _ _ Hr0 P1) P1')) as (w2 & E2 & P2). rewrite E2.
  assert (Hv2 : nth_error (insts w2) v = Some i1).
  { rewrite (p_active _ _ _ _ P2) by now left. unfold w1'. cbn [insts set_insts]. rewrite nth_update by auto. now rewrite Nat.eqb_refl. }
  rewrite Hv2.
  apply (post_weaken (v :: act) act) in P2; [|intros x Hx; now right].
  pose proof (post_open _ _ _ _ P2 S1) as S2.
  assert (O2 : out w2 = Log (List.length (handles w))).
  { rewrite (p_out _ _ _ _ P2), (p_out _ _ _ _ P1'), (p_out _ _ _ _ P1). apply (o_out _ _ _ O). }
  unfold stdout_open in S2. rewrite O2 in S2. destruct S2 as (hd & Nh & Oh).
  destruct (exit_rd act i1 (snd (saids rds body)) w2 _ hd (out w) A1 A4 A5 O2 Nh Oh) as (w3 & t2 & P3 & Ex & _).
  rewrite Ex.
  destruct (leave act w n w0 _ w3 O (post_trans _ _ _ _ _ _ P1 (post_trans _ _ _ _ _ _ P1' (post_trans _ _ _ _ _ _ P2 P3)))) as (w4 & E4 & P4 & _ & Nw & Fl).
  rewrite E4. cbn [after_exit].
  exists w4, t1, t2. split; auto. split; auto. cbv zeta.
  match type of Nw with context[String.length ?X] => assert (ET : X = log_text t1 (fst (saids rds body)) (footer exc_type exc_value exc_tb (snd (saids rds body))) t2) end.
  { unfold log_text. cbn [append]. rewrite !sapp_assoc. reflexivity. }
  rewrite ET in Nw, Fl. auto.
Qed.

Theorem all_run c : runs c.
Proof.
  induction c as [s|e|b IH|rd path tn b IH|v b IH] using cmd_rect'; intros rds act w Hn So Hr.
  - destruct (print_post act s w So) as (w' & E & P & _). exists w'. auto.
  - exists w. split; auto. apply post_refl.
  - cbn [nested] in Hn. rewrite nested_all in Hn. destruct (block_runs b IH rds act w Hn So Hr) as (w' & E & P).
    exists w'. rewrite exec_try, E. auto.
  - cbn [nested] in Hn. rewrite nested_all in Hn.
    assert (G : (exists t, tn = Some t /\ ~ (0 < t)%Z) \/ (forall t, tn = Some t -> (0 < t)%Z)).
    { destruct tn as [t|]; [|right; discriminate]. destruct (Z_lt_dec 0 t); [right|left; eauto]. now intros ? [= <-]. }
    assert (Sd : (forall t, tn = Some t -> (0 < t)%Z) -> said rds (CWithNew rd path tn b) = (if rd then "" else fst (saids rds b), snd (saids rds b))).
    { intros H. change (said rds (CWithNew rd path tn b)) with
        (match tn with Some t => if Z.ltb 0 t then (if rd then "" else fst (saids rds b), snd (saids rds b)) else ("", Some ValueError)
         | None => (if rd then "" else fst (saids rds b), snd (saids rds b)) end).
      destruct tn as [t|]; auto. specialize (H t eq_refl). destruct (Z.ltb_spec 0 t); auto. lia. }
    destruct G as [(t & -> & Ht)|G].
    + exists w. rewrite exec_new. cbn [init]. cbn [said]. destruct (Z.ltb_spec 0 t); [lia|]. split; auto. apply post_refl.
    + rewrite (Sd G). destruct rd.
      * destruct (with_new_rd rds act path tn b w Hn IH So Hr G) as (w' & t1 & t2 & E & P & _). exists w'. auto.
      * rewrite exec_new.
        assert (Hi : exists th, init get_max_threads false path tn w = Ok {| i_threads := th; i_rd := false; i_path := path; i_stdout := None; i_fp := None |}).
        { unfold init. destruct tn as [t|]; [|eauto]. specialize (G t eq_refl). destruct (Z.ltb_spec 0 t); [eauto|lia]. }
        destruct Hi as [th ->]. rewrite enter_plain by reflexivity.
        set (w1 := set_threads w (i_threads _)).
        assert (P1 : post act w "" w1) by (apply post_same; reflexivity).
        destruct (block_runs b IH rds act w1 Hn (post_open _ _ _ _ P1 So) (rds_post _ _ _ _ _ Hr P1)) as (w2 & E2 & P2).
        rewrite E2. rewrite exit_plain by reflexivity. cbn [after_exit fst snd].
        eexists; split; [reflexivity|].
        eapply post_text; [|refine (post_trans _ _ _ _ _ _ P1 (post_trans _ _ _ _ _ _ P2 (post_same _ _ _ _ _ _ _ _ _))); reflexivity].
        cbn [append]. now rewrite sapp_nil.
  - cbn [nested] in Hn. rewrite nested_all in Hn. destruct Hn as [Hna Hn].
    assert (Sd : said rds (CWith v b) = match rds v with None => ("", Some IndexError)
       | Some rd => (if rd then "" else fst (saids rds b), snd (saids rds b)) end) by reflexivity.
    rewrite Sd. clear Sd. rewrite <- Hr. unfold rds_of. destruct (nth_error (insts w) v) as [i|] eqn:Hv.
    + destruct (i_rd i) eqn:Hrd.
      * destruct (with_var_rd rds act v i b w Hn IH So Hr Hv Hrd Hna) as (w' & t1 & t2 & E & P & _). exists w'. auto.
      * rewrite exec_with, Hv, enter_plain by auto. cbv zeta.
        set (w1 := set_threads w (i_threads i)).
        assert (P1 : post act w "" w1) by (apply post_same; reflexivity).
        set (w1' := set_insts w1 (update (insts w1) v i)).
        assert (P1' : post act w1 "" w1') by (apply set_inst_post with (i := i); auto).
        pose proof (post_open _ _ _ _ P1' (post_open _ _ _ _ P1 So)) as S1.
        destruct (block_runs b IH rds (v :: act) w1' Hn S1 (rds_post _ _ _ _ _ (rds_post _ _ _ _ _ Hr P1) P1')) as (w2 & E2 & P2).
        rewrite E2.
        assert (L1 : v < List.length (insts w1)) by (cbn; apply nth_error_Some; congruence).
        assert (Hv2 : nth_error (insts w2) v = Some i).
        { rewrite (p_active _ _ _ _ P2) by now left. unfold w1'. cbn [insts set_insts]. rewrite nth_update by auto. now rewrite Nat.eqb_refl. }
        rewrite Hv2, exit_plain by auto. cbn [after_exit fst snd].
        apply (post_weaken (v :: act) act) in P2; [|intros x Hx; now right].
        eexists; split; [reflexivity|].
        eapply post_text; [|refine (post_trans _ _ _ _ _ _ P1 (post_trans _ _ _ _ _ _ P1' (post_trans _ _ _ _ _ _ P2 (post_same _ _ _ _ _ _ _ _ _)))); reflexivity].
        cbn [append]. now rewrite sapp_nil.
    + exists w. rewrite exec_with, Hv. split; auto. apply post_refl.
Qed.
Lemma block_run l rds act w : all_nested act l -> stdout_open w -> (forall v, rds_of w v = rds v) ->
  exists w', block l w = (w', snd (saids rds l)) /\ post act w (fst (saids rds l)) w'.
Proof. apply block_runs. apply Forall_forall. intros c _. apply all_run. Qed.
End P.
