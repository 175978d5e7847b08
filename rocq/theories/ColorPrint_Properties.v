(** C49: coloring (tools/colorprint.py). *)
From Coq Require Import String List ZArith Bool Ascii Lia.
From Verif Require Import Py ColorPrint_Model ColorPrint_Spec ColorPrint_Proofs.
Import ListNotations.
Local Open Scope string_scope.
Local Open Scope Z_scope.

(** A valid foreground and background give the two SGR sequences that select
    them, the bold one if asked for, the text and the reset. *)
Theorem C49_wellformed : forall s fg bg bold v sch fcodes bcodes,
  is_scheme v sch -> denotes sch true fg fcodes -> denotes sch false bg bcodes ->
  coloring s fg bg bold v = Ok (sgr fcodes ++ sgr bcodes ++ (if bold then sgr [1] else "") ++ s ++ sgr [0]).
Proof.
  intros s fg bg bold v sch fc bc Hs Hf Hb. rewrite (coloring_scheme _ _ _ _ _ _ Hs).
  rewrite (denotes_ok _ _ _ _ Hf), (denotes_ok _ _ _ _ Hb). cbn [bind]. rewrite !sapp_assoc. now destruct bold.
Qed.
Print Assumptions C49_wellformed.

(** The parameters of a valid colour are one of the ANSI colour selections, all within range. *)
Theorem C49_codes_in_range : forall sch fg v codes, denotes sch fg v codes ->
  codes = [] \/
  (sch = S4 /\ exists z, codes = [z] /\ (if fg then 30 <= z <= 37 \/ 90 <= z <= 97 else 40 <= z <= 47 \/ 100 <= z <= 107)) \/
  (sch = S8 /\ exists z, codes = [if fg then 38 else 48; 5; z] /\ 0 <= z <= 255) \/
  (sch = S24 /\ exists r g b, codes = [if fg then 38 else 48; 2; r; g; b] /\ 0 <= r <= 255 /\ 0 <= g <= 255 /\ 0 <= b <= 255).
Proof.
  assert (HB : forall c n, hexval c n -> Z.of_nat n <= 15).
  { intros c n H. assert (n < 16)%nat; [|lia]. change 16%nat with (length (list_ascii_of_string "0123456789abcdef")).
    apply nth_error_Some. unfold hexval in H. congruence. }
  intros sch fg v codes H.
  destruct H as [sch fg|z H|z H|fg s i H|fg z H|fg s i H|fg r g b Hr Hg Hb|fg s i H|fg c1 c2 c3 c4 c5 c6 n1 n2 n3 n4 n5 n6 H1 H2 H3 H4 H5 H6]; [tauto| | | | | | | |].
  - right; left. split; auto. exists z. auto.
  - right; left. split; auto. exists z. auto.
  - right; left. split; auto. eexists. split; [reflexivity|]. apply named_name in H as [_ L]. destruct fg; lia.
  - right; right; left. split; auto. exists z. auto.
  - right; right; left. split; auto. eexists. split; [reflexivity|]. apply named_name in H as [_ L]. lia.
  - right; right; right. split; auto. exists r, g, b. auto.
  - right; right; right. split; auto. do 3 eexists. split; [reflexivity|].
    pose proof (Z.mod_pos_bound (Z.of_nat i) 2). pose proof (Z.mod_pos_bound (Z.of_nat i / 2) 2). pose proof (Z.mod_pos_bound (Z.of_nat i / 4) 2). lia.
  - right; right; right. split; auto. do 3 eexists. split; [reflexivity|].
    apply HB in H1, H2, H3, H4, H5, H6. lia.
Qed.
Print Assumptions C49_codes_in_range.

(** A documented colour that is not valid raises ValueError, in either place. *)
Theorem C49_invalid_rejected : forall s fg bg bold v sch,
  is_scheme v sch -> documented sch fg -> documented sch bg ->
  (forall codes, ~ denotes sch true fg codes) \/ (forall codes, ~ denotes sch false bg codes) ->
  coloring s fg bg bold v = Err ValueError.
Proof.
  intros s fg bg bold v sch Hs Df Db H. rewrite (coloring_scheme _ _ _ _ _ _ Hs).
  destruct (documented_cases sch true fg Df) as [[fc Hf]|[_ Ef]]; [|now rewrite Ef].
  rewrite (denotes_ok _ _ _ _ Hf). cbn [bind].
  destruct (documented_cases sch false bg Db) as [[bc Hb]|[_ Eb]]; [|now rewrite Eb].
  destruct H as [H|H]; [elim (H _ Hf)|elim (H _ Hb)].
Qed.
Print Assumptions C49_invalid_rejected.

(** So, on documented colours: success exactly on valid ones. *)
Theorem C49_accepts_iff_valid : forall s fg bg bold v sch,
  is_scheme v sch -> documented sch fg -> documented sch bg ->
  ((exists out, coloring s fg bg bold v = Ok out) <->
   (exists fcodes, denotes sch true fg fcodes) /\ (exists bcodes, denotes sch false bg bcodes)).
Proof.
  intros s fg bg bold v sch Hs Df Db. split.
  - intros [out H].
    destruct (documented_cases sch true fg Df) as [Hf|[Hf _]];
      [|rewrite (C49_invalid_rejected s fg bg bold v sch) in H by auto; discriminate].
    destruct (documented_cases sch false bg Db) as [Hb|[Hb _]];
      [|rewrite (C49_invalid_rejected s fg bg bold v sch) in H by auto; discriminate]. auto.
  - intros [[fc Hf] [bc Hb]]. eexists. apply (C49_wellformed s fg bg bold v sch fc bc Hs Hf Hb).
Qed.
Print Assumptions C49_accepts_iff_valid.

(** Whatever the arguments: the only exception is ValueError (in particular for
    every unknown scheme), and an answer is a prefix that does not depend on the
    text, the text itself, and the reset. *)
Theorem C49_only_ValueError : forall s fg bg bold v e, coloring s fg bg bold v = Err e -> e = ValueError.
Proof.
  intros s fg bg bold v e. unfold coloring.
  assert (C : forall sch, bind (ctrl sch fg true) (fun f => bind (ctrl sch bg false) (fun b =>
    Ok ((f ++ b ++ (if bold then CSI ++ "1m" else "")) ++ s ++ RESET))) = Err e -> e = ValueError).
  { intros sch. destruct (ctrl sch fg true) eqn:E1; cbn [bind]; [|intros [= <-]; eapply ctrl_errors; eauto].
    destruct (ctrl sch bg false) eqn:E2; cbn [bind]; [discriminate|intros [= <-]; eapply ctrl_errors; eauto]. }
  destruct (eq_int v 4); [exact (C S4)|]. destruct (eq_int v 8); [exact (C S8)|].
  destruct (_ || _); [exact (C S24)|]. cbn [bind]. congruence.
Qed.
Print Assumptions C49_only_ValueError.
Theorem C49_unknown_scheme : forall s fg bg bold v,
  (forall z, In z [4; 8; 24] -> v <> VInt z /\ v <> VFloat z) -> v <> VStr "rgb" ->
  coloring s fg bg bold v = Err ValueError.
Proof.
  intros s fg bg bold v H Hr. unfold coloring.
  assert (N : forall z, In z [4; 8; 24] -> num_of v <> Some z).
  { intros z Hz. destruct (H z Hz) as [H1 H2]. destruct v as [| |y|[]|y| |]; cbn in *; try congruence; intros [= <-]; lia. }
  assert (E : forall z, num_of v <> Some z -> eq_int v z = false).
  { intros z Hz. unfold eq_int. destruct (num_of v) as [y|]; auto. apply Z.eqb_neq. congruence. }
  rewrite !E by (apply N; cbn; tauto). replace (eq_str v "rgb") with false; auto.
  destruct v; cbn; auto. symmetry. apply String.eqb_neq. congruence.
Qed.
Print Assumptions C49_unknown_scheme.
Theorem C49_always_resets : forall s fg bg bold v out, coloring s fg bg bold v = Ok out ->
  exists pre, out = pre ++ s ++ sgr [0] /\ forall s', coloring s' fg bg bold v = Ok (pre ++ s' ++ sgr [0]).
Proof.
  intros s fg bg bold v out. unfold coloring.
  destruct (if eq_int v 4 then _ else _) as [c|]; cbn [bind]; [|discriminate].
  destruct (c fg true) as [f|]; cbn [bind]; [|discriminate]. destruct (c bg false) as [b|]; cbn [bind]; [|discriminate].
  intros [= <-]. eexists. split; [reflexivity|]. reflexivity.
Qed.
Print Assumptions C49_always_resets.

(** Values of other types are silently ignored: an int under the 24-bit scheme,
    a sequence under the others or of the wrong length. *)
Theorem C49_ignored : forall s fg bg bold v sch c, is_scheme v sch -> foreign sch c ->
  coloring s c bg bold v = coloring s VNone bg bold v /\ coloring s fg c bold v = coloring s fg VNone bold v.
Proof.
  intros s fg bg bold v sch c Hs Hc. rewrite !(coloring_scheme _ _ _ _ _ _ Hs).
  assert (E : forall f, ctrl sch c f = ctrl sch VNone f).
  { intros f. destruct sch, c as [| | | | |l|]; cbn in Hc |- *; try tauto; try reflexivity.
    destruct l as [|x [|y [|z [|w l]]]]; try reflexivity. now elim Hc. }
  now rewrite !E.
Qed.
Print Assumptions C49_ignored.

(** color_print hands the stream the joined objects, coloured, and the end string. *)
Theorem C49_color_print : forall objects sep end_ fg bg bold v sch fcodes bcodes,
  is_scheme v sch -> denotes sch true fg fcodes -> denotes sch false bg bcodes ->
  color_print objects sep end_ fg bg bold v =
  Ok ((sgr fcodes ++ sgr bcodes ++ (if bold then sgr [1] else "") ++ String.concat sep objects ++ sgr [0]) ++ end_).
Proof.
  intros. unfold color_print. rewrite (C49_wellformed _ _ _ _ _ sch fcodes bcodes) by assumption. reflexivity.
Qed.
Print Assumptions C49_color_print.

(** Refuted: signs and blanks pass for hex digits, giving negative or silently
    different components; True is accepted as a colour number and floats as
    components, giving sequences no terminal understands. *)
Theorem C49_refuted :
  coloring "x" (VStr "#-1-1-1") VNone false (VInt 24) = Ok (CSI ++ "38;2;-1;-1;-1mx" ++ RESET) /\
  coloring "x" (VStr "# 1+23 ") VNone false (VInt 24) = Ok (CSI ++ "38;2;1;2;3mx" ++ RESET) /\
  coloring "x" (VBool true) VNone false (VInt 8) = Ok (CSI ++ "38;5;Truemx" ++ RESET) /\
  coloring "x" (VSeq [VFloat 1; VInt 2; VInt 3]) VNone false (VInt 24) = Ok (CSI ++ "38;2;1.0;2;3mx" ++ RESET).
Proof. repeat split; vm_compute; reflexivity. Qed.
Print Assumptions C49_refuted.

(** Non-vacuity *)
Example C49_example_hex : denotes S24 true (VStr "#fF0a09") [38; 2; 255; 10; 9].
Proof. apply (D_24_hex true "f" "F" "0" "a" "0" "9" 15 15 0 10 0 9); vm_compute; reflexivity. Qed.
Example C49_example : coloring "hi" (VStr "#fF0a09") (VStr "Y") true (VStr "rgb")
  = Ok (sgr [38; 2; 255; 10; 9] ++ sgr [48; 2; 255; 255; 0] ++ sgr [1] ++ "hi" ++ sgr [0]).
Proof.
  apply (C49_wellformed "hi" _ _ true (VStr "rgb") S24); [right; reflexivity|exact C49_example_hex|].
  apply (D_24_name false "Y" 3). right. reflexivity.
Qed.
Example C49_example_invalid : documented S24 (VStr "#12345g") /\ forall codes, ~ denotes S24 true (VStr "#12345g") codes.
Proof.
  assert (D : documented S24 (VStr "#12345g")).
  { cbn. repeat (apply Forall_cons; [apply plainb_iff; reflexivity|]). apply Forall_nil. }
  split; auto. intros codes H. apply denotes_ok in H. vm_compute in H. discriminate.
Qed.
