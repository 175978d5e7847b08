(** C49: colours given as bools or as floats: what exactly is written. *)
From Coq Require Import String List ZArith Bool Ascii Lia.
From Verif Require Import Py ColorPrint_Model ColorPrint_Spec ColorPrint_Proofs.
Import ListNotations.
Local Open Scope string_scope.
Local Open Scope Z_scope.

(** Python's text of a component equal to an int from 0 to 255. *)
Inductive written : pyv -> string -> Prop :=
| wr_int z : 0 <= z <= 255 -> written (VInt z) (dec z)
| wr_float z : 0 <= z <= 255 -> written (VFloat z) (dec z ++ ".0")
| wr_true : written (VBool true) "True"
| wr_false : written (VBool false) "False".

(** Ints, bools and floats with a value from 0 to 255 are all taken as components,
    and a bool as a number of the 256 colours; they are written as Python prints
    them, so only ints give a sequence a terminal understands.  With 16 colours a
    bool is refused, and a float is ignored there and with 256 colours. *)
Theorem C49_mixed : forall (s : string) (bold : bool) (v : pyv) (fg : bool),
  let rest := (if bold then sgr [1] else "") ++ s ++ sgr [0] in
  (is_scheme v S24 -> forall r g b tr tg tb, written r tr -> written g tg -> written b tb ->
     coloring s (if fg then VSeq [r; g; b] else VNone) (if fg then VNone else VSeq [r; g; b]) bold v =
     Ok (String ESC ("[" ++ (if fg then "38" else "48") ++ ";2;" ++ tr ++ ";" ++ tg ++ ";" ++ tb ++ "m") ++ rest)) /\
  (is_scheme v S8 -> forall x : bool, coloring s (if fg then VBool x else VNone) (if fg then VNone else VBool x) bold v =
     Ok (String ESC ("[" ++ (if fg then "38" else "48") ++ ";5;" ++ (if x then "True" else "False") ++ "m") ++ rest)) /\
  (is_scheme v S4 -> forall x : bool, coloring s (if fg then VBool x else VNone) (if fg then VNone else VBool x) bold v = Err ValueError) /\
  (is_scheme v S4 \/ is_scheme v S8 -> forall z : Z, coloring s (if fg then VFloat z else VNone) (if fg then VNone else VFloat z) bold v = Ok rest).
Proof.
  intros s bold v fg rest.
  assert (W : forall x t, written x t -> in_range 0 256 x = true /\ fmt x = t).
  { intros x t [z Hz|z Hz| |]; cbn [in_range num_of fmt]; (split; [|reflexivity]); try reflexivity; apply andb_true_iff; (split; [apply Z.leb_le|apply Z.ltb_lt]); lia. }
  split; [|split; [|split]].
  - intros Hs r g b tr tg tb Hr Hg Hb. apply W in Hr as [Ir Er], Hg as [Ig Eg], Hb as [Ib Eb]. rewrite (coloring_scheme _ _ _ _ _ _ Hs).
    destruct fg; cbn [ctrl ctrl_24bits]; rewrite Ir, Ig, Ib, Er, Eg, Eb; cbn [andb bind]; subst rest; destruct bold; cbn; rewrite ?sapp_assoc; reflexivity.
  - intros Hs x. rewrite (coloring_scheme _ _ _ _ _ _ Hs). subst rest. destruct fg, x, bold; cbn; reflexivity.
  - intros Hs x. rewrite (coloring_scheme _ _ _ _ _ _ Hs). destruct fg, x; reflexivity.
  - intros [Hs|Hs] z; rewrite (coloring_scheme _ _ _ _ _ _ Hs); subst rest; destruct fg, bold; cbn; reflexivity.
Qed.
Print Assumptions C49_mixed.
Example mixed_case : is_scheme (VStr "rgb") S24 /\ written (VFloat 17) "17.0" /\ written (VBool false) "False" /\
  coloring "x" (VSeq [VFloat 17; VBool false; VInt 3]) VNone false (VStr "rgb") = Ok (CSI ++ "38;2;17.0;False;3mx" ++ RESET).
Proof. split; [right; reflexivity|]. split; [apply (wr_float 17); lia|]. split; [constructor|]. vm_compute. reflexivity. Qed.

(** Three components of which one is neither an int, a bool nor a float with a value from
    0 to 255 (None, a string, 256, ...): ValueError. *)
Theorem C49_tuple_refused : forall (s : string) (bold : bool) (v : pyv) (fg : bool) (r g b x : pyv), is_scheme v S24 ->
  x = r \/ x = g \/ x = b -> (forall t, ~ written x t) -> coloring s (if fg then VSeq [r; g; b] else VNone) (if fg then VNone else VSeq [r; g; b]) bold v = Err ValueError.
Proof.
  intros s bold v fg r g b x Hs Hx HW. assert (Fx : in_range 0 256 x = false).
  { destruct (in_range 0 256 x) eqn:E; [|reflexivity]. exfalso. unfold in_range in E. destruct x as [|t|z|c|z|l|]; cbn [num_of] in E; try discriminate; [|destruct c; [apply (HW _ wr_true)|apply (HW _ wr_false)]|];
      apply andb_true_iff in E as [E1 E2]; apply Z.leb_le in E1; apply Z.ltb_lt in E2; first [apply (HW _ (wr_int z ltac:(lia)))|apply (HW _ (wr_float z ltac:(lia)))]. }
  rewrite (coloring_scheme _ _ _ _ _ _ Hs). destruct fg; cbn [ctrl ctrl_24bits]; (destruct Hx as [->|[->| ->]]; rewrite Fx; rewrite ?andb_false_r; reflexivity).
Qed.
Print Assumptions C49_tuple_refused.
Example tuple_case : (forall t, ~ written VNone t) /\ (forall t, ~ written (VStr "7") t) /\ (forall t, ~ written (VInt 256) t).
Proof. split; [|split]; intros t H; inversion H; lia. Qed.
