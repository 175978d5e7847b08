(** C49: what is made of "#" and six characters, whatever they are. *)
From Coq Require Import String List ZArith Bool Ascii Lia.
From Verif Require Import Py ColorPrint_Model ColorPrint_Spec ColorPrint_Proofs ColorHex_Spec.
Import ListNotations.
Open Scope string_scope.
Open Scope Z_scope.
Local Open Scope res_scope.

Lemma white_no_hex c : is_space c = true -> hex_digit c = None.
Proof. intros H. destruct (hex_digit c) as [z|] eqn:E; [|reflexivity]. apply hex_plain in E. destruct E as (W & _). apply not_white in W. congruence. Qed.
Lemma sign_facts c : c = "+"%char \/ c = "-"%char -> is_space c = false /\ hex_digit c = None /\ Ascii.eqb c "_" = false /\ Ascii.eqb c "x" = false /\ Ascii.eqb c "X" = false.
Proof. intros [-> | ->]; repeat split; reflexivity. Qed.
Lemma u1 b : unsigned16 (String b "") = match hex_digit b with Some y => Ok y | None => Err ValueError end.
Proof.
  assert (D : unsigned16 (String b "") = digits (String b "") 0 false) by (destruct b as [[] [] [] [] [] [] [] []]; reflexivity).
  rewrite D. cbn [digits]. destruct (hex_digit b) as [y|]; [reflexivity|]. destruct (Ascii.eqb b "_"); reflexivity.
Qed.
Definition pair_of (a b : ascii) : res Z :=
  if is_space a then (if is_space b then Err ValueError else match hex_digit b with Some y => Ok y | None => Err ValueError end)
  else if Ascii.eqb a "-" then match hex_digit b with Some y => Ok (- y) | None => Err ValueError end
  else if Ascii.eqb a "+" then match hex_digit b with Some y => Ok y | None => Err ValueError end
  else match hex_digit a with
       | None => Err ValueError
       | Some x => match hex_digit b with Some y => Ok (16 * x + y) | None => if is_space b then Ok x else Err ValueError end
       end.
Lemma u2 a b : is_space a = false -> unsigned16 (String a (String b "")) =
  match hex_digit a with None => Err ValueError | Some x => match hex_digit b with Some y => Ok (16 * x + y) | None => if is_space b then Ok x else Err ValueError end end.
Proof.
  intros Sa.
  assert (D : digits (String a (String b "")) 0 false = match hex_digit a with None => Err ValueError | Some x => match hex_digit b with Some y => Ok (16 * x + y) | None => if is_space b then Ok x else Err ValueError end end).
  { cbn [digits]. destruct (hex_digit a) as [x|].
    - destruct (hex_digit b) as [y|]; [f_equal; lia|]. destruct (Ascii.eqb_spec b "_") as [-> |]; [reflexivity|]. cbn [andb all_space]. destruct (is_space b); cbn [andb]; [f_equal; lia|reflexivity].
    - destruct (Ascii.eqb a "_"); reflexivity. }
  destruct (Ascii.eqb_spec a "0") as [->|N].
  - cbn [unsigned16]. destruct (Ascii.eqb b "x" || Ascii.eqb b "X")%bool eqn:E; [|exact D].
    rewrite (hex_x _ E). apply orb_prop in E as [E|E]; apply Ascii.eqb_eq in E; subst b; reflexivity.
  - rewrite <- D. unfold unsigned16. destruct a as [[] [] [] [] [] [] [] []]; try reflexivity. now elim N.
Qed.
Lemma int16_of a b : int16 (String a (String b "")) = pair_of a b.
Proof.
  unfold int16, pair_of. cbn [lstrip]. destruct (is_space a) eqn:Sa.
  - destruct (is_space b) eqn:Sb; [reflexivity|]. destruct (Ascii.eqb_spec b "-") as [-> |]; [reflexivity|]. destruct (Ascii.eqb_spec b "+") as [-> |]; [reflexivity|]. apply u1.
  - destruct (Ascii.eqb a "-"); [rewrite u1; destruct (hex_digit b); reflexivity|]. destruct (Ascii.eqb a "+"); [apply u1|]. apply u2. exact Sa.
Qed.
Lemma pair_iff a b z : pair_of a b = Ok z <-> component a b z.
Proof.
  unfold pair_of. split.
  - destruct (is_space a) eqn:Sa.
    + destruct (is_space b) eqn:Sb; [discriminate|]. destruct (hex_digit b) as [y|] eqn:Eb; [|discriminate]. intros [= <-]. apply (proj2 (hex_iff b)) in Eb as (n & Hn & ->). apply blank_first; [apply white_space; exact Sa|exact Hn].
    + destruct (Ascii.eqb_spec a "-") as [-> |_]; [destruct (hex_digit b) as [y|] eqn:Eb; [|discriminate]; intros [= <-]; apply (proj2 (hex_iff b)) in Eb as (n & Hn & ->); apply minus; exact Hn|].
      destruct (Ascii.eqb_spec a "+") as [-> |_]; [destruct (hex_digit b) as [y|] eqn:Eb; [|discriminate]; intros [= <-]; apply (proj2 (hex_iff b)) in Eb as (n & Hn & ->); apply plus; exact Hn|].
      destruct (hex_digit a) as [x|] eqn:Ea; [|discriminate]. apply (proj2 (hex_iff a)) in Ea as (m & Hm & ->).
      destruct (hex_digit b) as [y|] eqn:Eb; [intros [= <-]; apply (proj2 (hex_iff b)) in Eb as (n & Hn & ->); apply two; assumption|].
      destruct (is_space b) eqn:Sb; [intros [= <-]|discriminate]. apply blank_last; [exact Hm|apply white_space; exact Sb].
  - assert (P : forall c n, hexval c n -> hex_digit c = Some (Z.of_nat n) /\ is_space c = false /\ Ascii.eqb c "-" = false /\ Ascii.eqb c "+" = false).
    { intros c n H. apply (proj1 (hex_iff c)) in H. split; [exact H|]. apply hex_plain in H as (W & Np & Nm). apply not_white in W. repeat split; [exact W| |]; apply Ascii.eqb_neq; assumption. }
    destruct 1 as [a b m n Ha Hb|a b n Ha Hb|a b n Ha Hb|b n Hb|b n Hb].
    + destruct (P _ _ Ha) as (-> & -> & -> & ->). destruct (P _ _ Hb) as (-> & _). reflexivity.
    + apply white_space in Ha. rewrite Ha. destruct (P _ _ Hb) as (-> & -> & _). reflexivity.
    + destruct (P _ _ Ha) as (-> & -> & -> & ->). apply white_space in Hb. rewrite (white_no_hex _ Hb), Hb. reflexivity.
    + destruct (P _ _ Hb) as (-> & _). reflexivity.
    + destruct (P _ _ Hb) as (-> & _). reflexivity.
Qed.
Lemma pair_error a b e : pair_of a b = Err e -> e = ValueError.
Proof. unfold pair_of. destruct (is_space a), (is_space b), (Ascii.eqb a "-"), (Ascii.eqb a "+"), (hex_digit a), (hex_digit b); congruence. Qed.

(** Under the 24-bit scheme, "#" and any six characters: the sequence with the three
    components if each pair is one, ValueError otherwise; the place decides only between
    38 and 48. Any other string that is not the name of a colour: ValueError. *)
Theorem C49_hex : forall s bold v fg c1 c2 c3 c4 c5 c6,
  is_scheme v S24 ->
  let color := VStr (String "#" (String c1 (String c2 (String c3 (String c4 (String c5 (String c6 ""))))))) in
  let answer := if (fg : bool) then coloring s color VNone bold v else coloring s VNone color bold v in
  (forall r g b, component c1 c2 r -> component c3 c4 g -> component c5 c6 b ->
     answer = Ok (sgr [if fg then 38 else 48; 2; r; g; b] ++ (if bold then sgr [1] else "") ++ s ++ sgr [0])) /\
  ((forall r, ~ component c1 c2 r) \/ (forall g, ~ component c3 c4 g) \/ (forall b, ~ component c5 c6 b) -> answer = Err ValueError).
Proof.
  intros s bold v fg c1 c2 c3 c4 c5 c6 Hs color answer.
  assert (C : ctrl_24bits color fg = bind (pair_of c1 c2) (fun r => bind (pair_of c3 c4) (fun g => bind (pair_of c5 c6) (fun b => Ok (sgr [if fg then 38 else 48; 2; r; g; b]))))).
  { unfold color, ctrl_24bits. cbn [prefix String.length Nat.eqb andb substring]. destruct (ascii_dec "#" "#") as [_|]; [|congruence]. rewrite !int16_of.
    destruct (pair_of c1 c2) as [r|]; cbn [bind]; [|reflexivity]. destruct (pair_of c3 c4) as [g|]; cbn [bind]; [|reflexivity]. destruct (pair_of c5 c6) as [b|]; cbn [bind]; [|reflexivity].
    rewrite sgr5. destruct fg; reflexivity. }
  assert (A : answer = bind (ctrl_24bits color fg) (fun c => Ok (c ++ (if bold then sgr [1] else "") ++ s ++ sgr [0]))).
  { unfold answer. destruct fg; rewrite (coloring_scheme _ _ _ _ _ _ Hs); cbn [ctrl]; destruct (ctrl_24bits color _) as [c|]; cbn [bind]; try reflexivity; unfold ctrl_24bits; cbn [bind]; rewrite ?sapp_assoc; destruct bold; cbn [append]; reflexivity. }
  split.
  - intros r g b H1 H2 H3. apply pair_iff in H1, H2, H3. rewrite A, C, H1, H2, H3. reflexivity.
  - intros H. rewrite A, C. destruct (pair_of c1 c2) as [r|e] eqn:E1; [|rewrite (pair_error _ _ _ E1); reflexivity]. destruct (pair_of c3 c4) as [g|e] eqn:E2; [|cbn [bind]; rewrite (pair_error _ _ _ E2); reflexivity]. destruct (pair_of c5 c6) as [b|e] eqn:E3; [|cbn [bind]; rewrite (pair_error _ _ _ E3); reflexivity].
    apply pair_iff in E1, E2, E3. destruct H as [H|[H|H]]; [elim (H _ E1)|elim (H _ E2)|elim (H _ E3)].
Qed.
Print Assumptions C49_hex.
(** A pair has at most one value, between -15 and 255. *)
Theorem C49_component : forall a b z, component a b z -> -15 <= z <= 255 /\ forall z', component a b z' -> z' = z.
Proof.
  intros a b z H. split.
  - assert (B : forall c n, hexval c n -> Z.of_nat n <= 15).
    { intros c n Hc. assert (n < 16)%nat; [|lia]. change 16%nat with (length (list_ascii_of_string "0123456789abcdef")). apply nth_error_Some. unfold hexval in Hc. congruence. }
    destruct H as [a b m n Ha Hb|a b n Ha Hb|a b n Ha Hb|b n Hb|b n Hb]; try (apply B in Hb; lia); try (apply B in Ha; lia). apply B in Ha, Hb. lia.
  - intros z' H'. apply pair_iff in H, H'. congruence.
Qed.
Print Assumptions C49_component.
(** Strings that are neither "#" and six characters nor the name of a colour. *)
Theorem C49_strings : forall s bold v t bg, is_scheme v S24 -> (forall i, ~ named t i) ->
  (forall rest, t = String "#" rest -> String.length rest <> 6%nat) -> coloring s (VStr t) bg bold v = Err ValueError.
Proof.
  intros s bold v t bg Hs Hn Hl. rewrite (coloring_scheme _ _ _ _ _ _ Hs). cbn [ctrl]. unfold ctrl_24bits at 1.
  destruct (prefix "#" t && Nat.eqb (String.length t) 7) eqn:E0.
  - exfalso. apply andb_prop in E0 as [E0 E1]. destruct t as [|c r]; [discriminate|]. cbn [prefix] in E0. destruct (ascii_dec "#" c) as [<-|]; [|discriminate]. apply Nat.eqb_eq in E1. cbn [String.length] in E1. apply (Hl r eq_refl). lia.
  - destruct (name_cases t) as [[i Hi]|[_ E]]; [elim (Hn _ Hi)|]. rewrite E. reflexivity.
Qed.
Print Assumptions C49_strings.
(** Non-vacuity: the string of the refutation, and one that is refused. *)
Example C49_hex_example : coloring "x" (VStr "# 1+23 ") VNone true (VInt 24) = Ok (sgr [38; 2; 1; 2; 3] ++ sgr [1] ++ "x" ++ sgr [0]).
Proof.
  refine (proj1 (C49_hex "x" true (VInt 24) true " " "1" "+" "2" "3" " " _) 1 2 3 _ _ _); [now left| | |].
  - apply (blank_first _ _ 1); [vm_compute; tauto|reflexivity].
  - apply (plus _ 2). reflexivity.
  - apply (blank_last _ _ 3); [reflexivity|vm_compute; tauto].
Qed.
