(** Proofs for C63. *)
From Coq Require Import String List ZArith Bool Reals Ascii Lia Lra DecimalString.
From Flocq Require Import Core.Core.
From Verif Require Import Py Float64_Model State_Model ColorPrint_Model Text_Model Text_Spec Text_Proofs Text_Proofs2 Bond_Model Line2D_Model Line2D_Spec Line2D_Proofs Lattice_Model Text2_Model Text2_Spec Text2_Proofs Text3_Model Text3_Spec.
Import ListNotations.
Local Open Scope string_scope.

Lemma dec_unsigned n : (0 <= n)%Z -> exists c r, dec n = String c r /\ c <> "-"%char.
Proof.
  intros H. unfold dec, NilZero.string_of_int, NilZero.string_of_uint. pose proof (to_int_norm n) as A.
  destruct n as [|p|p]; cbn [Z.to_int] in *; [do 2 eexists; split; [reflexivity|discriminate]| |lia].
  destruct (Pos.to_uint p) eqn:E; [contradiction|..]; cbn; do 2 eexists; (split; [reflexivity|discriminate]).
Qed.
Lemma dec_digit d : digit d -> exists c, dec d = String c "".
Proof.
  unfold digit. intros H. assert (C : In d [0; 1; 2; 3; 4; 5; 6; 7; 8; 9]%Z) by (cbn; lia).
  cbn in C. repeat (destruct C as [<-|C]; [eexists; reflexivity|]). destruct C.
Qed.
Lemma dec_dot n : free (inb ".") (dec n).
Proof. apply dec_no. not_numeral. Qed.
Lemma digits4_inj d1 d2 d3 d4 e1 e2 e3 e4 a b : digit d1 -> digit d2 -> digit d3 -> digit d4 -> digit e1 -> digit e2 -> digit e3 -> digit e4 ->
  dec d1 ++ dec d2 ++ dec d3 ++ dec d4 ++ a = dec e1 ++ dec e2 ++ dec e3 ++ dec e4 ++ b -> (d1 = e1 /\ d2 = e2 /\ d3 = e3 /\ d4 = e4) /\ a = b.
Proof.
  intros H1 H2 H3 H4 K1 K2 K3 K4 E. assert (J : forall x y u v, digit x -> digit y -> dec x ++ u = dec y ++ v -> x = y /\ u = v).
  { clear. intros x y u v Hx Hy E. destruct (dec_digit x Hx) as [c Ec], (dec_digit y Hy) as [c' Ec']. rewrite Ec, Ec' in E. cbn in E. injection E as E1 E2. split; [|exact E2]. apply dec_inj. now rewrite Ec, Ec', E1. }
  apply J in E as [-> E]; auto. apply J in E as [-> E]; auto. apply J in E as [-> E]; auto. apply J in E as [-> E]; auto.
Qed.
(** A decimal followed by something is cut in one way. *)
Lemma decimal_cut t v t' v' a b : decimal t v -> decimal t' v' -> t ++ a = t' ++ b -> t = t' /\ v = v' /\ a = b.
Proof.
  intros (m & n & d1 & d2 & d3 & d4 & Hn & H1 & H2 & H3 & H4 & -> & ->) (m' & n' & e1 & e2 & e3 & e4 & Hn' & K1 & K2 & K3 & K4 & -> & ->) E.
  rewrite !sapp_A in E. assert (M : m = m').
  { destruct (dec_unsigned n Hn) as (c & r & Ec & Nc), (dec_unsigned n' Hn') as (c' & r' & Ec' & Nc'). destruct m, m'; auto; cbn in E; rewrite ?Ec, ?Ec' in E; cbn in E; injection E as E0 E; congruence. }
  subst m'. apply sapp_cancel in E. apply (cut (inb ".")) in E as [E1 E]; [|apply dec_dot..|reflexivity|reflexivity].
  apply dec_inj in E1 as ->. apply (sapp_cancel ".") in E. apply digits4_inj in E as [(-> & -> & -> & ->) E]; auto.
Qed.
Lemma decimal_unique t v v' : decimal t v -> decimal t v' -> v = v'.
Proof. intros H H'. apply (decimal_cut t v t v' "" "" H H' eq_refl). Qed.

Lemma digits_of n : (n = 10000 * (n / 10000) + 1000 * (n / 1000 mod 10) + 100 * (n / 100 mod 10) + 10 * (n / 10 mod 10) + n mod 10)%Z.
Proof.
  pose proof (Z.div_mod n 10 ltac:(lia)) as E1. pose proof (Z.div_mod (n / 10) 10 ltac:(lia)) as E2. pose proof (Z.div_mod (n / 100) 10 ltac:(lia)) as E3. pose proof (Z.div_mod (n / 1000) 10 ltac:(lia)) as E4.
  rewrite (Z.div_div n 10 10) in E2 by lia. rewrite (Z.div_div n 100 10) in E3 by lia. rewrite (Z.div_div n 1000 10) in E4 by lia. change (10 * 10)%Z with 100%Z in E2. change (100 * 10)%Z with 1000%Z in E3. change (1000 * 10)%Z with 10000%Z in E4. lia.
Qed.
Lemma fixed4_decimal x : exists v, decimal (fixed4 x) v /\ (Rabs (v - x) <= 1 / 20000)%R.
Proof.
  unfold fixed4. set (n := ZnearestE (Rabs x * 10000)). pose proof (Znearest_half (fun t => negb (Z.even t)) (Rabs x * 10000)) as Hh. fold n in Hh.
  assert (Pn : (0 <= n)%Z).
  { apply Z.lt_pred_le. apply lt_IZR. rewrite <- Z.sub_1_r, minus_IZR. pose proof (Rabs_pos x). apply Raux.Rabs_le_inv in Hh. lra. }
  exists ((if Rlt_dec x 0 then -1 else 1) * (IZR n / 10000))%R. split.
  - exists (if Rlt_dec x 0 then true else false), (n / 10000)%Z, (n / 1000 mod 10)%Z, (n / 100 mod 10)%Z, (n / 10 mod 10)%Z, (n mod 10)%Z.
    assert (D : forall k, digit (k mod 10)) by (intros k; unfold digit; pose proof (Z.mod_pos_bound k 10 ltac:(lia)); lia).
    split; [apply Z.div_pos; lia|]. do 4 (split; [apply D|]). split; [destruct (Rlt_dec x 0); reflexivity|].
    rewrite (digits_of n) at 1. rewrite !plus_IZR, !mult_IZR. destruct (Rlt_dec x 0); field.
  - apply Raux.Rabs_le_inv in Hh. apply Rabs_le. destruct (Rlt_dec x 0) as [Hx|Hx]; [rewrite Rabs_left in Hh by lra|rewrite Rabs_right in Hh by lra]; lra.
Qed.
Lemma fixed4_same x y : fixed4 x = fixed4 y -> (Rabs (x - y) <= 1 / 10000)%R.
Proof.
  intros E. destruct (fixed4_decimal x) as (v & D & H), (fixed4_decimal y) as (w & D' & H'). rewrite E in D. rewrite (decimal_unique _ _ _ D D') in H.
  apply Raux.Rabs_le_inv in H, H'. apply Rabs_le. lra.
Qed.
Lemma decimal_x t v : decimal t v -> free (inb "x") t.
Proof.
  intros (m & n & d1 & d2 & d3 & d4 & _ & _ & _ & _ & _ & -> & _). assert (D : forall z, free (inb "x") (dec z)) by (intros z; apply dec_no; not_numeral).
  repeat (apply free_app; split); try apply D; [destruct m; cbn; auto|cbn; auto].
Qed.

(** ** Arrays *)
Definition arr_items (a : arr) : list pynum := match a with AI l => map NInt l | AF l => map NFlt l end.
Lemma arr_repr_items T a : arr_repr T a = tuple_repr (map (num_repr T) (arr_items a)).
Proof. destruct a; unfold arr_repr, arr_items; rewrite map_map; reflexivity. Qed.
Lemma arr_items_real a : forallb is_real (arr_items a) = true.
Proof. destruct a as [l|l]; unfold arr_items; induction l; [reflexivity|exact IHl|reflexivity|exact IHl]. Qed.
Lemma arr_again a : (alen a <> 0)%nat -> np_array (arr_items a) = Ok a.
Proof.
  destruct a as [l|l]; intros Hl; unfold np_array, arr_items.
  - assert (X : all_ints (map NInt l) = Some l) by (clear; induction l as [|z l IH]; [reflexivity|]; cbn; now rewrite IH). now rewrite X.
  - assert (Y : mapM to_float (map NFlt l) = Ok l) by (clear; induction l as [|z l IH]; [reflexivity|]; cbn; now rewrite IH). destruct l as [|f l]; [cbn in Hl; lia|]. cbn [map all_ints to_int]. cbn [map] in Y. now rewrite Y.
Qed.
Lemma arr_source T a : tuple_source T (arr_repr T a) (arr_items a).
Proof.
  rewrite arr_repr_items. generalize (arr_items_real a). generalize (arr_items a). clear a. assert (Num : forall x, is_real x = true -> num_source T (num_repr T x) x) by (intros [z|f|] H; [constructor|constructor|discriminate]).
  intros l. destruct l as [|x [|y l]]; intros H; cbn [forallb] in H; [exact (no_items T)|apply andb_true_iff in H as [H _]; apply (one_item T); now apply Num|].
  apply andb_true_iff in H as [H1 H2]. unfold tuple_repr. cbn [map]. rewrite join_concat. apply (items T); [now apply Num| |discriminate].
  change (num_repr T y :: map (num_repr T) l) with (map (num_repr T) (y :: l)). change (is_real y && forallb is_real l = true)%bool with (forallb is_real (y :: l) = true) in H2.
  revert H2. generalize (y :: l). clear - Num. intros m. induction m as [|a m IH]; intros H; [constructor|]. cbn [forallb] in H. apply andb_true_iff in H as [H1 H2].
  constructor; [now apply Num|now apply IH].
Qed.
Lemma arr_repr_inj T a b e e' : faithful_repr T -> (alen a <> 0)%nat -> (alen b <> 0)%nat -> arr_repr T a ++ e = arr_repr T b ++ e' -> a = b /\ e = e'.
Proof.
  intros HT Na Nb E. rewrite !arr_repr_items in E. assert (Nn : forall a, (alen a <> 0)%nat -> arr_items a <> []) by (intros [[|? ?]|[|? ?]] X Y; cbn in X, Y; congruence || lia).
  apply coords_inj in E as [A0 E]; auto using arr_items_real. split; [|exact E]. pose proof (arr_again a Na) as X. rewrite A0, (arr_again b Nb) in X. now injection X.
Qed.

(** ** Lines *)
Lemma line_shape tol p q l : (0 <= tol)%R -> clean tol p q -> make_line (pt p) (pt q) tol = Ok l ->
  (snd p = snd q -> line_str l = "y = " ++ fixed4 (snd p)) /\ (fst p = fst q -> line_str l = "x = " ++ fixed4 (fst p)) /\
  (fst p <> fst q -> snd p <> snd q -> let m := ((snd q - snd p) / (fst q - fst p))%R in line_str l = "y = " ++ fixed4 m ++ "x + " ++ fixed4 (snd p - m * fst p)).
Proof.
  intros Ht Hc E. destruct (clean_line tol p q Ht Hc) as (E' & HH & HV & NB). rewrite E in E'. injection E' as ->. unfold line_str. cbn [l_x0 l_y0 l_dx l_dy IsHorizontal IsVertical].
  split; [|split].
  - intros Hy. now rewrite (proj2 HH (eq_sym Hy)).
  - intros Hx. rewrite (proj2 HV (eq_sym Hx)). destruct (Rleb (Rabs (snd q - snd p)) tol); [|reflexivity]. exfalso. apply NB. split; [now apply HH|now symmetry].
  - intros Nx Ny. destruct (Rleb (Rabs (snd q - snd p)) tol); [exfalso; apply Ny; symmetry; now apply HH|]. destruct (Rleb (Rabs (fst q - fst p)) tol); [exfalso; apply Nx; symmetry; now apply HV|].
    do 4 f_equal. field. lra.
Qed.
