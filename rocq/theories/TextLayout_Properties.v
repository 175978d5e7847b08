(** C54: the lines of the texts of terms and interactions. *)
From Coq Require Import String List ZArith Bool Ascii Lia.
From Verif Require Import Py GQ Float64_Model IndexTable_Model State_Model State_Spec State_Proofs MatrixRepr_Model
  Particle_Model Particle_Spec Particle_Proofs Particle_Proofs2
  Spin_Model Spin_Spec Spin_Proofs3 ColorPrint_Model Text_Model Text_Spec Text_Proofs Text_Proofs2 Text_Properties Text4_Model TextLayout_Spec.
Import ListNotations.
Local Open Scope string_scope.

Lemma lines_one s : none_of newline s -> lines s = [s].
Proof.
  induction s as [|c r IH]; intros H; [reflexivity|]. cbn [lines]. assert (Hr : none_of newline r).
  { intros d Hd. specialize (H d Hd). cbn [has] in H. now apply orb_false_iff in H as [_ H]. }
  rewrite (IH Hr). assert (E : Ascii.eqb c line_break = false).
  { specialize (H line_break eq_refl). cbn [has] in H. apply orb_false_iff in H as [H _]. now rewrite Ascii.eqb_sym. }
  now rewrite E.
Qed.
Lemma lines_app s t : none_of newline s -> lines (s ++ newline ++ t) = s :: lines t.
Proof.
  induction s as [|c r IH]; intros H; [reflexivity|]. assert (Hr : none_of newline r).
  { intros d Hd. specialize (H d Hd). cbn [has] in H. now apply orb_false_iff in H as [_ H]. }
  cbn [append lines]. rewrite (IH Hr). assert (E : Ascii.eqb c line_break = false).
  { specialize (H line_break eq_refl). cbn [has] in H. apply orb_false_iff in H as [H _]. now rewrite Ascii.eqb_sym. }
  now rewrite E.
Qed.
Lemma join_cons sep a b l : join sep (a :: b :: l) = a ++ sep ++ join sep (b :: l).
Proof.
  cbn [join fold_left]. assert (K : forall l x y, fold_left (fun a b => a ++ sep ++ b) l (x ++ y) = x ++ fold_left (fun a b => a ++ sep ++ b) l y).
  { clear. assert (A : forall a b c : string, (a ++ b) ++ c = a ++ b ++ c) by (induction a as [|h t IH]; intros b c; cbn; [reflexivity|now rewrite IH]).
    induction l as [|z l IH]; intros x y; [reflexivity|]. cbn [fold_left]. rewrite A. apply IH. }
  now rewrite K, K.
Qed.
Lemma lines_join l : l <> [] -> Forall (none_of newline) l -> lines (join newline l) = l.
Proof.
  induction l as [|a l IH]; intros N F; [contradiction|]. inversion F as [|? ? Fa Fl]; subst. destruct l as [|b l]; [now apply lines_one|].
  rewrite join_cons, lines_app by exact Fa. f_equal. apply IH; [discriminate|exact Fl].
Qed.
Lemma none_app cs a b : none_of cs a -> none_of cs b -> none_of cs (a ++ b).
Proof. intros A B c Hc. specialize (A c Hc). specialize (B c Hc). induction a as [|d r IH]; [exact B|]. cbn [append has] in *. apply orb_false_iff in A as [A1 A2]. now rewrite A1, IH. Qed.

(** The text of a term has a line with its coefficient, a heading and one line
    for each operator, in their order and indented by four spaces. *)
Theorem C54_term_lines : forall T zoom ctext, faithful_repr T -> none_of newline ctext ->
  (forall t, Forall (fun x => built_state zoom (a_state x)) (t_aocs t) ->
     lines (pterm_str T ctext t) = ("The coefficient of this term: " ++ ctext) :: "The component operators:" :: map (fun x => "    " ++ aoc_repr T x) (t_aocs t)) /\
  (forall t, Forall (built_spin zoom) (i_ops t) ->
     lines (inter_str T ctext t) = ("The coefficient of this term: " ++ ctext) :: "The component operators:" :: map (fun x => "    " ++ spinop_repr T x) (i_ops t)).
Proof.
  intros T zoom ctext HT Nc. assert (K : forall s, (forall c, has c newline = true -> has c s = false) -> none_of newline s) by auto.
  assert (Lit : forall s, has line_break s = false -> none_of newline s).
  { intros s H c Hc. unfold newline in Hc. cbn [has] in Hc. rewrite orb_false_r in Hc. apply Ascii.eqb_eq in Hc as ->. exact H. }
  assert (G : forall l, Forall (none_of newline) l -> lines (term_str ctext l) = ("The coefficient of this term: " ++ ctext) :: "The component operators:" :: map (fun r => "    " ++ r) l).
  { intros l Hl. unfold term_str. cbn [app]. rewrite lines_join; [reflexivity|discriminate|]. apply Forall_cons; [apply none_app; [now apply Lit|exact Nc]|]. apply Forall_cons; [now apply Lit|].
    apply Forall_forall. intros s Hs. apply in_map_iff in Hs as (r & <- & Hr). rewrite Forall_forall in Hl. apply none_app; [now apply Lit|now apply Hl]. }
  split; intros t Ft; rewrite Forall_forall in Ft.
  - unfold pterm_str. rewrite G; [now rewrite map_map|]. apply Forall_forall. intros s Hs. apply in_map_iff in Hs as (x & <- & Hx). apply none_free. exact (aoc_repr_free T zoom x HT (Ft x Hx)).
  - unfold inter_str. rewrite G; [now rewrite map_map|]. apply Forall_forall. intros s Hs. apply in_map_iff in Hs as (x & <- & Hx). apply none_free. exact (spinop_repr_free T zoom x HT (Ft x Hx)).
Qed.
Print Assumptions C54_term_lines.


(** The text of SwapFermionError names the two operators, in their order; two of
    these texts are equal only for the same two operators. *)
Theorem C54_swap_error : forall T zoom x y, faithful_repr T -> built_state zoom (a_state x) -> built_state zoom (a_state y) ->
  lines (swap_error_str T x y) = ["Swapping the following two operators would generate extra identity operator which can not be processed properly:"; "    " ++ aoc_repr T x; "    " ++ aoc_repr T y] /\
  forall x' y', built_state zoom (a_state x') -> built_state zoom (a_state y') ->
  (swap_error_str T x y = swap_error_str T x' y' <-> (a_otype x = a_otype x' /\ same_data (a_state x) (a_state x')) /\ (a_otype y = a_otype y' /\ same_data (a_state y) (a_state y'))).
Proof.
  intros T zoom x y HT Bx By.
  assert (Lit : forall s, has line_break s = false -> none_of newline s).
  { intros s H c Hc. unfold newline in Hc. cbn [has] in Hc. rewrite orb_false_r in Hc. apply Ascii.eqb_eq in Hc as ->. exact H. }
  assert (K : forall x y, built_state zoom (a_state x) -> built_state zoom (a_state y) -> lines (swap_error_str T x y) = ["Swapping the following two operators would generate extra identity operator which can not be processed properly:"; "    " ++ aoc_repr T x; "    " ++ aoc_repr T y]).
  { intros u v Bu Bv. unfold swap_error_str. rewrite lines_join; [reflexivity|discriminate|].
    repeat apply Forall_cons; [now apply Lit| | |constructor]; (apply none_app; [now apply Lit|]; apply none_free); [exact (aoc_repr_free T zoom u HT Bu)|exact (aoc_repr_free T zoom v HT Bv)]. }
  split; [now apply K|]. intros x' y' Bx' By'. destruct (C54_repr T zoom HT) as (_ & RA & _ & _). split.
  - intros E. pose proof (f_equal lines E) as E2. rewrite !K in E2 by assumption. apply (f_equal (fun l => (nth 1 l "", nth 2 l ""))) in E2. cbn [nth] in E2. apply pair_equal_spec in E2 as [E2 E3].
    assert (Cn : forall a b, "    " ++ a = "    " ++ b -> a = b) by (intros a b Q; now injection Q). apply Cn in E2, E3. split; apply RA; assumption.
  - intros [Hx Hy]. apply RA in Hx; [|assumption..]. apply RA in Hy; [|assumption..]. unfold swap_error_str. now rewrite Hx, Hy.
Qed.
Print Assumptions C54_swap_error.

(** A term of two operators. *)
Example two_operators :
  match make_aoc default_zoom 1 [NInt 0; NInt 1] (NInt 1) (NInt 0), make_aoc default_zoom 0 [NInt 0; NInt 1] (NInt 0) (NInt 0) with
  | Ok x, Ok y => lines (pterm_str sample_text "0.5" (MkTerm [x; y] 1 Tgeneral)) = ["The coefficient of this term: 0.5"; "The component operators:";
    "    AoC(otype=CREATION, site=(0, 1), spin=1, orbit=0)"; "    AoC(otype=ANNIHILATION, site=(0, 1), spin=0, orbit=0)"]
  | _, _ => False
  end.
Proof. reflexivity. Qed.
(** The hypotheses of the theorems above for these operators. *)
Example two_operators_built : exists x y, make_aoc default_zoom 1 [NInt 0; NInt 1] (NInt 1) (NInt 0) = Ok x /\ make_aoc default_zoom 0 [NInt 0; NInt 1] (NInt 0) (NInt 0) = Ok y /\
  built_state default_zoom (a_state x) /\ built_state default_zoom (a_state y) /\ faithful_repr sample_text /\ none_of newline "0.5".
Proof.
  do 2 eexists. split; [reflexivity|]. split; [reflexivity|]. split; [|split; [|split; [apply C54_assumptions_satisfiable|]]].
  - exists [NInt 0; NInt 1], (NInt 1), (NInt 0). reflexivity.
  - exists [NInt 0; NInt 1], (NInt 0), (NInt 0). reflexivity.
  - intros c Hc. unfold newline in Hc. cbn [has] in Hc. rewrite orb_false_r in Hc. apply Ascii.eqb_eq in Hc as ->. reflexivity.
Qed.
