(** C39 in doubles: the length does not depend on the order of the ends, bit for bit. *)
From Coq Require Import List ZArith Bool Reals Lra Lia Arith Floats.SpecFloat.
From Flocq Require Import Core.Raux Core.Zaux.
From Verif Require Import Py Float64_Model Float64_Proofs State_Model State_Spec State_Proofs Bond_Model Bond_Spec Bond_Proofs KPath_Model BondFloat_Model BondFloat_Properties.
Import ListNotations.
Local Open Scope Z_scope.

(** Two doubles that are equal up to their sign. *)
Definition mirror (x y : f64) : Prop := SFabs x = SFabs y.
Lemma square_mirror x y : mirror x y -> fmul x x = fmul y y.
Proof.
  unfold mirror. destruct x as [s|s| |s m e], y as [s'|s'| |s' m' e']; cbn [SFabs]; intros E; try discriminate; unfold fmul, SFmul; rewrite ?xorb_nilpotent; try reflexivity.
  injection E as <- <-. reflexivity.
Qed.
Lemma normalize_mirror m e s s' : mirror (binary_normalize prec64 emax64 m e s) (binary_normalize prec64 emax64 (- m) e s').
Proof.
  assert (A : forall sx mx ex lx, SFabs (binary_round_aux prec64 emax64 sx mx ex lx) = SFabs (binary_round_aux prec64 emax64 (negb sx) mx ex lx)).
  { intros sx mx ex lx. unfold binary_round_aux. destruct (shr_fexp _ _ _ _ _) as [mrs' e']. destruct (shr_fexp _ _ (round_nearest_even _ _) _ _) as [mrs'' e'']. destruct (shr_m mrs''); try reflexivity. destruct (e'' <=? emax64 - prec64); reflexivity. }
  assert (B : forall sx p ex, SFabs (binary_round prec64 emax64 sx p ex) = SFabs (binary_round prec64 emax64 (negb sx) p ex)).
  { intros sx p ex. unfold binary_round. destruct (shl_align p ex _) as [mz ez]. apply A. }
  unfold mirror, binary_normalize. destruct m as [|p|p]; cbn [Z.opp]; [reflexivity|apply (B false)|apply (B true)].
Qed.
Lemma sub_mirror x y : mirror (fsub x y) (fsub y x).
Proof.
  unfold fsub, SFsub. destruct x as [s|s| |s m e], y as [s'|s'| |s' m' e']; try (destruct s; destruct s'; reflexivity); try (destruct s; reflexivity); try (destruct s'; reflexivity); try reflexivity.
  rewrite (Z.min_comm e' e). set (ez := Z.min e e').
  replace (cond_Zopp s' (Z.pos (fst (shl_align m' e' ez))) - cond_Zopp s (Z.pos (fst (shl_align m e ez)))) with (- (cond_Zopp s (Z.pos (fst (shl_align m e ez))) - cond_Zopp s' (Z.pos (fst (shl_align m' e' ez))))) by lia.
  apply normalize_mirror.
Qed.
Lemma float_mirror z : mirror (flt_of z) (flt_of (- z)).
Proof.
  pose proof (normalize_mirror z 0 false false) as M. unfold flt_of, float_of_int. unfold mirror in *. destruct (binary_normalize prec64 emax64 z 0 false) as [s|s| |s m e], (binary_normalize prec64 emax64 (- z) 0 false) as [s'|s'| |s' m' e']; cbn [SFabs] in M |- *; try discriminate; try reflexivity. exact M.
Qed.
Lemma wrap_mirror x y : mirror (flt_of (wrap64 (x - y))) (flt_of (wrap64 (y - x))).
Proof.
  destruct (Z.eq_dec (wrap64 (x - y)) (- 2 ^ 63)) as [E|N].
  - assert (E' : wrap64 (y - x) = - 2 ^ 63); [|now rewrite E, E'].
    unfold wrap64 in *. assert (H : (x - y + 2 ^ 63) mod 2 ^ 64 = 0) by lia. assert (H2 : (y - x + 2 ^ 63) mod 2 ^ 64 = 0); [|lia].
    apply Z.mod_divide in H; [|lia]. destruct H as [c H]. apply Z.mod_divide; [lia|]. exists (1 - c). change (2 ^ 64) with (2 * 2 ^ 63) in *. lia.
  - assert (E : wrap64 (y - x) = - wrap64 (x - y)); [|rewrite E; apply float_mirror].
    unfold wrap64 in *. set (a := x - y) in *. replace (y - x) with (- a) by (unfold a; lia).
    pose proof (Z.mod_pos_bound (a + 2 ^ 63) (2 ^ 64) ltac:(lia)) as B. pose proof (Z.div_mod (a + 2 ^ 63) (2 ^ 64) ltac:(lia)) as D. set (q := (a + 2 ^ 63) / 2 ^ 64) in *. set (r := (a + 2 ^ 63) mod 2 ^ 64) in *.
    assert (M : (- a + 2 ^ 63) mod 2 ^ 64 = 2 ^ 64 - r); [|rewrite M; change (2 ^ 64) with (2 * 2 ^ 63); lia].
    symmetry. apply (Z.mod_unique _ _ (- q)); [left; lia|]. change (2 ^ 64) with (2 * 2 ^ 63) in *. lia.
Qed.
Lemma arr_mirror a b : Forall2 mirror (as_floats (arr_sub a b)) (as_floats (arr_sub b a)).
Proof.
  assert (G : forall l m, Forall2 mirror (zip_with fsub l m) (zip_with fsub m l)).
  { induction l as [|x l IH]; intros [|y m]; try constructor; [apply sub_mirror|apply IH]. }
  destruct a as [l|l], b as [m|m]; cbn [arr_sub as_floats]; try apply G.
  revert m. induction l as [|x l IH]; intros [|y m]; try constructor; [apply wrap_mirror|apply IH].
Qed.
Lemma norm_mirror l m : Forall2 mirror l m -> row_norm float_arith l = row_norm float_arith m.
Proof.
  intros H. unfold row_norm. cbn [root float_arith mul add zero]. assert (E : map (fun x => fmul x x) l = map (fun x => fmul x x) m); [|now rewrite E].
  induction H as [|x y l m M _ IH]; [reflexivity|]. cbn [map]. rewrite IH. f_equal. now apply square_mirror.
Qed.

(** Whatever the ends are (numbers of any size, integers whose difference wraps
    around), the bond between them has the same length from either end, directional
    or not, rounded or not; so has the flipped bond. *)
Theorem C39_length_symmetric : forall zoom zoom' p0 p1 d e b c nd, make_bond zoom p0 p1 d = Ok b -> make_bond zoom' p1 p0 e = Ok c ->
  fgetLength b nd = fgetLength c nd /\ (forall f, flip zoom' b = Ok f -> fgetLength f nd = fgetLength b nd).
Proof.
  intros zoom zoom' p0 p1 d e b c nd Eb Ec.
  assert (Key : forall a0 a1 z z' f g b c, init z a0 a1 f = Ok b -> init z' a1 a0 g = Ok c -> fgetLength b nd = fgetLength c nd).
  { clear. intros a0 a1 z z' f g b c Eb Ec. destruct (init_inv _ _ _ _ _ Eb) as (? & ? & _ & _ & _ & _ & ->). destruct (init_inv _ _ _ _ _ Ec) as (? & ? & _ & _ & _ & _ & ->).
    unfold fgetLength, flength. cbn [b_p0 b_p1]. f_equal. apply norm_mirror, arr_mirror. }
  destruct p0 as [l0|], p1 as [l1|]; try discriminate; [|unfold make_bond in Eb; destruct (np_array l0); discriminate|unfold make_bond in Eb; destruct (np_array l1); discriminate].
  destruct (make_inv _ _ _ _ _ Eb) as (a0 & a1 & E0 & E1 & I0). destruct (make_inv _ _ _ _ _ Ec) as (a1' & a0' & E1' & E0' & I1). rewrite E0 in E0'. injection E0' as <-. rewrite E1 in E1'. injection E1' as <-.
  split; [eapply Key; eassumption|]. intros f Ef. symmetry. destruct (init_inv _ _ _ _ _ I0) as (? & ? & _ & _ & _ & _ & Hb). unfold flip in Ef. destruct (b_dir b); [|discriminate].
  eapply (Key a0 a1 zoom zoom' d true b f I0). rewrite Hb in Ef. exact Ef.
Qed.
Print Assumptions C39_length_symmetric.

(** The diagonal of a unit square: its length is within the bound of sqrt 2, and with
    four decimals it is the double that is written 1.4142. *)
Example diagonal_case : exists b l, make_bond (10 ^ 4) (PVec [NInt 0; NInt 0]) (PVec [NInt 1; NInt 1]) true = Ok b /\
  (fgetLength b None = S754_finite false 6369051672525773 (-52)) /\ int_true_div 14142 10000 = Ok l /\ fgetLength b (Some 4) = l /\ fgetLength b (Some 0) = S754_finite false 4503599627370496 (-52) /\ fgetLength b (Some (-1)) = S754_zero false.
Proof. do 2 eexists. repeat split; vm_compute; reflexivity. Qed.
Example decimals_case : (let l0 := [NInt 0; NInt 0] in let l1 := [NInt 1; NInt 1] in let X := euclid (exact_displacement l0 l1) in
  Forall ordinary l0 /\ Forall ordinary l1 /\ X * IZR (10 ^ 4) <= 10 ^ 12 /\ Rabs (X * IZR (10 ^ 4) - IZR 14142) <= 49 / 100)%R.
Proof.
  cbv zeta. assert (O : forall z, 0 <= z <= 1 -> ordinary (NInt z)).
  { intros z Hz. split; [cbn; lia|]. cbn [coord_value]. rewrite <- abs_IZR. apply IZR_le. change (2 ^ 400) with (2 * 2 ^ 399). assert (0 < 2 ^ 399) by (apply Z.pow_pos_nonneg; lia). lia. }
  split; [apply Forall_cons; [apply O; lia|apply Forall_cons; [apply O; lia|apply Forall_nil]]|]. split; [apply Forall_cons; [apply O; lia|apply Forall_cons; [apply O; lia|apply Forall_nil]]|].
  assert (E : (euclid (exact_displacement [NInt 0; NInt 0] [NInt 1; NInt 1]) = sqrt 2)%R). { unfold euclid, exact_displacement, sum. cbn [map combine fst snd coord_value fold_right]. f_equal. ring. }
  rewrite E. assert (B : (141421 / 100000 <= sqrt 2 <= 141422 / 100000)%R).
  { split; apply Rsqr_incr_0_var; rewrite ?Rsqr_sqrt by lra; unfold Rsqr; try lra. apply sqrt_pos. }
  change (10 ^ 4) with 10000. split; [|apply Rabs_le]; lra.
Qed.
