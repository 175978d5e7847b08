(** C63: the texts of lines, bonds and lattices say what the object is. *)
From Coq Require Import String List ZArith Bool Reals Ascii Lia Lra.
From Flocq Require Import Core.Core.
From Verif Require Import Py Float64_Model State_Model ColorPrint_Model Text_Model Text_Spec Text_Proofs Text_Proofs2 Bond_Model Bond_Proofs Line2D_Model Line2D_Spec Line2D_Proofs Lattice_Model Lattice_Spec
  Text2_Model Text2_Spec Text2_Proofs Text3_Model Text3_Spec Text3_Proofs.
Import ListNotations.
Local Open Scope string_scope.

(** The formula printed for a line is the equation of the line, its coefficients rounded to
    four decimals. *)
Theorem C63_line : forall tol p q l, (0 <= tol)%R -> clean tol p q -> make_line (pt p) (pt q) tol = Ok l ->
  (snd p = snd q -> exists t v, line_str l = "y = " ++ t /\ decimal t v /\ (Rabs (v - snd p) <= 1 / 20000)%R) /\
  (fst p = fst q -> exists t v, line_str l = "x = " ++ t /\ decimal t v /\ (Rabs (v - fst p) <= 1 / 20000)%R) /\
  (fst p <> fst q -> snd p <> snd q -> exists s t a b, line_str l = "y = " ++ s ++ "x + " ++ t /\ decimal s a /\ decimal t b /\
     forall x y, on_line p q (x, y) -> (Rabs (y - (a * x + b)) <= (1 + Rabs x) / 20000)%R).
Proof.
  intros tol p q l Ht Hc E. destruct (line_shape tol p q l Ht Hc E) as (SH & SV & SG). split; [|split].
  - intros Hy. rewrite (SH Hy). destruct (fixed4_decimal (snd p)) as (v & D & B). eauto.
  - intros Hx. rewrite (SV Hx). destruct (fixed4_decimal (fst p)) as (v & D & B). eauto.
  - intros Nx Ny. rewrite (SG Nx Ny). set (m := ((snd q - snd p) / (fst q - fst p))%R).
    destruct (fixed4_decimal m) as (a & Da & Ba), (fixed4_decimal (snd p - m * fst p)) as (b & Db & Bb).
    do 2 eexists. exists a, b. split; [reflexivity|]. split; [exact Da|]. split; [exact Db|]. intros x y H. apply on_line_y in H; [|exact Nx]. fold m in H.
    replace (y - (a * x + b))%R with (- ((a - m) * x) + - (b - (snd p - m * fst p)))%R by (rewrite H; ring).
    eapply Rle_trans; [apply Rabs_triang|]. rewrite !Rabs_Ropp, Rabs_mult. pose proof (Rabs_pos x) as P. pose proof (Rmult_le_compat_r _ _ _ P Ba). lra.
Qed.
Print Assumptions C63_line.

(** The text depends on the line only, not on the two points it is given by. *)
Theorem C63_line_same : forall tol p q l tol' p' q' l', (0 <= tol)%R -> (0 <= tol')%R -> clean tol p q -> clean tol' p' q' ->
  make_line (pt p) (pt q) tol = Ok l -> make_line (pt p') (pt q') tol' = Ok l' ->
  (forall r, on_line p q r <-> on_line p' q' r) -> line_str l = line_str l'.
Proof.
  intros tol p q l tol' p' q' l' Ht Ht' Hc Hc' E E' Same. destruct (line_shape tol p q l Ht Hc E) as (SH & SV & SG). destruct (line_shape tol' p' q' l' Ht' Hc' E') as (SH' & SV' & SG').
  assert (N : p <> q) by apply Hc. assert (N' : p' <> q') by apply Hc'.
  assert (P0 : on_line p q p') by (apply Same; exists 0%R; destruct p'; cbn; f_equal; ring). assert (P1 : on_line p q q') by (apply Same; exists 1%R; destruct q'; cbn; f_equal; ring).
  apply (on_line_cross p q _ N) in P0, P1.
  destruct p as [x0 y0], q as [x1 y1], p' as [u0 w0], q' as [u1 w1]. cbn [fst snd] in *.
  assert (Ne : (x1 - x0 <> 0 \/ y1 - y0 <> 0)%R). { destruct (Req_dec x1 x0) as [->|]; [|left; lra]. destruct (Req_dec y1 y0) as [->|]; [exfalso; now apply N|right; lra]. }
  assert (Ne' : (u1 - u0 <> 0 \/ w1 - w0 <> 0)%R). { destruct (Req_dec u1 u0) as [->|]; [|left; lra]. destruct (Req_dec w1 w0) as [->|]; [exfalso; now apply N'|right; lra]. }
  assert (PD : ((x1 - x0) * (w1 - w0) = (y1 - y0) * (u1 - u0))%R) by lra.
  destruct (Req_dec y0 y1) as [Ey|Ny].
  - assert (Dx : (x1 - x0 <> 0)%R) by (destruct Ne; lra). assert (Q : w0 = y0 /\ w1 = w0).
    { split; apply (Rmult_eq_reg_l (x1 - x0)); auto; subst y1; lra. }
    destruct Q as [Ew0 Ew1].
    rewrite SH, SH' by congruence. now subst.
  - destruct (Req_dec x0 x1) as [Ex|Nx].
    + assert (Dy : (y1 - y0 <> 0)%R) by lra. assert (Q : u0 = x0 /\ u1 = u0) by (split; apply (Rmult_eq_reg_l (y1 - y0)); auto; subst x1; lra). destruct Q as [Eu0 Eu1].
      rewrite SV, SV' by congruence. now subst.
    + assert (Nu : u0 <> u1). { intros <-. assert (Q : (w1 - w0 = 0)%R); [|destruct Ne'; lra]. apply (Rmult_eq_reg_l (x1 - x0)); [|lra]. rewrite PD. ring. }
      assert (Nw : w0 <> w1). { intros <-. apply Nu. assert (Q : (u1 - u0 = 0)%R); [|lra]. apply (Rmult_eq_reg_l (y1 - y0)); [|lra]. rewrite <- PD. ring. }
      rewrite SG, SG' by assumption. assert (M : ((w1 - w0) / (u1 - u0) = (y1 - y0) / (x1 - x0))%R).
      { apply (Rmult_eq_reg_l ((x1 - x0) * (u1 - u0))); [|apply Rmult_integral_contrapositive; split; lra]. transitivity ((x1 - x0) * (w1 - w0))%R; [field; lra|]. rewrite PD. field. lra. }
      cbv zeta. rewrite M. do 4 f_equal. assert (Q : (w0 - y0 = (y1 - y0) / (x1 - x0) * (u0 - x0))%R); [|lra].
      apply (Rmult_eq_reg_l (x1 - x0)); [|lra]. rewrite P0. field. lra.
Qed.
Print Assumptions C63_line_same.

(** Lines with the same text are of the same kind, and nearly the same line. *)
Theorem C63_line_text : forall tol p q l tol' p' q' l', (0 <= tol)%R -> (0 <= tol')%R -> clean tol p q -> clean tol' p' q' ->
  make_line (pt p) (pt q) tol = Ok l -> make_line (pt p') (pt q') tol' = Ok l' -> line_str l = line_str l' ->
  (snd p = snd q <-> snd p' = snd q') /\
  ((fst p = fst q /\ fst p' = fst q' /\ (Rabs (fst p - fst p') <= 1 / 10000)%R) \/
   (fst p <> fst q /\ fst p' <> fst q' /\ forall x y y', on_line p q (x, y) -> on_line p' q' (x, y') -> (Rabs (y - y') <= (1 + Rabs x) / 10000)%R)).
Proof.
  intros tol p q l tol' p' q' l' Ht Ht' Hc Hc' E E' T. destruct (line_shape tol p q l Ht Hc E) as (SH & SV & SG). destruct (line_shape tol' p' q' l' Ht' Hc' E') as (SH' & SV' & SG').
  assert (Nb : snd p = snd q -> fst p <> fst q) by (intros E1 E2; destruct Hc as (_ & _ & N); apply N; destruct p, q; cbn in *; congruence).
  assert (Nb' : snd p' = snd q' -> fst p' <> fst q') by (intros E1 E2; destruct Hc' as (_ & _ & N); apply N; destruct p', q'; cbn in *; congruence).
  assert (Fx : forall a b c, fixed4 a <> fixed4 b ++ "x + " ++ c).
  { intros a b c H. destruct (fixed4_decimal a) as (v & D & _). apply decimal_x in D. rewrite H in D. apply free_app in D as [_ D]. cbn in D. destruct D as [D _]. discriminate. }
  destruct (Req_dec (snd p) (snd q)) as [Hh|Hh], (Req_dec (snd p') (snd q')) as [Hh'|Hh'].
  - rewrite (SH Hh), (SH' Hh') in T. apply (sapp_cancel "y = ") in T. apply fixed4_same in T. split; [tauto|]. right. split; [auto|]. split; [auto|]. intros x y y' O O'.
    apply on_line_y in O, O'; auto. rewrite Hh in O. rewrite Hh' in O'. replace y with (snd p) by (rewrite O, Hh; field; intros X; apply (Nb Hh); lra). replace y' with (snd p') by (rewrite O', Hh'; field; intros X; apply (Nb' Hh'); lra).
    pose proof (Rabs_pos x). lra.
  - exfalso. rewrite (SH Hh) in T. destruct (Req_dec (fst p') (fst q')) as [V|V]; [rewrite (SV' V) in T; discriminate|]. rewrite (SG' V Hh') in T. apply (sapp_cancel "y = ") in T. exact (Fx _ _ _ T).
  - exfalso. rewrite (SH' Hh') in T. destruct (Req_dec (fst p) (fst q)) as [V|V]; [rewrite (SV V) in T; discriminate|]. rewrite (SG V Hh) in T. apply (sapp_cancel "y = ") in T. symmetry in T. exact (Fx _ _ _ T).
  - split; [tauto|]. destruct (Req_dec (fst p) (fst q)) as [V|V], (Req_dec (fst p') (fst q')) as [V'|V'].
    + left. rewrite (SV V), (SV' V') in T. apply (sapp_cancel "x = ") in T. apply fixed4_same in T. auto.
    + exfalso. rewrite (SV V), (SG' V' Hh') in T. discriminate.
    + exfalso. rewrite (SG V Hh), (SV' V') in T. discriminate.
    + right. split; [exact V|]. split; [exact V'|]. rewrite (SG V Hh), (SG' V' Hh') in T. cbv zeta in T. apply (sapp_cancel "y = ") in T.
      set (m := ((snd q - snd p) / (fst q - fst p))%R) in *. set (m' := ((snd q' - snd p') / (fst q' - fst p'))%R) in *.
      assert (A : fixed4 m = fixed4 m' /\ fixed4 (snd p - m * fst p) = fixed4 (snd p' - m' * fst p')).
      { destruct (fixed4_decimal m) as (v & D & _), (fixed4_decimal m') as (v' & D' & _). destruct (decimal_cut _ _ _ _ _ _ D D' T) as (A1 & _ & A2). apply (sapp_cancel "x + ") in A2. auto. }
      destruct A as [A1 A2]. apply fixed4_same in A1, A2. intros x y y' O O'. apply on_line_y in O, O'; auto. fold m in O. fold m' in O'.
      replace (y - y')%R with ((m - m') * x + ((snd p - m * fst p) - (snd p' - m' * fst p')))%R by (rewrite O, O'; ring).
      eapply Rle_trans; [apply Rabs_triang|]. rewrite Rabs_mult. pose proof (Rabs_pos x) as P. pose proof (Rmult_le_compat_r _ _ _ P A1). lra.
Qed.
Print Assumptions C63_line_text.

(** Different lines can have the same text. *)
Theorem C63_line_text_refuted : exists l l', make_line [0; 0]%R [1; 0]%R (/ 10 ^ 10)%R = Ok l /\ make_line [0; / 100000]%R [1; / 100000]%R (/ 10 ^ 10)%R = Ok l' /\ line_str l = line_str l'.
Proof.
  assert (R0 : (0 < / 10 ^ 10)%R) by (apply Rinv_0_lt_compat; apply pow_lt; lra). assert (R1 : (/ 10 ^ 10 < 1)%R) by (apply (Rmult_lt_reg_l (10 ^ 10)); [apply pow_lt; lra|rewrite Rinv_r by (apply pow_nonzero; lra)]; lra).
  assert (K : forall c, make_line [0; c]%R [1; c]%R (/ 10 ^ 10)%R = Ok (MkLine 0 c (1 - 0) (c - c) true false)).
  { intros c. cbn [make_line]. assert (Ex : Rleb (Rabs (1 - 0)) (/ 10 ^ 10) = false) by (apply Rleb_false; rewrite Rabs_right; lra). assert (Ey : Rleb (Rabs (c - c)) (/ 10 ^ 10) = true) by (apply Rleb_iff; rewrite Rminus_diag_eq, Rabs_R0 by reflexivity; lra).
    rewrite Ex, Ey. reflexivity. }
  exists (MkLine 0 0 (1 - 0) (0 - 0) true false), (MkLine 0 (/ 100000) (1 - 0) (/ 100000 - / 100000) true false). split; [apply K|]. split; [apply K|].
  unfold line_str. cbn [IsHorizontal l_y0]. f_equal. unfold fixed4. assert (Z0 : ZnearestE (Rabs 0 * 10000) = 0%Z) by (apply Znearest_imp; rewrite Rabs_R0; rewrite Rabs_right; lra).
  assert (Z1 : ZnearestE (Rabs (/ 100000) * 10000) = 0%Z) by (apply Znearest_imp; rewrite (Rabs_right (/ 100000)) by lra; rewrite Rabs_right; lra). rewrite Z0, Z1.
  destruct (Rlt_dec 0 0), (Rlt_dec (/ 100000) 0); try lra. reflexivity.
Qed.
Print Assumptions C63_line_text_refuted.

(** repr of a line is an expression with the arrays of the line: equal texts mean the same
    two points.  The tolerance is not printed. *)
Theorem C63_line_repr : forall T p0 p1 a, line_arrays p0 p1 = Ok a ->
  (exists l0 l1 t0 t1, line_repr T a = "Line2D(p0=" ++ t0 ++ ", p1=" ++ t1 ++ ")" /\ tuple_source T t0 l0 /\ tuple_source T t1 l1 /\
     List.length l0 = 2%nat /\ List.length l1 = 2%nat /\ line_arrays (PVec l0) (PVec l1) = Ok a) /\
  forall q0 q1 b, faithful_repr T -> line_arrays q0 q1 = Ok b -> (line_repr T a = line_repr T b <-> a = b).
Proof.
  intros T p0 p1 a H. assert (I : forall p0 p1 a, line_arrays p0 p1 = Ok a -> alen (fst a) = 2%nat /\ alen (snd a) = 2%nat).
  { clear. intros p0 p1 a H. unfold line_arrays in H. destruct p0 as [l0|]; [|discriminate]. destruct p1 as [l1|]; [|discriminate]. destruct (np_array l0) as [a0|]; [|discriminate]. destruct (np_array l1) as [a1|]; [|discriminate]. cbn [bind] in H.
    destruct (Nat.eqb_spec (alen a0) 2); [|discriminate]. destruct (Nat.eqb_spec (alen a1) 2); [|discriminate]. cbn [bind assert_] in H. injection H as <-. auto. }
  destruct (I _ _ _ H) as [L0 L1]. assert (Ln : forall a, List.length (arr_items a) = alen a) by (intros [l|l]; apply map_length). split.
  - exists (arr_items (fst a)), (arr_items (snd a)), (arr_repr T (fst a)), (arr_repr T (snd a)). split; [reflexivity|]. split; [apply arr_source|]. split; [apply arr_source|].
    split; [now rewrite Ln|]. split; [now rewrite Ln|]. unfold line_arrays. rewrite !arr_again by lia. cbn [bind]. rewrite L0, L1. cbn. now destruct a.
  - intros q0 q1 b HT H'. destruct (I _ _ _ H') as [M0 M1]. split; [|now intros ->]. intros E. unfold line_repr in E. apply (sapp_cancel "Line2D(p0=") in E.
    apply arr_repr_inj in E as [E0 E]; [|assumption|lia|lia]. apply (sapp_cancel ", p1=") in E. apply arr_repr_inj in E as [E1 _]; [|assumption|lia|lia]. destruct a, b. cbn in *. congruence.
Qed.
Print Assumptions C63_line_repr.
(** A line made with a small tolerance: evaluating its repr, which has the default
    tolerance 1e-10, raises ValueError. *)
Theorem C63_line_tol_refuted : exists p0 p1 tol l, (0 <= tol)%R /\ make_line p0 p1 tol = Ok l /\ make_line p0 p1 (/ 10 ^ 10)%R = Err ValueError.
Proof.
  exists [0; 0]%R, [/ 10 ^ 11; 0]%R, (/ 10 ^ 12)%R. assert (P : forall n, (0 < 10 ^ n)%R) by (intros n; apply pow_lt; lra). assert (Q : forall n, (/ 10 ^ (S n) = / 10 * / 10 ^ n)%R) by (intros n; cbn [pow]; rewrite Rinv_mult; reflexivity).
  assert (P10 : (0 < / 10 ^ 10)%R) by (apply Rinv_0_lt_compat, P). pose proof (Q 10%nat) as Q10. pose proof (Q 11%nat) as Q11. set (t := (/ 10 ^ 10)%R) in *. set (u := (/ 10 ^ 11)%R) in *. set (w := (/ 10 ^ 12)%R) in *.
  assert (Ex : Rleb (Rabs (u - 0)) w = false) by (apply Rleb_false; rewrite Rabs_right; lra). assert (Ex' : Rleb (Rabs (u - 0)) t = true) by (apply Rleb_iff; rewrite Rabs_right; lra).
  assert (Ey : Rleb (Rabs (0 - 0)) t = true) by (apply Rleb_iff; rewrite Rminus_0_r, Rabs_R0; lra).
  eexists. split; [lra|]. cbn [make_line]. rewrite Ex, Ex', Ey. split; reflexivity.
Qed.
Print Assumptions C63_line_tol_refuted.

(** The text of a bond, which never raises: five lines. *)
Theorem C63_bond : forall N zoom p0 p1 dir b, make_bond zoom p0 p1 dir = Ok b ->
  exists text az dr, bond_str N b = Ok text /\
    has_lines text ["P0      : " ++ arr_text N (fst (endpoints b)); "P1      : " ++ arr_text N (snd (endpoints b)); "Length  : " ++ real_text N (getLength b None);
                    "Azimuth : " ++ az; "Displace: " ++ dr] /\
    (dir = true -> ((exists t, getAzimuth b false None = Ok (AzOne t) /\ az = real_text N t) \/ (exists alpha beta, getAzimuth b false None = Ok (AzTwo alpha beta) /\ az = reals_text N [alpha; beta])) /\ (exists d, getDisplace b None = Ok (values d) /\ dr = arr_text N d)) /\
    (dir = false -> az = "Undefined" /\ dr = "Undefined").
Proof.
  intros N zoom p0 p1 dir b H. assert (J : exists a0 a1, init zoom a0 a1 dir = Ok b).
  { unfold make_bond in H. destruct p0 as [l0|], p1 as [l1|]; try (destruct (np_array _); discriminate); try discriminate. destruct (np_array l0) as [a0|]; [|discriminate]. destruct (np_array l1) as [a1|]; [|discriminate]. cbn [bind] in H. eauto. }
  destruct J as (a0 & a1 & J). destruct (init_inv _ _ _ _ _ J) as (t0 & t1 & _ & _ & Ln & Ls & ->). unfold bond_str, endpoints. cbn [b_p0 b_p1 b_dir fst snd].
  destruct dir.
  - assert (LV : (1 <= List.length (values (arr_sub a1 a0)) <= 3)%nat).
    { assert (LA : forall a, List.length (as_floats a) = alen a) by (intros [l|l]; [apply map_length|reflexivity]). assert (LZ : forall A B C (f : A -> B -> C) l m, List.length l = List.length m -> List.length (zip_with f l m) = List.length l) by (clear; induction l as [|x l IH]; intros [|y m] E; try discriminate; cbn; [reflexivity|f_equal; apply IH; now injection E]).
      assert (LW : forall a, List.length (values a) = alen a) by (intros [l|l]; apply map_length). rewrite LW. replace (alen (arr_sub a1 a0)) with (alen a0); [exact Ln|].
      destruct a0 as [l0|l0], a1 as [l1|l1]; cbn [arr_sub alen as_floats] in *; rewrite LZ; rewrite ?map_length; lia. }
    assert (GA : exists a, getAzimuth (MkBond a0 a1 true (form_of true t0 t1)) false None = Ok a).
    { unfold getAzimuth. cbn [b_dir b_p0 b_p1]. destruct (values (arr_sub a1 a0)) as [|x [|y [|z [|w v]]]]; cbn in LV; try lia; eauto. }
    destruct GA as [a GA]. rewrite GA. cbn [bind getDisplace b_dir b_p0 b_p1]. do 3 eexists. split; [reflexivity|]. split; [apply join_lines|]. split; [|discriminate]. intros _. split; [destruct a; [left|right]; eauto|]. exists (arr_sub a1 a0). split; [|reflexivity].
    f_equal. cbn [around]. apply map_id.
  - cbn [bind]. do 3 eexists. split; [reflexivity|]. split; [apply join_lines|]. split; [discriminate|]. auto.
Qed.
Print Assumptions C63_bond.
(** Two bonds without direction that are equal, with different texts. *)
Theorem C63_bond_equal_refuted : exists b c, make_bond 10000 (PVec [NInt 0]) (PVec [NInt 1]) false = Ok b /\ make_bond 10000 (PVec [NInt 1]) (PVec [NInt 0]) false = Ok c /\
  bond_eq b (OBond c) = true /\ forall N, (forall x y, arr_text N x = arr_text N y -> x = y) -> (forall x, none_of newline (arr_text N x)) -> bond_str N b <> bond_str N c.
Proof.
  eexists. eexists. split; [reflexivity|]. split; [reflexivity|]. split; [reflexivity|]. intros N HN HL E. unfold bond_str in E. cbn [b_dir b_p0 b_p1 bind] in E.
  assert (E' : forall (x y : string), Ok x = Ok y -> x = y) by (intros x y X; now injection X). apply E' in E. clear E'. cbn [combine app map fst snd] in E. unfold join in E. cbn [fold_left] in E. rewrite !sapp_A in E.
  apply (sapp_cancel (pad8 "P0")) in E. apply (sapp_cancel ": ") in E. apply (cut (inb newline)) in E as [E _]; [|apply none_free, HL|apply none_free, HL|reflexivity|reflexivity].
  apply HN in E. discriminate.
Qed.
Print Assumptions C63_bond_equal_refuted.

(** The text of a lattice: its sizes, and one line per point, translation vector and
    reciprocal vector. *)
Theorem C63_lattice : forall A L, has_lines (lattice_str A L)
  (("Point Number: " ++ dec (Z.of_nat (List.length (points L))))%string :: ("Space Dimension: " ++ dec (Z.of_nat (space_dim L)))%string ::
   ("Translation Dimension: " ++ dec (Z.of_nat (List.length (vectors L))))%string :: "Points:" :: map (append "    ") (map (A (space_dim L)) (points L)) ++ "Vectors:" :: map (append "    ") (map (A (space_dim L)) (vectors L)) ++
   "Bs:" :: map (append "    ") (map (A (space_dim L)) (bs L)))%list.
Proof. intros A L. rewrite !map_map. apply join_lines. Qed.
Print Assumptions C63_lattice.
(** If numpy prints arrays of coordinates on one line, the text tells their texts. *)
Theorem C63_lattice_text : forall A L L', (forall d p, none_of newline (A d p)) ->
  (lattice_str A L = lattice_str A L' <->
   space_dim L = space_dim L' /\ map (A (space_dim L)) (points L) = map (A (space_dim L')) (points L') /\
   map (A (space_dim L)) (vectors L) = map (A (space_dim L')) (vectors L') /\ map (A (space_dim L)) (bs L) = map (A (space_dim L')) (bs L')).
Proof.
  intros A L L' HA. unfold lattice_str. cbv zeta. split.
  - intros E. assert (LF : forall L, Forall (free (inb newline))
      ((("Point Number: " ++ dec (Z.of_nat (List.length (points L))))%string :: ("Space Dimension: " ++ dec (Z.of_nat (space_dim L)))%string :: ("Translation Dimension: " ++ dec (Z.of_nat (List.length (vectors L))))%string :: "Points:" :: nil) ++
       map (fun p => ("    " ++ A (space_dim L) p)%string) (points L) ++ ["Vectors:"] ++ map (fun p => ("    " ++ A (space_dim L) p)%string) (vectors L) ++ ["Bs:"] ++ map (fun p => ("    " ++ A (space_dim L) p)%string) (bs L))%list).
    { clear - HA. intros L. assert (R : forall l, Forall (free (inb newline)) (map (fun p => "    " ++ A (space_dim L) p) l)).
      { intros l. apply Forall_forall. intros s H. apply in_map_iff in H as (p & <- & _). apply free_app. split; [cbn; tauto|]. apply none_free, HA. }
      assert (D : forall s z, free (inb newline) s -> free (inb newline) (s ++ dec z)) by (intros s z H; apply free_app; split; [exact H|apply dec_line]).
      apply Forall_app. split; [apply Forall_cons; [apply D; cbn; tauto|apply Forall_cons; [apply D; cbn; tauto|apply Forall_cons; [apply D; cbn; tauto|apply Forall_cons; [cbn; tauto|constructor]]]]|].
      apply Forall_app. split; [apply R|]. apply Forall_cons; [cbn; tauto|]. apply Forall_app. split; [apply R|]. apply Forall_cons; [cbn; tauto|]. apply R. }
    apply lines_inj in E; [| | |discriminate..].
    + injection E as E1 E2 E3 E. 
      apply dec_inj in E1, E2, E3. apply Nat2Z.inj in E1, E2, E3.
      assert (AI : forall A B (l m : list A) (a b : list B) (f g : A -> B), List.length l = List.length m -> (map f l ++ a = map g m ++ b)%list -> map f l = map g m /\ a = b).
      { clear. intros A B l. induction l as [|x l IH]; intros [|y m] a b f g H E; try discriminate; [auto|]. cbn in E. injection E as E0 E. cbn in H. destruct (IH m a b f g) as [I1 I2]; [now injection H|exact E|]. cbn. split; congruence. }
      assert (RW : forall d d' l m, map (fun p => "    " ++ A d p) l = map (fun p => "    " ++ A d' p) m -> map (A d) l = map (A d') m).
      { clear. intros d d' l. induction l as [|x l IH]; intros [|y m] E; try discriminate; [reflexivity|]. cbn [map] in E |- *. assert (X : forall (a b : string) s t, a :: s = b :: t -> a = b /\ s = t) by (intros ? ? ? ? X; injection X; auto). apply X in E as [E0 E]. apply (sapp_cancel "    ") in E0. f_equal; auto. }
      apply AI in E as [EP E]; [|exact E1]. injection E as E. apply AI in E as [EV E]; [|exact E3]. injection E as EB. apply RW in EP, EV, EB. auto.
    + apply LF.
    + apply LF.
  - intros (E1 & E2 & E3 & E4). assert (LN : forall l m : list point, map (A (space_dim L)) l = map (A (space_dim L')) m -> List.length l = List.length m /\ map (fun p => "    " ++ A (space_dim L) p) l = map (fun p => "    " ++ A (space_dim L') p) m).
    { intros l m X. split; [apply (f_equal (@List.length string)) in X; now rewrite !map_length in X|]. rewrite <- (map_map (A (space_dim L)) (fun s => "    " ++ s)), <- (map_map (A (space_dim L')) (fun s => "    " ++ s)). now rewrite X. }
    destruct (LN _ _ E2) as [L2 M2], (LN _ _ E3) as [L3 M3], (LN _ _ E4) as [L4 M4]. now rewrite M2, M3, M4, L2, L3, E1.
Qed.
Print Assumptions C63_lattice_text.

(** A line, a bond and a lattice that meet the hypotheses. *)
Example C63_case :
  (exists l, make_line (pt (0, 1)%R) (pt (2, 2)%R) (/ 10 ^ 10)%R = Ok l /\ clean (/ 10 ^ 10)%R (0, 1)%R (2, 2)%R /\ line_str l = "y = 0.5000x + 1.0000") /\
  (forall N, exists b, make_bond 10000 (PVec [NInt 0; NInt 0]) (PVec [NInt 1; NInt 1]) true = Ok b /\ exists text, bond_str N b = Ok text) /\
  (exists a, line_arrays (PVec [NInt 0; NInt 0]) (PVec [NInt 1; NInt 1]) = Ok a /\ line_repr sample_text a = "Line2D(p0=(0, 0), p1=(1, 1))") /\ faithful_repr sample_text.
Proof.
  split; [|split; [|split; [eexists; split; reflexivity|exact sample_faithful]]].
  - assert (R0 : (0 < / 10 ^ 10)%R) by (apply Rinv_0_lt_compat; apply pow_lt; lra). assert (R1 : (/ 10 ^ 10 < 1)%R) by (apply (Rmult_lt_reg_l (10 ^ 10)); [apply pow_lt; lra|rewrite Rinv_r by (apply pow_nonzero; lra)]; lra).
    assert (Hc : clean (/ 10 ^ 10)%R (0, 1)%R (2, 2)%R). { split; [right; cbn [fst]; rewrite Rabs_right; lra|]. split; [right; cbn [snd]; rewrite Rabs_right; lra|]. intros E. apply pair_equal_spec in E as [E _]. lra. }
    destruct (clean_line _ _ _ (Rlt_le _ _ R0) Hc) as (E & _). eexists. split; [exact E|]. split; [exact Hc|]. destruct (line_shape _ _ _ _ (Rlt_le _ _ R0) Hc E) as (_ & _ & SG). rewrite SG by (cbn; lra). cbv zeta. cbn [fst snd].
    replace ((2 - 1) / (2 - 0))%R with (/ 2)%R by field. replace (1 - / 2 * 0)%R with 1%R by ring. unfold fixed4.
    assert (Z1 : ZnearestE (Rabs 1 * 10000) = 10000%Z) by (apply Znearest_imp; rewrite Rabs_R1; rewrite Rminus_diag_eq by ring; rewrite Rabs_R0; lra).
    assert (Z2 : ZnearestE (Rabs (/ 2) * 10000) = 5000%Z) by (apply Znearest_imp; rewrite (Rabs_right (/ 2)) by lra; rewrite Rminus_diag_eq by lra; rewrite Rabs_R0; lra).
    rewrite Z1, Z2. destruct (Rlt_dec (/ 2) 0), (Rlt_dec 1 0); try lra. reflexivity.
  - intros N. eexists. split; [reflexivity|]. eexists. reflexivity.
Qed.
Print Assumptions C63_case.
