(** C40 and C41 in doubles: Coordinate of horizontal and vertical lines, refused
    arguments, corners and boundaries. *)
From Coq Require Import List ZArith Bool Reals Lra Lia Arith String Floats.SpecFloat.
From Flocq Require Import Core.Raux Core.Zaux.
From Verif Require Import Py Float64_Model Float64_Proofs PandC_Proofs KPath_Model KPath_Spec KPathFloat_Proofs KPathRound_Proofs Line2D_Model Line2D_Spec Polygon_Model Polygon_Spec Polygon_Properties
  LineFloat_Model LineFloat_Spec LineFloat_Proofs LineFloat_Properties PolygonFloat_Model PolygonFloat_Properties.
Import ListNotations.
Open Scope R_scope.

(** Coordinate of a line that is horizontal within the tolerance is the ordinate of its
    first point, of a vertical one its abscissa; the other coordinate is a RuntimeError;
    an axis that is neither "x" nor "y" an AssertionError (a ValueError is a point that is
    no pair, an AssertionError a line through points that are no pairs). *)
Theorem C40_rounding_coordinate : forall p q t0 l, usual_point p -> usual_point q -> number t0 -> fmake_line (fpt p) (fpt q) t0 = Ok l ->
  let dx := Rabs (fst (value q) - fst (value p)) in let dy := Rabs (snd (value q) - snd (value p)) in
  (dy <= f2R t0 -> forall x, FCoordinate l x "x" = Ok (x, snd p) /\ FCoordinate l x "y" = Err RuntimeError) /\
  (dx <= f2R t0 -> f2R t0 * (1 + bit) < dy -> forall y, FCoordinate l y "y" = Ok (fst p, y) /\ FCoordinate l y "x" = Err RuntimeError) /\
  (forall z w, w <> "x"%string -> w <> "y"%string -> FCoordinate l z w = Err AssertionError) /\
  (forall pt tol, List.length pt <> 2%nat -> FLocationRelation l pt tol = Err ValueError) /\
  (forall a b tol, List.length a <> 2%nat \/ List.length b <> 2%nat -> fmake_line a b tol = Err AssertionError).
Proof.
  intros [x0 y0] [x1 y1] t0 l [Wx0 Wy0] [Wx1 Wy1] Nt El. cbn [fst snd value] in *. rewrite usual_within in *.
  pose proof (sub_small 400 x1 x0 t0 ltac:(lia) Wx1 Wx0 Nt) as [AX' AX]. pose proof (sub_small 400 y1 y0 t0 ltac:(lia) Wy1 Wy0 Nt) as [AY' AY].
  unfold fpt in El. cbn [fst snd fmake_line] in El. destruct (abs_le (fsub x1 x0) t0 && abs_le (fsub y1 y0) t0)%bool eqn:EB; [discriminate|]. injection El as <-. unfold FCoordinate. cbn [fl_horizontal fl_vertical fl_x0 fl_y0].
  split; [|split; [|split; [|split]]].
  - intros HY x. rewrite (AY' HY). cbn. auto.
  - intros HX HY y. rewrite (AX' HX). destruct (abs_le (fsub y1 y0) t0); [specialize (AY eq_refl); lra|]. cbn. auto.
  - intros z w Wx Wy. apply String.eqb_neq in Wx, Wy. rewrite Wx, Wy. reflexivity.
  - intros [|a [|b [|c r]]] tol H; cbn in *; try reflexivity. now contradiction H.
  - intros [|a0 [|a1 [|a2 a]]] [|b0 [|b1 [|b2 b]]] tol H; cbn in *; try reflexivity. destruct H as [H|H]; now contradiction H.
Qed.
Print Assumptions C40_rounding_coordinate.
Example coordinate_case : let o := S754_zero false in let e := S754_finite false 4503599627370496 (-52) in exists l m,
  fmake_line [o; o] [e; o] default_tol = Ok l /\ FCoordinate l e "x" = Ok (e, o) /\ fmake_line [e; o] [e; e] default_tol = Ok m /\ FCoordinate m o "y" = Ok (e, o).
Proof. do 2 eexists. repeat split; reflexivity. Qed.

(** ** polygons *)
Lemma close p q : usual_point p -> usual_point q -> dist2 (value p) (value q) <= 9 / 10 ^ 11 -> SFleb (fdist2 p q) default_tol = true.
Proof.
  intros Up Uq D. destruct (fdist_bounds p q Up Uq) as (N & S & E & _ & B). cbv zeta in B. destruct default_tol_value as (Nt & T1 & T2). rewrite fle_correct by assumption. apply Rle_bool_true. rewrite E.
  set (r := dist2 (value p) (value q)) in *. assert (R0' : 0 <= r) by apply sqrt_pos. assert (S1 : S <= 95 / 10 ^ 12 * (95 / 10 ^ 12)). { pose proof eta_small. assert (r * r <= 9 / 10 ^ 11 * (9 / 10 ^ 11)) by (apply Rmult_le_compat; lra). unfold u in *. lra. }
  assert (Q : sqrt S <= 95 / 10 ^ 12) by (rewrite <- (sqrt_square (95 / 10 ^ 12)) by lra; apply sqrt_le_1_alt; exact S1). pose proof (rnd_nonneg_bounds (sqrt S) (sqrt_pos S)) as [_ L]. pose proof eta_small. unfold u in *. lra.
Qed.
Lemma fle_value x y : number x -> number y -> SFleb x y = true -> f2R x <= f2R y.
Proof. intros Nx Ny. rewrite fle_correct by assumption. case Rle_bool_spec; [auto|discriminate]. Qed.
Lemma fmin2_value a b : number a -> number b -> number (fmin2 a b) /\ f2R (fmin2 a b) = Rmin (f2R a) (f2R b).
Proof.
  intros [Va Fa] [Vb Fb]. unfold fmin2. rewrite flt_correct by assumption. case Rlt_bool_spec; intros H; (split; [now split|]); [rewrite Rmin_right; lra|rewrite Rmin_left; lra].
Qed.
Lemma fmax2_value a b : number a -> number b -> number (fmax2 a b) /\ f2R (fmax2 a b) = Rmax (f2R a) (f2R b).
Proof.
  intros [Va Fa] [Vb Fb]. unfold fmax2. rewrite flt_correct by assumption. case Rlt_bool_spec; intros H; (split; [now split|]); [rewrite Rmax_right; lra|rewrite Rmax_left; lra].
Qed.

Lemma ratio a b t : a <> b -> Rmin a b <= a + t * (b - a) -> a + t * (b - a) <= Rmax a b -> 0 <= t <= 1.
Proof.
  intros N L U. unfold Rmin, Rmax in *. destruct (Rle_dec a b).
  - split; apply (Rmult_le_reg_r (b - a)); lra.
  - split; apply (Rmult_le_reg_r (a - b)); lra.
Qed.
(** The constructor refuses fewer than three vertices, and two vertices within 9e-11;
    CORNER is answered for points within 9e-11 of a vertex and only within 2e-10. *)
Theorem C41_rounding_corner : forall vs, (forall v, In v vs -> usual_point v) -> let V := map value vs in
  ((List.length vs < 3)%nat -> forall tol, fmake_polygon vs tol = Err AssertionError) /\
  ((3 <= List.length vs)%nat -> forall i j, (i < j < List.length V)%nat -> dist2 (vertex V i) (vertex V j) <= 9 / 10 ^ 11 -> fmake_polygon vs default_tol = Err ValueError) /\
  forall q ref, usual_point q ->
    ((exists v, In v V /\ dist2 v (value q) <= 9 / 10 ^ 11) -> FPLocationRelation vs q ref default_tol = Ok CORNER) /\
    (FPLocationRelation vs q ref default_tol = Ok CORNER -> exists v, In v V /\ dist2 v (value q) <= 2 / 10 ^ 10).
Proof.
  intros vs HV V. unfold fmake_polygon. split; [|split].
  - intros H tol. destruct (Nat.leb_spec 3 (List.length vs)); [lia|]. reflexivity.
  - intros H i j Hij D. destruct (Nat.leb_spec 3 (List.length vs)); [|lia]. cbn [assert_ bind]. assert (E : fany_close vs default_tol = true); [|now rewrite E].
    unfold V, vertex in *. rewrite map_length in Hij. rewrite !nth_value in D. clear V H H0. revert i j Hij D. induction vs as [|w ws IH]; intros i j Hij D; [cbn in Hij; lia|]. cbn [fany_close]. destruct j as [|j]; [lia|]. destruct i as [|i].
    + cbn [nth] in D. apply orb_true_iff. left. apply existsb_exists. cbn [List.length] in Hij. exists (nth j ws fzero2). split; [apply nth_In; lia|]. apply close; [apply HV; now left|apply HV; right; apply nth_In; lia|exact D].
    + apply orb_true_iff. right. apply (IH (fun v Hv => HV v (or_intror Hv)) i j); [cbn in Hij; lia|exact D].
  - intros q ref Uq. unfold FPLocationRelation. split.
    + intros (v & Hv & D). apply in_map_iff in Hv as (w & <- & Hw). assert (E : existsb (fun v => SFleb (fdist2 v q) default_tol) vs = true); [|now rewrite E]. apply existsb_exists. exists w. split; [exact Hw|]. now apply close; [apply HV| |].
    + destruct (existsb _ vs) eqn:EX.
      * intros _. apply existsb_exists in EX as (w & Hw & Ew). exists (value w). split; [now apply in_map|]. apply Rnot_lt_le. intros L. rewrite (apart w q (HV w Hw) Uq L) in Ew. discriminate.
      * intros E. exfalso. revert E. generalize (seq 0 (List.length vs)). induction l as [|i l IH]; cbn [fedge_loop]; [discriminate|]. destruct (fmake_line _ _ _); [|discriminate]. cbn [bind]. destruct (FLocationRelation _ (pair_list q) _); [|discriminate]. cbn [bind]. destruct (FLocationRelation _ (pair_list ref) _); [|discriminate]. cbn [bind].
        destruct (loc_eqb _ ON); [destruct (_ && _)%bool; discriminate|]. destruct (negb _); [discriminate|exact IH].
Qed.
Print Assumptions C41_rounding_corner.

(** BOUNDARY is answered only for points within 2e-10 above or below a point of an edge, if
    no edge is vertical. *)
Theorem C41_rounding_boundary : forall vs q ref, let V := map value vs in (3 <= List.length vs)%nat ->
  (forall v, In v vs -> usual_point v /\ Rabs (snd (value v)) <= 10000) -> clean_edges (11 / 10 ^ 11) V ->
  (forall i, (i < List.length V)%nat -> fst (vertex V i) <> fst (next V i)) ->
  usual_point q -> Rabs (snd (value q)) <= 10000 -> FPLocationRelation vs q ref default_tol = Ok BOUNDARY ->
  exists e, on_edge V e /\ fst e = fst (value q) /\ Rabs (snd (value q) - snd e) <= 2 / 10 ^ 10.
Proof.
  intros vs q ref V L3 HV CE NV Uq Hq. unfold FPLocationRelation. destruct (existsb _ vs); [discriminate|]. assert (LV : List.length V = List.length vs) by apply map_length.
  assert (G : forall is, (forall i, In i is -> (i < List.length vs)%nat) -> fedge_loop vs q ref default_tol is = Ok BOUNDARY ->
    exists i fl, (i < List.length vs)%nat /\ fmake_line (pair_list (nth i vs fzero2)) (pair_list (nth ((i + 1) mod List.length vs) vs fzero2)) default_tol = Ok fl /\ FLocationRelation fl (pair_list q) default_tol = Ok ON /\
      SFleb (fmin2 (fst (nth i vs fzero2)) (fst (nth ((i + 1) mod List.length vs) vs fzero2))) (fst q) = true /\ SFleb (fst q) (fmax2 (fst (nth i vs fzero2)) (fst (nth ((i + 1) mod List.length vs) vs fzero2))) = true).
  { induction is as [|i is IH]; intros HI; cbn [fedge_loop]; [discriminate|]. destruct (fmake_line _ _ _) as [fl|] eqn:Efl; [|discriminate]. cbn [bind]. destruct (FLocationRelation fl (pair_list q) _) as [a|] eqn:Ea; [|discriminate]. cbn [bind]. destruct (FLocationRelation _ (pair_list ref) _) as [a'|]; [|discriminate]. cbn [bind].
    destruct (loc_eqb a ON) eqn:EO.
    - destruct (_ && _)%bool eqn:EB; [|discriminate]. intros _. apply andb_true_iff in EB as [B1 B2]. exists i, fl. split; [apply HI; now left|]. split; [exact Efl|]. split; [destruct a; try discriminate; exact Ea|auto].
    - destruct (negb _); [discriminate|]. apply IH. intros j Hj. apply HI. now right. }
  intros E. destruct (G (seq 0 (List.length vs)) ltac:(intros i Hi; apply in_seq in Hi; lia) E) as (i & fl & Hi & Efl & ON' & B1 & B2). clear G E. assert (Hj : ((i + 1) mod List.length vs < List.length vs)%nat) by (apply Nat.mod_upper_bound; lia).
  set (p := nth i vs fzero2) in *. set (p' := nth ((i + 1) mod List.length vs) vs fzero2) in *. assert (EV : vertex V i = value p) by apply nth_value. assert (EN : next V i = value p') by (unfold next; rewrite LV; apply nth_value).
  destruct (HV p (nth_In vs fzero2 Hi)) as [Up Hp]. destruct (HV p' (nth_In vs fzero2 Hj)) as [Up' _]. pose proof (CE i ltac:(lia)) as Ci. rewrite EV, EN in Ci. destruct (C40_default p p' Up Up' Ci Hp) as (fl' & Efl' & HF). unfold fpt in Efl'. fold (pair_list p) (pair_list p') in Efl'. rewrite Efl in Efl'. injection Efl' as <-.
  destruct (HF q Uq Hq) as [HN _]. assert (NVi : ~ vertical (value p) (value p')) by (unfold vertical; rewrite <- EV, <- EN; apply NV; lia). destruct (HN NVi) as (a & Ea & K & _). unfold fpt in Ea. fold (pair_list q) in Ea. rewrite ON' in Ea. injection Ea as <-.
  destruct K as [[_ (y & On & D)]|[[X _]|[X _]]]; [|discriminate X|discriminate X]. destruct Up as [[Nx _] _], Up' as [[Nx' _] _], Uq as [[Nq _] _].
  destruct (fmin2_value _ _ Nx Nx') as [M1 M2]. destruct (fmax2_value _ _ Nx Nx') as [M3 M4]. apply fle_value in B1; [|assumption|assumption]. apply fle_value in B2; [|assumption|assumption]. rewrite M2 in B1. rewrite M4 in B2.
  exists (fst (value q), y). split; [|split; [reflexivity|exact D]]. exists i. split; [lia|]. unfold on_edge_i. rewrite EV, EN. destruct On as (t & Et). exists t. apply pair_equal_spec in Et as [E1 E2]. split; [|f_equal; rewrite ?E1, ?E2; cbn [fst snd]; lra].
  unfold vertical in NVi. unfold value in *. cbn [fst snd] in *. rewrite E1 in B1, B2. now apply (ratio (f2R (fst p)) (f2R (fst p'))).
Qed.
Print Assumptions C41_rounding_boundary.
(** Not so with vertical edges: (1, 5) is on the boundary of the unit square. *)
Theorem C41_rounding_vertical_refuted : exists q, value q = (1, 5) /\ FPLocationRelation unit_square q half_half default_tol = Ok BOUNDARY.
Proof.
  exists (S754_finite false 4503599627370496 (-52), S754_finite false 5629499534213120 (-50)). split; [|vm_compute; reflexivity]. unfold value. cbn [fst snd].
  unfold f2R, IEEE754.BinarySingleNaN.SF2R, Defs.F2R. cbn [Defs.Fnum Defs.Fexp cond_Zopp]. replace (bpow radix2 (-52)) with (/ IZR (2 ^ 52)) by reflexivity. replace (bpow radix2 (-50)) with (/ IZR (2 ^ 50)) by reflexivity. change (2 ^ 52)%Z with 4503599627370496%Z. change (2 ^ 50)%Z with 1125899906842624%Z. f_equal; lra.
Qed.
Print Assumptions C41_rounding_vertical_refuted.
(** A case: the square standing on a corner. *)
Definition tilted : list (f64 * f64) :=
  let o := S754_zero false in let e := S754_finite false 4503599627370496 (-52) in let d := S754_finite false 4503599627370496 (-51) in [(e, o); (d, e); (e, d); (o, e)].
Example tilted_case : let V := map value tilted in V = [(1, 0); (2, 1); (1, 2); (0, 1)] /\
  (forall v, In v tilted -> usual_point v /\ Rabs (snd (value v)) <= 10000) /\ clean_edges (11 / 10 ^ 11) V /\ (forall i, (i < List.length V)%nat -> fst (vertex V i) <> fst (next V i)) /\
  exists q, value q = (3 / 2, 1 / 2) /\ usual_point q /\ FPLocationRelation tilted q (S754_finite false 4503599627370496 (-52), S754_finite false 4503599627370496 (-52)) default_tol = Ok BOUNDARY.
Proof.
  cbv zeta. assert (W : forall m e k, (0 <= k)%Z -> e = Z.opp k -> f2R (S754_finite false m e) = IZR (Zpos m) / IZR (2 ^ k)).
  { intros m e k Hk ->. unfold f2R, IEEE754.BinarySingleNaN.SF2R, Defs.F2R. cbn [Defs.Fnum Defs.Fexp cond_Zopp]. rewrite bpow_opp, <- (IZR_Zpower radix2) by exact Hk. reflexivity. }
  assert (V1 : f2R (S754_finite false 4503599627370496 (-52)) = 1) by (rewrite (W _ _ 52%Z) by lia; change (2 ^ 52)%Z with 4503599627370496%Z; lra).
  assert (V2 : f2R (S754_finite false 4503599627370496 (-51)) = 2) by (rewrite (W _ _ 51%Z) by lia; change (2 ^ 51)%Z with 2251799813685248%Z; lra).
  assert (Vh : f2R (S754_finite false 4503599627370496 (-53)) = 1 / 2) by (rewrite (W _ _ 53%Z) by lia; change (2 ^ 53)%Z with 9007199254740992%Z; lra).
  assert (V3 : f2R (S754_finite false 6755399441055744 (-52)) = 3 / 2) by (rewrite (W _ _ 52%Z) by lia; change (2 ^ 52)%Z with 4503599627370496%Z; lra).
  assert (V0 : f2R (S754_zero false) = 0) by reflexivity. assert (G : 49 <= IZR (2 ^ 400)) by (apply IZR_le; lia).
  assert (U1 : usual (S754_finite false 4503599627370496 (-52))) by (split; [split; reflexivity|rewrite V1, Rabs_pos_eq by lra; lra]). assert (U2 : usual (S754_finite false 4503599627370496 (-51))) by (split; [split; reflexivity|rewrite V2, Rabs_pos_eq by lra; lra]).
  assert (U0 : usual (S754_zero false)) by (split; [split; reflexivity|rewrite V0, Rabs_R0; lra]). assert (Uh : usual (S754_finite false 4503599627370496 (-53))) by (split; [split; reflexivity|rewrite Vh, Rabs_pos_eq by lra; lra]). assert (U3 : usual (S754_finite false 6755399441055744 (-52))) by (split; [split; reflexivity|rewrite V3, Rabs_pos_eq by lra; lra]).
  assert (ES : map value tilted = [(1, 0); (2, 1); (1, 2); (0, 1)]) by (unfold tilted, value; cbn [map fst snd]; rewrite V0, V1, V2; reflexivity). split; [exact ES|]. rewrite ES.
  set (D := [(1, 0); (2, 1); (1, 2); (0, 1)]). assert (SQ : forall i, (i < 4)%nat -> (vertex D i, next D i) = nth i [((1, 0), (2, 1)); ((2, 1), (1, 2)); ((1, 2), (0, 1)); ((0, 1), (1, 0))] ((0, 0), (0, 0))) by (intros i Hi; destruct i as [|[|[|[|i]]]]; [reflexivity..|lia]).
  split; [|split; [|split]].
  - intros v Hv. unfold tilted in Hv. cbn [In] in Hv. destruct Hv as [<-|[<-|[<-|[<-|[]]]]]; (split; [split; assumption|]); unfold value; cbn [snd]; rewrite ?V0, ?V1, ?V2, Rabs_pos_eq; lra.
  - intros i Hi. change (List.length D) with 4%nat in Hi. specialize (SQ i Hi). unfold clean. destruct i as [|[|[|[|i]]]]; [..|lia]; cbn [nth] in SQ; apply pair_equal_spec in SQ as [-> ->]; cbn [fst snd]; (split; [right; unfold Rabs; destruct (Rcase_abs _); lra|split; [right; unfold Rabs; destruct (Rcase_abs _); lra|]]); intros E; apply pair_equal_spec in E; lra.
  - intros i Hi. change (List.length D) with 4%nat in Hi. specialize (SQ i Hi). destruct i as [|[|[|[|i]]]]; [..|lia]; cbn [nth] in SQ; apply pair_equal_spec in SQ as [-> ->]; cbn [fst]; lra.
  - exists (S754_finite false 6755399441055744 (-52), S754_finite false 4503599627370496 (-53)). split; [unfold value; cbn [fst snd]; now rewrite V3, Vh|]. split; [split; assumption|]. vm_compute. reflexivity.
Qed.
