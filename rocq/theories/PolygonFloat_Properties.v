(** C41 in doubles, with the default tolerances. *)
From Coq Require Import List ZArith Bool Reals Lra Lia Arith Floats.SpecFloat.
From Flocq Require Import Core.Raux Core.Zaux IEEE754.BinarySingleNaN.
From Verif Require Import Py Float64_Model Float64_Proofs PandC_Proofs KPath_Model KPath_Spec KPathFloat_Proofs KPathRound_Proofs Line2D_Model Line2D_Spec Line2D_Properties Polygon_Model Polygon_Spec Polygon_Properties
  LineFloat_Model LineFloat_Spec LineFloat_Proofs LineFloat_Properties PolygonFloat_Model.
Import ListNotations.
Open Scope R_scope.

(** ** distances *)
Lemma fdist_bounds p q : usual_point p -> usual_point q ->
  number (fdist2 p q) /\ exists S, f2R (fdist2 p q) = rnd64 (sqrt S) /\
    let X := dist2 (value p) (value q) * dist2 (value p) (value q) in X * (1 - 12 * u) - 20 * eta <= S <= X * (1 + 12 * u) + 20 * eta.
Proof.
  destruct p as [a b], q as [c d]. intros [Wa Wb] [Wc Wd]. cbn [fst snd] in *. rewrite usual_within in *. unfold fdist2, pair_list. cbn [fst snd].
  assert (HI : forall x y, within 400 x -> within 400 y -> forall z, In z [x; y] -> within 400 z) by (intros x y Hx Hy z [<-|[<-|[]]]; assumption).
  split; [apply (within_number 804), norm_within; [now left|apply row_sub_within; apply HI; assumption]|].
  destruct (norm_bounds [c; d] [a; b] ltac:(now left) eq_refl (HI _ _ Wc Wd) (HI _ _ Wa Wb)) as (S & E & B). exists S. split; [exact E|]. cbv zeta. unfold dist2. rewrite sqrt_sqrt by (apply Rplus_le_le_0_compat; apply square_nonneg).
  cbn [map sum_squares value fst snd] in *. replace ((f2R a - f2R c) * (f2R a - f2R c) + (f2R b - f2R d) * (f2R b - f2R d)) with ((f2R a - f2R c) * (f2R a - f2R c) + ((f2R b - f2R d) * (f2R b - f2R d) + 0)) by ring. exact B.
Qed.
Lemma apart p q : usual_point p -> usual_point q -> 2 / 10 ^ 10 < dist2 (value p) (value q) -> SFleb (fdist2 p q) default_tol = false.
Proof.
  intros Up Uq D. destruct (fdist_bounds p q Up Uq) as (N & S & E & B & _). cbv zeta in B. destruct default_tol_value as (Nt & T1 & T2). rewrite fle_correct by assumption. apply Rle_bool_false. rewrite E.
  set (r := dist2 (value p) (value q)) in *. assert (S1 : 15 / 10 ^ 11 * (15 / 10 ^ 11) <= S). { pose proof eta_small. assert (2 / 10 ^ 10 * (2 / 10 ^ 10) <= r * r) by (apply Rmult_le_compat; lra). unfold u in *. lra. }
  assert (Q : 15 / 10 ^ 11 <= sqrt S) by (rewrite <- (sqrt_square (15 / 10 ^ 11)) by lra; apply sqrt_le_1_alt; exact S1). pose proof (rnd_nonneg_bounds (sqrt S) (sqrt_pos S)) as [L _]. pose proof eta_small. unfold u in *. lra.
Qed.

(** ** one edge: the answer in doubles and on reals *)
Definition level (p : f64 * f64) : Prop := usual_point p /\ Rabs (snd (value p)) <= 10000.
Lemma edge_answers p q : level p -> usual_point q -> clean (11 / 10 ^ 11) (value p) (value q) ->
  exists fl l, fmake_line (pair_list p) (pair_list q) default_tol = Ok fl /\ make_line [fst (value p); snd (value p)] [fst (value q); snd (value q)] 0 = Ok l /\
  forall r, level r -> exists a b, FLocationRelation fl (pair_list r) default_tol = Ok a /\ LocationRelation l [fst (value r); snd (value r)] 0 = Ok b /\
    (a <> ON -> b = a) /\ (clear_of (2 / 10 ^ 10) (value p) (value q) (value r) -> a <> ON).
Proof.
  intros [Up Hp] Uq C. destruct (C40_default p q Up Uq C Hp) as (fl & Efl & HF). assert (C0 : clean 0 (value p) (value q)) by (destruct C as (C1 & C2 & C3); repeat split; [destruct C1; [now left|right; lra]|destruct C2; [now left|right; lra]|exact C3]).
  exists fl. destruct (Req_dec (fst (value p)) (fst (value q))) as [V|V].
  - destruct (C40_location_vertical 0 0 (value p) (value q) ltac:(lra) ltac:(lra) C0 V) as (l & El & HR). exists l. split; [exact Efl|]. split; [exact El|]. intros r [Ur Hr]. destruct (HF r Ur Hr) as [_ HV]. destruct (HV V) as (a & Ea & K1 & K2 & K3). destruct (HR (value r)) as (R1' & R2' & R3' & _).
    assert (TR : exists b, LocationRelation l [fst (value r); snd (value r)] 0 = Ok b /\ (a <> ON -> b = a)).
    { unfold pt in *. destruct K1 as [[-> B]|[[-> B]|[-> B]]].
      - destruct (Rtotal_order (fst (value r)) (fst (value p))) as [L|[L|L]]; eexists; (split; [|intros X; now contradiction X]); [apply R2'; lra|apply R1'; rewrite L, Rminus_eq_0, Rabs_R0; lra|apply R3'; lra].
      - exists LEFT. split; [apply R2'; lra|reflexivity].
      - exists RIGHT. split; [apply R3'; lra|reflexivity]. }
    destruct TR as (b & Eb & AB). exists a, b. split; [exact Ea|]. split; [exact Eb|]. split; [exact AB|]. intros [CV _] ->. specialize (CV V). destruct K1 as [[_ B]|[[X _]|[X _]]]; [lra|discriminate X|discriminate X].
  - destruct (C40_location 0 0 (value p) (value q) ltac:(lra) ltac:(lra) C0 V) as (l & El & HR). exists l. split; [exact Efl|]. split; [exact El|]. intros r [Ur Hr]. destruct (HF r Ur Hr) as [HN _]. destruct (HN V) as (a & Ea & K1 & K2 & K3). destruct (HR (value r)) as (R1' & R2' & R3' & R4').
    assert (TR : exists b, LocationRelation l [fst (value r); snd (value r)] 0 = Ok b /\ (a <> ON -> b = a)).
    { unfold pt in *. destruct K1 as [[-> B]|[[-> B]|[-> B]]].
      - destruct R4' as [L|[L|L]]; eexists; (split; [|intros X; now contradiction X]); [now apply R1'|now apply R2'|now apply R3'].
      - exists BELOW. split; [now apply R2'|reflexivity].
      - exists ABOVE. split; [now apply R3'|reflexivity]. }
    destruct TR as (b & Eb & AB). exists a, b. split; [exact Ea|]. split; [exact Eb|]. split; [exact AB|]. intros [_ CV] ->. destruct (CV V) as [X|X]; [specialize (K3 X)|specialize (K2 X)]; discriminate.
Qed.

(** ** the loop *)
Lemma nth_value vs i : nth i (map value vs) (0, 0) = value (nth i vs fzero2).
Proof. change (0, 0) with (value fzero2). apply map_nth. Qed.
Definition ready (vs : list (f64 * f64)) : Prop := (3 <= List.length vs)%nat /\ (forall v, In v vs -> level v) /\ clean_edges (11 / 10 ^ 11) (map value vs).
Lemma loops vs q ref : ready vs -> level q -> level ref -> clear_of_edges (2 / 10 ^ 10) (map value vs) (value ref) ->
  forall is, (forall i, In i is -> (i < List.length vs)%nat) ->
  (fedge_loop vs q ref default_tol is = Ok INSIDE -> edge_loop (map value vs) (value q) (value ref) 0 is = Ok INSIDE) /\
  (clear_of_edges (2 / 10 ^ 10) (map value vs) (value q) -> fedge_loop vs q ref default_tol is = edge_loop (map value vs) (value q) (value ref) 0 is).
Proof.
  intros (L3 & HV & CE) Hq Hr CR. induction is as [|i is IH]; intros HI; [split; reflexivity|]. destruct (IH (fun j Hj => HI j (or_intror Hj))) as [IH1 IH2]. clear IH. assert (Hi : (i < List.length vs)%nat) by (apply HI; now left). assert (Hj : ((i + 1) mod List.length vs < List.length vs)%nat) by (apply Nat.mod_upper_bound; lia).
  assert (EV : vertex (map value vs) i = value (nth i vs fzero2)) by apply nth_value. assert (EN : next (map value vs) i = value (nth ((i + 1) mod List.length vs) vs fzero2)) by (unfold next; rewrite map_length; apply nth_value).
  assert (Ci : clean (11 / 10 ^ 11) (value (nth i vs fzero2)) (value (nth ((i + 1) mod List.length vs) vs fzero2))) by (rewrite <- EV, <- EN; apply CE; now rewrite map_length).
  destruct (edge_answers _ _ (HV _ (nth_In vs fzero2 Hi)) (proj1 (HV _ (nth_In vs fzero2 Hj))) Ci) as (fl & l & Efl & El & HA). destruct (HA q Hq) as (a & b & Ea & Eb & AB & CL). destruct (HA ref Hr) as (a' & b' & Ea' & Eb' & AB' & CL').
  assert (N' : a' <> ON) by (apply CL'; rewrite <- EV, <- EN; apply CR; now rewrite map_length). specialize (AB' N'). subst b'.
  cbn [fedge_loop edge_loop]. rewrite map_length, !nth_value, Efl, El. cbn [bind]. rewrite Ea, Ea'. cbn [bind]. rewrite Eb, Eb'. cbn [bind].
  assert (LE : forall x y, loc_eqb x y = true <-> x = y) by (intros [] []; cbn; split; intros; congruence).
  split.
  - destruct (loc_eqb a ON) eqn:EO; [destruct (SFleb _ _ && SFleb _ _)%bool; discriminate|]. assert (NA : a <> ON) by (intros X; apply LE in X; congruence). rewrite (AB NA), EO. destruct (negb (loc_eqb a a')); [discriminate|exact IH1].
  - intros CQ. assert (NA : a <> ON) by (apply CL; rewrite <- EV, <- EN; apply CQ; now rewrite map_length). rewrite (AB NA). destruct (loc_eqb a ON) eqn:EO; [apply LE in EO; contradiction|]. destruct (negb (loc_eqb a a')); [reflexivity|]. now apply IH2.
Qed.

(** A convex polygon with vertices up to 10000, whose edges are vertical, horizontal or
    neither within 1.1e-10: the constructor accepts it if its vertices are farther apart
    than 2e-10; with a reference point inside, farther than 2e-10 from the lines through
    the edges, LocationRelation answers INSIDE only for points strictly inside, and all
    points farther than 2e-10 from vertices and from these lines are told rightly. *)
Theorem C41_rounding : forall vs ref, let V := map value vs in
  (forall v, In v vs -> usual_point v /\ Rabs (snd (value v)) <= 10000) -> convex V -> clean_edges (11 / 10 ^ 11) V ->
  usual_point ref -> Rabs (snd (value ref)) <= 10000 -> interior V (value ref) -> clear_of_edges (2 / 10 ^ 10) V (value ref) ->
  ((forall i j, (i < j < List.length V)%nat -> 2 / 10 ^ 10 < dist2 (vertex V i) (vertex V j)) -> fmake_polygon vs default_tol = Ok vs) /\
  forall q, usual_point q -> Rabs (snd (value q)) <= 10000 ->
    (FPLocationRelation vs q ref default_tol = Ok INSIDE -> interior V (value q)) /\
    (clear_of_edges (2 / 10 ^ 10) V (value q) -> ~ near_vertex (2 / 10 ^ 10) V (value q) ->
       (region V (value q) -> FPLocationRelation vs q ref default_tol = Ok INSIDE) /\ (~ region V (value q) -> FPLocationRelation vs q ref default_tol = Ok OUTSIDE)).
Proof.
  intros vs ref V HV CV CE Ur Hr IR CR. assert (LV : List.length V = List.length vs) by apply map_length. assert (L3 : (3 <= List.length vs)%nat) by (rewrite <- LV; destruct CV as [[X _]|[X _]]; exact X).
  assert (RD : ready vs) by (split; [exact L3|split; [exact HV|exact CE]]). assert (C0 : clean_edges 0 V).
  { intros i Hi. destruct (CE i Hi) as (C1 & C2 & C3). split; [destruct C1; [now left|right; lra]|split; [destruct C2; [now left|right; lra]|exact C3]]. }
  assert (K0 : forall x, clear_of_edges (2 / 10 ^ 10) V x -> clear_of_edges 0 V x).
  { intros x Cx i Hi. destruct (Cx i Hi) as [A B]. split; [intros X; specialize (A X); lra|]. intros X. destruct (B X) as [(y & O & L)|(y & O & L)]; [left|right]; exists y; (split; [exact O|lra]). }
  split.
  - intros D. unfold fmake_polygon. destruct (Nat.leb_spec 3 (List.length vs)); [|lia]. cbn [assert_ bind]. assert (FC : fany_close vs default_tol = false); [|now rewrite FC].
    assert (HVu : forall v, In v vs -> usual_point v) by (intros v Hv; apply (HV v Hv)).
    assert (G : forall ws, (forall v, In v ws -> usual_point v) -> (forall i j, (i < j < List.length ws)%nat -> 2 / 10 ^ 10 < dist2 (value (nth i ws fzero2)) (value (nth j ws fzero2))) -> fany_close ws default_tol = false).
    { induction ws as [|w ws IH]; intros HW DW; [reflexivity|]. cbn [fany_close]. rewrite IH; [|intros v Hv; apply HW; now right|intros i j Hij; apply (DW (S i) (S j)); cbn; lia]. rewrite orb_false_r. apply not_true_is_false. intros E. apply existsb_exists in E as (x & Hx & E). apply (In_nth _ _ fzero2) in Hx as (j & Hj & <-).
      rewrite apart in E; [discriminate|apply HW; now left|apply HW; right; now apply nth_In|]. apply (DW 0%nat (S j)). cbn. lia. }
    apply G; [exact HVu|]. intros i j Hij. unfold vertex in D. rewrite LV in D. specialize (D i j Hij). unfold V in D. now rewrite !nth_value in D.
  - intros q Uq Hq. destruct (loops vs q ref RD (conj Uq Hq) (conj Ur Hr) CR (seq 0 (List.length vs)) ltac:(intros i Hi; apply in_seq in Hi; lia)) as [LI LC]. fold V in LI, LC. unfold FPLocationRelation. split.
    + destruct (existsb _ vs); [discriminate|]. intros E. specialize (LI E). apply (C41_inside_sound V (value q) (value ref) 0 CV ltac:(lra) C0 IR (K0 _ CR)). unfold PLocationRelation. rewrite LV. destruct (existsb (fun v => Rleb (dist2 v (value q)) 0) V) eqn:EX; [|exact LI].
      exfalso. apply existsb_exists in EX as (v & Hv & Ev). assert (DE : v = value q).
      { unfold Rleb in Ev. destruct (Rle_dec (dist2 v (value q)) 0) as [D|]; [|discriminate]. unfold dist2 in D. set (A := fst v - fst (value q)) in *. set (B := snd v - snd (value q)) in *. assert (P : 0 <= A * A + B * B) by nra. assert (Z : sqrt (A * A + B * B) = 0) by (pose proof (sqrt_pos (A * A + B * B)); lra). apply sqrt_eq_0 in Z; [|exact P].
        assert (A = 0) by nra. assert (B = 0) by nra. destruct v as [v0 v1], (value q) as [q0 q1]. unfold A, B in *. cbn [fst snd] in *. f_equal; lra. }
      subst v. apply (In_nth _ _ (0, 0)) in Hv as (i & Hi & Ei). pose proof (CE i Hi) as Ci. unfold vertex in Ci. rewrite Ei in Ci.
      assert (NI : forall is, In i is -> (forall j, In j is -> (j < List.length vs)%nat) -> edge_loop V (value q) (value ref) 0 is = Ok INSIDE -> False).
      { induction is as [|j is IH]; intros Hin HJ EL; [contradiction|]. cbn [edge_loop] in EL. rewrite LV in EL. destruct (make_line _ _ 0) as [l|] eqn:ML in EL; [|discriminate]. cbn [bind] in EL. destruct Hin as [<-|Hin].
        - rewrite Ei in EL, ML. assert (O : LocationRelation l [fst (value q); snd (value q)] 0 = Ok ON).
          { destruct (C40_on_exact (value q) (nth ((j + 1) mod List.length vs) V (0, 0))) as (l' & El' & H'); [destruct Ci as (_ & _ & C3); unfold next in C3; now rewrite LV in C3|]. unfold pt in El'. rewrite ML in El'. injection El' as <-. apply (H' (value q)). exists 0. destruct (value q). cbn [fst snd]. f_equal; ring. }
          rewrite O in EL. cbn [bind] in EL. destruct (LocationRelation l [fst (value ref); snd (value ref)] 0); [|discriminate]. cbn [bind loc_eqb] in EL. destruct (Rleb _ _ && Rleb _ _)%bool; discriminate.
        - destruct (LocationRelation l [fst (value q); snd (value q)] 0); [|discriminate]. cbn [bind] in EL. destruct (LocationRelation l [fst (value ref); snd (value ref)] 0); [|discriminate]. cbn [bind] in EL. destruct (loc_eqb a ON); [destruct (Rleb _ _ && Rleb _ _)%bool; discriminate|]. destruct (negb (loc_eqb a a0)); [discriminate|]. apply (IH Hin); [|exact EL]. intros j' Hj'. apply HJ. now right. }
      apply (NI (seq 0 (List.length vs))); [apply in_seq; lia|intros j Hj; apply in_seq in Hj; lia|exact LI].
    + intros CQ NV. destruct (existsb _ vs) eqn:EX.
      { exfalso. apply existsb_exists in EX as (v & Hv & Ev). rewrite apart in Ev; [discriminate|apply HV, Hv|exact Uq|]. apply Rnot_le_lt. intros D. apply NV. apply (in_map value) in Hv. fold V in Hv. apply (In_nth _ _ (0, 0)) in Hv as (i & Hi & Ei). 
        first [exists i; unfold vertex; rewrite Ei; auto | exists (value v); split; [rewrite <- Ei; now apply nth_In|exact D]]. }
      rewrite (LC CQ). assert (NV0 : ~ near_vertex 0 V (value q)).
      { intros X. apply NV. clear - X. unfold near_vertex in *. destruct X as (i & Hi & X). exists i. split; [exact Hi|lra]. }
      destruct (C41_clear_points V (value q) (value ref) 0 CV ltac:(lra) C0 IR (K0 _ CR) (K0 _ CQ) NV0) as [P1 P2]. unfold PLocationRelation in P1, P2. rewrite LV in P1, P2. destruct (existsb _ V); [split; intros X; [specialize (P1 X); discriminate|specialize (P2 X); discriminate]|auto].
Qed.
Print Assumptions C41_rounding.
(** A case: the unit square with the reference point (1/2, 1/2). *)
Definition unit_square : list (f64 * f64) :=
  let o := S754_zero false in let e := S754_finite false 4503599627370496 (-52) in [(o, o); (e, o); (e, e); (o, e)].
Definition half_half : f64 * f64 := let h := S754_finite false 4503599627370496 (-53) in (h, h).
Example polygon_case : let V := map value unit_square in V = square /\
  (forall v, In v unit_square -> usual_point v /\ Rabs (snd (value v)) <= 10000) /\ convex V /\ clean_edges (11 / 10 ^ 11) V /\
  usual_point half_half /\ Rabs (snd (value half_half)) <= 10000 /\ interior V (value half_half) /\ clear_of_edges (2 / 10 ^ 10) V (value half_half) /\
  (forall i j, (i < j < List.length V)%nat -> 2 / 10 ^ 10 < dist2 (vertex V i) (vertex V j)).
Proof.
  cbv zeta. assert (V1 : f2R (S754_finite false 4503599627370496 (-52)) = 1). { cbn [f2R SF2R cond_Zopp]. unfold Defs.F2R. cbn [Defs.Fnum Defs.Fexp]. replace (bpow radix2 (-52)) with (/ IZR (2 ^ 52)) by reflexivity. change (2 ^ 52)%Z with 4503599627370496%Z. lra. }
  assert (Vh : f2R (S754_finite false 4503599627370496 (-53)) = / 2). { cbn [f2R SF2R cond_Zopp]. unfold Defs.F2R. cbn [Defs.Fnum Defs.Fexp]. replace (bpow radix2 (-53)) with (/ IZR (2 ^ 53)) by reflexivity. change (2 ^ 53)%Z with 9007199254740992%Z. lra. }
  assert (V0 : f2R (S754_zero false) = 0) by reflexivity. assert (G : 49 <= IZR (2 ^ 400)) by (apply IZR_le; lia).
  assert (ES : map value unit_square = square) by (unfold unit_square, value, square; cbn [map fst snd]; rewrite V0, V1; reflexivity). assert (EH : value half_half = (/ 2, / 2)) by (unfold half_half, value; cbn [fst snd]; now rewrite Vh).
  split; [exact ES|]. rewrite ES, EH. destruct C41_vertical_edge_refuted as (CS & IS & _).
  assert (UE : usual (S754_finite false 4503599627370496 (-52))) by (split; [split; reflexivity|rewrite V1, Rabs_pos_eq by lra; lra]). assert (UZ : usual (S754_zero false)) by (split; [split; reflexivity|rewrite V0, Rabs_R0; lra]).
  assert (UH : usual (S754_finite false 4503599627370496 (-53))) by (split; [split; reflexivity|rewrite Vh, Rabs_pos_eq by lra; lra]).
  assert (SQ : forall i, (i < 4)%nat -> (vertex square i, next square i) = nth i [((0, 0), (1, 0)); ((1, 0), (1, 1)); ((1, 1), (0, 1)); ((0, 1), (0, 0))] ((0, 0), (0, 0))) by (intros i Hi; destruct i as [|[|[|[|i]]]]; [reflexivity..|lia]).
  split; [|split; [exact CS|split; [|split; [split; exact UH|split; [cbn [snd]; rewrite Rabs_pos_eq by lra; lra|split; [exact IS|split]]]]]].
  - intros v Hv. cbn [unit_square In] in Hv. unfold unit_square in Hv. cbn [In] in Hv. destruct Hv as [<-|[<-|[<-|[<-|[]]]]]; (split; [split; assumption|]); unfold value; cbn [snd]; rewrite ?V0, ?V1, ?Rabs_R0, ?Rabs_R1; lra.
  - intros i Hi. change (List.length square) with 4%nat in Hi. specialize (SQ i Hi). unfold clean. destruct i as [|[|[|[|i]]]]; [..|lia]; cbn [nth] in SQ; apply pair_equal_spec in SQ as [-> ->]; cbn [fst snd]; rewrite ?Rminus_0_r, ?Rminus_0_l, ?Rabs_Ropp, ?Rabs_R1; (split; [first [left; reflexivity|right; lra]|split; [first [left; reflexivity|right; lra]|]]); intros E; apply pair_equal_spec in E; lra.
  - intros i Hi. change (List.length square) with 4%nat in Hi. specialize (SQ i Hi). unfold clear_of. destruct i as [|[|[|[|i]]]]; [..|lia]; cbn [nth] in SQ; apply pair_equal_spec in SQ as [-> ->]; cbn [fst snd]; (split; [intros X; try lra|intros X; try lra]).
    + left. exists 0. split; [exists (/ 2); cbn [fst snd]; f_equal; lra|cbn [snd]; lra].
    + rewrite Rabs_left by lra. lra.
    + right. exists 1. split; [exists (/ 2); cbn [fst snd]; f_equal; lra|cbn [snd]; lra].
    + rewrite Rabs_pos_eq by lra. lra.
  - intros i j Hij. change (List.length square) with 4%nat in Hij. assert (K : forall a b, 1 <= (fst a - fst b) * (fst a - fst b) + (snd a - snd b) * (snd a - snd b) -> 2 / 10 ^ 10 < dist2 a b).
    { intros a b H. unfold dist2. apply Rlt_le_trans with (sqrt 1); [rewrite sqrt_1; lra|now apply sqrt_le_1_alt]. }
    apply K. unfold vertex, square. destruct i as [|[|[|[|i]]]]; [..|lia]; (destruct j as [|[|[|[|j]]]]; try lia); cbn [nth fst snd]; lra.
Qed.
