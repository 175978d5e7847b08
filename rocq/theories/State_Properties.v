(** C03, C04: SiteID / StateID (HamiltonianPy/quantumoperator/quantumstate.py). *)
From Coq Require Import List ZArith Reals Bool Lia.
From Flocq Require Import Core.Core.
From Verif Require Import Py Float64_Model State_Model State_Spec State_Proofs.
Import ListNotations.
Open Scope Z_scope.

(** C03: inside one class the six comparison operators are those of the strict
    total order [key_lt] (dictionary order of quantised coordinates, then spin,
    then orbit); none of them raises. *)
Theorem C03_order :
  forall a b, same_class a b ->
  (py_cmp CLt a b = Ok true <-> key_lt a b) /\
  (py_cmp CGt a b = Ok true <-> key_lt b a) /\
  (py_eq a b = true <-> same_key a b) /\
  (key_lt a b \/ same_key a b \/ key_lt b a) /\
  ~ (key_lt a b /\ same_key a b) /\ ~ (key_lt a b /\ key_lt b a) /\
  (py_cmp CLe a b = Ok true <-> key_lt a b \/ same_key a b) /\
  (py_cmp CGe a b = Ok true <-> key_lt b a \/ same_key a b) /\
  py_ne a b = negb (py_eq a b) /\
  (forall o, exists r, py_cmp o a b = Ok r).
Proof. exact order_char. Qed.
Print Assumptions C03_order.

Theorem C03_transitive : forall a b c,
  s_form_of a <> [] -> s_form_of b <> [] -> s_form_of c <> [] ->
  py_cmp CLt a b = Ok true -> py_cmp CLt b c = Ok true -> py_cmp CLt a c = Ok true.
Proof. exact py_lt_trans. Qed.
Print Assumptions C03_transitive.

(** Equal objects hash alike (the hash is a function of [hash_key]). *)
Theorem C03_hash : forall a b, same_class a b -> (hash_key a = hash_key b <-> py_eq a b = true).
Proof. exact hash_char. Qed.
Print Assumptions C03_hash.

(** A SiteID against a StateID: never equal, ordering raises TypeError. *)
Theorem C03_site_versus_state :
  forall zoom c s t, make_site zoom c = Ok s ->
  (forall o, py_cmp o (LSite s) (LState t) = Err TypeError) /\
  (forall o, py_cmp o (LState t) (LSite s) = Err TypeError) /\
  py_eq (LSite s) (LState t) = false /\ py_eq (LState t) (LSite s) = false /\
  py_ne (LSite s) (LState t) = true /\ py_ne (LState t) (LSite s) = true.
Proof. exact mixed_made. Qed.
Print Assumptions C03_site_versus_state.

(** The constructors reject exactly the malformed arguments. *)
Theorem C03_site_constructor_rejects :
  forall zoom c, make_site zoom c = Err AssertionError <->
  ~ (1 <= List.length c <= 3)%nat \/ exists x, In x c /\ x = NOther.
Proof. exact make_site_reject. Qed.
Print Assumptions C03_site_constructor_rejects.

Theorem C03_state_constructor :
  forall zoom c sp ob,
  (forall s o, sp = NInt s -> ob = NInt o -> 0 <= s -> 0 <= o ->
     make_state zoom c sp ob =
     match make_site zoom c with Ok st => Ok (MkState st s o) | Err e => Err e end) /\
  ((forall s, sp = NInt s -> s < 0) \/ (forall o, ob = NInt o -> o < 0) ->
     make_state zoom c sp ob = Err AssertionError).
Proof. exact make_state_char. Qed.
Print Assumptions C03_state_constructor.

(** C04: [==] of sites is equality of dimension and of each quantised coordinate. *)
Theorem C04_equality_is_quantised_equality :
  forall zoom ca cb a b, make_site zoom ca = Ok a -> make_site zoom cb = Ok b ->
  (py_eq (LSite a) (LSite b) = true <->
   List.length ca = List.length cb /\
   forall i x y, nth_error ca i = Some x -> nth_error cb i = Some y -> quantise zoom x = quantise zoom y).
Proof. exact site_eq_char. Qed.
Print Assumptions C04_equality_is_quantised_equality.

(** The quantised value is monotone in the coordinate ... *)
Theorem C04_quantisation_monotone :
  forall p a b qa qb,
  0 <= p <= 15 -> finite_coord a -> finite_coord b ->
  (match a, b with NFlt _, NFlt _ | NInt _, NInt _ => True | _, _ => False end) ->
  (Rabs (IZR (10 ^ p) * coord_value a) <= bpow radix2 51)%R ->
  (Rabs (IZR (10 ^ p) * coord_value b) <= bpow radix2 51)%R ->
  quantise (10 ^ p) a = Ok qa -> quantise (10 ^ p) b = Ok qb ->
  (coord_value a <= coord_value b)%R -> qa <= qb.
Proof. exact quantise_mono. Qed.
Print Assumptions C04_quantisation_monotone.

(** ... and tells apart any two coordinates at least three grid steps apart (two
    steps if both are non-negative), so such sites are different. *)
Theorem C04_separated_coordinates_distinct :
  forall p a b qa qb,
  0 <= p <= 15 -> finite_coord a -> finite_coord b ->
  (Rabs (IZR (10 ^ p) * coord_value a) <= bpow radix2 51)%R ->
  (Rabs (IZR (10 ^ p) * coord_value b) <= bpow radix2 51)%R ->
  quantise (10 ^ p) a = Ok qa -> quantise (10 ^ p) b = Ok qb ->
  (IZR (10 ^ p) * coord_value a + 3 <= IZR (10 ^ p) * coord_value b)%R \/
  (0 <= coord_value a /\ IZR (10 ^ p) * coord_value a + 2 <= IZR (10 ^ p) * coord_value b)%R ->
  qa < qb.
Proof. exact quantise_separates. Qed.
Print Assumptions C04_separated_coordinates_distinct.

(** Integer-valued coordinates are identified exactly, given as int or float. *)
Theorem C04_integer_coordinates :
  forall p z f,
  0 <= p <= 15 -> finite_coord (NFlt f) -> coord_value (NFlt f) = IZR z ->
  Z.abs (10 ^ p * z) <= 2 ^ 51 ->
  quantise (10 ^ p) (NFlt f) = quantise (10 ^ p) (NInt z) /\
  quantise (10 ^ p) (NInt z) = Ok (10 ^ p * z).
Proof. intros; split; [now apply quantise_int_float|reflexivity]. Qed.
Print Assumptions C04_integer_coordinates.

(** Sites given by ints are the same only if the ints are, whatever their size ... *)
Theorem C04_ints_never_confused :
  forall p ca cb a b, 0 <= p -> make_site (10 ^ p) (map NInt ca) = Ok a -> make_site (10 ^ p) (map NInt cb) = Ok b ->
  (py_eq (LSite a) (LSite b) = true <-> ca = cb).
Proof.
  intros p ca cb a b Hp Ha Hb. rewrite (C04_equality_is_quantised_equality _ _ _ _ _ Ha Hb), !map_length. split; [|intros ->; split; [reflexivity|intros i x y E1 E2; congruence]].
  clear Ha Hb a b. intros [HL HE]. revert cb HL HE. induction ca as [|x ca IH]; intros [|y cb] HL HE; try discriminate; [reflexivity|].
  pose proof (HE 0%nat (NInt x) (NInt y) eq_refl eq_refl) as E. cbn [quantise] in E. f_equal.
  - assert (0 < 10 ^ p) by (apply Z.pow_pos_nonneg; lia). injection E as E. nia.
  - apply IH; [now injection HL|]. intros i u v Hu Hv. exact (HE (S i) u v Hu Hv).
Qed.
Print Assumptions C04_ints_never_confused.
(** ... but large ints given as floats can be confused: 8106479329266894.0 and
    8106479329266895.0, two different doubles, are one site. *)
Theorem C04_large_integers_refuted :
  exists a b sa sb, float_of_int 8106479329266894 = Ok a /\ float_of_int 8106479329266895 = Ok b /\ a <> b /\
    make_site default_zoom [NFlt a] = Ok sa /\ make_site default_zoom [NFlt b] = Ok sb /\ py_eq (LSite sa) (LSite sb) = true.
Proof. do 4 eexists. split; [vm_compute; reflexivity|]. split; [vm_compute; reflexivity|]. split; [discriminate|]. repeat split; vm_compute; reflexivity. Qed.
Print Assumptions C04_large_integers_refuted.

(** Refuted: "sites one grid step (10^-4) apart are different": 0.0002 and 0.0003
    (the doubles [2/10000] and [3/10000]) are the same site. *)
Theorem C04_adjacent_grid_points_distinct_refuted :
  exists a b sa sb,
    int_true_div 2 10000 = Ok a /\ int_true_div 3 10000 = Ok b /\
    make_site default_zoom [NFlt a] = Ok sa /\ make_site default_zoom [NFlt b] = Ok sb /\
    py_eq (LSite sa) (LSite sb) = true.
Proof. do 4 eexists. repeat split; vm_compute; reflexivity. Qed.
Print Assumptions C04_adjacent_grid_points_distinct_refuted.

(** Refuted: "coordinates equal up to rounding give the same site": 0.1 + 0.7 and 0.8. *)
Theorem C04_nearby_coordinates_same_site_refuted :
  exists a b c sa sb,
    int_true_div 1 10 = Ok a /\ int_true_div 7 10 = Ok b /\ int_true_div 8 10 = Ok c /\
    make_site default_zoom [NFlt (fadd a b)] = Ok sa /\ make_site default_zoom [NFlt c] = Ok sb /\
    py_eq (LSite sa) (LSite sb) = false.
Proof. do 5 eexists. repeat split; vm_compute; reflexivity. Qed.
Print Assumptions C04_nearby_coordinates_same_site_refuted.

(** Refuted: grid cells are equally wide: -0.00009 and 0.00009 share the cell of 0. *)
Theorem C04_cell_around_zero_refuted :
  exists a b sa sb,
    int_true_div (-9) 100000 = Ok a /\ int_true_div 9 100000 = Ok b /\
    make_site default_zoom [NFlt a] = Ok sa /\ make_site default_zoom [NFlt b] = Ok sb /\
    py_eq (LSite sa) (LSite sb) = true.
Proof. do 4 eexists. repeat split; vm_compute; reflexivity. Qed.
Print Assumptions C04_cell_around_zero_refuted.

(** Non-vacuity. *)
Example C03_example :
  exists a b, make_state default_zoom [NInt 0; NInt 1] (NInt 1) (NInt 0) = Ok a /\
              make_state default_zoom [NInt 0; NInt 1] (NInt 1) (NInt 2) = Ok b /\
              same_class (LState a) (LState b) /\ py_cmp CLt (LState a) (LState b) = Ok true /\
              key_lt (LState a) (LState b).
Proof.
  do 2 eexists. split; [reflexivity|]. split; [reflexivity|]. cbn. split; auto. split; auto.
  right. split; auto. right. lia.
Qed.
Example C04_example :
  exists f, int_true_div 3 4 = Ok f /\ finite_coord (NFlt f) /\ quantise (10 ^ 4) (NFlt f) = Ok 7500 /\
            quantise (10 ^ 4) (NInt 1) = Ok 10000.
Proof. eexists. repeat split; vm_compute; reflexivity. Qed.
Example C04_example_int : finite_coord (NFlt (SpecFloat.S754_finite true 6755399441055744 (-51))) /\
  coord_value (NFlt (SpecFloat.S754_finite true 6755399441055744 (-51))) = IZR (-3).
Proof.
  split; [vm_compute; reflexivity|]. cbn [coord_value]. 
  replace (-3) with (- (6755399441055744 / 2 ^ 51)) by reflexivity.
  change (bpow radix2 (-51)) with (/ IZR (2 ^ 51))%R.
  rewrite opp_IZR. replace (IZR (6755399441055744 / 2 ^ 51)) with (IZR 6755399441055744 * / IZR (2 ^ 51))%R.
  - ring.
  - change (6755399441055744) with (3 * 2 ^ 51) at 1. rewrite mult_IZR.
    change (6755399441055744 / 2 ^ 51) with 3. rewrite Rmult_assoc, Rinv_r; [ring|].
    apply IZR_neq. vm_compute. discriminate.
Qed.
