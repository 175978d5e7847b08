(** Model of the text forms of sites, states, operators and terms: [tolatex],
    [__repr__] and [__str__]
    (quantumstate.py, particlesystem.py, spinsystem.py in quantumoperator/). *)
From Coq Require Import String List ZArith Bool Ascii DecimalString.
From Verif Require Import Py GQ Float64_Model State_Model MatrixRepr_Model Particle_Model Spin_Model ColorPrint_Model.
Import ListNotations.
Local Open Scope string_scope.
Local Open Scope res_scope.

(** Python's own text of numbers: [repr(x)] and [str(round(x, ndigits))] of a
    coordinate.  Integers are written in decimal (ColorPrint_Model.dec); the
    shortest decimal form of a float and rounding are not modelled and stand as
    functions of the value.  The text [str(c)] of a coefficient is an argument
    of the functions below: it depends on the type (1, 1.0, 1+0j) as well as
    on the value. *)
Record pytext := MkText {
  float_repr : f64 -> string;
  round_text : Z -> pynum -> string }.
Definition num_repr (T : pytext) (x : pynum) : string :=
  match x with NInt z => dec z | NFlt f => float_repr T f | NOther => "" end.

(** [sep.join(l)]. *)
Definition join (sep : string) (l : list string) : string :=
  match l with [] => "" | x :: r => fold_left (fun a b => a ++ sep ++ b) r x end.
(** [s.replace("$", "")]. *)
Fixpoint strip_dollar (s : string) : string :=
  match s with
  | "" => ""
  | String c r => if Ascii.eqb c "$" then strip_dollar r else String c (strip_dollar r)
  end.
(** [repr] of a tuple: a single element is followed by a comma. *)
Definition tuple_repr (l : list string) : string :=
  match l with [x] => "(" ++ x ++ ",)" | _ => "(" ++ join ", " l ++ ")" end.

(** The [site_index] argument: None (or anything else), an int, an IndexTable. *)
Inductive site_arg := ANone | AInt (z : Z) | ATable (t : state_table).

(** quantumstate.py:134-172 [SiteID.tolatex]. *)
Definition site_latex (T : pytext) (a : site_arg) (ndigits : Z) (s : siteid) : res string :=
  match a with
  | AInt z => Ok (dec z)
  | ATable t => i <- site_index t s ;; Ok (dec i)
  | ANone => Ok ("(" ++ join "," (map (round_text T ndigits) (s_coord s)) ++ ")")
  end.
(** quantumstate.py:402-407. *)
Definition spin_latex (half : bool) (spin : Z) : string :=
  if (half && (Z.eqb spin 0 || Z.eqb spin 1))%bool
  then if Z.eqb spin 0 then "$\downarrow$" else "$\uparrow$"
  else dec spin.
(** quantumstate.py:353-415 [StateID.tolatex]: the site is constructed again. *)
Definition state_latex (T : pytext) (zoom : Z) (a : site_arg) (ndigits : Z) (half suppress_orbit : bool) (s : stateid) : res string :=
  site <- make_site zoom (s_coord (st_site s)) ;;
  latex_form_site <- site_latex T a ndigits site ;;
  let latex_form_spin := spin_latex half (st_spin s) in
  if suppress_orbit then Ok (join "," [latex_form_site; latex_form_spin])
  else Ok (join "," [latex_form_site; latex_form_spin; dec (st_orbit s)]).

(** particlesystem.py:213-235 [AoC.tolatex]. *)
Definition aoc_latex T zoom a ndigits half suppress_orbit (x : aoc) : res string :=
  sub <- state_latex T zoom a ndigits half suppress_orbit (a_state x) ;;
  let subscript := strip_dollar sub in
  match a_otype x with
  | CREATION => Ok ("$c_{" ++ subscript ++ "}^{\dagger}$")
  | ANNIHILATION => Ok ("$c_{" ++ subscript ++ "}$")
  end.
(** particlesystem.py:662-680 [NumberOperator.tolatex]. *)
Definition numop_latex T zoom a ndigits half suppress_orbit (x : numop) : res string :=
  sub <- state_latex T zoom a ndigits half suppress_orbit (n_state x) ;;
  Ok ("$n_{" ++ strip_dollar sub ++ "}$").
(** particlesystem.py:1039-1066 [ParticleTerm.tolatex]. *)
Definition pterm_latex T zoom a ndigits half suppress_orbit (ctext : string) (t : pterm) : res string :=
  latex_aocs <- mapM (fun x => l <- aoc_latex T zoom a ndigits half suppress_orbit x ;; Ok (strip_dollar l)) (t_aocs t) ;;
  Ok (join "" (["$"; ctext] ++ latex_aocs ++ ["$"])).
(** spinsystem.py:173-191 [SpinOperator.tolatex]. *)
Definition spinop_latex T a ndigits (x : spinop) : res string :=
  subscript <- site_latex T a ndigits (so_site x) ;;
  Ok ("$S_{" ++ subscript ++ "}^{" ++ otype_name (so_otype x) ++ "}$").
(** spinsystem.py:548-576 [SpinInteraction.tolatex]. *)
Definition inter_latex T a ndigits (ctext : string) (t : sinter) : res string :=
  latex_operators <- mapM (fun x => l <- spinop_latex T a ndigits x ;; Ok (strip_dollar l)) (i_ops t) ;;
  Ok (join "" (["$"; ctext] ++ latex_operators ++ ["$"])).

(** quantumstate.py:125-132 [SiteID.__repr__], [__str__]. *)
Definition site_repr (T : pytext) (s : siteid) : string :=
  "SiteID(site=" ++ tuple_repr (map (num_repr T) (s_coord s)) ++ ")".
(** quantumstate.py:343-351 [StateID.__repr__], [__str__]. *)
Definition state_repr (T : pytext) (s : stateid) : string :=
  "StateID(site=" ++ tuple_repr (map (num_repr T) (s_coord (st_site s))) ++ ", spin=" ++ dec (st_spin s) ++
  ", orbit=" ++ dec (st_orbit s) ++ ")".
(** particlesystem.py:202-211 [AoC.__repr__], [__str__]. *)
Definition aoc_repr (T : pytext) (x : aoc) : string :=
  "AoC(otype=" ++ (match a_otype x with CREATION => "CREATION" | ANNIHILATION => "ANNIHILATION" end) ++
  ", site=" ++ tuple_repr (map (num_repr T) (s_coord (st_site (a_state x)))) ++ ", spin=" ++ dec (st_spin (a_state x)) ++
  ", orbit=" ++ dec (st_orbit (a_state x)) ++ ")".
(** particlesystem.py:652-660 [NumberOperator.__repr__], [__str__]. *)
Definition numop_repr (T : pytext) (x : numop) : string :=
  "NumberOperator(site=" ++ tuple_repr (map (num_repr T) (s_coord (st_site (n_state x)))) ++ ", spin=" ++ dec (st_spin (n_state x)) ++
  ", orbit=" ++ dec (st_orbit (n_state x)) ++ ")".
(** spinsystem.py:163-171 [SpinOperator.__repr__], [__str__]. *)
Definition quote : string := String (ascii_of_nat 34) "".
Definition spinop_repr (T : pytext) (x : spinop) : string :=
  "SpinOperator(otype=" ++ quote ++ otype_name (so_otype x) ++ quote ++ ", site=" ++
  tuple_repr (map (num_repr T) (s_coord (so_site x))) ++ ")".
(** particlesystem.py:991-1002 [ParticleTerm.__str__] and spinsystem.py:535-546
    [SpinInteraction.__str__]. *)
Definition newline : string := String (ascii_of_nat 10) "".
Definition term_str (ctext : string) (ops : list string) : string :=
  join newline (["The coefficient of this term: " ++ ctext; "The component operators:"] ++ map (fun r => "    " ++ r) ops).
Definition pterm_str (T : pytext) (ctext : string) (t : pterm) : string := term_str ctext (map (aoc_repr T) (t_aocs t)).
Definition inter_str (T : pytext) (ctext : string) (t : sinter) : string := term_str ctext (map (spinop_repr T) (i_ops t)).
