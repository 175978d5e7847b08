(** Model of tools/colorprint.py (strings are ASCII). *)
From Coq Require Import String List ZArith Bool Ascii DecimalString.
From Verif Require Import Py.
Import ListNotations.
Open Scope string_scope.
Open Scope Z_scope.
Local Open Scope res_scope.

(** A Python object passed as a colour, colour component or colour scheme:
    None, a str, an int, a bool, a float with an integral value, a list or
    tuple, anything else (equal to no int and no str). *)
Inductive pyv :=
| VNone | VStr (s : string) | VInt (z : Z) | VBool (b : bool) | VFloat (z : Z) | VSeq (l : list pyv) | VOther.

(** The int a Python number equals: True == 1, 5.0 == 5. *)
Definition num_of (v : pyv) : option Z :=
  match v with VInt z | VFloat z => Some z | VBool b => Some (if b then 1 else 0) | _ => None end.
(** [v in tuple(range(a, b))]: equality with one of the ints. *)
Definition in_range (a b : Z) (v : pyv) : bool :=
  match num_of v with Some z => (a <=? z) && (z <? b) | None => false end.
(** [v == z] for an int literal z. *)
Definition eq_int (v : pyv) (z : Z) : bool := match num_of v with Some y => y =? z | None => false end.
Definition eq_str (v : pyv) (s : string) : bool := match v with VStr t => String.eqb t s | _ => false end.

(** "{}".format(v) for the values that get formatted. *)
Definition dec (z : Z) : string := NilZero.string_of_int (Z.to_int z).
Definition fmt (v : pyv) : string :=
  match v with
  | VInt z => dec z
  | VBool b => if b then "True" else "False"
  | VFloat z => dec z ++ ".0"
  | _ => ""
  end.

(** str.lower() on ASCII. *)
Definition lower_ascii (c : ascii) : ascii :=
  let n := nat_of_ascii c in if (Nat.leb 65 n && Nat.leb n 90)%bool then ascii_of_nat (n + 32) else c.
Fixpoint lower (s : string) : string :=
  match s with EmptyString => "" | String c r => String (lower_ascii c) (lower r) end.

(** colorprint.py:14-17, 20-26 *)
Definition NAMES_LONG := ["black"; "red"; "green"; "yellow"; "blue"; "magenta"; "cyan"; "white"].
Definition NAMES_SHORT := ["k"; "r"; "g"; "y"; "b"; "m"; "c"; "w"].
Definition CODES_4_FG : list Z := [30; 31; 32; 33; 34; 35; 36; 37].
Definition CODES_4_BG : list Z := [40; 41; 42; 43; 44; 45; 46; 47].
Definition CODES_8 : list Z := [0; 1; 2; 3; 4; 5; 6; 7].
Definition CODES_24 : list (Z * Z * Z) :=
  [(0, 0, 0); (255, 0, 0); (0, 255, 0); (255, 255, 0); (0, 0, 255); (255, 0, 255); (0, 255, 255); (255, 255, 255)].

(** dict(zip(keys, values))[k]; KeyError otherwise. *)
Fixpoint zip_get {A} (ks : list string) (vs : list A) (k : string) : res A :=
  match ks, vs with
  | k' :: kr, v :: vr => if String.eqb k k' then Ok v else zip_get kr vr k
  | _, _ => Err KeyError
  end.
Definition mem (s : string) (l : list string) : bool := existsb (String.eqb s) l.

(** colorprint.py:42-43 *)
Definition ESC : ascii := ascii_of_nat 27.
Definition CSI : string := String ESC "[".
Definition RESET : string := CSI ++ "0m".

(** _color_name, colorprint.py:46-57 *)
Definition color_name (color : string) : res string :=
  let color := lower color in
  if mem color NAMES_LONG then Ok color
  else if mem color NAMES_SHORT then zip_get NAMES_SHORT NAMES_LONG color
  else Err ValueError.

(** _color_ctrl_seq_4bits, colorprint.py:68-82; bool is a subclass of int. *)
Definition ctrl_4bits (color : pyv) (fg : bool) : res string :=
  let from_int v :=
    if (if fg then in_range 30 38 v || in_range 90 98 v else in_range 40 48 v || in_range 100 108 v)
    then Ok (CSI ++ fmt v ++ "m") else Err ValueError in
  match color with
  | VInt _ | VBool _ => from_int color
  | VStr s =>
      n <- color_name s ;;
      c <- zip_get NAMES_LONG (if fg then CODES_4_FG else CODES_4_BG) n ;;
      Ok (CSI ++ dec c ++ "m")
  | _ => Ok ""
  end.

(** _color_ctrl_seq_8bits, colorprint.py:85-98 *)
Definition ctrl_8bits (color : pyv) (fg : bool) : res string :=
  let out code := CSI ++ (if fg then "38" else "48") ++ ";5;" ++ code ++ "m" in
  match color with
  | VInt _ | VBool _ => if in_range 0 256 color then Ok (out (fmt color)) else Err ValueError
  | VStr s =>
      n <- color_name s ;;
      c <- zip_get NAMES_LONG CODES_8 n ;;
      Ok (out (dec c))
  | _ => Ok ""
  end.

(** Python's int(s, base=16) on an ASCII string: surrounding white space, a
    sign, an optional 0x, hex digits with single underscores between them. *)
Definition is_space (c : ascii) : bool :=
  let n := nat_of_ascii c in (Nat.leb 9 n && Nat.leb n 13)%bool || Nat.eqb n 32.
Definition hex_digit (c : ascii) : option Z :=
  let n := Z.of_nat (nat_of_ascii c) in
  if (48 <=? n) && (n <=? 57) then Some (n - 48)
  else if (97 <=? n) && (n <=? 102) then Some (n - 87)
  else if (65 <=? n) && (n <=? 70) then Some (n - 55)
  else None.
Fixpoint lstrip (s : string) : string :=
  match s with String c r => if is_space c then lstrip r else s | EmptyString => "" end.
Fixpoint all_space (s : string) : bool :=
  match s with String c r => is_space c && all_space r | EmptyString => true end.
(** digits with accumulated value; [prev]: the previous character was a digit *)
Fixpoint digits (s : string) (acc : Z) (prev : bool) : res Z :=
  match s with
  | EmptyString => if prev then Ok acc else Err ValueError
  | String c r =>
      match hex_digit c with
      | Some d => digits r (16 * acc + d) true
      | None => if Ascii.eqb c "_" then (if prev then digits r acc false else Err ValueError)
                else if prev && is_space c && all_space r then Ok acc else Err ValueError
      end
  end.
Definition unsigned16 (s : string) : res Z :=
  match s with
  | String "0" (String x r) =>
      if Ascii.eqb x "x" || Ascii.eqb x "X"
      then match r with
           | String c r' => if Ascii.eqb c "_" then digits r' 0 false else digits r 0 false
           | EmptyString => Err ValueError
           end
      else digits s 0 false
  | _ => digits s 0 false
  end.
Definition int16 (s : string) : res Z :=
  match lstrip s with
  | String c r => if Ascii.eqb c "-" then (z <- unsigned16 r ;; Ok (- z))
                  else if Ascii.eqb c "+" then unsigned16 r
                  else unsigned16 (String c r)
  | EmptyString => Err ValueError
  end.

(** _color_ctrl_seq_24bits, colorprint.py:101-123 *)
Definition ctrl_24bits (color : pyv) (fg : bool) : res string :=
  let out r g b := CSI ++ (if fg then "38" else "48") ++ ";2;" ++ r ++ ";" ++ g ++ ";" ++ b ++ "m" in
  match color with
  | VSeq [r; g; b] =>
      if in_range 0 256 r && in_range 0 256 g && in_range 0 256 b
      then Ok (out (fmt r) (fmt g) (fmt b)) else Err ValueError
  | VStr s =>
      if prefix "#" s && Nat.eqb (String.length s) 7 then
        r <- int16 (substring 1 2 s) ;;
        g <- int16 (substring 3 2 s) ;;
        b <- int16 (substring 5 2 s) ;;
        Ok (out (dec r) (dec g) (dec b))
      else
        n <- color_name s ;;
        ' (r, g, b) <- zip_get NAMES_LONG CODES_24 n ;;
        Ok (out (dec r) (dec g) (dec b))
  | _ => Ok ""
  end.

(** coloring, colorprint.py:126-176 *)
Definition coloring (s : string) (fg bg : pyv) (bold : bool) (color_scheme : pyv) : res string :=
  let bold_seq := if bold then CSI ++ "1m" else "" in
  ctrl <- (if eq_int color_scheme 4 then Ok ctrl_4bits
           else if eq_int color_scheme 8 then Ok ctrl_8bits
           else if eq_int color_scheme 24 || eq_str color_scheme "rgb" then Ok ctrl_24bits
           else Err ValueError) ;;
  fg_seq <- ctrl fg true ;;
  bg_seq <- ctrl bg false ;;
  Ok ((fg_seq ++ bg_seq ++ bold_seq) ++ s ++ RESET).

(** color_print, colorprint.py:179-262: the text handed to the stream; the
    objects are given by their str(). *)
Definition color_print (objects : list string) (sep end_ : string) (fg bg : pyv) (bold : bool) (color_scheme : pyv) : res string :=
  c <- coloring (String.concat sep objects) fg bg bold color_scheme ;;
  Ok (c ++ end_).
