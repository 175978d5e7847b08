(** What coloring is supposed to produce: ANSI "select graphic rendition". *)
From Coq Require Import String List ZArith Bool Ascii DecimalString.
From Verif Require Import Py ColorPrint_Model.
Import ListNotations.
Open Scope string_scope.
Open Scope Z_scope.

(** The decimal notation of an integer (standard library), e.g. "-12". *)
Definition decimal (z : Z) : string := NilZero.string_of_int (Z.to_int z).
(** Case folding: the n-th capital letter becomes the n-th small one, anything else stays. *)
Definition small (c : ascii) : ascii :=
  match find (fun p => Ascii.eqb c (fst p))
          (combine (list_ascii_of_string "ABCDEFGHIJKLMNOPQRSTUVWXYZ") (list_ascii_of_string "abcdefghijklmnopqrstuvwxyz")) with
  | Some (_, d) => d
  | None => c
  end.
Definition fold_case (s : string) : string := string_of_list_ascii (map small (list_ascii_of_string s)).
(** Tab, line feed, vertical tab, form feed, carriage return, blank. *)
Definition white (c : ascii) : Prop := In c (map ascii_of_nat [9; 10; 11; 12; 13; 32]%nat).

(** ESC [ p1 ; p2 ; ... m -- nothing for no parameters. *)
Definition sgr (ps : list Z) : string :=
  match ps with
  | [] => ""
  | _ => String (ascii_of_nat 27) "[" ++ String.concat ";" (map decimal ps) ++ "m"
  end.

Inductive scheme := S4 | S8 | S24.
Definition is_scheme (v : pyv) (sch : scheme) : Prop :=
  match sch with S4 => v = VInt 4 | S8 => v = VInt 8 | S24 => v = VInt 24 \/ v = VStr "rgb" end.

(** The eight standard colours, upper or lower case, long or one letter. *)
Definition named (s : string) (i : nat) : Prop :=
  nth_error ["black"; "red"; "green"; "yellow"; "blue"; "magenta"; "cyan"; "white"] i = Some (fold_case s) \/
  nth_error ["k"; "r"; "g"; "y"; "b"; "m"; "c"; "w"] i = Some (fold_case s).
(** The value of a hexadecimal digit. *)
Definition hexval (c : ascii) (n : nat) : Prop :=
  nth_error (list_ascii_of_string "0123456789abcdef") n = Some (small c).
Definition byte (z : Z) : Prop := 0 <= z <= 255.
Definition base (fg : bool) : Z := if fg then 38 else 48.

(** The parameters that select colour v as foreground / background ([]: no colour given). *)
Inductive denotes : scheme -> bool -> pyv -> list Z -> Prop :=
| D_none sch fg : denotes sch fg VNone []
| D_4_fg z : 30 <= z <= 37 \/ 90 <= z <= 97 -> denotes S4 true (VInt z) [z]
| D_4_bg z : 40 <= z <= 47 \/ 100 <= z <= 107 -> denotes S4 false (VInt z) [z]
| D_4_name fg s i : named s i -> denotes S4 fg (VStr s) [(if fg then 30 else 40) + Z.of_nat i]
| D_8 fg z : byte z -> denotes S8 fg (VInt z) [base fg; 5; z]
| D_8_name fg s i : named s i -> denotes S8 fg (VStr s) [base fg; 5; Z.of_nat i]
| D_24 fg r g b : byte r -> byte g -> byte b -> denotes S24 fg (VSeq [VInt r; VInt g; VInt b]) [base fg; 2; r; g; b]
| D_24_name fg s i : named s i ->    (* bit 0 is red, bit 1 green, bit 2 blue *)
    denotes S24 fg (VStr s) [base fg; 2; 255 * (Z.of_nat i mod 2); 255 * (Z.of_nat i / 2 mod 2); 255 * (Z.of_nat i / 4 mod 2)]
| D_24_hex fg c1 c2 c3 c4 c5 c6 n1 n2 n3 n4 n5 n6 :
    hexval c1 n1 -> hexval c2 n2 -> hexval c3 n3 -> hexval c4 n4 -> hexval c5 n5 -> hexval c6 n6 ->
    denotes S24 fg (VStr (String "#" (String c1 (String c2 (String c3 (String c4 (String c5 (String c6 ""))))))))
      [base fg; 2; 16 * Z.of_nat n1 + Z.of_nat n2; 16 * Z.of_nat n3 + Z.of_nat n4; 16 * Z.of_nat n5 + Z.of_nat n6].

(** The colours the documentation allows one to pass under a scheme, valid or
    not: None, names, ints (4, 8), triples of ints and "#XXXXXX" (24) -- the Xs
    neither white space nor signs. *)
Definition plain (c : ascii) : Prop := ~ white c /\ c <> "+"%char /\ c <> "-"%char.
Definition documented (sch : scheme) (v : pyv) : Prop :=
  match sch, v with
  | _, VNone => True
  | S24, VStr s => Forall plain (list_ascii_of_string s)
  | _, VStr _ => True
  | S4, VInt _ | S8, VInt _ => True
  | S24, VSeq [VInt _; VInt _; VInt _] => True
  | _, _ => False
  end.

(** The values of a type the scheme does not look at. *)
Definition foreign (sch : scheme) (v : pyv) : Prop :=
  match sch, v with
  | _, VStr _ => False
  | S24, VSeq l => length l <> 3%nat
  | S4, VInt _ | S4, VBool _ | S8, VInt _ | S8, VBool _ => False
  | _, _ => True
  end.
