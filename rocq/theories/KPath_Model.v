(** Model of KPath (lattice/lattice.py:534-595), written once over the scalar
    operations it uses and instantiated with the reals and with IEEE doubles. *)
From Coq Require Import List ZArith Bool Reals Floats.SpecFloat.
From Flocq Require Import Core.Raux.
From Verif Require Import Py Float64_Model.
Import ListNotations.
Local Open Scope nat_scope.
Local Open Scope res_scope.

(** The numpy scalar operations: + - * / sqrt < on elements, [of_int] a Python int
    used as an operand, [to_int] Python's int(), [tiny] the literal 1e-4. *)
Record arith (T : Type) := Arith {
  add : T -> T -> T; sub : T -> T -> T; mul : T -> T -> T; div : T -> T -> T; root : T -> T;
  less : T -> T -> bool; of_int : Z -> res T; to_int : T -> res Z; tiny : T; zero : T; one : T }.
Arguments add {T}. Arguments sub {T}. Arguments mul {T}. Arguments div {T}. Arguments root {T}. Arguments less {T}.
Arguments of_int {T}. Arguments to_int {T}. Arguments tiny {T}. Arguments zero {T}. Arguments one {T}.

(** Exact real arithmetic. *)
Definition real_arith : arith R :=
  Arith R Rplus Rminus Rmult Rdiv sqrt Rlt_bool (fun z => Ok (IZR z)) (fun x => Ok (Ztrunc x)) (1 / 10000)%R 0%R 1%R.
(** IEEE doubles; 7378697629483821 * 2^-66 is the double nearest to 1e-4. *)
Definition fsqrt (x : f64) : f64 := SFsqrt prec64 emax64 x.
Definition float_arith : arith f64 :=
  Arith f64 fadd fsub fmul fdiv fsqrt flt float_of_int int_of_float
    (S754_finite false 7378697629483821 (-66)) (S754_zero false) (S754_finite false 4503599627370496 (-52)).

(** min_num: an int (a bool is the int 0 or 1) or anything else (lattice.py:570). *)
Inductive count_arg := CInt (z : Z) | COther.
(** An element of [points]: a 1D array, an array of another rank, or an object
    without .shape (lattice.py:572). *)
Inductive anchor (T : Type) := Vec (xs : list T) | OtherRank | Shapeless.
Arguments Vec {T}. Arguments OtherRank {T}. Arguments Shapeless {T}.

Section KPath.
  Context {T : Type} (A : arith T).
  (** point.shape in [(2,), (3,)] (lattice.py:572); all() stops at the first failure. *)
  Definition shape_ok (p : anchor T) : res (list T) :=
    match p with
    | Vec xs => _ <- assert_ (Nat.eqb (length xs) 2 || Nat.eqb (length xs) 3) ;; Ok xs
    | OtherRank => Err AssertionError
    | Shapeless => Err AttributeError
    end.
  (** Elementwise difference of two rows. *)
  Definition row_sub (p q : list T) : list T := map (fun x => sub A (fst x) (snd x)) (combine p q).
  (** np.linalg.norm(., axis=-1) of one row: sqrt(add.reduce(x * x)). *)
  Definition row_norm (p : list T) : T :=
    root A (match map (fun x => mul A x x) p with [] => zero A | x :: r => fold_left (add A) r x end).
  (** np.min of a non-empty array (nan not modelled). *)
  Definition minimum (l : list T) : T :=
    match l with [] => zero A | x :: r => fold_left (fun m y => if less A y m then y else m) r x end.
  (** int(min_num * length / min_length) (lattice.py:584).  A negative number of
      samples is the ValueError of np.linspace; raised one statement early here. *)
  Definition sampling (m : Z) (min_length l : T) : res nat :=
    fm <- of_int A m ;;
    k <- to_int A (div A (mul A fm l) min_length) ;;
    if (k <? 0)%Z then Err ValueError else Ok (Z.to_nat k).
  (** np.linspace(0, 1, num=num, endpoint=False)[:, np.newaxis] * dR + start
      (lattice.py:585-588); linspace computes arange(num) * (1 / num) + 0. *)
  Definition segment (num : nat) (dR start : list T) : res (list (list T)) :=
    mapM (fun i =>
      fi <- of_int A (Z.of_nat i) ;;
      fn <- of_int A (Z.of_nat num) ;;
      let t := add A (mul A fi (div A (one A) fn)) (zero A) in
      Ok (map (fun x => add A (mul A t (fst x)) (snd x)) (combine dR start))) (seq 0 num).
  (** np.cumsum, continuing from [a]. *)
  Fixpoint cumsum (a : nat) (l : list nat) : list nat :=
    match l with [] => [] | x :: r => (a + x) :: cumsum (a + x) r end.
  (** points[lo:hi] *)
  Definition slice {X} (lo hi : nat) (l : list X) : list X := firstn (hi - lo) (skipn lo l).

  (** lattice.py:570-595.  np.concatenate((points, points)) raises ValueError
      unless all rows have the same length. *)
  Definition KPath (points : list (anchor T)) (min_num : count_arg) (loop return_indices : bool) : res (list (list T) * option (list nat)) :=
    m <- match min_num with CInt z => _ <- assert_ (1 <=? z)%Z ;; Ok z | COther => Err AssertionError end ;;
    _ <- assert_ (Nat.ltb 1 (length points)) ;;
    rows <- mapM shape_ok points ;;
    let point_num := length rows in
    _ <- (if forallb (fun v => Nat.eqb (length v) (length (hd [] rows))) rows then Ok tt else Err ValueError) ;;
    let pts := rows ++ rows in
    let end_ := if loop then point_num + 1 else point_num in
    let dRs := map (fun x => row_sub (fst x) (snd x)) (combine (slice 1 end_ pts) (slice 0 (end_ - 1) pts)) in
    let lengths := map row_norm dRs in
    let min_length := minimum lengths in
    if less A min_length (tiny A) then Err ValueError
    else
      nums <- mapM (sampling m min_length) lengths ;;
      ks <- mapM (fun x => segment (fst x) (fst (snd x)) (snd (snd x))) (combine nums (combine dRs pts)) ;;
      Ok (concat ks ++ [nth (end_ - 1) pts []], if return_indices then Some (0 :: cumsum 0 nums) else None).
End KPath.
