(** Model of HamiltonianPy/quantumoperator/matrixrepr.py. *)
From Coq Require Import List Arith NArith ZArith Bool.
From Verif Require Import Py GQ.
Import ListNotations.

(** constant.py:19-20: CREATION = 1, ANNIHILATION = 0. *)
Inductive otype := ANNIHILATION | CREATION.
Definition otype_eqb (a b : otype) : bool :=
  match a, b with CREATION, CREATION | ANNIHILATION, ANNIHILATION => true | _, _ => false end.

(** One row [index, mask, criterion] of the uint64 array [term]. *)
Record row := MkRow { r_index : N; r_mask : N; r_crit : N }.

(** matrixrepr.py:207-213: one row of the list comprehension; [1 << index]
    raises ValueError for a negative index. *)
Definition make_row (p : Z * otype) : res row :=
  let '(index, ot) := p in
  if (index <? 0)%Z then Err ValueError
  else let i := Z.to_N index in
       let mask := N.shiftl 1 i in
       Ok (MkRow i mask (if otype_eqb ot CREATION then 0 else mask)%N).

(** [np.array(..., dtype=np.uint64)]: OverflowError if an element is >= 2^64. *)
Definition fits64 (x : N) : bool := (x <? 2 ^ 64)%N.
Definition row_fits (r : row) : bool := fits64 (r_index r) && fits64 (r_mask r) && fits64 (r_crit r).
Definition make_term (term : list (Z * otype)) : res (list row) :=
  match mapM make_row term with
  | Err e => Err e
  | Ok rows => if forallb row_fits rows then Ok rows else Err OverflowError
  end.

(** numba's [np.searchsorted(a, v)] (side left): bisection
    [while hi > lo: mid = (lo + hi) >> 1; if a[mid] < v: lo = mid + 1 else: hi = mid].
    [fuel] bounds the iterations by the length. *)
Fixpoint bisect (fuel : nat) (a : list N) (v : N) (lo hi : nat) : nat :=
  match fuel with
  | O => lo
  | S fuel' =>
      if Nat.ltb lo hi then
        let mid := Nat.div2 (lo + hi) in
        if (nth mid a 0 <? v)%N then bisect fuel' a v (S mid) hi
        else bisect fuel' a v lo mid
      else lo
  end.
Definition searchsorted (a : list N) (v : N) : nat := bisect (S (length a)) a v 0 (length a).

(** matrixrepr.py:49-57 (and 84-92): locating the produced ket. *)
Definition locate (left_bases : list N) (ket : N) : option nat :=
  let index := searchsorted left_bases ket in
  if negb (Nat.eqb index (length left_bases)) && (nth index left_bases 0 =? ket)%N
  then Some index else None.

(** matrixrepr.py:37-39: [for pos in range(state_index): if ket & (1 << pos): swap ^= 1];
    [start] allows the range(start, end) of _core_hopping (79-81). *)
Definition count_swaps (start len : nat) (ket : N) (swap : bool) : bool :=
  fold_left (fun s pos => if (N.land ket (N.shiftl 1 (N.of_nat pos)) =? 0)%N then s else xorb s true)
            (seq start len) swap.

(** matrixrepr.py:27-42: the inner loop over the operators, right to left
    ([rows] is the reversed term); None = the loop was left by [break]. *)
Fixpoint apply_rows (rows : list row) (swap : bool) (ket : N) : option (bool * N) :=
  match rows with
  | [] => Some (swap, ket)
  | r :: rest =>
      if (N.land ket (r_mask r) =? r_crit r)%N then
        apply_rows rest (count_swaps 0 (N.to_nat (r_index r)) ket swap) (N.lxor ket (r_mask r))
      else None
  end.

(** One column of [result]: (row, column, value); untouched columns stay (0, 0, 0). *)
Definition triple := (nat * nat * Z)%type.
Definition hit (i : nat) (idx : nat) (swap : bool) : triple := (idx, i, if swap then -1 else 1)%Z.
Definition miss : triple := (0%nat, 0%nat, 0%Z).

Definition enumerate {A} (l : list A) : list (nat * A) := combine (seq 0 (length l)) l.

(** matrixrepr.py:18-58 [_core_general]. *)
Definition core_general (term : list row) (right_bases left_bases : list N) : res (list triple) :=
  mapM (fun '(i, ket) =>
          match apply_rows (rev term) false ket with
          | None => Ok miss
          | Some (swap, ket') =>
              match locate left_bases ket' with
              | Some idx => Ok (hit i idx swap)
              | None => Err KeyError
              end
          end) (enumerate right_bases).

(** matrixrepr.py:65-93 [_core_hopping]; fewer than two rows is outside the
    function's contract (numba reads out of bounds), modelled as IndexError. *)
Definition core_hopping (term : list row) (right_bases left_bases : list N) : res (list triple) :=
  match term with
  | r0 :: r1 :: _ =>
      let idxs := map r_index term in
      let start := N.to_nat (fold_left N.min idxs (r_index r0)) in
      let end_ := N.to_nat (fold_left N.max idxs (r_index r0)) in
      let mask0 := r_mask r0 in
      let mask1 := r_mask r1 in
      mapM (fun '(i, ket) =>
              if ((N.land ket mask0 =? 0) && (N.land ket mask1 =? mask1))%N then
                let swap := count_swaps (start + 1) (end_ - (start + 1)) ket false in
                let ket' := N.lxor (N.lxor ket mask1) mask0 in
                match locate left_bases ket' with
                | Some idx => Ok (hit i idx swap)
                | None => Err KeyError
                end
              else Ok miss) (enumerate right_bases)
  | _ => Err IndexError
  end.

(** matrixrepr.py:96-110 [_core_particle_number]. *)
Definition core_particle_number (term : list row) (bases : list N) : res (list triple) :=
  match term with
  | r0 :: _ =>
      Ok (map (fun '(i, ket) => if (N.land ket (r_mask r0) =? 0)%N then miss else hit i i false)
              (enumerate bases))
  | _ => Err IndexError
  end.

(** matrixrepr.py:113-136 [_core_coulomb]. *)
Definition core_coulomb (term : list row) (bases : list N) : res (list triple) :=
  match term with
  | r0 :: _ :: r2 :: _ =>
      Ok (map (fun '(i, ket) =>
                 if negb (N.land ket (r_mask r0) =? 0)%N && negb (N.land ket (r_mask r2) =? 0)%N
                 then hit i i false else miss) (enumerate bases))
  | _ => Err IndexError
  end.

(** The [special_tag] / [classification] strings; any other string behaves as "general". *)
Inductive tag := Tgeneral | Thopping | Tnumber | TCoulomb.

(** matrixrepr.py:215-235: choice of the core function.  An empty term is a 1-D
    array, which no numba signature accepts (TypeError). *)
Definition core (t : tag) (rows : list row) (right_bases left_bases : list N) : res (list triple) :=
  match rows with
  | [] => Err TypeError
  | _ =>
    match t with
    | Thopping => core_hopping rows right_bases left_bases
    | Tnumber => core_particle_number rows right_bases
    | TCoulomb => core_coulomb rows right_bases
    | Tgeneral => core_general rows right_bases left_bases
    end
  end.

(** A scipy csr_matrix: its shape and its explicitly stored entries. *)
Record csr := MkCsr { nrows : nat; ncols : nat; stored : list (nat * nat * GQ) }.

Definition pos_eqb (p q : nat * nat) : bool := Nat.eqb (fst p) (fst q) && Nat.eqb (snd p) (snd q).

(** Adding a coordinate-format entry to the entries stored so far (duplicates are summed). *)
Fixpoint coo_add (p : nat * nat) (v : GQ) (l : list (nat * nat * GQ)) : list (nat * nat * GQ) :=
  match l with
  | [] => [(p, v)]
  | (q, w) :: r => if pos_eqb p q then (q, gadd w v) :: r else (q, w) :: coo_add p v r
  end.

(** scipy's [csr_matrix((data, (rows, cols)), shape)] followed by
    [eliminate_zeros()]; ValueError if an index exceeds the shape. *)
Definition csr_matrix (l : list (nat * nat * GQ)) (m n : nat) : res csr :=
  if forallb (fun e => Nat.ltb (fst (fst e)) m && Nat.ltb (snd (fst e)) n) l then
    Ok (MkCsr m n (filter (fun e => negb (geqb (snd e) g0))
                          (fold_left (fun acc e => coo_add (fst e) (snd e) acc) l [])))
  else Err ValueError.

(** The element [res[i, j]] of a csr matrix. *)
Fixpoint stored_at (i j : nat) (l : list (nat * nat * GQ)) : GQ :=
  match l with
  | [] => g0
  | (p, v) :: r => if pos_eqb (i, j) p then gadd v (stored_at i j r) else stored_at i j r
  end.
Definition entry (m : csr) (i j : nat) : GQ := stored_at i j (stored m).

Definition the_left (right_bases : list N) (left_bases : option (list N)) : list N :=
  match left_bases with None => right_bases | Some l => l end.

(** matrixrepr.py:207-235: the array [data]. *)
Definition matrix_data (term : list (Z * otype)) (right_bases : list N)
           (left_bases : option (list N)) (t : tag) : res (list triple) :=
  match make_term term with
  | Err e => Err e
  | Ok rows => core t rows right_bases (the_left right_bases left_bases)
  end.

(** [coeff * data[2]] with the positions. *)
Definition scale_data (coeff : GQ) (data : list triple) : list (nat * nat * GQ) :=
  map (fun '(r, c, v) => (r, c, gmul coeff (gz v))) data.

(** matrixrepr.py:139-243 [matrix_function] with [to_csr=True]. *)
Definition matrix_function (term : list (Z * otype)) (right_bases : list N)
           (left_bases : option (list N)) (coeff : GQ) (t : tag) : res csr :=
  match matrix_data term right_bases left_bases t with
  | Err e => Err e
  | Ok data => csr_matrix (scale_data coeff data)
                 (length (the_left right_bases left_bases)) (length right_bases)
  end.

(** matrixrepr.py:239-243: [to_csr=False], the (row, col, entry) triples. *)
Definition matrix_function_coo (term : list (Z * otype)) (right_bases : list N)
           (left_bases : option (list N)) (coeff : GQ) (t : tag) : res (list (nat * nat * GQ)) :=
  match matrix_data term right_bases left_bases t with
  | Err e => Err e
  | Ok data => Ok (scale_data coeff (filter (fun '(_, _, v) => negb (v =? 0)%Z) data))
  end.
