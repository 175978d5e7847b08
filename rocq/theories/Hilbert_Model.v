(** Model of HamiltonianPy/hilbertspace.py. *)
From Coq Require Import List ZArith NArith QArith Bool Arith.
From Verif Require Import Py.
Import ListNotations.
Open Scope Z_scope.
Open Scope res_scope.

(** A Python argument: int (bool included), finite float (as the rational it
    denotes), tuple, list, set (its items in iteration order) or anything else
    that cannot be ordered against an int.  numpy scalars, nan and infinities
    are not modelled. *)
Inductive pyv := PInt (z : Z) | PFlt (q : Q) | PTup (l : list pyv) | PList (l : list pyv) | PSet (l : list pyv) | POther.

(** hilbertspace.py:62-81 [is_valid_states_collection]; on True also returns the
    states as a tuple of naturals ([tuple(states)]). *)
Definition nonneg_ints (l : list pyv) : option (list N) :=
  fold_right (fun v acc => match v, acc with
                           | PInt z, Some r => if 0 <=? z then Some (Z.to_N z :: r) else None
                           | _, _ => None
                           end) (Some []) l.
Definition valid_states_collection (v : pyv) : option (list N) :=
  match v with
  | PTup l | PList l | PSet l => match l with [] => None | _ => nonneg_ints l end
  | _ => None
  end.

(** The second item of a standard specifier: the tests [states >= p_num] let
    an int or a float pass. *)
Inductive pnum := NumI (z : Z) | NumF (q : Q).
(** [n >= p_num]: TypeError if not a number. *)
Definition ge_pnum (n : Z) (p : pyv) : res (option pnum) :=
  match p with
  | PInt z => Ok (if z <=? n then Some (NumI z) else None)
  | PFlt q => Ok (if Qle_bool q (inject_Z n) then Some (NumF q) else None)
  | _ => Err TypeError
  end.

(** [tuple(range(n))]. *)
Definition range_states (n : Z) : list N := map N.of_nat (seq 0 (Z.to_nat n)).

(** hilbertspace.py:109-145 [subspace_specifier_preprocess]. *)
Definition pair_preprocess (states p_num : pyv) : res (list N * pnum) :=
  match states with
  | PInt n =>
      if 0 <? n then
        match ge_pnum n p_num with
        | Err e => Err e
        | Ok (Some p) => Ok (range_states n, p)
        | Ok None => Err ValueError
        end
      else Err ValueError
  | _ => match valid_states_collection states with
         | None => Err ValueError
         | Some l => match ge_pnum (Z.of_nat (length l)) p_num with
                     | Err e => Err e
                     | Ok (Some p) => Ok (l, p)
                     | Ok None => Err ValueError
                     end
         end
  end.
Definition preprocess (specifier : pyv) : res (list N * pnum) :=
  match specifier with
  | PInt n => if 0 <? n then Ok (range_states n, NumI (-1)) else Err ValueError
  | PTup [states; p_num] | PList [states; p_num] => pair_preprocess states p_num
  | _ => Err ValueError
  end.

(** itertools.combinations: the r-element sub-tuples in lexicographic order of
    positions. *)
Fixpoint combs {A} (l : list A) (k : nat) : list (list A) :=
  match k with
  | O => [[]]
  | S k' => match l with
            | [] => []
            | x :: r => map (cons x) (combs r k') ++ combs r k
            end
  end.
(** itertools.product of lists: the last factor varies fastest. *)
Fixpoint prod {A} (ls : list (list A)) : list (list A) :=
  match ls with
  | [] => [[]]
  | l :: r => flat_map (fun x => map (cons x) (prod r)) l
  end.

(** hilbertspace.py:290-298, 461-465, 544-548: the combinations of one subspace;
    [combinations(states, p)] raises TypeError for a float p. *)
Definition subspace_bases (states : list N) (p : pnum) : res (list (list N)) :=
  let all := flat_map (combs states) (seq 0 (length states + 1)) in
  match p with
  | NumI z => Ok (if z <? 0 then all else combs states (Z.to_nat z))
  | NumF q => if Qle_bool 0 q then Err TypeError else Ok all
  end.

(** [sum(1 << pos for pos in basis)]. *)
Definition ket_of (basis : list N) : N := fold_left (fun s pos => (s + N.shiftl 1 pos)%N) basis 0%N.

(** [kets.sort()]: insertion sort (the sorted list of ints is unique). *)
Fixpoint insert_n (x : N) (l : list N) : list N :=
  match l with [] => [x] | y :: r => if (x <=? y)%N then x :: l else y :: insert_n x r end.
Definition sort_n (l : list N) : list N := fold_right insert_n [] l.

Inductive container := CList | CTuple | CArray | CBadContainer.
Inductive kets := KList (l : list N) | KTuple (l : list N) | KArray (l : list N).
(** hilbertspace.py:300-306 = 471-477 = 554-560; np.array(.., dtype=uint64)
    raises OverflowError for an item of 2^64 or more. *)
Definition finish (ks : list N) (c : container) (sort : bool) : res kets :=
  let ks := if sort then sort_n ks else ks in
  match c with
  | CArray => if forallb (fun k => (k <? 2 ^ 64)%N) ks then Ok (KArray ks) else Err OverflowError
  | CTuple => Ok (KTuple ks)
  | _ => Ok (KList ks)
  end.
Definition check_container (c : container) : res unit :=
  match c with CBadContainer => Err AssertionError | _ => Ok tt end.

(** ** SimpleHilbertSpace (hilbertspace.py:182-311) *)
Record simple_space := MkSimple { ss_states : list N; ss_number : Z }.
Definition make_simple (states number : pyv) : res simple_space :=
  match (match states with
         | PInt n => if 0 <? n then Some (range_states n) else None
         | _ => valid_states_collection states
         end) with
  | None => Err ValueError
  | Some l => match number with
              | PInt z => if Z.of_nat (length l) <? z then Err ValueError else Ok (MkSimple l z)
              | _ => Err ValueError
              end
  end.
Definition simple_base_vectors (s : simple_space) (c : container) (sort : bool) : res kets :=
  _ <- check_container c ;;
  basis <- subspace_bases (ss_states s) (NumI (ss_number s)) ;;
  finish (map ket_of basis) c sort.

(** ** HilbertSpace (hilbertspace.py:369-478) *)
Definition disjoint_states (a b : list N) : bool :=
  forallb (fun x => negb (existsb (N.eqb x) b)) a.
(** [all(... for s0, s1 in combinations(specifiers, 2))]. *)
Fixpoint all_disjoint (l : list (list N)) : bool :=
  match l with [] => true | x :: r => forallb (disjoint_states x) r && all_disjoint r end.
Definition space := list (list N * pnum).
Definition make_space (specifiers : list pyv) : res space :=
  specs <- mapM preprocess specifiers ;;
  if all_disjoint (map fst specs) then Ok specs else Err ValueError.
Definition space_base_vectors (specs : space) (c : container) (sort : bool) : res kets :=
  _ <- check_container c ;;
  gens <- mapM (fun s => subspace_bases (fst s) (snd s)) specs ;;
  finish (map (fun basis => ket_of (concat basis)) (prod gens)) c sort.

(** ** base_vectors (hilbertspace.py:481-562) *)
Definition base_vectors (specifiers : list pyv) (c : container) (sort : bool) : res kets :=
  _ <- check_container c ;;
  specs <- mapM preprocess specifiers ;;
  if all_disjoint (map fst specs) then
    gens <- mapM (fun s => subspace_bases (fst s) (snd s)) specs ;;
    finish (map (fun basis => ket_of (concat basis)) (prod gens)) c sort
  else Err ValueError.
