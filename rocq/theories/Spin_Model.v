(** Model of HamiltonianPy/quantumoperator/spinsystem.py, of the spin part of
    factory.py and of [TotalSpinMatrices] (averages.py, tools/TotalSpin.py).
    Coefficients and matrix elements are Gaussian rationals (GQ.v). *)
From Coq Require Import List ZArith Bool String Arith.
From Verif Require Import Py GQ Mat IndexTable_Model State_Model MatrixRepr_Model Particle_Model.
Import ListNotations.
Local Open Scope nat_scope.

(** ** scipy matrices: shape and elements (sparsity is not modelled). *)
Record smat := MkS { s_rows : nat; s_cols : nat; s_ent : mat }.
(** [scipy.sparse.identity(n)]. *)
Definition identity (n : nat) : smat := MkS n n (fun i j => if Nat.eqb i j then g1 else g0).
(** [scipy.sparse.kron(a, b)]: the block matrix with blocks a[i, j] * b. *)
Definition kron (a b : smat) : smat :=
  MkS (s_rows a * s_rows b) (s_cols a * s_cols b)
      (fun i j => gmul (s_ent a (i / s_rows b) (j / s_cols b)) (s_ent b (i mod s_rows b) (j mod s_cols b))).
(** [coeff * a]. *)
Definition scale (c : GQ) (a : smat) : smat := MkS (s_rows a) (s_cols a) (fun i j => gmul c (s_ent a i j)).
(** [a.dot(b)]; ValueError on a dimension mismatch. *)
Definition dot (a b : smat) : res smat :=
  if Nat.eqb (s_cols a) (s_rows b)
  then Ok (MkS (s_rows a) (s_cols b) (mmul (s_cols a) (s_ent a) (s_ent b)))
  else Err ValueError.
(** [a + b]; ValueError if the shapes differ. *)
Definition plus (a b : smat) : res smat :=
  if Nat.eqb (s_rows a) (s_rows b) && Nat.eqb (s_cols a) (s_cols b)
  then Ok (MkS (s_rows a) (s_cols a) (fun i j => gadd (s_ent a i j) (s_ent b i j)))
  else Err ValueError.
(** [1 << k]: ValueError (negative shift count) if k < 0. *)
Definition shl1 (k : Z) : res nat := if (k <? 0)%Z then Err ValueError else Ok (2 ^ Z.to_nat k)%nat.

(** ** Constants *)

(** constant.py:26-27 SPIN_OTYPES. *)
Inductive sotype := SX | SY | SZ | SP | SM.
Definition otype_name (o : sotype) : string :=
  match o with SX => "x" | SY => "y" | SZ => "z" | SP => "p" | SM => "m" end.
Definition otype_of_name (s : string) : option sotype :=
  if String.eqb s "x" then Some SX else if String.eqb s "y" then Some SY
  else if String.eqb s "z" then Some SZ else if String.eqb s "p" then Some SP
  else if String.eqb s "m" then Some SM else None.
(** A 2x2 array literal. *)
Definition mat2 (a b c d : GQ) : smat :=
  MkS 2 2 (fun i j => match i, j with
                      | O, O => a | O, S O => b | S O, O => c | S O, S O => d
                      | _, _ => g0 end).
Local Open Scope gq_scope.
(** constant.py:50-54 SPIN_X ... SPIN_M. *)
Definition SPIN_X := mat2 0 ghalf ghalf 0.
Definition SPIN_Y := scale gi (mat2 0 (- ghalf) ghalf 0).
Definition SPIN_Z := mat2 ghalf 0 0 (- ghalf).
Definition SPIN_P := mat2 0 1 0 0.
Definition SPIN_M := mat2 0 0 1 0.
(** constant.py:56-62 SPIN_MATRICES. *)
Definition SPIN_MATRIX (o : sotype) : smat :=
  match o with SX => SPIN_X | SY => SPIN_Y | SZ => SPIN_Z | SP => SPIN_P | SM => SPIN_M end.
(** [SPIN_MATRICES[otype]]: KeyError for an unknown key. *)
Definition SPIN_MATRICES (key : string) : res smat :=
  match otype_of_name key with Some o => Ok (SPIN_MATRIX o) | None => Err KeyError end.
Local Close Scope gq_scope.
Open Scope res_scope.

(** ** SpinOperator *)

(** spinsystem.py:78-84: the attributes. *)
Record spinop := MkSpin { so_otype : sotype; so_site : siteid }.

(** spinsystem.py:62-84 [SpinOperator.__init__]; [zoom] as in State_Model. *)
Definition make_spin (zoom : Z) (otype : string) (site : list pynum) : res spinop :=
  match otype_of_name otype with
  | None => Err AssertionError
  | Some o => s <- make_site zoom site ;; Ok (MkSpin o s)
  end.
(** spinsystem.py:84 [_tuple_form]; 213-218 [__hash__] hashes it. *)
Definition spin_form (x : spinop) : pv := VTup [VStr (otype_name (so_otype x)); site_form (so_site x)].
Definition spin_hash_key (x : spinop) : pv := spin_form x.
(** spinsystem.py:220-278: the six comparisons between two SpinOperators. *)
Definition spin_cmp (o : cop) (x y : spinop) : res bool := vcmp o (spin_form x) (spin_form y).
Definition spin_eq (x y : spinop) : bool := veq (spin_form x) (spin_form y).
Definition spin_ne (x y : spinop) : bool := negb (veq (spin_form x) (spin_form y)).

(** spinsystem.py:307-321 [matrix]. *)
Definition spin_matrix (x : spinop) : smat := SPIN_MATRIX (so_otype x).

(** spinsystem.py:360-377 [derive]; None = argument not given. *)
Definition spin_derive (zoom : Z) (x : spinop) (otype : option string) (site : option (list pynum)) : res spinop :=
  make_spin zoom (get otype (otype_name (so_otype x))) (get site (s_coord (so_site x))).

(** spinsystem.py:323-334 [dagger]. *)
Definition spin_dagger (zoom : Z) (x : spinop) : res spinop :=
  match so_otype x with
  | SP => spin_derive zoom x (Some "m"%string) None
  | SM => spin_derive zoom x (Some "p"%string) None
  | _ => Ok x
  end.

(** spinsystem.py:336-358 [conjugate_of], [same_site]; None = not a SpinOperator. *)
Definition spin_conjugate_of (zoom : Z) (x : spinop) (other : option spinop) : res bool :=
  match other with
  | Some y => d <- spin_dagger zoom x ;; Ok (spin_eq d y)
  | None => Err TypeError
  end.
Definition same_site (x : spinop) (other : option spinop) : res bool :=
  match other with
  | Some y => Ok (py_eq (LSite (so_site x)) (LSite (so_site y)))
  | None => Err TypeError
  end.

(** spinsystem.py:399-432 [SpinOperator.matrix_function]. *)
Definition spin_matrix_function (operator : Z * string) (total_spin : Z) : res smat :=
  let '(index, otype) := operator in
  d0 <- shl1 index ;;
  S <- SPIN_MATRICES otype ;;
  let res := kron S (identity d0) in
  d1 <- shl1 (total_spin - index - 1) ;;
  Ok (kron (identity d1) res).

(** [site_indices_table(site_id)]. *)
Definition site_index (t : state_table) (s : siteid) : res Z := query_index py_eq loc_isinst t (LSite s).

(** spinsystem.py:434-459 [SpinOperator.matrix_repr]. *)
Definition spin_matrix_repr (t : state_table) (x : spinop) : res smat :=
  i <- site_index t (so_site x) ;;
  spin_matrix_function (i, otype_name (so_otype x)) (len t).

(** spinsystem.py:379-397 [SpinOperator.Schwinger]; the AoC constructor's
    default orbit is 0 (particlesystem.py:77). *)
Definition schwinger_terms (S : smat) (c_up c_down a_up a_down : aoc) : res (list pterm) :=
  fold_left
    (fun (acc : res (list pterm)) '(row_index, row_aoc) =>
       fold_left
         (fun (acc : res (list pterm)) '(col_index, col_aoc) =>
            terms <- acc ;;
            let coeff := s_ent S row_index col_index in
            if negb (geqb coeff g0) then
              t <- make_pterm [row_aoc; col_aoc] (CNum coeff) (Some Tgeneral) ;; Ok (terms ++ [t])
            else Ok terms)
         [(0%nat, a_up); (1%nat, a_down)] acc)
    [(0%nat, c_up); (1%nat, c_down)] (Ok []).
Definition spin_schwinger (zoom : Z) (x : spinop) : res (list pterm) :=
  let coordinate := s_coord (so_site x) in
  c_up <- make_aoc zoom 1 coordinate (NInt 1) (NInt 0) ;;
  c_down <- make_aoc zoom 1 coordinate (NInt 0) (NInt 0) ;;
  a_up <- make_aoc zoom 0 coordinate (NInt 1) (NInt 0) ;;
  a_down <- make_aoc zoom 0 coordinate (NInt 0) (NInt 0) ;;
  schwinger_terms (spin_matrix x) c_up c_down a_up a_down.

(** ** SpinInteraction *)

(** spinsystem.py:509-512: the attributes. *)
Record sinter := MkInter { i_ops : list spinop; i_coeff : GQ }.

(** [sorted(l, key)] where [less y x] is the comparison [key(y) < key(x)]
    (with [reverse=True]: [key(x) < key(y)]): a stable sort, written as
    insertion sort (CPython's algorithm differs; every stable sort by a strict
    weak order returns this list). *)
Fixpoint insert_sorted {A} (less : A -> A -> bool) (x : A) (l : list A) : list A :=
  match l with
  | [] => [x]
  | y :: r => if less y x then y :: insert_sorted less x r else x :: y :: r
  end.
Definition stable_sort {A} (less : A -> A -> bool) (l : list A) : list A :=
  fold_right (insert_sorted less) [] l.

Definition is_true (r : res bool) : bool := match r with Ok true => true | _ => false end.
(** [item.site_id < other.site_id]; never raises between two SiteIDs. *)
Definition site_less (x y : spinop) : bool := is_true (py_cmp CLt (LSite (so_site x)) (LSite (so_site y))).

(** spinsystem.py:490-512 [SpinInteraction.__init__]. *)
Definition make_inter (operators : list spinop) (coeff : pycoeff) : res sinter :=
  match coeff with
  | CBad => Err AssertionError
  | CNum c => Ok (MkInter (stable_sort site_less operators) c)
  end.
(** spinsystem.py:522-525: the [coeff] setter. *)
Definition inter_set_coeff (t : sinter) (c : pycoeff) : res sinter :=
  match c with CNum c => Ok (MkInter (i_ops t) c) | CBad => Err AssertionError end.

(** Operands of [*]. *)
Inductive soperand := SOp (x : spinop) | SInter (t : sinter) | SScalar (c : GQ) | SForeign.

Definition as_operand (r : res sinter) : res soperand := t <- r ;; Ok (SInter t).
(** spinsystem.py:280-293 and 295-305 ([None] = NotImplemented). *)
Definition spin_mul (self : spinop) (other : soperand) : option (res soperand) :=
  match other with
  | SOp y => Some (as_operand (make_inter [self; y] (CNum g1)))
  | SScalar c => Some (as_operand (make_inter [self] (CNum c)))
  | _ => None
  end.
Definition spin_rmul (self : spinop) (other : soperand) : option (res soperand) :=
  match other with SScalar c => Some (as_operand (make_inter [self] (CNum c))) | _ => None end.
(** spinsystem.py:605-625 and 627-644. *)
Definition inter_mul (self : sinter) (other : soperand) : option (res soperand) :=
  match other with
  | SInter o => Some (as_operand (make_inter (i_ops self ++ i_ops o) (CNum (gmul (i_coeff self) (i_coeff o)))))
  | SOp x => Some (as_operand (make_inter (i_ops self ++ [x]) (CNum (i_coeff self))))
  | SScalar c => Some (as_operand (make_inter (i_ops self) (CNum (gmul (i_coeff self) c))))
  | SForeign => None
  end.
Definition inter_rmul (self : sinter) (other : soperand) : option (res soperand) :=
  match other with
  | SOp x => Some (as_operand (make_inter (x :: i_ops self) (CNum (i_coeff self))))
  | SScalar c => Some (as_operand (make_inter (i_ops self) (CNum (gmul c (i_coeff self)))))
  | _ => None
  end.
(** CPython's [x * y] (no class here is a subclass of another). *)
Definition spin_py_mul (x y : soperand) : res soperand :=
  let mul := match x with
             | SOp a => spin_mul a y
             | SInter t => inter_mul t y
             | SScalar c => match y with SScalar d => Some (Ok (SScalar (gmul c d))) | _ => None end
             | SForeign => None
             end in
  match mul with
  | Some r => r
  | None =>
      let rmul := match x, y with
                  | SOp _, SOp _ | SInter _, SInter _ => None
                  | _, SOp b => spin_rmul b x
                  | _, SInter t => inter_rmul t x
                  | _, _ => None
                  end in
      match rmul with Some r => r | None => Err TypeError end
  end.

(** spinsystem.py:646-652 [dagger]. *)
Definition inter_dagger (zoom : Z) (t : sinter) : res sinter :=
  ops <- mapM (spin_dagger zoom) (rev (i_ops t)) ;;
  make_inter ops (CNum (gconj (i_coeff t))).

(** itertools.product of the lists: the last factor varies fastest. *)
Fixpoint cartesian {A} (ls : list (list A)) : list (list A) :=
  match ls with
  | [] => [[]]
  | l :: r => flat_map (fun x => map (cons x) (cartesian r)) l
  end.
(** spinsystem.py:654-666 [SpinInteraction.Schwinger]: the elements are
    ParticleTerms (numbers if the interaction has no operator). *)
Definition inter_schwinger (zoom : Z) (t : sinter) : res (list operand) :=
  fermion_reprs <- mapM (spin_schwinger zoom) (i_ops t) ;;
  mapM (fun term : list pterm =>
          fold_left (fun (acc : res operand) sub_term => a <- acc ;; py_mul zoom a (OTerm sub_term))
                    term (Ok (OScalar (i_coeff t))))
       (cartesian fermion_reprs).

(** spinsystem.py:717-725: one factor of the generic path. *)
Definition single (operator : Z * string) (total_spin : Z) : res smat :=
  let '(index, otype) := operator in
  d0 <- shl1 index ;;
  S <- SPIN_MATRICES otype ;;
  let tmp := kron S (identity d0) in
  d1 <- shl1 (total_spin - index - 1) ;;
  Ok (kron (identity d1) tmp).

Definition index_greater (x y : Z * string) : bool := (fst y <? fst x)%Z.

(** spinsystem.py:668-726 [SpinInteraction.matrix_function].  [total_spin] is a
    Python number ([NFlt]/[NOther] are not ints). *)
Definition inter_matrix_function (operators : list (Z * string)) (total_spin : pynum) (coeff : pycoeff) : res smat :=
  match total_spin with
  | NInt n =>
    if (0 <? n)%Z then
      match coeff with
      | CBad => Err AssertionError
      | CNum c =>
        let operators := stable_sort index_greater operators in
        let generic :=
          fold_left (fun (acc : res smat) op => r <- acc ;; m <- single op n ;; dot r m)
                    operators (d <- shl1 n ;; Ok (scale c (identity d))) in
        match operators with
        | [(i, alpha); (j, beta)] =>
            if (j <? i)%Z then
              Si <- SPIN_MATRICES alpha ;;
              let Si := scale c Si in
              Sj <- SPIN_MATRICES beta ;;
              dim0 <- shl1 j ;;
              dim1 <- shl1 (i - j - 1) ;;
              dim2 <- shl1 (n - i - 1) ;;
              let r := if Nat.eqb dim1 1 then kron Si Sj else kron Si (kron (identity dim1) Sj) in
              let r := if Nat.eqb dim0 1 then r else kron r (identity dim0) in
              Ok (if Nat.eqb dim2 1 then r else kron (identity dim2) r)
            else generic
        | _ => generic
        end
      end
    else Err AssertionError
  | _ => Err AssertionError
  end.

(** spinsystem.py:728-755 [SpinInteraction.matrix_repr]: the result and the
    interaction afterwards. *)
Definition inter_matrix_repr (tbl : state_table) (t : sinter) (coeff : option pycoeff) : res smat * sinter :=
  let '(err, t') := match coeff with
                    | None => (None, t)
                    | Some c => match inter_set_coeff t c with
                                | Ok t' => (None, t')
                                | Err e => (Some e, t)
                                end
                    end in
  match err with
  | Some e => (Err e, t)
  | None =>
      (operators <- mapM (fun x => i <- site_index tbl (so_site x) ;; Ok (i, otype_name (so_otype x))) (i_ops t') ;;
       inter_matrix_function operators (NInt (len tbl)) (CNum (i_coeff t')), t')
  end.

(** Histories of one SpinInteraction object. *)
Inductive inter_call :=
| ISetCoeff (c : pycoeff)
| IMatrixRepr (tbl : state_table) (c : option pycoeff).
Definition do_icall (t : sinter) (k : inter_call) : option (res smat) * sinter :=
  match k with
  | ISetCoeff c => match inter_set_coeff t c with Ok t' => (None, t') | Err e => (Some (Err e), t) end
  | IMatrixRepr tbl c => let '(r, t') := inter_matrix_repr tbl t c in (Some r, t')
  end.
Fixpoint do_icalls (t : sinter) (ks : list inter_call) : list (option (res smat)) * sinter :=
  match ks with
  | [] => ([], t)
  | k :: r => let '(o, t') := do_icall t k in
              let '(os, t'') := do_icalls t' r in (o :: os, t'')
  end.

(** ** Factories (factory.py) *)

Definition half_coeff (c : pycoeff) : pycoeff := match c with CNum z => CNum (gmul z ghalf) | CBad => CBad end.
(** factory.py:344-398. *)
Definition HeisenbergFactory (zoom : Z) (site0 site1 : list pynum) (coeff : pycoeff) : res (list sinter) :=
  sz0 <- make_spin zoom "z" site0 ;;
  sp0 <- make_spin zoom "p" site0 ;;
  sm0 <- make_spin zoom "m" site0 ;;
  sz1 <- make_spin zoom "z" site1 ;;
  sp1 <- make_spin zoom "p" site1 ;;
  sm1 <- make_spin zoom "m" site1 ;;
  t0 <- make_inter [sz0; sz1] coeff ;;
  t1 <- make_inter [sp0; sm1] (half_coeff coeff) ;;
  t2 <- make_inter [sm0; sp1] (half_coeff coeff) ;;
  Ok [t0; t1; t2].
Definition is_xyz (s : string) : bool := String.eqb s "x" || String.eqb s "y" || String.eqb s "z".
(** factory.py:401-439. *)
Definition IsingFactory (zoom : Z) (site0 site1 : list pynum) (alpha : string) (coeff : pycoeff) : res sinter :=
  if is_xyz alpha then
    s0 <- make_spin zoom alpha site0 ;;
    s1 <- make_spin zoom alpha site1 ;;
    make_inter [s0; s1] coeff
  else Err AssertionError.
(** factory.py:442-482. *)
Definition TwoSpinTermFactory (zoom : Z) (site0 site1 : list pynum) (alpha0 alpha1 : string) (coeff : pycoeff) : res sinter :=
  if is_xyz alpha0 then
    if is_xyz alpha1 then
      s0 <- make_spin zoom alpha0 site0 ;;
      s1 <- make_spin zoom alpha1 site1 ;;
      make_inter [s0; s1] coeff
    else Err AssertionError
  else Err AssertionError.

(** ** Total spin *)

(** averages.py:20-24, tools/TotalSpin.py:15-19. *)
Definition SX_MATRIX := mat2 g0 ghalf ghalf g0.
Definition SY_MATRIX_IMAG := mat2 g0 (gopp ghalf) ghalf g0.
Definition SZ_MATRIX := mat2 ghalf g0 g0 (gopp ghalf).
(** [total += m] where [total] is a matrix, or still the float 0.0 ([None]). *)
Definition accum (total : option smat) (m : smat) : res (option smat) :=
  match total with
  | None => Ok (Some m)
  | Some t => r <- plus t m ;; Ok (Some r)
  end.
(** averages.py:77-82: the body of the loop for one of the three matrices. *)
Definition total_of (S : smat) (spin_num : Z) : res (option smat) :=
  fold_left (fun (acc : res (option smat)) index =>
               total <- acc ;;
               d0 <- shl1 index ;;
               d1 <- shl1 (spin_num - index - 1) ;;
               accum total (kron (identity d1) (kron S (identity d0))))
            (map Z.of_nat (seq 0 (Z.to_nat spin_num))) (Ok None).
(** averages.py:51-89 [TotalSpinMatrices], tools/TotalSpin.py:22-53 [TotalSpin]
    (the same code); the three accumulations are independent of each other and
    are written as three loops. *)
Definition TotalSpinMatrices (spin_num : pynum) : res (option smat * option smat * option smat) :=
  match spin_num with
  | NInt n =>
      if (0 <? n)%Z then
        sx <- total_of SX_MATRIX n ;;
        sy <- total_of SY_MATRIX_IMAG n ;;
        sz <- total_of SZ_MATRIX n ;;
        Ok (sx, sy, sz)
      else Err AssertionError
  | _ => Err AssertionError
  end.
