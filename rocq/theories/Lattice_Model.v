(** Model of HamiltonianPy/lattice/lattice.py: set_float_point_precision and the
    class Lattice (plotting is left out), on real numbers (float rounding is not
    modelled).

    Arrays.  The space dimension is at most 3 (the constructor rejects more), so a
    row of m <= 3 numbers is represented by its three coordinates, the missing
    ones being 0; the number of columns of an array is kept beside its rows.
    Every quantity below (distances, scalar products, sums) is the same for a row
    and for its extension by zeros. *)
From Coq Require Import List Reals ZArith Bool Arith.
From Coquelicot Require Import Complex.
From Flocq Require Import Core.Generic_fmt Core.Round_NE.
From Verif Require Import Py CVec LinSolve Line2D_Model.
Import ListNotations.
Open Scope R_scope.
Local Open Scope res_scope.

Definition point : Type := R * R * R.
Definition v0 : point := (0, 0, 0).
Definition vadd (u v : point) : point := let '(x, y, z) := u in let '(x', y', z') := v in (x + x', y + y', z + z').
Definition vsub (u v : point) : point := let '(x, y, z) := u in let '(x', y', z') := v in (x - x', y - y', z - z').
Definition vscale (k : R) (u : point) : point := let '(x, y, z) := u in (k * x, k * y, k * z).
Definition vdot (u v : point) : R := let '(x, y, z) := u in let '(x', y', z') := v in x * x' + y * y' + z * z'.
(** np.linalg.norm *)
Definition norm (u : point) : R := sqrt (vdot u u).
(** the distance used by pdist, cdist and cKDTree *)
Definition dist (u v : point) : R := norm (vsub u v).
Definition coord (c : nat) (u : point) : R := let '(x, y, z) := u in match c with O => x | 1%nat => y | _ => z end.

(** lattice.py:24-49: precision -> _ZOOM, _VIEW_AS_ZERO *)
Definition zoom (precision : nat) : R := 10 ^ precision.
Definition view (precision : nat) : R := / 10 ^ precision.

(** An argument that should be a two-dimensional array. *)
Inductive array_arg := Arr (cols : nat) (rows : list point) | NotArr2.
(** An argument that should be a one-dimensional array. *)
Inductive site_arg := Site (len : nat) (coords : point) | NotSite.
(** An argument that should be an int. *)
Inductive int_arg := AnInt (n : Z) | NotInt.

(** scipy pdist: distances of all pairs i < j *)
Fixpoint pdist (ps : list point) : list R :=
  match ps with [] => [] | p :: r => map (dist p) r ++ pdist r end.
(** np.rint (ties to even) *)
Definition rint (x : R) : Z := ZnearestE x.
(** np.unique on integers: increasing, without repetition *)
Fixpoint zinsert (x : Z) (l : list Z) : list Z :=
  match l with
  | [] => [x]
  | y :: r => if (x <? y)%Z then x :: l else if (x =? y)%Z then l else y :: zinsert x r
  end.
Definition zunique (l : list Z) : list Z := fold_right zinsert [] l.
(** np.insert(np.unique(np.rint(pdist(sites) * _ZOOM)) / _ZOOM, 0, 0.0) *)
Definition all_distances (prec : nat) (sites : list point) : list R :=
  0 :: map (fun k => IZR k / zoom prec) (zunique (map (fun d => rint (d * zoom prec)) (pdist sites))).

(** The instance, without the cache _all_distances, which is passed separately.
    The cache _dRsDataBase only stores a function of the vectors, which cannot
    change (the properties return copies), so it is not modelled as state. *)
Record lattice := MkLattice { space_dim : nat; points : list point; vectors : list point; bs : list point }.

(** np.matmul(vectors, vectors.T) *)
Definition gram (vs : list point) : cmat := fun i j => RtoC (vdot (nth i vs v0) (nth j vs v0)).
(** 2 * np.pi * np.linalg.solve(gram, vectors), column by column; LinSolve.solve
    works on complex numbers, the real parts are taken. *)
Definition solve_columns (vs : list point) : res (list point) :=
  x <- solve (List.length vs) (gram vs) (fun i => RtoC (coord 0 (nth i vs v0))) ;;
  y <- solve (List.length vs) (gram vs) (fun i => RtoC (coord 1 (nth i vs v0))) ;;
  z <- solve (List.length vs) (gram vs) (fun i => RtoC (coord 2 (nth i vs v0))) ;;
  Ok (map (fun i => vscale (2 * PI) (Re (x i), Re (y i), Re (z i))) (seq 0 (List.length vs))).

(** Lattice.__init__, lattice.py:78-145: the instance and its _all_distances. *)
Definition make_lattice (prec : nat) (pts vecs : array_arg) : res (lattice * list R) :=
  match pts, vecs with
  | Arr dim ps, Arr tmp vs =>
      if Nat.ltb 3 dim then Err ValueError
      else if Nat.ltb dim (List.length vs) then Err ValueError
      else if negb (Nat.eqb tmp dim) then Err ValueError
      else if existsb (fun d => Rltb d (view prec)) (pdist vs) then Err ValueError
      else if existsb (fun d => Rltb d (view prec)) (pdist ps) then Err ValueError
      else
        b <- solve_columns vs ;;
        Ok (MkLattice dim ps vs b, all_distances prec ps)
  | _, _ => Err AssertionError
  end.

(** range(lo, hi) *)
Definition zrange (lo hi : Z) : list Z := map (fun i => (lo + Z.of_nat i)%Z) (seq 0 (Z.to_nat (hi - lo))).
(** itertools.product(rs, repeat=k) *)
Fixpoint product (rs : list Z) (k : nat) : list (list Z) :=
  match k with O => [[]] | S k' => flat_map (fun x => map (cons x) (product rs k')) rs end.
Fixpoint zs_eqb (a b : list Z) : bool :=
  match a, b with
  | [], [] => true
  | x :: a', y :: b' => (x =? y)%Z && zs_eqb a' b'
  | _, _ => false
  end.
(** one row of np.matmul(mesh, self._vectors) *)
Fixpoint comb (ns : list Z) (vs : list point) : point :=
  match ns, vs with n :: ns', v :: vs' => vadd (vscale (IZR n) v) (comb ns' vs') | _, _ => v0 end.

Section Methods.
  Variable L : lattice.
  Let k := List.length (vectors L).

  (** getSite, lattice.py:249-266 *)
  Definition getSite (index : int_arg) : res point :=
    match index with
    | AnInt i => if (0 <=? i)%Z && (i <? Z.of_nat (List.length (points L)))%Z
                 then Ok (nth (Z.to_nat i) (points L) v0) else Err AssertionError
    | NotInt => Err AssertionError
    end.

  (** _guess_scope, lattice.py:268-285.  The order in which the difference of the
      two sets is listed does not matter, since only a minimum is taken. *)
  Definition layer (scope : Z) : list (list Z) :=
    let inner_mesh := product (zrange (- scope) (scope + 1)) k in
    let outer_mesh := product (zrange (- scope - 1) (scope + 2)) k in
    filter (fun c => negb (existsb (zs_eqb c) inner_mesh)) outer_mesh.
  (** np.min(cdist(edge_points, self._points)); without translation vectors the
      array edge_dRs has one axis only (IndexError), and the minimum of nothing
      raises ValueError. *)
  Definition edge_min (scope : Z) : res R :=
    match layer scope with
    | [] => Err IndexError
    | c :: cs =>
        let edge_points := flat_map (fun c => map (vadd (comb c (vectors L))) (points L)) (c :: cs) in
        match flat_map (fun e => map (dist e) (points L)) edge_points with
        | [] => Err ValueError
        | x :: l => Ok (fold_left Rmin l x)
        end
    end.
  (** The while loop; None: still running after [fuel] rounds. *)
  Fixpoint guess_loop (fuel : nat) (ref_distance : R) (scope : Z) : option (res Z) :=
    match fuel with
    | O => None
    | S fuel' =>
        match edge_min scope with
        | Err e => Some (Err e)
        | Ok m => if Rltb ref_distance m then Some (Ok scope) else guess_loop fuel' ref_distance (scope + 1)
        end
    end.
  Definition guess_scope (fuel : nat) (ref_distance : R) : option (res Z) := guess_loop fuel ref_distance (-1).

  (** cKDTree(database).query(x)[0] < _VIEW_AS_ZERO: some element is nearer than that *)
  Definition near (prec : nat) (database : list point) (x : point) : bool :=
    existsb (fun d => Rltb (dist d x) (view prec)) database.
  (** _searching, lattice.py:287-293 *)
  Definition searching (prec : nat) (database displaces : list point) : option (point * point) :=
    match filter (fun i => near prec database (nth i displaces v0)) (seq 0 (List.length displaces)) with
    | [index] => Some (nth index (points L) v0, nth index displaces v0)
    | _ => None
    end.
  (** cKDTree(np.matmul(list(mesh), self._vectors)) *)
  Definition database (rs : list Z) : list point := map (fun c => comb c (vectors L)) (product rs k).
  (** np.max of a list of norms; ValueError if there are none *)
  Definition max_list (l : list R) : res R := match l with [] => Err ValueError | x :: r => Ok (fold_left Rmax r x) end.

  (** decompose, lattice.py:295-348 *)
  Definition decompose (fuel prec : nat) (site : site_arg) : option (res (point * point)) :=
    match site with
    | NotSite => Some (Err AssertionError)
    | Site len s =>
        if negb (Nat.eqb len (space_dim L)) then Some (Err AssertionError)
        else
          let all_displaces := map (vsub s) (points L) in
          match searching prec (database [-1; 0; 1]%Z) all_displaces with
          | Some r => Some (Ok r)
          | None =>
              match max_list (map norm all_displaces) with
              | Err e => Some (Err e)
              | Ok ref =>
                  match guess_scope fuel ref with
                  | None => None
                  | Some (Err e) => Some (Err e)
                  | Some (Ok scope) =>
                      match searching prec (database (zrange (- scope) (scope + 1))) all_displaces with
                      | Some r => Some (Ok r)
                      | None => Some (Err RuntimeError)
                      end
                  end
              end
          end
    end.

  (** cKDTree(self._points).query(site): which of several nearest points is found
      is not specified by scipy; [nearest] stands for its choice (an index). *)
  Variable nearest : list point -> point -> nat.
  (** getIndex, lattice.py:215-247 *)
  Definition getIndex (fuel prec : nat) (site : site_arg) (fold : bool) : option (res Z) :=
    match site with
    | NotSite => Some (Err AssertionError)
    | Site len s =>
        if negb (Nat.eqb len (space_dim L)) then Some (Err AssertionError)
        else
          match (if fold then match decompose fuel prec (Site len s) with
                              | None => None
                              | Some (Err e) => Some (Err e)
                              | Some (Ok (p, _)) => Some (Ok p)
                              end
                 else Some (Ok s)) with
          | None => None
          | Some (Err e) => Some (Err e)
          | Some (Ok s') =>
              match points L with
              | [] => Some (Err KeyError)
              | _ => let index := nearest (points L) s' in
                     if Rltb (dist (nth index (points L) v0) s') (view prec) then Some (Ok (Z.of_nat index)) else Some (Err KeyError)
              end
          end
    end.
  (** in_cluster, lattice.py:512-531 *)
  Definition in_cluster (prec : nat) (site : site_arg) : res bool :=
    match getIndex 0 prec site false with
    | Some (Ok _) => Ok true
    | Some (Err KeyError) => Ok false
    | Some (Err e) => Err e
    | None => Err RuntimeError
    end.

  (** _sites_factory, lattice.py:402-418; [ord] is the order in which the set of
      translations is listed. *)
  Variable ord : list (list Z) -> list (list Z).
  Definition translations (scope : Z) (no_inversion : bool) : list (list Z) :=
    let mesh := product (zrange (- scope) (scope + 1)) k in
    let kept := if no_inversion
                then fold_left (fun kept config => if existsb (zs_eqb (map Z.opp config)) kept then kept else kept ++ [config]) mesh []
                else mesh in
    filter (fun c => negb (zs_eqb c (repeat 0%Z k))) kept.
  Definition sites_factory (scope : Z) (no_inversion : bool) : list point :=
    flat_map (fun c => map (vadd (comb c (vectors L))) (points L)) (repeat 0%Z k :: ord (translations scope no_inversion)).

  (** neighbor_distance, lattice.py:420-447, and the new _all_distances. *)
  Definition neighbor_distance (prec : nat) (dists : list R) (nth_ : int_arg) : res R * list R :=
    match nth_ with
    | NotInt => (Err AssertionError, dists)
    | AnInt n =>
        if (n <? 0)%Z then (Err AssertionError, dists)
        else match nth_error dists (Z.to_nat n) with
             | Some d => (Ok d, dists)
             | None =>
                 let dists' := all_distances prec (sites_factory n false) in
                 (match nth_error dists' (Z.to_nat n) with Some d => Ok d | None => Err IndexError end, dists')
             end
    end.

  (** cKDTree(sites).query_pairs(r): all index pairs i < j within distance r *)
  Definition query_pairs (sites : list point) (r : R) : list (nat * nat) :=
    filter (fun ij => Rleb (dist (nth (fst ij) sites v0) (nth (snd ij) sites v0)) r)
      (flat_map (fun i => map (pair i) (seq (S i) (List.length sites - S i))) (seq 0 (List.length sites))).
  Definition pair_eqb (a b : nat * nat) : bool := Nat.eqb (fst a) (fst b) && Nat.eqb (snd a) (snd b).
  (** [pord] is the order in which the set of pairs is listed. *)
  Variable pord : list (nat * nat) -> list (nat * nat).
  (** The loop at the end of bonds, lattice.py:496-510; a bond is the pair of its
      endpoints (Bond(p0, p1, directional=True) is modelled in Bond_Model). *)
  Fixpoint bond_loop (fuel prec : nat) (fold : bool) (sites : list point) (pairs : list (nat * nat))
    (intra inter : list (point * point)) : option (res (list (point * point) * list (point * point))) :=
    match pairs with
    | [] => Some (Ok (intra, inter))
    | (index0, index1) :: rest =>
        let p0 := nth index0 sites v0 in
        let p1 := nth index1 sites v0 in
        if Nat.ltb index1 (List.length (points L)) then bond_loop fuel prec fold sites rest (intra ++ [(p0, p1)]) inter
        else if Nat.ltb index0 (List.length (points L)) then
          match decompose fuel prec (Site (space_dim L) p1) with
          | None => None
          | Some (Err e) => Some (Err e)
          | Some (Ok (p1_eqv, _)) => bond_loop fuel prec fold sites rest intra (inter ++ [if fold then (p0, p1_eqv) else (p0, p1)])
          end
        else bond_loop fuel prec fold sites rest intra inter
    end.
  (** bonds, lattice.py:449-510: the result and the new _all_distances. *)
  Definition bonds (fuel prec : nat) (dists : list R) (nth_ : int_arg) (only fold : bool)
    : option (res (list (point * point) * option (list (point * point)))) * list R :=
    match nth_ with
    | NotInt => (Some (Err AssertionError), dists)
    | AnInt n =>
        if (n <? 0)%Z then (Some (Err AssertionError), dists)
        else if (n =? 0)%Z then (Some (Ok (map (fun p => (p, p)) (points L), None)), dists)
        else
          match neighbor_distance prec dists (AnInt n) with
          | (Err e, dists1) => (Some (Err e), dists1)
          | (Ok judge, dists1) =>
              match guess_scope fuel judge with
              | None => (None, dists1)
              | Some (Err e) => (Some (Err e), dists1)
              | Some (Ok scope) =>
                  let sites := sites_factory scope true in
                  let pairs_outer := query_pairs sites (judge + view prec) in
                  match (if only && (1 <? n)%Z then
                           match neighbor_distance prec dists1 (AnInt (n - 1)) with
                           | (Err e, d) => (Err e, d)
                           | (Ok judge', d) => (Ok (query_pairs sites (judge' + view prec)), d)
                           end
                         else (Ok [], dists1)) with
                  | (Err e, dists2) => (Some (Err e), dists2)
                  | (Ok pairs_inner, dists2) =>
                      let pairs := pord (filter (fun ij => negb (existsb (pair_eqb ij) pairs_inner)) pairs_outer) in
                      (match bond_loop fuel prec fold sites pairs [] [] with
                       | None => None
                       | Some (Err e) => Some (Err e)
                       | Some (Ok (intra, inter)) => Some (Ok (intra, Some inter))
                       end, dists2)
                  end
              end
          end
    end.
End Methods.

(** set_float_point_precision, lattice.py:29-49: the new precision. *)
Definition set_float_point_precision (precision : int_arg) : res nat :=
  match precision with
  | AnInt n => if (0 <=? n)%Z then Ok (Z.to_nat n) else Err AssertionError
  | NotInt => Err AssertionError
  end.
