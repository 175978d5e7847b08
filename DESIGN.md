# Formal model of HamiltonianPy in Rocq (Coq 8.16.1)

## 1. Layout

`rocq/theories/` holds, per area of the code base,

* `X_Model.v`      – the model: Gallina definitions only, every one citing the file and lines of /repo;
* `X_Spec.v`       – small, independent specification vocabulary (no proofs; does not use the model's helpers,
  only its data types and the vocabulary of the code: a point, a matrix, an operator);
* `X_Proofs*.v`    – lemmas;
* `X_Properties.v` – the theorems `Cxx_*` of `MANIFEST.json`, each followed by `Print Assumptions`, and the
  non-vacuity `Example`s (a concrete case meeting the hypotheses).

Shared: `Py.v` (results and exceptions as values), `GQ.v` (Gaussian rationals), `CVec.v`, `Mat.v` (vectors and matrices
as entry functions), `LinSolve.v` (`np.linalg.solve`), `Float64_Model/Proofs.v` (binary64), `Fock_Spec/Proofs.v`
(fermionic Fock space, the reference semantics of C08-C18, C27).

`properties.jsonl` lists the properties (generated by `tools/gen_properties.py`), `MANIFEST.json` the theorems
(generated by `tools/gen_manifest.py` from the `*_Properties.v` files and `tools/status.py`), `ASSUMPTIONS.md` the
axioms of each theorem (generated by `tools/gen_assumptions.py`), `seeded/LOG.jsonl` the wrong programs the theorems
were tested against (`tools/mutate.py`: edit one model definition in a scratch copy, rebuild, list the theorems
that no longer go through). `seeded/SCREEN.jsonl` is a mechanical screen (`tools/automutate.py`: random operator,
constant, branch and exception changes in every definition); its survivors were looked at one by one, and either are
equivalent programs or led to new theorems (see LOG.jsonl).

## 2. Modelling conventions

* A Python function that may raise returns `res A = Ok a | Err exn`. A mutation returns the new state; a history is a
  list of operations folded over the state.
* Python `int` is `Z`/`N`; `np.uint64` arrays are `list N` with the conversion failure (`OverflowError`) written out.
* Coefficients of operator terms are Gaussian rationals (pairs of `Qc`): every finite binary64 value is such a
  number; *rounding of the floating-point operations is not modelled* in the operator-algebra part.
* Continuous mathematics (rotations, Lanczos, averages, Green functions, lattices, geometry) is over Coq's `R` and
  pairs of reals (Coquelicot's `C`): exact arithmetic; the standard library's axioms of the reals appear in
  `Print Assumptions` there and only there.
* Where a property is *about* rounding (SiteID cells C04, Bond C39, PandC C47, KPath C38, Line2D C40, Polygon C41, rotations C42), binary64 is the standard
  library's `Floats.SpecFloat` (a pure Gallina implementation, no axioms); Flocq's theorems relate it to `R`.
* Sets, dictionaries and KD-trees: where Python or scipy leaves an order open, the theorem quantifies over it
  (C32: every tie-breaking of the KD-tree) or states its conclusion up to that order.
* A property that is false of the code as written is kept: the conditional claim is proved, and the
  unconditional one refuted by a theorem exhibiting a concrete counterexample (`*_refuted`).

## 3. Per property: what is modelled and how it is proved

| id | model | how it is proved |
|----|-------|------------------|
| C01, C02 | `IndexTable_Model`: the constructor loop over tagged objects, both dictionaries as association lists | induction over the list with a loop invariant |
| C03, C04 | `State_Model`: truncation `int(_ZOOM*coord)` in binary64, Python tuple comparison | lexicographic order lemmas over Z lists; correct rounding (Flocq) and truncation, relative error of a product with an exact power of ten |
| C05-C07 | `Particle_Model`: AoC, NumberOperator and their comparisons, precision as state | case analysis over the state order |
| C08, C09, C12, C17 | `Particle_Model`: dispatch of `*`, dagger, factories, term state | Fock-space semantics of `matrix_function`, induction over term length |
| C10, C11 | `Particle_Model.normalize`: the nested bubble-sort loops | bubble invariants; CAR used for the operator identity |
| C13-C16, C18 | `MatrixRepr_Model`: the numba cores over `list N` with bit operations and binary search | bit lemmas; sign = parity of the bits below |
| C19-C22 | `Hilbert_Model`: combinations, product, sort, uint64 conversion | completeness and soundness by induction on combinations |
| C23-C29, C50 | `Spin_Model`: Kronecker products as entry functions | div/mod lemmas; 2x2 algebra; sums over `range(2^n)` |
| C30 | `Averages_Model` | finite sums, Cauchy-Schwarz |
| C31-C36 | `Lattice_Model`: constructor, getIndex/getSite, decompose (`_guess_scope`, `_searching`), neighbor_distance with its cache, bonds | real linear algebra; geometry of reduced cells; invariants over call histories; witnesses by computation for the refuted parts; `LatticeInstances_Properties` shows on chain, square and honeycomb clusters that the hypotheses are met |
| C37, C51 | `LatticeGen_Model`: the cell and cluster tables, lattice_generator, special_cluster | integer grids; tilings from unimodular index arithmetic; on the integer grids (chain, square, cubic) roots of integers stay more than two units of the last digit apart, so rounding keeps their order, and a straight link across the border keeps the search window wide enough (C37_square); on all six lattices the squared distances are multiples of 1/4, 1/3 or 1, so distances up to 10^prec/24 stay apart after rounding, and a distance that rounding does not lower keeps the window wide enough (C37_exact, C37_cached, C37_second); sites at most n apart are less than 2n cells apart (hexagon form), so large clusters contain every distance and every link reaches one layer only, where a shorter link exists (C37_large, C37_far) |
| C38 | `KPath_Model`, over abstract scalars, instantiated with `R` and with binary64 | error bounds for the step count; relative error bounds of the computed leg lengths and k-points (C38_rounding) |
| C39 | `Bond_Model`; `BondFloat_Model`: getLength and np.around on binary64 (the dot product without fused multiplications) | quantised endpoints as in C04; in doubles: error bounds of the differences, squares, sums and root, np.rint as nearest integer, symmetry because every step commutes with the sign |
| C40, C41 | `Line2D_Model`, `Polygon_Model` on reals; `LineFloat_Model`, `PolygonFloat_Model`: the same code on binary64 | exact reals with tolerances; sign analysis, angle sums; relative error bounds of the computed heights and distances, each edge told as on reals when the point is clear of it (C40_rounding, C40_default, C41_rounding) |
| C42 | `Rotation_Model` on reals; `RotationFloat_Model`: the same code on binary64, with any sine and cosine | Rodrigues' formula, trigonometric identities; in doubles (C42_rounding_*): np.pi against Coq's series for pi, error of the degree conversion, of each product of matrices, of the axis' length and direction; sine and cosine of the library are assumed accurate to 2e-16 (hypothesis `accurate`, shown satisfiable) |
| C43, C44 | `Lanczos_Model` | induction over Lanczos steps over a complex inner-product space |
| C45, C46 | `GF_Model`: all eight solvers | loop invariants over dictionaries; correctness and uniqueness of `solve` |
| C47 | `PandC_Model` | SpecFloat evaluation; exactness below 2^53; relative error |
| C48 | `RunTimeEnv_Model`: a small language of nested programs | induction over programs |
| C49 | `ColorPrint_Model`; `ColorHex_Spec`: what passes for a component; `ColorMixed_Properties`: bools and floats as components | string lemmas |
| C52 | `Reciprocal_Model`: `_BSCalculator` and every constant | dual bases; the zone as a polytope in a chart of the plane |
| C53 | `Draw_Model`: Draw2DLattice, BrillouinZone | integer quadratic forms for the distances |
| C54 | `tolatex`, `__repr__`, `__str__` of sites, states, operators and terms (`Text_Model`); `repr`/`round` of floats and `str` of coefficients are parameters ; `Text4_Model`: the text of SwapFermionError | unique decodability: strings are cut at separators that cannot occur in the fields; `TextLayout_Spec` splits texts into lines |
| C55 | the models of C43-C46 (`Lanczos_Model`, `GF_Model`) | Cauchy-Schwarz, resolvent expansion; moments shared by a Krylov projection |
| C56 | the models of C12, C28, C29 (`Particle_Model`, `Spin_Model`) | commutator algebra; induction over operator products |
| C57 | composition of the models of C12, C13, C15, C19, C43-C46 (`Particle_Model`, `MatrixRepr_Model`, `Hilbert_Model`, `Lanczos_Model`, `GF_Model`); the demos' loops are the hypotheses of the theorems (`Free_Spec`) | anticommutators give equations of motion for c_j+ GS, c_i GS; Krylov spaces stay in the span of the d excited states; modes and plane waves by direct sums |
| C58 | as C57, plus `Spectrum_Spec` (quadratic form, improper integral as a limit of Riemann integrals, eigenbasis); the plotting arrays of the demos are the hypotheses | spectral theorem proved from scratch (`Spectral_Proofs`: Bolzano-Weierstrass, maximum of the Rayleigh quotient, deflation by induction); Lehmann sum, Lorentzians with atan as antiderivative; anticommutator for the fermion weight; truncated Lanczos refuted on a 2x2 matrix |
| C59 | `CPT_Model`: HubbardChain.py:146-216 statement by statement (array from the dictionary, FTs, VTerms, two inverses, periodisation, trace), operator objects as an abstract record of equality, dagger, site, derive; `CPT_Spec` | inverse by Gaussian elimination of `LinSolve`; the Dyson equation identifies the result with the resolvent of M + bVb+; particle and hole part together have orthonormal states (anticommutator), the spins form a direct sum; the trace of the periodised function is a sum of quadratic forms, C58 gives sign and weight; C34/C37 for the decompositions; free particles (`Bloch_Spec`): the plane waves of the infinite lattice restricted to the cluster intertwine h + V(k) with the Bloch matrix, so the periodised resolvent is its resolvent; C35-C37 identify the nearest bonds of clusters of all six lattices after every history; `Bands_Spec` states the textbook bands (hexagon sum, honeycomb, kagome) and the trace of the 1x1, 2x2, 3x3 Bloch resolvent is computed in closed form |
| C60 | `Text2_Model`: the format strings of hilbertspace.py, indextable.py, bond.py and the names in _lattice_database.py; `Text2_Spec`: source text of ints and tuples | the grammar of source texts is unambiguous (induction on the value, cutting at commas and parentheses), the constructors accept the printed values again; lines and padded columns cut at line breaks and spaces |
| C61 | `Heisenberg_Model`: HeisenbergChain1.py:35-97 and HeisenbergChain2.py:60-104 function by function (`eigh`/`eigsh` are not modelled: GS and GE are arguments; dictionary keys are operators with equality of type and site); `Heisenberg_Spec`: S_i.S_j, exchange and ring matrices, rows of the table | matrices of one bond add up to S_i.S_j after + h.c.; C36's listing of the bonds with fold_translated gives the ring; for the six lattices `HeisenbergBonds_Spec` lists the neighbours with periodic boundary conditions explicitly, and the bonds counted from both ends are a permutation of that list (C37); the dictionary loops give the table of C39's Green functions, summed by C58's densities; k = 0 by [H, S-_tot] = 0; ferromagnet (`SpinWave_Spec`): every S_i.S_j is 1/4 minus a projection (singlet), one spin down hops along the bonds (`magnon_matrix`), and plane waves of an allowed momentum are mapped among each other, so the resolvent of n sites folds to that of the cell |
| C62 | `Figures_Model`: what Lattice.show, ShowFirstBZ and Octahedron.py pass to matplotlib; `Figures_Spec`: drawn points, the boundary of the zone, the area of the cell | unique decomposition of sites; for a reduced basis m x + n y is bounded by the sum of the four basic inequalities with non-negative coefficients (wedge by wedge), with equality only if one of them is tight; the length of each edge from the half planes; the point where an edge outruns its line |
| C63 | `Text3_Model`: `__str__`/`__repr__` of Line2D, Bond, Lattice (`{:.4f}` on reals; numpy's array texts are parameters); `Text3_Spec`: decimal numerals | rounding to the nearest multiple of 1/10000, base-10 digits, unique decodability of decimals; lines cut at line breaks |

(Properties added later are described beside their statement in `properties.jsonl` and the header of their files.)

## 4. What is modelled, file by file

| file of HamiltonianPy | modelled | not modelled |
|---|---|---|
| `indextable.py` | constructor, both queries, iteration, len, indices, objects | – |
| `quantumoperator/constant.py` | the constants used | – |
| `quantumoperator/quantumstate.py` | SiteID, StateID: constructor, comparisons, hash key, precision | numpy scalar coordinates; `tolatex` see C54 |
| `quantumoperator/particlesystem.py` | AoC, NumberOperator, ParticleTerm: constructors, comparisons, products, dagger, normalize, check_compatibility, matrix_repr, coefficient setter | `show` (plot) |
| `quantumoperator/matrixrepr.py` | matrix_function and all four cores | numba compilation; scipy's storage beyond (row, column, value) |
| `quantumoperator/spinsystem.py` | SpinOperator, SpinInteraction: constructors, comparisons, products, dagger, matrix functions, Schwinger | sparsity, `show` |
| `quantumoperator/factory.py` | all factories | – |
| `hilbertspace.py` | validation, base_vectors, SimpleHilbertSpace, HilbertSpace, their texts | numpy scalar arguments |
| `averages.py`, `tools/TotalSpin.py` | all functions, kets of one or two dimensions | – |
| `lanczos.py` | all functions | rounding, mismatched shapes, in-place dtype effects |
| `GreenFunction/_GFSolver.py` | all eight solvers | rounding, mismatched shapes |
| `lattice/lattice.py` | all (of the figures: the data drawn; of `__str__`: all but numpy's text of an array) | rounding except in KPath (C38_rounding) and in the distances (C35_products, C35_perturbed); matplotlib |
| `lattice/_lattice_database.py` | all cells, clusters, reciprocal constants, lattice_generator, special_cluster, the names | – |
| `bond.py` | all (numpy's text of an array is a parameter) | integers mixed beyond 64 bits |
| `line2d.py`, `polygon.py` | all but plotting, on reals; Line2D and Polygon with LocationRelation, Coordinate and PointsFactory also in binary64 | integer arrays in binary64 |
| `rotation3d.py` | all, exactly and in binary64 | the library's sin and cos (any function accurate to 2e-16), fused multiplications in matmul |
| `tools/PandC.py`, `tools/runtimeenv.py`, `tools/colorprint.py` | all | buffering, non-ASCII text |
| `tools/Draw2DLattice.py`, `tools/BrillouinZone.py`, `tools/Octahedron.py` | the data plotted | matplotlib |
| `GreenFunction/demo/NNTBChain1-4.py`, `HubbardChain.py`, `HeisenbergChain1-2.py` | the computations as compositions of the modelled calls (C57, C58, C59, C61) | eigensolvers, plotting |
| `version.py`, `__init__.py` files, tests | – | scripts without functions; plots |

## 5. Trusted base

* Coq's kernel (8.16.1; `vcheck` also runs the independent checker `coqchk`). `vm_compute` is used for closed
  computations (kernel conversion; `coqchk` re-does them without the VM). No axiom, no functor, no module type, no
  plugin of our own; no kernel check is switched off.
* The axioms `Print Assumptions` lists, all from the standard library, grouped per theorem in `ASSUMPTIONS.md`:
  `ClassicalDedekindReals.sig_forall_dec`, `ClassicalDedekindReals.sig_not_dec`,
  `FunctionalExtensionality.functional_extensionality_dep` (Coq's construction of the reals) and, through Flocq's and
  Coquelicot's lemmas, `Classical_Prop.classic`. About half of the theorems are closed under the global context.
  Flocq and Coquelicot add no axioms of their own.
* The reading of the Python text (section 4) and of the documented behaviour of the libraries it calls: numpy
  (`np.linalg.solve`, `pdist`, `rint`, `unique`, matmul), scipy (`cKDTree` queries, sparse constructors summing
  duplicates, `kron`), itertools, Python's float arithmetic being IEEE binary64 round-to-nearest-even.

## 6. Behaviour of the code worth knowing (each is a theorem or an `Example`)

* `SiteID((0.0002,)) == SiteID((0.0003,))`, `SiteID((0.1+0.7,)) != SiteID((0.8,))`; ±0.00009 are the same site.
* `IndexTable([])` raises UnboundLocalError. `IndexTable([95], start=12345678)` and `IndexTable([5], start=123456789)` print
  the same text.
* Number/Coulomb fast paths ignore `left_bases`; a hopping tag with i = j gives the zero matrix; with coefficient 0 the
  coordinate form lists explicit zeros.
* After `set_float_point_precision`, `dagger().dagger()` and `Bond.flip` twice need not give an equal object.
* Repeated states inside a specifier are accepted; a float particle number passes the constructor of HilbertSpace.
* Schwinger representation needs an ordering sign when the state table is not ordered site by site.
* Averages of the zero ket are nan; `GFSolverLanczos*` raise IndexError for `krylov_space_dim=0`.
* `Combination(24, 1) = 23`; `Combination(171, 0)` raises OverflowError; `Combination(0, 0, repeat)` ValueError.
* Re-entering an active RunTimeEnv leaves stdout redirected; two logs of the same second overwrite each other; the
  number of mkl threads is not restored.
* `coloring` accepts `#-1-1-1`, booleans and floats as colour components.
* `Bond([1],[2**60]) == Bond([1],[0])` (int64 overflow).
* Line2D reports a point of a nearly horizontal line as ABOVE it; Polygon reports (1, 5) as on the BOUNDARY of the unit
  square and an interior point of a non-convex polygon as OUTSIDE.
* RotationGeneral accepts an axis shorter than its threshold and then does not fix it.
* With float precision 3 `bonds(1)` of every honeycomb cluster has no bond leaving the cluster (0.577 < 1/sqrt 3, so no
  copy of the cluster is searched); in general whenever rounding lowers the nearest-neighbour distance.
* With the default precision 4, `bonds(3)` of the honeycomb unit cell returns two of its three third-neighbour bonds
  (2/sqrt 3 is rounded down to 1.1547, so the layer of copies that holds the missing one is not searched).
* `neighbor_distance(2)` of a new 1 x 3 square cluster is 2.0, of the same cluster after `neighbor_distance(3)` 1.4142:
  the constructor tabulates the distances within the cluster only.
* `decompose` raises RuntimeError for a skewed cell and for cells with equivalent points; `neighbor_distance` depends on
  the history of calls; `bonds(1)` is empty for lattice constant 1/3; with precision 0 the honeycomb cell is rejected.
* `Line2D((0,0),(49,1)).LocationRelation((49*2**30, 2**30))` is ABOVE although the point is on the line (slope rounded); a
  point with a nan coordinate is ABOVE every line that is not vertical (RIGHT of vertical ones for a nan abscissa).
* KPath gives a leg of length 1.36 99 points although `min_num=100`.
* `tolatex()` with its default arguments gives operators that differ only in the orbit the same text; `SiteID((1,))` and
  `SiteID((1.0,))` are equal but have different `repr`.
* With a truncated Krylov space (`krylov_space_dim` below the dimension) the matrix of Lanczos Green functions can have
  a negative k-space spectrum although every diagonal element is causal.
* HeisenbergChain1/2: a bond between a site and its own translation contributes J (3/4 + Sz) instead of the constant 3J/4, so
  the one-site cluster is not rotation invariant; a cluster without bonds ends in AttributeError (`0.0.getH()`); the
  Lanczos version raises ValueError when a spin of GS points down (S-_i GS = 0).
* `ShowFirstBZ` does not draw the whole boundary of the zone of a rectangular lattice with sides 1 and 3 at the default scale,
  and for skewed vectors (e.g. (1,0), (3,1)) at no scale.
* The `repr` of a `Line2D` made with a tolerance below 1e-10 can evaluate to ValueError (the tolerance is not printed); two
  equal undirected bonds print differently.
* `SiteID((8106479329266894.0,))` and `SiteID((8106479329266895.0,))` are equal (Python ints are never confused).
* `decompose` and `getIndex(..., fold=True)` raise RuntimeError for a site slightly inside n·a (n ≥ 2), however small the
  difference, although n·a itself and sites slightly outside are found: the search window is computed from the distance of the
  given site without the tolerance. In floats this happens for a chain of constant 0.1 and the site 0.7 (7·0.1 > 0.7).
* A chain with lattice constant 1 + e, 0 < e < 10^-p / 2 (one unit in the last place is enough), has `neighbor_distance(1)` 1.0
  but no `bonds(1)`; with lattice constant exactly 1 the bond is found (C36_unstable). `neighbor_distance` itself is stable
  against such errors on the six generated lattices (C35_perturbed).
