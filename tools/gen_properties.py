#!/usr/bin/env python3
"""Generates /verif/properties.jsonl (kept so the list is easy to extend)."""
import json
P=[]
def p(id,title,statement,quantifier,why,anchors):
    P.append(dict(id=id,title=title,statement=statement,quantifier=quantifier,why_tests_cant=why,anchors=anchors))
B="HamiltonianPy/"
p("C01","IndexTable is a bijection between its objects and a contiguous index range",
 "If IndexTable(objects, start=s) succeeds then query_object(s+k) is the k-th object, query_index of the k-th object is s+k, query_index and query_object are mutually inverse, len/iter/indices/objects list exactly s..s+n-1 with the objects in input order, and no other index or object is found.",
 "every finite iterable of hashable objects, every start (also negative)","unbounded collections and arbitrary integer start",
 [B+"indextable.py: IndexTable.__init__, query_index, query_object, __iter__, __len__, indices, objects"])
p("C02","IndexTable rejects exactly the bad inputs, and reports the right position",
 "The constructor raises TypeError at the first object whose type differs from the first one's, ValueError at the first duplicate, UnboundLocalError on an empty iterable and succeeds otherwise; the reported ordinal is the position of the first offending object. query_index raises TypeError iff the key is not an instance of the table's type and KeyError iff it is but absent; query_object raises TypeError iff the argument is not an int and KeyError iff it is out of range.",
 "every iterable, every key, every start","the earliest offending position must be right for every mixture of faults",
 [B+"indextable.py: IndexTable.__init__, query_index, query_object"])
p("C03","SiteID/StateID comparison is a strict total order consistent with == and hash",
 "Among SiteIDs (resp. StateIDs) exactly one of a<b, a==b, a>b holds; < is transitive; <=, >=, != are the derived relations; equal objects have equal hash keys; a SiteID never equals a StateID and ordering one against the other raises TypeError.",
 "all pairs/triples of sites and states of any dimension and all precisions","order axioms quantify over all triples; sorted()/dict use them silently",
 [B+"quantumoperator/quantumstate.py: SiteID, StateID"])
p("C04","Coordinate quantisation: identity of sites is decided by truncation on the 10^-precision grid",
 "Two sites are == iff they have the same dimension and each pair of coordinates is stored as the same integer; the stored integer is the coordinate in units of 10^-precision, perturbed by at most one relative binary64 rounding error (two beyond precision 22), truncated towards zero; coordinates on one side of 0 that differ by 10^-precision plus that rounding margin give different sites; sites given by ints are never confused, and integer-valued floats are treated like the int while the scaled value is at most 2^51 (beyond, two of them can be one site: refuted). Without the margin the claim is refuted (0.0002 and 0.0003 are the same site), and nearness alone does not give equality (refuted: 0.1+0.7 and 0.8).",
 "all coordinates and all precisions","bin edges: any sampled grid misses coordinates at the edge",
 [B+"quantumoperator/quantumstate.py: SiteID.__init__, set_float_point_precision"])
p("C05","Creation/annihilation operators are totally ordered: creators first (ascending state), then annihilators (descending state)",
 "The comparison operators of AoC define a strict total order compatible with ==; every creator precedes every annihilator; creators are ordered by ascending state, annihilators by descending state; <= and >= agree with it.",
 "all pairs and triples of AoC","total-order axioms over all triples",
 [B+"quantumoperator/particlesystem.py: AoC.__lt__, __gt__, __eq__, __le__, __ge__"])
p("C06","AoC.dagger is an involution that reverses the order, conjugate_of and derive are consistent with it",
 "x.dagger().dagger()==x; x<y iff y.dagger()<x.dagger(); x.conjugate_of(y) iff x.dagger()==y; same_state iff same state; derive changes exactly the requested attributes.",
 "all operators","algebraic laws over all values",
 [B+"quantumoperator/particlesystem.py: AoC.dagger, conjugate_of, same_state, derive"])
p("C07","AoC equality, hash and set membership coincide with (otype, state)",
 "Two AoC are == iff their otype and state agree; == implies equal hash keys; a NumberOperator never equals an AoC, and equal NumberOperators are those with the same state.",
 "all operators","all pairs",
 [B+"quantumoperator/particlesystem.py: AoC.__eq__, __hash__, NumberOperator.__eq__, __hash__"])
p("C08","Products of operators and terms are represented by the product of the matrices",
 "For every x,y that are AoC, NumberOperator, ParticleTerm or number, x*y is the ParticleTerm whose matrix representation on the full Fock space equals matrix(x)·matrix(y), whichever __mul__/__rmul__ branch is taken; the coefficient is the product of coefficients and the operator sequence the concatenation.",
 "all operand combinations, all state tables","dispatch over operand types and arbitrary product lengths",
 [B+"quantumoperator/particlesystem.py: AoC.__mul__/__rmul__, NumberOperator.__mul__/__rmul__, ParticleTerm.__mul__/__rmul__"])
p("C09","dagger() is represented by the conjugate transpose",
 "For every AoC, NumberOperator and ParticleTerm t, the matrix of t.dagger() is the conjugate transpose of the matrix of t, and t.dagger().dagger() has t's operators and coefficient.",
 "all terms of any length, complex coefficients, all tables","arbitrary term length",
 [B+"quantumoperator/particlesystem.py: ParticleTerm.dagger, AoC.dagger; matrixrepr.py: matrix_function"])
p("C10","ParticleTerm.normalize returns a normal-ordered permutation that represents the same operator",
 "If normalize succeeds the result is sorted by the AoC order (creators ascending, then annihilators descending), is a permutation of the input, and (-1)^swap_count times the normalised product is the same operator as the input; it raises SwapFermionError iff some annihilator stands before a creator of the same state.",
 "all AoC sequences of any length","bubble sort over arbitrary sequences",
 [B+"quantumoperator/particlesystem.py: ParticleTerm.normalize"])
p("C11","normalize's swap count equals the number of inversions",
 "The swap count is the number of pairs i<j with operator i greater than operator j; the bubble sort is stable and terminates with no further swap possible.",
 "all AoC sequences","arbitrary length",
 [B+"quantumoperator/particlesystem.py: ParticleTerm.normalize"])
p("C12","Term classification is sound and factory functions build the advertised operators",
 "check_compatibility/classification tests accept exactly the operator patterns documented (hopping: creator*annihilator on different states; number: on one state; Coulomb: two number operators) and HoppingFactory, PairingFactory, HubbardFactory, CoulombFactory, CPFactory produce terms with exactly the documented operators, coefficients and a classification compatible with them.",
 "all states and coefficients","all combinations of equal/unequal states",
 [B+"quantumoperator/particlesystem.py: ParticleTerm.check_compatibility",B+"quantumoperator/factory.py"])
p("C13","The special fast paths for hopping/number/Coulomb compute the same matrix as the general path",
 "For every compatible term, matrix_function with special_tag 'hopping', 'number' or 'Coulomb' gives the same matrix as special_tag 'general' on the same bases (for number/Coulomb when left_bases is right_bases; refuted otherwise).",
 "all bases arrays, all indices, all coefficients","arbitrary bases and bit positions",
 [B+"quantumoperator/matrixrepr.py: matrix_function, _core_general, _core_hopping, _core_particle_number, _core_coulomb"])
p("C14","The matrix representation satisfies the canonical anticommutation relations",
 "On the full Fock space {a_i, a_j^dagger} = delta_ij I, {a_i,a_j}=0, {a_i^dagger,a_j^dagger}=0 for the matrices returned by matrix_repr.",
 "every number of single-particle states and all i,j","unbounded dimension 2^n",
 [B+"quantumoperator/matrixrepr.py",B+"quantumoperator/particlesystem.py: AoC.matrix_repr"])
p("C15","Matrices respect particle-number sectors",
 "A term with c creators and a annihilators maps every N-particle ket to (N+c-a)-particle kets or zero, and with a sector's complete bases as left and right bases no lookup fails: every produced bra is found in left_bases; if the bra is missing KeyError-type failure/absence is reported exactly as the code does.",
 "all terms, all sectors","all kets of every sector",
 [B+"quantumoperator/matrixrepr.py",B+"hilbertspace.py: base_vectors"])
p("C16","to_csr=True and to_csr=False describe the same matrix",
 "The (entries, (rows, cols)) form contains exactly the stored non-zero entries of the csr matrix, with shape (len(left_bases), len(right_bases)).",
 "all terms and bases","arbitrary bases",
 [B+"quantumoperator/matrixrepr.py: matrix_function"])
p("C17","Passing coeff to matrix_repr persists: later calls use the last coefficient given",
 "In any history of matrix_repr(coeff=...) / matrix_repr() / coeff assignments on one ParticleTerm or SpinInteraction, each call's matrix is that of the operator product scaled by the most recent coefficient.",
 "all histories of calls","arbitrary call sequences",
 [B+"quantumoperator/particlesystem.py: ParticleTerm.matrix_repr",B+"quantumoperator/spinsystem.py: SpinInteraction.matrix_repr"])
p("C18","A term maps each basis ket to at most one basis bra, with amplitude ±coeff",
 "Every column of a term's matrix has at most one non-zero entry and it equals coeff or -coeff, the sign being the Jordan-Wigner sign counted by the operators' order.",
 "all terms and basis states","all kets and arbitrary term length",
 [B+"quantumoperator/matrixrepr.py: _core_general"])
p("C19","base_vectors returns exactly the kets of the requested sector, strictly increasing",
 "For valid specifiers, an integer is in the result iff its set bits lie within the given states and it has the requested particle number on each collection; no duplicates; strictly ascending; length is the product of binomials.",
 "all state collections and particle numbers","exponentially large sets",
 [B+"hilbertspace.py: base_vectors, SimpleHilbertSpace.base_vectors, HilbertSpace.base_vectors"])
p("C20","SimpleHilbertSpace, HilbertSpace and base_vectors agree",
 "For a single subspace the three entry points return the same array, and a HilbertSpace of several subspaces equals base_vectors on the same specifiers.",
 "all specifiers","all inputs",
 [B+"hilbertspace.py"])
p("C21","Hilbert-space specifiers are validated",
 "Constructors raise ValueError exactly for non-integer/negative states, particle numbers larger than the collection, overlapping collections and malformed specifiers; repeated states inside one collection are caught (refuted).",
 "all specifiers","malformed inputs are unboundedly many",
 [B+"hilbertspace.py: is_valid_states_collection, is_valid_subspace_specifier, subspace_specifier_preprocess"])
p("C22","Kets never overflow silently",
 "If every state index is below 64 the result array holds the exact integers; if some returned ket needs bit 64 or more an OverflowError is raised rather than a wrapped value.",
 "all state indices","boundary at 2^64 for every combination",
 [B+"hilbertspace.py: base_vectors"])
p("C23","Spin operators have the spin-1/2 matrix elements on the right site",
 "The matrix of S^otype at index i among n spins acts on bit i of the basis integer (0=up,1=down) with the spin-1/2 matrix and as the identity on all other bits. SpinOperator(otype, site) accepts exactly the types x, y, z, p, m and raises AssertionError for every other.",
 "all n, all i<n, all five operator types","dimension 2^n",
 [B+"quantumoperator/spinsystem.py: SpinOperator.matrix_function, matrix_repr"])
p("C24","Spin operators obey the angular-momentum algebra",
 "[Sx,Sy]=iSz and cyclic on the same site, operators on different sites commute, Sx^2+Sy^2+Sz^2=3/4, S± = Sx±iSy, dagger is the conjugate transpose; conjugate_of and same_site say when one operator is the other's dagger and when two act on one site.",
 "all n and sites","dimension 2^n",
 [B+"quantumoperator/spinsystem.py"])
p("C25","SpinInteraction.matrix_function returns coeff times the ordered product",
 "For any list of (index, otype) pairs and any coefficient, both the two-site fast path and the generic path return coeff times the product of single-operator matrices in the given order.",
 "all operator lists of any length, all n","arbitrary length and repeats",
 [B+"quantumoperator/spinsystem.py: SpinInteraction.matrix_function"])
p("C26","SpinInteraction construction, multiplication and dagger preserve meaning",
 "The stable sort by site does not change the represented operator; the product of two spin objects/numbers is represented by the product of the matrices; dagger by the conjugate transpose.",
 "all operator sequences","arbitrary lengths",
 [B+"quantumoperator/spinsystem.py: SpinInteraction.__init__, __mul__, __rmul__, dagger"])
p("C27","Schwinger representation equals the spin operator in fermions",
 "SpinOperator.Schwinger() gives sum of c^dagger_a S_ab c_b terms; for a SpinInteraction, the product expansion; between kets with one fermion per site the summed fermionic matrices equal the spin matrix when the fermion table lists the states site by site (for any other table order, up to the sign of the two kets' site orderings), and they never lead out of the singly-occupied space.",
 "all sites, operators and interactions","sum over arbitrarily many terms",
 [B+"quantumoperator/spinsystem.py: SpinOperator.Schwinger, SpinInteraction.Schwinger"])
p("C28","Heisenberg, Ising and two-spin factories build the documented interactions",
 "HeisenbergFactory(s0,s1,J) sums to J S0·S1, IsingFactory to J S0^a S1^a, TwoSpinTermFactory to coeff S0^a S1^b as matrices. Types other than x, y, z are AssertionErrors; then the exception of the first invalid site is raised, then AssertionError for a coefficient that is no number; everything else is accepted.",
 "all sites, couplings, n","dimension 2^n",
 [B+"quantumoperator/factory.py: HeisenbergFactory, IsingFactory, TwoSpinTermFactory"])
p("C29","TotalSpinMatrices returns the total-spin operators",
 "TotalSpinMatrices(n) returns the total Sx, the imaginary part of the total Sy (Sy = i times it) and the total Sz; they satisfy [Sx,Sy]=iSz cyclically and S2 = Sx^2+Sy^2+Sz^2 commutes with each; any argument that is not a positive integer raises AssertionError.",
 "all numbers of spins","dimension 2^n",
 [B+"averages.py: TotalSpinMatrices",B+"tools/TotalSpin.py"])
p("C50","Spin operators are totally ordered, consistently with equality and hash",
 "For any two SpinOperators exactly one of <, ==, > holds, <= and >= are its unions, the order is by otype then quantised site and is transitive, != negates ==, and the hash keys are equal exactly when the operators are equal.",
 "all pairs and triples of spin operators","all inputs",
 [B+"quantumoperator/spinsystem.py: SpinOperator.__lt__, __eq__, __hash__"])
p("C30","Quantum averages are expectation values",
 "QuantumAverages(ket, op) returns <ket|op|ket>/<ket|ket> for every non-zero ket (nan for a zero ket, ValueError for mismatched shapes); it is linear in op, independent of the scale of ket, the eigenvalue on an eigenvector and real for Hermitian op. TotalSpinAverages(n)(ket) returns (<S^2>, <Sx>, <Sy>, <Sz>) of the total spin, all real, <S^2> >= 0, consistent with QuantumAverages of TotalSpinMatrices. A two-dimensional array of m columns gives the averages over the mixed state of its columns, each with its share of the squared norm (for m = 1 the average over the column).",
 "all kets and operators","all vectors",
 [B+"averages.py: QuantumAverages, TotalSpinAverages"])
p("C31","Reciprocal vectors are dual to the translation vectors",
 "bs · vectors^T = 2π I, and bs lies in the span of the translation vectors.",
 "all linearly independent translation vectors, 1-3 dimensions","all vectors",
 [B+"lattice/lattice.py: Lattice.__init__"])
p("C32","Lattice.getIndex and getSite are inverse on the cluster",
 "getSite(getIndex(p))==p for every cluster point and getIndex(getSite(i))==i for every valid index; translated sites with fold=True map to the index of their equivalent point, also when they are given with an error below the tolerance (with C34's condition).",
 "all clusters","arbitrary clusters",
 [B+"lattice/lattice.py: getIndex, getSite, in_cluster"])
p("C33","Lattice.decompose is sound",
 "If decompose(site) returns (p, dR) then p is a cluster point, dR is an integer combination of the translation vectors and p + dR = site (within tolerance). A cluster without translation vectors splits exactly the sites within the tolerance of one of its points, and of one only, as (p, site - p); for other sites it raises IndexError instead of the documented RuntimeError.",
 "all lattices and sites","all sites",
 [B+"lattice/lattice.py: decompose, _searching, _guess_scope"])
p("C34","Lattice.decompose finds every site of the lattice",
 "Every site p + sum n_i a_i is decomposed as (p, sum n_i a_i) — true for 1D and orthogonal/reduced cells and for every cluster of lattice_generator, refuted for skewed cells. A site given with an error below the tolerance is decomposed the same way if the translation is at most one vector in each direction, or if some cluster point is at least as far from it as the translation is long; refuted otherwise (on a chain, every site slightly inside n*a with n >= 2 raises RuntimeError).",
 "all lattices and all lattice sites","window of the search must suffice for every site",
 [B+"lattice/lattice.py: decompose, _guess_scope"])
p("C35","neighbor_distance(nth) is the nth distinct distance independently of previous calls",
 "The returned value is the nth smallest distinct inter-site distance and does not depend on which calls were made before (refuted: the cache makes it depend on history). It is right whenever it has to be recomputed, on every cluster lattice_generator makes and on every compact cluster whose translation vectors have no combination shorter than half of its largest term. Rounding errors do not matter: the answers on a lattice whose coordinates differ from a generated cluster's by a small e, or computed with small errors in the distances, are those of exact arithmetic.",
 "all lattices, all call histories","all histories",
 [B+"lattice/lattice.py: neighbor_distance"])
p("C36","bonds(nth) returns each bond of the requested length exactly once",
 "intra and inter lists contain each unordered pair at the nth distance exactly once, and no other pair (refuted in general: rounding of the judge distance; proved when rounding does not merge or lower distances, for clusters whose translated copies get farther layer by layer, which all clusters of lattice_generator do). bonds(1) is exactly the set of nearest-neighbour pairs when rounding does not lower the nearest distance; when it does, every bond leaving the cluster is lost -- so an arbitrarily small excess over a round lattice constant loses the bonds of a chain although neighbor_distance is unchanged.",
 "all lattices and nth","all clusters",
 [B+"lattice/lattice.py: bonds"])
p("C37","lattice_generator tiles the cell",
 "lattice_generator(which, num0, num1, num2) has (#cell points)·num0·num1·num2 distinct points, each cell point plus integer translations, and its translation vectors are the scaled ones. On all these clusters, of every shape, decompose splits every site of the infinite lattice correctly, neighbor_distance recomputes correctly, bonds always answers and, after every history, bonds(1) lists each nearest-neighbour pair (distance 1, kagome 1/2, honeycomb 1/sqrt 3) once and nothing else; for the honeycomb this needs a precision whose rounding of 1/sqrt 3 is not lower (the default 4 is fine; refuted for 3, where all bonds leaving the cluster are lost). On chains of every size the n-th distance is n and bonds(n) is exact for every n, after every history. On chain, square and cubic clusters of every size, if n is below the extents of the cluster (after every history) or the list of distances has to be rebuilt for n, neighbor_distance(n) is the n-th distance of the infinite lattice rounded and bonds(n) lists exactly the pairs at that distance (only=False: up to it), although roots are rounded (n up to 1666 at the default precision). On clusters of all six lattices, when the list of distances has to be rebuilt for n (n up to 416 at the default precision), neighbor_distance(n) is the n-th distance of the infinite lattice rounded and, unless rounding lowers that distance, bonds(n) is exact; the same after every history if the smaller distances occur within the cluster, so bonds(2) of the honeycomb (distance 1) is exact for every size and history at two digits or more. On clusters of all six lattices with at least 2n cells in each direction, neighbor_distance(n) is right after every history and, for n >= 2, bonds(n) is exact however the distance is rounded. On small clusters farther neighbours are refuted at the default precision: bonds(3) of the honeycomb cell misses a pair, and neighbor_distance(2) of a new 1 x 3 square cluster is 2 instead of sqrt 2.",
 "all cells and multiplicities","unbounded sizes",
 [B+"lattice/_lattice_database.py: lattice_generator"])
p("C38","KPath visits the given points in order with the advertised number of k-points",
 "KPath(points,min_num,loop) samples the route through the points (closed when loop): the returned indices locate every anchor exactly, the k-points of a leg are evenly spaced and number floor(min_num*leg/shortest leg), so at least min_num and exactly min_num on a shortest leg; bad arguments raise AssertionError/ValueError. In floating point a leg may get min_num-1 points (refuted witness: one leg of length 0.35, min_num 3), never fewer, and anchors stay exact. In floating point legs shorter than 1e-4 are refused and legs longer than it accepted up to one part in 10^12 of it, and every coordinate of a k-point is that of the evenly spaced point up to 3e-15 of the sum of the absolute values of the leg's two coordinates.",
 "all point lists, dimensions 2 and 3, min_num, loop","all polylines and all doubles",
 [B+"lattice/lattice.py: KPath"])
p("C39","Bond equality, hash, flip and oppositeTo",
 "Directional bonds are equal iff endpoints agree in order, undirectional iff they agree up to swapping; equal bonds hash equally; flip is an involution; b.oppositeTo(c) iff c==b.flip() for directional bonds; displacement negates under flip; getLength is symmetric. With ndigits=n lengths, displacements and azimuths are the exact values rounded to n decimals. In doubles the length is the distance up to two parts in 10^15, the same bit for bit from either end, and getLength(ndigits=n) of a length within 0.49 units of k/10^n is exactly the double nearest to k/10^n, so rounded lengths may be compared with ==; rounding takes ties to the even neighbour and a negative ndigits rounds to tens, hundreds and so on.",
 "all endpoints","all pairs",
 [B+"bond.py"])
p("C40","Line2D classifies points by side",
 "LocationRelation(point) tells on which side of the line the point is according to the sign of y-(slope x+intercept) (x-x0 for vertical lines), and Coordinate(x/y) returns the point on the line. In doubles with the default tolerances, for points of ordinates up to 10000, ABOVE, BELOW, LEFT and RIGHT are always right and points farther than 2e-10 from the line are told by their side; in general Coordinate returns the point up to 2e-15 of the heights and LocationRelation is right up to the same error (refuted far from the origin: (49*2^30, 2^30) on the line through (0,0) and (49,1) is ABOVE).",
 "all lines and points","all reals",
 [B+"line2d.py: Line2D.LocationRelation, Coordinate"])
p("C41","Polygon classifies points as inside, outside or on the boundary",
 "For convex polygons LocationRelation is correct; refuted with vertical edges/extension lines. In doubles with the default tolerances and coordinates up to 10000, INSIDE is answered only for points strictly inside and all points farther than 2e-10 from the vertices and the edges' lines are told rightly; CORNER is answered within 9e-11 of a vertex and never beyond 2e-10, BOUNDARY never farther than 2e-10 from an edge unless an edge is vertical (refuted then).",
 "all convex polygons and points","all reals",
 [B+"polygon.py: Polygon.LocationRelation"])
p("C42","Rotation matrices are proper rotations about the advertised axis",
 "RotationX/Y/Z, RotationGeneral and RotationEuler return orthogonal matrices of determinant 1; the axis is fixed; angles add; the constants E, X90... equal the functions at the respective angle; degree and radian arguments agree. In doubles, whenever the sine and cosine used are accurate to 2e-16: the entries of RotationX/Y/Z are within 3e-16 plus (for degrees) 1e-15 of the angle of the exact ones, those of RotationEuler within 3e-13 and of RotationGeneral within 3e-12 (angles up to 720 degrees or a million radians, an axis away from the thresholds), the errors raised are the same, and the named constants are within 5e-16 entry by entry.",
 "all angles and axes","all real angles",
 [B+"rotation3d.py"])
p("C43","KrylovRepresentation returns an orthonormal basis and tridiagonal projection",
 "In exact arithmetic, the krylov bases are orthonormal, start with v0/|v0|, and <b_i|H|b_j> is the returned tridiagonal matrix; raises ValueError iff |v0| is below the threshold.",
 "all Hermitian H, all v0, all krylov dims","induction over Lanczos steps",
 [B+"lanczos.py: KrylovRepresentation"])
p("C44","MultiKrylov projects every vector onto every Krylov space",
 "MultiKrylov(HM, vectors) returns for each key the projected H of that key and the coordinates of every vector in that key's Krylov basis, consistent with KrylovRepresentation.",
 "all dictionaries of vectors","all inputs",
 [B+"lanczos.py: MultiKrylov"])
p("C45","Green-function solvers are mutually consistent",
 "The Multiple solvers return for each pair what the Single solver returns; RGF are the stated combinations; dict and array outputs agree.",
 "all operators, frequencies, structures","all inputs",
 [B+"GreenFunction/_GFSolver.py"])
p("C46","Lanczos Green function equals the exact one when the Krylov space is invariant",
 "If the Krylov space generated by B|GS> is H-invariant, <A| (z-H)^-1 |B> computed in the projection equals the exact one.",
 "all H, vectors, frequencies","all dimensions",
 [B+"GreenFunction/_GFSolver.py: GFSolverLanczosSingle",B+"lanczos.py"])
p("C47","Permutation(n,k)/Combination(n,k) equal the combinatorial numbers",
 "Results equal n!/(n-k)! and binomials (with repetition: n^k, C(n+k-1,k)) — exact while the factorials stay below 2^53, refuted beyond.",
 "all n,k","float rounding starts at large arguments",
 [B+"tools/PandC.py"])
p("C48","RunTimeEnv restores stdout on exit, also on exceptions and nested use",
 "Entering redirects, leaving restores the previous stdout and closes the log, in any properly nested use, also when the body raises; re-entering the same instance is refuted.",
 "all nested histories","all histories and exception points",
 [B+"tools/runtimeenv.py"])
p("C49","coloring wraps the text in a well-formed SGR sequence and resets",
 "The output is ESC[...m + text + ESC[0m, colour codes are in range, invalid values raise; refuted for some malformed hex strings: a pair of characters after # counts as a component exactly if it is two hexadecimal digits, or one with white space before or after it or a sign before it, and every other string that is not a colour's name raises ValueError; components may also be bools and integral floats, which are written as Python prints them, and are then no well-formed sequence; a component that is no number from 0 to 255 is refused.",
 "all strings and colour specs","all inputs",
 [B+"tools/colorprint.py"])
p("C51","special_cluster returns clusters that tile their lattice",
 "For every documented name or alias, special_cluster(which) returns a cluster with the documented number of sites, no two of them equivalent under its translation vectors, whose translates are exactly the sites of the square, triangular or honeycomb lattice it divides, each hit exactly once; the sites are exactly those of the documented shape (cross, z, s, star of David, benzene ring, two rings, gear); any other name raises KeyError.",
 "all names, all sites of the infinite lattice","the lattice is infinite; tests sample a few sites",
 [B+"lattice/_lattice_database.py: special_cluster"])
p("C52","the reciprocal-space constants are the reciprocal vectors and the high-symmetry points of the first Brillouin zone",
 "The reciprocal vectors (X_BS) computed from translation vectors (X_AS) are the unique vectors of the same space with b_i . a_j = 2 pi delta_ij, equal to the attribute bs of the corresponding Lattice, and the computation fails exactly for dependent vectors. For every pair of plane vectors of equal length at 90, 60 or 120 degrees, and hence for the exported constants, the X/M (square) or M/K (hexagon) points are exactly the middles of the edges and the corners of the first Brillouin zone (the points not farther from the origin than from any other reciprocal lattice point), each listed once; for the chain E are the end points, for the cube X, M and K are the centres of the surfaces, the middles of the edges and the corners; Gamma is the centre.",
 "all sets of translation vectors, all points of k-space, all points of the infinite reciprocal lattice","the zone is defined by infinitely many half spaces and has infinitely many points",
 [B+"lattice/_lattice_database.py: _BSCalculator, *_BS, *_GAMMA, *_ES, *_XS, *_MS, *_KS"])
p("C53","Draw2DLattice draws the advertised lattice with its nearest-neighbour bonds; BrillouinZone draws the hexagonal first zone",
 "show(which, num0, num1) draws every site of the unit cells (a, b) with |a| <= num0 and |b| <= num1 of the square, triangle, honeycomb or kagome lattice exactly once, and with link=True exactly the pairs of sites at the nearest-neighbour distance; unknown names raise KeyError, negative numbers and a single linked site ValueError; the file name follows the lattice. The constants of BrillouinZone.py are dual vectors, zone corners and edge middles, and the lines it draws are perpendicular bisectors covering the zone's edges.",
 "all lattice names, all numbers of cells, all paths and names","tests draw pictures of a few sizes; completeness of the sites and bonds is for every size",
 [B+"tools/Draw2DLattice.py: show, _sites_factory, _bonds_generator",B+"tools/BrillouinZone.py"])
p("C55","Green functions are bounded and causal, have the spectral moments as their expansion in 1/z, and Lanczos truncation keeps this with a stated error",
 "For every Hermitian H and eta != 0: |G_AB| <= |A+ GS| |B GS| / |eta|; z^m G_AB differs from the sum of the first m moments <A+ GS|(+/-(H-GE))^k|B GS> z^(m-1-k) by at most |D^p A+ GS| |D^q B GS| / |eta|, p+q=m (sum rule: z G -> <A+ GS|B GS>, and for the retarded functions the ground-state value of AB +/- BA); G_AB(z)* = G_(B+ A+)(z*); the sign '+' at z is minus the sign '-' at -z; the retarded function of A and A+ has Im <= 0. For every threshold and every positive krylov_space_dim the Lanczos solver returns, obeys the same bound, has Im G < 0 for A+ = B, and differs from the exact solver by at most 2 |A+ GS| |D^d B GS| / (|eta| |z|^d), for A+ = B by at most 2 |D^d B GS|^2 / (|eta| |z|^(2d)), d the dimension of the Krylov space.",
 "all Hermitian matrices of every dimension, all states, frequencies, broadenings, thresholds and Krylov dimensions","bounds over all frequencies and all matrices",
 [B+"GreenFunction/_GFSolver.py: GFSolverExactSingle, GFSolverLanczosSingle, RGFSolverExactSingle, RGFSolverLanczosSingle",B+"lanczos.py: MultiKrylov"])
p("C56","Hamiltonians assembled from the factories' terms conserve spin and particle numbers",
 "For any list of bonds between sites of the table, the sum of matrix_repr of all terms returned by HeisenbergFactory commutes with the three matrices of TotalSpinMatrices and with the total spin squared; sums of Ising terms of one axis commute with the total spin of that axis; XXZ and Heisenberg Hamiltonians have no element between states with different numbers of down spins. For any set of single-particle states, a term's matrix only connects kets whose numbers of particles in the set differ by the term's creators minus annihilators in the set; chemical potentials, Hubbard and Coulomb terms and hoppings that keep the spin conserve the number of each spin species, PairingFactory changes the total by two, spin-flip hoppings move one particle between species.",
 "all tables, all lists of bonds and terms, all coefficients, all sets of states","all system sizes and Hamiltonians",
 [B+"quantumoperator/factory.py: HeisenbergFactory, IsingFactory, HoppingFactory, HubbardFactory, CoulombFactory, CPFactory, PairingFactory",B+"quantumoperator/spinsystem.py: SpinInteraction.matrix_repr",B+"quantumoperator/particlesystem.py: ParticleTerm.matrix_repr",B+"averages.py: TotalSpinMatrices"])
p("C54","The texts of states, operators and terms identify them",
 "With an IndexTable of sites, the LaTeX of two states, operators or terms created by the package is the same exactly when they have the same site, spin and operator type (and, for terms, the same coefficient text and the same operators in the same order), and the same orbit if suppress_orbit=False; refuted for the default suppress_orbit=True, which gives states with different orbits one text. Without a table it is the same exactly when the rounded coordinates have the same texts; with an integer the site does not matter. tolatex raises exactly what the table raises for an unknown site. repr of two sites, states, operators is the same exactly when all attributes are, so equal texts mean equal objects; the multi-line str of terms and interactions likewise: a line with the coefficient, a heading, and one line per operator in order. The text of the SwapFermionError raised by a pair c, c^+ of one state names the two operators in order.",
 "all states, operators, terms, tables, options, texts of floats that distinguish floats and contain no separators","the texts of all pairs of objects must differ",
 [B+"quantumoperator/quantumstate.py: SiteID.tolatex, StateID.tolatex, __repr__",B+"quantumoperator/particlesystem.py: AoC.tolatex, NumberOperator.tolatex, ParticleTerm.tolatex, __repr__, __str__",B+"quantumoperator/spinsystem.py: SpinOperator.tolatex, SpinInteraction.tolatex, __repr__, __str__"])
p("C57","The Green functions of tight-binding programs are the resolvent of the hopping matrix",
 "For every list of terms c_s+ c_s' (what HoppingFactory and CPFactory return), every normalised eigenvector of the matrix of terms + h.c. with its eigenvalue, and every set of states closed under the terms: the sum of GFSolverExactSingle with sign '-' for (c_i, c_j+) and sign '+' for (c_j+, c_i) on states built with AoC.matrix_repr, the result of RGFSolverExactSingle/Multiple, and of RGFSolverLanczosSingle on the merged MultiKrylov projections with krylov_space_dim at least the number of these states (threshold 0), is the two-sided inverse of z - t, t the matrix of hopping amplitudes + h.c.; it does not depend on the eigenvector. An eigenvector of t with energy e gives sum_j G_ij v_j = v_i/(z - e), and for phase factors the k-space function 1/(z - e) with a Lorentzian spectrum; for the periodic chain the plane waves are eigenvectors with energies 2 Re(t e^(ik)). With the bases of base_vectors (whole space or number of particles) all these calls return.",
 "all lists of one-body terms, tables, bases, eigenvectors, frequencies, broadenings and system sizes","the demos check a picture for one chain; the identity is for all Hamiltonians and sizes",
 [B+"GreenFunction/_GFSolver.py: GFSolverExactSingle, RGFSolverExactSingle, RGFSolverExactMultiple, RGFSolverLanczosSingle",B+"quantumoperator/factory.py: HoppingFactory, CPFactory",B+"quantumoperator/particlesystem.py: ParticleTerm.matrix_repr, AoC.matrix_repr",B+"lanczos.py: MultiKrylov",B+"hilbertspace.py: base_vectors",B+"GreenFunction/demo/NNTBChain1.py"])
p("C58","The spectra computed from the solvers are densities: non-negative, with the weight of the state -- 1 for the k-space spectra of the demos",
 "For every Hermitian HM there are an orthonormal eigenbasis and a ground state, and GFSolverExactSingle is one sum over this basis of simple poles at E_k - GE (sign '-') or GE - E_k (sign '+') for all frequencies, broadenings and operators. For eta > 0 and operators B_j = A_j+, the quadratic form -Im sum_ij conj(v_i) v_j G_ij / pi of the values of GFSolverExactSingle, and of RGFSolverExactSingle with sign '+', is non-negative for every choice of v, zero only if the states superposed with v vanish, and its integral over all frequencies is the squared norm of the superposed states. For the states c_j+ GS and c_j GS of fermions in the table the integral is sum |v_i|^2 for every Hamiltonian and every normalised GS, so the k-space spectrum the demos plot is positive with total weight 1 for every k. The Lanczos solver has the same properties when krylov_space_dim reaches the dimension; refuted for smaller krylov_space_dim (each column lives in its own Krylov space).",
 "all Hermitian matrices of every dimension, all states, coefficients v, broadenings eta > 0, all frequencies","positivity at all frequencies and an improper integral over all of them",
 [B+"GreenFunction/_GFSolver.py: GFSolverExactSingle, RGFSolverExactSingle, GFSolverLanczosSingle",B+"quantumoperator/particlesystem.py: AoC.matrix_repr",B+"lanczos.py: MultiKrylov",B+"GreenFunction/demo/NNTBChain1.py",B+"GreenFunction/demo/HubbardChain.py"])
p("C59","Cluster perturbation theory gives a causal, normalised spectrum",
  "The last part of the HubbardChain program (cluster Green functions to k-space spectrum): np.linalg.inv returns the inverse or raises LinAlgError, and it never fails here; the result satisfies the Dyson equation with the inter-cluster hopping; the cluster functions that the solvers return for fermions (any interaction, any normalised state, full Krylov spaces) are retarded functions of orthonormal states, the step keeps that, and for every k the plotted spectrum is strictly positive and integrates to 2 (one for each spin). Without interaction the step turns the resolvent of the cluster's hopping matrix into the resolvent of that matrix plus the inter-cluster hopping, and the whole program is exact: for every lattice of the database, every cluster, every choice of bond lengths and every amplitude it returns the trace of the resolvent of the Bloch matrix of the infinite lattice, so the result does not depend on the cluster; with the nearest-neighbour bonds returned by bonds(nth=1) on clusters of every shape of all six lattices it is twice the average of 1/(omega + i eta - E) over the textbook bands E(k): 2t sum cos k.a for chain, square, cubic and triangle, +-t|f(k)| for the honeycomb, -2t and t(1 +- |f(k)|) for the kagome lattice. The lists of Fourier and hopping terms are computed for every cluster of the six lattices.",
  "all cells and clusters, all inter-cluster bonds and amplitudes, all cluster Hamiltonians and states, all frequencies, k points and broadenings",
  "A run shows one interaction strength on one cluster on a grid of frequencies; positivity and total weight are statements about every k and the whole frequency axis, and the non-failure of two inverses about every matrix of the family.",
  [B+"GreenFunction/demo/HubbardChain.py: lines 146-216", B+"GreenFunction/_GFSolver.py: RGFSolverLanczosMultiple", B+"lattice/lattice.py: Lattice.decompose"])

p("C60","Printed forms and names identify the object",
  "repr of a SimpleHilbertSpace, a HilbertSpace and a Bond is a Python expression which constructs the same object again (a Bond at the same precision), for all accepted arguments including a single state, no particle constraint and any number of subspaces; equal reprs, and for the spaces equal printed texts, mean the same object; the printed texts of the spaces show the number of particles, of states and of subspaces, one item per line. The printed IndexTable determines start and objects if the objects' texts begin with no digit or the indices have less than 8 digits; without that two different tables print alike (refuted unrestricted). The names given by lattice_generator agree exactly if the lattice and the extents used agree, equal names mean equal clusters, and no special cluster has the name of a generated one.",
  "all spaces, tables and bonds the constructors accept; all lattice names and extents",
  "A test compares a few texts with literals; that no two different objects share a text and that every text evaluates back is a statement about all of them.",
  [B+"hilbertspace.py: SimpleHilbertSpace.__repr__, __str__, HilbertSpace.__repr__, __str__", B+"indextable.py: IndexTable.__str__", B+"bond.py: Bond.__repr__", B+"lattice/_lattice_database.py: lattice_generator, special_cluster (name)"])

p("C61","The Heisenberg demos build the exchange Hamiltonian of the bonds and plot its spin excitation spectrum",
  "For every lattice and every set of bond lengths, the matrix HM that the programs assemble from bonds and matrix_function is J times the sum of S_i.S_j over the bonds (the translated endpoint counted as its equivalent in the cluster); it is Hermitian and commutes with the total spin provided no bond connects a site with its own translation - then J Sz_i is added instead of nothing (refuted for one-site clusters), and without bonds the program raises AttributeError. bonds(nth=1) of a chain cluster of n >= 2 sites gives the periodic chain; for clusters of every size of all six lattices it gives the nearest-neighbour model with periodic boundary conditions: twice the matrix is J times the sum of S_i.S_j over all sites i and their 2, 4, 6, 3, 4 or 6 nearest neighbours j (for the honeycomb if the precision rounds 1/sqrt 3 up). For every Hermitian matrix, state and energy the exact program returns, and the value at (omega, k) is -Im/pi of (1/n) sum_ij <S-_i GS|(omega + i eta + GE - H)^-1|S-_j GS> e^(ik(r_j-r_i)); the Lanczos program with a full Krylov space returns the same table and raises ValueError if some S-_i GS is as short as the threshold. The spectrum is non-negative, has the weight |sum_j e^(ik r_j) S-_j GS|^2/n at k, 1/2 + <Sz_i> at a site, and the n allowed momenta together have the weight of the n sites; at k = 0 it is a single Lorentzian at omega = 0 of weight |S-_tot GS|^2/n, zero for singlets. The state with all spins up is an eigenstate of every such matrix with energy J/4 per bond, the lowest if J <= 0; started from it on roomy clusters of all six lattices the program tabulates the spin waves of the infinite lattice at the momenta the cluster allows: a Lorentzian at -J/2 times the sum of 1 - cos k.d over the nearest neighbours d for chain, square, triangle and cubic, and the resolvent of the cell's spin-wave matrix for honeycomb and kagome.",
  "all lattices, bonds, couplings, chain lengths, Hermitian matrices, states, frequencies, momenta and broadenings",
  "A run plots one chain length on one grid; the operator identity, positivity and sum rules hold for all sizes and the whole frequency axis.",
  [B+"GreenFunction/demo/HeisenbergChain1.py", B+"GreenFunction/demo/HeisenbergChain2.py", B+"quantumoperator/spinsystem.py: SpinInteraction.matrix_function, SpinOperator.matrix_function", B+"lattice/lattice.py: Lattice.bonds, getIndex", B+"GreenFunction/_GFSolver.py: GFSolverExactMultiple, GFSolverLanczosMultiple"])

p("C62","Lattice.show, ShowFirstBZ and Octahedron draw what they say",
  "show(scope) marks every site whose cell has coordinates between -scope and scope and nothing else, each once if no two points of the cluster are equivalent; a negative or non-integer scope raises AssertionError, a three-dimensional lattice RuntimeError; the limits of the axes become a square with the same centre containing the old ones; two figures have the same file name only if name and scope agree. ShowFirstBZ marks and labels the nine reciprocal lattice points with coefficients -1, 0, 1 and draws the part of each perpendicular bisector within |scale||K| of its middle; for reduced vectors the zone is exactly what these eight lines cut out of the plane, and its boundary is drawn completely if and only if max(a0^2, a1^2) - |a0.a1| <= 2 |scale| area; refuted without these conditions (a rectangle with sides 1 and 3 at the default scale; skewed vectors at every scale). Dependent vectors raise LinAlgError, other shapes AssertionError. The octahedron's lines are exactly the pairs of nearest corners and the connections with the centre, each once.",
  "all lattices, scopes, names, pairs of plane vectors, scales and points of k-space",
  "The zone is the intersection of infinitely many half planes; that eight lines suffice and that its whole boundary is drawn are statements about all lattices and a continuum of points.",
  [B+"lattice/lattice.py: Lattice.show, ShowFirstBZ", B+"tools/Octahedron.py"])

p("C63","The texts of lines, bonds and lattices say what the object is",
  "print(Line2D) is 'y = b', 'x = c' or 'y = ax + b' with coefficients in decimals, each within 0.00005 of that of the line, so that every point of the line satisfies the printed formula up to (1+|x|)/20000; the text depends on the line only and not on the two points given, lines with the same text are of the same kind and apart by at most (1+|x|)/10000 (different lines with the same text exist). repr of a line is an expression with the same two points, and equal reprs mean equal points; the tolerance is not printed, so evaluating it can raise ValueError (refuted). print(Bond) never raises: five lines with both endpoints, the length, and azimuth and displacement or 'Undefined' for a bond without direction; equal bonds can print differently (refuted). print(Lattice) gives the sizes and one line per point and vector, and equal texts mean equal sizes and equal texts of all points and vectors.",
  "all lines (exactly horizontal/vertical or clearly not), tolerances, bonds of every dimension, lattices",
  "That a rounded formula describes a line everywhere, and that texts identify objects, are statements about a continuum of lines and points.",
  [B+"line2d.py: Line2D.__repr__, __str__", B+"bond.py: Bond.__str__", B+"lattice/lattice.py: Lattice.__str__"])

if __name__=="__main__":
    with open("/verif/properties.jsonl","w") as f:
        for x in P: f.write(json.dumps(x)+"\n")
    print(len(P))
