STATUS={
"C01":("proved","For every type of hashable objects whose == is an equivalence."),
"C02":("proved","Also shows that an empty iterable raises UnboundLocalError (undocumented)."),
"C03":("proved","numpy scalar coordinates are not modelled."),
"C04":("proved","Cells with the exact binary64 rounding margin (C04_cell, C04_cell_any_precision, C04_mathematical_cell, C04_one_step_apart), totality, monotonicity and exactness of integers; the naive reading without the margin is refuted by concrete witnesses: SiteID((0.0002,)) == SiteID((0.0003,)), SiteID((0.1+0.7,)) != SiteID((0.8,))."),
"C13":("proved","Hopping for all bases; number/Coulomb when left_bases is not given; the wrong matrices with a different left_bases, and a hopping tag on equal states, are exhibited."),
"C15":("proved","Sectors are the complete p-particle sets of n<=64 states; an empty target sector with a non-empty source makes scipy raise ValueError."),
"C16":("proved","For non-zero coefficients; with coefficient 0 the coordinate form lists explicit zeros (witness)."),
"C18":("proved","Entries are identified with the Fock-space matrix elements; failures characterised completely."),
"C05":("proved",""),
"C06":("proved","For operators built at the current precision; after set_float_point_precision a witness breaks x.dagger().dagger()==x."),
"C07":("proved",""),
"C08":("proved","Any sorted basis on which both factors have a matrix; existence on the full Fock space of n<=64 states. Coefficients are exact Gaussian rationals."),
"C09":("proved",""),
"C10":("proved",""),
"C11":("proved",""),
"C12":("proved",""),
"C14":("proved","n<=64 (uint64 kets)."),
"C17":("proved","ParticleTerm and SpinInteraction histories."),
"C19":("proved","For collections without repeated states; also as arrays for the full space and the particle-number sectors."),
"C20":("proved",""),
"C21":("proved","Refutations included: repeated states inside a collection are accepted (ket 2 from states (0,0)), a float particle number passes the constructor, a non-number raises TypeError instead of ValueError."),
"C22":("proved",""),
"C23":("proved",""),
"C24":("proved",""),
"C25":("proved","Exact arithmetic; all operator lists."),
"C26":("proved","dagger for operators built at the current precision."),
"C28":("proved",""),
"C29":("proved",""),
"C50":("proved",""),
"C27":("proved","For every table order, with the ordering sign; the sign is shown to be necessary by a witness (all up states first, S+_0 S-_1 gives -1)."),
"C30":("proved","Exact complex arithmetic, one-dimensional kets."),
 "C43": ("proved", "exact arithmetic over C; square matrix and vectors of one dimension n; threshold >= 0 as set_threshold enforces; rounding, in-place dtype effects and logging not modelled"),
 "C44": ("proved", "dictionary as association list in insertion order"),
'C45': ('proved', 'exact complex arithmetic; operators are abstract keys with decidable equality and a dagger; np.linalg.solve modelled by Gaussian elimination; square shapes'),
'C46': ('proved', 'exact arithmetic; invariance stated for the span of v0..H^(d-1)v0; moments theorem for the truncated case'),
'C47': ('proved', 'exact results characterised and proved where the quotients fit in 53 bits; correctly rounded value for Permutation in general, error bound for Combination; wrong values beyond (Combination(24,1)=23) refuted by computation'),
'C48': ('proved', 'for every properly nested program: stdout restored, logs closed, exceptions unchanged, log contents; re-entering an active instance, two logs in the same second, and restoring the thread number are refuted'),
'C49': ('proved', 'Valid colours give a well-formed SGR sequence closed by a reset; the documented invalid ones raise ValueError; malformed hex strings such as #-1-1-1, booleans and floats as components are accepted (refutations)'),
'C39': ('proved', 'Equality of directed/undirected bonds up to the quantised endpoints, hash, flip, oppositeTo, displacement, length, azimuth (float coordinates and int64 in the identity, displacement rounded; length and azimuth exact reals); refuted: flip after a precision change, distinct points sharing a cell, int64 overflow'),
'C40': ('proved', 'Exact reals with tolerances; lines whose coordinate differences are 0 or larger than the tolerance; refuted for a line horizontal only within the tolerance'),
'C41': ('proved', 'Exact reals. Constructor errors, exclusivity, exactness for convex polygons with tolerance 0, soundness with tolerance, CORNER characterised for every polygon; vertical-edge and non-convex behaviour refuted by witnesses.'),
'C42': ('proved', 'Exact reals. Every function is shown to be the counterclockwise turn (Rodrigues) about its axis; orthogonality, determinant, fixed axis, additivity, degrees, all named constants; the threshold branch near the z axis is bounded and refuted by a witness.'),
'C31': ('proved', 'Constructor outcome (AssertionError/ValueError/LinAlgError/success) characterised; reciprocal vectors dual, in the span and unique. Exact reals; linear independence decides success.'),
'C32': ('proved', 'Inverse for every accepted lattice, every precision and every KD-tree tie-breaking; fold=True for small translations and for all translations of reduced cells (C34 gives the general limits).'),
'C33': ('proved', 'Soundness for every lattice, site and fuel; termination for every accepted lattice.'),
'C34': ('proved', 'Small translations always; all translations for reduced (incl. 1D, orthogonal, triangular) cells; refuted for a skewed cell and for cells with equivalent points.'),
'C35': ('proved', 'Every history: value is a rounded lattice distance, monotone, stable; right whenever the list is rebuilt (reduced, compact, resolved cells) and for a chain after every history; refuted in general (history dependence for a rectangular one-point cell, cluster distances shadowing shorter ones, IndexError for tiny vectors).'),
'C36': ('proved', 'bonds: whatever is returned after any history lies in the length window, is listed at most once (never with its opposite), intra-cluster bonds are complete, inter-cluster bonds complete in nice cells; exactly the bonds of the nth rounded distance under the stated separation conditions; total on nice separated cells; chain end to end. Refuted in general: C36_rounding_refuted (lattice constant 1/3 returns no nearest-neighbour bond).'),
'C37': ('proved', 'lattice_generator for every known name and all multiplicities, precision >= 1 (tolerance <= 0.1): accepted, scaled vectors, points listed row by row, no equivalent points, tiles the cell lattice; exceptions; geometry of the cells; the hypotheses of C34-C36 hold for all chain/square/cubic clusters. With precision 0 the honeycomb cell is rejected (C37_precision_refuted).'),
'C51': ('proved', 'Exact-real model of the cluster table; every name and alias is shown to be accepted (precision >= 1), to have the documented number of sites, pairwise inequivalent, and to tile the (possibly displaced) square, triangular or honeycomb lattice.'),
'C38': ('proved', 'One model over abstract scalar operations, instantiated with exact reals (full claim) and with IEEE doubles (anchors exact, at least min_num-1 points per leg, refutation of min_num). nan/inf coordinates are outside the float theorem.'),
'C52': ('proved', 'exact reals instead of binary64'),
'C53': ('proved', "Exact real arithmetic; matplotlib's rendering is not modelled, the data handed to it is."),
'C55': ('proved', 'exact complex arithmetic (np.linalg.solve as exact elimination), like C45/C46'),
'C56': ('proved', 'Closed under the global context; refutation example: an Ising x bond alone does not conserve the number of down spins.'),
'C54': ('proved', 'Texts of floats (repr, round) and of coefficients are parameters with stated hypotheses, met by a concrete instance; refuted for the default suppress_orbit=True.'),
'C57': ('proved', 'Exact complex arithmetic; the eigenvector is any exact normalised eigenvector (numpy/scipy eigensolvers are not modelled); concrete two-site case given.'),
'C58': ('proved', 'Complete for the exact solvers and for full Krylov spaces; positivity of the matrix of truncated Lanczos values is refuted by C58_lanczos_truncated_refuted. eigh/eigsh themselves are not modelled: existence of eigenbasis and ground state is proved, their computation is not.'),
'C59': ('proved', 'the Krylov spaces are full (a truncated one can give negative k-space spectra: C58_lanczos_truncated_refuted); exact arithmetic; operator objects by their equality, dagger, site and derive'),
'C60': ('proved', "float particle numbers excluded from the round trip; numpy 1.x texts of scalars; Python's float texts abstract (assumed faithful, as in C54)"),
'C61': ('proved', 'eigh/eigsh not modelled: GS and GE are universally quantified; the unrestricted rotation invariance is refuted for one-site clusters (C61_one_site_refuted) and the unrestricted Lanczos agreement by C61_lanczos_short_refuted.'),
'C62': ('proved', 'The unrestricted claim that the drawn lines contain the zone boundary is refuted (C62_bz_scale_refuted, C62_bz_skew_refuted); the exact condition is proved.'),
'C63': ('proved', "numpy's texts of arrays and Python's text of a float are parameters; the unrestricted claims are refuted (C63_line_text_refuted, C63_line_tol_refuted, C63_bond_equal_refuted) beside the proved ones."),
}
