{"id": "C01", "title": "Cubic constants can be read in any index order", "statement": "Reading a cubic normal-coordinate force constant by three mode numbers returns the same stored number for all six orders of the three numbers, and reading never runs past the storage when every mode number is below the number of modes the storage was sized for; a mode number that is too large always aborts instead of returning some other constant.", "quantifier": "every number of modes, every triple of mode numbers, every stored content and every kind of arithmetic", "why_tests_cant": "the index space is unbounded; a test only probes a few triples of a few molecules", "anchors": ["spectro/src/f3qcm.rs: F3qcm, Index", "spectro/src/utils.rs: find3"]}
{"id": "C02", "title": "Cubic storage is exactly filled, with no aliasing", "statement": "For n modes the unordered triples of modes are in one-to-one correspondence with the slots 0 .. n(n+1)(n+2)/6-1 of the cubic storage: two different unordered triples never share a slot and no slot is unused.", "quantifier": "every n and every pair of triples below n", "why_tests_cant": "an aliased slot silently overwrites another constant; only a proof covers all n", "anchors": ["spectro/src/utils.rs: find3", "spectro/src/load.rs: process_geom (i3vib, i3n3n)"]}
{"id": "C03", "title": "Quartic constants can be read in any index order", "statement": "Reading or writing a quartic normal-coordinate force constant by four mode numbers addresses the same slot for all 24 orders of the numbers; in-range numbers never abort and an out-of-range number always aborts.", "quantifier": "every number of modes, every quadruple of mode numbers, every content", "why_tests_cant": "24 orders times unbounded indices", "anchors": ["spectro/src/f4qcm.rs: F4qcm, Index, IndexMut", "spectro/src/utils.rs: find4"]}
{"id": "C04", "title": "Quartic storage is exactly filled, with no aliasing", "statement": "For n modes the unordered quadruples of modes are in one-to-one correspondence with the slots 0 .. n(n+1)(n+2)(n+3)/24-1 of the quartic storage.", "quantifier": "every n and every pair of quadruples below n", "why_tests_cant": "aliasing would corrupt constants only for particular large indices", "anchors": ["spectro/src/utils.rs: find4", "spectro/src/load.rs: process_geom (i4vib, i4n3n)"]}
{"id": "C05", "title": "Index arithmetic does not overflow", "statement": "For any index below 65535 the 64-bit unsigned arithmetic used to locate cubic and quartic constants neither overflows nor underflows, so it computes the mathematical index.", "quantifier": "every triple and quadruple of indices below the bound", "why_tests_cant": "overflow shows only for sizes no test runs", "anchors": ["spectro/src/utils.rs: find3, find4, ioff"]}
{"id": "C06", "title": "Loading the cubic force field", "statement": "Loading the cubic force field for 3N = m coordinates accepts a number list of length m(m+1)(m+2)/6, or that length plus two leading header numbers, and aborts on every other length; the resulting 3-index table is symmetric in all its indices and its (i,j,k) entry is the number at the position of the sorted triple in the canonical i>=j>=k order of the list.", "quantifier": "every m, every list of numbers and every index triple", "why_tests_cant": "the loop writes six cells per number; a missed permutation only shows for asymmetric reads", "anchors": ["spectro/src/load.rs: load_fc3, new_fc3"]}
{"id": "C07", "title": "Loading the quartic force field", "statement": "Loading the quartic force field for m coordinates accepts length m(m+1)(m+2)(m+3)/24, or that plus two, and aborts on every other length; the resulting table is symmetric under all 24 permutations and its entries are the listed numbers in canonical order.", "quantifier": "every m, every list of numbers and every index quadruple", "why_tests_cant": "24 writes per number", "anchors": ["spectro/src/load.rs: load_fc4, new_fc4"]}
{"id": "C08", "title": "The Hessian loads the same with and without a header", "statement": "A second-derivative list of m*m numbers and the same list preceded by two header numbers load to the same m-by-m matrix.", "quantifier": "every m and every list of numbers", "why_tests_cant": "tests use symmetric matrices, for which row and column order cannot be told apart", "anchors": ["spectro/src/load.rs: load_fc2"]}
{"id": "C09", "title": "Cubic constants are transformed completely", "statement": "For a permutation-symmetric Cartesian cubic table, the normal-coordinate cubic constant of modes i,j,k equals the unit factor times the full triple contraction of the table with the three mode vectors, divided by sqrt(wi wj wk); this holds for any order of i,j,k when read back.", "quantifier": "every size, every symmetric table, every mode matrix and frequency vector, over the reals", "why_tests_cant": "the code exploits symmetry and a hand-written push order", "anchors": ["spectro/src/utils.rs: force3", "spectro/src/f3qcm.rs"]}
{"id": "C10", "title": "Quartic constants are transformed completely", "statement": "For a permutation-symmetric Cartesian quartic table, the normal-coordinate quartic constant of modes i,j,k,l equals the unit factor times the full fourfold contraction with the four mode vectors, divided by sqrt(wi wj wk wl); the repeated writes of one constant all agree.", "quantifier": "every size, every symmetric table, every mode matrix and frequency vector, over the reals", "why_tests_cant": "several loop iterations write the same cell", "anchors": ["spectro/src/utils.rs: force4", "spectro/src/f4qcm.rs"]}
{"id": "C11", "title": "Force constants rotate as tensors", "statement": "Rotating the second, third and fourth derivatives to the principal axes applies the axis matrix once to every Cartesian index of every atom; index symmetry is preserved, and rotating by orthogonal axes and then by their transpose gives back the original.", "quantifier": "every atom count, every table, every axis matrix, over the reals", "why_tests_cant": "a wrongly transposed axis matrix is invisible for the identity or symmetric axes", "anchors": ["spectro/src/lib.rs: rot2nd, rot3rd, rot4th"]}
{"id": "C12", "title": "Mass weighting gives a symmetric secular matrix", "statement": "The mass-weighted second-derivative matrix is symmetric whatever the input, reads only the upper triangle of the input, and for a symmetric input equals M^(-1/2) F M^(-1/2).", "quantifier": "every atom count, every matrix and every mass vector", "why_tests_cant": "an unsymmetric result would silently be half ignored by the eigensolver", "anchors": ["spectro/src/lib.rs: form_sec"]}
{"id": "C13", "title": "Wavenumber conversion keeps order and sign", "statement": "Converting force-constant eigenvalues to wavenumbers is strictly increasing and odd: imaginary frequencies appear as negative wavenumbers, zero stays zero, and the order of the modes is unchanged.", "quantifier": "every eigenvalue vector, over the reals", "why_tests_cant": "monotonicity is a statement about all pairs", "anchors": ["spectro/src/utils.rs: to_wavenumbers"]}
{"id": "C14", "title": "Eigenvalues and eigenvectors stay paired when sorted", "statement": "The sorted eigen-decomposition is ordered as requested, contains each eigenpair of the underlying solver exactly once, and its i-th column is still the eigenvector of its i-th value.", "quantifier": "every symmetric matrix, every solver result, both sort directions", "why_tests_cant": "mispairing needs a specific input order to show", "anchors": ["spectro/src/utils/linalg.rs: symm_eigen_decomp"]}
{"id": "C15", "title": "Asymmetric tops list every mode once", "statement": "For an asymmetric or diatomic rotor the mode list is exactly the nondegenerate modes 0..nvib-1 in order, whatever the frequencies.", "quantifier": "every nvib and every frequency vector (any arithmetic)", "why_tests_cant": "must hold for accidental near-degeneracy too", "anchors": ["spectro/src/resonance.rs: Restst::deg_modes"]}
{"id": "C16", "title": "Degenerate modes are classified as a partition", "statement": "For a symmetric top every normal mode belongs to exactly one entry (single, double or triple) of the mode list.", "quantifier": "every frequency vector and tolerance", "why_tests_cant": "needs unusual near-degenerate spectra", "anchors": ["spectro/src/resonance.rs: Restst::deg_modes", "spectro/src/mode.rs"]}
{"id": "C17", "title": "The vibrational state list is complete and free of duplicates", "statement": "For an asymmetric top with n modes the state list consists of the ground state, n fundamentals, n first overtones and n(n-1)/2 binary combinations, in that order, all distinct.", "quantifier": "every n", "why_tests_cant": "off-by-one in nested loops", "anchors": ["spectro/src/resonance.rs: Restst::new", "spectro/src/state.rs: State"]}
{"id": "C18", "title": "State look-up tables point at the right states", "statement": "The tables that map a mode to its fundamental, a mode to its overtone and a pair of modes to its combination band hold positions at which the state list really has that fundamental, overtone or combination; distinct pairs never share a table slot and no table access leaves its table.", "quantifier": "every mode list in which each mode occurs once", "why_tests_cant": "wrong positions would make resonance corrections hit the wrong level", "anchors": ["spectro/src/resonance.rs: Restst::new", "spectro/src/utils.rs: ioff"]}
{"id": "C19", "title": "Output vectors line up mode by mode", "statement": "The harmonic, fundamental and resonance-corrected frequency lists and the irreducible-representation list of one result have one entry per mode and the i-th entries describe the same mode.", "quantifier": "every molecule", "why_tests_cant": "tests compare values list by list, never across lists", "anchors": ["spectro/src/run.rs: run, finish, compute_irreps", "spectro/src/lib.rs: make_sym_funds", "spectro/src/output.rs"]}
{"id": "C20", "title": "Type-1 Fermi resonances are found exactly", "statement": "For an asymmetric top, the reported type-1 resonances are exactly the pairs of modes (i,j) with |2wi - wj| <= 200 and |k_iij| >= 10, each reported once.", "quantifier": "every frequency vector and cubic force field (any arithmetic, including floats with NaN)", "why_tests_cant": "threshold boundaries and index loops", "anchors": ["spectro/src/rotor.rs: Rotor::fermi1, ferm1_test"]}
{"id": "C21", "title": "Type-2 Fermi resonances are found exactly", "statement": "For an asymmetric top with modes in non-increasing order of frequency, the reported type-2 resonances are exactly the triples i>j>k of mode numbers whose highest mode k satisfies the documented closeness test |wk - wi - wj| <= 200 or a small product of the three combinations, with |k_ijk| >= 10 and the other documented conditions, each reported once with k as the sum mode.", "quantifier": "every sorted frequency vector and cubic force field", "why_tests_cant": "the code takes a maximum of three signed differences", "anchors": ["spectro/src/rotor.rs: Rotor::fermi2, ferm2_test, aminjm"]}
{"id": "C22", "title": "Coriolis resonances are found exactly", "statement": "For an asymmetric top, the reported Coriolis resonances are exactly the pairs of distinct modes i>j and axes with |wi - wj| <= 200 and |zeta| >= 0.25, each once.", "quantifier": "every frequency vector and zeta table", "why_tests_cant": "threshold boundaries and axis labels", "anchors": ["spectro/src/rotor.rs: Rotor::coriolis"]}
{"id": "C23", "title": "Darling-Dennison resonances are found exactly", "statement": "For an asymmetric top, the reported Darling-Dennison resonances are exactly the pairs i>j with |2wi - 2wj| <= 300 (the documented test), each once.", "quantifier": "every frequency vector", "why_tests_cant": "threshold boundaries", "anchors": ["spectro/src/rotor.rs: Rotor::darling, darling_test"]}
{"id": "C24", "title": "No symmetric-top resonance is overlooked", "statement": "For a symmetric top every nondegenerate/degenerate combination of modes that passes the Darling-Dennison or type-2 Fermi test is reported.", "quantifier": "every symmetric-top mode list and frequency vector", "why_tests_cant": "the first nondegenerate mode needs to be involved to show", "anchors": ["spectro/src/rotor.rs: Rotor::darling, Rotor::fermi2"]}
{"id": "C25", "title": "A mode is never in Fermi resonance with itself", "statement": "No reported Fermi resonance couples a mode with its own overtone or lists one mode twice as a type-2 resonance.", "quantifier": "every frequency vector and cubic force field", "why_tests_cant": "needs low-frequency modes with large diagonal cubic constants", "anchors": ["spectro/src/rotor.rs: Rotor::fermi1, Rotor::fermi2"]}
{"id": "C26", "title": "Every Fermi resonance that is removed is also diagonalised", "statement": "Each reported Fermi resonance whose term is dropped from the anharmonic constants is treated by a two-level diagonalisation of the corresponding energy levels.", "quantifier": "every list of resonances", "why_tests_cant": "needs two resonances of one mode", "anchors": ["spectro/src/lib.rs: make_fermi_checks", "spectro/src/enrgy.rs: enrgy", "spectro/src/ifrm1.rs", "spectro/src/ifrm2.rs"]}
{"id": "C27", "title": "Fundamentals equal level differences (asymmetric top)", "statement": "The fundamental frequency of each mode computed from the closed formula equals the energy of the one-quantum state minus the energy of the ground state.", "quantifier": "every number of modes, frequencies, symmetric anharmonic constants and E0, over the reals", "why_tests_cant": "two separately written formulas", "anchors": ["spectro/src/utils.rs: make_funds", "spectro/src/enrgy.rs: part1"]}
{"id": "C28", "title": "Fundamentals equal level differences (symmetric top)", "statement": "The same holds for symmetric tops, for nondegenerate and degenerate modes and with the vibrational angular momentum constants.", "quantifier": "every symmetric-top mode list, frequencies, x and g constants, over the reals", "why_tests_cant": "two separately written formulas", "anchors": ["spectro/src/lib.rs: make_sym_funds", "spectro/src/enrgy.rs: part1"]}
{"id": "C29", "title": "Without Fermi resonance the corrected frequencies are the fundamentals", "statement": "If no Fermi resonance is reported, the resonance-corrected frequencies equal the fundamentals mode by mode, and the zero-point energy is the ground state energy.", "quantifier": "every asymmetric-top molecule without Fermi resonances, over the reals", "why_tests_cant": "links state list, energies and output assembly", "anchors": ["spectro/src/run.rs: finish", "spectro/src/enrgy.rs: enrgy"]}
{"id": "C30", "title": "Fermi diagonalisation acts on two levels only and keeps their sum", "statement": "Treating one Fermi resonance changes the energies of the two coupled levels only, keeps their sum, never brings them closer together, keeps their order, and their product changes by the squared coupling.", "quantifier": "every pair of levels, coupling constant and correct eigensolver, over the reals", "why_tests_cant": "statement about all level pairs", "anchors": ["spectro/src/utils.rs: rsfrm1, rsfrm2", "spectro/src/utils/linalg.rs"]}
{"id": "C31", "title": "E0 shifts all levels rigidly", "statement": "Adding a constant to E0 adds it to every level, also after the Fermi diagonalisations; all transition frequencies are unchanged.", "quantifier": "every molecule, list of resonances and shift, over the reals", "why_tests_cant": "relational property of two runs", "anchors": ["spectro/src/enrgy.rs: enrgy, part1", "spectro/src/utils.rs: rsfrm1, rsfrm2"]}
{"id": "C32", "title": "The anharmonic constant matrix is symmetric", "statement": "For an asymmetric top the anharmonic constants x_ij and x_ji are equal and every entry is assigned.", "quantifier": "every number of modes, force field and resonance list (any arithmetic)", "why_tests_cant": "matrix filled by loops over half the pairs", "anchors": ["spectro/src/lib.rs: xcalc"]}
{"id": "C33", "title": "Resonant anharmonic constants drop exactly the resonant term", "statement": "For an asymmetric top, in each resonance case the cubic contribution to an anharmonic constant equals the non-resonant formula minus its near-singular partial fraction.", "quantifier": "every triple of positive frequencies with nonzero denominators, over the reals", "why_tests_cant": "algebraic identity over the reals", "anchors": ["spectro/src/lib.rs: xcalc"]}
{"id": "C34", "title": "Resonant E0 terms drop exactly the resonant term", "statement": "For an asymmetric top, in each resonance case the cubic contribution to E0 equals the non-resonant formula minus its near-singular partial fraction.", "quantifier": "every triple of positive frequencies with nonzero denominators, over the reals", "why_tests_cant": "algebraic identity over the reals", "anchors": ["spectro/src/utils.rs: make_e0"]}
{"id": "C35", "title": "Symmetric-top constants drop exactly the resonant term", "statement": "For a symmetric top, in each resonance case the cubic contributions to the x and g constants equal the non-resonant formula minus its near-singular partial fraction.", "quantifier": "every triple of positive frequencies with nonzero denominators, over the reals", "why_tests_cant": "algebraic identity over the reals", "anchors": ["spectro/src/xcals.rs: deg_deg, make_gcnst, nondeg_deg, nondeg_nondeg"]}
{"id": "C36", "title": "Symmetric-top E0 includes every cubic interaction", "statement": "For a symmetric top E0 includes one cubic term for each pair and triple of degenerate modes.", "quantifier": "every number of degenerate modes", "why_tests_cant": "needs three or more degenerate pairs", "anchors": ["spectro/src/xcals.rs: make_e3"]}
{"id": "C37", "title": "Symmetric-top anharmonic matrices are symmetric", "statement": "For a symmetric top the x and g constant matrices are symmetric.", "quantifier": "every mode list, force field and resonance list", "why_tests_cant": "matrices filled in several passes", "anchors": ["spectro/src/xcals.rs: xcals, setup_xcals"]}
{"id": "C38", "title": "Resonant vibration-rotation constants drop exactly the resonant term", "statement": "When a Coriolis resonance is flagged for a mode pair and axis, the contribution to the vibration-rotation constant equals the non-resonant formula minus its near-singular part, and stays finite when the two frequencies coincide.", "quantifier": "every pair of positive frequencies, over the reals", "why_tests_cant": "algebraic identity over the reals", "anchors": ["spectro/src/lib.rs: alpha", "spectro/src/alphas.rs: make_alpha"]}
{"id": "C39", "title": "Every Coriolis resonance is honoured", "statement": "Each reported Coriolis resonance (mode pair and axis) is treated as resonant when the vibration-rotation constants are computed, and no other pair/axis is.", "quantifier": "every list of resonances", "why_tests_cant": "needs one pair resonant on two axes, or a prolate top", "anchors": ["spectro/src/lib.rs: make_icorol, alpha", "spectro/src/alphas.rs: alphas, make_alpha", "spectro/src/rotor.rs: coriolis"]}
{"id": "C40", "title": "Coriolis coupling constants are antisymmetric and bounded", "statement": "The Coriolis zeta constants satisfy zeta_ij = -zeta_ji, vanish for i = j, and for orthonormal mode vectors never exceed 1 in magnitude.", "quantifier": "every atom count, mode matrix and axis", "why_tests_cant": "statement over all matrices", "anchors": ["spectro/src/lib.rs: make_zmat, zeta"]}
{"id": "C41", "title": "Rotational constants are linear in the quantum numbers", "statement": "The vibrationally averaged rotational constants of a state are the equilibrium constants plus the sum over modes of alpha times (v + d/2); exciting one quantum of a mode changes each constant by exactly that mode's alpha.", "quantifier": "every state list and alpha matrix, over the reals", "why_tests_cant": "relation between states", "anchors": ["spectro/src/lib.rs: alphaa, rota, rots", "spectro/src/alphas.rs: alphas"]}
{"id": "C42", "title": "Watson A and S quartic constants describe the same Hamiltonian", "statement": "For an asymmetric top the reported A- and S-reduced quartic distortion constants satisfy Watson's exact conversion relations, and the effective rotational constants of the two reductions differ accordingly.", "quantifier": "every tau table and rotational constants with Bx <> By, over the reals", "why_tests_cant": "exact algebraic relations between outputs", "anchors": ["spectro/src/quartic.rs: Quartic::new"]}
{"id": "C43", "title": "Distortion tensors have the right symmetry and sign", "statement": "The quartic tensor tau is symmetric under swapping the indices of a pair and swapping the pairs, its diagonal elements are never positive for positive frequencies, tau-prime is symmetric, and hence the equilibrium distortion constant of a linear molecule is never negative.", "quantifier": "every wilson matrix, frequencies and rotational constants, over the reals", "why_tests_cant": "sign and symmetry for all inputs", "anchors": ["spectro/src/utils.rs: make_tau, tau_prime", "spectro/src/quartic.rs: Quartic::new"]}
{"id": "C44", "title": "Sextic constants of both reductions agree on the pure K sum", "statement": "For an asymmetric top the sums of the four main sextic constants agree between the A and S reductions, PhiJ+PhiJK+PhiKJ+PhiK = HJ+HJK+HKJ+HK, and equal the zzz diagonal element.", "quantifier": "every phi table, over the reals", "why_tests_cant": "exact algebraic relation between outputs", "anchors": ["spectro/src/sextic.rs: Sextic::new, make_phi"]}
{"id": "C45", "title": "Sextic intermediate tensors are totally symmetric", "statement": "The cubic-in-momentum and quartic intermediate tensors of the sextic calculation are invariant under permutations of their axis indices.", "quantifier": "every input", "why_tests_cant": "each cell written by hand", "anchors": ["spectro/src/sextic.rs: scc, cc_tensor"]}
{"id": "C46", "title": "Axis relabelling is consistent", "statement": "For every supported axis representation the two relabelling tables are inverse permutations of the three axes, and every other representation number is rejected.", "quantifier": "every representation number", "why_tests_cant": "used to index in both directions everywhere", "anchors": ["spectro/src/consts.rs: IPTOC, ICTOP", "spectro/src/utils.rs: princ_cart"]}
{"id": "C47", "title": "Aligning degenerate modes keeps them orthonormal", "statement": "Rotating each pair of degenerate modes leaves all mode vectors orthonormal, leaves the other modes alone, keeps the mass-weighted copy consistent, and makes the chosen component of the second partner vanish.", "quantifier": "every mode matrix and rotation angle, over the reals", "why_tests_cant": "relation over all matrices", "anchors": ["spectro/src/lib.rs: bdegnl"]}
{"id": "C48", "title": "Input files survive a write/read cycle", "statement": "Writing a molecule description and reading it back gives the same header, geometry lines, weights, curvilinear coordinates and degenerate-mode lists.", "quantifier": "every molecule description", "why_tests_cant": "column merging depends on digit counts", "anchors": ["spectro/src/utils.rs: Display for Spectro, parse_line", "spectro/src/load.rs: Spectro::read"]}
{"id": "C49", "title": "Dummy atoms keep the coordinates they were given", "statement": "A dummy atom read from the input is placed at the coordinates written in the input (re-expressed in the molecule's frame), whatever the real atoms' coordinates are.", "quantifier": "every geometry and dummy atom", "why_tests_cant": "needs a coordinate shared between different axes", "anchors": ["spectro/src/load.rs: Spectro::read", "spectro/src/dummy.rs: Dummy::get_vals"]}
{"id": "C50", "title": "Symmetry labels: one per mode, and the search ends", "statement": "Computing irreducible representations always terminates and returns exactly one label per mode, retrying with a tenfold tolerance on failure and falling back to A.", "quantifier": "every molecule, mode matrix and starting tolerance", "why_tests_cant": "a non-terminating retry cannot be observed by a test that passes", "anchors": ["spectro/src/run.rs: compute_irreps, compute_irreps_in, to_vec"]}
{"id": "C51", "title": "Counting of coordinates and modes", "statement": "For N atoms there are 3N coordinates and 3N-6 vibrations (3N-5 for linear molecules), and the storage sizes derived from them are exactly the numbers of unordered pairs, triples and quadruples; a single atom is rejected.", "quantifier": "every N", "why_tests_cant": "integer division and subtraction on unsigned numbers", "anchors": ["spectro/src/load.rs: process_geom"]}
{"id": "C52", "title": "Moving a symmetric top into standard orientation preserves its shape", "statement": "The extra rotation applied to symmetric tops is orthogonal, preserves all interatomic distances, and puts the chosen off-axis atom into the xz plane.", "quantifier": "every geometry, over the reals", "why_tests_cant": "statement over all geometries", "anchors": ["spectro/src/load.rs: process_geom, make_iatl"]}
{"id": "C53", "title": "Polyad denominators", "statement": "The signed resonance denominator of three modes equals 1/(+-wi +-wj +-wk) for each choice of signs unless a Fermi resonance removed that entry, and exactly the listed resonances are removed.", "quantifier": "every frequency vector, resonance list and sign pattern", "why_tests_cant": "eight sign patterns folded to four cases", "anchors": ["spectro/src/polyads.rs: Denom, Sign, init_res_denom"]}
{"id": "C54", "title": "Polyad matrix elements are symmetric", "statement": "The coupling computed for two states does not depend on which of them is named first, and states differing by more than four quanta in total never couple.", "quantifier": "every pair of states", "why_tests_cant": "only one triangle is ever computed", "anchors": ["spectro/src/polyads.rs: genrsa, res2a"]}
{"id": "C55", "title": "Type-2 resonance test equals the least absolute mismatch", "statement": "The frequency mismatch used in the type-2 test is the one of least absolute value among the three ways of pairing the three modes.", "quantifier": "every triple of frequencies", "why_tests_cant": "holds for real frequencies only; imaginary ones are rarely tested", "anchors": ["spectro/src/rotor.rs: aminjm, ferm2_test"]}
{"id": "C56", "title": "Mode vectors are exported column by column", "statement": "The exported list of mode vectors has one entry per column of the mode matrix, each holding that column from top to bottom.", "quantifier": "every matrix shape", "why_tests_cant": "row/column mix-ups vanish for symmetric matrices", "anchors": ["spectro/src/run.rs: to_vec"]}
{"id": "C57", "title": "The force-constant dumps list each constant once", "statement": "The plain dump of the normal-coordinate force constants lists each unordered pair, triple and quadruple exactly once, with the value stored for it; the Gaussian-style listing does the same for the triples and quadruples whose constant exceeds 1e-6 in magnitude and omits the others.", "quantifier": "every number of modes and content", "why_tests_cant": "nested descending loops", "anchors": ["spectro/src/run.rs: SpectroFinish::to_gauss, dump_fcs"]}
{"id": "C58", "title": "Equality with tolerance is symmetric", "statement": "Closeness of two numbers does not depend on their order, in IEEE double arithmetic, and is false when either number is NaN.", "quantifier": "every pair of doubles and tolerance", "why_tests_cant": "2^128 pairs including NaN and infinities", "anchors": ["spectro/src/utils.rs: close", "spectro/src/resonance.rs: deg_modes"]}
{"id": "C59", "title": "Coriolis constants are exactly antisymmetric in double arithmetic", "statement": "Computed in IEEE doubles, zeta_ij and -zeta_ji compare equal (or are both NaN), so rounding never breaks antisymmetry.", "quantifier": "every matrix of doubles", "why_tests_cant": "rounding for all inputs", "anchors": ["spectro/src/lib.rs: make_zmat"]}
{"id": "C60", "title": "Level corrections never touch the ground state", "statement": "Treating Fermi resonances changes only overtone, combination and fundamental levels; the ground state energy and hence the zero-point energy is not affected by it.", "quantifier": "every asymmetric-top mode and resonance list (any arithmetic)", "why_tests_cant": "a zero table entry would address the ground state", "anchors": ["spectro/src/enrgy.rs: enrgy", "spectro/src/resonance.rs: Restst::new"]}
{"id": "C61", "title": "Exact content of the mode list of a symmetric top", "statement": "For a symmetric top a triple i<j<k is listed exactly when j and k are at the level of i, a pair i<j exactly when the two are at one level and neither occurs in a listed triple, and a single mode exactly when it occurs in no listed pair or triple; two modes are at one level when their frequencies differ by less than 0.1 and both exceed 0.1 in magnitude.", "quantifier": "every rotor type with symmetric-top handling, every number of modes and every frequency vector, in any arithmetic", "why_tests_cant": "the classification depends on all pairs and triples of frequencies and on the order of the two passes", "anchors": ["spectro/src/resonance.rs: deg_modes", "spectro/src/utils.rs: close"]}
{"id": "C62", "title": "Sextic constants of oblate tops are finite numbers", "statement": "For an oblate symmetric top with finite input the S-reduced sextic distortion constants reported are numbers, also when the two equal rotational constants are exactly the same double.", "quantifier": "every oblate top in double precision", "why_tests_cant": "the test molecules all have rotational constants that differ in the last digits, so the division by zero does not show up", "anchors": ["spectro/src/sextic.rs: Sextic::new"]}
{"id": "C64", "title": "Diagonal sextic elements follow the published formula", "statement": "For each axis the diagonal element of the sextic tensor is 3/16 of the sum of tau^2/B, minus twice the sum of the squared Coriolis terms weighted with the frequencies, plus a sixth of the cubic sum, plus a quarter of the tau^2 terms over differences of rotational constants, where differences below 1e-4 are left out.", "quantifier": "every number of modes, frequencies, Wilson matrix, zeta and cubic constants, over the reals", "why_tests_cant": "only final constants of a few molecules are compared, to a few digits", "anchors": ["spectro/src/sextic.rs: scc, cc_tensor, c_mat"]}
{"id": "C65", "title": "Normal modes decouple the harmonic energy", "statement": "For symmetric second derivatives and positive masses, if the eigensolver returns an orthogonal matrix of eigenpairs, the mode matrix is mass-weighted orthonormal, transforms the rotated second derivatives into a diagonal matrix, and the i-th frequency is the wavenumber of the i-th diagonal entry; frequencies are in descending order.", "quantifier": "every atom count, axes, symmetric table, positive masses and solver meeting the contract, over the reals", "why_tests_cant": "diagonality is a statement about all pairs of modes of all molecules", "anchors": ["spectro/src/run.rs: run", "spectro/src/lib.rs: rot2nd, form_sec, make_lx", "spectro/src/utils/linalg.rs: symm_eigen_decomp"]}
{"id": "C66", "title": "Harmonic frequencies do not depend on the orientation", "statement": "For any two orthogonal axis matrices the list of harmonic frequencies is the same.", "quantifier": "every atom count, symmetric table, positive masses, pair of orthogonal axes, over the reals", "why_tests_cant": "a test uses one orientation of each molecule", "anchors": ["spectro/src/run.rs: run", "spectro/src/lib.rs: rot2nd, form_sec"]}
{"id": "C67", "title": "Overall motion separates from the vibrations", "statement": "If the second derivatives are invariant under translation then at least three frequencies are zero and every mode with a frequency that is not zero leaves the centre of mass fixed; the same holds for any set of displacements that cost no energy.", "quantifier": "every molecule and solver meeting the contract, over the reals", "why_tests_cant": "orthogonality to overall motion is a statement about all molecules", "anchors": ["spectro/src/run.rs: run", "spectro/src/lib.rs: form_sec, make_lx"]}
{"id": "C68", "title": "Anharmonic constants do not depend on the orientation", "statement": "Rotating the cubic and quartic tables and the mode vectors with the same orthogonal axes leaves every normal-coordinate cubic and quartic constant unchanged.", "quantifier": "every atom count, symmetric tables, orthogonal axes, modes and frequencies, over the reals", "why_tests_cant": "a wrong transposition in one place cancels for symmetric axes", "anchors": ["spectro/src/lib.rs: rot3rd, rot4th", "spectro/src/utils.rs: force3, force4"]}
{"id": "C69", "title": "Reported harmonic frequencies are the vibrations", "statement": "When exactly 3N - nvib frequencies are zero, the reported harmonic frequencies are exactly the ones that are not zero.", "quantifier": "every molecule and solver meeting the contract, over the reals", "why_tests_cant": "test molecules are all minima", "anchors": ["spectro/src/run.rs: run", "spectro/src/utils/linalg.rs: symm_eigen_decomp"]}
{"id": "C70", "title": "Unit factors agree with their definitions", "statement": "The force-constant factors are powers of hartree and bohr, FACT4 and FACT3 derive from the same ALAM (the stored square root agrees to 1e-14), and the wavenumber factor squares to Avogadro's number over (2 pi c)^2 to 1e-14.", "quantifier": "the constants as exact rationals", "why_tests_cant": "a slip in a stored square root changes results in the last printed digits only", "anchors": ["spectro/src/consts.rs", "spectro/src/utils.rs: to_wavenumbers"]}
{"id": "C71", "title": "Symmetric-top constants without resonances are the standard formulas", "statement": "For a symmetric top without reported Fermi resonances every entry of the x and g matrices equals the standard perturbation formula in partial fractions; cross entries between different partners vanish.", "quantifier": "every mode list, force field, set of positive frequencies without accidental equality w_i+w_j=w_k, over the reals", "why_tests_cant": "algebraic identity over the reals for any number of modes; the matrices are filled in several passes that could overwrite each other", "anchors": ["spectro/src/xcals.rs: xcals, nondeg_nondeg, nondeg_deg, deg_deg1, deg_deg, make_gcnst"]}
{"id": "C72", "title": "Symmetric-top E0 drops exactly the resonant term", "statement": "For a symmetric top with reported Fermi resonances E0 equals the non-resonant formula minus its near-singular partial fractions.", "quantifier": "every mode list, force field and resonance list with nonzero remaining denominators, over the reals", "why_tests_cant": "only wrong when a resonance involving a degenerate mode is reported", "anchors": ["spectro/src/xcals.rs: make_e2, make_e3"]}
{"id": "C73", "title": "Polyad cubic couplings connect resonant states only", "statement": "The polyad matrix contains the cubic coupling of two states exactly when the states differ by a reported resonance, with the harmonic oscillator matrix element of the cubic term; all other cubic interactions are left to perturbation theory.", "quantifier": "every pair of states, force field and resonance list, over the reals", "why_tests_cant": "the direction of the resonance only matters for state pairs that no reference molecule has", "anchors": ["spectro/src/polyads.rs: genrsa"]}
{"id": "C74", "title": "Polyad quartic couplings", "statement": "Without reported Fermi resonances the constants K_aabb, K_aaab, K_acbc and K_aabc are the quartic force constant plus cubic partial-fraction sums plus Coriolis sums, and the couplings are these constants times harmonic oscillator matrix elements.", "quantifier": "every number of modes, positive frequencies without accidental degeneracy, force field and pair of states, over the reals", "why_tests_cant": "algebraic identity over the reals for any number of modes", "anchors": ["spectro/src/polyads.rs: genrsa, res2a"]}
{"id": "C75", "title": "Polyad diagonal", "statement": "The diagonal element of a polyad state is its vibrational energy above the ground state, and for a one-quantum state it is the fundamental frequency computed elsewhere.", "quantifier": "every number of modes, frequency vector, symmetric anharmonicity matrix and state, over the reals", "why_tests_cant": "two independent pieces of code for one quantity", "anchors": ["spectro/src/polyads.rs: resona", "spectro/src/utils.rs: make_funds"]}
{"id": "C76", "title": "Polyad couplings are always computed", "statement": "For any two states built from the reported resonances the coupling is computed without panic.", "quantifier": "every pair of states", "why_tests_cant": "the unfinished branches are reached only by particular resonance combinations", "anchors": ["spectro/src/polyads.rs: genrsa, res2a"]}
{"id": "C77", "title": "Polyad states", "statement": "The states collected for the polyad are exactly the two states of each reported Fermi resonance, each with one quantum number per mode.", "quantifier": "every number of modes and resonance list with indices in range", "why_tests_cant": "lists of any length; the tests cover a handful of molecules", "anchors": ["spectro/src/polyads.rs: make_resin"]}
{"id": "C78", "title": "The polyad matrix is built from the reported resonances", "statement": "The states of the polyad matrix are the states of the reported resonances, one row per state with its couplings to the earlier states.", "quantifier": "every molecule and resonance list", "why_tests_cant": "the state table is fixed in the source and only fits one molecule", "anchors": ["spectro/src/polyads.rs: resona"]}
{"id": "C63", "title": "Every result can be printed", "statement": "The text form of a result exists for every result the program returns: the per-mode table needs a label, a fundamental and a corrected frequency for every harmonic frequency.", "quantifier": "every result of a harmonic or an anharmonic run", "why_tests_cant": "the tests compare the fields of results and never print a harmonic one", "anchors": ["spectro/src/output.rs: Display for Output", "spectro/src/run.rs: run, finish"]}
{"id": "C79", "title": "The symmetry axis used for alignment is recorded", "statement": "Choosing the atom that fixes the orientation of a symmetric top also records the order and the direction of the main symmetry axis of its point group.", "quantifier": "every point group the function accepts and every geometry", "why_tests_cant": "the tests cover a few point groups with the axis at its usual place", "anchors": ["spectro/src/load.rs: make_iatl", "spectro/src/lib.rs: bdegnl"]}
{"id": "C80", "title": "Printed rotational constants of linear molecules", "statement": "The constant printed for a vibrational state of a linear molecule is the equilibrium constant plus the sum over modes of alpha times (v + d/2), with the equilibrium constant counted once.", "quantifier": "every linear molecule, over the reals", "why_tests_cant": "tests compare a few printed numbers", "anchors": ["spectro/src/output.rs: Display for Output", "spectro/src/lib.rs: rots", "spectro/src/quartic.rs: Quartic::new"]}
{"id": "C81", "title": "Wilson A vectors are derivatives of the inertia tensor", "statement": "For every mode without angular momentum (rotational Eckart condition), the inertia tensor of the molecule displaced by q along the mode is the equilibrium tensor plus q times the code's vector for that pair of axes plus a term quadratic in q.", "quantifier": "every molecule with positive masses, every mode and pair of axes, over the reals", "why_tests_cant": "tests compare the alphas computed from the vectors with stored numbers; an error in one component shows only for molecules where that component is not zero", "anchors": ["spectro/src/lib.rs: zeta"]}
{"id": "C82", "title": "The sextic tensor is the reduced classical sextic form", "statement": "The elements of the sextic tensor are the coefficients of the even part of the classical sextic rotational form (tau, Coriolis and cubic contributions) after the contact transformation that removes the odd quartic terms, whenever each two rotational constants differ by more than 0.005 or the odd quartic terms of that pair of axes vanish.", "quantifier": "every molecule with three rotational constants, any number of modes, symmetric cubic constants, over the reals", "why_tests_cant": "the tests compare a few sextic constants of molecules whose odd quartic terms vanish by symmetry", "anchors": ["spectro/src/sextic.rs: scc", "spectro/src/sextic.rs: cc_tensor", "spectro/src/sextic.rs: c_mat"]}
{"id": "C83", "title": "A and S constants describe the same rotor", "statement": "Watson's A and S Hamiltonians with the code's quartic and sextic constants follow through sixth degree from the rotational Hamiltonian H2 + H4 + H6 held in the code's tensors by a canonical transformation; for the S sextic constants up to an explicit remainder, because the code adds a distortion coefficient to a rotational denominator.", "quantifier": "every asymmetric top with distinct constants, over the reals", "why_tests_cant": "the tests compare printed constants; that two reductions agree needs all coefficients of a symbolic identity", "anchors": ["spectro/src/quartic.rs: Quartic::new", "spectro/src/sextic.rs: Sextic::new"]}
{"id": "C84", "title": "Nielsen's constants are the coefficients of the quartic form", "statement": "For asymmetric, prolate and oblate tops the six constants DJ, DJK, DK, dJ, R5, R6 of Nielsen are the coefficients of the even quartic rotational form by total angular momentum and one component.", "quantifier": "every rotor of these kinds, over the reals", "why_tests_cant": "a polynomial identity in three variables; tests compare printed constants", "anchors": ["spectro/src/quartic.rs: Quartic::new"]}
{"id": "C85", "title": "Wilson's constants of a symmetric top", "statement": "When the even quartic form of a symmetric top does not depend on the direction perpendicular to the unique axis, it equals -DJ J^4 - DJK J^2 Jz^2 - DK Jz^4 with Wilson's constants djw, djkw, dkw.", "quantifier": "every oblate and prolate top whose quartic form is axial, over the reals", "why_tests_cant": "tests compare printed constants of one prolate and a few oblate molecules", "anchors": ["spectro/src/quartic.rs: Quartic::new"]}
{"id": "C86", "title": "Quartic constants of a symmetric top agree", "statement": "For a symmetric top with axial quartic form, Nielsen's and the S-reduced constants DJ, DJK, DK are Wilson's and the splitting constants vanish.", "quantifier": "every symmetric top whose quartic form is axial, over the reals", "why_tests_cant": "relation between outputs that no test compares", "anchors": ["spectro/src/quartic.rs: Quartic::new"]}
{"id": "C87", "title": "Sextic constants of a symmetric top", "statement": "When the sextic form of a symmetric top is HJ J^6 + HJK J^4 Jz^2 + HKJ J^2 Jz^4 + HK Jz^6 plus a term of sixfold symmetry and the quartic form is axial, the reported S-reduced sextic constants are exactly these coefficients.", "quantifier": "every oblate top with two different nearly equal constants and every prolate top, over the reals", "why_tests_cant": "tests compare printed constants", "anchors": ["spectro/src/sextic.rs: Sextic::new"]}
{"id": "C88", "title": "Diatomic molecules follow Dunham's expansion", "statement": "For a diatomic molecule with Dunham coefficients a1 and a2 the reported levels, fundamental, De, He and rotational constants are Dunham's expressions in B, w, a1 and a2, up to the rounding of the conversion factors (0.024 percent for De, 0.002 percent for the vibration-rotation constant).", "quantifier": "all masses, bond lengths, force constants, over the reals", "why_tests_cant": "the repository has no test against an analytic formula; a scale error of the conversion factors would be frozen into the expected values", "anchors": ["spectro/src/quartic.rs: Quartic::new", "spectro/src/sextic.rs: Sextic::new", "spectro/src/alphas.rs: alphas", "spectro/src/lib.rs: xcalc, rots", "spectro/src/utils.rs: make_e0, make_tau"]}
{"id": "C89", "title": "Vibrational levels are second-order perturbation theory", "statement": "For an asymmetric top the reported level of any state v is its Rayleigh-Schroedinger energy: the harmonic energy, the quartic terms and the rotational energy of the vibrational angular momentum in first order and the cubic terms in second order summed over all other states except those of reported resonances, plus a constant that is the same for all states: the constant part of the angular momentum energy, which the program leaves out, and the excess of E0 found in C34, which is zero without resonances.", "quantifier": "all numbers of modes, frequencies, symmetric force constants, antisymmetric Coriolis constants, lists of reported resonances without vanishing denominators and all states, over the reals", "why_tests_cant": "tests compare final numbers of a few molecules; they cannot show that the closed formulas of the anharmonic constants and E0 sum the infinite perturbation series for every state", "anchors": ["spectro/src/lib.rs: xcalc, make_fermi_checks", "spectro/src/utils.rs: make_e0", "spectro/src/enrgy.rs: part1"]}
{"id": "C90", "title": "Fermi couplings are matrix elements of the cubic potential", "statement": "For an asymmetric top, the off-diagonal element of every two-level problem that is solved is the matrix element of the cubic part of the potential between the two harmonic-oscillator states stored in the state table at the two positions whose energies are mixed.", "quantifier": "all numbers of modes, symmetric cubic force constants and lists of reported resonances, over the reals", "why_tests_cant": "the factors 1/4 and 1/(2 sqrt 2) are compared with nothing but earlier output", "anchors": ["spectro/src/utils.rs: rsfrm1, rsfrm2", "spectro/src/enrgy.rs: enrgy", "spectro/src/lib.rs: make_fermi_checks"]}
{"id": "C91", "title": "Symmetric top constants agree with asymmetric top constants", "statement": "For a force field with an axis of threefold or higher symmetry and no resonances, the constants of the symmetric top code are those the asymmetric top code computes from the same force constants, combined as theory demands: x between nondegenerate modes, between a nondegenerate and a degenerate mode and x_tt are equal, g_tt = x_ab/2 - x_aa, x_tu = (x_ac + x_ad)/2 for different pairs t = (a,b) and u = (c,d), and E0 differs by half the sum of g_tt - B zeta_ab^2, apart from the terms C36 found missing.", "quantifier": "all numbers of nondegenerate and doubly degenerate modes, all force fields satisfying the symmetry relations, over the reals", "why_tests_cant": "the two code paths are never run on the same molecule", "anchors": ["spectro/src/xcals.rs: xcals, nondeg_nondeg, nondeg_deg, deg_deg, deg_deg1, make_gcnst, gcnst1, make_e2, make_e3", "spectro/src/lib.rs: xcalc", "spectro/src/utils.rs: make_e0"]}
{"id": "C92", "title": "Levels of symmetric tops are second-order perturbation theory", "statement": "For a symmetric top the level of every state is its second-order perturbation energy plus a constant, for every state in which at most one degenerate mode is excited and that has a definite l, if the molecule is not linear and has at most two degenerate modes. For all other states and molecules the difference is given exactly: the terms of E0 that C36 found missing, the g terms for the chosen l against the mean of l squared, and the splitting of states polarised in two degenerate modes.", "quantifier": "all numbers of modes, force fields satisfying the symmetry relations, without resonances, all occupation numbers, over the reals", "why_tests_cant": "tests compare the final numbers of a few molecules; they cannot show that the formulas sum the perturbation series for every state", "anchors": ["spectro/src/xcals.rs: xcals", "spectro/src/enrgy.rs: part1"]}
{"id": "C93", "title": "Polyad couplings are elements of the effective Hamiltonian", "statement": "Between two states of a resonance polyad, resona's coupling is the element of the effective Hamiltonian of the coupled oscillators to second order (Van Vleck): the quartic terms and the rotational energy of the vibrational angular momentum in first order and the cubic terms in second order, averaged over the energies of the two states and without the reported resonances, plus the cubic terms in first order between states that differ by a reported resonance. This holds when two quanta of one mode become two of another, two of one mode become one each of two others, one quantum moves to another mode, or the states differ by three quanta and either differ by a reported resonance or have none reported among their modes.", "quantifier": "all numbers of modes, force fields, rotational constants, reported resonances and occupation numbers with such a difference, over the reals", "why_tests_cant": "tests compare the final energies of a few polyads; the formula for each coupling sums over all intermediate modes and cannot be checked for every force field", "anchors": ["spectro/src/polyads.rs: genrsa, res2a, denom, init_res_denom"]}
{"id": "C94", "title": "g between two degenerate modes is the coefficient of the product of their angular momenta", "statement": "For two different pairs of degenerate modes t = (a,b) and u = (c,d) of a symmetric top without resonances, g_tu is the coefficient of l_t l_u in the effective Hamiltonian of the coupled oscillators: the elements that take one quantum from a to b and one from d to c, and from a to b and from c to d, differ by g_tu times the difference of the elements of l_t l_u, which are 1 and -1.", "quantifier": "all numbers of nondegenerate and doubly degenerate modes, all pairs in either order, all force fields satisfying the symmetry relations with the partners oriented alike, over the reals", "why_tests_cant": "tests compare the final numbers of a few molecules, in which g_tu enters only states with two excited degenerate modes", "anchors": ["spectro/src/xcals.rs: make_gcnst"]}
{"id": "C95", "title": "The input file is read by its words, however they are spaced", "statement": "The fields of a line of the input file are exactly its words, separated by any non-empty runs of blanks (space, tab, line feed, vertical tab, form feed, carriage return) and with any blanks before and after; two files whose lines have the same words are read to the same molecule, and reading one panics exactly when reading the other does.", "quantifier": "all ASCII files", "why_tests_cant": "the test files are all laid out in columns by one program; files written by hand have arbitrary spacing", "anchors": ["spectro/src/load.rs: read"]}
{"id": "C96", "title": "Masses are loaded as listed, and a written molecule can be loaded again", "statement": "When the header asks for weights, every loaded atom has the mass listed last for its number and none if none is listed; otherwise no atom has a mass of its own. Writing a loaded molecule and loading the file reproduces the molecule.", "quantifier": "all readable files, all conversions and reorientations of the geometry, all molecules whose numbers fit their columns", "why_tests_cant": "the tests load each file once and never load what was written", "anchors": ["spectro/src/load.rs: load, read, process_geom", "spectro/src/utils.rs: Display for Spectro"]}
{"id": "C97", "title": "Rotational constants of every vibrational state follow from perturbation theory", "statement": "For an asymmetric top, the rotational constants computed for each vibrational state equal the coefficients of the squares of the angular momentum components in the second order energy of a vibrating rotor: the reciprocal inertia tensor expanded to second order in the normal coordinates, the cubic potential, and the Coriolis coupling without the exchange of a quantum between reported pairs; apart from the rounding of the program's numerical constant.", "quantifier": "all numbers of modes, frequencies, inertia derivatives, Coriolis and cubic constants, all vibrational states, all reported resonances, all three axes", "why_tests_cant": "the tests compare the constants of fixed molecules with the numbers of an older program that uses the same formula", "anchors": ["spectro/src/lib.rs: alpha, alphaa, make_icorol", "spectro/src/consts.rs: ALPHA_CONST"]}
{"id": "C98", "title": "Vibration-rotation constants of symmetric tops agree with those of asymmetric tops and with perturbation theory", "statement": "For symmetric tops and linear molecules whose force field, Coriolis constants and inertia derivatives have the symmetry of the axis, the symmetric top code for the vibration-rotation constants gives the same numbers as the asymmetric top code (about the unique axis, and the mean over the two other axes), for both partners of every degenerate pair; the rotational constants of every vibrational state are those of the second order perturbation theory of a vibrating rotor, apart from the rounding of the program's numerical constant.", "quantifier": "all numbers of nondegenerate modes and degenerate pairs, all symmetric force fields, all states, all ways of distributing the quanta of a pair over its partners", "why_tests_cant": "no test runs both codes on the same molecule, and the reference numbers come from a program with the same formulas", "anchors": ["spectro/src/alphas.rs: make_alpha, alphas", "spectro/src/lib.rs: alpha"]}
{"id": "C99", "title": "A run completes, and when it does not", "statement": "For every molecule that is not a spherical top or a point, with enough frequencies and a usable header, `finish` returns a result instead of panicking, in double precision as long as the compared sums of frequencies are numbers and the degenerate modes are a partition; the lists of the result have the stated lengths, there are rotational constants for the ground state and every fundamental, and the printed table has a row for every mode. A whole run of an asymmetric top completes for any force constants. Spherical tops, molecules without a rotor type, no atoms, a header option below 3 and too few frequencies make it panic.", "quantifier": "all molecules, numbers of modes, frequencies (doubles), force constants and eigensolver results", "why_tests_cant": "the tests run a fixed set of molecules, and every panic (indexing, unwrap, todo) not reached by them is untested", "anchors": ["spectro/src/run.rs: run, finish", "spectro/src/resonance.rs: Restst::new", "spectro/src/output.rs: Display"]}
{"id": "C100", "title": "The treatment of polyads changes no reported number", "statement": "Compiled with the feature polyad, a run that completes reports exactly what it reports without the feature; an asymmetric top with more than twelve modes makes it panic.", "quantifier": "all molecules, frequencies, force constants, in any arithmetic", "why_tests_cant": "the feature is off in the tests, and equality of two builds on all inputs is not a test", "anchors": ["spectro/src/run.rs: finish", "spectro/src/polyads.rs: resona"]}
{"id": "C101", "title": "A whole run gives second order perturbation theory", "statement": "From Cartesian force constants, masses and principal axes of an asymmetric top, a run for which no Fermi resonance is reported gives the harmonic wavenumbers of the normal modes, a zero-point energy that is the second order energy of the ground state plus the constant angular momentum shift, and corrected fundamentals that are differences of second order energies, with the reduced cubic, quartic and Coriolis constants of those normal modes.", "quantifier": "all asymmetric tops, all symmetric force fields, every eigensolver that solves the eigenvalue problem", "why_tests_cant": "the tests compare final numbers of fixed molecules with an older program; no test states what the numbers are", "anchors": ["spectro/src/run.rs: run, finish"]}
{"id": "C102", "title": "Every kind of force constants is handled", "statement": "A run with harmonic force constants reports the sorted wavenumbers of the normal modes, one label per mode, and the vectors of the modes with and without mass weighting; a run with cubic force constants returns a result.", "quantifier": "all molecules without degenerate modes, all force constants", "why_tests_cant": "no test runs the program with anything but quartic force fields", "anchors": ["spectro/src/run.rs: run, to_vec", "spectro/src/lib.rs: Derivative"]}
{"id": "C103", "title": "Results do not depend on the eigensolver, the numbering of the atoms or the Cartesian frame", "statement": "For an asymmetric top whose vibrational wavenumbers are distinct, two complete runs with quartic force fields report the same levels, rotational constants, distortion constants, zero-point energy and resonances whenever the two inputs describe the same force field: the same atoms in any order, in Cartesian axes turned in any way, with any correct eigensolvers.", "quantifier": "all asymmetric tops, all force constants, all renumberings, all rotations of the frame, all eigensolvers that meet their contract", "why_tests_cant": "each test compares one run of one input against stored numbers; the sign of an eigenvector is fixed by the library used", "anchors": ["spectro/src/run.rs: run, finish", "spectro/src/lib.rs: make_zmat, rot2nd, rot3rd, rot4th", "spectro/src/utils.rs: force3, force4"]}
{"id": "C104", "title": "Signs of the normal modes change nothing", "statement": "Multiplying any normal modes by -1, with the cubic and quartic constants changed accordingly, changes none of the reported numbers, for every kind of rotor, as long as the two partners of a degenerate pair are multiplied together; multiplying one partner alone can change the constant g.", "quantifier": "all molecules for which finish completes, all choices of signs, all force constants", "why_tests_cant": "the signs come from the eigensolver and are the same in every run of a test", "anchors": ["spectro/src/run.rs: finish", "spectro/src/xcals.rs: make_gcnst", "spectro/src/utils.rs: rsfrm1, rsfrm2"]}
{"id": "C105", "title": "Molecules that can be turned freely: zero frequencies and Eckart conditions", "statement": "If the energy does not change when the molecule is shifted or turned, the harmonic step returns at least six zero frequencies (five for a linear molecule), and every mode with another frequency carries no angular momentum to first order, which is what makes the Wilson vectors the derivatives of the inertia tensor.", "quantifier": "all molecules, all symmetric force constants, all principal axes, all eigensolvers that meet their contract", "why_tests_cant": "test force fields satisfy the invariances only to the accuracy of the quantum-chemistry program, and the modes are compared with stored ones, not with a condition", "anchors": ["spectro/src/run.rs: run", "spectro/src/lib.rs: form_sec, make_lx, zeta"]}
{"id": "C106", "title": "The rotational constants reported by a run are those of perturbation theory", "statement": "A complete run on an asymmetric top with quartic force fields reports one set of rotational constants for the ground state and for one quantum in each mode; each differs from the constants of the equilibrium molecule by exactly the second-order correction of a vibrating rotor computed from the Cartesian force constants (inertia derivatives along the normal modes, Coriolis coupling without reported resonances, cubic constants), up to the rounding of one physical constant.", "quantifier": "all asymmetric tops with positive frequencies, all quadratic force constants invariant under rotation, all cubic and quartic force constants, all eigensolvers that meet their contract", "why_tests_cant": "tests compare printed constants of a few molecules to three decimals; the whole chain from Cartesian constants involves every step of the program", "anchors": ["spectro/src/run.rs: run, finish", "spectro/src/alphas.rs: make_alpha, alphas", "spectro/src/lib.rs: alpha, alphaa, rota", "spectro/src/utils.rs: force3"]}
{"id": "C107", "title": "A run with Fermi resonances reports the two-level eigenvalues", "statement": "A complete run on an asymmetric top whose reported Fermi resonances share no level reports, for each mode outside the resonances, the excitation energy of second-order perturbation theory without the resonant denominators, and for each mode in a resonance the eigenvalue, on its own side, of the two-level problem that couples the fundamental with the overtone or combination by the matrix element of the cubic potential, all computed from the Cartesian force constants; the uncoupled fundamentals are the unmixed energies.", "quantifier": "all asymmetric tops with positive frequencies, all force constants, all sets of reported resonances without shared levels, all eigensolvers that meet their contracts", "why_tests_cant": "tests compare final numbers of a few molecules; which resonances occur depends on the frequencies, and a wrong pairing or coupling shows only in molecules with resonances", "anchors": ["spectro/src/run.rs: run, finish", "spectro/src/enrgy.rs: enrgy, part1", "spectro/src/utils.rs: rsfrm1, rsfrm2, make_funds, make_e0", "spectro/src/lib.rs: xcalc, make_fermi_checks"]}
{"id": "C108", "title": "Every distortion constant is found in the report under its name", "statement": "In the printed report exactly one line starts with the name of a quartic or sextic distortion constant and a colon, and the rest of that line is the printed value of that constant and nothing else.", "quantifier": "all results, all number formats that print numbers as numbers, all geometries", "why_tests_cant": "tests never look at the printed text; a label printed before the wrong constant or twice would go unnoticed", "anchors": ["spectro/src/output.rs: Display for Output", "spectro/src/quartic.rs: Display for Quartic", "spectro/src/sextic.rs: Display for Sextic", "spectro/src/lib.rs: write_output"]}
{"id": "C109", "title": "The tables of the report read back", "statement": "Splitting the lines of the report at spaces gives back what was printed: in the table of frequencies row k is mode k+1 with its label, harmonic, fundamental and corrected frequency, then the zero-point energy; the tables of equilibrium and vibrationally averaged rotational constants have one row per state below the right headings; the lists of Coriolis and Fermi resonances are those of the result.", "quantifier": "all results whose numbers are narrower than their column, all number formats, all geometries", "why_tests_cant": "tests never look at the printed text", "anchors": ["spectro/src/output.rs: Display for Output", "spectro/src/rot.rs: Display for Rot", "spectro/src/state.rs: Display for State", "spectro/src/lib.rs: write_output"]}
{"id": "C110", "title": "Every result can be printed and its columns line up", "statement": "The result of any run on a molecule that the program accepts can be printed without panic, and in the table of rotational constants every constant stands in the columns of its heading, for asymmetric, symmetric and linear molecules alike.", "quantifier": "all molecules, force constants and eigensolvers for which finish completes (C99)", "why_tests_cant": "whether printing indexes past the end of a list, or the pairs of quantum numbers of symmetric tops take as many columns as single numbers, depends on the molecule", "anchors": ["spectro/src/run.rs: finish", "spectro/src/output.rs: Display for Output", "spectro/src/state.rs: Display for State, len", "spectro/src/rot.rs: Display for Rot"]}
{"id": "C111", "title": "Modes have the same numbers everywhere in the report", "statement": "A mode that appears in a list of resonances is given the number it has in the table of frequencies. (False: the table counts from one, the lists from zero.)", "quantifier": "all results with resonances", "why_tests_cant": "tests never look at the printed text", "anchors": ["spectro/src/output.rs: Display for Output"]}
{"id": "C112", "title": "The report depends on the words of the input files only", "statement": "Two sets of input files with the same words on each line of spectro.in and the same words in fort.15, fort.30 and fort.40 give the same report: spacing, line ends and the number of force constants per line do not matter.", "quantifier": "all texts of the four files (no vertical tab in fort.30 and fort.40, which are split by a different function), any number type, symmetry code and eigensolver", "why_tests_cant": "tests read a few files of one fixed layout; the layouts are unbounded, and two different splitting functions are used for the four files", "anchors": ["spectro_bin/src/main.rs: main", "spectro/src/load.rs: read, load_fc2, load_fc3, load_fc4", "spectro/src/utils.rs: load_vec, parse_line", "spectro/src/run.rs: run_files"]}
{"id": "C113", "title": "Headers of the force-constant files are optional and wrong counts never give a report", "statement": "Two additional numbers at the start of any of the files of force constants change nothing in the report (the Hessian being symmetric), and whenever a report is printed each of the files had exactly the right number of numbers for the molecule, with or without these two.", "quantifier": "all texts of the four files, any number type, symmetry code and eigensolver", "why_tests_cant": "tests have files with the right counts only; truncated files of all lengths cannot be listed", "anchors": ["spectro/src/load.rs: load_fc2, load_fc3, new_fc3, load_fc4, new_fc4", "spectro/src/run.rs: run_files", "spectro_bin/src/main.rs: main"]}
{"id": "C114", "title": "Blank lines in spectro.in are ignored", "statement": "One more blank line anywhere in the input file changes nothing. (False: in the sections of the geometry and of the masses, also at the end of the file, the program panics; everywhere else it holds.)", "quantifier": "all input files and positions of the blank line", "why_tests_cant": "tests read a few files without blank lines", "anchors": ["spectro/src/load.rs: read"]}
{"id": "C115", "title": "The report is perturbation theory for the force constants in the files", "statement": "From the texts of the four files to the printed table: fort.15, fort.30 and fort.40 are the listings of a Hessian and of symmetric cubic and quartic tables; the program prints a report for every asymmetric top with positive frequencies, the rows of the table of frequencies are the number of the mode, its label, the harmonic frequency, the second-order fundamental and the level corrected for the isolated Fermi resonances that the report lists, the zero-point energy is the one of C107, and the equilibrium rotational constants are those of the loaded moments of inertia (0 for a moment not above 0.01).", "quantifier": "all input files of asymmetric tops of at least three atoms, any symmetry code, any correct eigensolver, any number printing that meets the contract; over the real numbers", "why_tests_cant": "tests compare the internal results for a few molecules, never the printed ones, and to a tolerance; a permuted listing or a wrong file would only show for force fields without symmetry", "anchors": ["spectro_bin/src/main.rs: main", "spectro/src/run.rs: run_files, run, finish", "spectro/src/load.rs: load, read, process_geom, load_fc2, new_fc3, new_fc4", "spectro/src/output.rs: Display for Output", "spectro/src/lib.rs: write_output"]}
{"id": "C116", "title": "The loaded geometry is that of the file, centred, in the frame of the force constants", "statement": "Loading an input file keeps its header and its atoms; every atom sits where the file puts it, in Angstrom, seen from the centre of mass in the very axes into which the force constants are turned later; those axes are orthogonal, the centre of mass is at the origin, and the inertia tensor is diagonal with the principal moments that enter the rotational constants, unless the molecule is a symmetric top whose first two moments differ. For diatomic molecules the frames agree under the condition of C129.", "quantifier": "all input files, all symmetry codes that scale, centre and rotate rigidly (their contract is spelled out), all rotor types; over the real numbers", "why_tests_cant": "tests compare the final axes of a few molecules with stored ones; that geometry and force constants stay in step when the geometry is turned a second time for symmetric tops shows only for particular point groups", "anchors": ["spectro/src/load.rs: load, process_geom, make_iatl", "spectro/src/lib.rs: Spectro::load"]}
{"id": "C117", "title": "The printed rotational and distortion constants are those of the force constants in the files", "statement": "For an asymmetric top whose Cartesian force constants do not change when the molecule is moved or turned as a whole: the constants that the report prints under their names Delta J ... d 2 are Watson's A and S reductions of the centrifugal tensor formed from the derivatives of the inertia tensor along the normal modes, and the row of every state in the table of rotational constants holds its quanta followed by the equilibrium constants of the A reduction plus the second-order vibrational correction, with the Coriolis resonances that the report lists left out of the sums and up to the rounding of one numerical constant.", "quantifier": "all input files of asymmetric tops of at least three atoms with distinct constants, all symmetry codes and eigensolvers that meet their contract; over the real numbers", "why_tests_cant": "tests compare the constants of a few molecules to a tolerance, not the printed lines; a swapped axis, a mode taken without its mass weighting or a constant under the wrong name needs all inputs", "anchors": ["spectro_bin/src/main.rs: main", "spectro/src/run.rs: run, finish", "spectro/src/load.rs: load, process_geom", "spectro/src/quartic.rs: Quartic::new, Display", "spectro/src/alphas.rs: alphas", "spectro/src/lib.rs: alphaa, rots, rota, write_output", "spectro/src/output.rs: Display for Output"]}
{"id": "C118", "title": "The printed quartic and sextic constants describe the rotor of the input files", "statement": "For an asymmetric top whose force constants do not change when the molecule is moved or turned as a whole: the constants printed under the names Delta, delta, D, d, Phi, phi, H and h are the coefficients of Watson's A and S Hamiltonians that follow, by canonical transformations through sixth degree in the angular momentum, from the rigid rotor of the moments of inertia of the geometry, its quartic centrifugal form and its sextic form (Coriolis, inertia and cubic contributions) computed from the force constants in the files. The S sextics hold up to an explicit remainder.", "quantifier": "all input files of asymmetric tops of at least three atoms with rotational constants more than 0.005 apart (or without odd quartic terms for the pair of axes), all symmetry codes and eigensolvers that meet their contract; over the real numbers", "why_tests_cant": "the sextic constants are compared for a few molecules only; that a printed set of constants is equivalent to the mechanics of the given force field is a statement about all angular momenta and all force fields", "anchors": ["spectro_bin/src/main.rs: main", "spectro/src/run.rs: run, finish", "spectro/src/sextic.rs: Sextic::new, scc, cc_tensor, c_mat, make_phi, Display", "spectro/src/quartic.rs: Quartic::new, Display", "spectro/src/load.rs: load", "spectro/src/lib.rs: write_output, zeta"]}
{"id": "C119", "title": "The quartic and sextic constants are those of the moving atoms", "statement": "Take point masses at the geometry of the input files, moving under the force field of the files with no total momentum and angular momentum J. Their classical energy, expanded through sixth degree in J about the displaced positions, is the rigid-rotor energy plus the quartic and sextic forms whose reduced coefficients the program prints, with the program's unit of rotational energy and the program's displacements. The single deviation is the quartic tensor, which the code's rounded conversion factor makes too large by 2.36 parts in ten thousand.", "quantifier": "all masses, geometries and modes of a free nonlinear molecule, all potentials that agree with the quadratic and cubic constants up to order four, all angular momenta; for the files, as in C118; over the real numbers", "why_tests_cant": "tests compare constants with another program that uses the same formulas and factors; that the formulas describe the motion of the atoms is a statement about all motions, and a relative error of 2e-4 in a factor lies inside the tolerances used", "anchors": ["spectro/src/quartic.rs: Quartic::new", "spectro/src/utils.rs: make_tau, tau_prime", "spectro/src/sextic.rs: Sextic::new, scc, cc_tensor, c_mat", "spectro/src/consts.rs: SQLAM, CONST", "spectro/src/lib.rs: zeta"]}
{"id": "C120", "title": "Molecules with a threefold axis: fundamentals and zero point energy of the whole run", "statement": "For a symmetric top whose atoms, masses and force constants are unchanged by a turn of 120 degrees about z and by the mirror y to -y, and whose accidental degeneracies and resonances are excluded, the run completes with the pairs of equal frequency as its degenerate modes. If no Fermi resonances are reported, every fundamental it lists is the difference of second-order perturbation energies in the normal coordinates, and the zero point energy is the second-order one with the stated constant terms.", "quantifier": "all numbers of atoms, masses, geometries and quadratic, cubic and quartic force constants of this symmetry, all eigensolvers that meet their contract and any basis they choose inside a degenerate pair; over the real numbers", "why_tests_cant": "the tests cover a few molecules with one basis of each pair, as one eigensolver happens to return it; that the alignment makes the result independent of that choice, and right, is a statement about all rotations inside the pairs and all force fields", "anchors": ["spectro/src/run.rs: run, finish", "spectro/src/lib.rs: bdegnl, zeta, make_sym_funds", "spectro/src/xcals.rs: xcals", "spectro/src/resonance.rs: deg_modes", "spectro/src/enrgy.rs: enrgy, part1"]}
{"id": "C121", "title": "The alignment of degenerate modes turns every pair to the same standard", "statement": "For a molecule with a threefold axis and a mirror plane: after bdegnl the first partner of every degenerate pair is even under the mirror y to -y, the second one odd, and the turn of 120 degrees about z carries every pair into itself by the same rotation matrix, with the sine +sqrt(3)/2 for all pairs. Modes without partner are left unchanged by both operations.", "quantifier": "all numbers of atoms, masses, symmetric matrices with this symmetry and all bases of the pairs in which the reference atoms are seen; both senses of the numbering of the atoms; over the real numbers", "why_tests_cant": "the tests compare the aligned modes of a few molecules with reference data; a wrong sign for one quadrant of the angle or one sense of turn shows only for other bases than the one used", "anchors": ["spectro/src/lib.rs: bdegnl"]}
{"id": "C122", "title": "Molecules with a threefold axis: rotational constants of the vibrational states", "statement": "For a symmetric top whose atoms, masses and force constants are unchanged by a turn of 120 degrees about z and by the mirror y to -y, without reported Coriolis resonances, every rotational constant the run reports for the ground state and the fundamentals is the equilibrium one (with its centrifugal correction) plus the change that second-order perturbation theory gives for that state, from the derivatives of the inertia tensor along the normal modes, the Coriolis constants and the cubic force constants.", "quantifier": "all numbers of atoms, masses, geometries and force constants of this symmetry, all eigensolvers that meet their contract and any basis they choose inside a degenerate pair, all listed states; over the real numbers", "why_tests_cant": "the tests compare with the output of the older program, which has the same index of the inertia derivatives; only comparison with the perturbation energies shows that a term is missing", "anchors": ["spectro/src/alphas.rs: alphas, make_alpha", "spectro/src/lib.rs: bdegnl, zeta, rots", "spectro/src/run.rs: run, finish"]}
{"id": "C123", "title": "Linear molecules: the alignment of the bending modes", "statement": "For a linear molecule along z whose mass-weighted force constant matrix is unchanged by every turn about z and by the mirror y to -y, the modes that bdegnl returns are aligned: nondegenerate modes displace the atoms along z only, and of each degenerate pair the first mode displaces them along x only, the second along y only, with exactly opposite amounts for every atom.", "quantifier": "all numbers of atoms, masses, symmetric matrices of this kind, and all eigenvectors whatever basis the solver chose inside a pair; over the real numbers", "why_tests_cant": "the tests run a few molecules with the basis one eigensolver happens to return", "anchors": ["spectro/src/lib.rs: bdegnl", "spectro/src/run.rs: run"]}
{"id": "C124", "title": "Linear molecules: fundamentals and zero point energy of a whole run", "statement": "For a linear molecule whose quadratic, cubic and quartic force constants are unchanged by every turn about the axis and by a mirror plane through it, and without reported Fermi resonances, the run reports as fundamentals exactly the differences of second-order perturbation energies built from the force constants in the normal coordinates, the Coriolis constants and the rotational constants. The zero point energy is the perturbation energy of the ground state (up to the constant term of the vibrational angular momentum) if there is one pair of bends; with several pairs it is larger or smaller by exactly the terms of cubic constants that couple bends of two different pairs with a stretch.", "quantifier": "all numbers of atoms, masses, geometries on the axis and force constants of this symmetry, all eigensolvers that meet their contract, all listed vibrations; over the real numbers", "why_tests_cant": "the tests compare numbers with the older program for a few linear molecules; that the axial symmetry of the input suffices for the simplified formulas is a statement about all of them", "anchors": ["spectro/src/run.rs: run, finish", "spectro/src/xcals.rs", "spectro/src/utils.rs: make_e0", "spectro/src/lib.rs: bdegnl, make_sym_funds"]}
{"id": "C125", "title": "Linear molecules: the rotational constants of the vibrational states", "statement": "For a linear molecule as in C124 whose force field exerts no torque, and without reported Coriolis resonances (there are none if different frequencies are more than 200 wavenumbers apart), the rotational constant of the ground state and of every fundamental, the reported correction plus the equilibrium constant, is the mean of the constants about x and about y that second-order perturbation theory gives for this state from the derivatives of the inertia tensor along the normal modes, the Coriolis constants and the cubic force constants; the states are listed in the order ground state, stretches, bends.", "quantifier": "all numbers of atoms, masses, geometries on the axis and force constants of this symmetry, all eigensolvers that meet their contract, all listed states; over the real numbers", "why_tests_cant": "the tests compare numbers with the older program for a few linear molecules", "anchors": ["spectro/src/alphas.rs: alphas, make_alpha", "spectro/src/lib.rs: bdegnl, zeta, rots", "spectro/src/output.rs: Display for Output", "spectro/src/run.rs: run, finish"]}
{"id": "C126", "title": "Molecules with a threefold axis: the reported quartic constants are those of the rotating atoms", "statement": "For a molecule with a threefold axis and a mirror plane through it, whose force constants have this symmetry, take the atoms as classical point masses that rotate with given angular momentum. The least energy at this angular momentum has, beside the rigid part, a quartic part. Up to the rounding of one constant of the code, this quartic part is the form -(DJ P^4 + DJK P^2 Pz^2 + DK Pz^4) with Wilson's constants DJ, DJK, DK of the run, plus a multiple of Pz (Px^3 - 3 Px Py^2). For oblate tops Nielsen's constants are the same three numbers and the other constants of this set are zero.", "quantifier": "all numbers of atoms, masses, geometries and force constants of this symmetry, all eigensolvers that meet their contract; over the real numbers", "why_tests_cant": "the tests compare the printed constants of a few molecules; that no other term is left out of the form holds because of the symmetry of the input and cannot be read off examples", "anchors": ["spectro/src/quartic.rs: Quartic::new", "spectro/src/utils.rs: make_tau, tau_prime", "spectro/src/run.rs: run, finish"]}
{"id": "C127", "title": "Linear molecules: the reported distortion constants are those of the rotating atoms", "statement": "For a linear molecule whose force constants do not change when the displacements are turned about the axis or mirrored, take the atoms as classical point masses that rotate with angular momentum J perpendicular to the axis. The least energy is B J^2 - D J^4 + H J^6 up to higher orders, whatever the direction of J, and these energies determine D and H. The constant De of the run is kappa D and the constant He is H + (kappa^2 - 1) 3 D^2 / B, where kappa = 1.00024 is the quotient of two values of one constant of nature that the code uses in different places.", "quantifier": "all linear molecules of three or more atoms, all masses, geometries and force constants of this symmetry, all eigensolvers that meet their contract; over the real numbers", "why_tests_cant": "the tests compare printed constants of a few linear molecules with earlier output of the same formulas; they do not compare them with the mechanics of the atoms", "anchors": ["spectro/src/quartic.rs: Quartic::new (linear)", "spectro/src/sextic.rs: Sextic::new (linear), scc, c_mat, cc_tensor", "spectro/src/run.rs: run, finish"]}
{"id": "C128", "title": "Diatomic molecules: the whole run reports Dunham's constants of the bond potential", "statement": "For two atoms on the first principal axis whose energy depends on the length r of the bond alone, with derivatives 0, p2 > 0, p3 and p4 at the equilibrium length, a quartic run succeeds. It reports the harmonic wavenumber WAVE sqrt(FACT2 p2 / mu), no resonances, and the fundamental, the zero point energy, De, He and the rotational constants of the states v = 0 and v = 1 that Dunham's theory gives for the coefficients a1 = p3 r / (3 p2) and a2 = p4 r^2 / (12 p2). Nothing depends on the order of the atoms or on the sign of the normal mode. Five factors close to 1, the same for all molecules, come from the rounded conversion factors of the code.", "quantifier": "all masses, all bond lengths with mu r^2 > 1/100, all potentials with p2 > 0, all axes of the input, all eigensolvers that meet their contract; over the real numbers", "why_tests_cant": "the tests have one diatomic molecule, in one orientation, and compare it with the output of an earlier program; they do not compare it with the theory", "anchors": ["spectro/src/run.rs: run, finish (diatomic)", "spectro/src/quartic.rs: Quartic::new (diatomic)", "spectro/src/sextic.rs: Sextic::new (diatomic)", "spectro/src/lib.rs: rots (diatomic), form_sec, make_lx, bdegnl", "spectro/src/utils.rs: force3, force4, make_e0, make_funds"]}
{"id": "C129", "title": "Diatomic molecules: the force constants are turned into the frame of the geometry", "statement": "The loaded geometry of a diatomic molecule is that of the input file, centred and seen in the frame into which the force constants are turned. FALSE: load.rs overwrites the first two axes with x and y when the third axis is the z axis of the file, a repair meant for linear molecules along z; a diatomic molecule lies along the first axis. The frames agree if and only if, when the third axis is z, the first axis is x. For a molecule along y of the file the run then reports De = 0 whatever the potential.", "quantifier": "all input files of diatomic molecules, all behaviours of the crate symm that meet the stated contract; over the real numbers", "why_tests_cant": "the one diatomic molecule of the tests lies along x, where the overwriting changes nothing", "anchors": ["spectro/src/load.rs: process_geom (lines 223-235)", "spectro/src/quartic.rs: Quartic::new (diatomic)", "spectro/src/run.rs: run"]}
{"id": "C130", "title": "Diatomic molecules: from the files to the printed constants", "statement": "When the input file lists two atoms, anywhere and in any direction in space (with the frame condition of C129), and the three force-constant files list the derivatives of an energy that depends on the length of the bond alone with derivatives 0, p2, p3, p4, the program runs and its report has: the harmonic frequency, the fundamental, the corrected fundamental and the zero point energy of Dunham's theory in the frequency table; B in the equilibrium table; B_0 and B_1 in the rotational table; De and He on their lines; and no Coriolis or Fermi resonance. The bond length is that of the input, the masses those of the crate symm; five factors close to 1, the same for every molecule, come from the rounded conversion factors of the code.", "quantifier": "all input files and force-constant files of two atoms, all behaviours of the crate symm and of the eigensolver that meet the stated contracts, all ways to print numbers that meet the stated contract, every unit of length; over the real numbers", "why_tests_cant": "the expected numbers of the one diatomic test were produced by another program and are compared at one molecule along x; no test reads the files, the directions or the potential in general", "anchors": ["spectro/src/load.rs: load, process_geom, load_fc2, load_fc3, load_fc4", "spectro/src/run.rs: run_files, run, finish", "spectro/src/output.rs: Display", "spectro/src/lib.rs: write_output"]}
{"id": "C131", "title": "Linear molecules: from the files to the printed tables", "statement": "When the input file lists three or more atoms on a line, anywhere and in any direction in space, and the three force-constant files list constants that are axially symmetric about that line, the program runs and its report has: B of the moment of inertia of the atoms in the equilibrium table; one row per nondegenerate mode and then one per pair of equal frequencies, each with the harmonic frequency and the fundamental that vibrational perturbation theory gives for normal modes of the molecule; the perturbed ground level as the zero point energy (one extra term when there are several pairs, C72); no Fermi resonance if no sum of two frequencies is within 200 cm-1 of a frequency. If moving and turning the molecule costs no energy and different frequencies are more than 200 cm-1 apart, the rotational table has B of the ground state, of each nondegenerate mode and of each pair as perturbation theory gives them, up to the stated rounding term.", "quantifier": "all input files and force-constant files of any number of atoms on a line, all behaviours of the crate symm and of the eigensolver that meet the stated contracts, all ways to print numbers that meet the stated contract; over the real numbers", "why_tests_cant": "the tests of linear molecules compare with the output of another program for a few molecules; none ties the printed tables to the texts of the files for every linear molecule", "anchors": ["spectro/src/load.rs: load, process_geom, load_fc2, load_fc3, load_fc4", "spectro/src/run.rs: run_files, run, finish", "spectro/src/resonance.rs: Restst::new", "spectro/src/output.rs: Display", "spectro/src/lib.rs: write_output"]}
{"id": "C132", "title": "--dump-fcs: what is written before the report", "statement": "With --dump-fcs the program writes four blocks of lines and then exactly the report it writes without the option; there is a report with the option exactly when there is one without. For an asymmetric top with positive frequencies the blocks are fixed by the texts of the files: under \"Cartesian Hessian\" the lower triangle of the Hessian of the second file in the frame of the run, under \"Normal coordinates\" the mass-weighted normal modes row by row, under the cubic and quartic headings the force constants of the normal modes, each once with its indices in falling order; a reader who splits a line at blanks finds the four indices and the value, if the value fills less than 20 columns and no index is above 9999.", "quantifier": "first part: all input files, all number types, all behaviours of the external crates, polyad output on or off; second part: all input files and force-constant files of any number of atoms whose molecule is an asymmetric top, all behaviours of the eigensolver that meet the stated contract, over the real numbers", "why_tests_cant": "no test runs with the option; a dump that lists a constant under the wrong indices or in another frame would go unnoticed", "anchors": ["spectro/src/run.rs: dump_fcs, run", "spectro_bin/src/main.rs: main", "spectro/src/load.rs: load_fc2, load_fc3, load_fc4", "spectro/src/utils.rs: force3, force4"]}
{"id": "C133", "title": "--finish writes the report of the run it was saved from", "statement": "A run writes a report exactly when its data before the last step (frequencies, cubic and quartic constants, symmetry labels, normal modes) exist and --finish, given these data, writes that same report.", "quantifier": "all input files and force-constant files, all number types, all behaviours of the external crates, polyad output on or off", "why_tests_cant": "no test uses the option; tests compare numbers for single molecules and could not show that nothing computed before the last step is missing from the saved data", "anchors": ["spectro/src/run.rs: SpectroFinish, run, finish", "spectro_bin/src/main.rs: main"]}
{"id": "C134", "title": "--to-gauss lists the constants of a saved run", "statement": "The data that a run hands to its last step, saved as a SpectroFinish, can be listed with --to-gauss without a panic. False: to_gauss loops over as many modes as there are frequencies, which for a run are 3N, while the tables have the 3N-6 or 3N-5 vibrations only, so it reads past the end of the cubic table for every molecule. It ends exactly when the tables cover the number of frequencies.", "quantifier": "listing: all tables and numbers of frequencies, all number types; the panic: all molecules of two or more atoms, all eigensolvers that meet the stated contract, over the real numbers", "why_tests_cant": "no test calls to_gauss", "anchors": ["spectro/src/run.rs: to_gauss, SpectroFinish, run", "spectro/src/f3qcm.rs: Index", "spectro_bin/src/main.rs: main"]}
{"id": "C135", "title": "--to-gauss: the text of the listing", "statement": "When the tables cover as many modes as there are frequencies, the listing has its two headings and below each one line per constant above 1e-6 in magnitude, with its indices in falling order and its value; a reader who splits the lines at blanks gets back the indices and the value, if the value fills less than 20 columns. For an asymmetric top whose saved data keep only the frequencies of the vibrations, the values are the cubic and quartic force constants of the normal modes of the force constants in the files.", "quantifier": "all saved data; second part: all input files and force-constant files of an asymmetric top with any number of atoms, all eigensolvers and ways to print numbers that meet the stated contracts, over the real numbers", "why_tests_cant": "no test calls to_gauss", "anchors": ["spectro/src/run.rs: to_gauss", "spectro_bin/src/main.rs: main", "spectro/src/utils.rs: force3, force4"]}
{"id": "C136", "title": "Printed tables of force constants can be read back", "statement": "The text that Display of F3qcm or F4qcm writes, with any width and precision or with none given, has one line per number, right-aligned and never cut; read with load_vec or as a Hessian file it gives as many numbers in the same order, each of which prints as before, so that every triple or quadruple of modes keeps its constant and printing again gives the same text.", "quantifier": "all tables, all widths and precisions, all number types whose printing and parsing meet the contract float_text", "why_tests_cant": "no test prints these tables; a test could try a few widths, and glued numbers appear only for values wider than the column", "anchors": ["spectro/src/f3qcm.rs: Display", "spectro/src/f4qcm.rs: Display", "spectro/src/utils.rs: load_vec"]}
