{
 "claims": [
  {
   "property": "C01",
   "status": "proved",
   "theorems": [
    "cubic_read_any_order"
   ],
   "note": "every element type; the storage length is the one process_geom computes"
  },
  {
   "property": "C02",
   "status": "proved",
   "theorems": [
    "cubic_storage_bijection"
   ],
   "note": "for every n"
  },
  {
   "property": "C03",
   "status": "proved",
   "theorems": [
    "quartic_access_any_order"
   ],
   "note": "reads and writes, any element type"
  },
  {
   "property": "C04",
   "status": "proved",
   "theorems": [
    "quartic_storage_bijection"
   ],
   "note": "for every n"
  },
  {
   "property": "C05",
   "status": "proved",
   "theorems": [
    "index_arithmetic_fits_u64",
    "quartic_index_overflows_at_65535"
   ],
   "note": "64-bit usize; the second theorem shows the quartic bound is sharp"
  },
  {
   "property": "C06",
   "status": "proved",
   "theorems": [
    "load_cubic"
   ],
   "note": "from the parsed list of numbers; file reading is not modelled"
  },
  {
   "property": "C07",
   "status": "proved",
   "theorems": [
    "load_quartic"
   ],
   "note": "from the parsed list of numbers; file reading is not modelled"
  },
  {
   "property": "C08",
   "status": "partial",
   "theorems": [
    "load_hessian_header",
    "load_hessian_bad_length",
    "load_hessian_same_refuted"
   ],
   "note": "The property is false as stated: the two forms load to transposed matrices. The exact relation and the condition under which they agree (symmetric data) are proved."
  },
  {
   "property": "C51",
   "status": "proved",
   "theorems": [
    "counting_of_modes"
   ],
   "note": "every atom count, linear or not"
  },
  {
   "property": "C56",
   "status": "proved",
   "theorems": [
    "mode_vectors_by_column"
   ],
   "note": "the matrix is given by its column-major storage"
  },
  {
   "property": "C15",
   "status": "proved",
   "theorems": [
    "asymmetric_modes_in_order"
   ],
   "note": "every arithmetic, every frequency vector"
  },
  {
   "property": "C16",
   "status": "partial",
   "theorems": [
    "symmetric_modes_covered_partial",
    "symmetric_modes_partition_partial",
    "symmetric_modes_partition_refuted"
   ],
   "note": "The property is false for frequencies whose closeness is not transitive and for four or more modes at one level (doubles witness). Coverage holds always; the partition holds under the stated condition."
  },
  {
   "property": "C17",
   "status": "proved",
   "theorems": [
    "states_of_asymmetric_top"
   ],
   "note": "the list is exactly the occupation vectors of at most two quanta, each once, in block order"
  },
  {
   "property": "C18",
   "status": "proved",
   "theorems": [
    "state_tables_point_right",
    "pair_slots_distinct"
   ],
   "note": "for every mode list in which each mode occurs once (C15, C16)"
  },
  {
   "property": "C20",
   "status": "proved",
   "theorems": [
    "fermi1_exact"
   ],
   "note": "comparisons as carried out by the arithmetic in use, doubles included"
  },
  {
   "property": "C21",
   "status": "proved",
   "theorems": [
    "fermi2_exact"
   ],
   "note": "real arithmetic; modes in non-increasing frequency order"
  },
  {
   "property": "C22",
   "status": "proved",
   "theorems": [
    "coriolis_exact"
   ],
   "note": "any arithmetic"
  },
  {
   "property": "C23",
   "status": "proved",
   "theorems": [
    "darling_exact"
   ],
   "note": "any arithmetic"
  },
  {
   "property": "C24",
   "status": "partial",
   "theorems": [
    "darling_symmetric_partial",
    "fermi2_symmetric_partial",
    "darling_symmetric_refuted",
    "fermi2_symmetric_refuted"
   ],
   "note": "The property is false: the first nondegenerate mode is never compared with a degenerate pair, and two nondegenerate modes are never tested together with a degenerate one. The exact set of reported resonances is proved."
  },
  {
   "property": "C25",
   "status": "partial",
   "theorems": [
    "fermi2_three_modes",
    "fermi1_no_self_partial",
    "fermi1_no_self_refuted",
    "fermi2_symmetric_self_refuted"
   ],
   "note": "False for modes at or below 200 cm-1 (type 1) and for symmetric tops (type 2); true otherwise as stated."
  },
  {
   "property": "C55",
   "status": "partial",
   "theorems": [
    "mismatch_is_least",
    "mismatch_is_least_refuted"
   ],
   "note": "True for non-negative frequencies; false with imaginary modes."
  },
  {
   "property": "C61",
   "status": "proved",
   "theorems": [
    "symmetric_modes_content"
   ],
   "note": "exact content of the mode list of a symmetric top, any arithmetic"
  },
  {
   "property": "C26",
   "status": "partial",
   "theorems": [
    "fermi_treated_partial",
    "fermi_treated_refuted"
   ],
   "note": "The property is false: with two type-1 resonances of one mode both terms are dropped but only the last is diagonalised. Proved for asymmetric tops: everything diagonalised is a reported resonance with the right two states, and a resonance that is the only one for its mode or pair is diagonalised."
  },
  {
   "property": "C27",
   "status": "proved",
   "theorems": [
    "fundamentals_are_differences"
   ],
   "note": "over the reals, any number of modes"
  },
  {
   "property": "C28",
   "status": "proved",
   "theorems": [
    "symmetric_fundamentals_are_differences"
   ],
   "note": "over the reals, any mode list that partitions the modes"
  },
  {
   "property": "C29",
   "status": "proved",
   "theorems": [
    "no_fermi_corrected_is_fundamental"
   ],
   "note": "over the reals, asymmetric tops; the eigensolver is arbitrary"
  },
  {
   "property": "C30",
   "status": "proved",
   "theorems": [
    "fermi_two_levels"
   ],
   "note": "over the reals, for any eigensolver meeting the stated contract on the matrix in question"
  },
  {
   "property": "C31",
   "status": "proved",
   "theorems": [
    "e0_shifts_rigidly"
   ],
   "note": "over the reals; holds for an arbitrary eigensolver function"
  },
  {
   "property": "C32",
   "status": "proved",
   "theorems": [
    "anharmonic_constants_symmetric",
    "anharmonic_constants_assigned"
   ],
   "note": "any arithmetic"
  },
  {
   "property": "C33",
   "status": "proved",
   "theorems": [
    "anharmonic_constants_exact"
   ],
   "note": "over the reals, for lists of the form reported for asymmetric tops, with nonzero denominators where nothing is reported"
  },
  {
   "property": "C34",
   "status": "partial",
   "theorems": [
    "e0_exact_partial",
    "e0_exact_refuted"
   ],
   "note": "The property is false: for a reported resonance of either type the program's E0 differs from the formula without the resonant term. The exact difference is proved."
  },
  {
   "property": "C60",
   "status": "proved",
   "theorems": [
    "ground_state_untouched"
   ],
   "note": "any arithmetic, also symmetric tops; includes that no index is out of range"
  },
  {
   "property": "C38",
   "status": "proved",
   "theorems": [
    "alpha_exact",
    "sym_alpha_exact"
   ],
   "note": "over the reals; a reported pair contributes the finite remainder of the resonant term. Pairs reported about two axes are excluded (see C39)"
  },
  {
   "property": "C39",
   "status": "partial",
   "theorems": [
    "coriolis_honoured_partial",
    "coriolis_last_axis_wins",
    "coriolis_honoured_refuted",
    "coriolis_honoured_prolate_refuted",
    "coriolis_honoured_oblate_refuted"
   ],
   "note": "The property is false in three ways: a pair coupled about two axes keeps only the last, prolate tops record other axis labels than they look up, and pairs of degenerate modes record another component. Proved: nothing that is not reported is treated as resonant, and pairs reported about one axis are."
  },
  {
   "property": "C40",
   "status": "proved",
   "theorems": [
    "zeta_antisymmetric_bounded"
   ],
   "note": "over the reals; the bound needs normalised columns"
  },
  {
   "property": "C41",
   "status": "partial",
   "theorems": [
    "rotational_constants_linear",
    "rotational_constants_short",
    "sym_rotational_constants",
    "prolate_rotational_constants_refuted"
   ],
   "note": "Proved for asymmetric tops and, with sym_rotational_constants, for oblate tops, linear and diatomic molecules. False for prolate tops: the corrections of the unique axis and of another axis are exchanged; sym_rotational_constants states exactly what is reported."
  },
  {
   "property": "C42",
   "status": "proved",
   "theorems": [
    "watson_reductions_agree"
   ],
   "note": "over the reals"
  },
  {
   "property": "C43",
   "status": "proved",
   "theorems": [
    "tau_symmetric",
    "tau_diagonal_not_positive",
    "tau_prime_symmetric",
    "linear_de_not_negative"
   ],
   "note": "over the reals"
  },
  {
   "property": "C44",
   "status": "proved",
   "theorems": [
    "sextic_reductions_agree"
   ],
   "note": "over the reals, with the three denominators that occur nonzero"
  },
  {
   "property": "C45",
   "status": "proved",
   "theorems": [
    "sextic_tensor_symmetric",
    "coriolis_tensor_symmetric"
   ],
   "note": "the first for any arithmetic, the second over the reals"
  },
  {
   "property": "C46",
   "status": "proved",
   "theorems": [
    "axis_tables_inverse"
   ],
   "note": ""
  },
  {
   "property": "C58",
   "status": "proved",
   "theorems": [
    "close_symmetric_double"
   ],
   "note": "double precision, all inputs including NaN and infinities"
  },
  {
   "property": "C59",
   "status": "proved",
   "theorems": [
    "zeta_antisymmetric_double"
   ],
   "note": "double precision, all inputs"
  },
  {
   "property": "C62",
   "status": "partial",
   "theorems": [
    "oblate_sextic_nan",
    "oblate_sextic_finite_refuted"
   ],
   "note": "The property is false: when the two equal rotational constants of an oblate top are the same double, all seven S-reduced sextic constants are NaN whatever the other inputs."
  },
  {
   "property": "C64",
   "status": "proved",
   "theorems": [
    "sextic_diagonal_formula"
   ],
   "note": "over the reals, not for diatomics"
  },
  {
   "property": "C09",
   "status": "proved",
   "theorems": [
    "cubic_complete",
    "no_modes_no_cubic"
   ],
   "note": "every cell of the cubic table, any order of the modes; no modes is an error (the subtraction panics)"
  },
  {
   "property": "C10",
   "status": "proved",
   "theorems": [
    "quartic_complete"
   ],
   "note": "every cell of the quartic table, any order of the modes"
  },
  {
   "property": "C11",
   "status": "proved",
   "theorems": [
    "second_derivatives_rotate",
    "third_derivatives_rotate",
    "fourth_derivatives_rotate",
    "rotation_keeps_symmetry",
    "rotation_undone"
   ],
   "note": ""
  },
  {
   "property": "C12",
   "status": "proved",
   "theorems": [
    "secular_matrix",
    "secular_matrix_exact"
   ],
   "note": "structural part for any arithmetic, exact form over the reals for positive masses"
  },
  {
   "property": "C13",
   "status": "proved",
   "theorems": [
    "wavenumbers_ordered"
   ],
   "note": ""
  },
  {
   "property": "C14",
   "status": "proved",
   "theorems": [
    "eigenpairs_sorted"
   ],
   "note": "ties keep the order of the solver; fewer values than columns is an error"
  },
  {
   "property": "C65",
   "status": "proved",
   "theorems": [
    "normal_modes"
   ],
   "note": "under the stated contract of the eigensolver for this matrix"
  },
  {
   "property": "C66",
   "status": "proved",
   "theorems": [
    "frequencies_any_axes"
   ],
   "note": "the two eigensolver calls may differ; each must meet the contract for its matrix"
  },
  {
   "property": "C67",
   "status": "proved",
   "theorems": [
    "vibrations_keep_centre_of_mass",
    "three_zero_frequencies",
    "free_displacements"
   ],
   "note": "under the contract of the eigensolver; free_displacements also covers rotations"
  },
  {
   "property": "C68",
   "status": "proved",
   "theorems": [
    "cubic_any_axes",
    "quartic_any_axes"
   ],
   "note": ""
  },
  {
   "property": "C69",
   "status": "partial",
   "theorems": [
    "reported_frequencies_partial",
    "reported_frequencies_refuted"
   ],
   "note": "holds when no frequency is imaginary; false otherwise: an imaginary frequency sorts last and is dropped in favour of a zero one"
  },
  {
   "property": "C70",
   "status": "proved",
   "theorems": [
    "unit_factors"
   ],
   "note": "literal constants checked against their definitions"
  },
  {
   "property": "C35",
   "status": "partial",
   "theorems": [
    "sym_x_partial",
    "sym_g_partial",
    "sym_x_refuted",
    "sym_x_degenerate_refuted",
    "sym_g_refuted"
   ],
   "note": "False as stated. Diagonal x constants are right with any resonances; off-diagonal ones when both modes are only sources of type 2 resonances; g when no reported resonance between degenerate modes touches it. Counterexamples: a type 2 resonance makes x_10 and x_20 wrong, for nondegenerate and for degenerate modes; a type 1 resonance between degenerate modes has the wrong sign in g."
  },
  {
   "property": "C36",
   "status": "partial",
   "theorems": [
    "sym_e0_exact",
    "sym_e0_partial",
    "sym_e0_refuted"
   ],
   "note": "False as stated: the accumulators are reset to zero inside the loops. sym_e0_exact gives exactly which terms are lost for any number of modes (first partners in increasing order, no resonances); nothing is lost with at most two degenerate modes; the counterexample has three."
  },
  {
   "property": "C37",
   "status": "proved",
   "theorems": [
    "sym_constants_symmetric"
   ],
   "note": "For every arithmetic, mode list, force field and resonance list."
  },
  {
   "property": "C71",
   "status": "proved",
   "theorems": [
    "sym_constants_exact"
   ],
   "note": "Every entry of x and g over the reals without reported resonances."
  },
  {
   "property": "C72",
   "status": "partial",
   "theorems": [
    "sym_e0_partial",
    "sym_e0_resonance_refuted"
   ],
   "note": "False as stated: a resonance 2w_s ~ w_n of a degenerate and a nondegenerate mode enters E0 with the wrong sign. Without resonances (and at most two degenerate modes) E0 is the standard formula."
  },
  {
   "property": "C53",
   "status": "proved",
   "theorems": [
    "polyad_denominators"
   ],
   "note": "Over the reals, for every choice of signs; a denominator is dropped exactly when a reported resonance has it."
  },
  {
   "property": "C54",
   "status": "proved",
   "theorems": [
    "polyad_symmetric",
    "polyad_beyond_quartic"
   ],
   "note": "For every arithmetic, panics included."
  },
  {
   "property": "C73",
   "status": "partial",
   "theorems": [
    "polyad_type2_partial",
    "polyad_type1_partial",
    "polyad_coupling_refuted"
   ],
   "note": "False as stated: the coupling is included as soon as any of the three resonances among the modes is reported, whatever the direction in which the quanta change. The partial theorems say exactly what is computed."
  },
  {
   "property": "C74",
   "status": "proved",
   "theorems": [
    "polyad_constants",
    "darling_dennison",
    "polyad_aabc",
    "polyad_one_one"
   ],
   "note": "Over the reals without reported Fermi resonances."
  },
  {
   "property": "C75",
   "status": "proved",
   "theorems": [
    "polyad_energies",
    "polyad_fundamentals"
   ],
   "note": "Over the reals."
  },
  {
   "property": "C76",
   "status": "partial",
   "theorems": [
    "polyad_panics_partial",
    "polyad_panics_refuted"
   ],
   "note": "False as stated: four distinct modes, or four quanta with a net change, reach todo!(). The partial theorem says exactly when."
  },
  {
   "property": "C77",
   "status": "proved",
   "theorems": [
    "polyad_states"
   ],
   "note": "Exact membership for every resonance list with indices in range."
  },
  {
   "property": "C78",
   "status": "partial",
   "theorems": [
    "polyad_matrix_partial",
    "polyad_matrix_refuted"
   ],
   "note": "False as stated: the seven states are constants in the source, for twelve modes. The partial theorem gives the shape of the matrix and when it panics."
  },
  {
   "property": "C19",
   "status": "partial",
   "theorems": [
    "rows_line_up",
    "symmetric_rows_partial",
    "rows_line_up_refuted"
   ],
   "note": "True for asymmetric tops: every row of the printed table describes one mode. False for symmetric tops: the frequencies are listed nondegenerate modes first, the labels in the order of the modes; with the frequencies of ammonia the first row shows the label of mode 0 beside the frequency of mode 2. symmetric_rows_partial says exactly which mode each column of a row belongs to."
  },
  {
   "property": "C47",
   "status": "partial",
   "theorems": [
    "aligned_modes_normal",
    "aligned_modes_orthonormal",
    "other_modes_untouched",
    "mass_weighted_copy_kept",
    "pair_aligned_partial",
    "pair_panics_exactly",
    "pair_aligned_refuted"
   ],
   "note": "Everything is proved except that the chosen component vanishes in one case of the angle: with small x components and a y component in the second column the program divides by the x instead of the y component and nothing vanishes (refuted by a witness with orthonormal columns). pair_aligned_partial is about a pair without further partners. The rotated geometry that gives the partner atom comes from crate symm and is an argument."
  },
  {
   "property": "C50",
   "status": "partial",
   "theorems": [
    "symmetry_labels_partial",
    "symmetry_label_unique",
    "symmetry_labels_double",
    "symmetry_labels_refuted"
   ],
   "note": "The labels themselves come from crate symm and are an argument. Proved for every positive starting tolerance over the reals and for the tolerance 1e-4 of the program in double precision; false for a tolerance that is zero, negative or not a number, with which the public function compute_irreps may be called."
  },
  {
   "property": "C52",
   "status": "proved",
   "theorems": [
    "symmetric_top_oriented",
    "others_not_oriented",
    "linear_axes_fixed"
   ],
   "note": "Over the reals, from the normalised geometry (crate symm) on; the z axis being the symmetry axis is an assumption about it."
  },
  {
   "property": "C63",
   "status": "partial",
   "theorems": [
    "table_panics",
    "harmonic_result_prints_refuted"
   ],
   "note": "table_panics characterises the results that can be printed. Results of harmonic runs cannot: their lists of fundamentals and corrected frequencies are empty, so printing panics for every molecule with a vibration. For anharmonic runs see rows_line_up and symmetric_rows_partial (C19)."
  },
  {
   "property": "C79",
   "status": "partial",
   "theorems": [
    "axis_recorded_partial",
    "axis_recorded_refuted"
   ],
   "note": "True except for the groups C2h and C3, for which the direction is left at its previous value."
  },
  {
   "property": "C80",
   "status": "proved",
   "theorems": [
    "linear_constants_printed"
   ],
   "note": "Also says that the stored values (field rots) of a linear molecule are the vibrational corrections alone."
  },
  {
   "property": "C48",
   "status": "partial",
   "theorems": [
    "input_round_trip_partial",
    "input_round_trip_refuted"
   ],
   "note": "Proved character by character for every description whose numbers fit their columns, given the stated contract for printing and parsing doubles. Missing: the unconditional statement, which is false and refuted with four witnesses (a five digit header entry merges with its neighbour, an empty degenerate-mode list is dropped, a dummy atom is moved, a weight for a dummy atom makes the reader panic)."
  },
  {
   "property": "C49",
   "status": "partial",
   "theorems": [
    "dummy_position_partial",
    "dummy_position_refuted",
    "dummy_frame_refuted"
   ],
   "note": "Proved when every earlier atom line containing the text of a dummy coordinate has it on the same axis. Missing: the unconditional statement, which is false: the map from coordinate text to atom ignores the axis, and literal dummy coordinates are not moved with the atoms."
  },
  {
   "property": "C57",
   "status": "proved",
   "theorems": [
    "dump_lists_each_once",
    "dump_assertions",
    "gauss_lists_each_once"
   ],
   "note": "Rows as index columns and value; the printed digits are not modelled."
  },
  {
   "property": "C81",
   "status": "proved",
   "theorems": [
    "wilson_vectors_inertia"
   ],
   "note": ""
  },
  {
   "property": "C82",
   "status": "proved",
   "theorems": [
    "sextic_tensor_reduced_form"
   ],
   "note": "Classical mechanics of the angular momentum; the sextic form is written out in FormFacts.v (sextic_form)."
  },
  {
   "property": "C83",
   "status": "proved",
   "theorems": [
    "watson_reductions_canonical"
   ],
   "note": "Identities of polynomials in the three components of the classical angular momentum, through sixth degree."
  },
  {
   "property": "C84",
   "status": "proved",
   "theorems": [
    "nielsen_constants_form"
   ],
   "note": ""
  },
  {
   "property": "C85",
   "status": "proved",
   "theorems": [
    "wilson_constants_form"
   ],
   "note": "The two nearly equal constants are B 0 and B 1, as after the normalisation of the geometry."
  },
  {
   "property": "C86",
   "status": "partial",
   "theorems": [
    "symmetric_constants_agree_partial",
    "symmetric_constants_agree_refuted"
   ],
   "note": "Proved for oblate tops. False for prolate tops: the quartic form is expanded about the first axis, the unique one is the third (Wilson's constants, C85, use the right one)."
  },
  {
   "property": "C87",
   "status": "proved",
   "theorems": [
    "symmetric_top_sextic"
   ],
   "note": "Oblate tops with B 0 = B 1 exactly are excluded (see C62)."
  },
  {
   "property": "C88",
   "status": "proved",
   "theorems": [
    "diatomic_dunham"
   ],
   "note": "The principal moments of a diatomic are taken in ascending order, the atoms on the first axis. Finding: the conversion factor of the quartic constants (utils.rs CONST1) is 1.000236 times the one implied by the rotational constants."
  },
  {
   "property": "C89",
   "status": "proved",
   "theorems": [
    "levels_second_order",
    "intermediate_states_exist"
   ],
   "note": "The resonances of one mode must be unique in fm1 (as in C34). The Watson term, a constant, is in neither the program nor the specification. Finding: the program leaves the constant part of the energy of the vibrational angular momentum (angular_shift) out."
  },
  {
   "property": "C90",
   "status": "proved",
   "theorems": [
    "fermi_coupling_is_element"
   ],
   "note": ""
  },
  {
   "property": "C91",
   "status": "proved",
   "theorems": [
    "sym_from_asym"
   ],
   "note": "The symmetry relations (axial) are those of C_nv, n >= 3, with the partners of all pairs oriented alike. Triply degenerate modes are excluded. For g_tu of two different pairs see C94."
  },
  {
   "property": "C92",
   "status": "proved",
   "theorems": [
    "sym_levels_second_order",
    "sym_levels_definite",
    "sym_state_levels",
    "mean_l2_closed"
   ],
   "note": "No resonances. The constant is angular_shift less half the sum of B zeta^2 over the pairs."
  },
  {
   "property": "C93",
   "status": "proved",
   "theorems": [
    "effective_darling_dennison",
    "effective_aabc",
    "effective_one_one",
    "effective_fermi2",
    "effective_fermi1"
   ],
   "note": "Over the reals. The total number of quanta must be the same in both states for the three quartic couplings; the program does not look at the direction of the changes. States that differ by three quanta in a direction that is not the reported resonance are excluded (see C73)."
  },
  {
   "property": "C94",
   "status": "proved",
   "theorems": [
    "g_from_effective"
   ],
   "note": "No resonances. The orientation of the perpendicular Coriolis constants (alike) is a hypothesis in addition to those of C91; for other signs the program's -2 B zeta^2 is not the effective Hamiltonian's."
  },
  {
   "property": "C95",
   "status": "proved",
   "theorems": [
    "words_any_spacing",
    "read_any_spacing"
   ],
   "note": ""
  },
  {
   "property": "C96",
   "status": "partial",
   "theorems": [
    "masses_loaded",
    "reload_converts_again",
    "reload_refuted"
   ],
   "note": "Proved: the masses, and that reloading a written molecule applies the conversion from bohr and the reorientation a second time and keeps everything else. Missing: that the molecule comes back, which is false (refuted): the coordinates are kept and written in angstroms and read as bohr. The conversion and reorientation are a parameter of the model."
  },
  {
   "property": "C97",
   "status": "proved",
   "theorems": [
    "reciprocal_inertia_expansion",
    "rot_constants_second_order"
   ],
   "note": "No degenerate modes. A pair that is not reported must have different frequencies, and at most one axis is reported per pair. The deviation of ALPHA_CONST from half of the exact constant is an explicit term of the statement."
  },
  {
   "property": "C98",
   "status": "proved",
   "theorems": [
    "sym_alpha_from_asym",
    "sym_rot_constants_second_order"
   ],
   "note": "No Coriolis resonances reported (C39 shows that reported ones are not honoured for symmetric tops). Modes that are not partners must have different frequencies. Bending modes of linear molecules are taken not to change the moments of inertia; the program leaves those terms out."
  },
  {
   "property": "C99",
   "status": "proved",
   "theorems": [
    "finish_completes",
    "run_completes",
    "run_completes_any",
    "finish_panics"
   ],
   "note": "run_completes covers asymmetric tops over the real numbers; run_completes_any covers every kind of molecule in every arithmetic, with the success of the alignment of degenerate modes, the end of the label search and the partition of the modes as conditions (C47, C50 and C16 say when they hold). Point group and labels are parameters."
  },
  {
   "property": "C100",
   "status": "proved",
   "theorems": [
    "polyads_change_nothing",
    "polyads_panic"
   ],
   "note": ""
  },
  {
   "property": "C101",
   "status": "proved",
   "theorems": [
    "run_second_order"
   ],
   "note": "Asymmetric tops for which the result reports no Fermi resonance, with positive frequencies and no exact coincidences. Over the real numbers, with the contract of the eigensolver."
  },
  {
   "property": "C102",
   "status": "partial",
   "theorems": [
    "harmonic_run_reports",
    "cubic_run_refuted"
   ],
   "note": "Proved: harmonic runs of asymmetric tops and diatomic molecules. Refuted: a run with cubic force constants always panics."
  },
  {
   "property": "C103",
   "status": "proved",
   "theorems": [
    "run_independent",
    "same_input_same_field",
    "renumbered_same_field",
    "turned_same_field"
   ],
   "note": "Over the real numbers, with the contracts of the two eigensolvers; the labels of the symmetry library are assumed not to depend on numbering or sign. Coinciding vibrational wavenumbers are excluded."
  },
  {
   "property": "C104",
   "status": "proved",
   "theorems": [
    "mode_signs_change_nothing",
    "partner_signs_refuted"
   ],
   "note": "Over the real numbers; partner_signs_refuted shows that the condition on partners is needed."
  },
  {
   "property": "C105",
   "status": "proved",
   "theorems": [
    "eckart_modes",
    "rotations_zero"
   ],
   "note": "Over the real numbers, with the contract of the eigensolver. Freedom under rotation is a condition on the quadratic force constants."
  },
  {
   "property": "C106",
   "status": "proved",
   "theorems": [
    "run_rotational_constants"
   ],
   "note": "Over the real numbers. The term from the rounded constant 0.086112 stands in the statement; pairs reported as Coriolis resonances must each be reported about one axis, others must differ in frequency."
  },
  {
   "property": "C107",
   "status": "proved",
   "theorems": [
    "run_fermi_resonances"
   ],
   "note": "Over the real numbers; every level belongs to at most one reported resonance and no mode is reported as resonant with itself (C25). The resonances that are reported are those of the program, res names them."
  },
  {
   "property": "C108",
   "status": "proved",
   "theorems": [
    "constants_found_by_name"
   ],
   "note": "For any number type with the contract `prints` of number and label printing; lines of the geometry, which other crates print, must not contain a colon."
  },
  {
   "property": "C109",
   "status": "proved",
   "theorems": [
    "tables_read_back"
   ],
   "note": "For any number type with the contract `prints`; numbers must be narrower than their column (otherwise neighbours merge), states with at most nine quanta per mode as the program generates them, mode indices up to 9999."
  },
  {
   "property": "C110",
   "status": "proved",
   "theorems": [
    "report_printed"
   ],
   "note": "Double precision, hypotheses of C99, at least as many labels as rows of the table; columns line up when each constant has at most twelve characters."
  },
  {
   "property": "C111",
   "status": "partial",
   "theorems": [
    "mode_numbers_refuted",
    "mode_numbers_partial"
   ],
   "note": "False for the program: refuted by a run of water. The positive theorem says what the numbers are: indices in the lists, index plus one in the table."
  },
  {
   "property": "C112",
   "status": "proved",
   "theorems": [
    "program_layout"
   ],
   "note": "Every number type and symmetry code. The texts of fort.30 and fort.40 must not contain vertical tabs: `split_ascii_whitespace` does not split there, `split_whitespace` does."
  },
  {
   "property": "C113",
   "status": "proved",
   "theorems": [
    "program_headers",
    "program_counts"
   ],
   "note": "Every number type and symmetry code; the counts are those of the model of new_fc3/new_fc4/load_fc2 in LoadFacts."
  },
  {
   "property": "C114",
   "status": "partial",
   "theorems": [
    "blank_lines_refuted",
    "blank_lines_panic",
    "blank_lines_partial"
   ],
   "note": "False for the program: a blank line in the GEOM or WEIGHT section, also as the last line of the file, ends in a panic (blank_lines_panic); elsewhere it is ignored (blank_lines_partial)."
  },
  {
   "property": "C115",
   "status": "proved",
   "theorems": [
    "report_from_files"
   ],
   "note": "Over the real numbers; asymmetric tops, symmetric Hessian, for the values the conditions of C107 (isolated resonances); the crate symm is a parameter, its axes and masses enter the statement. Printed numbers must be narrower than their column."
  },
  {
   "property": "C116",
   "status": "proved",
   "theorems": [
    "load_frame"
   ],
   "note": "Over the real numbers. The crate symm is a parameter; its contract (symm_ok: scaling to Angstrom, masses, centre of mass, rigid rotation, principal moments, linear molecules along z, diatomic ones along x) is a hypothesis about the atoms of the file. For diatomic molecules the positions are claimed under a condition (C129). Diagonal inertia is not claimed for symmetric tops with unequal first two moments (C41)."
  },
  {
   "property": "C117",
   "status": "proved",
   "theorems": [
    "rotation_from_files"
   ],
   "note": "Over the real numbers; asymmetric tops with all moments above 0.01, distinct constants, positive frequencies, symmetric Hessian free of translations and rotations; at most one Coriolis axis listed per pair of modes; contracts of symm (as in C116), of the eigensolver and of number printing as hypotheses; printed numbers narrower than their column. The term rounding_term is the exact effect of the rounded constant 0.086112."
  },
  {
   "property": "C118",
   "status": "proved",
   "theorems": [
    "distortion_from_files"
   ],
   "note": "Over the real numbers; hypotheses as in C117 (no condition on Coriolis resonances), and rotational constants more than 0.005 apart or no odd quartic terms for that pair of axes. The sextic form itself is the one of C82. The odd part of the sextic form, which contributes at higher degree, is left aside. The remainder in the S sextics is exact; it comes from ten times a distortion coefficient in a divisor of the code."
  },
  {
   "property": "C119",
   "status": "proved",
   "theorems": [
    "rotating_molecule",
    "energy_from_files"
   ],
   "note": "Over the real numbers, classical mechanics. rotating_molecule derives the forms from Newtonian point masses for every small motion of the given orders; energy_from_files puts the data of a run in its place under the hypotheses of C118 and positive frequencies. The potential is any function of the modes that agrees with its frequencies and cubic constants up to order four."
  },
  {
   "property": "C120",
   "status": "proved",
   "theorems": [
    "run_threefold"
   ],
   "note": "Over the real numbers. The symmetry is required of the atoms, masses and force constants, not of the modes. Hypotheses: frequencies above 0.1 and either equal or at least 0.1 apart, no three equal, no w_i + w_j = w_k, modes without partner even under the mirror (no A2 modes), the reference atom on the mirror plane and moved by every pair such that the alignment can see it. No Fermi resonances may be reported. The constant of the zero point energy carries the deviations of C72."
  },
  {
   "property": "C121",
   "status": "proved",
   "theorems": [
    "alignment_threefold"
   ],
   "note": "Over the real numbers, for runs in which bdegnl returns; that it does so under these hypotheses is part of C120. The reference atom lies on the mirror plane and its image under the turn is passed in."
  },
  {
   "property": "C122",
   "status": "partial",
   "theorems": [
    "run_threefold_rot",
    "run_threefold_rot_refuted"
   ],
   "note": "Refuted for oblate tops: the reported constants are the right ones minus lost_about, a sum over the degenerate pairs of squares of the derivative of the xz moment of inertia, because alphas.rs:30 takes the yz derivative of the first partner, which the alignment has made zero. run_threefold_rot states the exact value for both kinds of tops (for prolate tops the right one, under the exchanged names of C41); run_threefold_rot_refuted gives a pyramid of four atoms for which all three reported ground state constants are too small. Hypotheses as for C120, and the force field is free of torque. The rounding of the constant 0.086112 (rounding_term) is carried along, as in C106. Over the real numbers."
  },
  {
   "property": "C123",
   "status": "proved",
   "theorems": [
    "alignment_linear"
   ],
   "note": "Over the real numbers, for runs in which bdegnl returns; that it does so under these hypotheses is part of C124. linear_modes: frequencies equal or at least 1 wavenumber apart, no three equal, and the reference atom moves along x in one partner of each pair by more than the threshold of bdegnl."
  },
  {
   "property": "C124",
   "status": "proved",
   "theorems": [
    "run_linear"
   ],
   "note": "Over the real numbers, with the eigensolver as a parameter with a contract. Hypotheses: the symmetry of the force constants, linear_modes as for C123, no frequency is the sum of two others, the rotational constant about the axis is zero. The terms the zero point energy lacks with several pairs are those of C72."
  },
  {
   "property": "C125",
   "status": "proved",
   "theorems": [
    "run_linear_rot"
   ],
   "note": "Over the real numbers. Hypotheses as for C124, the force field is free of torque, the constants and moments about x and y are equal; no Coriolis resonance is reported, which the theorem derives for frequencies more than 200 apart. The rounding of the constant 0.086112 (rounding_term) is carried along, as in C106."
  },
  {
   "property": "C126",
   "status": "proved",
   "theorems": [
    "run_threefold_distortion"
   ],
   "note": "Over the real numbers, with the eigensolver as a parameter with a contract. Hypotheses as for C121, and the molecule is centred, its inertia tensor is diagonal and the force field is free of translations and torque. The factor kappa is 1 up to the rounding of the code's constant 38333.84. The odd term z (x^3 - 3 x y^2) is not reported by the program for symmetric tops."
  },
  {
   "property": "C127",
   "status": "proved",
   "theorems": [
    "run_linear_distortion",
    "linear_energy_unique"
   ],
   "note": "Over the real numbers, with the eigensolver as a parameter with a contract. Hypotheses as for C125 with at least three atoms and 3N - 5 vibrations, the molecule is centred, its moment of inertia is that of the input and the force field is free of translations and torque. linear_energy_unique shows that the specification fixes both constants. kappa is 1.00024 instead of 1 because 38333.84078 in make_tau and 0.1722212503791076 in c_mat are not values of one constant."
  },
  {
   "property": "C128",
   "status": "proved",
   "theorems": [
    "run_diatomic"
   ],
   "note": "Over the real numbers, with the eigensolver as a parameter with a contract. The atoms are on the first principal axis; whether load puts the force constants into the same frame is C129. The potential is given by its derivatives along the line and by vanishing second derivatives across it, which is what a function of the distance alone has at its minimum."
  },
  {
   "property": "C129",
   "status": "partial",
   "theorems": [
    "diatomic_frame",
    "diatomic_frame_refuted",
    "run_diatomic_turned"
   ],
   "note": "The property is false of the code: diatomic_frame_refuted has two atoms along y. diatomic_frame is the exact condition under which it holds, and run_diatomic_turned the consequence (De = 0). Over the real numbers, with the crate symm as a parameter with the contract symm_ok, which puts diatomic molecules along the first axis because the program sorts their moments like those of tops."
  },
  {
   "property": "C130",
   "status": "proved",
   "theorems": [
    "diatomic_from_files"
   ],
   "note": "Over the real numbers, with the crate symm (contract symm_ok), the eigensolver (contract solves) and the printing of numbers (contract prints) as parameters. The condition on the frame is the exact one of C129. A premise narrow says, table by table, that the printed numbers do not fill their columns; without it two numbers can run into each other, see C109."
  },
  {
   "property": "C131",
   "status": "proved",
   "theorems": [
    "linear_from_files",
    "linear_rotation_from_files"
   ],
   "note": "Over the real numbers, with the crate symm (contract symm_ok), the eigensolver (contract solves) and the printing of numbers (contract prints) as parameters. The frequencies must be positive, equal in pairs or apart, and the vectors of a pair must satisfy linear_modes, the condition of C123. Nothing is said of which Coriolis resonances are listed; the second theorem asks for frequencies so far apart that none is used."
  },
  {
   "property": "C132",
   "status": "proved",
   "theorems": [
    "dump_adds",
    "dump_from_files"
   ],
   "note": "The second theorem is over the real numbers, for asymmetric tops with positive frequencies, with the eigensolver (contract solves) and the printing of numbers (contract prints) as parameters. The lines of a run that panics after part of the dump has been written are not modelled. Remark: the headings give mdyne units for the cubic and quartic constants, but the theorem shows that the values below them are the constants in wavenumbers."
  },
  {
   "property": "C133",
   "status": "proved",
   "theorems": [
    "finish_same_report"
   ],
   "note": "Writing the data as JSON and reading them back is taken to give the same data; JSON is not modelled. The report of --finish is taken with the same polyad setting and printing of numbers."
  },
  {
   "property": "C134",
   "status": "partial",
   "theorems": [
    "to_gauss_ends",
    "gauss_after_run",
    "gauss_never",
    "gauss_of_run_refuted"
   ],
   "note": "The property as stated is false. to_gauss_ends and gauss_after_run say exactly when the listing ends without a panic; gauss_never shows that it panics for the saved data of every molecule; gauss_of_run_refuted is a witness whose data --finish accepts. Data made elsewhere with only the frequencies of the vibrations can be listed (C57)."
  },
  {
   "property": "C135",
   "status": "proved",
   "theorems": [
    "gauss_text",
    "gauss_cut"
   ],
   "note": "Over the real numbers, with the eigensolver (contract solves) and the printing of numbers (contract prints) as parameters. gauss_cut asks for an asymmetric top, at most 9999 modes and values of less than 20 columns. With all the frequencies of a run the listing panics (C134)."
  },
  {
   "property": "C136",
   "status": "proved",
   "theorems": [
    "table_reread",
    "table_lines"
   ],
   "note": "For every number type whose printing and parsing meet float_text, the contract of the input-file round trip."
  }
 ]
}