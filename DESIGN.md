# Design of the Rocq model of ntBre/spectro

Everything below refers to the pinned source tree in `/repo` (Rust, crates
`spectro` and `spectro_bin`). The tree was only read as text; nothing was built
or run. Property identifiers (C01, C02, ...) are those of `properties.jsonl`.
Section 1 explains the approach, section 2 the trusted base, section 3 which code
is modelled, section 4 every property, section 5 the defects found in the
program, section 6 how the theorems were tested against wrong programs.

## 1. Approach

*One model, several arithmetics.* The program computes with `f64`. The model is
written once, over a record `Num F` that contains **operations only** (literals,
`+ - * /`, negation, absolute value, square root, `powf(1.5)`, `<`, `<=`, `==`).
The record has no law fields, so quantifying over it assumes nothing. Three
kinds of theorem follow.

1. *Structural* theorems are proved for every `F` and every `Num F`. They hold
   for IEEE doubles (NaN, infinities and rounding included) because they use no
   law of arithmetic at all. Index bookkeeping, symmetry by construction,
   detection of resonances and state tables are of this kind.
2. *Exact* theorems are proved for the instance over the Coq real numbers `R`.
   They state what the formulas mean in exact arithmetic (partial fractions,
   traces, sum rules, tensor rotations, perturbation theory). They do not talk
   about rounding, NaN or division by zero: each carries the nonzero-denominator
   hypotheses it needs.
3. *Double* theorems are proved for the instance over `SpecFloat.spec_float`
   with precision 53 and maximal exponent 1024, the standard library's
   executable definition of IEEE binary64. That type has no axioms.

Refutation witnesses are given over `R` or `spec_float`, whichever makes the
violation visible. Computed examples use the instance over `Q`, in which the
square root and `powf` are dummies; examples that need them are over `R`.

*Data.* `usize` indices are `nat` (or checked 64-bit `N` arithmetic where the
property is about overflow). Growable vectors are lists. Dense numeric arrays
that are only read are total functions from indices; in-place writes are point
updates of such functions or list updates that can fail. A panic is an explicit
`None` wherever it can be reached from the inputs considered. Loops are
`fold_left` over the same index ranges in the same order. Hash maps are
association lists with last-writer-wins lookup; hash sets are membership
predicates, used only where the iteration order is not observable.

*Layout of `rocq/theories`.* Model files (`Num`, `Loops`, `Index`, `Modes`,
`Anharm`, `VibRot`, `Distort`, `Transform`, `SymAnharm`, `Polyads`, `Geom`,
`Report`, `Text`, `Finish`) contain definitions only, each with the file and lines it
models. `*Facts.v` and similar files contain the specifications and the lemmas.
`Prop_*.v` files contain nothing but the property theorems and their companion
examples, each closed by `exact`, with `Print Assumptions` underneath.

## 2. Trusted base

* Coq 8.16.1's kernel, including `vm_compute`.
* The axioms of the standard library's real numbers. `Print Assumptions` lists
  only these (the letters are used in section 4):
  * **A** `ClassicalDedekindReals.sig_forall_dec`
  * **N** `ClassicalDedekindReals.sig_not_dec`
  * **E** `FunctionalExtensionality.functional_extensionality_dep`
  * **C** `Classical_Prop.classic`

  Theorems marked "none" are closed under the global context. No axiom is added
  by the development, and only the standard library is imported.
* The correspondence between the Gallina definitions and the Rust text, which is
  by reading; each definition cites file and lines.
* External crates are not in the repository. They appear only through these
  assumptions:
  * `nalgebra::SymmetricEigen`: an oracle; theorems that depend on it state the
    contract (eigen-equation, orthonormality) as a hypothesis.
  * `nalgebra` matrices: `Dmat::from_iterator` fills by columns,
    `Dmat::from_row_slice` fills by rows, storage is column major, products and
    transposes are the usual ones, indexing outside the matrix panics.
  * `tensor`: `Tensor3`/`Tensor4` are arrays indexed by tuples; `submatrix`
    and `set_submatrix` traverse one index pair at fixed remaining indices, both
    in the same order (the theorems hold for either order).
  * `symm`: `Rotor` has the seven variants used by the code; `is_sym_top` is true
    for linear, spherical, oblate and prolate rotors, false for diatomic and
    asymmetric ones, and panics on `None`. Whether `Rotor::is_linear` includes
    diatomics is not determined by this repository; where it matters the theorem
    covers both answers. Molecule normalisation, point groups, planes and axes,
    the search for partner atoms and irreps are arguments of the model.
    After normalisation a symmetric top has its symmetry axis on z, a linear
    molecule lies on z, and the moments of a diatomic are in ascending order
    (zero first); theorems that need this say so. For C116 and C117 the whole
    contract is the record `symm_ok` (`FrameFacts.v`): scaling by a constant,
    masses by element, centre of mass, rigid rotation into orthogonal axes,
    diagonal inertia tensor with the returned moments.
  * The formatting and parsing of `f64` is an oracle (class `FText`) with the
    contract `float_text`. Input text is ASCII.
* `HashMap`/`HashSet` of the Rust standard library behave as finite maps/sets.
* `powf(1.5)` is modelled over `R` as `x * sqrt x`, which is only right for
  `x >= 0`.

## 3. What is modelled and what is not

| Source | Model file |
|---|---|
| `f3qcm.rs`, `f4qcm.rs`, index functions of `utils.rs`, `new_fc3`, `new_fc4`, `load_fc2` of `load.rs`, counting in `process_geom`, `to_vec` | `Index.v` |
| `mode.rs`, `state.rs`, `rotor.rs`, `resonance.rs`, `close` | `Modes.v` |
| `ifrm1.rs`, `ifrm2.rs`, `make_fermi_checks`, `xcalc`, `make_sym_funds` of `lib.rs`, `make_e0`, `make_funds`, `rsfrm1`, `rsfrm2` of `utils.rs`, `enrgy.rs` | `Anharm.v` |
| `make_icorol`, `make_zmat`, `zeta`, `alpha`, `alphaa`, `rota`, `rots` of `lib.rs`, `rot.rs`, `alphas.rs`, axis tables of `consts.rs` | `VibRot.v` |
| `make_tau`, `tau_prime`, `quartic.rs`, `sextic.rs` | `Distort.v` |
| `rot2nd`, `rot3rd`, `rot4th`, `form_sec`, `make_lx`, `to_wavenumbers`, `symm_eigen_decomp`, `force3`, `force4`, the harmonic part of `run`, units of `consts.rs` | `Transform.v` |
| `xcals.rs` | `SymAnharm.v` |
| `polyads.rs` (compiled with feature "polyad") | `Polyads.v` |
| `make_iatl`, `process_geom`, `bdegnl`, `compute_irreps_in` | `Geom.v` |
| the lists of `Output` and the rows of `output.rs` | `Report.v` |
| `run`, `finish` of `run.rs`, `Restst::new`, `Derivative` | `Finish.v` |
| `main` without options, `Spectro::load`, `process_geom`, `load_vec`, `load_fc2`, `load_fc3`, `load_fc4`, `run_files` | `Program.v` |
| `Display` of `Output`, `Rot`, `State`, `Axis`, `Quartic`, `Sextic`, `write_output` | `OutText.v` |
| `Display for Spectro`, `read`, `dummy.rs`, `to_gauss`, `dump_fcs` | `Text.v` |
| `main` with --dump-fcs, `run` up to the dump, the lines of `dump_fcs` | `DumpText.v` |
| `Display` of `F3qcm`, `F4qcm` | `TableText.v` |
| `SpectroFinish`, `main` with --finish or --to-gauss | `SavedText.v` |

Not modelled: opening files (the model starts from their texts), the other options of the
command line, process exit, JSON serialisation (`dump`, `load` of `SpectroFinish`), logging
and warnings, the printing of geometries and symmetry labels by the crate `symm`
(the report takes their lines as given), the crates `symm`, `nalgebra`, `tensor`, `serde`, the eigensolver itself,
and rounding errors (bounds on them are not claimed anywhere).

## 4. Properties

For each property: what is modelled, how it is proved, the scope and limits, and
the theorems with the axioms `Print Assumptions` reports (letters of section 2).
A property with status "partial" is either false for the program as it stands
(then there is a theorem `..._refuted` with a witness, and the theorems beside it
say what does hold) or proved under the additional condition given.

### C01 Cubic constants can be read in any index order (proved)

*Modelled:* `find3` and the `F3qcm` read with a bounds check.

*Proof:* sorting three numbers is permutation invariant; the bound follows from monotonicity of the tetrahedral numbers.

*Scope:* Every element type; the storage length is the one process_geom computes.

*Theorems (axioms):* `cubic_read_any_order` (none)

### C02 Cubic storage is exactly filled, with no aliasing (proved)

*Modelled:* `find3`.

*Proof:* injectivity on sorted triples by comparing leading terms; surjectivity by a greedy argument, for all n.

*Scope:* For every n.

*Theorems (axioms):* `cubic_storage_bijection` (none)

### C03 Quartic constants can be read in any index order (proved)

*Modelled:* `find4`, the `F4qcm` read and write.

*Proof:* as C01 with 24 orders.

*Scope:* Reads and writes, any element type.

*Theorems (axioms):* `quartic_access_any_order` (none)

### C04 Quartic storage is exactly filled, with no aliasing (proved)

*Modelled:* `find4`.

*Proof:* as C02 with one more level.

*Scope:* For every n.

*Theorems (axioms):* `quartic_storage_bijection` (none)

### C05 Index arithmetic does not overflow (proved)

*Modelled:* `find3`, `find4`, `ioff` in checked 64-bit arithmetic.

*Proof:* interval bounds on each intermediate value; a witness shows that the bound is sharp.

*Scope:* 64-bit usize; the second theorem shows the quartic bound is sharp.

*Theorems (axioms):* `index_arithmetic_fits_u64` (none), `quartic_index_overflows_at_65535` (none)

### C06 Loading the cubic force field (proved)

*Modelled:* `new_fc3` with its length test, slice and loop.

*Proof:* loop invariant: the running counter is `find3` of the loop indices.

*Scope:* From the parsed list of numbers; file reading is not modelled.

*Theorems (axioms):* `load_cubic` (none)

### C07 Loading the quartic force field (proved)

*Modelled:* `new_fc4`.

*Proof:* as C06.

*Scope:* From the parsed list of numbers; file reading is not modelled.

*Theorems (axioms):* `load_quartic` (none)

### C08 The Hessian loads the same with and without a header (partial)

*Modelled:* `load_fc2` on the parsed numbers.

*Proof:* transposition lemma; refutation by a non-symmetric list.

*Scope:* The property is false as stated: the two forms load to transposed matrices. The exact relation and the condition under which they agree (symmetric data) are proved.

*Theorems (axioms):* `load_hessian_header` (none), `load_hessian_bad_length` (none), `load_hessian_same_refuted` (none)

### C09 Cubic constants are transformed completely (proved)

*Modelled:* `force3`.

*Proof:* matrix products as finite sums; symmetry of the table removes the layout question.

*Scope:* Every cell of the cubic table, any order of the modes; no modes is an error (the subtraction panics).

*Theorems (axioms):* `cubic_complete` (AEN), `no_modes_no_cubic` (none)

### C10 Quartic constants are transformed completely (proved)

*Modelled:* `force4`.

*Proof:* invariant over the repeated writes.

*Scope:* Every cell of the quartic table, any order of the modes.

*Theorems (axioms):* `quartic_complete` (AEN)

### C11 Force constants rotate as tensors (proved)

*Modelled:* `rot2nd`, `rot3rd`, `rot4th`.

*Proof:* block sums; orthogonality collapses the double sum.

*Theorems (axioms):* `second_derivatives_rotate` (AEN), `third_derivatives_rotate` (AEN), `fourth_derivatives_rotate` (AEN), `rotation_keeps_symmetry` (AEN), `rotation_undone` (AEN)

### C12 Mass weighting gives a symmetric secular matrix (proved)

*Modelled:* `form_sec`.

*Proof:* loop lemma for matrices filled by halves.

*Scope:* Structural part for any arithmetic, exact form over the reals for positive masses.

*Theorems (axioms):* `secular_matrix` (none), `secular_matrix_exact` (AEN)

### C13 Wavenumber conversion keeps order and sign (proved)

*Modelled:* `to_wavenumbers`.

*Proof:* monotonicity of the square root.

*Theorems (axioms):* `wavenumbers_ordered` (AEN)

### C14 Eigenvalues and eigenvectors stay paired when sorted (proved)

*Modelled:* `symm_eigen_decomp` with the solver as an oracle.

*Proof:* stable insertion sort is a sorted permutation; columns follow their index.

*Scope:* Ties keep the order of the solver; fewer values than columns is an error.

*Theorems (axioms):* `eigenpairs_sorted` (AEN)

### C15 Asymmetric tops list every mode once (proved)

*Modelled:* `deg_modes`.

*Proof:* the loop is `map I1 (seq 0 n)`.

*Scope:* Every arithmetic, every frequency vector.

*Theorems (axioms):* `asymmetric_modes_in_order` (none)

### C16 Degenerate modes are classified as a partition (partial)

*Modelled:* `deg_modes`.

*Proof:* refutation by doubles; conditional theorem when closeness is an equivalence with classes of at most three.

*Scope:* The property is false for frequencies whose closeness is not transitive and for four or more modes at one level (doubles witness). Coverage holds always; the partition holds under the stated condition.

*Theorems (axioms):* `symmetric_modes_covered_partial` (none), `symmetric_modes_partition_partial` (none), `symmetric_modes_partition_refuted` (none)

### C17 The vibrational state list is complete and free of duplicates (proved)

*Modelled:* `Restst::new` (states).

*Proof:* lengths and explicit layout by induction on the loops.

*Scope:* The list is exactly the occupation vectors of at most two quanta, each once, in block order.

*Theorems (axioms):* `states_of_asymmetric_top` (none)

### C18 State look-up tables point at the right states (proved)

*Modelled:* `Restst::new` (tables).

*Proof:* the loops as one list of operations; each slot is written once.

*Scope:* For every mode list in which each mode occurs once (C15, C16).

*Theorems (axioms):* `state_tables_point_right` (none), `pair_slots_distinct` (none)

### C19 Output vectors line up mode by mode (partial)

*Modelled:* `finish`, `make_sym_funds`, `compute_irreps`, the rows of `Output`.

*Proof:* alignment for asymmetric tops; refutation for symmetric tops.

*Scope:* True for asymmetric tops: every row of the printed table describes one mode. False for symmetric tops: the frequencies are listed nondegenerate modes first, the labels in the order of the modes; with the frequencies of ammonia the first row shows the label of mode 0 beside the frequency of mode 2. symmetric_rows_partial says exactly which mode each column of a row belongs to.

*Theorems (axioms):* `rows_line_up` (AEN), `symmetric_rows_partial` (AEN), `rows_line_up_refuted` (none)

### C20 Type-1 Fermi resonances are found exactly (proved)

*Modelled:* `fermi1`.

*Proof:* membership in nested loops.

*Scope:* Comparisons as carried out by the arithmetic in use, doubles included.

*Theorems (axioms):* `fermi1_exact` (none)

### C21 Type-2 Fermi resonances are found exactly (proved)

*Modelled:* `fermi2`, `ferm2_test`, `aminjm`.

*Proof:* membership, and a lemma about the largest difference.

*Scope:* Real arithmetic; modes in non-increasing frequency order.

*Theorems (axioms):* `fermi2_exact` (AEN)

### C22 Coriolis resonances are found exactly (proved)

*Modelled:* `coriolis`.

*Proof:* membership in nested loops.

*Scope:* Any arithmetic.

*Theorems (axioms):* `coriolis_exact` (none)

### C23 Darling-Dennison resonances are found exactly (proved)

*Modelled:* `darling`.

*Proof:* membership in nested loops.

*Scope:* Any arithmetic.

*Theorems (axioms):* `darling_exact` (none)

### C24 No symmetric-top resonance is overlooked (partial)

*Modelled:* `darling`, `fermi2`.

*Proof:* refutation by witness; exact description of what is found.

*Scope:* The property is false: the first nondegenerate mode is never compared with a degenerate pair, and two nondegenerate modes are never tested together with a degenerate one. The exact set of reported resonances is proved.

*Theorems (axioms):* `darling_symmetric_partial` (none), `fermi2_symmetric_partial` (AEN), `darling_symmetric_refuted` (none), `fermi2_symmetric_refuted` (none)

### C25 A mode is never in Fermi resonance with itself (partial)

*Modelled:* `fermi1`, `fermi2`.

*Proof:* refutation by witness; true for type 2 of asymmetric tops.

*Scope:* False for modes at or below 200 cm-1 (type 1) and for symmetric tops (type 2); true otherwise as stated.

*Theorems (axioms):* `fermi2_three_modes` (none), `fermi1_no_self_partial` (AEN), `fermi1_no_self_refuted` (none), `fermi2_symmetric_self_refuted` (none)

### C26 Every Fermi resonance that is removed is also diagonalised (partial)

*Modelled:* `make_fermi_checks`, `enrgy`.

*Proof:* refutation by witness; the calls made by `enrgy` as a list.

*Scope:* The property is false: with two type-1 resonances of one mode both terms are dropped but only the last is diagonalised. Proved for asymmetric tops: everything diagonalised is a reported resonance with the right two states, and a resonance that is the only one for its mode or pair is diagonalised.

*Theorems (axioms):* `fermi_treated_partial` (none), `fermi_treated_refuted` (none)

### C27 Fundamentals equal level differences (asymmetric top) (proved)

*Modelled:* `part1`, `make_funds`.

*Proof:* manipulation of finite sums.

*Scope:* Over the reals, any number of modes.

*Theorems (axioms):* `fundamentals_are_differences` (AEN)

### C28 Fundamentals equal level differences (symmetric top) (proved)

*Modelled:* `part1`, `make_sym_funds`.

*Proof:* as C27 with degenerate terms.

*Scope:* Over the reals, any mode list that partitions the modes.

*Theorems (axioms):* `symmetric_fundamentals_are_differences` (AEN)

### C29 Without Fermi resonance the corrected frequencies are the fundamentals (proved)

*Modelled:* `enrgy`, `finish`.

*Proof:* C27 with empty resonance maps.

*Scope:* Over the reals, asymmetric tops; the eigensolver is arbitrary.

*Theorems (axioms):* `no_fermi_corrected_is_fundamental` (AEN)

### C30 Fermi diagonalisation acts on two levels only and keeps their sum (proved)

*Modelled:* `rsfrm1`, `rsfrm2`.

*Proof:* facts about two by two matrices from the contract of the solver.

*Scope:* Over the reals, for any eigensolver meeting the stated contract on the matrix in question.

*Theorems (axioms):* `fermi_two_levels` (AEN)

### C31 E0 shifts all levels rigidly (proved)

*Modelled:* `enrgy`.

*Proof:* relation between two runs kept by every step.

*Scope:* Over the reals; holds for an arbitrary eigensolver function.

*Theorems (axioms):* `e0_shifts_rigidly` (AEN)

### C32 The anharmonic constant matrix is symmetric (proved)

*Modelled:* `xcalc`.

*Proof:* both cells receive one value.

*Scope:* Any arithmetic.

*Theorems (axioms):* `anharmonic_constants_symmetric` (none), `anharmonic_constants_assigned` (none)

### C33 Resonant anharmonic constants drop exactly the resonant term (proved)

*Modelled:* `xcalc`.

*Proof:* partial fractions, summed over the modes.

*Scope:* Over the reals, for lists of the form reported for asymmetric tops, with nonzero denominators where nothing is reported.

*Theorems (axioms):* `anharmonic_constants_exact` (AEN)

### C34 Resonant E0 terms drop exactly the resonant term (partial)

*Modelled:* `make_e0`.

*Proof:* partial fractions; the exact discrepancy (`e0_excess`) and two witnesses.

*Scope:* The property is false: for a reported resonance of either type the program's E0 differs from the formula without the resonant term. The exact difference is proved.

*Theorems (axioms):* `e0_exact_partial` (AEN), `e0_exact_refuted` (AEN)

### C35 Symmetric-top constants drop exactly the resonant term (partial)

*Modelled:* `xcals`.

*Proof:* case by case; right branches proved, wrong ones refuted.

*Scope:* False as stated. Diagonal x constants are right with any resonances; off-diagonal ones when both modes are only sources of type 2 resonances; g when no reported resonance between degenerate modes touches it. Counterexamples: a type 2 resonance makes x_10 and x_20 wrong, for nondegenerate and for degenerate modes; a type 1 resonance between degenerate modes has the wrong sign in g.

*Theorems (axioms):* `sym_x_partial` (AEN), `sym_g_partial` (AEN), `sym_x_refuted` (AEN), `sym_x_degenerate_refuted` (AEN), `sym_g_refuted` (AEN)

### C36 Symmetric-top E0 includes every cubic interaction (partial)

*Modelled:* `make_e3`.

*Proof:* the accumulators are reset inside the loops; what remains is proved, with a witness.

*Scope:* False as stated: the accumulators are reset to zero inside the loops. sym_e0_exact gives exactly which terms are lost for any number of modes (first partners in increasing order, no resonances); nothing is lost with at most two degenerate modes; the counterexample has three.

*Theorems (axioms):* `sym_e0_exact` (AEN), `sym_e0_partial` (AEN), `sym_e0_refuted` (AEN)

### C37 Symmetric-top anharmonic matrices are symmetric (proved)

*Modelled:* `xcals`.

*Proof:* loop lemma.

*Scope:* For every arithmetic, mode list, force field and resonance list.

*Theorems (axioms):* `sym_constants_symmetric` (none)

### C38 Resonant vibration-rotation constants drop exactly the resonant term (proved)

*Modelled:* `alpha`, `make_alpha`.

*Proof:* partial fractions.

*Scope:* Over the reals; a reported pair contributes the finite remainder of the resonant term. Pairs reported about two axes are excluded (see C39).

*Theorems (axioms):* `alpha_exact` (AEN), `sym_alpha_exact` (AEN)

### C39 Every Coriolis resonance is honoured (partial)

*Modelled:* `make_icorol`, `alpha`, `alphas`.

*Proof:* three refutations; true when each pair occurs with one axis.

*Scope:* The property is false in three ways: a pair coupled about two axes keeps only the last, prolate tops record other axis labels than they look up, and pairs of degenerate modes record another component. Proved: nothing that is not reported is treated as resonant, and pairs reported about one axis are.

*Theorems (axioms):* `coriolis_honoured_partial` (none), `coriolis_last_axis_wins` (none), `coriolis_honoured_refuted` (none), `coriolis_honoured_prolate_refuted` (none), `coriolis_honoured_oblate_refuted` (none)

### C40 Coriolis coupling constants are antisymmetric and bounded (proved)

*Modelled:* `make_zmat`.

*Proof:* algebra and Cauchy-Schwarz.

*Scope:* Over the reals; the bound needs normalised columns.

*Theorems (axioms):* `zeta_antisymmetric_bounded` (AEN)

### C41 Rotational constants are linear in the quantum numbers (partial)

*Modelled:* `alphaa`, `alphas`, `rota`, `rots`.

*Proof:* linear sums; a witness for prolate tops.

*Scope:* Proved for asymmetric tops and, with sym_rotational_constants, for oblate tops, linear and diatomic molecules. False for prolate tops: the corrections of the unique axis and of another axis are exchanged; sym_rotational_constants states exactly what is reported.

*Theorems (axioms):* `rotational_constants_linear` (AEN), `rotational_constants_short` (none), `sym_rotational_constants` (AEN), `prolate_rotational_constants_refuted` (none)

### C42 Watson A and S quartic constants describe the same Hamiltonian (proved)

*Modelled:* `Quartic::new`.

*Proof:* field identities.

*Scope:* Over the reals.

*Theorems (axioms):* `watson_reductions_agree` (AEN)

### C43 Distortion tensors have the right symmetry and sign (proved)

*Modelled:* `make_tau`, `tau_prime`, `Quartic::new`.

*Proof:* sums of squares.

*Scope:* Over the reals.

*Theorems (axioms):* `tau_symmetric` (AEN), `tau_diagonal_not_positive` (AEN), `tau_prime_symmetric` (AEN), `linear_de_not_negative` (AEN)

### C44 Sextic constants of both reductions agree on the pure K sum (proved)

*Modelled:* `Sextic::new`.

*Proof:* field identities.

*Scope:* Over the reals, with the three denominators that occur nonzero.

*Theorems (axioms):* `sextic_reductions_agree` (AEN)

### C45 Sextic intermediate tensors are totally symmetric (proved)

*Modelled:* `scc`, `cc_tensor`.

*Proof:* by construction and algebra.

*Scope:* The first for any arithmetic, the second over the reals.

*Theorems (axioms):* `sextic_tensor_symmetric` (none), `coriolis_tensor_symmetric` (AEN)

### C46 Axis relabelling is consistent (proved)

*Modelled:* `IPTOC`, `ICTOP`, `princ_cart`.

*Proof:* case analysis over the six columns, and the error for all other numbers.

*Theorems (axioms):* `axis_tables_inverse` (none)

### C47 Aligning degenerate modes keeps them orthonormal (partial)

*Modelled:* `bdegnl`.

*Proof:* algebra of plane rotations with sin, cos, atan.

*Scope:* Everything is proved except that the chosen component vanishes in one case of the angle: with small x components and a y component in the second column the program divides by the x instead of the y component and nothing vanishes (refuted by a witness with orthonormal columns). pair_aligned_partial is about a pair without further partners. The rotated geometry that gives the partner atom comes from crate symm and is an argument.

*Theorems (axioms):* `aligned_modes_normal` (ACEN), `aligned_modes_orthonormal` (ACEN), `other_modes_untouched` (none), `mass_weighted_copy_kept` (ACEN), `pair_aligned_partial` (ACEN), `pair_panics_exactly` (ACEN), `pair_aligned_refuted` (ACEN)

### C48 Input files survive a write/read cycle (partial)

*Modelled:* `Display for Spectro`, `read`.

*Proof:* a codec of characters with decimal printing and parsing; floats through the contract.

*Scope:* Proved character by character for every description whose numbers fit their columns, given the stated contract for printing and parsing doubles. Missing: the unconditional statement, which is false and refuted with four witnesses (a five digit header entry merges with its neighbour, an empty degenerate-mode list is dropped, a dummy atom is moved, a weight for a dummy atom makes the reader panic).

*Theorems (axioms):* `input_round_trip_partial` (none), `input_round_trip_refuted` (none)

### C49 Dummy atoms keep the coordinates they were given (partial)

*Modelled:* geometry section of `read`, `get_vals`.

*Proof:* refutation by witness; conditional theorem.

*Scope:* Proved when every earlier atom line containing the text of a dummy coordinate has it on the same axis. Missing: the unconditional statement, which is false: the map from coordinate text to atom ignores the axis, and literal dummy coordinates are not moved with the atoms.

*Theorems (axioms):* `dummy_position_partial` (none), `dummy_position_refuted` (none), `dummy_frame_refuted` (none)

### C50 Symmetry labels: one per mode, and the search ends (partial)

*Modelled:* `compute_irreps_in`.

*Proof:* bound on the number of tenfold steps; in doubles by computation from 1e-4.

*Scope:* The labels themselves come from crate symm and are an argument. Proved for every positive starting tolerance over the reals and for the tolerance 1e-4 of the program in double precision; false for a tolerance that is zero, negative or not a number, with which the public function compute_irreps may be called.

*Theorems (axioms):* `symmetry_labels_partial` (AEN), `symmetry_label_unique` (AE), `symmetry_labels_double` (none), `symmetry_labels_refuted` (AEN)

### C51 Counting of coordinates and modes (proved)

*Modelled:* the counting part of `process_geom`.

*Proof:* arithmetic.

*Scope:* Every atom count, linear or not.

*Theorems (axioms):* `counting_of_modes` (none)

### C52 Moving a symmetric top into standard orientation preserves its shape (proved)

*Modelled:* the rotation in `process_geom`.

*Proof:* algebra.

*Scope:* Over the reals, from the normalised geometry (crate symm) on; the z axis being the symmetry axis is an assumption about it.

*Theorems (axioms):* `symmetric_top_oriented` (AEN), `others_not_oriented` (AEN), `linear_axes_fixed` (AEN)

### C53 Polyad denominators (proved)

*Modelled:* `Denom::denom`, `init_res_denom`.

*Proof:* case split on the signs.

*Scope:* Over the reals, for every choice of signs; a denominator is dropped exactly when a reported resonance has it.

*Theorems (axioms):* `polyad_denominators` (AEN)

### C54 Polyad matrix elements are symmetric (proved)

*Modelled:* `genrsa`.

*Proof:* symmetric reformulation of the comparison of two states.

*Scope:* For every arithmetic, panics included.

*Theorems (axioms):* `polyad_symmetric` (none), `polyad_beyond_quartic` (none)

### C55 Type-2 resonance test equals the least absolute mismatch (partial)

*Modelled:* `aminjm`.

*Proof:* order reasoning; refutation for imaginary frequencies.

*Scope:* True for non-negative frequencies; false with imaginary modes.

*Theorems (axioms):* `mismatch_is_least` (AEN), `mismatch_is_least_refuted` (none)

### C56 Mode vectors are exported column by column (proved)

*Modelled:* `to_vec`.

*Proof:* lemma about chunks.

*Scope:* The matrix is given by its column-major storage.

*Theorems (axioms):* `mode_vectors_by_column` (none)

### C57 The force-constant dumps list each constant once (proved)

*Modelled:* `to_gauss`, `dump_fcs`.

*Proof:* enumeration lemma for the loops.

*Scope:* Rows as index columns and value; the printed digits are not modelled.

*Theorems (axioms):* `dump_lists_each_once` (none), `dump_assertions` (none), `gauss_lists_each_once` (none)

### C58 Equality with tolerance is symmetric (proved)

*Modelled:* `close` over `spec_float`.

*Proof:* sign symmetry of rounding.

*Scope:* Double precision, all inputs including NaN and infinities.

*Theorems (axioms):* `close_symmetric_double` (none)

### C59 Coriolis constants are exactly antisymmetric in double arithmetic (proved)

*Modelled:* `make_zmat` over `spec_float`.

*Proof:* a negation relation kept by rounding.

*Scope:* Double precision, all inputs.

*Theorems (axioms):* `zeta_antisymmetric_double` (none)

### C60 Level corrections never touch the ground state (proved)

*Modelled:* `enrgy`, the tables of C18.

*Proof:* table entries are nonzero.

*Scope:* Any arithmetic, also symmetric tops; includes that no index is out of range.

*Theorems (axioms):* `ground_state_untouched` (none)

### C61 Exact content of the mode list of a symmetric top (proved)

*Modelled:* `deg_modes`.

*Proof:* membership in the two passes.

*Scope:* Exact content of the mode list of a symmetric top, any arithmetic.

*Theorems (axioms):* `symmetric_modes_content` (none)

### C62 Sextic constants of oblate tops are finite numbers (partial)

*Modelled:* `Sextic::new`, `sextic_consts` over `spec_float`.

*Proof:* zero divided by zero in sigma; NaN propagates through every operation.

*Scope:* The property is false: when the two equal rotational constants of an oblate top are the same double, all seven S-reduced sextic constants are NaN whatever the other inputs.

*Theorems (axioms):* `oblate_sextic_nan` (none), `oblate_sextic_finite_refuted` (none)

### C63 Every result can be printed (partial)

*Modelled:* `Output` rows.

*Proof:* indexing lemma.

*Scope:* Table_panics characterises the results that can be printed. Results of harmonic runs cannot: their lists of fundamentals and corrected frequencies are empty, so printing panics for every molecule with a vibration. For anharmonic runs see rows_line_up and symmetric_rows_partial (C19).

*Theorems (axioms):* `table_panics` (none), `harmonic_result_prints_refuted` (none)

### C64 Diagonal sextic elements follow the published formula (proved)

*Modelled:* `scc` diagonal.

*Proof:* unfolding of the sums.

*Scope:* Over the reals, not for diatomics.

*Theorems (axioms):* `sextic_diagonal_formula` (AEN)

### C65 Normal modes decouple the harmonic energy (proved)

*Modelled:* `form_sec`, `symm_eigen_decomp`, `make_lx`, the harmonic part of `run`.

*Proof:* matrix algebra from the contract of the eigensolver.

*Scope:* Under the stated contract of the eigensolver for this matrix.

*Theorems (axioms):* `normal_modes` (AEN)

### C66 Harmonic frequencies do not depend on the orientation (proved)

*Modelled:* the harmonic part of `run`.

*Proof:* similar matrices have the same sorted eigenvalues (multiplicities by counting dimensions).

*Scope:* The two eigensolver calls may differ; each must meet the contract for its matrix.

*Theorems (axioms):* `frequencies_any_axes` (AEN)

### C67 Overall motion separates from the vibrations (proved)

*Modelled:* the harmonic part of `run`.

*Proof:* null vectors of the secular matrix and orthogonality of eigenvectors.

*Scope:* Under the contract of the eigensolver; free_displacements also covers rotations.

*Theorems (axioms):* `vibrations_keep_centre_of_mass` (AEN), `three_zero_frequencies` (AEN), `free_displacements` (AEN)

### C68 Anharmonic constants do not depend on the orientation (proved)

*Modelled:* `rot3rd`, `rot4th`, `force3`, `force4`.

*Proof:* C09 to C11 combined.

*Theorems (axioms):* `cubic_any_axes` (AEN), `quartic_any_axes` (AEN)

### C69 Reported harmonic frequencies are the vibrations (partial)

*Modelled:* `reported_harms`.

*Proof:* counting of zero frequencies in a sorted list.

*Scope:* Holds when no frequency is imaginary; false otherwise: an imaginary frequency sorts last and is dropped in favour of a zero one.

*Theorems (axioms):* `reported_frequencies_partial` (AEN), `reported_frequencies_refuted` (AEN)

### C70 Unit factors agree with their definitions (proved)

*Modelled:* `consts.rs`.

*Proof:* rational bounds on the literals.

*Scope:* Literal constants checked against their definitions.

*Theorems (axioms):* `unit_factors` (AEN)

### C71 Symmetric-top constants without resonances are the standard formulas (proved)

*Modelled:* `xcals`.

*Proof:* partial fractions, entry by entry.

*Scope:* Every entry of x and g over the reals without reported resonances.

*Theorems (axioms):* `sym_constants_exact` (AEN)

### C72 Symmetric-top E0 drops exactly the resonant term (partial)

*Modelled:* `make_e2`.

*Proof:* witness.

*Scope:* False as stated: a resonance 2w_s ~ w_n of a degenerate and a nondegenerate mode enters E0 with the wrong sign. Without resonances (and at most two degenerate modes) E0 is the standard formula.

*Theorems (axioms):* `sym_e0_partial` (AEN), `sym_e0_resonance_refuted` (AEN)

### C73 Polyad cubic couplings connect resonant states only (partial)

*Modelled:* `genrsa`, `res2a`.

*Proof:* case analysis of the vector of differences.

*Scope:* False as stated: the coupling is included as soon as any of the three resonances among the modes is reported, whatever the direction in which the quanta change. The partial theorems say exactly what is computed.

*Theorems (axioms):* `polyad_type2_partial` (AEN), `polyad_type1_partial` (AEN), `polyad_coupling_refuted` (AEN)

### C74 Polyad quartic couplings (proved)

*Modelled:* `res2a`.

*Proof:* partial fractions.

*Scope:* Over the reals without reported Fermi resonances.

*Theorems (axioms):* `polyad_constants` (AEN), `darling_dennison` (AEN), `polyad_aabc` (AEN), `polyad_one_one` (AEN)

### C75 Polyad diagonal (proved)

*Modelled:* `resona` energies.

*Proof:* finite sums.

*Scope:* Over the reals.

*Theorems (axioms):* `polyad_energies` (AEN), `polyad_fundamentals` (AEN)

### C76 Polyad couplings are always computed (partial)

*Modelled:* `genrsa`, `res2a`.

*Proof:* exact description of the inputs that reach `todo!()`.

*Scope:* False as stated: four distinct modes, or four quanta with a net change, reach todo!(). The partial theorem says exactly when.

*Theorems (axioms):* `polyad_panics_partial` (none), `polyad_panics_refuted` (none)

### C77 Polyad states (proved)

*Modelled:* `make_resin`.

*Proof:* membership.

*Scope:* Exact membership for every resonance list with indices in range.

*Theorems (axioms):* `polyad_states` (none)

### C78 The polyad matrix is built from the reported resonances (partial)

*Modelled:* `resona`.

*Proof:* unfolding; witness with three modes.

*Scope:* False as stated: the seven states are constants in the source, for twelve modes. The partial theorem gives the shape of the matrix and when it panics.

*Theorems (axioms):* `polyad_matrix_partial` (none), `polyad_matrix_refuted` (none)

### C79 The symmetry axis used for alignment is recorded (partial)

*Modelled:* `make_iatl`.

*Proof:* case analysis over the point groups.

*Scope:* True except for the groups C2h and C3, for which the direction is left at its previous value.

*Theorems (axioms):* `axis_recorded_partial` (none), `axis_recorded_refuted` (AEN)

### C80 Printed rotational constants of linear molecules (proved)

*Modelled:* `alphas`, `rots`, `Output` rows.

*Proof:* C41 and the printed row.

*Scope:* Also says that the stored values (field rots) of a linear molecule are the vibrational corrections alone.

*Theorems (axioms):* `linear_constants_printed` (AEN)

### C81 Wilson A vectors are derivatives of the inertia tensor (proved)

*Modelled:* `zeta` (Wilson A vectors).

*Proof:* expansion of the inertia tensor of the displaced molecule; the rotational Eckart condition is a hypothesis.

*Theorems (axioms):* `wilson_vectors_inertia` (AEN)

### C82 The sextic tensor is the reduced classical sextic form (proved)

*Modelled:* `scc`, `cc_tensor`, `c_mat`.

*Proof:* the sextic form of the classical rotor is written out and reduced; Poisson brackets of polynomials in the angular momentum.

*Scope:* Classical mechanics of the angular momentum; the sextic form is written out in FormFacts.v (sextic_form).

*Theorems (axioms):* `sextic_tensor_reduced_form` (AEN)

### C83 A and S constants describe the same rotor (proved)

*Modelled:* `Quartic::new`, `Sextic::new`.

*Proof:* canonical transformation of polynomials in the three components of the classical angular momentum.

*Scope:* Identities of polynomials in the three components of the classical angular momentum, through sixth degree.

*Theorems (axioms):* `watson_reductions_canonical` (AEN)

### C84 Nielsen's constants are the coefficients of the quartic form (proved)

*Modelled:* `Quartic::new`.

*Proof:* polynomial identity.

*Theorems (axioms):* `nielsen_constants_form` (AEN)

### C85 Wilson's constants of a symmetric top (proved)

*Modelled:* `Quartic::new`.

*Proof:* polynomial identity.

*Scope:* The two nearly equal constants are B 0 and B 1, as after the normalisation of the geometry.

*Theorems (axioms):* `wilson_constants_form` (AEN)

### C86 Quartic constants of a symmetric top agree (partial)

*Modelled:* `Quartic::new`.

*Proof:* polynomial identity; witness for prolate tops.

*Scope:* Proved for oblate tops. False for prolate tops: the quartic form is expanded about the first axis, the unique one is the third (Wilson's constants, C85, use the right one).

*Theorems (axioms):* `symmetric_constants_agree_partial` (AEN), `symmetric_constants_agree_refuted` (AEN)

### C87 Sextic constants of a symmetric top (proved)

*Modelled:* `Sextic::new`.

*Proof:* polynomial identity, coefficients compared.

*Scope:* Oblate tops with B 0 = B 1 exactly are excluded (see C62).

*Theorems (axioms):* `symmetric_top_sextic` (AEN)

### C88 Diatomic molecules follow Dunham's expansion (proved)

*Modelled:* `make_tau`, `zeta`, `alphas`, `Quartic::new`, `Sextic::new`, `xcalc`, `make_e0`.

*Proof:* direct evaluation for two atoms against the formulas of Dunham, with rational bounds on the conversion factors.

*Scope:* The principal moments of a diatomic are taken in ascending order, the atoms on the first axis. Finding: the conversion factor of the quartic constants (utils.rs CONST1) is 1.000236 times the one implied by the rotational constants.

*Theorems (axioms):* `diatomic_dunham` (AEN)

### C89 Vibrational levels are second-order perturbation theory (proved)

*Modelled:* `xcalc`, `make_e0`, `part1`.

*Proof:* ladder operators in the number basis; the sum over intermediate states becomes a finite sum over transitions, which is compared with the closed formulas.

*Scope:* The resonances of one mode must be unique in fm1 (as in C34). The Watson term, a constant, is in neither the program nor the specification. Finding: the program leaves the constant part of the energy of the vibrational angular momentum (angular_shift) out.

*Theorems (axioms):* `levels_second_order` (AEN), `intermediate_states_exist` (AEN)

### C90 Fermi couplings are matrix elements of the cubic potential (proved)

*Modelled:* `rsfrm1`, `rsfrm2`, `enrgy`.

*Proof:* matrix elements from the transitions of C89, states from C26.

*Theorems (axioms):* `fermi_coupling_is_element` (AEN)

### C91 Symmetric top constants agree with asymmetric top constants (proved)

*Modelled:* `xcals` beside `xcalc` and `make_e0`.

*Proof:* sums over all modes are split into nondegenerate modes and pairs, and the symmetry relations collect the partial fractions of each case.

*Scope:* The symmetry relations (axial) are those of C_nv, n >= 3, with the partners of all pairs oriented alike. Triply degenerate modes are excluded. For g_tu of two different pairs see C94.

*Theorems (axioms):* `sym_from_asym` (AEN)

### C92 Levels of symmetric tops are second-order perturbation theory (proved)

*Modelled:* `part1` with the constants of `xcals`.

*Proof:* C91 and the perturbation sums of C89; the angular momentum of a pair is an operator on the oscillator states.

*Scope:* No resonances. The constant is angular_shift less half the sum of B zeta^2 over the pairs.

*Theorems (axioms):* `sym_levels_second_order` (AEN), `sym_levels_definite` (AEN), `sym_state_levels` (AEN), `mean_l2_closed` (AEN)

### C93 Polyad couplings are elements of the effective Hamiltonian (proved)

*Modelled:* `genrsa`, `res2a_*`, `denom`, `init_res_denom`.

*Proof:* the specification uses only position and momentum operators on functions of occupation numbers (VanVleck.v). It is expanded into sums over words of four ladder operators; the number of quanta forces the words that contribute, and commuting the cubic words of second order produces the program's sums over intermediate modes.

*Scope:* Over the reals. The total number of quanta must be the same in both states for the three quartic couplings; the program does not look at the direction of the changes. States that differ by three quanta in a direction that is not the reported resonance are excluded (see C73).

*Theorems (axioms):* `effective_darling_dennison` (AEN), `effective_aabc` (AEN), `effective_one_one` (AEN), `effective_fermi2` (AEN), `effective_fermi1` (AEN)

### C94 g between two degenerate modes is the coefficient of the product of their angular momenta (proved)

*Modelled:* `make_gcnst`.

*Proof:* the effective Hamiltonian of C93 between states with one quantum of each pair is expanded into words of four ladder operators (SymGtu.v); with the symmetry relations the difference of the two elements reduces to the program's sums. The angular momenta are products of position and momentum operators.

*Scope:* No resonances. The orientation of the perpendicular Coriolis constants (alike) is a hypothesis in addition to those of C91; for other signs the program's -2 B zeta^2 is not the effective Hamiltonian's.

*Theorems (axioms):* `g_from_effective` (AEN)

### C95 The input file is read by its words, however they are spaced (proved)

*Modelled:* `read`, `split_whitespace`.

*Proof:* induction on the text against an inductive relation between a text and its words.

*Theorems (axioms):* `words_any_spacing` (none), `read_any_spacing` (none)

### C96 Masses are loaded as listed, and a written molecule can be loaded again (partial)

*Modelled:* `Spectro::load` = `read` then `process_geom`; the motion of the atoms is a parameter.

*Proof:* from C48 and an invariant of the weights; refutation by witness.

*Scope:* Proved: the masses, and that reloading a written molecule applies the conversion from bohr and the reorientation a second time and keeps everything else. Missing: that the molecule comes back, which is false (refuted): the coordinates are kept and written in angstroms and read as bohr. The conversion and reorientation are a parameter of the model.

*Theorems (axioms):* `masses_loaded` (none), `reload_converts_again` (none), `reload_refuted` (none)

### C97 Rotational constants of every vibrational state follow from perturbation theory (proved)

*Modelled:* `alpha`, `alphaa`.

*Proof:* the specification (VibPerturb.v) uses the position and momentum operators of C93 and the first order wave functions they mix into a state. The second order expressions are evaluated by counting quanta. The coefficients of the reciprocal inertia tensor are derived from its defining matrix equation order by order.

*Scope:* No degenerate modes. A pair that is not reported must have different frequencies, and at most one axis is reported per pair. The deviation of ALPHA_CONST from half of the exact constant is an explicit term of the statement.

*Theorems (axioms):* `reciprocal_inertia_expansion` (AE), `rot_constants_second_order` (AEN)

### C98 Vibration-rotation constants of symmetric tops agree with those of asymmetric tops and with perturbation theory (proved)

*Modelled:* `make_alpha`, `alphas`.

*Proof:* the sums over pairs of both codes are split into nondegenerate modes and pairs; the symmetry relations of the Coriolis constants and inertia derivatives (`axial`, `axial_inertia`) identify the parts. The states then follow from the evaluation of the perturbation expressions of C97.

*Scope:* No Coriolis resonances reported (C39 shows that reported ones are not honoured for symmetric tops). Modes that are not partners must have different frequencies. Bending modes of linear molecules are taken not to change the moments of inertia; the program leaves those terms out.

*Theorems (axioms):* `sym_alpha_from_asym` (AEN), `sym_rot_constants_second_order` (AEN)

### C99 A run completes, and when it does not (proved)

*Modelled:* `run`, `finish`, `Restst::new` as a whole, the printed table.

*Proof:* each stage is total under the conditions it needs; the stages are chained. Over `spec_float` the comparisons of the resonance search are defined unless a sum is NaN.

*Scope:* Run_completes covers asymmetric tops over the real numbers; run_completes_any covers every kind of molecule in every arithmetic, with the success of the alignment of degenerate modes, the end of the label search and the partition of the modes as conditions (C47, C50 and C16 say when they hold). Point group and labels are parameters.

*Theorems (axioms):* `finish_completes` (A), `run_completes` (AEN), `run_completes_any` (A), `finish_panics` (none)

### C100 The treatment of polyads changes no reported number (proved)

*Modelled:* `finish` with feature "polyad", `resona`.

*Proof:* the returned energies are overwritten and the matrix is dropped; the loop over fixed tables of twelve entries fails beyond them.

*Theorems (axioms):* `polyads_change_nothing` (none), `polyads_panic` (none)

### C101 A whole run gives second order perturbation theory (proved)

*Modelled:* `run`, `finish`.

*Proof:* C65 gives the normal modes, C68 the force constants in them, C89 the levels; a successful `finish` is taken apart into the equations of its stages.

*Scope:* Asymmetric tops for which the result reports no Fermi resonance, with positive frequencies and no exact coincidences. Over the real numbers, with the contract of the eigensolver.

*Theorems (axioms):* `run_second_order` (AEN)

### C102 Every kind of force constants is handled (partial)

*Modelled:* `run`, `Derivative`, `to_vec`.

*Proof:* unfolding; C56 and C65.

*Scope:* Proved: harmonic runs of asymmetric tops and diatomic molecules. Refuted: a run with cubic force constants always panics.

*Theorems (axioms):* `harmonic_run_reports` (AEN), `cubic_run_refuted` (none)

### C103 Results do not depend on the eigensolver, the numbering of the atoms or the Cartesian frame (proved)

*Modelled:* `run`, `finish` and every function they call for asymmetric tops.

*Proof:* eigenvectors of distinct eigenvalues are unique up to sign (proved from the contract); every function of the pipeline is shown to depend only on modes below nvib and to be even in each sign, the Fermi levels through the ordering of the two eigenvalues.

*Scope:* Over the real numbers, with the contracts of the two eigensolvers; the labels of the symmetry library are assumed not to depend on numbering or sign. Coinciding vibrational wavenumbers are excluded.

*Theorems (axioms):* `run_independent` (AEN), `same_input_same_field` (A), `renumbered_same_field` (AE), `turned_same_field` (AE)

### C104 Signs of the normal modes change nothing (proved)

*Modelled:* `finish` for every rotor.

*Proof:* the same lemmas for symmetric tops; the only term odd in one partner is the product of two Coriolis constants in `make_gcnst`, and the refutation is that term.

*Scope:* Over the real numbers; partner_signs_refuted shows that the condition on partners is needed.

*Theorems (axioms):* `mode_signs_change_nothing` (AEN), `partner_signs_refuted` (AEN)

### C105 Molecules that can be turned freely: zero frequencies and Eckart conditions (proved)

*Modelled:* `harmonic` (the harmonic part of `run`: `rot2nd`, `form_sec`, `symm_eigen`, `to_wavenumbers`, sorting).

*Proof:* displacements of a turned molecule are null vectors of the force constants; after mass weighting they are orthogonal to every mode with another eigenvalue (Eckart), and translations with rotations about principal axes are orthonormal, so that many zero eigenvalues exist.

*Scope:* Over the real numbers, with the contract of the eigensolver. Freedom under rotation is a condition on the quadratic force constants.

*Theorems (axioms):* `eckart_modes` (AEN), `rotations_zero` (AEN)

### C106 The rotational constants reported by a run are those of perturbation theory (proved)

*Modelled:* `run` with quartic force constants, asymmetric tops.

*Proof:* composition of C65 (modes), C105 and C81 (Wilson vectors are inertia derivatives, stated with the derivative of the standard library), C99 (the run completes) and C97 (second-order constants).

*Scope:* Over the real numbers. The term from the rounded constant 0.086112 stands in the statement; pairs reported as Coriolis resonances must each be reported about one axis, others must differ in frequency.

*Theorems (axioms):* `run_rotational_constants` (AEN)

### C107 A run with Fermi resonances reports the two-level eigenvalues (proved)

*Modelled:* `run` with quartic force constants, asymmetric tops, any reported Fermi resonances.

*Proof:* composition of C65, C99, C89 and C90 (levels without resonant denominators, couplings) with C30: the list of two-level problems acts on separate levels when the resonances share none, so each can be solved by itself.

*Scope:* Over the real numbers; every level belongs to at most one reported resonance and no mode is reported as resonant with itself (C25). The resonances that are reported are those of the program, res names them.

*Theorems (axioms):* `run_fermi_resonances` (AEN)

### C108 Every distortion constant is found in the report under its name (proved)

*Modelled:* `Display for Output`, `Display for Quartic`, `Display for Sextic`, `write_output`.

*Proof:* the lines of the report written out; a label with its colon starts one line only, because no other printed line contains a colon or starts alike.

*Scope:* For any number type with the contract `prints` of number and label printing; lines of the geometry, which other crates print, must not contain a colon.

*Theorems (axioms):* `constants_found_by_name` (none)

### C109 The tables of the report read back (proved)

*Modelled:* `Display for Output`, `Display for Rot`, `Display for State`, `Display for Axis`, `write_output`.

*Proof:* numbers narrower than their column leave a space, so splitting at spaces returns them; the titles contain colons or parentheses no earlier line has.

*Scope:* For any number type with the contract `prints`; numbers must be narrower than their column (otherwise neighbours merge), states with at most nine quanta per mode as the program generates them, mode indices up to 9999.

*Theorems (axioms):* `tables_read_back` (none)

### C110 Every result can be printed and its columns line up (proved)

*Modelled:* `finish`, `Display for Output`.

*Proof:* composition of C99 with the layout: the states of a run have one entry per mode and few quanta, Coriolis axes are below three.

*Scope:* Double precision, hypotheses of C99, at least as many labels as rows of the table; columns line up when each constant has at most twelve characters.

*Theorems (axioms):* `report_printed` (A)

### C111 Modes have the same numbers everywhere in the report (partial)

*Modelled:* `finish`, `Display for Output`.

*Proof:* refutation by a run of water computed in double precision; positive theorem from C109.

*Scope:* False for the program: refuted by a run of water. The positive theorem says what the numbers are: indices in the lists, index plus one in the table.

*Theorems (axioms):* `mode_numbers_refuted` (A), `mode_numbers_partial` (none)

### C112 The report depends on the words of the input files only (proved)

*Modelled:* `main`, `run_files`, `load`, `load_fc2`, `load_fc3`, `load_fc4`, `load_vec` from the texts of the files (`Program.v`).

*Proof:* from C96 (reading spectro.in) and the agreement of the two splitting functions.

*Scope:* Every number type and symmetry code. The texts of fort.30 and fort.40 must not contain vertical tabs: `split_ascii_whitespace` does not split there, `split_whitespace` does.

*Theorems (axioms):* `program_layout` (none)

### C113 Headers of the force-constant files are optional and wrong counts never give a report (proved)

*Modelled:* as C112.

*Proof:* from the counts of C05/C06 (LoadFacts) carried through the program.

*Scope:* Every number type and symmetry code; the counts are those of the model of new_fc3/new_fc4/load_fc2 in LoadFacts.

*Theorems (axioms):* `program_headers` (E), `program_counts` (none)

### C114 Blank lines in spectro.in are ignored (partial)

*Modelled:* `read`.

*Proof:* state of the reader after the lines of a section; refutation by a file of two atoms and an empty last line.

*Scope:* False for the program: a blank line in the GEOM or WEIGHT section, also as the last line of the file, ends in a panic (blank_lines_panic); elsewhere it is ignored (blank_lines_partial).

*Theorems (axioms):* `blank_lines_refuted` (none), `blank_lines_panic` (none), `blank_lines_partial` (none)

### C115 The report is perturbation theory for the force constants in the files (proved)

*Modelled:* the whole program for asymmetric tops.

*Proof:* listings of the files = tables of C05/C06, run = C107, printing = C109/C110, composed; the example is a molecule of three atoms with diagonal Hessian, for which all hypotheses are proved.

*Scope:* Over the real numbers; asymmetric tops, symmetric Hessian, for the values the conditions of C107 (isolated resonances); the crate symm is a parameter, its axes and masses enter the statement. Printed numbers must be narrower than their column.

*Theorems (axioms):* `report_from_files` (AEN)

### C116 The loaded geometry is that of the file, centred, in the frame of the force constants (proved)

*Modelled:* load, process_geom with the crate symm as a parameter.

*Proof:* the second turn of a symmetric top acts on geometry and axes alike: in_frame of a product of frames, inertia tensors in a turned frame; the contract of symm is the record symm_ok, about the atoms of the file only; the example is a square molecule that is turned.

*Scope:* Over the real numbers. The crate symm is a parameter; its contract (symm_ok: scaling to Angstrom, masses, centre of mass, rigid rotation, principal moments, linear molecules along z, diatomic ones along x) is a hypothesis about the atoms of the file. For diatomic molecules the positions are claimed under a condition (C129). Diagonal inertia is not claimed for symmetric tops with unequal first two moments (C41).

*Theorems (axioms):* `load_frame` (AEN)

### C117 The printed rotational and distortion constants are those of the force constants in the files (proved)

*Modelled:* the whole program for asymmetric tops.

*Proof:* rotation invariance is carried from the positions in the file to the loaded frame (C116), then C105/C106 for the run, Watson (C42) for the quartic constants and C108-C110 for the printed lines; the example is a bent molecule of three atoms with an integer Hessian that is free of translations and rotations, whose eigen system, positive frequencies and report are all proved to exist.

*Scope:* Over the real numbers; asymmetric tops with all moments above 0.01, distinct constants, positive frequencies, symmetric Hessian free of translations and rotations; at most one Coriolis axis listed per pair of modes; contracts of symm (as in C116), of the eigensolver and of number printing as hypotheses; printed numbers narrower than their column. The term rounding_term is the exact effect of the rounded constant 0.086112.

*Theorems (axioms):* `rotation_from_files` (AEN)

### C118 The printed quartic and sextic constants describe the rotor of the input files (proved)

*Modelled:* the whole program for asymmetric tops.

*Proof:* the run and its printed lines are those of C117; the tensors of C82 and the reductions of C83 are then taken at the data of the run, and the forms are shown to depend on the indices in range only, so that the derivatives of the inertia tensor, the Coriolis constants of the modes and the cubic constants of the files can be put in.

*Scope:* Over the real numbers; hypotheses as in C117 (no condition on Coriolis resonances), and rotational constants more than 0.005 apart or no odd quartic terms for that pair of axes. The sextic form itself is the one of C82. The odd part of the sextic form, which contributes at higher degree, is left aside. The remainder in the S sextics is exact; it comes from ten times a distortion coefficient in a divisor of the code.

*Theorems (axioms):* `distortion_from_files` (AEN)

### C119 The quartic and sextic constants are those of the moving atoms (proved)

*Modelled:* the whole program for asymmetric tops, against point masses in motion.

*Proof:* `SumRule.v` proves the sum rule of the inertia derivatives from completeness of modes, translations and rotations; `RotorMech.v` solves for the velocities with given momenta, expands the energy with explicit remainders and completes the squares; `MechFiles.v` shows that the modes of a run are those of a free molecule and compares the factors.

*Scope:* Over the real numbers, classical mechanics. rotating_molecule derives the forms from Newtonian point masses for every small motion of the given orders; energy_from_files puts the data of a run in its place under the hypotheses of C118 and positive frequencies. The potential is any function of the modes that agrees with its frequencies and cubic constants up to order four.

*Theorems (axioms):* `rotating_molecule` (AEN), `energy_from_files` (AEN)

### C120 Molecules with a threefold axis: fundamentals and zero point energy of the whole run (proved)

*Modelled:* `run` for symmetric tops with a threefold axis.

*Proof:* `Threefold.v` defines the operations on displacements and the symmetry of atoms and force constants; `ThreeForm.v` derives from it which cubic, quartic, Coriolis and inertia constants vanish or agree (the hypotheses `axial` of C71 and C98); `ThreeModes.v` finds the pairs and follows `bdegnl`; `TopRun.v` evaluates `finish`; `ThreeRun.v` joins them.

*Scope:* Over the real numbers. The symmetry is required of the atoms, masses and force constants, not of the modes. Hypotheses: frequencies above 0.1 and either equal or at least 0.1 apart, no three equal, no w_i + w_j = w_k, modes without partner even under the mirror (no A2 modes), the reference atom on the mirror plane and moved by every pair such that the alignment can see it. No Fermi resonances may be reported. The constant of the zero point energy carries the deviations of C72.

*Theorems (axioms):* `run_threefold` (ACEN)

### C121 The alignment of degenerate modes turns every pair to the same standard (proved)

*Modelled:* `bdegnl` (order 3).

*Proof:* the pair spans a space that both operations map into itself; the angle of `bdegnl` removes the y component of the reference atom, which makes the first partner even; the sign rule (`AlignSign.v`) compares the image atom and fixes the sense of the turn.

*Scope:* Over the real numbers, for runs in which bdegnl returns; that it does so under these hypotheses is part of C120. The reference atom lies on the mirror plane and its image under the turn is passed in.

*Theorems (axioms):* `alignment_threefold` (ACEN)

### C122 Molecules with a threefold axis: rotational constants of the vibrational states (partial)

*Modelled:* `run` for symmetric tops with a threefold axis, output `rots`.

*Proof:* `ThreeRot.v` compares `make_alpha` of an oblate top with the one that reads the xz derivative (`exchanged`), whose constants are those of perturbation theory (C98); the difference is `per_pair`. `ThreeConst.v` derives the relations of inertia derivatives and Coriolis constants from the symmetry of the force constants and follows `finish` up to `rots`. `PyramidWitness.v` builds a molecule of four atoms with two mixed pairs and proves every hypothesis for it, `PyramidRun.v` that the lost term is positive.

*Scope:* Refuted for oblate tops: the reported constants are the right ones minus lost_about, a sum over the degenerate pairs of squares of the derivative of the xz moment of inertia, because alphas.rs:30 takes the yz derivative of the first partner, which the alignment has made zero. run_threefold_rot states the exact value for both kinds of tops (for prolate tops the right one, under the exchanged names of C41); run_threefold_rot_refuted gives a pyramid of four atoms for which all three reported ground state constants are too small. Hypotheses as for C120, and the force field is free of torque. The rounding of the constant 0.086112 (rounding_term) is carried along, as in C106. Over the real numbers.

*Theorems (axioms):* `run_threefold_rot` (ACEN), `run_threefold_rot_refuted` (ACEN)

### C123 Linear molecules: the alignment of the bending modes (proved)

*Modelled:* `bdegnl` with the linear branch of the relative sign.

*Proof:* `LinearModes.v`: a linear molecule has the symmetry of a threefold axis with every atom fixed, so the lemmas of C121 apply up to the relative sign, which the linear branch takes from the y displacement; the whole group of turns then confines the modes to their planes.

*Scope:* Over the real numbers, for runs in which bdegnl returns; that it does so under these hypotheses is part of C124. linear_modes: frequencies equal or at least 1 wavenumber apart, no three equal, and the reference atom moves along x in one partner of each pair by more than the threshold of bdegnl.

*Theorems (axioms):* `alignment_linear` (ACEN)

### C124 Linear molecules: fundamentals and zero point energy of a whole run (proved)

*Modelled:* `run` for `Linear`.

*Proof:* `LinearRun.v`: the aligned modes transform as in C120; a half turn about the axis makes the cubic constants of three bends vanish (`cubic_three`), which removes most of the terms C72 lacks. `LinearWitness.v` proves every hypothesis for a molecule of three atoms with a stretch-bend coupling, whose pair the solver returns turned by an angle.

*Scope:* Over the real numbers, with the eigensolver as a parameter with a contract. Hypotheses: the symmetry of the force constants, linear_modes as for C123, no frequency is the sum of two others, the rotational constant about the axis is zero. The terms the zero point energy lacks with several pairs are those of C72.

*Theorems (axioms):* `run_linear` (ACEN)

### C125 Linear molecules: the rotational constants of the vibrational states (proved)

*Modelled:* `run` for `Linear`, output `rots`.

*Proof:* `LinearConst.v`: bends change no moment of inertia of a linear molecule to first order and have no Coriolis coupling with each other about x and y, which are the hypotheses of C98 for `Linear`; then as in C122.

*Scope:* Over the real numbers. Hypotheses as for C124, the force field is free of torque, the constants and moments about x and y are equal; no Coriolis resonance is reported, which the theorem derives for frequencies more than 200 apart. The rounding of the constant 0.086112 (rounding_term) is carried along, as in C106.

*Theorems (axioms):* `run_linear_rot` (ACEN)

### C126 Molecules with a threefold axis: the reported quartic constants are those of the rotating atoms (proved)

*Modelled:* `run` for symmetric tops, output `quartic`.

*Proof:* `ThreeDistort.v`: the invariance of the inertia derivatives under the turn and the mirror (`ThreeForm.v`) makes every square of the quartic form a combination of the axial squares; compared with the mechanics of C119 (`RotorMech.v`) and with the published formulas of the symmetric-top constants.

*Scope:* Over the real numbers, with the eigensolver as a parameter with a contract. Hypotheses as for C121, and the molecule is centred, its inertia tensor is diagonal and the force field is free of translations and torque. The factor kappa is 1 up to the rounding of the code's constant 38333.84. The odd term z (x^3 - 3 x y^2) is not reported by the program for symmetric tops.

*Theorems (axioms):* `run_threefold_distortion` (ACEN)

### C127 Linear molecules: the reported distortion constants are those of the rotating atoms (proved)

*Modelled:* `run` for linear molecules, outputs `quartic.de` and `sextic.he`.

*Proof:* `LinearMech.v`: the kinetic energy of atoms that rotate about axes perpendicular to the line, expanded to sixth order (no moment of inertia about the axis is used); `LinearUnique.v`: these energies determine the constants; `LinearDistort.v`: the Coriolis sum of stretches and bends does not depend on the direction because the bends come in pairs of orthogonal planes; comparison with `Quartic::new` and `Sextic::new`.

*Scope:* Over the real numbers, with the eigensolver as a parameter with a contract. Hypotheses as for C125 with at least three atoms and 3N - 5 vibrations, the molecule is centred, its moment of inertia is that of the input and the force field is free of translations and torque. linear_energy_unique shows that the specification fixes both constants. kappa is 1.00024 instead of 1 because 38333.84078 in make_tau and 0.1722212503791076 in c_mat are not values of one constant.

*Theorems (axioms):* `run_linear_distortion` (ACEN), `linear_energy_unique` (AEN)

### C128 Diatomic molecules: the whole run reports Dunham's constants of the bond potential (proved)

*Modelled:* `run` and `finish` for two atoms, from the Cartesian force constants to the reported lists.

*Proof:* `DiatomicRun.v`: the greatest eigenvalue of the 6x6 secular matrix and its vector are found from the form of the potential (any orthonormal solution of the eigenproblem will do, and the sign is free); the normal constants are Dunham coefficients in the units of the code; then C88.

*Scope:* Over the real numbers, with the eigensolver as a parameter with a contract. The atoms are on the first principal axis; whether load puts the force constants into the same frame is C129. The potential is given by its derivatives along the line and by vanishing second derivatives across it, which is what a function of the distance alone has at its minimum.

*Theorems (axioms):* `run_diatomic` (ACEN)

### C129 Diatomic molecules: the force constants are turned into the frame of the geometry (partial)

*Modelled:* `load` for diatomic molecules: `process_geom` with the overwritten axes; `run`, output `quartic.de`.

*Proof:* `FrameFacts.v`: the changed frame on a point of the first axis, so the two frames agree exactly if the first axis is x; `PairWitness.v`: an input file with two atoms along y; `DiatomicTurned.v`: the secular problem with x and y exchanged, the inertia slopes all vanish but the one of xy, which De does not contain.

*Scope:* The property is false of the code: diatomic_frame_refuted has two atoms along y. diatomic_frame is the exact condition under which it holds, and run_diatomic_turned the consequence (De = 0). Over the real numbers, with the crate symm as a parameter with the contract symm_ok, which puts diatomic molecules along the first axis because the program sorts their moments like those of tops.

*Theorems (axioms):* `diatomic_frame` (AEN), `diatomic_frame_refuted` (AEN), `run_diatomic_turned` (ACEN)

### C130 Diatomic molecules: from the files to the printed constants (proved)

*Modelled:* the whole program (`main`, `load`, `run_files`, `run`, `write_output`) for two atoms.

*Proof:* `DiatomicFiles.v`: the energy of the bond in the axes of the input is turned into the frame of the loaded geometry (contractions with the axes, one atom at a time), which gives the hypotheses of C128; the tables of the report by the block lemmas of C108 and C109.

*Scope:* Over the real numbers, with the crate symm (contract symm_ok), the eigensolver (contract solves) and the printing of numbers (contract prints) as parameters. The condition on the frame is the exact one of C129. A premise narrow says, table by table, that the printed numbers do not fill their columns; without it two numbers can run into each other, see C109.

*Theorems (axioms):* `diatomic_from_files` (ACEN)

### C131 Linear molecules: from the files to the printed tables (proved)

*Modelled:* the whole program (`main`, `load`, `run_files`, `run`, `write_output`) for three or more atoms on a line.

*Proof:* `LinearFiles.v`: the contract of the crate symm and the branch for linear molecules of `process_geom` put the atoms on the z axis and give the moments (J, J, 0); the files give the tables; the run theorems for linear molecules give the levels and rotational constants and the block lemmas of C108 and C109 the tables of the report. `clear_fermi` shows that no Fermi resonance is found when sums of frequencies keep clear of the frequencies.

*Scope:* Over the real numbers, with the crate symm (contract symm_ok), the eigensolver (contract solves) and the printing of numbers (contract prints) as parameters. The frequencies must be positive, equal in pairs or apart, and the vectors of a pair must satisfy linear_modes, the condition of C123. Nothing is said of which Coriolis resonances are listed; the second theorem asks for frequencies so far apart that none is used.

*Theorems (axioms):* `linear_from_files` (ACEN), `linear_rotation_from_files` (ACEN)

### C132 --dump-fcs: what is written before the report (proved)

*Modelled:* `main` with --dump-fcs: `dump_fcs`, `run` up to it, and the program as before.

*Proof:* `DumpRun.v`: the tables made by `force3` and `force4` are long enough for the loops of `dump_fcs`, so the dump never panics; the rotation and normal-mode theorems give the entries, and splitting a padded line gives back its fields.

*Scope:* The second theorem is over the real numbers, for asymmetric tops with positive frequencies, with the eigensolver (contract solves) and the printing of numbers (contract prints) as parameters. The lines of a run that panics after part of the dump has been written are not modelled. Remark: the headings give mdyne units for the cubic and quartic constants, but the theorem shows that the values below them are the constants in wavenumbers.

*Theorems (axioms):* `dump_adds` (none), `dump_from_files` (AEN)

### C133 --finish writes the report of the run it was saved from (proved)

*Modelled:* `SpectroFinish`, `main` with --finish, `run` up to `finish`.

*Proof:* `SavedRun.v`: step by step, `run` is its first part followed by `finish` of what that part returns.

*Scope:* Writing the data as JSON and reading them back is taken to give the same data; JSON is not modelled. The report of --finish is taken with the same polyad setting and printing of numbers.

*Theorems (axioms):* `finish_same_report` (none)

### C134 --to-gauss lists the constants of a saved run (partial)

*Modelled:* `main` with --to-gauss, `to_gauss`.

*Proof:* `SavedRun.v`: the loops end exactly when every index read lies inside the tables, and the last index read is the last of the table for that many modes; the tables of `run` are those of the vibrations, the frequencies those of the whole secular matrix.

*Scope:* The property as stated is false. to_gauss_ends and gauss_after_run say exactly when the listing ends without a panic; gauss_never shows that it panics for the saved data of every molecule; gauss_of_run_refuted is a witness whose data --finish accepts. Data made elsewhere with only the frequencies of the vibrations can be listed (C57).

*Theorems (axioms):* `to_gauss_ends` (none), `gauss_after_run` (none), `gauss_never` (AEN), `gauss_of_run_refuted` (ACEN)

### C135 --to-gauss: the text of the listing (proved)

*Modelled:* `main` with --to-gauss, `to_gauss`, `run` up to `finish`.

*Proof:* `GaussRun.v`: the rows are the nested loops over the indices with the small constants left out; the row lemma of C132 splits them; the rotation and normal-mode theorems give the values.

*Scope:* Over the real numbers, with the eigensolver (contract solves) and the printing of numbers (contract prints) as parameters. gauss_cut asks for an asymmetric top, at most 9999 modes and values of less than 20 columns. With all the frequencies of a run the listing panics (C134).

*Theorems (axioms):* `gauss_text` (AEN), `gauss_cut` (AEN)

### C136 Printed tables of force constants can be read back (proved)

*Modelled:* `Display` of `F3qcm` and `F4qcm`, `load_vec`.

*Proof:* `TableFacts.v`: a printed number is a word without blanks and every line ends in a newline, so the words of the text are the printed numbers.

*Scope:* For every number type whose printing and parsing meet float_text, the contract of the input-file round trip.

*Theorems (axioms):* `table_reread` (none), `table_lines` (none)

## 5. Defects of the program found on the way

Each item is a theorem with a witness (name ending in `_refuted`) unless it is
marked as a remark.

| Property | What the program does |
|---|---|
| C08 | A Hessian with a two-number header is read transposed relative to one without (harmless for exactly symmetric data). |
| C16 | `deg_modes`: closeness of frequencies is not transitive; a mode can be listed in several entries, and four modes at one level give overlapping triples. |
| C19 | Symmetric tops: frequencies are listed with nondegenerate modes first, symmetry labels in the order of the modes; the rows of the printed table mix different modes. |
| C24 | Symmetric tops: the first nondegenerate mode is never compared with a degenerate pair (loops start at 1), and two nondegenerate modes are never tested together with a degenerate one. |
| C25 | A mode at or below 200 cm-1 with a large cubic constant is reported in resonance with itself; symmetric tops can list a mode twice in a type 2 resonance. |
| C26 | Two type-1 resonances with one mode: both are dropped from the constants, only the last is diagonalised (the map is keyed by the mode). |
| C34 | E0 of asymmetric tops: in both resonance branches the remaining terms are wrong (sign of the 1/(2wk+wl) term; wrong terms for type 2). |
| C35 | Symmetric tops: a type 2 resonance makes x_kl wrong when the mode is the upper one, both for nondegenerate and for degenerate modes; a type 1 resonance between degenerate modes has the wrong sign in g. |
| C36 | `make_e3` resets its accumulators inside the loops; with three degenerate modes cubic terms of E0 are lost. |
| C39 | A pair coupled about two axes keeps only the last one; prolate tops record other axis labels than are looked up; pairs of degenerate modes record another component. |
| C41 | Prolate tops: the corrections of the unique axis and of another axis are exchanged in the reported constants. |
| C47 | `bdegnl`: in one branch the angle is formed with the x instead of the y component and nothing is aligned. |
| C48 | Written input files: a header entry of five digits merges with its neighbour, an empty list of degenerate modes is dropped, dummy atoms are moved, a weight for a dummy atom makes the reader panic. |
| C49 | Dummy atoms: the map from coordinate text to atom ignores the axis; literal dummy coordinates are not rotated with the molecule. |
| C96 | A written molecule cannot be loaded again: the geometry is kept and written in angstroms, `load` assumes bohr and converts once more. |
| C50 | A starting tolerance that is zero, negative or not a number never ends the search. |
| C55 | The least mismatch is wrong if a frequency is imaginary (negative). |
| C62 | Oblate tops whose two equal constants are the same double: all S-reduced sextic constants are NaN. |
| C63 | Results of harmonic runs cannot be printed: the rows index empty lists. |
| C69 | An imaginary frequency is sorted last and dropped in favour of a zero frequency. |
| C72 | Symmetric tops: a resonance of a degenerate with a nondegenerate mode enters E0 with the wrong sign. |
| C73 | Polyads: a cubic coupling is included although the states differ in a direction that is not the reported resonance. |
| C76 | Polyads: four distinct modes reach `todo!()`. |
| C78 | Polyads: seven states for twelve modes are constants in the source. |
| C79 | For C2h and C3 the direction of the axis is left at its previous value. |
| C100 | With feature "polyad" the polyad matrix is computed and thrown away: no reported number depends on it, and more than twelve modes make the program panic (theorems, not refutations). |
| C99 | Spherical tops always panic in `finish`; header option 7 at 2 or below makes asymmetric tops panic (theorem `finish_panics`). |
| C102 | A run with cubic force constants always panics. |
| C111 | The report numbers modes from one in the table of frequencies and from zero in the lists of resonances. |
| C114 | A blank line in the GEOM or WEIGHT section of `spectro.in`, also as the last line of the file, makes `read` panic (load.rs:300-303); elsewhere blank lines are ignored. |
| C119 (remark) | `CONST1` in `make_tau` (utils.rs:438) is larger by a factor between 1.000236 and 1.000237 than the cube of twice the unit of rotational energy (consts.rs `CONST`), so all quartic constants, and what the reductions take from them, are too large by 0.0236 per cent. Proved as part of `energy_from_files`. |
| C122 | `alphas` (alphas.rs:27-31) uses for oblate tops column 4 of the inertia derivatives, the yz one, of the first partner of every pair. `bdegnl` has made the first partner even under y to -y, so this column is zero and the term of the xz derivative (column 3, as used for prolate tops) is lost: the constants of non-planar oblate tops such as ammonia lack 3/4 a_xz^2/I_b (unique axis) and 3/8 a_xz^2/I_c (others) times 2B^2/w for every pair. `run_threefold_rot`, `run_threefold_rot_refuted`. |
| C129 | `process_geom` (load.rs:231-235) overwrites the first two axes with x and y when the third is z. For a diatomic molecule, which lies along the first axis, the force constants then stay in the frame of the file while the geometry is turned: along y the reported De is 0. |
| C104 | Remark: `g` between two degenerate modes changes sign when one partner of a pair is multiplied by -1, so it depends on how `bdegnl` oriented the pair. |
| C86 | Prolate tops: Nielsen's and the S-reduced quartic constants are expanded about the wrong axis, Wilson's about the right one. |

Remarks proved as part of other theorems: the conversion factor of the quartic
constants (`CONST1`) is 1.000236 times the one implied by the rotational
constants, and `ALPHA_CONST` is 1.000016 times `SQLAM/2` (C88); E0 leaves out the
constant part of the energy of the vibrational angular momentum (`angular_shift`,
C89); the S-reduced sextic constants contain a quartic coefficient where a
sextic one belongs (explicit remainder in C83); the stored rotational constants
of a linear molecule are the corrections alone, the printed ones are right (C80).

The formulas for the x constants, g_tt, g_tu and E0 of symmetric tops (C35, C36,
C71) are derived from perturbation theory through C91, C92 and C94, and those for
the vibration-rotation constants (C38) through C97 and C98.

The term of three different degenerate modes in `make_e3` (xcals.rs 117-143) is
twice as large as perturbation theory demands. It never reaches the result,
because the accumulator is reset to zero (C36); the specification `se_ddd` has
the correct factor.

## 6. Tests against wrong programs

`seeded/LOG.jsonl` has one line per edit of a model definition made in a scratch
copy: the definition, the edit, the claim it falsifies, the theorems that stopped
proving, and the theorems that were tightened when none did.
