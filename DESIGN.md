# Formal model of galvanixer/bwsl in Rocq (Coq 8.16.1)

## 1. Modelling decisions

* **Machine integers.** `size_t`/`unsigned long` are `Z` values in `[0,2^64)` and every unsigned
  operation is written with its `mod 2^64`. `long`/`int` operations are *checked*: a result outside
  the type is the outcome `UB` (signed overflow). Conversions size_t -> long wrap (two's complement).
  Platform: LP64.
* **Outcomes.** `out A = Ok a | Throw exn | UB | Diverge`. `UB` covers signed overflow, division by zero,
  out-of-bounds vector access, violated `assert` preconditions (asserts vanish in Release builds),
  dereferencing an end iterator. `Diverge` is a loop that exceeds 2^66 iterations over a single
  64-bit loop state, i.e. one that has revisited a state.
* **Loops.** `for` over a container is structural recursion; `while` is `ploop fuel body`, a
  binary-fuelled loop (fuel 2^66, early exit), with a variant rule and a divergence rule.
* **Doubles.** IEEE-754 binary64 via Flocq's executable `binary_float 53 1024` (one NaN), operations
  rounded to nearest-even: no FMA contraction, no excess precision, no fast-math. NaN payloads and
  signs are not modelled.
* **Generic numeric code** (`Bravais`, `Lattice`, `KnuthWelford`, `West`, `lerp`, `LinSpace`, ...) is written once
  over a record of operations `num T` and instantiated with doubles (`numF`, bit-exact theorems) and
  with Coq's reals (`numR`, exact-arithmetic theorems). A theorem says in its statement which one.
* **Library functions** `sin`,`cos`,`pow`,`log` appear only in the real instance (Coq's `sin`,`cos`,`exp`,`ln`).
  Random draws are explicit arguments. `std::upper_bound` is modelled as libstdc++'s binary search.
* **Archives** are token lists: `ar & x` appends/reads one token per primitive field; the textual
  encoding of a primitive by boost is trusted. **Files** are byte/field lists.

## 2. Files (rocq/theories)

`Base.v` (outcomes, machine integers, loops), `F64.v` (doubles), `Num.v` (numeric record),
`M_*.v` models of one header each, `S_*.v` small independent specifications, `L_*.v` lemmas and proofs,
`P_*.v` property theorems (statement + `exact`, non-vacuity `Example`, `Print Assumptions`).

## 3. Plan per property

| id | what is modelled | how proved |
|----|------------------|------------|
| C01,C28 | Pairs.hpp on Z with explicit wrap | div/mod arithmetic, `lia`/`nia`; collision witness |
| C02,C03,C21 | accumulate_product, array_to_index, index_to_array loops | induction on the size list against a row-major spec |
| C04 | get_gcd as a fuelled loop with truncated `%` | variant `|b|`, `Z.gcd` invariant |
| C05 | cbinomial loop with checked multiplication | invariant res = C(n,i), spec = Pascal-triangle recursion |
| C06 | partial_sum in doubles, binary search | rounding monotonicity; sorted-list search lemma |
| C07,C08,C10,C11 | direct | case analysis on doubles, Flocq correctness lemmas |
| C09 | the interpolation loop with an arbitrary probe oracle | divergence rule; invariant of the window |
| C12 | folds | induction |
| C13-C17 | RationalNum<w> for any width w | gcd lemmas, cross-multiplication in Z/Q; witnesses by computation |
| C18,C19 | character-level model of `operator<<`/`operator>>` | decimal print/parse lemmas |
| C20 | macro bodies over an arbitrary `lt` | boolean algebra |
| C22 | `while` loops on coordinates | variant rule; result is `Z.modulo` |
| C23-C27 | HyperCubicGrid | coordinate-wise modular arithmetic, induction on walks |
| C29,C30,C31 | Bravais over numF | induction over dim; oddness of rounding; exactness of small integers |
| C32,C33 | Bravais over numR (and numF for the witness) | finite-sum exchange |
| C34,C35 | Lattice::ComputeNeighbors | translation lemmas modulo sizes |
| C36,C37,C38 | ComputeVectors/ComputeDistances | argmin-loop invariant; exact integer arithmetic in doubles; witnesses |
| C39,C40 | ComputeMomenta, AccumulateSk over numR | trigonometric algebra; witnesses |
| C41 | Save* as field tables | counting |
| C42,C43,C44 | Kahan/Neumaier bit-exact | standard error analysis, Fast2Sum, exact integers |
| C45,C46,C52 | all accumulators | induction over histories; field lists |
| C47,C49 | KW/West over numR | algebraic invariants (`field`) |
| C48,C50 | KW/West over numF | rounding monotonicity; witness |
| C51 | NaiveInteger with checked arithmetic | invariant; witnesses |
| C53-C56 | HistAccumulator | refinement to a list of value lists |
| C57-C62 | MoveStats/MoveResult state machine | invariant over histories incl. failing calls |
| C63,C64 | ObservableGroup over a sorted association list, file as field lists | refinement over histories |
| C65,C66 | LinSpace/LogSpace | induction; rounding monotonicity; real algebra |
| C67 | Approx on doubles | case analysis |
| C68 | enum macro over a list of names | induction |
| C69 | compare_files over a file-system map | list equality |
| C70 | text encoding of engine words | print/parse lemmas |
| C71 | archive order of group members | round trip through the token stream |
| C72 | `is_int`, quotient of integers in doubles | one rounding; error of three roundings |
| C73 | Euclidean norm in R | (1±u)^(n+2) bounds by induction on the container |
| C74 | std seeding recurrence | words of the seeded state; printing is injective |
| C75 | canonical form of a rational | equal values have equal canonical objects |
| C76 | occurrence counts | exact counting below 2^53, then one division |
| C77–C79 | walks on neighbour lists, hop counts | a step changes the hop count by at most one, and one step lowers it |
| C80–C81 | least representative modulo the extent | exact integers in doubles, then one rounded root |
| C82 | i^2+ij+j^2 | exact algebra; (1±u)^5 through the operations |
| C83 | discrete Fourier orthogonality | sums of roots of unity, dual bases |
| C84 | least i^2+ij+j^2 over all images | descent to the first shell of images |
| C85 | numerals in scientific notation and the value they denote; Flocq's decimal rounding | integer division with ties to even is the rounding; spacing of doubles against 17 digits |
| C86 | decimal literals and the value they spell; shortest and nearest number that is read back | search over digits with floor and ceiling candidates; gaps between doubles |
| C87 | exact mean and sum of squared deviations over the reals | one rounding at a time; invariant on n*mean - sum; error budget for the squared deviations |
| C88 | exact weighted mean, sum and squared deviations of the pairs with positive weight | one rounding at a time; the mean's error shrinks by 1 - w/W per step; each product against the exact one |
| C89 | exact sum of the weights; run of engine words, share of the 2^64 words | the draw is monotone in the word and close to word/2^64 of the total; count below a threshold; relative error of running sums |
| C90 | allowed momenta 2 pi m / L in R | M_PI against pi by a Machin series in Q; off-diagonal zeros add nothing; two relative rounding errors; errors of 3 units against a spacing of 2 pi / L |
| C91 | intensity, allowed momenta and coordinates in R; accuracy delta of sine and cosine as a hypothesis | phases differ from k.c by full turns and a rounding error; sine and cosine are 1-Lipschitz; error of a running sum; error of the final product and quotient |
| C92 | a position in the sequence first + k*trunc((last-first)/steps), last computed position | outcome of a history by induction; representable positions form an interval |
| C93 | calls between two PrintAndReset and the values measured per key in them; exact mean; value of a decimal | every row is the printed Kahan mean of its segment by induction over runs of the C63 specification; C85 and C87 bound the two roundings |
| C94 | nearest integer of a type, what a text gives to a variable, text of a sequence of rationals | case analysis on the reader; the reader is complete for the grammar |
| C95 | exact interpolation over the reals | one rounding error per operation; monotonicity of rounding |
| C96 | sums and counts of the specification states of C53 and C59 | C43 and C87 bounds followed by one division; relative errors of frequencies add up to at most one |
| C97 | which calls survive restarts (S_Restart) | generic client over any object with calls and archive; the object on file is the one after the kept calls; calls that print nothing do not change files |
| C98 | exact combinations of the stored vectors over the reals, Euclidean length | relative error of every product, bound for sums of doubles, stability of the square root; C37 for the images |
| C99 | the infinite sequence of the C++ standard ([rand.eng.mers]) in plain arithmetic | in-place block generation shown to advance the sequence by 312 places (invariant over the three loops), engine = place in the sequence, text round trip of C70, histories of C97 |
| C100 | sum of sizes of a jump; equality up to sign half way round | the minimum-image characterisations of C26 and C80 determine the component up to the tie; shortest walks of C78 |
| C101 | accuracy of log and pow as relative errors, M_E as a dyadic number, log_point, log_allowance | logarithms of the computed values followed through the constructor and the repeated multiplication; e bounded by the alternating series of exp(-1) in rational numbers |
| C102 | sums over pairs and over sites, correlation | phases of vectors and positions differ from those of coordinates by multiples of 2 pi; orthogonality of the characters gives the inverse transform |
| C103 | bonds, reversed, occurrences | counting of steps with the pairing of opposite directions; translations as permutations of the sites |
| C104 | repeated, as_weights, affine, reweighted | from the exact values of C47 and C49 and the error bounds of C87 and C88 |
| C105 | negated (C30), alike, scaled | simulation of the two runs step by step; sums of two doubles are multiples of 2^-1074, so rounding commutes with powers of two |
| C106 | facing points, odd_and_even | negation carried through every rounded operation of the momentum, phase and amplitude; squares remove the sign |
| C107 | counting words: counted, words, all_words, hop_error | C89 gives runs of words per entry, counts are added over repeated neighbours; n hops are a power of the matrix of shares, compared with a reversible one (C103) |
| C108 | exact Fourier intensity at the allowed momentum (S_Fourier), triangular_error | rounding analysis of root three, momenta, positions and phases; the sums as in C91; sum rule and constants from the exact ones over the reals (C83) with the errors added |
| C109 | counting words (S_Hop), acceptance = min(1, y/x), move_error | shares of choose_with_probability (C89) for the rounded ratio; the matrix of shares is compared with the textbook Metropolis matrix, reversible for weights times degrees; statistics by the journal of C57 |
| C110 | continued fractions in the usual form as lists of quotients, turned | the remainders alternate between the signs of n and d, so the parity of the number of divisions decides; the number of divisions is the length of any continued fraction of the value |
| C111 | real sums and products, binomials by Pascal's rule, Z.gcd, row-major coordinates | induction on the sequence from its end for the rounding errors; loop invariants as for long |
| C112 | sums over configurations and sites of products of integers | each bin receives one value per site (GetMappedSite is a bijection for a fixed first site), sums of whole numbers are exact, one division; sums over pairs regrouped by displacement |
| C113 | equality of the values returned by GetPosition, GetVector and GetMomentum | rows are recovered from the text (C41), texts of doubles are injective (C86), compare_files is equality of bytes (C69); open vectors are the coordinates, closed ones at most half the extent |
| C114 | words drawn (mt_draws) and seeds only | tempering, the twist and the seeding step are undone bit by bit; so two equal windows of 312 words agree backwards down to the second state word, which determines the seed; periodicity by the pigeonhole principle on windows |
| C115 | colourings of sites, sums of coordinates | weighted sums of coordinates change by the step modulo the extents; a colouring of a closed lattice is read as a periodic function of all integer points: it alternates along each axis, or repeats after three steps since triangles that share a side have equal tips |
| C116 | the table of C93, first key, equal means and counts between prints | both files are the tables of their histories (C93), 17 digits determine a double, digits determine a count, and sorted key lists with equal members are equal |
| C117 | sums, means, squared deviations (S_Accum) of concatenated lists | squared deviations about any point split into those about the own mean and a shift; doubles by the error bounds of C87 and C88 applied to means that are each off by at most 7 ulps of B |
| C118 | routes along numbered directions, sums of displacements | a hop by a short displacement has that displacement as its unique minimum image, so the jumps are the displacements; sums of vectors do not depend on their order |
| C119 | sums of momenta on the grid, Fourier sums over all sites | phases are fractions of turns of integer coordinates, sums of roots of unity vanish unless the momentum is zero; uniqueness from orthogonality |
| C120 | sums over the bonds of the neighbour table | the list of bonds is a permutation of its reversal, so changed first ends and changed second ends contribute alike; two single changes for an exchange |
| C121 | all sequences of directions, routes through the neighbour table, summed jumps, GetRealSpace over R | induction on the number of hops for first and second moments; displacements come in opposite pairs; jumps are displacements by C118 |
| C122 | ends of the routes along all sequences of directions | reversal with opposite directions for the symmetry; completeness of the plane waves (C119), and sums of cosines over sequences by induction, for the formula |
| C123 | ends of the routes along all sequences of directions, convergence of the standard library | formula as in C122 but with phases in place of the momenta of the code, so for any extents; at every momentum but zero the sum of cosines is strictly between -gamma and gamma, so its powers vanish against gamma^n |
| C124 | AccumulateSk over R, ends of walks (C122), energies of bonds (C120) | intensities are double sums of cosines of phase differences, whose weighted sums over the momenta count walks (C122) |
| C125 | GetNeighbors of closed lattices, energies of bonds (C120) | the energy is a sum of correlations, one for each direction; the three directions of a triangular lattice close triangles, and -1 <= xy + yz + xz on [-1, 1] |
| C126 | GetNeighbors of open and closed lattices, energies of bonds (C120) | neighbours lie on different sublattices (C115); multiplying with the signs of the sublattices permutes the configurations |
| C127 | GetNeighbors of closed and open chains, energies of bonds (C120), all configurations (C126) | the hop forward leads from a to a + 1 modulo n, so the energy goes once around the ring; powers of the transfer matrix by induction; open chains likewise, without the way back |
| C128 | GetNeighbors of open chains, energies of bonds (C120), all configurations (C126) | the energy of the open chain (C127); values are summed from one end, each bond between the sites contributing 2 sinh K and every other bond 2 cosh K |

Nothing is declared inexpressible. Parts of a property that live in the runtime (actual file I/O errors,
boost's textual number formatting, the quality of random draws) are outside the model and named in section 5.

## 4. Trusted base

* Coq 8.16.1's kernel, run by `coqc` with the flags of `rocq/_CoqProject`, and its `vm_compute` machine (used for concrete witnesses).
* The axioms that `Print Assumptions` lists. All come from Coq's standard library (its construction of the reals):
  `ClassicalDedekindReals.sig_forall_dec`, `ClassicalDedekindReals.sig_not_dec`,
  `FunctionalExtensionality.functional_extensionality_dep`, `Classical_Prop.classic`. There are no axioms of our own and none of Flocq, mathcomp or any other library.
* The reading of the C++ text written down in `M_*.v` (each definition cites its file and lines) and the conventions of section 1.

`Print Assumptions` is run below every property theorem. Its answers, for all of them:

* **Closed under the global context** (240 theorems): C01_index_of_pair, C01_indices_are_initial_segment, C01_injective, C01_injective_beyond_refuted, C01_num_pairs, C01_overloads_agree, C01_pair_of_index, C01_zero_maxval_undefined, C02_array_to_index, C02_index_injective, C02_index_to_array, C02_round_trip_coordinates, C02_round_trip_index, C03_array_to_index_undefined, C03_index_to_array_undefined, C03_otherwise_defined, C04_gcd, C04_gcd_nonnegative_refuted, C04_gcd_undefined, C05_binomial_int, C05_divisions_exact, C05_negative_k_refuted, C05_overflow_undefined, C05_symmetric_int, C05_zero_above, C08_absdiff, C08_sgn_int, C08_signeddiff, C08_signeddiff_antisymmetric, C100_neighbors, C100_walks, C103_bonds, C103_moved_neighbors, C103_moved_pairs, C103_multiplicity, C103_surroundings, C110_compare, C110_expansion, C110_minus_one_over, C110_sign, C110_undefined, C110_whole, C111_absdiff_long, C111_binomial_unsigned, C111_binomial_wraps_refuted, C111_gcd_unsigned, C111_index_to_array_int, C111_index_to_array_int_refuted, C111_max_min_nan, C111_signeddiff_narrow, C114_dumped, C114_never_stuck, C114_overlap, C114_periodic, C114_seeds_never_merge, C114_words_determine_stream, C115_checkerboard, C115_halves, C115_three_colours, C115_three_sublattices, C115_triangular_not_two, C115_two_colours, C115_walks, C118_detour, C118_hops, C118_order, C118_route, C118_standard, C12_accumulate, C12_accumulate_product_signed, C12_accumulate_sum_signed, C12_invert, C12_max, C12_max_min_empty, C12_min, C12_subtract_into, C12_subtract_into_defined, C12_subtract_undoes_sum, C12_sum_into, C12_sum_into_defined, C12_sum_squared, C12_sum_squared_defined, C12_sum_squared_undefined, C13_constructor_defined, C13_constructor_exact, C13_minimum_refuted, C13_simplify_idempotent, C13_zero_denominator, C13_zero_over_zero, C14_add, C14_add_defined, C14_div, C14_div_defined, C14_integer_left, C14_integer_right, C14_mul, C14_mul_defined, C14_sub, C14_sub_defined, C15_equality, C16_nonnegative_keeps_positive_denominator, C16_order_opposite_sign_refuted, C16_order_refuted, C16_order_same_sign, C17_integral, C17_mixed_truncates, C17_values_refuted, C18_round_trip, C18_string_round_trip, C18_text, C19_accepts, C19_failure_leaves_object_refuted, C19_rejects, C20_any_order, C20_derived, C21_coordinates_of_site, C21_dimension, C21_index_is_valid, C21_num_sites, C21_site_of_coordinates, C22_closed, C22_huge_size_overflows, C22_idempotent, C22_lattice_reduces_always, C22_open_unchanged, C22_zero_size_hangs, C23_iff_coordinates_of_a_site, C23_is_on_grid, C24_map_coordinates, C24_map_from_origin, C24_map_is_displacement, C24_map_self, C24_map_unmap, C24_translation_invariance, C24_unmap_map, C25_dominated_is_valid, C25_open_always_valid_refuted, C25_open_result, C25_open_right_iff_dominated, C25_open_valid_iff, C26_closed_min_image, C26_large_extent_refuted, C26_min_image_is_shortest, C26_open_exact, C26_reverse, C27_closed_walk, C27_open_closed_walk_is_zero, C27_open_walk, C27_retraced_walk_winds_zero_refuted, C27_walk_sum, C28_individual_of_pair, C28_num_pairs, C28_pair_of_individual, C29_neighbors_opposite, C29_past_the_last_direction, C34_coordination, C34_neighbor_lists, C35_symmetric, C36_translation_invariant, C38_open_distances, C39_open_refuted, C41_pair_file, C41_pairs_open_refuted, C41_rectangular, C41_site_files, C45_batches, C45_naive_history, C51_checked_add_never_succeeds, C51_overflow_is_undefined, C51_sum_exact, C52_kahan_archive, C52_knuth_welford_archive, C52_naive_archive, C52_neumaier_archive, C52_west_archive, C62_builders, C62_classification, C64_count_of_every_key_refuted, C65_begin_end, C65_calls, C65_for, C66_begin_end, C66_calls, C66_for, C68_from_string, C68_injective, C68_round_trip, C68_unknown, C69_contents, C69_reflexive, C69_symmetric, C69_transitive, C70_failed_load_unchanged_refuted, C70_injective, C70_load, C70_round_trip, C72_is_int, C72_is_int_defined, C73_cube, C73_square, C74_distinct_seeds, C74_exit_code, C74_no_argument, C74_no_number, C74_output_is_seeded_engine, C74_state_unique, C74_undefined, C75_any_order, C75_associative, C75_canonical, C75_commutative, C75_distributive, C75_neutral_and_inverse, C75_order_defined_refuted, C75_results_built, C75_zero, C78_shortest_closed, C78_shortest_open, C78_shortest_triangular_closed, C78_shortest_triangular_open, C79_closed_lists, C79_open_lists, C92_calls, C92_collect_refuted, C92_for, C92_last, C92_reaches_last_refuted, C92_undefined, C92_within, C94_determined, C94_determined_rest, C94_loop, C94_stored, C97_naive, C99_archived, C99_draws, C99_dumped, C99_seeded, C99_sequence, C99_simulation.
* **`sig_forall_dec`, `functional_extensionality_dep`** (14 theorems): C111_invert, C120_exchange, C120_independent, C120_one_site, C120_sublattice, C122_split, C122_symmetric, C125_antiferromagnet, C125_bounds, C125_frustration, C125_stripes, C126_partition, C126_sublattice, C72_to_int.
* **`sig_forall_dec`, `sig_not_dec`, `functional_extensionality_dep`** (62 theorems): C102_correlations, C102_pairs, C102_positions, C104_affine, C104_order, C104_repeated, C104_reweighted, C104_weighted_order, C106_backwards, C106_lerp_backwards, C10_lerp_between, C10_lerp_monotone, C117_batches, C117_equal_batches, C119_addition, C119_density_wave, C119_determined, C119_inverse, C119_orthogonal, C119_phases_lost_refuted, C120_weight, C121_built_in, C121_mean_square, C122_returns, C122_walks, C123_even_refuted, C123_spread, C124_energy, C124_walks, C127_ising, C127_open, C128_decay, C32_builtin_lattices, C32_dual, C33_inverse_hypercubic, C33_inverse_is_a_row_scaling, C33_triangular_refuted, C39_momenta, C39_periods_and_distinct, C39_periods_equal_sizes, C39_triangular_refuted, C40_compute, C40_increment, C40_structure_factor, C40_zero_momentum, C47_knuth_welford_moments, C47_knuth_welford_variance, C49_west_mean, C49_west_variances, C65_exact, C73_exact, C73_exact_norm, C82_triangular_distance, C82_unit_spacing, C83_built_in, C83_constant_background, C83_opposite_momenta, C83_sum_rule, C83_translation, C83_triangular_refuted, C84_least_image, C84_metric.
* **`sig_forall_dec`, `sig_not_dec`, `classic`, `functional_extensionality_dep`** (286 theorems): C05_binomial, C06_choose, C06_draw_at_total_refuted, C06_psums, C06_uniform_draw_below_total, C06_uniform_draw_below_total_refuted, C07_always, C07_monotone, C07_never, C07_threshold, C08_sgn_double, C09_duplicates_refuted, C09_fixed, C09_fixed_interpolation, C09_in_bounds_refuted, C09_returns_refuted, C09_std_upper_bound, C100_extent_one_refuted, C100_half_way_refuted, C100_vector, C101_correctly_rounded, C101_exponents, C101_last, C101_values, C103_open_refuted, C104_means_agree, C104_reordered, C104_single_entry_refuted, C104_unit_weights_refuted, C105_kahan_negated, C105_kahan_scaled, C105_knuth_welford_negated, C105_mean_scaled_refuted, C105_neumaier_negated, C105_neumaier_scaled, C105_west_negated, C106_backwards_refuted, C106_lerp, C106_lerp_backwards_refuted, C106_linspace, C106_momenta, C106_norms, C106_occupations, C106_structure_factor, C107_balance, C107_closed, C107_defined, C107_exact_refuted, C107_isolated, C107_one, C107_stationary, C108_accumulate, C108_compute, C108_constant, C108_sum_rule, C109_balance, C109_closed, C109_defined, C109_one, C109_open_refuted, C109_stationary, C10_lerp_constant_refuted, C10_lerp_ends, C10_lerpi_ends, C111_absdiff_double, C111_absdiff_double_symmetric, C111_max, C111_min, C111_product, C111_product_underflow_refuted, C111_sum, C111_sum_against_kahan, C111_sum_integers, C111_undo_refuted, C111_vectors, C112_integers, C112_opposite, C112_runs, C112_structure_factor, C112_total, C113_distances_boundaries, C113_pair_files, C113_positions_boundaries, C113_site_files, C116_fifteen_digits_refuted, C116_files_equal, C116_reproducible, C117_batches_in_doubles, C117_equal_batches_in_doubles, C117_rows, C117_unequal_refuted, C118_extent_two_refuted, C11_heaviside, C11_heaviside2, C11_heaviside2_symmetric, C120_extent_one_refuted, C121_extent_two_refuted, C122_odd_refuted, C30_distance_and_vector, C30_distance_to_itself, C30_symmetric, C30_translation_invariant, C31_distance_rounded, C31_embeds_integers, C33_inverse_hypercubic_doubles, C36_metric, C36_minimum_image, C37_all_images_refuted, C37_minimum_over_shell, C37_symmetric_refuted, C38_unrelated_refuted, C42_kahan_error, C42_kahan_finite, C43_neumaier_error, C43_neumaier_error_simple, C43_neumaier_finite, C44_kahan_integers, C44_neumaier_integers, C45_kahan_history, C45_knuth_welford_history, C45_neumaier_history, C45_unchecked_never_fail, C45_west_history, C46_kahan_limit, C46_knuth_welford_limit, C46_neumaier_limit, C46_west_limit, C47_variance_needs_two, C48_mean_in_range, C48_unbounded_refuted, C48_variance_nonnegative, C50_first_value, C50_first_value_overflow_refuted, C50_nonpositive_ignored, C50_variance_nonnegative_refuted, C50_weights_grow, C51_fewer_than_two, C51_mean, C51_scaled_variance, C51_standard_deviation, C51_variance_formula, C51_variance_refuted, C52_histogram_archive, C53_add_out_of_range, C53_force_add_largest, C53_histogram_refines, C53_result, C54_counts_add_up, C54_shrinking_resize_refuted, C55_unit_frequencies, C56_all_components_divided_refuted, C56_results_by, C57_bookkeeping, C58_add_is_two_calls, C58_in_order, C58_out_of_order, C59_reset, C59_statistics, C60_before_any_proposal, C60_ratios, C61_archive, C61_name_is_lost_refuted, C63_refinement, C63_specification_deterministic, C64_defined, C64_empty_undefined, C64_table, C65_error, C65_monotone, C65_reaches_last_refuted, C66_error, C66_exact, C66_exponents, C66_monotone, C67_complete, C67_exchange_refuted, C67_larger_tolerance, C67_le_or_ge, C67_nan, C67_operand_order, C67_reflexive, C67_reflexive_infinity_refuted, C67_settings, C67_sound, C67_zero, C71_round_trip, C72_to_double_equal_refuted, C72_to_double_error, C72_to_double_order, C72_to_double_order_refuted, C72_to_double_rounded, C72_zero_denominator, C73_finite, C73_l2norm_error, C73_l2norm_integers, C73_l2norm_integers_rounded, C73_overflow_refuted, C73_sum_squared_error, C73_underflow_refuted, C76_counting, C76_frequencies_sum, C76_growing, C77_extent_one_refuted, C77_neighbors_at_distance_one, C80_antisymmetric_refuted, C80_back, C80_minimum_image_vectors, C81_exact_refuted, C81_triangle_inequality, C82_triangular_doubles, C84_doubles, C84_elongated_refuted, C84_neighbors, C84_triangle_inequality, C85_distinguishes, C85_distinguishes_15_refuted, C85_exact, C85_move_stats, C85_nearest, C85_not_finite, C85_order, C85_table, C85_text, C86_distinguishes, C86_files, C86_files_determine, C86_layout, C86_length, C86_not_finite, C86_pair_file, C86_pair_file_determines, C86_text, C87_kahan_mean, C87_neumaier_mean, C87_welford_constant, C87_welford_deviation, C87_welford_error, C87_welford_mean, C87_welford_scaled_variance, C87_welford_sum, C87_welford_variance, C88_west_frequency_variance, C88_west_mean, C88_west_population_variance, C88_west_reliability_variance, C88_west_sum, C89_choose_between, C89_choose_between_psums, C89_choose_between_valid, C89_choose_with_probability, C90_distinct, C90_momenta, C90_order, C91_accumulate, C91_compute, C91_grows, C93_rows, C95_error, C95_lerpi_error, C95_monotone_endpoints, C95_monotone_parameter_refuted, C95_within_opposite_signs, C95_within_refuted, C96_average_probability, C96_frequencies_sum, C96_frequencies_sum_resize_refuted, C96_histogram_result, C97_group, C97_group_files, C97_group_files_refuted, C97_histogram, C97_kahan, C97_knuth_welford, C97_move_stats, C97_move_stats_name_refuted, C97_neumaier, C97_west, C98_builtin, C98_distance, C98_lattice_distance, C98_momenta, C98_positions, C98_real_space, C98_triangular_distance, C98_triangular_lattice, C98_wave_vector.

## 5. What is modelled and what is not

Modelled (every definition cites file and lines):

| header | model file | parts |
|--------|-----------|-------|
| Pairs.hpp | `M_Pairs.v` | all functions, with wrapping size_t |
| MathUtils.hpp | `M_MathInt.v`, `M_MathF.v`, `M_Norm.v`, `M_Random.v` | every function template, at `long`/`size_t`/`int` and at `double` as stated at each definition |
| RationalNum.hpp | `M_Rational.v`, `M_Conv.v`, `M_Text.v` | every member and operator, any width; stream input and output at character level |
| RelationalUtils.hpp | `M_Rational.v` | the macro bodies over an arbitrary `<` |
| HyperCubicGrid.hpp | `M_Grid.v` | all members |
| Bravais.hpp | `M_Bravais.v` | all members, the four built-in lattices |
| Lattice.hpp | `M_Lattice.v` | construction, tables, queries, structure factor, Save* files |
| accumulators/*.hpp | `M_Accum.v` | the five accumulators with all operators, exceptions and serialization |
| HistAccumulator.hpp | `M_Hist.v` | all members, archive |
| mcutils/*.hpp | `M_Move.v` | MoveStatus, MoveResult, MoveStats as state machines, archive |
| ObservableGroup.hpp | `M_Obs.v` | all members, table file, archive |
| client programs | `M_Restart.v` | a client that calls, saves, stops and loads (for C97) |
| `<random>` mersenne_twister_engine of libstdc++ 13: _M_gen_rand, operator() (bits/random.tcc:397-424, 454-469) | `M_Twister.v` | complete; discard is not used by the library |
| client program: a walker hopping to neighbours chosen by choose_between | M_Hop.v | not part of the repository; written on top of Lattice::GetNeighbors and choose_between |
| client program: a Metropolis walker with move statistics | M_Metro.v | not part of the repository; written on top of choose_between, choose_with_probability, Lattice and MoveStats |
| absdiff, signeddiff, accumulate_sum, accumulate_product, sum_into, subtract_into, invert, cbinomial, get_gcd, index_to_array at further types | M_MathT.v | double, long, size_t, unsigned and int instances; types narrower than int (promotions) are not modelled |
| a client filling a HistAccumulator with GetMappedSite(a,b) | M_CorrHist.v | client code of the check, not part of the repository; calls the modelled Add, GetMappedSite |
| fmt library (external) | `M_Fmt.v`, `M_Short.v` | the texts of doubles used above; `operator<<` of MoveStats |
| LinSpace.hpp, LogSpace.hpp | `M_Space.v` | construction, iteration, accessors |
| Approx.hpp | `M_Approx.v` | setters, comparisons that have a definition |
| EnumString.hpp, FileUtils.hpp, RNGUtils.hpp | `M_Util.v` | conversion tables, compare_files, engine archives |
| applications/dumpmt.cpp | `M_Dump.v` | main, atoi, seeding of mt19937_64 (libstdc++) |

Not modelled, or modelled under an assumption (none of these is a Coq axiom; they delimit what the theorems mean):

* Memory allocation never fails; containers are lists; `std::map` is an association list sorted by key.
* No contraction of floating-point expressions to FMA, no extended precision, no `-ffast-math`, rounding to nearest-even.
  All NaNs are one NaN.
* `pow`, `log`, `sin`, `cos` in doubles are parameters of the model: arbitrary, or of a stated accuracy (C91, C101); `M_PI` and `M_E` are the
  actual doubles. A theorem says whether it is over the reals or over doubles.
* `std::uniform_real_distribution` is libstdc++'s formula applied to a canonical draw: any double in [0,1) in C06 and C07, in C89 the value
  libstdc++'s `generate_canonical` makes of one word of a 64-bit engine (`canonical`). The sequence of words of `std::mt19937_64` is modelled from C99 on. `bwsl::upper_bound` is called with raw pointers or random-access iterators only.
* Archives: one token per primitive `ar &`. That boost reads back the token it wrote is trusted.
* `{:.Pe}` and `{}` of fmt for a double are modelled (`fmt_sci`, `fmt_short`): the double correctly rounded to P+1 digits, ties to even,
  as printf does; and the shortest decimal number that is read back as the double, the nearest of these, in fixed notation for exponents
  from -4 to 15 (with or without `.0` after whole numbers, which depends on the version of fmt). That fmt's algorithms compute this is
  trusted, and the sign fmt prints for some NaNs is not modelled. Formatting of doubles by iostreams is a parameter. C41, C63, C64 and C71
  hold for any text of doubles. A file that can be opened can be written. Precision passed to the stream is at most INT_MAX.
* The text format of the random engines is libstdc++'s (decimal words separated by blanks).
* `ToString` of a rational goes through `operator<<`.
* Friend operators that are declared and never defined (`LinSpace ==`/`!=`, `Approx <`/`>`) have no meaning to model.
* `AccumulateSk` receives occupation numbers already converted to double.
* Lattice theorems ask for `lattice_ok`: dimension at most 40 (beyond, the 3^dim count of images wraps around) and an even number of
  neighbour vectors (the code pairs the vector i with i + gamma/2); theorems named `_refuted` show what happens otherwise.
* Compile-time matters (templates that do not instantiate, `compare_files` not being `inline`, the dangling pointer
  in EnumString's exception) are outside the model.

## 6. Findings

Behaviours of the code that a user may not expect; each is a theorem (usually `_refuted` or `_undefined`):

* `GetDistance`/`GetVector`/`GetMomentum`/`SaveMomenta`/`SavePairs` on lattices with open boundaries read out of bounds or
  return wrong sites; momenta of lattices with unequal sizes are wrong on non-orthogonal lattices (and break the sum rule of structure factors).
* The minimum image is searched among the 3^d nearest images only; half-extent displacements are not antisymmetric.
* `Bravais::GetInverseVector` uses the direct lattice; an odd list of neighbour vectors is read out of bounds.
* Rational comparison of opposite-sign denominators, the minimum of the type, 0//0 and `operator>>` (no reduction).
* `get_gcd` may be negative; `cbinomial` with negative k; pair indices collide beyond 32 bits.
* Interpolation search may not terminate; `choose` functions at the end of the table.
* `lerp` can leave the interval between equal or same-sign endpoints; rows of an `ObservableGroup` printed after the last save are printed again after a restart.
* Empty `ObservableGroup` and empty containers are undefined; ratios of empty `MoveStats` are NaN; Hist quirks.
* l2norm under- and overflows for moderate entries; rational-to-double conversion does not keep the order beyond 53 bits.
