{
 "claims": [
  {
   "property": "C01",
   "status": "proved",
   "theorems": [
    "C01_pair_of_index",
    "C01_index_of_pair",
    "C01_indices_are_initial_segment",
    "C01_num_pairs",
    "C01_injective",
    "C01_injective_beyond_refuted",
    "C01_overloads_agree",
    "C01_zero_maxval_undefined"
   ],
   "note": "includes the sharp bound: not injective for any maxval above 2^32"
  },
  {
   "property": "C02",
   "status": "proved",
   "theorems": [
    "C02_array_to_index",
    "C02_index_to_array",
    "C02_round_trip_coordinates",
    "C02_round_trip_index",
    "C02_index_injective"
   ],
   "note": ""
  },
  {
   "property": "C03",
   "status": "proved",
   "theorems": [
    "C03_array_to_index_undefined",
    "C03_index_to_array_undefined",
    "C03_otherwise_defined"
   ],
   "note": ""
  },
  {
   "property": "C04",
   "status": "proved",
   "theorems": [
    "C04_gcd",
    "C04_gcd_undefined",
    "C04_gcd_nonnegative_refuted"
   ],
   "note": "any width 2..64; two undefined pairs characterised exactly"
  },
  {
   "property": "C05",
   "status": "proved",
   "theorems": [
    "C05_binomial_int",
    "C05_overflow_undefined",
    "C05_symmetric_int",
    "C05_zero_above",
    "C05_divisions_exact",
    "C05_negative_k_refuted",
    "C05_binomial"
   ],
   "note": "integer result and its conversion to double"
  },
  {
   "property": "C06",
   "status": "proved",
   "theorems": [
    "C06_choose",
    "C06_psums",
    "C06_draw_at_total_refuted",
    "C06_uniform_draw_below_total",
    "C06_uniform_draw_below_total_refuted"
   ],
   "note": "the draw is any function of the total; libstdc++'s formula for it is treated separately"
  },
  {
   "property": "C07",
   "status": "proved",
   "theorems": [
    "C07_always",
    "C07_never",
    "C07_monotone",
    "C07_threshold"
   ],
   "note": ""
  },
  {
   "property": "C08",
   "status": "proved",
   "theorems": [
    "C08_absdiff",
    "C08_signeddiff",
    "C08_signeddiff_antisymmetric",
    "C08_sgn_int",
    "C08_sgn_double"
   ],
   "note": "unsigned 64-bit, long and double"
  },
  {
   "property": "C09",
   "status": "proved",
   "theorems": [
    "C09_returns_refuted",
    "C09_in_bounds_refuted",
    "C09_fixed",
    "C09_fixed_interpolation",
    "C09_duplicates_refuted",
    "C09_std_upper_bound"
   ],
   "note": "raw pointers to double; the fixed reading is proved for every probe oracle"
  },
  {
   "property": "C10",
   "status": "proved",
   "theorems": [
    "C10_lerp_ends",
    "C10_lerpi_ends",
    "C10_lerp_between",
    "C10_lerp_monotone",
    "C10_lerp_constant_refuted"
   ],
   "note": ""
  },
  {
   "property": "C11",
   "status": "proved",
   "theorems": [
    "C11_heaviside",
    "C11_heaviside2",
    "C11_heaviside2_symmetric"
   ],
   "note": ""
  },
  {
   "property": "C12",
   "status": "proved",
   "theorems": [
    "C12_accumulate",
    "C12_max",
    "C12_min",
    "C12_max_min_empty",
    "C12_sum_into",
    "C12_subtract_into",
    "C12_subtract_undoes_sum",
    "C12_invert",
    "C12_sum_squared",
    "C12_sum_squared_defined",
    "C12_accumulate_sum_signed",
    "C12_accumulate_product_signed",
    "C12_sum_into_defined",
    "C12_subtract_into_defined",
    "C12_sum_squared_undefined"
   ],
   "note": "max/min/sum_squared at type long"
  },
  {
   "property": "C13",
   "status": "proved",
   "theorems": [
    "C13_constructor_exact",
    "C13_constructor_defined",
    "C13_zero_denominator",
    "C13_zero_over_zero",
    "C13_simplify_idempotent",
    "C13_minimum_refuted"
   ],
   "note": "any width 2..64; undefined and zero-denominator cases included"
  },
  {
   "property": "C14",
   "status": "proved",
   "theorems": [
    "C14_add",
    "C14_sub",
    "C14_mul",
    "C14_div",
    "C14_integer_right",
    "C14_integer_left",
    "C14_add_defined",
    "C14_sub_defined",
    "C14_mul_defined",
    "C14_div_defined"
   ],
   "note": "all eight operators; definedness theorems use the symmetric range"
  },
  {
   "property": "C15",
   "status": "proved",
   "theorems": [
    "C15_equality"
   ],
   "note": ""
  },
  {
   "property": "C16",
   "status": "proved",
   "theorems": [
    "C16_order_same_sign",
    "C16_nonnegative_keeps_positive_denominator",
    "C16_order_opposite_sign_refuted",
    "C16_order_refuted"
   ],
   "note": "exact characterisation for both sign cases; the inverted case and the constructor that produces it are proved as refutations"
  },
  {
   "property": "C17",
   "status": "proved",
   "theorems": [
    "C17_mixed_truncates",
    "C17_integral",
    "C17_values_refuted"
   ],
   "note": "all twelve mixed operators characterised; the value claim is refuted by witnesses"
  },
  {
   "property": "C18",
   "status": "proved",
   "theorems": [
    "C18_round_trip",
    "C18_string_round_trip",
    "C18_text"
   ],
   "note": "int and long; ToString is fmt's streaming of operator<<"
  },
  {
   "property": "C19",
   "status": "proved",
   "theorems": [
    "C19_accepts",
    "C19_rejects",
    "C19_failure_leaves_object_refuted"
   ],
   "note": "grammar given independently in S_Rational.v"
  },
  {
   "property": "C20",
   "status": "proved",
   "theorems": [
    "C20_derived",
    "C20_any_order"
   ],
   "note": "any type, any operator<"
  },
  {
   "property": "C21",
   "status": "proved",
   "theorems": [
    "C21_num_sites",
    "C21_dimension",
    "C21_coordinates_of_site",
    "C21_site_of_coordinates",
    "C21_index_is_valid"
   ],
   "note": "Sizes in (0,2^62], product below 2^64; also IndexIsValid."
  },
  {
   "property": "C22",
   "status": "proved",
   "theorems": [
    "C22_closed",
    "C22_idempotent",
    "C22_open_unchanged",
    "C22_lattice_reduces_always",
    "C22_zero_size_hangs",
    "C22_huge_size_overflows"
   ],
   "note": "Both EnforceBoundaries; includes hang on zero extent and overflow for extents of at least 2^63."
  },
  {
   "property": "C23",
   "status": "proved",
   "theorems": [
    "C23_is_on_grid",
    "C23_iff_coordinates_of_a_site"
   ],
   "note": "Both characterisations."
  },
  {
   "property": "C24",
   "status": "proved",
   "theorems": [
    "C24_unmap_map",
    "C24_map_unmap",
    "C24_map_self",
    "C24_map_from_origin",
    "C24_map_coordinates",
    "C24_map_is_displacement",
    "C24_translation_invariance"
   ],
   "note": "Inverse laws, coordinates of the mapped site, iff characterisation by the displacement, translation invariance."
  },
  {
   "property": "C25",
   "status": "proved",
   "theorems": [
    "C25_open_result",
    "C25_open_valid_iff",
    "C25_open_always_valid_refuted",
    "C25_open_right_iff_dominated",
    "C25_dominated_is_valid"
   ],
   "note": "The always-valid claim is refuted; exact result (b-a) mod 2^64 and exact conditions for validity and correctness."
  },
  {
   "property": "C26",
   "status": "proved",
   "theorems": [
    "C26_closed_min_image",
    "C26_min_image_is_shortest",
    "C26_open_exact",
    "C26_reverse",
    "C26_large_extent_refuted"
   ],
   "note": "Closed: congruent and in (-s/2,s/2], shortest; open: exact; extents 2^32 and 2^33 refuted."
  },
  {
   "property": "C27",
   "status": "proved",
   "theorems": [
    "C27_walk_sum",
    "C27_closed_walk",
    "C27_open_walk",
    "C27_open_closed_walk_is_zero",
    "C27_retraced_walk_winds_zero_refuted"
   ],
   "note": "Any number of hops up to 2^32 (closed) and any number (open); retraced walks refuted."
  },
  {
   "property": "C28",
   "status": "proved",
   "theorems": [
    "C28_individual_of_pair",
    "C28_pair_of_individual",
    "C28_num_pairs"
   ],
   "note": "Both directions, numpairs."
  },
  {
   "property": "C29",
   "status": "proved",
   "theorems": [
    "C29_neighbors_opposite",
    "C29_past_the_last_direction"
   ],
   "note": "any dimension, any stored directions without overflow; indices past the stored directions are out of bounds (also the last one of an odd coordination number)"
  },
  {
   "property": "C30",
   "status": "proved",
   "theorems": [
    "C30_symmetric",
    "C30_translation_invariant",
    "C30_distance_and_vector",
    "C30_distance_to_itself"
   ],
   "note": "any double matrix, including infinities and NaN"
  },
  {
   "property": "C31",
   "status": "proved",
   "theorems": [
    "C31_embeds_integers",
    "C31_distance_rounded"
   ],
   "note": "bit-exact embedding, correctly rounded distances"
  },
  {
   "property": "C32",
   "status": "proved",
   "theorems": [
    "C32_dual",
    "C32_builtin_lattices"
   ],
   "note": "exact arithmetic, any dimension"
  },
  {
   "property": "C33",
   "status": "proved",
   "theorems": [
    "C33_inverse_hypercubic",
    "C33_inverse_hypercubic_doubles",
    "C33_inverse_is_a_row_scaling",
    "C33_triangular_refuted"
   ],
   "note": "proved for chain, square and cubic in exact arithmetic and in doubles; exact description for every lattice; refuted for the triangular lattice"
  },
  {
   "property": "C34",
   "status": "proved",
   "theorems": [
    "C34_neighbor_lists",
    "C34_coordination"
   ],
   "note": "Exact neighbour lists for open and closed lattices in terms of an independent list of displaced points; any number type. Requires lattice_ok: well formed Bravais data of dimension at most 40 (above, the 3^dim image count wraps) and an even coordination number (an odd one reads out of bounds, see C29)."
  },
  {
   "property": "C35",
   "status": "proved",
   "theorems": [
    "C35_symmetric"
   ],
   "note": "Symmetric, and true exactly for listed neighbours."
  },
  {
   "property": "C36",
   "status": "proved",
   "theorems": [
    "C36_minimum_image",
    "C36_metric",
    "C36_translation_invariant"
   ],
   "note": "Bit-exact value for chain, square and cubic lattices with 4*sum L_i^2 <= 2^53; symmetry, identity, minimality over all integer images, and translation invariance (the latter for every lattice)."
  },
  {
   "property": "C37",
   "status": "proved",
   "theorems": [
    "C37_minimum_over_shell",
    "C37_all_images_refuted",
    "C37_symmetric_refuted"
   ],
   "note": "Minimality among the 3^d images for every closed lattice in doubles; witnesses refute minimality over all images and symmetry on elongated triangular lattices."
  },
  {
   "property": "C38",
   "status": "proved",
   "theorems": [
    "C38_open_distances",
    "C38_unrelated_refuted"
   ],
   "note": "Right for dominated pairs (bit for bit the Bravais distance); out of bounds for every a > b on every open lattice of at most 2^63 sites; witness of a wrong value on the open square lattice."
  },
  {
   "property": "C39",
   "status": "proved",
   "theorems": [
    "C39_momenta",
    "C39_periods_and_distinct",
    "C39_periods_equal_sizes",
    "C39_triangular_refuted",
    "C39_open_refuted"
   ],
   "note": "Exact reals. Also proved: periods for any dual Bravais lattice with equal extents. Refuted for the triangular lattice with unequal extents and for open lattices."
  },
  {
   "property": "C40",
   "status": "proved",
   "theorems": [
    "C40_structure_factor",
    "C40_increment",
    "C40_zero_momentum",
    "C40_compute"
   ],
   "note": "Exact reals with Coq's sin and cos; at most 2^32 - 1 sites (square() wraps above)."
  },
  {
   "property": "C41",
   "status": "proved",
   "theorems": [
    "C41_site_files",
    "C41_pair_file",
    "C41_rectangular",
    "C41_pairs_open_refuted"
   ],
   "note": "Exact tables; the text of a double is any text without separators. SavePairs needs fewer than 2^32 sites; on open lattices it reads out of bounds (refuted)."
  },
  {
   "property": "C42",
   "status": "proved",
   "theorems": [
    "C42_kahan_error",
    "C42_kahan_finite"
   ],
   "note": "Error bound with explicit constants for all sequences of up to 2^49 doubles, and absence of overflow."
  },
  {
   "property": "C43",
   "status": "proved",
   "theorems": [
    "C43_neumaier_error",
    "C43_neumaier_error_simple",
    "C43_neumaier_finite"
   ],
   "note": "Error bound (general and simplified) and absence of overflow."
  },
  {
   "property": "C44",
   "status": "proved",
   "theorems": [
    "C44_kahan_integers",
    "C44_neumaier_integers"
   ],
   "note": "Exactness on integer data."
  },
  {
   "property": "C45",
   "status": "proved",
   "theorems": [
    "C45_kahan_history",
    "C45_neumaier_history",
    "C45_knuth_welford_history",
    "C45_west_history",
    "C45_naive_history",
    "C45_unchecked_never_fail",
    "C45_batches"
   ],
   "note": "Histories for the five accumulators; batches."
  },
  {
   "property": "C46",
   "status": "proved",
   "theorems": [
    "C46_kahan_limit",
    "C46_neumaier_limit",
    "C46_knuth_welford_limit",
    "C46_west_limit"
   ],
   "note": "The limit in checked and unchecked builds (for the four accumulators whose checks work; NaiveInteger is in C51)."
  },
  {
   "property": "C47",
   "status": "proved",
   "theorems": [
    "C47_knuth_welford_moments",
    "C47_knuth_welford_variance",
    "C47_variance_needs_two"
   ],
   "note": "Over the reals."
  },
  {
   "property": "C48",
   "status": "proved",
   "theorems": [
    "C48_mean_in_range",
    "C48_variance_nonnegative",
    "C48_unbounded_refuted"
   ],
   "note": "In doubles, with the bound 2^1022; without it refuted by witness."
  },
  {
   "property": "C49",
   "status": "proved",
   "theorems": [
    "C49_west_mean",
    "C49_west_variances"
   ],
   "note": "Over the reals."
  },
  {
   "property": "C50",
   "status": "proved",
   "theorems": [
    "C50_nonpositive_ignored",
    "C50_first_value",
    "C50_first_value_overflow_refuted",
    "C50_weights_grow",
    "C50_variance_nonnegative_refuted"
   ],
   "note": "In doubles; negative variance and NaN spread shown by witnesses."
  },
  {
   "property": "C51",
   "status": "proved",
   "theorems": [
    "C51_sum_exact",
    "C51_overflow_is_undefined",
    "C51_mean",
    "C51_variance_formula",
    "C51_variance_refuted",
    "C51_checked_add_never_succeeds",
    "C51_scaled_variance",
    "C51_standard_deviation",
    "C51_fewer_than_two"
   ],
   "note": "Exact sums, undefined behaviour, formula of Variance, refutation, checked builds."
  },
  {
   "property": "C52",
   "status": "proved",
   "theorems": [
    "C52_kahan_archive",
    "C52_neumaier_archive",
    "C52_knuth_welford_archive",
    "C52_west_archive",
    "C52_naive_archive",
    "C52_histogram_archive"
   ],
   "note": "Covers all accumulators and the histogram; archives are token lists (DESIGN.md)."
  },
  {
   "property": "C53",
   "status": "proved",
   "theorems": [
    "C53_histogram_refines",
    "C53_result",
    "C53_add_out_of_range",
    "C53_force_add_largest"
   ],
   "note": "With counter checks, fewer than 2^64 calls; allocation never fails in the model."
  },
  {
   "property": "C54",
   "status": "proved",
   "theorems": [
    "C54_counts_add_up",
    "C54_shrinking_resize_refuted"
   ],
   "note": "The failing case is the _refuted theorem."
  },
  {
   "property": "C55",
   "status": "proved",
   "theorems": [
    "C55_unit_frequencies"
   ],
   "note": "Histories of at most 2^53 calls, with or without Reset/Resize."
  },
  {
   "property": "C56",
   "status": "proved",
   "theorems": [
    "C56_results_by",
    "C56_all_components_divided_refuted"
   ],
   "note": "The claim in the title is refuted; the exact result is C56_results_by."
  },
  {
   "property": "C57",
   "status": "proved",
   "theorems": [
    "C57_bookkeeping"
   ],
   "note": "With counter checks, histories shorter than 2^64 calls."
  },
  {
   "property": "C58",
   "status": "proved",
   "theorems": [
    "C58_out_of_order",
    "C58_in_order",
    "C58_add_is_two_calls"
   ],
   "note": "Out-of-order part holds for every object; in-order success for every reachable one."
  },
  {
   "property": "C59",
   "status": "proved",
   "theorems": [
    "C59_statistics",
    "C59_reset"
   ],
   "note": "A status outside the three named ones leaves the proposal pending (journal specification)."
  },
  {
   "property": "C60",
   "status": "proved",
   "theorems": [
    "C60_ratios",
    "C60_before_any_proposal"
   ],
   "note": "NaN for two of the ratios before any proposal."
  },
  {
   "property": "C61",
   "status": "proved",
   "theorems": [
    "C61_archive",
    "C61_name_is_lost_refuted"
   ],
   "note": "The name is not archived (_refuted theorem)."
  },
  {
   "property": "C62",
   "status": "proved",
   "theorems": [
    "C62_classification",
    "C62_builders"
   ],
   "note": "Statuses other than the three enumerators are outside the statement."
  },
  {
   "property": "C63",
   "status": "proved",
   "theorems": [
    "C63_refinement",
    "C63_specification_deterministic"
   ],
   "note": "Refinement of a relational specification over all histories; std::map is a sorted association list, fmt output of keys and means is a parameter."
  },
  {
   "property": "C64",
   "status": "proved",
   "theorems": [
    "C64_table",
    "C64_defined",
    "C64_empty_undefined",
    "C64_count_of_every_key_refuted"
   ],
   "note": "fmt output is assumed free of commas and newlines; precision at most INT_MAX."
  },
  {
   "property": "C65",
   "status": "proved",
   "theorems": [
    "C65_calls",
    "C65_begin_end",
    "C65_for",
    "C65_monotone",
    "C65_error",
    "C65_exact",
    "C65_reaches_last_refuted"
   ],
   "note": "Generic in the number type; monotonicity and error bound for doubles, exactness for reals; witness 0,1,49 where value nsteps is not last. The template operator== is the one modelled."
  },
  {
   "property": "C66",
   "status": "proved",
   "theorems": [
    "C66_calls",
    "C66_exponents",
    "C66_begin_end",
    "C66_for",
    "C66_exact",
    "C66_monotone",
    "C66_error"
   ],
   "note": "libm pow and log enter as an oracle record; exactness is over the reals with Rpower and ln."
  },
  {
   "property": "C67",
   "status": "proved",
   "theorems": [
    "C67_settings",
    "C67_reflexive",
    "C67_reflexive_infinity_refuted",
    "C67_operand_order",
    "C67_nan",
    "C67_larger_tolerance",
    "C67_complete",
    "C67_sound",
    "C67_le_or_ge",
    "C67_zero",
    "C67_exchange_refuted"
   ],
   "note": "All doubles including infinities and NaN; refuted parts are separate theorems with witnesses."
  },
  {
   "property": "C68",
   "status": "proved",
   "theorems": [
    "C68_round_trip",
    "C68_injective",
    "C68_from_string",
    "C68_unknown"
   ],
   "note": "Enumerators are distinct names with values 0..n-1, as the macro generates them. what() of the exception returns a dangling pointer and is not modelled."
  },
  {
   "property": "C69",
   "status": "proved",
   "theorems": [
    "C69_contents",
    "C69_symmetric",
    "C69_reflexive",
    "C69_transitive"
   ],
   "note": "Files are byte lists; files do not change during the call."
  },
  {
   "property": "C70",
   "status": "proved",
   "theorems": [
    "C70_round_trip",
    "C70_injective",
    "C70_load",
    "C70_failed_load_unchanged_refuted"
   ],
   "note": "Text format of libstdc++ 13; 64-bit words."
  },
  {
   "property": "C71",
   "status": "proved",
   "theorems": [
    "C71_round_trip"
   ],
   "note": "Archive of a map as in boost/serialization/map.hpp."
  },
  {
   "property": "C72",
   "status": "proved",
   "theorems": [
    "C72_is_int_defined",
    "C72_is_int",
    "C72_to_int",
    "C72_to_double_rounded",
    "C72_to_double_order",
    "C72_to_double_error",
    "C72_to_double_order_refuted",
    "C72_to_double_equal_refuted",
    "C72_zero_denominator"
   ],
   "note": "rational conversions; order and equality beyond 53 bits refuted with witnesses"
  },
  {
   "property": "C73",
   "status": "proved",
   "theorems": [
    "C73_square",
    "C73_cube",
    "C73_l2norm_integers",
    "C73_l2norm_integers_rounded",
    "C73_exact",
    "C73_exact_norm",
    "C73_sum_squared_error",
    "C73_l2norm_error",
    "C73_finite",
    "C73_underflow_refuted",
    "C73_overflow_refuted"
   ],
   "note": "integer powers and norms, exact norm laws, double error and range; under/overflow refuted"
  },
  {
   "property": "C74",
   "status": "proved",
   "theorems": [
    "C74_output_is_seeded_engine",
    "C74_state_unique",
    "C74_distinct_seeds",
    "C74_no_number",
    "C74_undefined",
    "C74_exit_code",
    "C74_no_argument"
   ],
   "note": "dumpmt with libstdc++ seeding; atoi as in the C standard"
  },
  {
   "property": "C75",
   "status": "proved",
   "theorems": [
    "C75_canonical",
    "C75_results_built",
    "C75_zero",
    "C75_commutative",
    "C75_associative",
    "C75_distributive",
    "C75_neutral_and_inverse",
    "C75_any_order",
    "C75_order_defined_refuted"
   ],
   "note": "canonical objects; laws; order of summation may change definedness (refuted part)"
  },
  {
   "property": "C76",
   "status": "proved",
   "theorems": [
    "C76_counting",
    "C76_growing",
    "C76_frequencies_sum"
   ],
   "note": "bins counted exactly up to 2^53 measurements; frequencies correctly rounded; their exact sum within one roundoff of 1"
  },
  {
   "property": "C77",
   "status": "proved",
   "theorems": [
    "C77_neighbors_at_distance_one",
    "C77_extent_one_refuted"
   ],
   "note": "doubles, closed hyper-cubic lattices; the extent-1 exception is a refutation with witness"
  },
  {
   "property": "C78",
   "status": "proved",
   "theorems": [
    "C78_shortest_closed",
    "C78_shortest_open",
    "C78_shortest_triangular_closed",
    "C78_shortest_triangular_open"
   ],
   "note": "walks are inductive sequences over the stored neighbour lists; both existence and minimality for every lattice size"
  },
  {
   "property": "C79",
   "status": "proved",
   "theorems": [
    "C79_closed_lists",
    "C79_open_lists"
   ],
   "note": "both directions of each equivalence, for the four built-in lattices"
  },
  {
   "property": "C80",
   "status": "proved",
   "theorems": [
    "C80_minimum_image_vectors",
    "C80_back",
    "C80_antisymmetric_refuted"
   ],
   "note": "Doubles; closed lattices; the coordinate differences are taken from GetCoordinates. The antisymmetry claim is refuted by C80_antisymmetric_refuted."
  },
  {
   "property": "C81",
   "status": "proved",
   "theorems": [
    "C81_triangle_inequality",
    "C81_exact_refuted"
   ],
   "note": "Doubles; the exact inequality is refuted by C81_exact_refuted."
  },
  {
   "property": "C82",
   "status": "proved",
   "theorems": [
    "C82_unit_spacing",
    "C82_triangular_distance",
    "C82_triangular_doubles"
   ],
   "note": "Exact arithmetic for the first two theorems (numR), doubles for the third; coordinate differences within long."
  },
  {
   "property": "C83",
   "status": "proved",
   "theorems": [
    "C83_sum_rule",
    "C83_built_in",
    "C83_opposite_momenta",
    "C83_constant_background",
    "C83_translation",
    "C83_triangular_refuted"
   ],
   "note": "Exact arithmetic (numR); the sum rule for triangular lattices with unequal extents is refuted by C83_triangular_refuted."
  },
  {
   "property": "C84",
   "status": "proved",
   "theorems": [
    "C84_least_image",
    "C84_metric",
    "C84_doubles",
    "C84_neighbors",
    "C84_triangle_inequality",
    "C84_elongated_refuted"
   ],
   "note": "Exact arithmetic for least images and metric; doubles by error factors; elongated lattices refuted with a witness."
  },
  {
   "property": "C85",
   "status": "proved",
   "theorems": [
    "C85_text",
    "C85_nearest",
    "C85_order",
    "C85_exact",
    "C85_distinguishes",
    "C85_distinguishes_15_refuted",
    "C85_not_finite",
    "C85_table",
    "C85_move_stats"
   ],
   "note": "fmt's {:.Pe} is modelled as exact decimal rounding (ties to even); 16 digits after the point suffice to tell doubles apart, 15 do not."
  },
  {
   "property": "C86",
   "status": "proved",
   "theorems": [
    "C86_text",
    "C86_length",
    "C86_distinguishes",
    "C86_layout",
    "C86_not_finite",
    "C86_files",
    "C86_files_determine",
    "C86_pair_file",
    "C86_pair_file_determines"
   ],
   "note": "fmt's {} is modelled as the shortest decimal that reads back, nearest first, in both layouts fmt has used for whole numbers; files of the three site tables."
  },
  {
   "property": "C87",
   "status": "proved",
   "theorems": [
    "C87_welford_mean",
    "C87_welford_sum",
    "C87_welford_variance",
    "C87_welford_scaled_variance",
    "C87_welford_deviation",
    "C87_welford_error",
    "C87_welford_constant",
    "C87_kahan_mean",
    "C87_neumaier_mean"
   ],
   "note": "Errors against the exact mean and variance over the reals, every length, order and data set in the stated ranges; unit roundoff 2^-53."
  },
  {
   "property": "C88",
   "status": "proved",
   "theorems": [
    "C88_west_mean",
    "C88_west_sum",
    "C88_west_population_variance",
    "C88_west_frequency_variance",
    "C88_west_reliability_variance"
   ],
   "note": "PopulationVariance and SampleFrequencyVariance (whole-number weights); SampleReliabilityVariance has no bound (its denominator may cancel). Exact-arithmetic values of all three: C49."
  },
  {
   "property": "C89",
   "status": "proved",
   "theorems": [
    "C89_choose_between",
    "C89_choose_between_valid",
    "C89_choose_between_psums",
    "C89_choose_with_probability"
   ],
   "note": "One engine word per draw (64-bit engine, libstdc++ generate_canonical); nothing is claimed about the sequence of words an engine delivers."
  },
  {
   "property": "C90",
   "status": "proved",
   "theorems": [
    "C90_momenta",
    "C90_order",
    "C90_distinct"
   ],
   "note": "Unit lattices only (chain, square, cubic); C39 has the exact momenta."
  },
  {
   "property": "C91",
   "status": "proved",
   "theorems": [
    "C91_accumulate",
    "C91_compute",
    "C91_grows"
   ],
   "note": "std::sin and std::cos are parameters with a stated accuracy; correctly rounded ones satisfy it (trig_close_ex). Unit lattices only."
  },
  {
   "property": "C92",
   "status": "proved",
   "theorems": [
    "C92_calls",
    "C92_within",
    "C92_for",
    "C92_last",
    "C92_reaches_last_refuted",
    "C92_collect_refuted",
    "C92_undefined"
   ],
   "note": "Release semantics (the assertion first < last is absent). Types narrower than int, which are promoted, are not covered."
  },
  {
   "property": "C93",
   "status": "proved",
   "theorems": [
    "C93_rows"
   ],
   "note": "Key text is any text without comma or newline. Printing of doubles by fmt is the model of C85."
  },
  {
   "property": "C94",
   "status": "proved",
   "theorems": [
    "C94_stored",
    "C94_determined",
    "C94_determined_rest",
    "C94_loop"
   ],
   "note": "iostreams are modelled as in libstdc++ with the C locale (M_Text)."
  },
  {
   "property": "C95",
   "status": "proved",
   "theorems": [
    "C95_error",
    "C95_lerpi_error",
    "C95_monotone_endpoints",
    "C95_within_opposite_signs",
    "C95_within_refuted",
    "C95_monotone_parameter_refuted"
   ],
   "note": "Library round-to-nearest arithmetic, no FMA contraction."
  },
  {
   "property": "C96",
   "status": "proved",
   "theorems": [
    "C96_histogram_result",
    "C96_frequencies_sum",
    "C96_frequencies_sum_resize_refuted",
    "C96_average_probability"
   ],
   "note": "Values of the bins are those of the specification of C53, outcomes those of C59."
  },
  {
   "property": "C97",
   "status": "proved",
   "theorems": [
    "C97_kahan",
    "C97_neumaier",
    "C97_knuth_welford",
    "C97_west",
    "C97_naive",
    "C97_histogram",
    "C97_move_stats",
    "C97_move_stats_name_refuted",
    "C97_group",
    "C97_group_files",
    "C97_group_files_refuted"
   ],
   "note": "The client program is modelled in M_Restart; archives are token lists as in C52, C61 and C71."
  },
  {
   "property": "C98",
   "status": "proved",
   "theorems": [
    "C98_builtin",
    "C98_real_space",
    "C98_distance",
    "C98_triangular_distance",
    "C98_wave_vector",
    "C98_lattice_distance",
    "C98_triangular_lattice",
    "C98_positions",
    "C98_momenta"
   ],
   "note": "IEEE round-to-nearest arithmetic, correctly rounded sqrt, no FMA contraction."
  },
  {
   "property": "C99",
   "status": "proved",
   "theorems": [
    "C99_sequence",
    "C99_draws",
    "C99_seeded",
    "C99_dumped",
    "C99_archived",
    "C99_simulation"
   ],
   "note": "Generation and tempering are libstdc++ 13's (bits/random.tcc); the client's step is an arbitrary decision tree over the words drawn."
  },
  {
   "property": "C100",
   "status": "proved",
   "theorems": [
    "C100_vector",
    "C100_half_way_refuted",
    "C100_walks",
    "C100_neighbors",
    "C100_extent_one_refuted"
   ],
   "note": "The walks and neighbours hold for any number type; vectors and distances are in doubles."
  },
  {
   "property": "C101",
   "status": "proved",
   "theorems": [
    "C101_values",
    "C101_last",
    "C101_exponents",
    "C101_correctly_rounded"
   ],
   "note": "log and pow are any functions with the stated accuracy; the constant M_E is the actual double, compared with e by the series of exp(-1)."
  },
  {
   "property": "C102",
   "status": "proved",
   "theorems": [
    "C102_pairs",
    "C102_positions",
    "C102_correlations"
   ],
   "note": "Over the real numbers; C83_built_in gives the dual momenta of the built-in lattices."
  },
  {
   "property": "C103",
   "status": "proved",
   "theorems": [
    "C103_multiplicity",
    "C103_bonds",
    "C103_moved_neighbors",
    "C103_moved_pairs",
    "C103_surroundings",
    "C103_open_refuted"
   ],
   "note": "Holds for any number type, hence for doubles bit for bit."
  },
  {
   "property": "C104",
   "status": "proved",
   "theorems": [
    "C104_repeated",
    "C104_single_entry_refuted",
    "C104_unit_weights_refuted",
    "C104_reweighted",
    "C104_order",
    "C104_weighted_order",
    "C104_affine",
    "C104_means_agree",
    "C104_reordered"
   ],
   "note": "The exact statements are over the real numbers, the bounds over doubles."
  },
  {
   "property": "C105",
   "status": "proved",
   "theorems": [
    "C105_kahan_negated",
    "C105_neumaier_negated",
    "C105_knuth_welford_negated",
    "C105_west_negated",
    "C105_kahan_scaled",
    "C105_neumaier_scaled",
    "C105_mean_scaled_refuted"
   ],
   "note": "In doubles with round to nearest even."
  },
  {
   "property": "C106",
   "status": "proved",
   "theorems": [
    "C106_momenta",
    "C106_structure_factor",
    "C106_occupations",
    "C106_lerp",
    "C106_linspace",
    "C106_norms",
    "C106_backwards",
    "C106_backwards_refuted",
    "C106_lerp_backwards",
    "C106_lerp_backwards_refuted"
   ],
   "note": "In doubles with round to nearest even; sine and cosine are parameters."
  },
  {
   "property": "C107",
   "status": "proved",
   "theorems": [
    "C107_defined",
    "C107_isolated",
    "C107_one",
    "C107_exact_refuted",
    "C107_balance",
    "C107_closed",
    "C107_stationary"
   ],
   "note": "A client program of the two functions is modelled; doubles round to nearest even, and one word is drawn per hop."
  },
  {
   "property": "C108",
   "status": "proved",
   "theorems": [
    "C108_accumulate",
    "C108_compute",
    "C108_sum_rule",
    "C108_constant"
   ],
   "note": "sin and cos are parameters within delta of the true functions; closed boundaries; triangular lattices of equal extents, since for unequal ones the momenta are not dual to the positions (C83)."
  },
  {
   "property": "C109",
   "status": "proved",
   "theorems": [
    "C109_defined",
    "C109_one",
    "C109_balance",
    "C109_closed",
    "C109_open_refuted",
    "C109_stationary"
   ],
   "note": "A client program of the library is modelled; doubles round to nearest even, and each choice draws one 64-bit word."
  },
  {
   "property": "C110",
   "status": "proved",
   "theorems": [
    "C110_expansion",
    "C110_sign",
    "C110_compare",
    "C110_whole",
    "C110_minus_one_over",
    "C110_undefined"
   ],
   "note": "Signed types; denominators other than zero where values are compared."
  },
  {
   "property": "C111",
   "status": "proved",
   "theorems": [
    "C111_sum",
    "C111_sum_integers",
    "C111_sum_against_kahan",
    "C111_product",
    "C111_product_underflow_refuted",
    "C111_absdiff_double",
    "C111_absdiff_double_symmetric",
    "C111_absdiff_long",
    "C111_signeddiff_narrow",
    "C111_max",
    "C111_min",
    "C111_max_min_nan",
    "C111_vectors",
    "C111_undo_refuted",
    "C111_invert",
    "C111_binomial_unsigned",
    "C111_binomial_wraps_refuted",
    "C111_gcd_unsigned",
    "C111_index_to_array_int",
    "C111_index_to_array_int_refuted"
   ],
   "note": "Products: partial products zero or at least 2^-1000. Sums: magnitudes adding up to at most 2^1019."
  },
  {
   "property": "C112",
   "status": "proved",
   "theorems": [
    "C112_runs",
    "C112_integers",
    "C112_opposite",
    "C112_total",
    "C112_structure_factor"
   ],
   "note": "The histogram works in doubles, the lattice and AccumulateSk of C112_structure_factor in exact real arithmetic."
  },
  {
   "property": "C113",
   "status": "proved",
   "theorems": [
    "C113_site_files",
    "C113_pair_files",
    "C113_positions_boundaries",
    "C113_distances_boundaries"
   ],
   "note": "fmt's {} as in C86; files as byte lists as in C69."
  },
  {
   "property": "C114",
   "status": "proved",
   "theorems": [
    "C114_words_determine_stream",
    "C114_seeds_never_merge",
    "C114_dumped",
    "C114_overlap",
    "C114_periodic",
    "C114_never_stuck"
   ],
   "note": "std::mt19937_64 after the C++ standard, as in C99."
  },
  {
   "property": "C115",
   "status": "proved",
   "theorems": [
    "C115_checkerboard",
    "C115_two_colours",
    "C115_walks",
    "C115_halves",
    "C115_three_colours",
    "C115_three_sublattices",
    "C115_triangular_not_two"
   ],
   "note": ""
  },
  {
   "property": "C116",
   "status": "proved",
   "theorems": [
    "C116_files_equal",
    "C116_reproducible",
    "C116_fifteen_digits_refuted"
   ],
   "note": ""
  },
  {
   "property": "C117",
   "status": "proved",
   "theorems": [
    "C117_batches",
    "C117_equal_batches",
    "C117_unequal_refuted",
    "C117_batches_in_doubles",
    "C117_equal_batches_in_doubles",
    "C117_rows"
   ],
   "note": ""
  },
  {
   "property": "C118",
   "status": "proved",
   "theorems": [
    "C118_standard",
    "C118_route",
    "C118_order",
    "C118_detour",
    "C118_extent_two_refuted",
    "C118_hops"
   ],
   "note": ""
  },
  {
   "property": "C119",
   "status": "proved",
   "theorems": [
    "C119_addition",
    "C119_orthogonal",
    "C119_inverse",
    "C119_determined",
    "C119_phases_lost_refuted",
    "C119_density_wave"
   ],
   "note": ""
  },
  {
   "property": "C120",
   "status": "proved",
   "theorems": [
    "C120_independent",
    "C120_sublattice",
    "C120_one_site",
    "C120_weight",
    "C120_exchange",
    "C120_extent_one_refuted"
   ],
   "note": ""
  },
  {
   "property": "C121",
   "status": "proved",
   "theorems": [
    "C121_mean_square",
    "C121_built_in",
    "C121_extent_two_refuted"
   ],
   "note": "Exact arithmetic (numR) for the real vectors; jumps are machine integers."
  },
  {
   "property": "C122",
   "status": "proved",
   "theorems": [
    "C122_symmetric",
    "C122_walks",
    "C122_returns",
    "C122_odd_refuted",
    "C122_split"
   ],
   "note": "The formula is in exact arithmetic (numR); symmetry and composition hold for any number type."
  },
  {
   "property": "C123",
   "status": "proved",
   "theorems": [
    "C123_spread",
    "C123_even_refuted"
   ],
   "note": "The theorem is about the lattice over R; neighbour tables do not depend on the number type."
  },
  {
   "property": "C124",
   "status": "proved",
   "theorems": [
    "C124_walks",
    "C124_energy"
   ],
   "note": "Exact arithmetic (numR with sin and cos of the standard library)."
  },
  {
   "property": "C125",
   "status": "proved",
   "theorems": [
    "C125_bounds",
    "C125_antiferromagnet",
    "C125_frustration",
    "C125_stripes"
   ],
   "note": "Exact sums over the neighbour table."
  },
  {
   "property": "C126",
   "status": "proved",
   "theorems": [
    "C126_sublattice",
    "C126_partition"
   ],
   "note": "Exact sums over the neighbour table."
  },
  {
   "property": "C127",
   "status": "proved",
   "theorems": [
    "C127_ising",
    "C127_open"
   ],
   "note": "Exact sums over the neighbour table; exp, cosh and sinh of the standard library."
  },
  {
   "property": "C128",
   "status": "proved",
   "theorems": [
    "C128_decay"
   ],
   "note": "Stated for a <= b, the product is symmetric. Exact sums over the neighbour table; exp and tanh of the standard library."
  }
 ]
}
