{
 "claims": [
  {
   "property": "C01",
   "status": "proved",
   "theorems": [
    "C01_interpolate_is_the_law",
    "C01_interpolate_endpoints",
    "C01_interpolate_between_and_monotone"
   ],
   "note": "exact real arithmetic; all five laws"
  },
  {
   "property": "C02",
   "status": "proved",
   "theorems": [
    "C02_invert_interpolate",
    "C02_interpolate_invert",
    "C02_histogram_invert"
   ],
   "note": "exact real arithmetic; the four invertible laws, distinct ordinates"
  },
  {
   "property": "C03",
   "status": "partial",
   "theorems": [
    "C03_segment_integral_partial",
    "C03_segment_integral_additive",
    "C03_constant_loglin_segment_refuted"
   ],
   "note": "exact for Histogram, LinLin, LinLog; LogLin when y1<>y2; LogLog outside the 1e-12 exponent window. The code violates the claim on a constant LogLin segment (NaN), see the refutation."
  },
  {
   "property": "C04",
   "status": "proved",
   "theorems": [
    "C04_value",
    "C04_grid_value",
    "C04_no_out_of_range"
   ],
   "note": "Value theorem over R for every accepted table with ENDF-valid breakpoints; evaluation memory safe on binary64 (non-NaN). C04_histogram_grid_point_refuted records that at an interior abscissa of a Histogram region the code returns the previous ordinate (so the grid-value statement excludes Histogram)."
  },
  {
   "property": "C05",
   "status": "partial",
   "theorems": [
    "C05_integral_partial",
    "C05_antisymmetric_additive_partial",
    "C05_jump_inside_region_refuted"
   ],
   "note": "Proved for all tables whose segments have exact data (distinct abscissae inside a region, not constant LogLin); the full claim is false of the code: C05_jump_inside_region_refuted (NaN for a repeated abscissa inside a region), C03_constant_loglin_segment_refuted."
  },
  {
   "property": "C06",
   "status": "partial",
   "theorems": [
    "C06_construction_safe_partial",
    "C06_breakpoint_beyond_data_refuted",
    "C06_no_breakpoints_refuted",
    "C06_accepted_tables"
   ],
   "note": "Full claim false of the code (breakpoints are not validated); proved for ENDF-valid breakpoints."
  },
  {
   "property": "C07",
   "status": "partial",
   "theorems": [
    "C07_without_copy_or_linearize_partial",
    "C07_copies_while_nothing_is_freed_partial",
    "C07_linearize_refuted",
    "C07_copy_refuted",
    "C07_evaluation_defined_iff_partial",
    "C07_views_partial",
    "C07_storage_is_not_shared_partial",
    "C07_linearize_undefined_iff"
   ],
   "note": "Full claim false of the code: every linearize() of a non-LinLin table dangles (C07_linearize_refuted, for all heaps); copies dangle after the source dies."
  },
  {
   "property": "C08",
   "status": "proved",
   "theorems": [
    "C08_linearize",
    "C08_linearized_table_is_the_chord",
    "C08_linearize_terminates",
    "C08_empty_grid_refuted",
    "C08_interval",
    "C08_rejects"
   ],
   "note": "Intervals whose ends are adjacent doubles (oracle adj) or whose midpoint value is 0 are exempt from the relative tolerance, as in the code. Empty input grid is UB (C08_empty_grid_refuted)."
  },
  {
   "property": "C09",
   "status": "proved",
   "theorems": [
    "C09_polynomial_value",
    "C09_polynomial_integral"
   ],
   "note": "Exact real arithmetic."
  },
  {
   "property": "C10",
   "status": "proved",
   "theorems": [
    "C10_sum",
    "C10_difference",
    "C10_null_terms_rejected",
    "C10_integral_of_any_expression"
   ],
   "note": "Exact real arithmetic; null terms are None."
  },
  {
   "property": "C100",
   "status": "partial",
   "theorems": [
    "C100_sampling_partial",
    "C100_sampling_binary64_partial",
    "C100_reaction_binary64_partial",
    "C100_file_reaction_partial",
    "C100_kalbach_law_of_file",
    "C100_tabular_law_of_file",
    "C100_density_of_file",
    "C100_elastic_partial",
    "C100_elastic_binary64_partial",
    "C100_kalbach_repeated_energy_refuted"
   ],
   "note": "Proved for the well-formed distributions of S_Sound in exact arithmetic and in binary64. Missing: the full claim fails for what the constructors also accept: a Kalbach table with a repeated energy at a CDF jump reads index -1 in binary64 (refuted here), a single incident energy (C20) and equiprobable bins at their end (C24)."
  },
  {
   "property": "C101",
   "status": "partial",
   "theorems": [
    "C101_cross_section_partial",
    "C101_cross_section_at_index_partial",
    "C101_packet_nonnegative",
    "C101_table",
    "C101_overshoot_refuted"
   ],
   "note": "Proved in binary64 for every finite grid and data: finite, non-negative, exact at grid points, accurate to 2^-49 relative, never past the nearer end in the wrong direction, past the other by 2^-51 relative at most. Missing: the exact claim \"never outside the two neighbouring values\" is false of the code (refuted by a computed witness); lin-lin tables of one region only, without the two-sided bound; the packet with a fixed index."
  },
  {
   "property": "C102",
   "status": "proved",
   "theorems": [
    "C102_file_loads",
    "C102_one_object"
   ],
   "note": "For every file laid out as S_File says. Files outside it (general evaporation, locator 0 of law 61, duplicate MTs, a fissile nuclide with no fission reaction) are covered by C36-C38, C72."
  },
  {
   "property": "C103",
   "status": "partial",
   "theorems": [
    "C103_loaded_nuclide_usable_partial"
   ],
   "note": "Proved for described files with sound distributions (S_Sound) from the first grid energy on, in exact arithmetic. Missing: below the first grid energy (negative cross sections, C36), laws 1 and 5 (C24, C72), termination of rejection loops (the model consumes a finite list of random numbers and may wait for more)."
  },
  {
   "property": "C104",
   "status": "partial",
   "theorems": [
    "C104_derived_answers_partial",
    "C104_derived_from_files_partial",
    "C104_list_refuted"
   ],
   "note": "Proved for every query but the list of MTs, which has one zero per reaction of the file too many (refuted)."
  },
  {
   "property": "C105",
   "status": "proved",
   "theorems": [
    "C105_binary_nuclide",
    "C105_binary_thermal",
    "C105_text_nuclide",
    "C105_text_then_binary"
   ],
   "note": "End-to-end composition of C52, C84 and C102; what happens to texts outside the layout is C84, to the temperature C52."
  },
  {
   "property": "C106",
   "status": "proved",
   "theorems": [
    "C106_law_loads",
    "C106_cross_section",
    "C106_inelastic_collision",
    "C106_elastic_collision"
   ],
   "note": "End-to-end composition of C99 with C45-C47, C70, C71 for well-formed files; what happens outside (one incident energy, inconsistent tables, energies at an edge) is in the refuted theorems there."
  },
  {
   "property": "C107",
   "status": "proved",
   "theorems": [
    "C107_coherent_elastic",
    "C107_incoherent_elastic",
    "C107_discrete",
    "C107_continuous"
   ],
   "note": "All four cosine samplers in binary64, from the constructors on."
  },
  {
   "property": "C108",
   "status": "partial",
   "theorems": [
    "C108_isotropic",
    "C108_angle_table",
    "C108_angle_bins",
    "C108_legendre",
    "C108_angle_distribution",
    "C108_uncorrelated",
    "C108_tabular_energy_angle",
    "C108_kalbach",
    "C108_nbody",
    "C108_mixture",
    "C108_reaction_law",
    "C108_elastic_law",
    "C108_elastic",
    "C108_cm_refuted",
    "C108_cm_nan_refuted"
   ],
   "note": "All angular and joint laws from any file in the laboratory frame, and elastic scattering. False for laws given in the centre of mass: C108_cm_refuted (a finite cosine above 1.5 after the conversion), C108_cm_nan_refuted."
  },
  {
   "property": "C109",
   "status": "proved",
   "theorems": [
    "C109_interpolation",
    "C109_equiprobable",
    "C109_equiprobable_file",
    "C109_general_evaporation"
   ],
   "note": "For all sorted finite non-negative tables, from constructor or file."
  },
  {
   "property": "C11",
   "status": "proved",
   "theorems": [
    "C11_inverse_cdf",
    "C11_monotone",
    "C11_valid_tables_accepted"
   ],
   "note": "exact (real arithmetic) inverse CDF; is_RInt of the table's own pdf up to the sampled value is xi"
  },
  {
   "property": "C110",
   "status": "proved",
   "theorems": [
    "C110_nbody_energy",
    "C110_nbody_nan_occurs"
   ],
   "note": "For every libm with the two sign properties; the random numbers are doubles in [0,1)."
  },
  {
   "property": "C111",
   "status": "partial",
   "theorems": [
    "C111_elastic",
    "C111_maxwellian",
    "C111_evaporation",
    "C111_watt",
    "C111_level_refuted"
   ],
   "note": "Elastic, Maxwellian, evaporation, Watt. False for level scattering below its threshold: C111_level_refuted."
  },
  {
   "property": "C12",
   "status": "partial",
   "theorems": [
    "C12_sample_safe_partial",
    "C12_sample_safe_binary64_partial",
    "C12_pdf_safe_binary64",
    "C12_first_cdf_refuted"
   ],
   "note": "false of the code: an accepted table with cdf[0] > 0 reads index -1 for xi < cdf[0] (refuted); safe exactly when xi >= cdf[0], in R and in binary64"
  },
  {
   "property": "C13",
   "status": "proved",
   "theorems": [
    "C13_density",
    "C13_segment"
   ],
   "note": "real arithmetic, tables whose CDF is the integral of the PDF"
  },
  {
   "property": "C14",
   "status": "partial",
   "theorems": [
    "C14_isotropic",
    "C14_bins",
    "C14_table",
    "C14_legendre",
    "C14_angle_distribution",
    "C14_binary64_partial",
    "C14_nan_refuted"
   ],
   "note": "proved in real arithmetic; in binary64 the result is in [-1,1] or NaN, and NaN is reachable (refuted)"
  },
  {
   "property": "C15",
   "status": "partial",
   "theorems": [
    "C15_memory_safe_partial",
    "C15_sampled_value_partial",
    "C15_pdf_partial",
    "C15_bin_refuted"
   ],
   "note": "false of the code: it uses floor(33 xi) and slope 32 (refuted); safety, exact sampled value and pdf proved"
  },
  {
   "property": "C16",
   "status": "proved",
   "theorems": [
    "C16_value",
    "C16_default",
    "C16_normalised",
    "C16_accepted"
   ],
   "note": ""
  },
  {
   "property": "C17",
   "status": "partial",
   "theorems": [
    "C17_refuted",
    "C17_effect_partial",
    "C17_moment_zero_partial",
    "C17_rejects_iff_partial",
    "C17_length_partial"
   ],
   "note": "false of the code: the rejected moment stays in the object"
  },
  {
   "property": "C18",
   "status": "partial",
   "theorems": [
    "C18_angle_below",
    "C18_angle_above",
    "C18_angle_between",
    "C18_angle_empty_refuted",
    "C18_bracket_unique",
    "C18_zero_draw_general",
    "C18_zero_draw_refuted",
    "C19_tabular_energy",
    "C19_tabular_energy_angle_partial",
    "C19_kalbach",
    "C18_default_is_isotropic"
   ],
   "note": "Table selection proved for AngleDistribution, TabularEnergy, TabularEnergyAngle and Kalbach. Refuted corner: at or below the first grid energy a first draw of exactly 0 uses the second table (test is rng() > f); an empty AngleDistribution is accepted and undefined."
  },
  {
   "property": "C19",
   "status": "partial",
   "theorems": [
    "C19_tabular_energy",
    "C19_tabular_energy_angle_partial",
    "C19_zero_draw_refuted",
    "C19_kalbach",
    "C19_tabular_energy_grid",
    "C19_tabular_energy_angle_grid",
    "C19_kalbach_grid"
   ],
   "note": "Full for TabularEnergy and Kalbach; TabularEnergyAngle for draws xi>0: for xi=0 the code reads out of range (C19_zero_draw_refuted). Reproduction of the first table needs a positive first draw (C18_zero_draw_refuted)."
  },
  {
   "property": "C20",
   "status": "partial",
   "theorems": [
    "C20_single_energy_refuted",
    "C20_two_energies_partial"
   ],
   "note": "False of the code: with one incident energy every sample/pdf call of TabularEnergy, TabularEnergyAngle and Kalbach reads out of range, in every arithmetic. Safe with two or more tables."
  },
  {
   "property": "C21",
   "status": "partial",
   "theorems": [
    "C21_sample_partial",
    "C21_pdf_partial",
    "C21_sample_zero_refuted",
    "C21_pdf_last_refuted",
    "C21_mismatched_sizes_refuted",
    "C21_angular_table_partial",
    "C21_accepted_partial"
   ],
   "note": "False of the code: draw 0, pdf at the last energy, mismatched sizes. Proved safe and inverse CDF elsewhere for valid tables."
  },
  {
   "property": "C22",
   "status": "partial",
   "theorems": [
    "C22_inverse_cdf",
    "C22_parameters",
    "C22_pdf_partial",
    "C22_pdf_last_refuted",
    "C22_histogram_point_refuted",
    "C22_empty_refuted",
    "C22_accepted"
   ],
   "note": "Sampling and parameters proved; the code violates the claim for the pdf at the last energy, for histogram parameters at interior grid energies, and for an empty table."
  },
  {
   "property": "C23",
   "status": "proved",
   "theorems": [
    "C23_density",
    "C23_mixture",
    "C23_sampling",
    "C23_cosine",
    "C23_table_density"
   ],
   "note": "Over the reals."
  },
  {
   "property": "C24",
   "status": "partial",
   "theorems": [
    "C24_energy_in_a_bin_partial",
    "C24_safe_below_partial",
    "C24_out_of_range_refuted",
    "C24_wrong_bin_refuted",
    "C24_pdf_normalised",
    "C24_between_energies",
    "C24_outside_energies",
    "C24_general_evaporation_partial",
    "C24_general_evaporation_refuted",
    "C24_general_evaporation_pdf",
    "C24_constructors_check"
   ],
   "note": "The code indexes with the number of bounds instead of the number of bins: out-of-range read for xi >= (n-1)/n and a wrong bin below (refuted theorems); proved: results lie in a bin, exact selection below (n-1)/n, density normalised; same for GeneralEvaporation."
  },
  {
   "property": "C25",
   "status": "partial",
   "theorems": [
    "C25_range_any_arithmetic_partial",
    "C25_range_partial",
    "C25_rejection_step",
    "C25_watt_step",
    "C25_pdf_zero_outside",
    "C25_pdf_nonnegative_partial",
    "C25_maxwellian_negative_refuted",
    "C25_below_threshold_refuted"
   ],
   "note": "Range for every random sequence, over the reals and binary64; one-step equations of the loops; pdf zero outside; nonnegative for Evaporation and Watt. Refuted: Maxwellian density negative for E-U = T/4; below U sampling never returns."
  },
  {
   "property": "C26",
   "status": "proved",
   "theorems": [
    "C26_evaporation_normalised",
    "C26_defined"
   ],
   "note": ""
  },
  {
   "property": "C27",
   "status": "partial",
   "theorems": [
    "C27_accessors_refuted",
    "C27_accessors_distinguishable_refuted",
    "C27_exchanged_partial"
   ],
   "note": "Refuted: the accessors are exchanged. Partial: exchanging them gives the sampling parameters."
  },
  {
   "property": "C28",
   "status": "partial",
   "theorems": [
    "C28_level",
    "C28_level_checks",
    "C28_discrete_photon",
    "C28_nbody_range_partial",
    "C28_nbody_checks",
    "C28_nbody_draws",
    "C28_nbody_zero_draw_refuted"
   ],
   "note": "Level, discrete photon and constructor checks in full; N-body range for draws in the open interval (0,1); refuted in binary64 for a zero draw (NaN energy)."
  },
  {
   "property": "C29",
   "status": "proved",
   "theorems": [
    "C29_selects_component",
    "C29_fallback_last",
    "C29_exactly_one",
    "C29_interval_length",
    "C29_pdf_is_mixture",
    "C29_pdf_absent",
    "C29_constructor_checks"
   ],
   "note": "Component laws are arbitrary functions of the interface."
  },
  {
   "property": "C30",
   "status": "partial",
   "theorems": [
    "C30_sampling_weights_partial",
    "C30_single_contribution_partial",
    "C30_mixture_refuted",
    "C30_constructor_checks"
   ],
   "note": "Sampling weights proved; the pdf returns only the first contributing term (refuted), right only when one reaction contributes."
  },
  {
   "property": "C31",
   "status": "proved",
   "theorems": [
    "C31_pdf_product",
    "C31_absent_iff",
    "C31_sampling_order",
    "C31_null_energy_law_throws",
    "C31_joint_normalised"
   ],
   "note": ""
  },
  {
   "property": "C32",
   "status": "partial",
   "theorems": [
    "C32_lookup_brackets_partial",
    "C32_index_unique",
    "C32_bad_grids_throw",
    "C32_top_bin_refuted",
    "C32_zero_grid_refuted"
   ],
   "note": "Proved in exact arithmetic for every grid, energy and bin count. In binary64 the code violates it: the top bin index can equal NBINS (out-of-range read), and a zero first energy is accepted."
  },
  {
   "property": "C33",
   "status": "proved",
   "theorems": [
    "C33_zero_below_threshold",
    "C33_last_value_above",
    "C33_tabulated_at_grid_energies",
    "C33_linear_between",
    "C33_nonnegative",
    "C33_inconsistent_data_throw"
   ],
   "note": "Exact arithmetic."
  },
  {
   "property": "C34",
   "status": "partial",
   "theorems": [
    "C34_evaluations_agree_partial",
    "C34_threshold_refuted",
    "C34_below_grid_refuted",
    "C34_single_value"
   ],
   "note": "Agreement proved except at a positive threshold index and below the grid, where the code disagrees (refuted)."
  },
  {
   "property": "C35",
   "status": "partial",
   "theorems": [
    "C35_vector_space_laws_partial",
    "C35_component_by_component_partial",
    "C35_unary_minus_partial",
    "C35_unary_minus_exact_domain",
    "C35_unary_minus_refuted"
   ],
   "note": "All laws hold except p+(-p)=0: unary minus stores -absorption into fission (xs_packet.hpp 132). The exact domain and a counterexample are proved."
  },
  {
   "property": "C36",
   "status": "partial",
   "theorems": [
    "C36_balance_partial",
    "C36_fission_capture_partial",
    "C36_below_grid_refuted"
   ],
   "note": "Balance, nonnegativity and values for every object (files and derived objects) from the first grid energy on, grids without repeated energies; below the first grid energy the code extrapolates and a negative total is exhibited."
  },
  {
   "property": "C37",
   "status": "partial",
   "theorems": [
    "C37_lookup_partial",
    "C37_list",
    "C37_derived_lookup_partial",
    "C37_lookup_safe",
    "C37_list_sorted",
    "C37_mt0_refuted",
    "C37_big_mt_refuted",
    "C37_missing_mt_refuted"
   ],
   "note": "Lookup proved for file objects (all MT) and derived objects (MT>0), lookups always in range. Refuted: derived objects list MT 0; MT>=892 in a file writes out of range; a derived object whose file has an extra MT reads out of range."
  },
  {
   "property": "C38",
   "status": "partial",
   "theorems": [
    "C38_inside_partial",
    "C38_outside",
    "C38_values",
    "C38_competition",
    "C38_tables",
    "C38_two_energies_refuted",
    "C38_in_range",
    "C38_smooth_cross_sections",
    "C38_smooth_cross_sections_derived"
   ],
   "note": "Full evaluation contract for tables with at least three energies; refuted for two energies (energy_in_range is true, evaluation returns nothing)."
  },
  {
   "property": "C39",
   "status": "partial",
   "theorems": [
    "C39_one_block",
    "C39_prompt_and_delayed",
    "C39_prompt_and_total",
    "C39_all_three",
    "C39_not_fissile",
    "C39_consistent_partial",
    "C39_three_blocks_refuted",
    "C39_delayed_first_refuted",
    "C39_delayed_only_refuted"
   ],
   "note": "Each combination of blocks decoded; total = prompt + delayed under the stated condition. Refuted: three inconsistent blocks, a delayed block at XSS(1), delayed block only."
  },
  {
   "property": "C40",
   "status": "proved",
   "theorems": [
    "C40_cm_to_lab_adds_cm_velocity",
    "C40_lab_to_cm_subtracts_cm_velocity",
    "C40_cm_lab_cm_round_trip",
    "C40_lab_cm_lab_round_trip"
   ],
   "note": "exact arithmetic"
  },
  {
   "property": "C41",
   "status": "proved",
   "theorems": [
    "C41_rotation"
   ],
   "note": "exact arithmetic; both branches"
  },
  {
   "property": "C42",
   "status": "partial",
   "theorems": [
    "C42_target_at_rest_partial",
    "C42_moving_target_conserves",
    "C42_backscatter_refuted"
   ],
   "note": "holds whenever the outgoing speed is nonzero; at exact backscatter off A=1 the code divides 0 by 0 and returns a NaN cosine (refuted)"
  },
  {
   "property": "C43",
   "status": "partial",
   "theorems": [
    "C43_constructor_validates",
    "C43_setter_histories_partial",
    "C43_throwing_setter_unchanged_partial",
    "C43_set_temperature_refuted",
    "C43_set_tar_threshold_refuted",
    "C43_setters_take_effect",
    "C43_constructor_stores",
    "C43_setters_report_iff"
   ],
   "note": "set_temperature does not validate; set_tar_threshold stores before throwing"
  },
  {
   "property": "C44",
   "status": "partial",
   "theorems": [
    "C44_majorant_bounds_partial",
    "C44_threshold_oob_refuted",
    "C44_below_grid_refuted"
   ],
   "note": "Proved for cross sections on the whole grid and intervals starting inside the grid; refuted otherwise."
  },
  {
   "property": "C45",
   "status": "partial",
   "theorems": [
    "C45_accepted_edges",
    "C45_xs_partial",
    "C45_no_edges",
    "C45_at_most_one_last_edge",
    "C45_at_first_edge_refuted",
    "C45_at_last_edge",
    "C45_sample_partial",
    "C45_sample_below"
   ],
   "note": "Cross section and sampling proved for every accepted file (sampling for increasing non-negative structure factor sums, which the constructor does not check). Refuted exactly at the first Bragg edge, where xs is the total sum over E instead of zero."
  },
  {
   "property": "C46",
   "status": "proved",
   "theorems": [
    "C46_accepted_tables",
    "C46_equiprobable",
    "C46_skewed",
    "C46_probabilities"
   ],
   "note": ""
  },
  {
   "property": "C47",
   "status": "partial",
   "theorems": [
    "C47_accepted_tables",
    "C47_safe_partial",
    "C47_unit_based_partial",
    "C47_nearest_partial",
    "C47_inconsistent_cdf_refuted",
    "C47_one_outgoing_energy_refuted",
    "C47_zero_density_refuted",
    "C47_negative_energy_refuted"
   ],
   "note": "Safety and range of cosines for accepted files with at least two incident energies and two outgoing energies per table; limits of the outgoing energy when each CDF is the integral of its PDF. Refuted otherwise: inconsistent CDF, one outgoing energy, zero density (NaN), negative energies in the nearest-energy mode."
  },
  {
   "property": "C48",
   "status": "proved",
   "theorems": [
    "C48_element_accepted",
    "C48_symbol_standard",
    "C48_distinct",
    "C48_lookup",
    "C48_lookup_total",
    "C48_lookup_own"
   ],
   "note": "accepted range, standard symbols, distinctness, exact set of accepted strings (with the std::regex fragment modelled)."
  },
  {
   "property": "C49",
   "status": "proved",
   "theorems": [
    "C49_isotope_accepted",
    "C49_isotope_zaid_accepted",
    "C49_zaid_roundtrip",
    "C49_string",
    "C49_string_total",
    "C49_symbol_roundtrip",
    "C49_order"
   ],
   "note": "accepted exactly; accepted strings characterised; symbol and ZAID round trips; lexicographic order."
  },
  {
   "property": "C50",
   "status": "partial",
   "theorems": [
    "C50_nuclide_accepted",
    "C50_symbol_roundtrip",
    "C50_string",
    "C50_string_total",
    "C50_zaid_roundtrip_partial",
    "C50_zaid_value",
    "C50_zaid_roundtrip_refuted",
    "C50_zaid_rejected_refuted",
    "C50_zaid_total",
    "C50_zaid_valid_partial",
    "C50_zaid_level_refuted",
    "C50_zaid_wrap_refuted",
    "C50_heaviest_isotopes"
   ],
   "note": "symbol round trip proved for all nuclides; the ZAID round trip is characterised exactly and fails e.g. for U143m2 (read as U243m1); ZAIDs such as (1,1001) and (92,301) are read as nuclides with levels the constructor refuses."
  },
  {
   "property": "C51",
   "status": "proved",
   "theorems": [
    "C51_zaid_order",
    "C51_element_order",
    "C51_isotope_order",
    "C51_nuclide_order",
    "C51_lexicographic",
    "C51_hash",
    "C51_isotope_hash_injective",
    "C51_nuclide_hash_is_zaid_hash",
    "C51_isotope_hash_is_zaid_hash"
   ],
   "note": "strict total orders on all values; hash is a function of the value (std::hash is a parameter)."
  },
  {
   "property": "C52",
   "status": "partial",
   "theorems": [
    "C52_save_then_load_partial",
    "C52_save_then_load_exact_partial",
    "C52_save_then_load_zero_kelvin_partial",
    "C52_factor",
    "C52_power_of_two_temperature_refuted",
    "C52_saved_layout"
   ],
   "note": "Everything but the temperature comes back bit by bit for every well-formed object and every XSS length; a temperature that came out of a file comes back exactly (Flocq proof over binary64) unless it is a power of two kelvin: at 256 K saving and loading loses one ulp (refuted)."
  },
  {
   "property": "C53",
   "status": "partial",
   "theorems": [
    "C53_save_changes_nothing_but_temperature_partial",
    "C53_save_changes_temperature_refuted",
    "C53_second_save_differs_refuted"
   ],
   "note": "Only the temperature changes (partial); it does change: save_binary divides temperature_ in place, so temperature() is in MeV afterwards and a second save writes different bytes (refuted)."
  },
  {
   "property": "C54",
   "status": "partial",
   "theorems": [
    "C54_reading_terminates",
    "C54_fitting_records_are_safe_partial",
    "C54_truncated_saved_file_is_safe_partial",
    "C54_overlong_record_refuted",
    "C54_truncation_unnoticed_refuted",
    "C54_empty_file_accepted_refuted"
   ],
   "note": "Termination for all byte sequences is proved, and safety of any file (cut anywhere) whose records fit the declared NXS(1). Violated: a record longer than the declared table is written past its end; truncated and empty files are accepted silently (refuted)."
  },
  {
   "property": "C55",
   "status": "partial",
   "theorems": [
    "C55_nearest_available",
    "C55_nearest_partial",
    "C55_nearest_refuted",
    "C55_load_neutron_partial",
    "C55_load_tsl_partial",
    "C55_load_nearest_partial",
    "C55_load_nearest_refuted"
   ],
   "note": "nearest_temperature is right for strictly increasing temperatures and wrong with repeated ones (refuted end to end); load_* take the first temperature within the tolerance, not the nearest (refuted), which is the nearest when temperatures are further apart than twice the tolerance; exceptions exactly when none is within it."
  },
  {
   "property": "C56",
   "status": "proved",
   "theorems": [
    "C56_same_object",
    "C56_cached",
    "C56_step",
    "C56_shared"
   ],
   "note": "all request sequences and all patterns of failing reads; identity of objects by allocation number."
  },
  {
   "property": "C57",
   "status": "proved",
   "theorems": [
    "C57_state_of_any_history",
    "C57_advance_equals_draws",
    "C57_values_in_unit_interval",
    "C57_period",
    "C57_full_range"
   ],
   "note": "Integers modulo 2^63."
  },
  {
   "property": "C58",
   "status": "partial",
   "theorems": [
    "C58_angles_solve_up_to_sign_partial",
    "C58_unreachable_angles",
    "C58_wrong_root_refuted",
    "C58_not_a_cosine_refuted",
    "C58_maximum_angle",
    "C58_speed_ratio"
   ],
   "note": "The code returns the solutions for mu and for -mu together (its || range checks are vacuous), and a value outside [-1,1] at mu=0."
  },
  {
   "property": "C59",
   "status": "partial",
   "theorems": [
    "C59_jacobian_is_determinant",
    "C59_angle_jacobian_partial",
    "C59_forward_density_refuted",
    "C59_angle_pdf_value_partial",
    "C59_even_refuted",
    "C59_negative_weight_refuted",
    "C59_energy_jacobian",
    "C59_file_reactions"
   ],
   "note": "Energy-angle density: complete. Angular density: exact value characterised (both CM cosines mapping to mu or to -mu, signed derivative); refuted: the value is even in mu whatever is wrapped, weights are negative past the turning point when the CM outruns the particle, NaN at lab cosine 1."
  },
  {
   "property": "C60",
   "status": "proved",
   "theorems": [
    "C60_svt_target_velocity"
   ],
   "note": "exact arithmetic; draws in (0,1)"
  },
  {
   "property": "C61",
   "status": "partial",
   "theorems": [
    "C61_integral_partial",
    "C61_same_width_partial",
    "C61_grid_energy_partial",
    "C61_refuted"
   ],
   "note": "False of the code between grid energies when the two tables have different widths; exact integral proved."
  },
  {
   "property": "C62",
   "status": "partial",
   "theorems": [
    "C62_watt_normalised_partial",
    "C62_maxwellian_integral_partial",
    "C62_maxwellian_at_temperature_partial",
    "C62_maxwellian_refuted",
    "C62_densities_defined"
   ],
   "note": "Watt normalised; the Maxwellian density integrates to the ratio of the right to the coded normalisation (refuted; exact at E-U = T)."
  },
  {
   "property": "C63",
   "status": "partial",
   "theorems": [
    "C63_nbody_normalised_partial",
    "C63_beyond_maximum_refuted",
    "C63_angular_marginal_partial"
   ],
   "note": "Normalised and nonnegative on [0,Emax), angular density = energy marginal; refuted beyond Emax for n = 4."
  },
  {
   "property": "C64",
   "status": "partial",
   "theorems": [
    "C64_mt18",
    "C64_sum_at_grid_points",
    "C64_sum_between_partial",
    "C64_between_refuted",
    "C64_all_chances_needed"
   ],
   "note": "MT 18, sum at every grid point, sum between grid points unless a chance opens with a jump (refuted there); files with only some of the chances are rejected."
  },
  {
   "property": "C65",
   "status": "proved",
   "theorems": [
    "C65_polynomial",
    "C65_tabulated",
    "C65_multiplicity",
    "C65_probability_table",
    "C65_negative_column_throws",
    "C65_block_pointers",
    "C65_entries",
    "C65_probability_tables",
    "C65_integers_truncate",
    "C65_signed_truncate",
    "C65_table_codes"
   ],
   "note": "Polynomial, tabulated, multiplicity and probability-table blocks at any position."
  },
  {
   "property": "C66",
   "status": "partial",
   "theorems": [
    "C66_standard_names_partial",
    "C66_standard_names_refuted",
    "C66_standard_names_exact_refuted"
   ],
   "note": "116 of 118 names; \"Fluorine\" and \"Molybdenum\" are rejected because the table spells them Flourine and Molbdenum."
  },
  {
   "property": "C67",
   "status": "partial",
   "theorems": [
    "C67_listed_symbol_partial",
    "C67_symbol_meaning",
    "C67_listed_symbol_refuted",
    "C67_tsl_name_partial",
    "C67_tsl_name_refuted",
    "C67_listing_order",
    "C67_tsl_characters"
   ],
   "note": "ZAIDs with A up to 300 and 400..600, names of up to six characters; refuted otherwise (H1m7, graphite)."
  },
  {
   "property": "C68",
   "status": "partial",
   "theorems": [
    "C68_neutron_partial",
    "C68_tsl_partial",
    "C68_extension",
    "C68_sorted_fresh",
    "C68_newline_refuted"
   ],
   "note": "exact for files without trailing white space; with a final newline the last table is registered twice (refuted)."
  },
  {
   "property": "C69",
   "status": "proved",
   "theorems": [
    "C69_mcnp"
   ],
   "note": "directory part given as logical lines; file reading, AWR section and continuation lines not modelled."
  },
  {
   "property": "C70",
   "status": "partial",
   "theorems": [
    "C70_sample_partial",
    "C70_xs",
    "C70_absent",
    "C70_one_incident_energy_refuted"
   ],
   "note": "Refuted for a single incident energy: sampling reads past the table."
  },
  {
   "property": "C71",
   "status": "partial",
   "theorems": [
    "C71_parts",
    "C71_total_xs",
    "C71_dispatch",
    "C71_no_elastic_block_refuted"
   ],
   "note": "Refuted when NXS(5)=4 but JXS(4)=0: construction reads XSS out of range."
  },
  {
   "property": "C72",
   "status": "partial",
   "theorems": [
    "C72_laws_partial",
    "C72_energy_laws_partial",
    "C72_density",
    "C72_kalbach_table",
    "C72_general_evaporation_refuted",
    "C72_general_evaporation_always",
    "C72_unsorted_refuted",
    "C72_isotropic_refuted",
    "C72_interface"
   ],
   "note": "all laws but number 5 (GeneralEvaporation reads its bounds one entry early), law 4 with unsorted energies (accepted) and law 61 locator 0 (isotropic, misread): these are refuted"
  },
  {
   "property": "C73",
   "status": "proved",
   "theorems": [
    "C73_read",
    "C73_isotropic",
    "C73_negative",
    "C73_elastic"
   ],
   "note": ""
  },
  {
   "property": "C74",
   "status": "proved",
   "theorems": [
    "C74_entry",
    "C74_entry_derived",
    "C74_numbers",
    "C74_cross_section",
    "C74_yield_constant",
    "C74_yield_table",
    "C74_distribution",
    "C74_absorption",
    "C74_below_threshold",
    "C74_above_threshold",
    "C74_accepted",
    "C74_derived_reaction"
   ],
   "note": "exact arithmetic; cross section values compared on the grid (interpolation between them is C10-C12)"
  },
  {
   "property": "C75",
   "status": "partial",
   "theorems": [
    "C75_unknown_law",
    "C75_no_angles",
    "C75_terminates_partial",
    "C75_turns",
    "C75_cycle_refuted"
   ],
   "note": "rejection proved; termination refuted by a file whose law chain is cyclic, and proved to be the only way: more turns than XSS entries means never"
  },
  {
   "property": "C76",
   "status": "partial",
   "theorems": [
    "C76_lab",
    "C76_cm_partial",
    "C76_below_level_refuted"
   ],
   "note": "lab-frame reactions proved; centre-of-mass reactions need a non-negative centre-of-mass energy and a positive lab energy: without it the cosine is NaN in binary64 (C76_below_level_refuted, a file whose cross section starts below its level's threshold)"
  },
  {
   "property": "C77",
   "status": "partial",
   "theorems": [
    "C77_families_partial",
    "C77_unknown_law",
    "C77_general_evaporation_refuted",
    "C77_fission"
   ],
   "note": "families read as laid out for every law but law 5, which is misread for every file (C77_general_evaporation_refuted)"
  },
  {
   "property": "C78",
   "status": "proved",
   "theorems": [
    "C78_svt_is_the_rejection_scheme",
    "C78_svt_returns_or_asks_for_more",
    "C78_acceptance_is_a_probability",
    "C78_geometry"
   ],
   "note": "exact arithmetic, draws strictly inside (0,1)"
  },
  {
   "property": "C79",
   "status": "proved",
   "theorems": [
    "C79_dbrc_is_the_rejection_scheme",
    "C79_zero_window",
    "C79_window"
   ],
   "note": "Windows below the first grid energy and threshold cross sections are outside the claim; they are refuted under C44. Over the reals."
  },
  {
   "property": "C80",
   "status": "partial",
   "theorems": [
    "C80_each_trial_may_end_the_loop_partial",
    "C80_trials_partial",
    "C80_zero_kelvin_never_returns_refuted"
   ],
   "note": "proved above 0 K; refuted at 0 K without the target-at-rest approximation (accepted by the constructor)"
  },
  {
   "property": "C81",
   "status": "proved",
   "theorems": [
    "C81_read_from_the_file",
    "C81_derived",
    "C81_columns_accepted"
   ],
   "note": "tightened after mutant N25 (elastic read from the wrong column) broke no positive theorem"
  },
  {
   "property": "C82",
   "status": "partial",
   "theorems": [
    "C82_table_partial",
    "C82_sample_partial",
    "C82_total_partial",
    "C82_odd_expansion_refuted"
   ],
   "note": "proved: valid table on [-1,1], proportional to the expansion at its points, tolerance at midpoints, inverse-CDF sampling, totality; refuted: an odd expansion (1/2+7/32 P3) is tabulated as a straight line, off by 50 % at mu=1/2"
  },
  {
   "property": "C83",
   "status": "partial",
   "theorems": [
    "C83_table_value_partial",
    "C83_kalbach_value_partial",
    "C83_table_energy_marginal_partial",
    "C83_kalbach_energy_marginal_partial",
    "C83_table_cosine_marginal_partial",
    "C83_kalbach_cosine_marginal_partial",
    "C83_last_energy_refuted",
    "C83_energy_angle_mixture",
    "C83_kalbach_mixture"
   ],
   "note": "values and both marginals proved everywhere except at the last tabulated energy of a linear table, where the code reads out of range (refuted)"
  },
  {
   "property": "C84",
   "status": "partial",
   "theorems": [
    "C84_reads_what_is_written_partial",
    "C84_accepted_well_formed",
    "C84_to_binary",
    "C84_short_rejected_partial",
    "C84_one_missing_accepted_refuted",
    "C84_bad_word_accepted_refuted",
    "C84_missing_E_accepted_refuted",
    "C84_no_numbers_accepted_refuted",
    "C84_short_header_refuted",
    "C84_formats_disagree_refuted"
   ],
   "note": "Well-formed files of all three header kinds are read exactly; accepted files are well formed. Refuted: one missing number, malformed words, missing E, bodies without numbers are accepted; short 2.0 header is UB; temperature conversion differs from the binary format's."
  },
  {
   "property": "C85",
   "status": "partial",
   "theorems": [
    "C85_start_is_first_table_energy",
    "C85_has_urr",
    "C85_without_tables_partial",
    "C85_without_tables_refuted",
    "C85_vector_grid_refuted",
    "C85_two_energies_refuted",
    "C85_grid_made"
   ],
   "note": "Proved for grids read from files with tables; refuted for vector-built grids (uninitialised), for files without tables when the grid goes beyond 50000 MeV, and for two-energy tables (never usable)."
  },
  {
   "property": "C86",
   "status": "partial",
   "theorems": [
    "C86_entries_partial",
    "C86_rows",
    "C86_tables_partial",
    "C86_awr_partial",
    "C86_missing_awr",
    "C86_missing_directory",
    "C86_any_text",
    "C86_serpent",
    "C86_exponent_refuted",
    "C86_directory_in_path_refuted",
    "C86_carriage_return_refuted",
    "C86_datapath_refuted",
    "C86_mcnp_extension",
    "C86_serpent_extension"
   ],
   "note": "Proved for files in the grammar of S_Xsdir (ratios without exponent, newline line ends, data path without colon); refuted outside it by concrete valid files. Safety (returns or throws) is for every text, leaving out the stack depth of std::regex."
  },
  {
   "property": "C87",
   "status": "partial",
   "theorems": [
    "C87_law_unique_partial",
    "C87_evaporation_partial",
    "C87_watt_partial",
    "C87_maxwellian_partial",
    "C87_maxwellian_pdf_refuted",
    "C87_density_unique_partial"
   ],
   "note": "Evaporation and Watt: pdf is the density of the sampled energies. Maxwellian: the samples follow the true truncated Maxwellian; pdf (wrong normalisation) is refuted. Over the reals; random numbers in the open interval (0,1). "
  },
  {
   "property": "C88",
   "status": "partial",
   "theorems": [
    "C88_isotropic_partial",
    "C88_angle_table_partial",
    "C88_angle_table_accepted_partial",
    "C88_legendre_partial",
    "C88_legendre_six_partial",
    "C88_angle_distribution_partial",
    "C88_kalbach_cosine_partial",
    "C88_tabular_energy_partial",
    "C88_tabular_energy_pdf_partial",
    "C88_tabular_energy_pdf_refuted",
    "C88_equiprobable_angle_bins_refuted"
   ],
   "note": "Positive for Isotropic, AngleTable, Legendre (any series whose constructor bound holds; at most six moments unconditionally), AngleDistribution, Kalbach cosines, TabularEnergy (the stretched mixture; pdf itself only at grid points or for equally wide tables). Refuted: TabularEnergy::pdf in general, EquiprobableAngleBins. Over the reals."
  },
  {
   "property": "C89",
   "status": "proved",
   "theorems": [
    "C89_free_gas_velocity",
    "C89_weights"
   ],
   "note": "Over the reals: joint law of speed, cosine and azimuth. kT and Ein positive (at 0 K see C80)."
  },
  {
   "property": "C90",
   "status": "proved",
   "theorems": [
    "C90_resonance_velocity",
    "C90_weight_unique"
   ],
   "note": "Over the reals. The claim is about windows that start on the grid and contain a positive cross section; C79_zero_window shows the sampler never returns otherwise, C44 what happens below the grid."
  },
  {
   "property": "C91",
   "status": "proved",
   "theorems": [
    "C91_reaction",
    "C91_neutron",
    "C91_target",
    "C91_elastic",
    "C91_thermal",
    "C91_angular",
    "C91_energies",
    "C91_composite",
    "C91_more_numbers"
   ],
   "note": "For any arithmetic. The order of the rng() calls within one expression is fixed left to right in the model (unspecified in C++)."
  },
  {
   "property": "C92",
   "status": "proved",
   "theorems": [
    "C92_uncorrelated",
    "C92_uncorrelated_pdf",
    "C92_mixture",
    "C92_mixture_pdf",
    "C92_fission_spectrum",
    "C92_centre_of_mass",
    "C92_reaction_of_file"
   ],
   "note": "Over the reals, for random numbers in (0,1). Parts must be replayable, which C91 proves for every sampler of the library. The pdf of SummedFissionSpectrum is not this mixture: see C30."
  },
  {
   "property": "C93",
   "status": "proved",
   "theorems": [
    "C93_energy_density",
    "C93_isotropic_energy",
    "C93_cosine_law",
    "C93_isotropic_cosine",
    "C93_hydrogen_cosine"
   ],
   "note": "Over the reals, target at rest. Exact backscattering off hydrogen divides 0 by 0 (C42), hence the hypothesis that the cosine is never -1 in C93_hydrogen_cosine."
  },
  {
   "property": "C94",
   "status": "proved",
   "theorems": [
    "C94_pdf_is_the_density",
    "C94_pdf_is_the_spectrum",
    "C94_energy_spectrum"
   ],
   "note": "Over the reals with exact ln, cos, sqrt, pow. Energies above Emax: see C28 (the reported density is not zero there for 4 bodies)."
  },
  {
   "property": "C95",
   "status": "proved",
   "theorems": [
    "C95_coherent",
    "C95_discrete",
    "C95_discrete_total",
    "C95_incoherent",
    "C95_unit_based",
    "C95_nearest"
   ],
   "note": "Over the reals. For continuous tables only the marginal law of the energy is stated (the cosine's conditional distribution: C47). Nearest-table theorem for E > e/2, where the shift is increasing."
  },
  {
   "property": "C96",
   "status": "partial",
   "theorems": [
    "C96_kalbach_partial",
    "C96_energy_angle_partial",
    "C96_kalbach_pdf_partial",
    "C96_energy_angle_pdf_partial",
    "C96_kalbach_linear_refuted",
    "C96_kalbach_stretch_refuted",
    "C96_energy_angle_flat_refuted"
   ],
   "note": "The joint laws of both samplers are proved for every valid distribution and incident energy; pdf equals the joint density for histogram tables of equal range. In general it does not: linear Kalbach tables interpolate densities where the sampler interpolates the parameters (C96_kalbach_linear_refuted), the unit-base factor is missing (C96_kalbach_stretch_refuted), and a linear energy-angle table with constant density never uses the upper point's cosines (C96_energy_angle_flat_refuted)."
  },
  {
   "property": "C97",
   "status": "proved",
   "theorems": [
    "C97_pick",
    "C97_product_below",
    "C97_angle_bins",
    "C97_coherent_elastic",
    "C97_incoherent_elastic",
    "C97_discrete",
    "C97_continuous",
    "C97_discrete_entry"
   ],
   "note": "Binary64, every libm. The skewed choice may, by rounding, pick the energy after the middle group (C97_skewed_spill): in range, but not the cell of the draw. Files with one incident or outgoing energy are refuted in C20, C47 and C70."
  },
  {
   "property": "C98",
   "status": "proved",
   "theorems": [
    "C98_density_moments",
    "C98_set_moment",
    "C98_bounded",
    "C98_sampled_moments",
    "C98_sampled_moments_six",
    "C98_kalbach_mean",
    "C98_mean_of_density",
    "C98_mean_unique"
   ],
   "note": "Over the reals. The sampled moments are proved for densities whose scanned maximum is a bound (the rejection sampler needs one), which holds for every density with at most six moments; C98_mean_of_density is the general tool."
  },
  {
   "property": "C99",
   "status": "proved",
   "theorems": [
    "C99_coherent",
    "C99_incoherent_elastic",
    "C99_discrete",
    "C99_continuous",
    "C99_inelastic",
    "C99_law",
    "C99_negative_densities"
   ],
   "note": "Complete for files laid out as the format says (exact arithmetic on the numbers of the file, which are only copied, compared and clamped)."
  }
 ]
}