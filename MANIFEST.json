{"claims":[
{"property": "C01", "status": "proved", "theorems": ["C01_components", "C01_value"], "note": ""},
{"property": "C02", "status": "proved", "theorems": ["C02_valueof", "C02_injective"], "note": ""},
{"property": "C03", "status": "proved", "theorems": ["C03_newfloat_sound", "C03_newconstant"], "note": ""},
{"property": "C04", "status": "proved", "theorems": ["C04_newfloat_complete", "C04_newfloat_rejects"], "note": ""},
{"property": "C05", "status": "proved", "theorems": ["C05_modes", "C05_small_abs"], "note": ""},
{"property": "C06", "status": "proved", "theorems": ["C06_digits", "C06_complete"], "note": ""},
{"property": "C07", "status": "proved", "theorems": ["C07_tight", "C07_loose", "C07_complete", "C07_determined", "C07_unbounded_refuted"], "note": ""},
{"property": "C08", "status": "proved", "theorems": ["C08_explicit_width", "C08_automatic_width", "C08_static"], "note": ""},
{"property": "C09", "status": "proved", "theorems": ["C09_abs_sound", "C09_abs_complete", "C09_is_positive", "C09_max", "C09_min", "C09_max_min_complete", "C09_zero_refuted"], "note": ""},
{"property": "C10", "status": "proved", "theorems": ["C10_mul_complete"], "note": ""},
{"property": "C11", "status": "proved", "theorems": ["C11_mul_sound", "C11_mul_overflow_forgery", "C11_overflow_no_datum", "C11_mul_only_ieee_refuted"], "note": "exact characterisation; the malformed output is accepted (overflow_forgery, refuted witness)"},
{"property": "C12", "status": "proved", "theorems": ["C12_div_complete"], "note": ""},
{"property": "C13", "status": "proved", "theorems": ["C13_div_sound", "C13_div_overflow_forgery", "C13_div_only_ieee_refuted"], "note": "exact characterisation; the malformed output is accepted (overflow_forgery, refuted witness)"},
{"property": "C14", "status": "proved", "theorems": ["C14_sqrt_complete"], "note": ""},
{"property": "C15", "status": "proved", "theorems": ["C15_sqrt_sound"], "note": ""},
{"property": "C16", "status": "proved", "theorems": ["C16_add_complete", "C16_sub_complete", "C16_sub_always_ieee_refuted"], "note": "the maximal-exponent cancellation class is part of the statement"},
{"property": "C17", "status": "proved", "theorems": ["C17_add_sound", "C17_sub_sound", "C17_add_overflow_forgery", "C17_add_cancel_forgery", "C17_add_only_ieee_refuted", "C17_sub_overflow_forgery", "C17_sub_cancel_forgery"], "note": "exact characterisation; every listed exception is accepted"},
{"property": "C18", "status": "proved", "theorems": ["C18_cmp_complete", "C18_cmp_sound"], "note": ""},
{"property": "C19", "status": "proved", "theorems": ["C19_trunc_complete", "C19_floor_complete", "C19_ceil_complete"], "note": ""},
{"property": "C20", "status": "proved", "theorems": ["C20_trunc_sound", "C20_floor_sound", "C20_ceil_sound", "C20_trunc_forgery", "C20_floor_forgery", "C20_ceil_forgery", "C20_trunc_only_ieee_refuted"], "note": ""},
{"property": "C21", "status": "proved", "theorems": ["C21_toint_complete", "C21_toint_sound", "C21_toint_sound_any"], "note": ""},
{"property": "C22", "status": "proved", "theorems": ["C22_mul32_auto_refuted", "C22_mul64_auto_refuted", "C22_div32_auto_refuted", "C22_div64_auto_refuted", "C22_floor64_auto_refuted", "C22_toint64_auto_refuted", "C22_toint_forgery", "C22_toint_refuted", "C22_mul_refuted", "C22_trunc_refuted"], "note": "false results accepted for every non-dividing width (ToInt) and, at the automatically chosen widths, by the repository's own Mul, Div, Floor and conversion circuits"},
{"property": "C23", "status": "proved", "theorems": ["C23_eq"], "note": ""},
{"property": "C24", "status": "proved", "theorems": ["C24_eq_or_ulp", "C24_largest_and_infinity", "C24_subnormals_not"], "note": ""},
{"property": "C25", "status": "proved", "theorems": ["C25_custom_complete", "C25_custom_sound"], "note": ""},
{"property": "C26", "status": "proved", "theorems": ["C26_neg", "C26_abs", "C26_select", "C26_select_boolean"], "note": ""},
{"property": "C27", "status": "proved", "theorems": ["C27_well_formed", "C27_well_formed_represents"], "note": ""},
{"property": "C28", "status": "proved", "theorems": ["C28_complete", "C28_sound", "C28_outcomes", "C28_forgeable", "C28_always_ieee_refuted"], "note": ""},
{"property": "C29", "status": "proved", "theorems": ["C29_eval_complete", "C29_eval_sound", "C29_eval_error", "C29_evalk_one", "C29_evalk_many", "C29_evalk_two_refuted"], "note": "the result of EvalK with k parts on the constant polynomial 1 at 1 is k, hence not polynomial evaluation for k > 1"},
{"property": "C30", "status": "proved", "theorems": ["C30_optimal_width"], "note": ""},
{"property": "C31", "status": "proved", "theorems": ["C31_counters", "C31_counters_auto"], "note": ""},
{"property": "C32", "status": "proved", "theorems": ["C32_estimate", "C32_cost", "C32_defined"], "note": ""},
{"property": "C33", "status": "proved", "theorems": ["C33_normalize_sound", "C33_normalize_complete", "C33_canonical"], "note": "H3's normalisation for every prover (magnitudes below 2^249 over BN254) and for the honest prover (below 2^31); its result is the unique canonical representative."},
{"property": "C34", "status": "proved", "theorems": ["C34_hex2d_complete", "C34_hex2d_exact", "C34_hex2d_sound", "C34_minus_zero_refuted", "C34_any_prover_refuted"], "note": "Honest result equals H3's region table for every finite input except x = -0 (refuted, with witness); exact set of outputs reachable by any prover; a forged output shows the rounding does not bind."},
{"property": "C35", "status": "proved", "theorems": ["C35_closest_complete", "C35_closest_sound", "C35_closest_unique"], "note": "Honest prover: all inputs and all face tables whose centres lie below the topmost binade. Any prover: as long as no distance overflows."},
{"property": "C36", "status": "proved", "theorems": ["C36_scale_exact", "C36_scale_sound", "C36_scale_complete", "C36_factor_32", "C36_factor_64"], "note": "Exact characterisation of the accepted results for every field element as resolution; the repository's factors are within 2^-19 (2^-48) of the powers of the square root of 7."},
{"property": "C37", "status": "proved", "theorems": ["C37_same_outputs_32", "C37_same_outputs_64", "C37_binding_refuted"], "note": "Any two positions that pass the bounds checks have the same accepted outputs, for both formats and every assignment of the hint wires; the refuted theorem exhibits one proof accepted for two positions far apart."},
{"property": "C38", "status": "proved", "theorems": ["C38_checks_32", "C38_checks_64", "C38_above_refused", "C38_negative_or_nan_pass"], "note": "Exact characterisation of what passes the bounds: latitude and longitude are not greater than the bounds (so every negative value and NaN passes), the resolution is at most 15."},
{"property": "C39", "status": "proved", "theorems": ["C39_mul", "C39_div", "C39_sqrt", "C39_add", "C39_sub", "C39_trunc", "C39_floor", "C39_ceil", "C39_comparisons", "C39_allocation", "C39_conversion", "C39_conversion_complete", "C39_widths", "C39_mul32_groth16", "C39_add32_groth16", "C39_unary32", "C39_conversion32", "C39_conversion64_groth16", "C39_comparisons_auto"], "note": "exact for every dividing width and for the automatic widths that divide; false results at the others are listed under C22"},
{"property": "C40", "status": "proved", "theorems": ["C40_plonk_file", "C40_plonk_memory", "C40_groth16_file", "C40_groth16_memory", "C40_bench_proof", "C40_groth16_refuted", "C40_witness_error_refuted"], "note": "Plonk helpers: success or a row implies the verifier accepted. Groth16 helpers and BenchProof: reported output independent of the verifier's answer; refutation with a verifier that always rejects."},
{"property": "C41", "status": "proved", "theorems": ["C41_sin64", "C41_sin64_near", "C41_sin32", "C41_sin32_near", "C41_beyond_pi_refuted"], "note": "accuracy on [-pi, Pi]; the refuted theorem shows the range is needed"},
{"property": "C42", "status": "proved", "theorems": ["C42_sign_free", "C42_sign_free_polynomial"], "note": ""},
{"property": "C43", "status": "proved", "theorems": ["C43_tangent", "C43_direction", "C43_locate_complete", "C43_locate_exact", "C43_locate_sound"], "note": "Real-number formulas (chord, tangent, azimuth) plus exact IEEE equality of the circuit with H3's projection, for the honest run and for every prover; the plane point must stay in the range where H3's hexagon rounding is proved (located)."},
{"property": "C44", "status": "proved", "theorems": ["C44_wrapper", "C44_binding", "C44_latitude_bounded_refuted"], "note": "Sines fixed and accurate for all provers; acceptance characterised exactly for honest and arbitrary provers through C43 (nearest face exists and the plane point stays in range: located). The longitude -pi/2 exactly is excluded (the sign of the zero cosine is free). Refutation: latitudes below -pi/2 are accepted."},
{"property": "C45", "status": "proved", "theorems": ["C45_atan64", "C45_atan32", "C45_atan2_64", "C45_infinity_refuted", "C45_atan2_axis_refuted", "C45_zero_refuted"], "note": "All finite arguments for both formats; Atan2 for x nonzero and no overflow of y/x. Refutations: infinite argument, the axis x = 0, and exactness at zero."},
{"property": "C46", "status": "proved", "theorems": ["C46_tables_32", "C46_tables_64", "C46_constants_32", "C46_constants_64"], "note": "Checked over the reals by exact dyadic arithmetic on the bit patterns of the tables; the patterns themselves (results of Go's math.Sin/Cos on the literals) are part of the trusted model."},
{"property": "C47", "status": "proved", "theorems": ["C47_add", "C47_sub", "C47_sqrt", "C47_sqrt_gadget", "C47_gadgets", "C47_auto32", "C47_auto64", "C47_sum_gadget_refuted", "C47_composition_refuted", "C47_sqrt_gadget_wide_refuted"], "note": "Circuit-level soundness for all widths; the gadget-level and composition-level failures are the _refuted theorems."},
{"property": "C48", "status": "proved", "theorems": ["C48_location_widths", "C48_math_widths", "C48_sine", "C48_arctangent", "C48_degree_ten", "C48_degree_ten_vector_refuted", "C48_same_outputs_32", "C48_same_outputs_64", "C48_wrapper_honest", "C48_wrapper_binding_refuted", "C48_polynomial_refuted"], "note": "Widths for all inputs; sine, arctangent, degree ten sound; honest runs of the hint-free location circuit; refutations: a wrong cell accepted by the hint-free location circuit, a wrong value by the cubic circuit, and the degree-ten test vector."},
{"property": "C49", "status": "proved", "theorems": ["C49_hex_to_float", "C49_range", "C49_roundtrip", "C49_file", "C49_float32_file", "C49_float32_file_refuted", "C49_slice", "C49_slice_error_refuted"], "note": "strconv.ParseUint and FormatUint, encoding/hex and strings.Fields are restated from Go's source. The statement that the single-precision file is readable is refuted."},
{"property": "C50", "status": "proved", "theorems": ["C50_leftmost", "C50_ijk", "C50_ijk_rejected", "C50_itoa", "C50_index", "C50_boundary", "C50_quadrants", "C50_boundary_refuted", "C50_fields", "C50_centre", "C50_centre_missing"], "note": "the matcher covers the pattern constructs used (literals, classes with +, groups). ParseFloat is a parameter; the output format of the tools is an assumption. That the boundary is read back is refuted for negative coordinates."},
{"property": "C51", "status": "proved", "theorems": ["C51_great_circle", "C51_metric", "C51_closest", "C51_vertices", "C51_boundary_refuted"], "note": "OldHaversine over the reals; the rounding errors of Go's math functions and the external haversine package called by main are not modelled (the loop is proved for any distance function). That the result is the distance to the boundary is refuted."},
{"property": "C52", "status": "proved", "theorems": ["C52_mul", "C52_div", "C52_widths", "C52_gadgets", "C52_dividing", "C52_wrong", "C52_auto32", "C52_auto64", "C52_auto_quotient", "C52_auto_product", "C52_product_refuted"], "note": "exact in both directions under a size condition on the width, met by all widths for binary32 and all but 15 and 17 for binary64. That products bind at the automatic widths is refuted."},
{"property": "C53", "status": "proved", "theorems": ["C53_field_prime", "C53_argument_sound", "C53_argument_complete", "C53_circuit_sound", "C53_circuit_complete"], "note": "gnark's argument is restated (it is a dependency); that the challenge is unpredictable is the proof system's business."},
{"property": "C54", "status": "proved", "theorems": ["C54_cell_is_nearest", "C54_h3_cell", "C54_circuit_complete", "C54_circuit_sound"], "note": "The plane coordinates are the data given to hex2dToCoordIJK; how they arise is C42-C45."},
{"property": "C55", "status": "proved", "theorems": ["C55_literals_32", "C55_literals_64", "C55_angles_32", "C55_angles_64", "C55_exact_32", "C55_exact_64", "C55_constants_32", "C55_constants_64", "C55_turn", "C55_nearest_64_refuted"], "note": "The literals themselves (face centres and azimuths of H3's icosahedron) are data; that the centres form an icosahedron is C46."},
{"property": "C56", "status": "proved", "theorems": ["C56_projection", "C56_projects_32", "C56_projects_64", "C56_every_position_refuted"], "note": "Forward error analysis with the exact literals of util.go as the definition of a face; positions within 20 dl of a face centre are excluded (and fail, see the refuted theorem)."},
{"property": "C57", "status": "proved", "theorems": ["C57_cell_32", "C57_cell_64", "C57_wrapper", "C57_own_cell_refuted"], "note": "Excludes positions within 20 dl of the centre of the nearest face; the cell is guaranteed only up to the stated widening."},
{"property": "C58", "status": "proved", "theorems": ["C58_hints_32", "C58_hints_64", "C58_honest_64_refuted"], "note": "The library's functions are any functions of the stated accuracy; that Go's math package is that accurate is an assumption. That accurate hints suffice in 64 bits is refuted."},
{"property": "C59", "status": "proved", "theorems": ["C59_ambiguous_32", "C59_ambiguous_64"], "note": "The position is the exact inverse of the projection at the centre of the cell; the sines and cosines fed to the circuit are any data within dl of it, and such data exist. From latitude and longitude as data the position need not be representable."},
{"property": "C60", "status": "proved", "theorems": ["C60_pins_32", "C60_pins_64", "C60_wrapper"], "note": "Positions within 20 dl of a face centre are excluded, as in C56; that the twenty places cannot be told apart is C59. In the circuit without hints the latitude and longitude are assumed in range (the circuit does not check lower bounds, C38, C44)."},
{"property": "C61", "status": "proved", "theorems": ["C61_csv", "C61_amortised"], "note": "The lookup columns (second and third number of every entry). The first number, gnark's count of native constraints, needs gnark's compiler and is not modelled."},
{"property": "C62", "status": "proved", "theorems": ["C62_float32", "C62_float64", "C62_math", "C62_location", "C62_chance", "C62_claims32", "C62_claims64", "C62_comparisons", "C62_functions"], "note": "The numbers are upper bounds. The challenge is an arbitrary field element here; how gnark derives it from commitments is not modelled (as in C53)."},
{"property": "C63", "status": "proved", "theorems": ["C63_atan64", "C63_atan32", "C63_sin64", "C63_interval", "C63_negative", "C63_vectors_refuted", "C63_bounds_refuted"], "note": "api.AssertIsLessOrEqual with a variable bound is taken as the comparison of canonical representatives. The sine is restricted to [-pi, pi], outside of which the gadget is no sine (C41)."},
{"property": "C64", "status": "proved", "theorems": ["C64_degrees", "C64_scaled", "C64_scaled_back", "C64_scaled_int", "C64_scaled_refuted", "C64_decimals", "C64_text", "C64_read", "C64_read_refuted", "C64_argument"], "note": "Go's Sprintf is restated from its documentation and source (exact decimal value, rounded half to even). That the tool reads its arguments with a correctly rounding strtod is a hypothesis of the reading theorem (rne)."}
]}
