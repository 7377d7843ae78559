{"claims": [
 {"property": "C01", "status": "proved", "theorems": ["planned_dct1_exact"], "note": "exact arithmetic (real numbers); rustfft assumed to return the DFT"},
 {"property": "C02", "status": "proved", "theorems": ["planned_dct2_exact"], "note": "exact arithmetic (real numbers); rustfft assumed to return the DFT"},
 {"property": "C03", "status": "proved", "theorems": ["planned_dct3_exact"], "note": "exact arithmetic (real numbers); rustfft assumed to return the DFT; n >= 1, see C42 for n = 0"},
 {"property": "C04", "status": "proved", "theorems": ["planned_dct4_exact"], "note": "exact arithmetic (real numbers); rustfft assumed to return the DFT"},
 {"property": "C05", "status": "proved", "theorems": ["planned_dct5_exact"], "note": "exact arithmetic (real numbers); rustfft assumed to return the DFT"},
 {"property": "C06", "status": "proved", "theorems": ["planned_dct6_exact"], "note": "exact arithmetic (real numbers); rustfft assumed to return the DFT"},
 {"property": "C07", "status": "proved", "theorems": ["planned_dct7_exact"], "note": "exact arithmetic (real numbers); rustfft assumed to return the DFT"},
 {"property": "C08", "status": "proved", "theorems": ["planned_dct8_exact"], "note": "exact arithmetic (real numbers); rustfft assumed to return the DFT"},
 {"property": "C09", "status": "proved", "theorems": ["planned_dst1_exact"], "note": "exact arithmetic (real numbers); rustfft assumed to return the DFT; with caller-supplied scratch the large sizes need zeroed scratch, see C24"},
 {"property": "C10", "status": "proved", "theorems": ["planned_dst2_exact"], "note": "exact arithmetic (real numbers); rustfft assumed to return the DFT"},
 {"property": "C11", "status": "proved", "theorems": ["planned_dst3_exact"], "note": "exact arithmetic (real numbers); rustfft assumed to return the DFT; n >= 1, see C42 for n = 0"},
 {"property": "C12", "status": "proved", "theorems": ["planned_dst4_exact"], "note": "exact arithmetic (real numbers); rustfft assumed to return the DFT"},
 {"property": "C13", "status": "proved", "theorems": ["planned_dst5_exact"], "note": "exact arithmetic (real numbers); rustfft assumed to return the DFT"},
 {"property": "C14", "status": "proved", "theorems": ["planned_dst6_exact"], "note": "exact arithmetic (real numbers); rustfft assumed to return the DFT; with caller-supplied scratch the large sizes need zeroed scratch, see C24"},
 {"property": "C15", "status": "proved", "theorems": ["planned_dst7_exact"], "note": "exact arithmetic (real numbers); rustfft assumed to return the DFT; with caller-supplied scratch the large sizes need zeroed scratch, see C24"},
 {"property": "C16", "status": "proved", "theorems": ["planned_dst8_exact"], "note": "exact arithmetic (real numbers); rustfft assumed to return the DFT"},
 {"property": "C17", "status": "proved", "theorems": ["planned_mdct_exact"], "note": "first request for the length; any other earlier calls"},
 {"property": "C18", "status": "proved", "theorems": ["planned_imdct_exact"], "note": "as C17"},
 {"property": "C19", "status": "proved", "theorems": ["overlap_add_reconstructs", "planned_overlap_add_reconstructs"], "note": "the overlap-add loop of a caller is Spec_Api.overlap_add"},
 {"property": "C20", "status": "proved", "theorems": ["window_mp3_princen_bradley", "window_vorbis_princen_bradley", "window_one_princen_bradley", "window_mp3_invertible_scale", "window_vorbis_invertible_scale", "window_invertible_scale", "window_lengths"], "note": ""},
 {"property": "C21", "status": "proved", "theorems": ["planned_invertible_windows"], "note": ""},
 {"property": "C22", "status": "proved", "theorems": ["planned_inverse_pairs"], "note": "with fresh scratch for all lengths; with one dirty scratch for both calls except DST1 from 25 and DST6/7 from 45 (see C24)"},
 {"property": "C23", "status": "proved", "theorems": ["built_instances_return_the_transform", "built_instances_return_the_transform_whatever_the_scratch", "built_instances_transform", "built_instances_agree", "built_mdcts_are_correct"], "note": "exact arithmetic; the instances are all compositions of the public constructors over exact FFTs. Which compositions return at all is C29."},
 {"property": "C24", "status": "partial", "theorems": ["planned_scratch_content_ignored", "planned_mdct_scratch_content_ignored", "planned_scratch_content_ignored_refuted"], "note": "the code violates the property: FFT based DST1 (from 25), DST6 and DST7 (from 45) read scratch cells they never write; proved for all other instances, refuted for every one of those"},
 {"property": "C25", "status": "proved", "theorems": ["planned_oversized_scratch", "planned_mdct_scratch_content_ignored"], "note": "any numeric type"},
 {"property": "C26", "status": "partial", "theorems": ["wrong_lengths_panic", "wrong_lengths_panic_cleanly", "planned_wrong_lengths_panic_cleanly", "split_dst2_wrong_lengths", "split_dst3_wrong_lengths", "planned_wrong_lengths_panic_cleanly_refuted"], "note": "the code violates the property: DST2 and DST3 of Type2And3SplitRadix edit the buffer before they validate it. Proved: every wrong length panics for every buildable instance; nothing is changed for all other methods; for split radix the exact error and buffer left behind; refuted for planned DST2/DST3 of every power of two from 32."},
 {"property": "C27", "status": "partial", "theorems": ["wrong_lengths_panic", "wrong_lengths_panic_cleanly", "planned_wrong_lengths_panic_cleanly", "split_dst2_wrong_lengths", "split_dst3_wrong_lengths", "planned_wrong_lengths_panic_cleanly_refuted"], "note": "the code violates the property in the same place as C26: split radix DST2/DST3 report too little scratch (the right error) after editing the buffer."},
 {"property": "C28", "status": "proved", "theorems": ["planned_scratch_len_suffices", "planned_mdct_scratch_content_ignored"], "note": "any numeric type; rustfft assumed not to panic on slices of its own lengths"},
 {"property": "C29", "status": "partial", "theorems": ["scratch_is_enough", "mdct_scratch_is_enough", "accepts_all_or_none", "split_radix_without_room_never_accepts", "split_radix_over_ffts_with_scratch_never_accepts", "scratch_is_enough_refuted"], "note": "the code violates the property: Type2And3SplitRadix hands its own buffer (len cells) to the inner transforms as scratch without checking that they ask for no more, so split radix over FFT conversions whose FFT asks for scratch panics on every call. Proved: every other composition of non-zero length works with get_scratch_len cells, for every numeric type."},
 {"property": "C30", "status": "proved", "theorems": ["calls_stay_inside", "calls_see_only_their_slices", "planned_instances_are_built", "planned_mdcts_are_built"], "note": "for every buildable instance, every FFT (correct or not), all slice lengths, positions and contents, also overlapping slices"},
 {"property": "C31", "status": "proved", "theorems": ["planned_instances_have_the_requested_length"], "note": "any numeric type"},
 {"property": "C32", "status": "proved", "theorems": ["planned_arcs_are_shared", "planned_again_returns_an_arc", "planning_again_changes_nothing"], "note": "any numeric type"},
 {"property": "C33", "status": "proved", "theorems": ["planned_instances_ignore_history", "planned_mdct_ignores_history_up_to_windows"], "note": "any numeric type; the instances are equal as values of the model"},
 {"property": "C34", "status": "partial", "theorems": ["planned_mdct_window", "planned_mdct_window_refuted"], "note": "the code violates the property: the MDCT cache ignores the window; proved which window is applied, refuted that it is always the one given"},
 {"property": "C35", "status": "proved", "theorems": ["planner_panics_exactly", "planner_recursion_terminates"], "note": "assumes rustfft plans a forward FFT of the length asked for"},
 {"property": "C36", "status": "proved", "theorems": ["panicking_plan_call_is_forgotten", "planned_again_returns_an_arc"], "note": ""},
 {"property": "C37", "status": "proved", "theorems": ["concurrent_calls_as_if_one_by_one", "concurrent_calls_end"], "note": "sequentially consistent interleavings of single-cell accesses; threads may share read-only MDCT inputs"},
 {"property": "C38", "status": "proved", "theorems": ["mdct_inputs_unchanged", "imdct_input_unchanged"], "note": "also when the call panics; slices of any length"},
 {"property": "C39", "status": "proved", "theorems": ["fft_constructors_accept", "split_radix_accepts", "mdct_constructors_accept", "naive_constructors_accept", "other_naive_lengths"], "note": "also the lengths the instances report, and the naive constructors; every numeric type"},
 {"property": "C40", "status": "proved", "theorems": ["planned_transforms_linear"], "note": "sixteen transforms"},
 {"property": "C41", "status": "proved", "theorems": ["planned_result_depends_on_buffer_only"], "note": ""},
 {"property": "C42", "status": "proved", "theorems": ["zero_length_calls_return", "zero_length_mdct_returns", "zero_length_dct3_dst3_panic", "dct1_over_empty_fft_never_accepts", "dct4_over_empty_dct3_never_accepts"], "note": "every numeric type and planning history; overflow checks on (the index panics instead without them)"},
 {"property": "C43", "status": "proved", "theorems": ["mdct_wrong_lengths_panic_cleanly"], "note": ""},
 {"property": "C44", "status": "proved", "theorems": ["naive_dct1_meets_definition", "naive_dst1_meets_definition", "naive_type2and3_meets_definition", "naive_type4_meets_definition", "naive_dct5_meets_definition", "naive_dst5_meets_definition", "naive_dct6and7_meets_definition", "naive_dst6and7_meets_definition", "naive_dct8_meets_definition", "naive_dst8_meets_definition", "naive_mdct_meets_definition"], "note": ""},
 {"property": "C45", "status": "proved", "theorems": ["planned_dst_from_dct"], "note": ""},
 {"property": "C46", "status": "proved", "theorems": ["power_of_two_cost"], "note": "counts reads and writes of single cells of the buffer and scratch by a planned instance, with constant 6; butterfly stack arrays are not counted"},
 {"property": "C47", "status": "proved", "theorems": ["planned_mdct_overlapping_inputs"], "note": ""},
 {"property": "C48", "status": "proved", "theorems": ["power_of_two_rounding", "power_of_two_rounding_closed", "power_of_two_rounding_wide_tables", "binary_arithmetic_rounds"], "note": "standard model of floating-point arithmetic without overflow and underflow; binary arithmetic with rounding to nearest and unbounded exponents is proved to be an instance"},
 {"property": "C49", "status": "proved", "theorems": ["planned_entry_rounding", "planned_entry_rounding_closed", "planned_entry_rounding_wide_tables", "naive_entry_rounding", "rounded_fft_accurate"], "note": "same model of arithmetic as C48; the accuracy of rustfft is an assumption on the oracle, met by an exact FFT with rounded results"},
 {"property": "C50", "status": "proved", "theorems": ["planned_mdct_rounding", "planned_mdct_rounding_closed", "planned_mdct_rounding_wide_tables", "planned_mdct_rounding_pow2", "planned_mdct_rounding_pow2_closed", "planned_mdct_rounding_pow2_wide_tables", "naive_mdct_rounding"], "note": "same model of arithmetic as C48 and C49; the window is taken as stored, its own accuracy is not part of the bound"},
 {"property": "C51", "status": "proved", "theorems": ["planned_same_in_both_builds", "planned_correct_in_both_builds", "planned_mdct_correct_in_both_builds"], "note": "about the second transliteration Model_Checked*.v; release-build requests for length 0 are left out"},
 {"property": "C52", "status": "proved", "theorems": ["mdct_naive_construction_in_both_builds", "mdct_naive_same_while_representable", "imdct_naive_same_in_both_builds", "mdct_naive_debug_panics_beyond", "mdct_naive_release_value", "mdct_naive_release_right", "mdct_naive_correct_at_every_size_refuted"], "note": "the claim is the exact characterisation; that MdctNaive is right at every size is refuted"},
 {"property": "C53", "status": "proved", "theorems": ["calls_are_oblivious", "planned_calls_are_oblivious", "planned_mdct_calls_are_oblivious", "calls_end_alike"], "note": "the FFT is one block read and one block write in the model: its own accesses are not part of the claim; stack arrays inside the butterflies are not part of the trace"},
 {"property": "C54", "status": "proved", "theorems": ["planning_creates_few", "planning_is_logarithmic", "planning_anew_creates_exactly", "no_instance_is_wasted"], "note": "counts Arc::new in src/plan.rs; instances of rustfft and the vectors inside an instance are not counted"},
 {"property": "C55", "status": "proved", "theorems": ["overlap_add_rounding", "crate_windows_accurate", "planned_overlap_add_rounding_pow2", "planned_overlap_add_rounding_pow2_closed", "planned_overlap_add_rounding_pow2_wide_tables", "planned_overlap_add_rounding", "naive_overlap_add_rounding"], "note": "in the rounding model of C48-C50, so without overflow and underflow; the driver loop over blocks is the one of C19, it is not code of the crate"},
 {"property": "C56", "status": "proved", "theorems": ["planned_methods_respect_relations", "planned_mdct_respects_relations", "naive_mdct_respects_relations", "windows_respect_relations", "planned_methods_commute", "planned_mdcts_commute", "ieee_scaling_is_exact", "ieee_arithmetic_rounds", "planned_methods_work_lane_by_lane"], "note": "scaling in floating point is proved with unbounded exponents"},
 {"property": "C57", "status": "proved", "theorems": ["planned_results_related_to_reference", "planned_mdct_results_related_to_reference", "interval_arithmetic_encloses", "planned_intervals_enclose"], "note": "for requests planned with an FFT, under the hypothesis that the FFT encloses the DFT"},
 {"property": "C58", "status": "proved", "theorems": ["power_of_two_depth"], "note": "for types 3 and 4 the upper and lower bounds differ by one multiplication; type 4 of length 2 and 4, which is computed by the naive algorithm, is left out"},
 {"property": "C59", "status": "proved", "theorems": ["power_of_two_no_overflow", "power_of_two_no_overflow_closed"], "note": "overflow of the f64 values the tables are computed from is not modelled, nor is underflow"},
 {"property": "C60", "status": "proved", "theorems": ["power_of_two_float", "power_of_two_float_closed", "power_of_two_float_wide", "gradual_underflow_rounds"], "note": "the f64 values the tables are computed from are rounded with unbounded exponents, and the cosine and sine of f64 are taken to be within v"},
 {"property": "C61", "status": "proved", "theorems": ["round_trips_restore", "round_trips_restore_closed", "round_trips_restore_wide_tables"], "note": "no overflow or underflow in this arithmetic, as in C48"},
 {"property": "C62", "status": "proved", "theorems": ["foreign_inner_is_sound", "foreign_inner_sees_only", "foreign_inner_concurrent"], "note": "foreign FFTs return anything but do not panic, as in C30; reported lengths are constants, which leaves out inner transforms of MdctViaDct4 (no unsafe code) whose len() changes between calls"},
 {"property": "C63", "status": "proved", "theorems": ["planned_transform_cost", "planned_mdct_cost"], "note": "the steps of the FFT library are not counted beyond its reads and writes of buffer and scratch; arithmetic and table lookups are not counted"},
 {"property": "C64", "status": "proved", "theorems": ["planned_adjoint", "planned_energy", "planned_mdct_adjoint", "planned_mdct_energy"], "note": ""},
 {"property": "C65", "status": "proved", "theorems": ["bad_spreads", "bad_everywhere", "bad_mdct", "binary_absorbs", "finite_output"], "note": ""},
 {"property": "C66", "status": "proved", "theorems": ["operations_rounded", "power_of_two_ieee", "power_of_two_binary32", "power_of_two_binary64", "accurate_exists"], "note": ""},
 {"property": "C67", "status": "proved", "theorems": ["direct_sums_ieee", "planned_sums_ieee", "planned_sums_binary32", "planned_sums_binary64"], "note": ""},
 {"property": "C68", "status": "proved", "theorems": ["planned_signs", "planned_signs_any_scratch", "planned_mdct_signs", "planned_silence", "planned_mdct_silence", "silence_binary32", "silence_binary64"], "note": ""},
 {"property": "C69", "status": "proved", "theorems": ["planned_mirror", "planned_flip", "planned_palindrome", "planned_constant", "constant_binary32", "constant_binary64", "palindrome_binary32", "palindrome_binary64"], "note": ""}
]}
