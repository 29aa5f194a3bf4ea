{
 "claims": [
  {
   "property": "C01",
   "status": "proved",
   "theorems": [
    "C01_constructor",
    "C01_negative_type"
   ],
   "note": ""
  },
  {
   "property": "C02",
   "status": "proved",
   "theorems": [
    "C02_max_steps",
    "C02_constructor",
    "C02_padded",
    "C02_rounded_is_good",
    "C02_huge_side_refuted",
    "C02_exact_arithmetic"
   ],
   "note": "double computation with any accurate log2, sides below 2^45; false for huge sides; the code does not have this in full: C02_huge_side_refuted exhibits the counterexample the statement mentions"
  },
  {
   "property": "C03",
   "status": "proved",
   "theorems": [
    "C03_padded"
   ],
   "note": ""
  },
  {
   "property": "C04",
   "status": "proved",
   "theorems": [
    "C04_layout"
   ],
   "note": ""
  },
  {
   "property": "C05",
   "status": "proved",
   "theorems": [
    "C05_decompose_compose_safe"
   ],
   "note": ""
  },
  {
   "property": "C06",
   "status": "proved",
   "theorems": [
    "C06_extend_replicates",
    "C06_extend_zero",
    "C06_too_small"
   ],
   "note": ""
  },
  {
   "property": "C07",
   "status": "proved",
   "theorems": [
    "C07_crop_extend",
    "C07_crop_extend_zero"
   ],
   "note": ""
  },
  {
   "property": "C08",
   "status": "proved",
   "theorems": [
    "C08_perfect_reconstruction"
   ],
   "note": ""
  },
  {
   "property": "C09",
   "status": "proved",
   "theorems": [
    "C09_reconstruction_error",
    "C09_bound",
    "C09_padded_norm"
   ],
   "note": ""
  },
  {
   "property": "C10",
   "status": "proved",
   "theorems": [
    "C10_pass_through",
    "C10_none_has_no_steps"
   ],
   "note": ""
  },
  {
   "property": "C11",
   "status": "proved",
   "theorems": [
    "C11_linear"
   ],
   "note": ""
  },
  {
   "property": "C12",
   "status": "proved",
   "theorems": [
    "C12_energy"
   ],
   "note": ""
  },
  {
   "property": "C13",
   "status": "proved",
   "theorems": [
    "C13_size",
    "C13_block_means",
    "C13_constant"
   ],
   "note": ""
  },
  {
   "property": "C14",
   "status": "proved",
   "theorems": [
    "C14_channels_independent"
   ],
   "note": ""
  },
  {
   "property": "C15",
   "status": "proved",
   "theorems": [
    "C15_refused_unchanged"
   ],
   "note": ""
  },
  {
   "property": "C16",
   "status": "proved",
   "theorems": [
    "C16_view_frame",
    "C16_view_writes"
   ],
   "note": ""
  },
  {
   "property": "C17",
   "status": "proved",
   "theorems": [
    "C17_view_compose",
    "C17_view_compose_own"
   ],
   "note": ""
  },
  {
   "property": "C18",
   "status": "proved",
   "theorems": [
    "C18_cast",
    "C18_cast_compose"
   ],
   "note": ""
  },
  {
   "property": "C19",
   "status": "proved",
   "theorems": [
    "C19_out_of_range",
    "C19_cast_unchecked",
    "C19_negative_start"
   ],
   "note": ""
  },
  {
   "property": "C20",
   "status": "proved",
   "theorems": [
    "C20_history"
   ],
   "note": "copy and assignment are value copies of the modelled state"
  },
  {
   "property": "C21",
   "status": "proved",
   "theorems": [
    "C21_round_trip",
    "C21_reachable_storable"
   ],
   "note": ""
  },
  {
   "property": "C22",
   "status": "proved",
   "theorems": [
    "C22_injective"
   ],
   "note": ""
  },
  {
   "property": "C23",
   "status": "proved",
   "theorems": [
    "C23_lossless"
   ],
   "note": ""
  },
  {
   "property": "C24",
   "status": "proved",
   "theorems": [
    "C24_lossy"
   ],
   "note": ""
  },
  {
   "property": "C25",
   "status": "proved",
   "theorems": [
    "C25_when",
    "C25_always_succeeds_refuted"
   ],
   "note": "the code does not have this in full: C25_always_succeeds_refuted exhibits the counterexample the statement mentions"
  },
  {
   "property": "C26",
   "status": "proved",
   "theorems": [
    "C26_other_versions",
    "C26_version_written",
    "C26_version_2",
    "C26_no_version"
   ],
   "note": ""
  },
  {
   "property": "C27",
   "status": "proved",
   "theorems": [
    "C27_truncated"
   ],
   "note": ""
  },
  {
   "property": "C28",
   "status": "proved",
   "theorems": [
    "C28_threshold_1d",
    "C28_threshold_2d",
    "C28_threshold_real",
    "C28_in_decompose",
    "C28_usable_with_decompose"
   ],
   "note": ""
  },
  {
   "property": "C29",
   "status": "proved",
   "theorems": [
    "C29_keeps_largest_1d",
    "C29_keeps_largest_2d",
    "C29_real",
    "C29_level_0",
    "C29_usable_with_decompose"
   ],
   "note": ""
  },
  {
   "property": "C30",
   "status": "proved",
   "theorems": [
    "C30_level_1_zeroes_refuted"
   ],
   "note": "the code does not have this in full: C30_level_1_zeroes_refuted exhibits the counterexample the statement mentions"
  },
  {
   "property": "C31",
   "status": "proved",
   "theorems": [
    "C31_denoiser"
   ],
   "note": ""
  },
  {
   "property": "C32",
   "status": "proved",
   "theorems": [
    "C32_value",
    "C32_metric",
    "C32_different_steps",
    "C32_other_shapes",
    "C32_mean_squared_db1",
    "C32_large_shape_refuted"
   ],
   "note": "the code does not have this in full: C32_large_shape_refuted exhibits the counterexample the statement mentions"
  },
  {
   "property": "C33",
   "status": "proved",
   "theorems": [
    "C33_energies",
    "C33_add_up_db1"
   ],
   "note": ""
  },
  {
   "property": "C34",
   "status": "proved",
   "theorems": [
    "C34_sound_db1",
    "C34_value",
    "C34_zero_steps",
    "C34_db2_refuted"
   ],
   "note": "the code does not have this in full: C34_db2_refuted exhibits the counterexample the statement mentions"
  },
  {
   "property": "C35",
   "status": "proved",
   "theorems": [
    "C35_is_empty"
   ],
   "note": ""
  },
  {
   "property": "C36",
   "status": "proved",
   "theorems": [
    "C36_order"
   ],
   "note": ""
  },
  {
   "property": "C37",
   "status": "proved",
   "theorems": [
    "C37_transparent",
    "C37_out_of_memory",
    "C37_memory_agrees"
   ],
   "note": ""
  },
  {
   "property": "C38",
   "status": "proved",
   "theorems": [
    "C38_writes_listed",
    "C38_reads_listed",
    "C38_concurrent",
    "C38_termination",
    "C38_matrices"
   ],
   "note": ""
  },
  {
   "property": "C39",
   "status": "proved",
   "theorems": [
    "C39_csr",
    "C39_beyond_32_bits"
   ],
   "note": ""
  },
  {
   "property": "C40",
   "status": "proved",
   "theorems": [
    "C40_incremental",
    "C40_incremental_2d"
   ],
   "note": ""
  },
  {
   "property": "C41",
   "status": "proved",
   "theorems": [
    "C41_dwt",
    "C41_idwt",
    "C41_idwt_size_2_refuted"
   ],
   "note": "the code does not have this in full: C41_idwt_size_2_refuted exhibits the counterexample the statement mentions"
  },
  {
   "property": "C42",
   "status": "proved",
   "theorems": [
    "C42_rows"
   ],
   "note": ""
  },
  {
   "property": "C43",
   "status": "proved",
   "theorems": [
    "C43_round_trip",
    "C43_exact"
   ],
   "note": ""
  },
  {
   "property": "C44",
   "status": "proved",
   "theorems": [
    "C44_pixel_round_trip",
    "C44_clamped",
    "C44_special",
    "C44_monotone",
    "C44_quantised",
    "C44_decoded"
   ],
   "note": ""
  },
  {
   "property": "C45",
   "status": "proved",
   "theorems": [
    "C45_rgb_encode",
    "C45_gray_encode",
    "C45_hsl_encode",
    "C45_conversion",
    "C45_decode_refused",
    "C45_decode",
    "C45_hsl_decode",
    "C45_hsl_decode_refused",
    "C45_gray_picture_as_colour",
    "C45_decoded_or_refused_refuted"
   ],
   "note": "the code does not have this in full: C45_decoded_or_refused_refuted exhibits the counterexample the statement mentions"
  },
  {
   "property": "C46",
   "status": "proved",
   "theorems": [
    "C46_import_status",
    "C46_import_ok",
    "C46_import_refused",
    "C46_import_file_status",
    "C46_export_status",
    "C46_export_out_of_range",
    "C46_start_out_of_range_refuted"
   ],
   "note": "the code does not have this in full: C46_start_out_of_range_refuted exhibits the counterexample the statement mentions"
  },
  {
   "property": "C47",
   "status": "proved",
   "theorems": [
    "C47_save_load",
    "C47_save",
    "C47_load_missing"
   ],
   "note": ""
  },
  {
   "property": "C48",
   "status": "proved",
   "theorems": [
    "C48_io_error",
    "C48_torn_write",
    "C48_refused_export",
    "C48_export_file",
    "C48_failed_write_reported_refuted",
    "C48_old_file_kept_refuted"
   ],
   "note": "the code does not have this in full: C48_failed_write_reported_refuted, C48_old_file_kept_refuted exhibits the counterexample the statement mentions"
  },
  {
   "property": "C49",
   "status": "proved",
   "theorems": [
    "C49_round_trip",
    "C49_more_possibilities_refuted"
   ],
   "note": "the code does not have this in full: C49_more_possibilities_refuted exhibits the counterexample the statement mentions"
  },
  {
   "property": "C50",
   "status": "proved",
   "theorems": [
    "C50_round_trip",
    "C50_size",
    "C50_always_fits_refuted"
   ],
   "note": "the code does not have this in full: C50_always_fits_refuted exhibits the counterexample the statement mentions"
  },
  {
   "property": "C51",
   "status": "proved",
   "theorems": [
    "C51_search",
    "C51_unique",
    "C51_log2",
    "C51_tables",
    "C51_more_pools_refuted"
   ],
   "note": "the code does not have this in full: C51_more_pools_refuted exhibits the counterexample the statement mentions"
  },
  {
   "property": "C52",
   "status": "proved",
   "theorems": [
    "C52_exponent",
    "C52_sequence"
   ],
   "note": ""
  },
  {
   "property": "C53",
   "status": "proved",
   "theorems": [
    "C53_verdict",
    "C53_refuses",
    "C53_extra_ignored",
    "C53_missing_undefined",
    "C53_every_channel_checked_refuted"
   ],
   "note": "the code does not have this in full: C53_every_channel_checked_refuted exhibits the counterexample the statement mentions"
  },
  {
   "property": "C54",
   "status": "proved",
   "theorems": [
    "C54_beyond_steps",
    "C54_amplitude",
    "C54_refused_or_right_refuted"
   ],
   "note": "the code does not have this in full: C54_refused_or_right_refuted exhibits the counterexample the statement mentions"
  },
  {
   "property": "C55",
   "status": "proved",
   "theorems": [
    "C55_equal_iff",
    "C55_reflexive",
    "C55_symmetric",
    "C55_not_equal",
    "C55_parsed_equal"
   ],
   "note": ""
  },
  {
   "property": "C56",
   "status": "proved",
   "theorems": [
    "C56_constant"
   ],
   "note": ""
  },
  {
   "property": "C57",
   "status": "proved",
   "theorems": [
    "C57_any_rounding",
    "C57_binary32",
    "C57_bound",
    "C57_samples",
    "C57_overflow_refuted",
    "C57_literals"
   ],
   "note": "the code does not have this in full: C57_overflow_refuted exhibits the counterexample the statement mentions"
  },
  {
   "property": "C58",
   "status": "proved",
   "theorems": [
    "C58_layout_composable",
    "C58_parsed_is_composable_refuted"
   ],
   "note": "the code does not have this in full: C58_parsed_is_composable_refuted exhibits the counterexample the statement mentions"
  },
  {
   "property": "C59",
   "status": "proved",
   "theorems": [
    "C59_parse_consistent",
    "C59_version_2_consistent_refuted",
    "C59_parse_safe_refuted"
   ],
   "note": "the code does not have this in full: C59_version_2_consistent_refuted, C59_parse_safe_refuted exhibits the counterexample the statement mentions"
  },
  {
   "property": "C60",
   "status": "proved",
   "theorems": [
    "C60_compressed_size",
    "C60_large_wrong"
   ],
   "note": ""
  },
  {
   "property": "C61",
   "status": "proved",
   "theorems": [
    "C61_rgb_round_trip",
    "C61_gray_round_trip",
    "C61_float_round_trip"
   ],
   "note": ""
  },
  {
   "property": "C62",
   "status": "proved",
   "theorems": [
    "C62_import_export",
    "C62_same_picture",
    "C62_float_same_picture"
   ],
   "note": ""
  },
  {
   "property": "C63",
   "status": "proved",
   "theorems": [
    "C63_hsl_round_trip",
    "C63_hue_exact_refuted"
   ],
   "note": "the code does not have this in full: C63_hue_exact_refuted exhibits the counterexample the statement mentions"
  },
  {
   "property": "C64",
   "status": "proved",
   "theorems": [
    "C64_refused",
    "C64_infinite",
    "C64_accepted",
    "C64_accepted_is_defined_refuted"
   ],
   "note": "the code does not have this in full: C64_accepted_is_defined_refuted exhibits the counterexample the statement mentions"
  },
  {
   "property": "C65",
   "status": "proved",
   "theorems": [
    "C65_round_trip"
   ],
   "note": ""
  },
  {
   "property": "C66",
   "status": "proved",
   "theorems": [
    "C66_relative_error",
    "C66_full_precision",
    "C66_stays_normal",
    "C66_subnormal_refuted"
   ],
   "note": "the code does not have this in full: C66_subnormal_refuted exhibits the counterexample the statement mentions"
  },
  {
   "property": "C67",
   "status": "partial",
   "theorems": [
    "C67_round_trip_partial",
    "C67_wide_partial",
    "C67_unreadable_refuted",
    "C67_overrun_refuted"
   ],
   "note": "proved for every matrix whose two code-length tables are complete; completeness itself is proved up to 2^15 elements (C65) and, for any size, when (longest run of zeros + 1) * elements <= 2^30 and values * (largest jump of the exponent + 2)^2 <= 2^28 (C67_wide_partial); it is false for some other large matrices; the code does not have this in full: C67_unreadable_refuted, C67_overrun_refuted exhibits the counterexample the statement mentions"
  },
  {
   "property": "C68",
   "status": "proved",
   "theorems": [
    "C68_refused",
    "C68_no_values_refuted",
    "C68_zero_value_refuted"
   ],
   "note": "the code does not have this in full: C68_no_values_refuted, C68_zero_value_refuted exhibits the counterexample the statement mentions"
  },
  {
   "property": "C69",
   "status": "proved",
   "theorems": [
    "C69_reuse_refuted"
   ],
   "note": "the code does not have this in full: C69_reuse_refuted exhibits the counterexample the statement mentions"
  },
  {
   "property": "C70",
   "status": "proved",
   "theorems": [
    "C70_round_trip",
    "C70_truncated",
    "C70_values_fit",
    "C70_other_version",
    "C70_stream_fits_refuted"
   ],
   "note": "the code does not have this in full: C70_stream_fits_refuted exhibits the counterexample the statement mentions"
  },
  {
   "property": "C71",
   "status": "proved",
   "theorems": [
    "C71_round_trip_equal",
    "C71_other_layout",
    "C71_subnormal_refuted",
    "C71_nan_refuted",
    "C71_not_equal_refuted"
   ],
   "note": "the code does not have this in full: C71_subnormal_refuted, C71_nan_refuted, C71_not_equal_refuted exhibits the counterexample the statement mentions"
  },
  {
   "property": "C72",
   "status": "proved",
   "theorems": [
    "C72_cycle",
    "C72_pass_through",
    "C72_wrong_shape",
    "C72_wrong_shape_1d"
   ],
   "note": ""
  },
  {
   "property": "C73",
   "status": "proved",
   "theorems": [
    "C73_memory_order",
    "C73_strides_refuted",
    "C73_dtype_refuted",
    "C73_read_only"
   ],
   "note": "the code does not have this in full: C73_strides_refuted, C73_dtype_refuted exhibits the counterexample the statement mentions"
  },
  {
   "property": "C74",
   "status": "proved",
   "theorems": [
    "C74_cycle"
   ],
   "note": ""
  },
  {
   "property": "C75",
   "status": "proved",
   "theorems": [
    "C75_no_channels_refuted"
   ],
   "note": "the code does not have this in full: C75_no_channels_refuted exhibits the counterexample the statement mentions"
  },
  {
   "property": "C76",
   "status": "proved",
   "theorems": [
    "C76_slice",
    "C76_other_steps",
    "C76_empty_refuted",
    "C76_empty_view",
    "C76_view_decompose",
    "C76_view_wrong_shape",
    "C76_view_compose",
    "C76_view_not_2d"
   ],
   "note": "the code does not have this in full: C76_empty_refuted exhibits the counterexample the statement mentions"
  },
  {
   "property": "C77",
   "status": "proved",
   "theorems": [
    "C77_subbands",
    "C77_one_dimension_refuted",
    "C77_strides_refuted",
    "C77_read_only"
   ],
   "note": "the code does not have this in full: C77_one_dimension_refuted, C77_strides_refuted exhibits the counterexample the statement mentions"
  },
  {
   "property": "C78",
   "status": "proved",
   "theorems": [
    "C78_two_dimensions_refuted",
    "C78_encode"
   ],
   "note": "the code does not have this in full: C78_two_dimensions_refuted exhibits the counterexample the statement mentions"
  },
  {
   "property": "C79",
   "status": "proved",
   "theorems": [
    "C79_filtering",
    "C79_constant",
    "C79_inverse_refuted",
    "C79_refused",
    "C79_int_limit"
   ],
   "note": "the code does not have this in full: C79_inverse_refuted exhibits the counterexample the statement mentions"
  },
  {
   "property": "C80",
   "status": "proved",
   "theorems": [
    "C80_energies",
    "C80_energies_1d",
    "C80_1d_channels_refuted",
    "C80_no_elements_refuted",
    "C80_empty_refuted"
   ],
   "note": "the code does not have this in full: C80_1d_channels_refuted, C80_no_elements_refuted, C80_empty_refuted exhibits the counterexample the statement mentions"
  },
  {
   "property": "C81",
   "status": "proved",
   "theorems": [
    "C81_decode",
    "C81_refused",
    "C81_rgb_round_trip",
    "C81_gray_round_trip"
   ],
   "note": ""
  },
  {
   "property": "C82",
   "status": "proved",
   "theorems": [
    "C82_import_string",
    "C82_import_file",
    "C82_import_ok",
    "C82_export_string",
    "C82_unopened",
    "C82_raised_keeps_file_refuted",
    "C82_save_load"
   ],
   "note": "the code does not have this in full: C82_raised_keeps_file_refuted exhibits the counterexample the statement mentions"
  },
  {
   "property": "C83",
   "status": "proved",
   "theorems": [
    "C83_unit_db1",
    "C83_same",
    "C83_docstring_refuted"
   ],
   "note": "the code does not have this in full: C83_docstring_refuted exhibits the counterexample the statement mentions"
  },
  {
   "property": "C84",
   "status": "proved",
   "theorems": [
    "C84_round_trip",
    "C84_sharp",
    "C84_grey",
    "C84_saturation_refuted",
    "C84_literals"
   ],
   "note": "the code does not have this in full: C84_saturation_refuted exhibits the counterexample the statement mentions"
  },
  {
   "property": "C85",
   "status": "proved",
   "theorems": [
    "C85_levels",
    "C85_hsl_codec",
    "C85_same_picture_refuted",
    "C85_grey",
    "C85_passes",
    "C85_settles_refuted"
   ],
   "note": "the code does not have this in full: C85_same_picture_refuted, C85_settles_refuted exhibits the counterexample the statement mentions"
  },
  {
   "property": "C86",
   "status": "proved",
   "theorems": [
    "C86_any_rounding",
    "C86_denoiser",
    "C86_threshold",
    "C86_constants",
    "C86_binary32",
    "C86_binary32_denoiser",
    "C86_binary32_library",
    "C86_binary32_threshold"
   ],
   "note": ""
  },
  {
   "property": "C87",
   "status": "proved",
   "theorems": [
    "C87_any_rounding",
    "C87_exact",
    "C87_padded_refuted",
    "C87_binary32"
   ],
   "note": "the code does not have this in full: C87_padded_refuted exhibits the counterexample the statement mentions"
  },
  {
   "property": "C88",
   "status": "proved",
   "theorems": [
    "C88_decompose",
    "C88_isometry"
   ],
   "note": ""
  },
  {
   "property": "C89",
   "status": "proved",
   "theorems": [
    "C89_decompose_any_rounding",
    "C89_compose_any_rounding",
    "C89_decompose_binary32",
    "C89_compose_binary32",
    "C89_bound"
   ],
   "note": ""
  },
  {
   "property": "C90",
   "status": "proved",
   "theorems": [
    "C90_any_rounding",
    "C90_binary32"
   ],
   "note": ""
  },
  {
   "property": "C91",
   "status": "proved",
   "theorems": [
    "C91_threshold",
    "C91_threshold_not_finite",
    "C91_threshold_value",
    "C91_simple_1d",
    "C91_simple_2d",
    "C91_level_0",
    "C91_cap",
    "C91_negative_level_refuted"
   ],
   "note": "the code does not have this in full: C91_negative_level_refuted exhibits the counterexample the statement mentions"
  },
  {
   "property": "C92",
   "status": "proved",
   "theorems": [
    "C92_local"
   ],
   "note": ""
  },
  {
   "property": "C93",
   "status": "proved",
   "theorems": [
    "C93_any_rounding",
    "C93_binary32",
    "C93_binary32_db1",
    "C93_window"
   ],
   "note": ""
  },
  {
   "property": "C94",
   "status": "proved",
   "theorems": [
    "C94_any_rounding",
    "C94_binary32",
    "C94_threshold",
    "C94_threshold_binary32"
   ],
   "note": ""
  },
  {
   "property": "C95",
   "status": "proved",
   "theorems": [
    "C95_levels",
    "C95_picture",
    "C95_steps",
    "C95_same_level_refuted"
   ],
   "note": "the code does not have this in full: C95_same_level_refuted exhibits the counterexample the statement mentions"
  },
  {
   "property": "C96",
   "status": "proved",
   "theorems": [
    "C96_pattern",
    "C96_stored",
    "C96_denoised",
    "C96_bound",
    "C96_truncation",
    "C96_uncompressed",
    "C96_storable",
    "C96_count"
   ],
   "note": ""
  },
  {
   "property": "C97",
   "status": "proved",
   "theorems": [
    "C97_any_rounding",
    "C97_exact",
    "C97_binary32",
    "C97_attained"
   ],
   "note": ""
  },
  {
   "property": "C98",
   "status": "proved",
   "theorems": [
    "C98_samples",
    "C98_picture"
   ],
   "note": ""
  },
  {
   "property": "C99",
   "status": "proved",
   "theorems": [
    "C99_coarse_accepted",
    "C99_any_rounding",
    "C99_exact",
    "C99_binary32",
    "C99_division",
    "C99_binary32_means"
   ],
   "note": ""
  },
  {
   "property": "C100",
   "status": "proved",
   "theorems": [
    "C100_any_bytes",
    "C100_bad_parameters",
    "C100_too_many_sides",
    "C100_size",
    "C100_damaged_tag",
    "C100_damaged_count",
    "C100_damaged_value",
    "C100_compressed_tags",
    "C100_version_2_tag"
   ],
   "note": ""
  },
  {
   "property": "C101",
   "status": "proved",
   "theorems": [
    "C101_parameters",
    "C101_buffers",
    "C101_fields",
    "C101_same_fields",
    "C101_other_types",
    "C101_all_types_refuted"
   ],
   "note": "the code does not have this in full: C101_all_types_refuted exhibits the counterexample the statement mentions"
  },
  {
   "property": "C102",
   "status": "proved",
   "theorems": [
    "C102_parameters",
    "C102_buffers",
    "C102_fields",
    "C102_own_stream_refuted",
    "C102_cout"
   ],
   "note": "the code does not have this in full: C102_own_stream_refuted exhibits the counterexample the statement mentions"
  },
  {
   "property": "C103",
   "status": "proved",
   "theorems": [
    "C103_energies"
   ],
   "note": ""
  },
  {
   "property": "C104",
   "status": "proved",
   "theorems": [
    "C104_accuracy",
    "C104_symmetric",
    "C104_itself",
    "C104_zero_only_if_equal_refuted",
    "C104_different_steps"
   ],
   "note": "the code does not have this in full: C104_zero_only_if_equal_refuted exhibits the counterexample the statement mentions"
  },
  {
   "property": "C105",
   "status": "proved",
   "theorems": [
    "C105_samples",
    "C105_readme"
   ],
   "note": ""
  },
  {
   "property": "C106",
   "status": "proved",
   "theorems": [
    "C106_buffer",
    "C106_constructor"
   ],
   "note": ""
  },
  {
   "property": "C107",
   "status": "proved",
   "theorems": [
    "C107_moved",
    "C107_picture",
    "C107_steps",
    "C107_preview_refuted"
   ],
   "note": "the code does not have this in full: C107_preview_refuted exhibits the counterexample the statement mentions"
  },
  {
   "property": "C108",
   "status": "proved",
   "theorems": [
    "C108_channels",
    "C108_store",
    "C108_exchange",
    "C108_outside",
    "C108_const_refuted"
   ],
   "note": "the code does not have this in full: C108_const_refuted exhibits the counterexample the statement mentions"
  },
  {
   "property": "C109",
   "status": "proved",
   "theorems": [
    "C109_filters",
    "C109_accuracy"
   ],
   "note": ""
  },
  {
   "property": "C110",
   "status": "proved",
   "theorems": [
    "C110_details",
    "C110_binary32",
    "C110_leftover"
   ],
   "note": ""
  },
  {
   "property": "C111",
   "status": "proved",
   "theorems": [
    "C111_any_rounding",
    "C111_binary32"
   ],
   "note": ""
  },
  {
   "property": "C112",
   "status": "proved",
   "theorems": [
    "C112_signal",
    "C112_picture",
    "C112_no_step",
    "C112_signal_no_step",
    "C112_nothing",
    "C112_refuted"
   ],
   "note": "the code does not have this in full: C112_refuted exhibits the counterexample the statement mentions"
  },
  {
   "property": "C113",
   "status": "proved",
   "theorems": [
    "C113_picture",
    "C113_db1"
   ],
   "note": ""
  },
  {
   "property": "C114",
   "status": "proved",
   "theorems": [
    "C114_any_rounding",
    "C114_exact_db1",
    "C114_plain",
    "C114_means",
    "C114_stored",
    "C114_thumbnail"
   ],
   "note": ""
  },
  {
   "property": "C115",
   "status": "proved",
   "theorems": [
    "C115_values",
    "C115_memory",
    "C115_exception",
    "C115_independent",
    "C115_copy",
    "C115_assign",
    "C115_move",
    "C115_swap",
    "C115_view",
    "C115_reference"
   ],
   "note": ""
  },
  {
   "property": "C116",
   "status": "proved",
   "theorems": [
    "C116_proper"
   ],
   "note": ""
  },
  {
   "property": "C117",
   "status": "proved",
   "theorems": [
    "C117_coarsest",
    "C117_settled"
   ],
   "note": ""
  },
  {
   "property": "C118",
   "status": "proved",
   "theorems": [
    "C118_load",
    "C118_load_call",
    "C118_new_image",
    "C118_durable",
    "C118_no_other",
    "C118_last_unique",
    "C118_other_files",
    "C118_codecs",
    "C118_atomic_refuted"
   ],
   "note": "the code does not have this in full: C118_atomic_refuted exhibits the counterexample the statement mentions"
  },
  {
   "property": "C119",
   "status": "proved",
   "theorems": [
    "C119_race_free",
    "C119_serial",
    "C119_termination",
    "C119_workers",
    "C119_workers_free",
    "C119_shared_channel_refuted"
   ],
   "note": "the code does not have this in full: C119_shared_channel_refuted exhibits the counterexample the statement mentions"
  },
  {
   "property": "C120",
   "status": "proved",
   "theorems": [
    "C120_size",
    "C120_places",
    "C120_most",
    "C120_sparser_places",
    "C120_sparser",
    "C120_denoised",
    "C120_threshold",
    "C120_simple",
    "C120_incompressible",
    "C120_never_larger_refuted"
   ],
   "note": "the code does not have this in full: C120_never_larger_refuted exhibits the counterexample the statement mentions"
  },
  {
   "property": "C121",
   "status": "proved",
   "theorems": [
    "C121_level",
    "C121_wraps",
    "C121_other_levels_raise_refuted",
    "C121_parsed_equal",
    "C121_cut",
    "C121_exact",
    "C121_exact_1d",
    "C121_lossy",
    "C121_lossy_1d"
   ],
   "note": "the code does not have this in full: C121_other_levels_raise_refuted exhibits the counterexample the statement mentions"
  },
  {
   "property": "C122",
   "status": "proved",
   "theorems": [
    "C122_accepted",
    "C122_decompose",
    "C122_compose",
    "C122_denoisers"
   ],
   "note": ""
  },
  {
   "property": "C123",
   "status": "proved",
   "theorems": [
    "C123_decompose",
    "C123_compose",
    "C123_any_decompose",
    "C123_any_compose"
   ],
   "note": ""
  },
  {
   "property": "C124",
   "status": "proved",
   "theorems": [
    "C124_decompose",
    "C124_compose"
   ],
   "note": ""
  },
  {
   "property": "C125",
   "status": "proved",
   "theorems": [
    "C125_parse_exactly",
    "C125_stored_again",
    "C125_one_blob",
    "C125_different_buffers_refuted",
    "C125_blank_before_3",
    "C125_version_overwritten",
    "C125_version_byte_refuted"
   ],
   "note": "the code does not have this in full: C125_different_buffers_refuted, C125_version_byte_refuted exhibits the counterexample the statement mentions"
  },
  {
   "property": "C126",
   "status": "proved",
   "theorems": [
    "C126_exact",
    "C126_exact_gain",
    "C126_binary32",
    "C126_rounding"
   ],
   "note": ""
  },
  {
   "property": "C127",
   "status": "proved",
   "theorems": [
    "C127_simple_1d",
    "C127_simple_2d",
    "C127_again",
    "C127_simple_signal",
    "C127_threshold_signal"
   ],
   "note": ""
  },
  {
   "property": "C128",
   "status": "proved",
   "theorems": [
    "C128_decompose",
    "C128_pointwise",
    "C128_compose",
    "C128_edit",
    "C128_support"
   ],
   "note": ""
  },
  {
   "property": "C129",
   "status": "proved",
   "theorems": [
    "C129_any_rounding",
    "C129_binary32",
    "C129_binary32_db1",
    "C129_levels",
    "C129_settles_refuted"
   ],
   "note": "the code does not have this in full: C129_settles_refuted exhibits the counterexample the statement mentions"
  },
  {
   "property": "C130",
   "status": "proved",
   "theorems": [
    "C130_exact",
    "C130_every_denoiser",
    "C130_refused",
    "C130_never",
    "C130_view",
    "C130_view_refused",
    "C130_vector",
    "C130_retry",
    "C130_history",
    "C130_composed",
    "C130_all_or_nothing_refuted",
    "C130_import",
    "C130_import_refused",
    "C130_import_codec_throws",
    "C130_import_file"
   ],
   "note": "the code does not have this in full: C130_all_or_nothing_refuted exhibits the counterexample the statement mentions"
  }
 ]
}