{
 "claims": [
  {
   "property": "C01",
   "status": "proved",
   "theorems": [
    "C01_bsgen_full_period"
   ],
   "note": ""
  },
  {
   "property": "C02",
   "status": "proved",
   "theorems": [
    "C02_rng_permutation"
   ],
   "note": ""
  },
  {
   "property": "C03",
   "status": "proved",
   "theorems": [
    "C03_lfsr_entries",
    "C03_lfsr_inexact",
    "C03_lfsr_not_exact"
   ],
   "note": ""
  },
  {
   "property": "C04",
   "status": "proved",
   "theorems": [
    "C04_bingen"
   ],
   "note": ""
  },
  {
   "property": "C05",
   "status": "proved",
   "theorems": [
    "C05_end_to_end"
   ],
   "note": ""
  },
  {
   "property": "C06",
   "status": "proved",
   "theorems": [
    "C06_same_rng"
   ],
   "note": ""
  },
  {
   "property": "C07",
   "status": "proved",
   "theorems": [
    "C07_temporal_shape"
   ],
   "note": ""
  },
  {
   "property": "C08",
   "status": "proved",
   "theorems": [
    "C08_rawscale_range",
    "C08_rawscale_full",
    "C08_rawscale_defined"
   ],
   "note": ""
  },
  {
   "property": "C09",
   "status": "proved",
   "theorems": [
    "C09_skewed_conserves"
   ],
   "note": ""
  },
  {
   "property": "C10",
   "status": "proved",
   "theorems": [
    "C10_skewed_overlap",
    "C10_skewed_full_only"
   ],
   "note": ""
  },
  {
   "property": "C11",
   "status": "proved",
   "theorems": [
    "C11_bi2uni_running_max",
    "C11_bi2uni_balance"
   ],
   "note": ""
  },
  {
   "property": "C12",
   "status": "proved",
   "theorems": [
    "C12_uni2bi_floor",
    "C12_uni2bi_depth3_refuted",
    "C12_uni2bi_depth2_dead"
   ],
   "note": ""
  },
  {
   "property": "C13",
   "status": "proved",
   "theorems": [
    "C13_scaled_add_exact",
    "C13_scaled_add_floor"
   ],
   "note": ""
  },
  {
   "property": "C14",
   "status": "proved",
   "theorems": [
    "C14_add_conserves"
   ],
   "note": ""
  },
  {
   "property": "C15",
   "status": "proved",
   "theorems": [
    "C15_dead_adder"
   ],
   "note": ""
  },
  {
   "property": "C16",
   "status": "proved",
   "theorems": [
    "C16_add_latches"
   ],
   "note": ""
  },
  {
   "property": "C17",
   "status": "proved",
   "theorems": [
    "C17_mul_counts",
    "C17_mul_order"
   ],
   "note": ""
  },
  {
   "property": "C18",
   "status": "proved",
   "theorems": [
    "C18_mul_exact",
    "C18_mul_product"
   ],
   "note": ""
  },
  {
   "property": "C19",
   "status": "proved",
   "theorems": [
    "C19_mul_sobol"
   ],
   "note": ""
  },
  {
   "property": "C20",
   "status": "proved",
   "theorems": [
    "C20_instream_mul"
   ],
   "note": ""
  },
  {
   "property": "C21",
   "status": "proved",
   "theorems": [
    "C21_shiftreg",
    "C21_shiftreg_delay",
    "C21_shiftreg_masked"
   ],
   "note": ""
  },
  {
   "property": "C22",
   "status": "proved",
   "theorems": [
    "C22_jkff",
    "C22_jkff_runs"
   ],
   "note": ""
  },
  {
   "property": "C23",
   "status": "proved",
   "theorems": [
    "C23_cordiv_kernel"
   ],
   "note": ""
  },
  {
   "property": "C24",
   "status": "proved",
   "theorems": [
    "C24_cordiv_pow2",
    "C24_cordiv_other"
   ],
   "note": ""
  },
  {
   "property": "C25",
   "status": "proved",
   "theorems": [
    "C25_udiv_ratio"
   ],
   "note": ""
  },
  {
   "property": "C26",
   "status": "proved",
   "theorems": [
    "C26_bdiv_structure",
    "C26_bdiv_self"
   ],
   "note": ""
  },
  {
   "property": "C27",
   "status": "proved",
   "theorems": [
    "C27_signabs"
   ],
   "note": ""
  },
  {
   "property": "C28",
   "status": "proved",
   "theorems": [
    "C28_relu",
    "C28_relu_pass"
   ],
   "note": ""
  },
  {
   "property": "C29",
   "status": "proved",
   "theorems": [
    "C29_hardsigmoid",
    "C29_hub_clips",
    "C29_fsuhardtanh"
   ],
   "note": ""
  },
  {
   "property": "C30",
   "status": "proved",
   "theorems": [
    "C30_sqrt_jk",
    "C30_sqrt_cordiv",
    "C30_sqrt_trace_total",
    "C30_sqrt_jk_low"
   ],
   "note": ""
  },
  {
   "property": "C31",
   "status": "proved",
   "theorems": [
    "C31_sqrt_emit",
    "C31_sqrt_emit_256_refuted"
   ],
   "note": ""
  },
  {
   "property": "C32",
   "status": "proved",
   "theorems": [
    "C32_pc_rate",
    "C32_pc_temporal",
    "C32_pc_batch_shrink",
    "C32_pc_batch_mismatch"
   ],
   "note": ""
  },
  {
   "property": "C33",
   "status": "proved",
   "theorems": [
    "C33_linear_floor",
    "C33_linear_floor_temporal",
    "C33_linear_periods",
    "C33_linear_value"
   ],
   "note": ""
  },
  {
   "property": "C34",
   "status": "proved",
   "theorems": [
    "C34_conv_new",
    "C34_conv_accepts",
    "C34_fsuconv_accepts",
    "C34_pc_accepts",
    "C34_linear_accepts",
    "C34_fsuconv_new",
    "C34_pc_new",
    "C34_temporal_names",
    "C34_linear_new",
    "C34_pc_errors",
    "C34_linear_errors",
    "C34_conv_errors",
    "C34_fsuconv_errors"
   ],
   "note": ""
  },
  {
   "property": "C35",
   "status": "proved",
   "theorems": [
    "C35_windows",
    "C35_fsu_windows",
    "C35_rate",
    "C35_temporal",
    "C35_fsu_floor",
    "C35_border_stream",
    "C35_border_zero",
    "C35_border_product"
   ],
   "note": ""
  },
  {
   "property": "C36",
   "status": "proved",
   "theorems": [
    "C36_conv_shape",
    "C36_numbers"
   ],
   "note": ""
  },
  {
   "property": "C37",
   "status": "proved",
   "theorems": [
    "C37_conv_padding"
   ],
   "note": ""
  },
  {
   "property": "C38",
   "status": "proved",
   "theorems": [
    "C38_convtransp_padding",
    "C38_convtransp_refuted"
   ],
   "note": ""
  },
  {
   "property": "C39",
   "status": "proved",
   "theorems": [
    "C39_hub_table",
    "C39_hub_table_laws",
    "C39_hub_table_sobol",
    "C39_hub_new_errors"
   ],
   "note": ""
  },
  {
   "property": "C40",
   "status": "proved",
   "theorems": [
    "C40_hub_linear",
    "C40_hub_forward",
    "C40_hub_sign",
    "C40_hub_quant"
   ],
   "note": ""
  },
  {
   "property": "C41",
   "status": "proved",
   "theorems": [
    "C41_fxp_forward",
    "C41_fxp_quant",
    "C41_fxp_exact",
    "C41_dot_perturb",
    "C41_fxp_linear"
   ],
   "note": ""
  },
  {
   "property": "C42",
   "status": "proved",
   "theorems": [
    "C42_tlut_digits",
    "C42_tlut_roundtrip",
    "C42_tlut_cut",
    "C42_tlut_quant",
    "C42_tlut_layer",
    "C42_tlut_layer_mixed",
    "C42_tlut_layer_cut"
   ],
   "note": ""
  },
  {
   "property": "C43",
   "status": "proved",
   "theorems": [
    "C43_round",
    "C43_round_laws",
    "C43_module"
   ],
   "note": ""
  },
  {
   "property": "C44",
   "status": "proved",
   "theorems": [
    "C44_rshift",
    "C44_scale"
   ],
   "note": ""
  },
  {
   "property": "C45",
   "status": "proved",
   "theorems": [
    "C45_clip",
    "C45_norm",
    "C45_idempotent",
    "C45_call",
    "C45_method_ignored",
    "C45_bias_none"
   ],
   "note": ""
  },
  {
   "property": "C46",
   "status": "proved",
   "theorems": [
    "C46_truncated_normal"
   ],
   "note": ""
  },
  {
   "property": "C47",
   "status": "proved",
   "theorems": [
    "C47_progerror"
   ],
   "note": ""
  },
  {
   "property": "C48",
   "status": "proved",
   "theorems": [
    "C48_stability"
   ],
   "note": ""
  },
  {
   "property": "C49",
   "status": "proved",
   "theorems": [
    "C49_correlation",
    "C49_symmetric",
    "C49_delayed"
   ],
   "note": ""
  },
  {
   "property": "C50",
   "status": "proved",
   "theorems": [
    "C50_progerror_counters",
    "C50_progerror_short",
    "C50_progerror_period",
    "C50_progerror_long",
    "C50_stability_counters",
    "C50_stability_value",
    "C50_correlation_counters",
    "C50_correlation_short",
    "C50_correlation_sign_refuted"
   ],
   "note": ""
  },
  {
   "property": "C51",
   "status": "proved",
   "theorems": [
    "C51_values",
    "C51_sequence",
    "C51_bounded_any",
    "C51_fxp_values",
    "C51_fxp_sequence"
   ],
   "note": ""
  },
  {
   "property": "C52",
   "status": "proved",
   "theorems": [
    "C52_relu",
    "C52_signabs",
    "C52_jkff",
    "C52_bi2uni",
    "C52_uni2bi",
    "C52_add",
    "C52_same_shape",
    "C52_skewedsync",
    "C52_skewedsync_restart",
    "C52_skewedsync_raises",
    "C52_mul_static",
    "C52_mul_in_stream"
   ],
   "note": ""
  },
  {
   "property": "C53",
   "status": "proved",
   "theorems": [
    "C53_gradients"
   ],
   "note": ""
  },
  {
   "property": "C54",
   "status": "proved",
   "theorems": [
    "C54_skewedsync",
    "C54_sign",
    "C54_abs",
    "C54_abs_differences",
    "C54_jkff",
    "C54_bisqrt_unipolar",
    "C54_uni2bi",
    "C54_bi2uni",
    "C54_abs_stream_refuted",
    "C54_bi2uni_wrap_refuted",
    "C54_cordiv_register",
    "C54_cordiv_outputs",
    "C54_iscbdiv",
    "C54_cordiv_stream_refuted",
    "C54_iscbdiv_stream_refuted",
    "C54_bisqrt_bipolar_refuted",
    "C54_bisqrt_bipolar"
   ],
   "note": ""
  },
  {
   "property": "C55",
   "status": "proved",
   "theorems": [
    "C55_tlut_mantissa",
    "C55_tlut_mantissa_full",
    "C55_tlut_layer_fp",
    "C55_tlut_width_refuted"
   ],
   "note": ""
  },
  {
   "property": "C56",
   "status": "proved",
   "theorems": [
    "C56_hub_roles",
    "C56_hub_weight_controlled_refuted"
   ],
   "note": ""
  },
  {
   "property": "C57",
   "status": "proved",
   "theorems": [
    "C57_pair_padding",
    "C57_pair_square"
   ],
   "note": ""
  },
  {
   "property": "C58",
   "status": "proved",
   "theorems": [
    "C58_f32_single",
    "C58_f32_nearest",
    "C58_f32_fixed",
    "C58_f32_monotone",
    "C58_f32_relative",
    "C58_adder_exact",
    "C58_adder_general_refuted"
   ],
   "note": ""
  },
  {
   "property": "C59",
   "status": "proved",
   "theorems": [
    "C59_values",
    "C59_period"
   ],
   "note": ""
  },
  {
   "property": "C60",
   "status": "proved",
   "theorems": [
    "C60_mul_unipolar",
    "C60_mul_bipolar",
    "C60_mul_unipolar_load",
    "C60_mul_bipolar_load",
    "C60_mul_long_refuted",
    "C60_usadd8",
    "C60_usadd16",
    "C60_umac",
    "C60_umac_load"
   ],
   "note": ""
  },
  {
   "property": "C61",
   "status": "proved",
   "theorems": [
    "C61_hub_taps",
    "C61_hub_bound",
    "C61_fxp_taps",
    "C61_fxp_exact",
    "C61_tlut_taps"
   ],
   "note": ""
  },
  {
   "property": "C62",
   "status": "proved",
   "theorems": [
    "C62_tlut_covered",
    "C62_hub_fxp_covered",
    "C62_fxp_uncovered_refuted"
   ],
   "note": ""
  },
  {
   "property": "C63",
   "status": "proved",
   "theorems": [
    "C63_accepts",
    "C63_config",
    "C63_mixed",
    "C63_declared_fxp_refuted",
    "C63_declared_float_refuted"
   ],
   "note": ""
  },
  {
   "property": "C64",
   "status": "proved",
   "theorems": [
    "C64_cell",
    "C64_counts"
   ],
   "note": ""
  },
  {
   "property": "C65",
   "status": "proved",
   "theorems": [
    "C65_new",
    "C65_new_accepts",
    "C65_bad_call",
    "C65_rebatch",
    "C65_buffer",
    "C65_new_errors"
   ],
   "note": ""
  },
  {
   "property": "C66",
   "status": "proved",
   "theorems": [
    "C66_hub",
    "C66_hard_within_step_refuted"
   ],
   "note": ""
  },
  {
   "property": "C67",
   "status": "proved",
   "theorems": [
    "C67_add_climbs",
    "C67_add_unipolar"
   ],
   "note": ""
  },
  {
   "property": "C68",
   "status": "proved",
   "theorems": [
    "C68_linear_climbs"
   ],
   "note": ""
  },
  {
   "property": "C69",
   "status": "proved",
   "theorems": [
    "C69_rng_names",
    "C69_rng_kinds",
    "C69_mode_names",
    "C69_bsgen_new",
    "C69_rawscale_new"
   ],
   "note": ""
  },
  {
   "property": "C70",
   "status": "proved",
   "theorems": [
    "C70_add",
    "C70_hardsigmoid",
    "C70_mul",
    "C70_cordiv",
    "C70_div",
    "C70_sqrt",
    "C70_metric",
    "C70_hublinear",
    "C70_fxplinear",
    "C70_tlutlinear",
    "C70_hubconv",
    "C70_fxpconv",
    "C70_tlutconv"
   ],
   "note": ""
  },
  {
   "property": "C71",
   "status": "proved",
   "theorems": [
    "C71_correlation_call",
    "C71_correlation_forward",
    "C71_correlation_single",
    "C71_progerror",
    "C71_stability",
    "C71_stability_stuck",
    "C71_stability_scalar_source"
   ],
   "note": ""
  },
  {
   "property": "C72",
   "status": "proved",
   "theorems": [
    "C72_hublinear_error",
    "C72_hublinear_total",
    "C72_hublinear_ceil",
    "C72_hublinear_round_clips",
    "C72_fxplinear",
    "C72_tlutlinear",
    "C72_tlutlinear_round_clips"
   ],
   "note": ""
  },
  {
   "property": "C73",
   "status": "proved",
   "theorems": [
    "C73_shiftreg",
    "C73_shiftreg_index",
    "C73_shiftreg_mask",
    "C73_shiftreg_reshape",
    "C73_cordiv",
    "C73_cordiv_shapes",
    "C73_div",
    "C73_sqrt_trace",
    "C73_sqrt_emit",
    "C73_sqrt_emit_scalar"
   ],
   "note": ""
  },
  {
   "property": "C74",
   "status": "proved",
   "theorems": [
    "C74_value_raises",
    "C74_attributes",
    "C74_absolute",
    "C74_relative",
    "C74_relative_overflow",
    "C74_unmonitored",
    "C74_empty",
    "C74_line",
    "C74_outlier"
   ],
   "note": ""
  },
  {
   "property": "C75",
   "status": "proved",
   "theorems": [
    "C75_hubconv_error",
    "C75_hubconv_zero",
    "C75_hubconv_ceil",
    "C75_hubconv_round_clips",
    "C75_fxpconv",
    "C75_tlutconv",
    "C75_tlutconv_round_clips"
   ],
   "note": ""
  },
  {
   "property": "C76",
   "status": "proved",
   "theorems": [
    "C76_bsgen",
    "C76_mul",
    "C76_linear",
    "C76_conv",
    "C76_settles",
    "C76_linear_settles",
    "C76_race_early"
   ],
   "note": ""
  },
  {
   "property": "C77",
   "status": "proved",
   "theorems": [
    "C77_linear",
    "C77_net",
    "C77_net_encoded"
   ],
   "note": ""
  },
  {
   "property": "C78",
   "status": "proved",
   "theorems": [
    "C78_sum",
    "C78_bits",
    "C78_hub",
    "C78_fxp",
    "C78_fxp_limit_refuted",
    "C78_bingen_unipolar",
    "C78_bingen_grid",
    "C78_bingen_error",
    "C78_bingen_near",
    "C78_bingen_exact_refuted"
   ],
   "note": ""
  },
  {
   "property": "C79",
   "status": "proved",
   "theorems": [
    "C79_relu",
    "C79_relu_shallow",
    "C79_hardsigmoid",
    "C79_net",
    "C79_net_encoded"
   ],
   "note": ""
  },
  {
   "property": "C80",
   "status": "proved",
   "theorems": [
    "C80_conversion",
    "C80_types",
    "C80_relu",
    "C80_relu_wraps",
    "C80_relu_float",
    "C80_signabs",
    "C80_signabs_unsigned",
    "C80_sync",
    "C80_sync_unsigned",
    "C80_sync_wraps",
    "C80_bi2uni",
    "C80_uni2bi"
   ],
   "note": ""
  },
  {
   "property": "C81",
   "status": "proved",
   "theorems": [
    "C81_generator",
    "C81_generator_rng",
    "C81_rng",
    "C81_generator_silent",
    "C81_generator_merges",
    "C81_counter",
    "C81_counter_conv",
    "C81_counts",
    "C81_counter_full",
    "C81_adder",
    "C81_adder_any"
   ],
   "note": ""
  },
  {
   "property": "C82",
   "status": "proved",
   "theorems": [
    "C82_add",
    "C82_source",
    "C82_linear",
    "C82_conv"
   ],
   "note": ""
  },
  {
   "property": "C83",
   "status": "proved",
   "theorems": [
    "C83_instream"
   ],
   "note": ""
  },
  {
   "property": "C84",
   "status": "proved",
   "theorems": [
    "C84_cell",
    "C84_hub"
   ],
   "note": ""
  },
  {
   "property": "C85",
   "status": "proved",
   "theorems": [
    "C85_state",
    "C85_expands_refuted",
    "C85_hub",
    "C85_fxp_call",
    "C85_fxp"
   ],
   "note": ""
  },
  {
   "property": "C86",
   "status": "proved",
   "theorems": [
    "C86_gdiv_u",
    "C86_gdiv_u_reset",
    "C86_gdiv_u_refuted",
    "C86_gdiv_b",
    "C86_gsqrt_u",
    "C86_gsqrt_u_reset",
    "C86_gsqrt_u_refuted",
    "C86_gsqrt_b"
   ],
   "note": ""
  },
  {
   "property": "C87",
   "status": "proved",
   "theorems": [
    "C87_gmul_uni_bits",
    "C87_gmul_bi_bits",
    "C87_gmul_uni",
    "C87_gmul_bi",
    "C87_gmul_uni_refuted",
    "C87_gmul_bi_refuted",
    "C87_dmul_uni",
    "C87_dmul_bi",
    "C87_dmul_uni_count",
    "C87_tmul_uni",
    "C87_tmul_uni_count",
    "C87_tmul_bi",
    "C87_tmul_bi_refuted"
   ],
   "note": ""
  },
  {
   "property": "C88",
   "status": "proved",
   "theorems": [
    "C88_unsadd16",
    "C88_unsadd8",
    "C88_wrap_refuted",
    "C88_bipolar",
    "C88_bipolar_refuted",
    "C88_unsadd8_refuted"
   ],
   "note": ""
  },
  {
   "property": "C89",
   "status": "proved",
   "theorems": [
    "C89_is_u",
    "C89_is_u_refuted",
    "C89_is_b",
    "C89_is_b_sign",
    "C89_relu",
    "C89_relu_refuted",
    "C89_sqrt",
    "C89_sqrt_zero_refuted",
    "C89_syncint",
    "C89_syncint_refuted",
    "C89_bisqrt_u",
    "C89_bisqrt_u_refuted",
    "C89_bisqrt_b",
    "C89_bisqrt_u_any",
    "C89_bisqrt_b_any",
    "C89_iscbdiv_b"
   ],
   "note": ""
  },
  {
   "property": "C90",
   "status": "proved",
   "theorems": [
    "C90_halton2",
    "C90_halton",
    "C90_halton3",
    "C90_halton5",
    "C90_stratified",
    "C90_period"
   ],
   "note": ""
  },
  {
   "property": "C91",
   "status": "proved",
   "theorems": [
    "C91_bi2uni",
    "C91_uni2bi",
    "C91_signabs",
    "C91_relu",
    "C91_shiftreg",
    "C91_mul",
    "C91_add",
    "C91_corr",
    "C91_jkff",
    "C91_jkff_refuted",
    "C91_sync",
    "C91_sync_refuted",
    "C91_progerror",
    "C91_progerror_refuted",
    "C91_progerror_one"
   ],
   "note": ""
  },
  {
   "property": "C92",
   "status": "proved",
   "theorems": [
    "C92_fsu",
    "C92_hub",
    "C92_hub_two",
    "C92_hub_refuted"
   ],
   "note": ""
  },
  {
   "property": "C93",
   "status": "proved",
   "theorems": [
    "C93_u",
    "C93_b",
    "C93_u_bound",
    "C93_b_bound",
    "C93_u_square",
    "C93_u_bound_refuted",
    "C93_unassigned"
   ],
   "note": ""
  },
  {
   "property": "C94",
   "status": "proved",
   "theorems": [
    "C94_uni",
    "C94_bi",
    "C94_or",
    "C94_uni_count",
    "C94_bi_count",
    "C94_or_count",
    "C94_uni_error",
    "C94_uni_equal",
    "C94_error_attained",
    "C94_product_refuted"
   ],
   "note": ""
  },
  {
   "property": "C95",
   "status": "proved",
   "theorems": [
    "C95_uni",
    "C95_bi",
    "C95_or",
    "C95_uni_count",
    "C95_bi_count",
    "C95_or_count",
    "C95_product_refuted"
   ],
   "note": ""
  },
  {
   "property": "C96",
   "status": "proved",
   "theorems": [
    "C96_bi_scaled",
    "C96_uni_nonscaled",
    "C96_bi_nonscaled",
    "C96_uni_load",
    "C96_bi_load",
    "C96_wrap_refuted"
   ],
   "note": ""
  },
  {
   "property": "C97",
   "status": "proved",
   "theorems": [
    "C97_square",
    "C97_repeats",
    "C97_generated_repeats",
    "C97_generated",
    "C97_half",
    "C97_value_refuted"
   ],
   "note": ""
  },
  {
   "property": "C98",
   "status": "proved",
   "theorems": [
    "C98_zeros",
    "C98_unlucky",
    "C98_value_refuted"
   ],
   "note": ""
  },
  {
   "property": "C99",
   "status": "proved",
   "theorems": [
    "C99_add",
    "C99_past",
    "C99_any_past",
    "C99_earlier",
    "C99_earlier_clamped_refuted",
    "C99_weights",
    "C99_layer",
    "C99_net",
    "C99_relu",
    "C99_relu_earlier_refuted",
    "C99_sigmoid",
    "C99_kernel",
    "C99_division",
    "C99_divisor_refuted"
   ],
   "note": ""
  },
  {
   "property": "C100",
   "status": "proved",
   "theorems": [
    "C100_flips",
    "C100_add",
    "C100_mul",
    "C100_layer",
    "C100_net",
    "C100_relu",
    "C100_sigmoid",
    "C100_division_refuted"
   ],
   "note": ""
  },
  {
   "property": "C101",
   "status": "proved",
   "theorems": [
    "C101_order",
    "C101_pair",
    "C101_zero",
    "C101_layer",
    "C101_net",
    "C101_mul",
    "C101_mul_stream",
    "C101_mul_weight_refuted",
    "C101_layer_negated",
    "C101_net_negated",
    "C101_signabs"
   ],
   "note": ""
  },
  {
   "property": "C102",
   "status": "proved",
   "theorems": [
    "C102_window",
    "C102_crop",
    "C102_stride",
    "C102_faults",
    "C102_behind",
    "C102_negated"
   ],
   "note": ""
  },
  {
   "property": "C103",
   "status": "proved",
   "theorems": [
    "C103_gen",
    "C103_mul",
    "C103_mul_attained",
    "C103_layer",
    "C103_net"
   ],
   "note": ""
  },
  {
   "property": "C104",
   "status": "proved",
   "theorems": [
    "C104_mul",
    "C104_sync",
    "C104_add",
    "C104_add_scale",
    "C104_layer",
    "C104_net",
    "C104_conv",
    "C104_bipolar_mul_refuted",
    "C104_stream_mul_refuted",
    "C104_nonscaled_refuted",
    "C104_bias_refuted",
    "C104_temporal_refuted"
   ],
   "note": ""
  },
  {
   "property": "C105",
   "status": "proved",
   "theorems": [
    "C105_flips",
    "C105_weights",
    "C105_negated",
    "C105_jitter",
    "C105_two_layers"
   ],
   "note": ""
  },
  {
   "property": "C106",
   "status": "proved",
   "theorems": [
    "C106_scaled_uni",
    "C106_scaled_bi",
    "C106_scaled_uni_load",
    "C106_scaled_bi_load",
    "C106_scaled_sum_refuted",
    "C106_discrepancy",
    "C106_nonscaled",
    "C106_nonscaled_load",
    "C106_nonscaled_first",
    "C106_nonscaled_error",
    "C106_saturates_refuted",
    "C106_not_cleared"
   ],
   "note": ""
  },
  {
   "property": "C107",
   "status": "proved",
   "theorems": [
    "C107_apc",
    "C107_apc_first",
    "C107_apc_weight",
    "C107_apc_symmetric_refuted",
    "C107_apc_period",
    "C107_apc_block",
    "C107_mux",
    "C107_mux_first",
    "C107_mux_block",
    "C107_mux_period",
    "C107_mux_sum_refuted",
    "C107_dadd",
    "C107_dadd_first",
    "C107_dadd_period",
    "C107_dadd_sum_refuted",
    "C107_or",
    "C107_or_bounds"
   ],
   "note": ""
  },
  {
   "property": "C108",
   "status": "proved",
   "theorems": [
    "C108_badd",
    "C108_bmul",
    "C108_mac",
    "C108_mac_seventeen_refuted",
    "C108_data_buf",
    "C108_gray",
    "C108_gray_step",
    "C108_gray_period",
    "C108_lsz2",
    "C108_exp",
    "C108_exp_zero"
   ],
   "note": ""
  },
  {
   "property": "C109",
   "status": "proved",
   "theorems": [
    "C109_gen",
    "C109_mul",
    "C109_linear",
    "C109_conv",
    "C109_sigmoid",
    "C109_relu",
    "C109_net",
    "C109_net_exact"
   ],
   "note": ""
  },
  {
   "property": "C110",
   "status": "proved",
   "theorems": [
    "C110_merged",
    "C110_values",
    "C110_lsz",
    "C110_sobol",
    "C110_perm",
    "C110_mirrored_refuted",
    "C110_mirrored_halves",
    "C110_gray"
   ],
   "note": ""
  }
 ]
}