{
 "claims": [
  {
   "property": "C01",
   "status": "partial",
   "theorems": [
    "C01_first",
    "C01_argfirst",
    "C01_all_same",
    "C01_ordered",
    "C01_minmax",
    "C01_searchsorted",
    "C01_percentileofscore",
    "C01_peaktopeak",
    "C01_objects",
    "C01_mad",
    "C01_vnorm",
    "C01_rms",
    "C01_vdot",
    "C01_pearson_corr",
    "C01_wjaccard",
    "C01_logbeta",
    "C01_gmean",
    "C01_hmean",
    "C01_pmean",
    "C01_kbnsum_partial",
    "C01_kbnsum_refuted",
    "C01_hysteresis_relay",
    "C01_backlash",
    "C01_fillnan1d",
    "C01_unwrap",
    "C01_softmax",
    "C01_convert_to_base",
    "C01_one_hot",
    "C01_meanvar",
    "C01_bincount",
    "C01_bincountw",
    "C01_confined",
    "C01_nothing_else"
   ],
   "note": "All the cores named (and searchsorted, percentileofscore, peaktopeak, object cores, mad/rmad/gini, vnorm, rms, vdot, pearson_corr, wjaccard, logbeta, means, unwrap, softmax, convert_to_base, one_hot, meanvar) for any base, stride and surrounding memory; array outputs: same elements, nothing else written. kbnsum only without infinite elements (C01_kbnsum_partial); with one the property is false (C01_kbnsum_refuted). sosfilter and linear_interp1d: contiguous and strided paths are treated under C22 and C32."
  },
  {
   "property": "C02",
   "status": "partial",
   "theorems": [
    "C02_slices",
    "C02_ufunc",
    "C02_counter_refuted",
    "C02_cross3",
    "C02_backlash"
   ],
   "note": "Generated gufunc loop: for every signature, core and operand layout with at most INT_MAX slices the calls are exactly the slices, in order, outputs filled, other cells unchanged (C02_slices, generic in the core; C02_cross3 and C02_backlash end to end); elementwise loop C02_ufunc. False beyond INT_MAX slices: the loop counter is an int (C02_counter_refuted)."
  },
  {
   "property": "C03",
   "status": "partial",
   "theorems": [
    "C03_generated_calls",
    "C03_declaration",
    "C03_nin_nout",
    "C03_variable_names",
    "C03_output_names_distinct",
    "C03_declaration_one_refuted",
    "C03_name_j_refuted"
   ],
   "note": "Proved for every signature text (any blanks) without a core dimension named j (C03_generated_calls), the prototype (C03_declaration) except for operands of shape (1), the operand counts, and the variable names (C03_variable_names). Refuted for a dimension named j (the core gets the loop counter) and for the prototype of a shape (1) operand."
  },
  {
   "property": "C04",
   "status": "proved",
   "theorems": [
    "C04_first_correct",
    "C04_first_invalid_op",
    "C04_first_nan_only_ne",
    "C04_first_reads_prefix_only"
   ],
   "note": ""
  },
  {
   "property": "C05",
   "status": "proved",
   "theorems": [
    "C05_argfirst_correct",
    "C05_first_agrees_argfirst"
   ],
   "note": ""
  },
  {
   "property": "C06",
   "status": "proved",
   "theorems": [
    "C06_first_object",
    "C06_first_object_invalid_op",
    "C06_argfirst_object",
    "C06_all_same_object",
    "C06_minmax_object_error",
    "C06_peaktopeak_object_error",
    "C06_searchsorted_object_error",
    "C06_first_object_typed",
    "C06_argfirst_object_typed",
    "C06_all_same_object_typed",
    "C06_minmax_object_typed",
    "C06_searchsorted_object_typed",
    "C06_integers_model_order"
   ],
   "note": ""
  },
  {
   "property": "C07",
   "status": "proved",
   "theorems": [
    "C07_all_same_correct",
    "C07_all_same_pairwise",
    "C07_all_same_nan",
    "C07_all_same_complex"
   ],
   "note": ""
  },
  {
   "property": "C08",
   "status": "partial",
   "theorems": [
    "C08_ordered_object_partial",
    "C08_ordered_object_refuted",
    "C08_ordered_correct",
    "C08_ordered_all_pairs",
    "C08_ordered_eq_nan",
    "C08_ordered_nan_skips",
    "C08_ordered_nan_refuted",
    "C08_ordered_invalid_op_refuted"
   ],
   "note": "The property holds for NaN-free typed arrays and valid op codes (C08_ordered_correct, C08_ordered_all_pairs) and is false in three cases, each with a machine-checked witness: NaN elements are skipped (C08_ordered_nan_refuted), an unknown op code acts as GE (C08_ordered_invalid_op_refuted), and for object dtype every element is compared with element 0 (C08_ordered_object_refuted)."
  },
  {
   "property": "C09",
   "status": "proved",
   "theorems": [
    "C09_min_argmin_correct",
    "C09_max_argmax_correct",
    "C09_minmax_family_agrees",
    "C09_min_nan_first",
    "C09_max_nan_first"
   ],
   "note": ""
  },
  {
   "property": "C10",
   "status": "proved",
   "theorems": [
    "C10_peaktopeak_signed",
    "C10_peaktopeak_unsigned",
    "C10_peaktopeak_any_type",
    "C10_peaktopeak_strict_refuted"
   ],
   "note": "Exact for all integer dtypes under two's-complement arithmetic. Read as strict C, the int32/int64 loops overflow a signed integer when min(x) is the type's MIN and max(x) >= 0; C10_peaktopeak_signed states exactly when, C10_peaktopeak_strict_refuted gives a witness. Floats: C10_peaktopeak_any_type reduces to the extrema of C09 and one rounded subtraction."
  },
  {
   "property": "C11",
   "status": "proved",
   "theorems": [
    "C11_searchsortedl_correct",
    "C11_searchsortedr_correct",
    "C11_searchsorted_difference",
    "C11_searchsorted_insert_sorted",
    "C11_searchsorted_safe"
   ],
   "note": ""
  },
  {
   "property": "C12",
   "status": "proved",
   "theorems": [
    "C12_percentileofscore_correct",
    "C12_percentileofscore_kinds_ordered",
    "C12_percentileofscore_monotone"
   ],
   "note": ""
  },
  {
   "property": "C13",
   "status": "partial",
   "theorems": [
    "C13_bincount_correct",
    "C13_bincount_exact",
    "C13_bincountw_correct",
    "C13_bincount_accumulates",
    "C13_bincountw_accumulates",
    "C13_bincountw_ones",
    "C13_bincount_uint64_refuted"
   ],
   "note": "Proved for every value in [-2^63, 2^63), i.e. all dtypes but the upper half of uint64, where the property is false: C13_bincount_uint64_refuted."
  },
  {
   "property": "C14",
   "status": "partial",
   "theorems": [
    "C14_default_m",
    "C14_all_counted_partial",
    "C14_default_m_refuted",
    "C14_dtype_max_always_lost"
   ],
   "note": "Proved unless max(x) is the largest value of its dtype; in that case the property is false (C14_default_m_refuted, C14_dtype_max_always_lost): m wraps to 0 and all counts are lost."
  },
  {
   "property": "C15",
   "status": "proved",
   "theorems": [
    "C15_convert_to_base_nonneg",
    "C15_convert_to_base_any_sign",
    "C15_convert_to_base_zero_undefined"
   ],
   "note": "base 0 (division by zero) and MIN / -1 are excluded; both are undefined behaviour in the code (C15_convert_to_base_zero_undefined and the example)."
  },
  {
   "property": "C16",
   "status": "proved",
   "theorems": [
    "C16_one_hot_correct"
   ],
   "note": ""
  },
  {
   "property": "C17",
   "status": "partial",
   "theorems": [
    "C17_fillnan1d_correct",
    "C17_fillnan1d_exact",
    "C17_fillnan1d_idempotent",
    "C17_fillnan1d_ieee",
    "C17_conversions",
    "C17_inf_neighbour_refuted"
   ],
   "note": "Proved for finite-or-NaN data (exact arithmetic and every IEEE format) and, for any arithmetic, position by position. With an infinite sample next to a gap the interpolated value can be NaN: C17_inf_neighbour_refuted."
  },
  {
   "property": "C18",
   "status": "proved",
   "theorems": [
    "C18_hysteresis_correct",
    "C18_hysteresis_chunks"
   ],
   "note": "NaN samples are treated as inside the band (part of the specification relay_at)."
  },
  {
   "property": "C19",
   "status": "proved",
   "theorems": [
    "C19_backlash_exact",
    "C19_backlash_chunks",
    "C19_backlash_ieee"
   ],
   "note": "Exact arithmetic: nearest point of the band; IEEE: inside the rounded band, monotone response, chunking."
  },
  {
   "property": "C20",
   "status": "proved",
   "theorems": [
    "C20_backlash_sum_correct",
    "C20_backlash_sum_chunks"
   ],
   "note": "Any arithmetic, bit for bit: weighted sum of the single backlash responses in the order of the source."
  },
  {
   "property": "C21",
   "status": "partial",
   "theorems": [
    "C21_unwrap_exact",
    "C21_unwrap_unchanged",
    "C21_unwrap_any_type",
    "C21_unwrap_nonfinite",
    "C21_inf_first_refuted",
    "C21_overflow_refuted",
    "C21_idempotent_refuted",
    "C21_small_step_ieee_refuted"
   ],
   "note": "Exact arithmetic with the period count within int: proved. False in the cases of the four C21_*_refuted theorems (infinite first sample, quotient outside int, half-period tie, double rounding of the quotient)."
  },
  {
   "property": "C22",
   "status": "proved",
   "theorems": [
    "C22_sosfilter_ic_correct",
    "C22_sosfilter_ic_contig_correct",
    "C22_sosfilter_correct",
    "C22_sosfilter_ic_chunks",
    "C22_sosfilter_exact",
    "C22_sosfilter_linear",
    "C22_sosfilter_ic_linear",
    "C22_no_sections_unwritten"
   ],
   "note": "At least one section. With no sections the output is left unwritten (C22_no_sections_unwritten). a0 is ignored by the code, i.e. assumed 1."
  },
  {
   "property": "C23",
   "status": "partial",
   "theorems": [
    "C23_kbnsum_exact",
    "C23_kbnsum_ieee",
    "C23_kbnsum_bound",
    "C23_kbnsum_nonfinite_partial",
    "C23_kbnsum_stride_refuted",
    "C23_kbnsum_reversed_refuted",
    "C23_kbnsum_overflow_refuted"
   ],
   "note": "Exact sum (any stride), exact compensation and an a-priori IEEE error bound are proved. The claim that infinities and NaN behave as in plain addition holds for contiguous data (C23_kbnsum_nonfinite_partial) and is false for other strides: the infinity branch reads p_x[j] (C23_kbnsum_stride_refuted, C23_kbnsum_reversed_refuted). Finite data whose sum overflows gives NaN (C23_kbnsum_overflow_refuted)."
  },
  {
   "property": "C24",
   "status": "proved",
   "theorems": [
    "C24_meanvar_exact",
    "C24_meanvar_var_zero_iff",
    "C24_meanvar_affine",
    "C24_meanvar_ddof_n",
    "C24_meanvar_nan",
    "C24_meanvar_const",
    "C24_inf_order_refuted"
   ],
   "note": "Formulas, sign and affine behaviour in exact arithmetic; NaN propagation and constant data in every IEEE format. No rounding-error bound for general IEEE data. With infinities the mean depends on the order of the data (C24_inf_order_refuted)."
  },
  {
   "property": "C25",
   "status": "partial",
   "theorems": [
    "C25_mad_exact",
    "C25_gini_rmad_exact",
    "C25_gini_range",
    "C25_order_independent",
    "C25_nan_refuted"
   ],
   "note": "Pairwise formulas, zero denominators and the range of gini in exact arithmetic; order independence in any arithmetic, for any sort meeting the std::sort contract. NaN input is undefined behaviour (C25_nan_refuted)."
  },
  {
   "property": "C26",
   "status": "partial",
   "theorems": [
    "C26_vnorm_finite",
    "C26_vnorm_inf",
    "C26_vnorm_zero_iff",
    "C26_vnorm_homogeneous",
    "C26_vnorm_bad_order",
    "C26_vnorm_inf_ieee",
    "C26_infinite_element_refuted",
    "C26_nan_refuted",
    "C26_int_counter_refuted"
   ],
   "note": "Exact formulas for every order, zero/homogeneity, invalid orders, IEEE maximum norm. NaN elements do not propagate (C26_nan_refuted), an infinite element gives NaN (C26_infinite_element_refuted), more than 2^31-1 elements overflow the int counter (C26_int_counter_refuted)."
  },
  {
   "property": "C27",
   "status": "partial",
   "theorems": [
    "C27_rms_any_arithmetic",
    "C27_crms_any_arithmetic",
    "C27_rms_exact",
    "C27_crms_exact",
    "C27_vdot_any_arithmetic",
    "C27_vdot_exact",
    "C27_vdot_linear",
    "C27_vdot_symmetric_ieee",
    "C27_vdot_int_counter_refuted",
    "C27_vdot_bound",
    "C27_rms_bound",
    "C27_crms_bound"
   ],
   "note": "rms for real and complex data in any arithmetic and layout, vdot for up to 2^31-1 elements; rounding error bounds in every IEEE format (C27_vdot_bound, C27_rms_bound, C27_crms_bound). Above 2^31-1 elements the int counter of vdot overflows (C27_vdot_int_counter_refuted)."
  },
  {
   "property": "C28",
   "status": "partial",
   "theorems": [
    "C28_pearson_exact",
    "C28_pearson_constant",
    "C28_pearson_constant_ieee",
    "C28_pearson_nan_ieee",
    "C28_pearson_two_float",
    "C28_pearson_undefined_float",
    "C28_pearson_short",
    "C28_above_one_refuted"
   ],
   "note": "Formula, range, symmetry, affine and constant cases in exact arithmetic; constant and NaN data in every IEEE format; two floating observations give NaN, 1 or -1 exactly as specified (C28_pearson_two_float); fewer than two observations. In double precision the result can exceed 1 (C28_above_one_refuted)."
  },
  {
   "property": "C29",
   "status": "proved",
   "theorems": [
    "C29_wjaccard_exact",
    "C29_wjaccard_range",
    "C29_wjaccard_symmetric",
    "C29_wjaccard_nan",
    "C29_wjaccard_bound"
   ],
   "note": "Exact arithmetic for any element type; NaN propagation in any arithmetic; relative error bound in every IEEE format for non-negative finite weights (C29_wjaccard_bound). For negative data with sum of maxima 0 the result is -inf or NaN (C29_wjaccard_exact)."
  },
  {
   "property": "C30",
   "status": "proved",
   "theorems": [
    "C30_softmax_exact",
    "C30_softmax_shift",
    "C30_softmax_nan",
    "C30_softmax_many_inf",
    "C30_softmax_one_inf",
    "C30_softmax_all_neginf",
    "C30_softmax_ieee"
   ],
   "note": "Exact formula, sum, range, order and shift invariance; special values in any arithmetic; range and order in every IEEE format for any monotone exp with exp(0)=1 and values in [0,1] on the nonpositive axis."
  },
  {
   "property": "C31",
   "status": "partial",
   "theorems": [
    "C31_hmeanw_bound",
    "C31_gmean_exact",
    "C31_hmean_exact",
    "C31_pmean_exact",
    "C31_gmeanw_exact",
    "C31_hmeanw_exact",
    "C31_pmeanw_exact",
    "C31_pmean_small",
    "C31_pmeanw_small",
    "C31_pmean_small_accuracy",
    "C31_pmeanw_small_accuracy",
    "C31_pmean_small_refuted",
    "C31_pmean_one",
    "C31_pmean_hmean",
    "C31_pmean_gmean",
    "C31_pmeanw_hmean",
    "C31_pmeanw_gmean",
    "C31_pmean_inf",
    "C31_pmean_ordered",
    "C31_pm_between",
    "C31_pm_mono",
    "C31_pm_homogeneous",
    "C31_pm_perm",
    "C31_equal_weights",
    "C31_pmean_nonneg",
    "C31_pmeanw_nonneg",
    "C31_pmean_zero",
    "C31_hmean_zero",
    "C31_pmean_bad",
    "C31_gmean_nan",
    "C31_gmeanw_nan",
    "C31_gmean_zero_inf",
    "C31_gmean_inf",
    "C31_gmean_zero",
    "C31_gmeanw_zero_weight",
    "C31_rows",
    "C31_hmean_negative_refuted",
    "C31_gmean_neginf_refuted",
    "C31_gmeanw_zero_weights_refuted",
    "C31_pmean_small_zero_refuted"
   ],
   "note": "Exact arithmetic: gmean/hmean/pmean and the weighted forms equal the power mean for positive data (p = 0, -1 and |p| >= 2e-6); power-mean inequality, bounds, homogeneity, equal weights, zeros, p = +-inf. For 0 < |p| < 2e-6 the code uses a first-order approximation: its formula and its distance from the power mean are proved (C31_pmean_small, C31_pmean_small_accuracy and the weighted forms); equality with the power mean is false there (C31_pmean_small_refuted: half a percent off for [2^-500, 2^500] at p = 1.9e-6). 'Negative x gives NaN for every p' is false for p = -1 (C31_hmean_negative_refuted). Other surprising cases are refuted theorems. Rounding: hmeanw on positive data without underflow is within ((1+u)^(3n+4)-1) of the exact value, relatively, for any number n of values (C31_hmeanw_bound)."
  },
  {
   "property": "C32",
   "status": "partial",
   "theorems": [
    "C32_general_bound",
    "C32_fast_bound",
    "C32_paths_bound",
    "C32_overflow_refuted",
    "C32_interp_general",
    "C32_interp_fast",
    "C32_interp_exact",
    "C32_interp_nan",
    "C32_paths_refuted",
    "C32_nan_one_node_refuted",
    "C32_empty_refuted"
   ],
   "note": "Proved for non-NaN strictly increasing nodes, n >= 1. Rounding: each path is within line_err of the line in every binary format (C32_general_bound, C32_fast_bound), so the two paths agree up to rounding (C32_paths_bound), provided the distance of the two nodes does not overflow. False in the cases of C32_paths_refuted (the two paths are not bitwise equal), C32_overflow_refuted (the distance of two finite nodes overflows: 0 instead of 4), C32_nan_one_node_refuted (NaN x with one node reads xp[1]) and C32_empty_refuted."
  },
  {
   "property": "C33",
   "status": "partial",
   "theorems": [
    "C33_area",
    "C33_nonneg",
    "C33_permutation",
    "C33_translation",
    "C33_scaling",
    "C33_plane",
    "C33_space",
    "C33_degenerate",
    "C33_permutation_ieee",
    "C33_nonneg_ieee",
    "C33_coincident_ieee",
    "C33_degenerate_ieee_refuted",
    "C33_area_bound",
    "C33_indexed",
    "C33_indexed_out_of_range",
    "C33_indexed_no_stray_read"
   ],
   "note": "Exact arithmetic: the code computes the Gram area (C33_area), which has all the stated geometric properties, for every dimension and layout. IEEE, every format: permutation invariance holds bit for bit, the result is NaN or >= 0, coincident vertices give 0. Not provable because false: in double precision a collinear triple can give NaN or a positive area (C33_degenerate_ieee_refuted). Otherwise the relative error is bounded explicitly (C33_area_bound) in every format, given the aspect ratio and no underflow."
  },
  {
   "property": "C34",
   "status": "proved",
   "theorems": [
    "C34_cross3",
    "C34_cross2",
    "C34_orthogonal",
    "C34_antisymmetric",
    "C34_linear_left",
    "C34_linear_right",
    "C34_lagrange",
    "C34_jacobi",
    "C34_cross3_polynomial",
    "C34_cross2_polynomial",
    "C34_cross3_antisymmetric_ieee",
    "C34_cross3_self_ieee",
    "C34_cross2_antisymmetric_ieee",
    "C34_cross3_int",
    "C34_cross2_int",
    "C34_cross2_int_defined",
    "C34_cross3_object",
    "C34_cross2_object",
    "C34_cross3_bound",
    "C34_cross2_bound"
   ],
   "note": "Exact reals, any arithmetic (same polynomial), IEEE antisymmetry in every format, signed integers (exact iff no intermediate overflow), Python objects with arbitrary history-dependent operators. Rounding: every finite component is within prod2_err of the exact one (C34_cross3_bound, C34_cross2_bound). Reference counts: C65."
  },
  {
   "property": "C35",
   "status": "partial",
   "theorems": [
    "C35_linearstep",
    "C35_smoothstep3",
    "C35_smoothstep5",
    "C35_jump",
    "C35_bad_interval",
    "C35_ends",
    "C35_step",
    "C35_step_monotone",
    "C35_nan",
    "C35_nan_refuted",
    "C35_between_ieee_refuted",
    "C35_linearstep_bound",
    "C35_smoothstep3_bound",
    "C35_smoothstep5_bound",
    "C35_overflow_refuted"
   ],
   "note": "Shape (end values, strict monotonicity, bounds, midpoint symmetry, continuity; C1/C2 joins for the smoothsteps) proved in exact arithmetic for all a<b; branch behaviour and NaN rules in every arithmetic with the comparison laws. The NaN part of the statement is false: step(NaN)=fa, linearstep(NaN) with a==b is finite, NaN a with x>=b gives fb (C35_nan_refuted). In double precision linearstep/smoothstep can leave [fa,fb] by rounding (C35_between_ieee_refuted). In every format with at least 11 bits a finite result is within an explicit bound of the exact step (C35_linearstep_bound, C35_smoothstep3_bound, C35_smoothstep5_bound) unless b - a overflows (C35_overflow_refuted: 0 instead of 4)."
  },
  {
   "property": "C36",
   "status": "proved",
   "theorems": [
    "C36_inverse_left",
    "C36_inverse_right",
    "C36_outside",
    "C36_reversed_interval_refuted"
   ],
   "note": "Inverse in both directions for all a<b, fa<>fb in exact arithmetic with exact sin/asin; NaN outside. Also shows a>b is not rejected, unlike smoothstep3 (C36_reversed_interval_refuted)."
  },
  {
   "property": "C37",
   "status": "proved",
   "theorems": [
    "C37_hyperbolic_ramp",
    "C37_exponential_ramp",
    "C37_hyperbolic_decay",
    "C37_exponential_decay",
    "C37_zero_width",
    "C37_negative_width",
    "C37_infinities",
    "C37_unit_at_zero_refuted",
    "C37_hyperbolic_bound",
    "C37_overflow_refuted"
   ],
   "note": "Exact arithmetic, all x and a>=0; closed forms, decay rates of the gap and values at the infinities included. Header comment 'ramps are 1 at 0 for all a' refuted (value is a). In every IEEE format with at least 11 bits (half to quad) a finite hyperbolic_ramp(x, a), a > 0, is within 13 u (relative) plus (3a+1) half units of the smallest subnormal of the exact ramp whenever x / a does not overflow; when it does overflow the result is inf although the exact value is about x (refuted)."
  },
  {
   "property": "C38",
   "status": "proved",
   "theorems": [
    "C38_exponential",
    "C38_linear",
    "C38_spherical",
    "C38_parabolic",
    "C38_nan",
    "C38_linear_bound",
    "C38_spherical_bound",
    "C38_parabolic_bound",
    "C38_exponential_bound"
   ],
   "note": "Exact arithmetic, all h>=0, nugget<=sill, range>0; NaN propagation in any arithmetic. Rounding: all four models are within explicit bounds of the exact variogram in every format with at least 11 bits; for semivar_exponential the library's exp is assumed accurate to K/2 units in the last place."
  },
  {
   "property": "C39",
   "status": "proved",
   "theorems": [
    "C39_logistic",
    "C39_infinities",
    "C39_logistic_ieee",
    "C39_swish_limit",
    "C39_swish_neginf_refuted",
    "C39_logistic_bound",
    "C39_logistic_deriv_bound",
    "C39_log_logistic_bound",
    "C39_swish_bound"
   ],
   "note": "Exact identities over the reals incl. derivative (derivable_pt_lim) and limits; IEEE: logistic in [0,1] and monotone for any nonnegative monotone exp. swish(-inf,1)=NaN although the limit is 0 (C39_swish_neginf_refuted). Accuracy in every IEEE format with at least 11 bits, for exp and log1p within K/2 units in the last place (K <= 8): logistic (11/10 K + 3) u, logistic_deriv (3K + 8) u, log_logistic (4K + 1) u, all relative, tails included (up to underflow; unless 1 + exp(-x) overflows). swish: (11/10 K + 6) u, relative to x."
  },
  {
   "property": "C40",
   "status": "proved",
   "theorems": [
    "C40_consistent",
    "C40_cdf_ieee",
    "C40_integral"
   ],
   "note": "For every erfc/erfcx with reflection, positivity and erfcx = exp(x^2) erfc; IEEE range [0,1] for any erfc with values in [0,2]. With the exact erfc, normal_cdf is the integral of the density (C40_integral)."
  },
  {
   "property": "C41",
   "status": "proved",
   "theorems": [
    "C41_inverse_left",
    "C41_inverse_right",
    "C41_increasing",
    "C41_outside"
   ],
   "note": "All real x and lambda, four branches; range characterised, NaN/inf outside it."
  },
  {
   "property": "C42",
   "status": "proved",
   "theorems": [
    "C42_exact",
    "C42_limits",
    "C42_inf_zero_refuted"
   ],
   "note": "All x>-1; x=-1 and x<-1 limits. pow1pm1(inf,0)=NaN instead of 0 (C42_inf_zero_refuted)."
  },
  {
   "property": "C43",
   "status": "proved",
   "theorems": [
    "C43_next_greater",
    "C43_next_less",
    "C43_mirror",
    "C43_round_trip",
    "C43_nextn_greater",
    "C43_nextn_less"
   ],
   "note": "Every binary format, every n, all strides."
  },
  {
   "property": "C44",
   "status": "partial",
   "theorems": [
    "C44_nan_to_num",
    "C44_hypot3",
    "C44_hypot3_nan",
    "C44_trapezoid_nan",
    "C44_steps_nan",
    "C44_deadzone_nan",
    "C44_step_nan",
    "C44_deadzone_nan_refuted"
   ],
   "note": "Every arithmetic with NaN propagation (IEEE instance given). False for deadzone (NaN -> 0) and step (NaN -> fa): C44_deadzone_nan_refuted, C44_deadzone_nan, C44_step_nan, C35_nan_refuted."
  },
  {
   "property": "C45",
   "status": "proved",
   "theorems": [
    "C45_hypot3_exact",
    "C45_hypot3_symmetric",
    "C45_hypot3_abs",
    "C45_abs_squared",
    "C45_abs_squared_real",
    "C45_abs_squared_real_ieee",
    "C45_abssq_real",
    "C45_abssq_complex",
    "C45_abs_squared_bound",
    "C45_abssq_complex_bound",
    "C45_abssq_real_bound"
   ],
   "note": "Exact identities; abssq contiguous and strided paths for all strides in every arithmetic. std::hypot itself is taken as exact in the exact instance. Rounding: a finite abs_squared or abssq result is within prod2_err (complex) or u x^2 + eta/2 (real) of the exact value, in every binary format."
  },
  {
   "property": "C46",
   "status": "proved",
   "theorems": [
    "C46_deadzone",
    "C46_deadzone_ieee",
    "C46_trapezoid",
    "C46_trapezoid_bad",
    "C46_trapezoid_bound"
   ],
   "note": "All reals; deadzone monotone also in IEEE arithmetic of every format. Rounding: trapezoid_pulse is within 6 u |amp| + eta/2 of the exact pulse unless b - a or d - c overflows (C35_overflow_refuted)."
  },
  {
   "property": "C47",
   "status": "proved",
   "theorems": [
    "C47_issnan_half",
    "C47_issnan_float",
    "C47_issnan_double",
    "C47_issnan_double_ieee",
    "C47_issnan_float_ieee"
   ],
   "note": ""
  },
  {
   "property": "C48",
   "status": "partial",
   "theorems": [
    "C48_itemsize",
    "C48_accepts",
    "C48_entries",
    "C48_call_partial",
    "C48_reduce",
    "C48_gufunc",
    "C48_empty",
    "C48_smaller_result",
    "C48_retyped_result",
    "C48_no_overflow_refuted"
   ],
   "note": "Acceptance of the two ufuncs, the loop table (exactly the composable pairs, in order, indices not truncated), n = 0, and the result of every call whose sum loop returns the type it takes (reduction and gufunc) are proved over a byte memory with arbitrary strides. Item sizes follow from the formats (C48_itemsize). The full statement is false: pairs whose sum changes the type are in the table too; C48_smaller_result / C48_no_overflow_refuted show the temporary buffer is overrun when the result type is smaller, C48_retyped_result that raw product bytes are delivered when it has the same size. NumPy's inner loops are a contract (loop2, loop1), the conversion of the identity and the type codes are not modelled."
  },
  {
   "property": "C49",
   "status": "proved",
   "theorems": [
    "C49_logbeta_Gamma",
    "C49_logbeta_integers",
    "C49_lgamma_exists",
    "C49_logbeta_exact",
    "C49_logbeta_order_independent",
    "C49_logbeta_empty",
    "C49_logbeta_single"
   ],
   "note": "For an arbitrary lgamma the symmetry and the formulas used; for lgamma = ln of Euler's integral the value is the logarithm of Gamma(a)Gamma(b)/Gamma(a+b) (C49_logbeta_Gamma) and, at integers, of the factorials (C49_logbeta_integers). The C library's lgamma itself is not modelled."
  },
  {
   "property": "C50",
   "status": "partial",
   "theorems": [
    "C50_doubledouble",
    "C50_minus_one",
    "C50_infinite",
    "C50_float",
    "C50_theorem4",
    "C50_two_sum_ieee",
    "C50_two_sum_quick_ieee",
    "C50_square_ieee",
    "C50_accuracy_ieee",
    "C50_real_part_ieee",
    "C50_near_circle_ieee",
    "C50_error_ieee",
    "C50_float_accuracy_refuted",
    "C50_theorem4_ieee",
    "C50_loop"
   ],
   "note": "Exact arithmetic: log1p_doubledouble, its float variant and log1p_theorem4 equal the principal logarithm of 1+z for every finite z except -1 (real part -inf there, +inf at infinities). IEEE double: two_sum, two_sum_quick and square are error-free in the stated ranges; with log, log1p, hypot and atan2 accurate to one ulp, both parts of log1p_doubledouble are accurate on the whole plane (C50_error_ieee: real part 23*2^-53 relative + 2^-97, 5*2^-53 + 2^-97 near the circle, imaginary part 3.1*2^-53 relative, sign of a zero imaginary part included). Refuted for complex64: the sum is formed in plain double and a relative error of 3e-4 is reached (C50_float_accuracy_refuted)."
  },
  {
   "property": "C51",
   "status": "partial",
   "theorems": [
    "C51_Gamma_exists",
    "C51_Gamma_unique",
    "C51_Gamma_factorial",
    "C51_Gamma_recurrence",
    "C51_loggamma1p",
    "C51_loggamma1p_special",
    "C51_loggamma1p_loop",
    "C51_loggamma1p_ieee",
    "C51_loggamma1p_loop_ieee",
    "C51_logfactorial",
    "C51_logfactorial_negative",
    "C51_logfactorial_defined",
    "C51_logfactorial_loop",
    "C51_logfactorial_ieee",
    "C51_logfactorial_loop_ieee",
    "C51_expint1",
    "C51_E1_exists",
    "C51_E1_unique",
    "C51_logexpint1",
    "C51_expint1_special",
    "C51_logexpint1_special",
    "C51_expint1_defined_ieee",
    "C51_logexpint1_defined_ieee",
    "C51_expint1_nan_refuted",
    "C51_logexpint1_nan_ieee",
    "C51_expint1_inf_ieee",
    "C51_logexpint1_inf_ieee",
    "C51_expint1_ieee",
    "C51_logexpint1_ieee",
    "C51_debye1",
    "C51_D1_exists",
    "C51_D1_unique",
    "C51_debye1_loop",
    "C51_debye1_cell_ieee",
    "C51_debye1_defined_ieee",
    "C51_debye1_inf_ieee",
    "C51_debye1_nan_ieee",
    "C51_debye1_ieee",
    "C51_debye1_loop_ieee",
    "C51_loggamma1p_domain_ieee",
    "C51_loggamma1p_branch_ieee"
   ],
   "note": "Exact arithmetic: logfactorial within 1.4e-16 relative of ln k! for every k>=0 and NaN for k<0; expint1 within 2.4e-16 relative of E1(x) for every real x>0 (E1 defined as an improper integral, proved to exist and be unique), logexpint1 correspondingly close to ln E1; debye1 within 3.2e-15 relative of D1(x) for every real x; loggamma1p within 3.82e-16 of ln Gamma(1+x) for every real x > -1 (2.88e-16 for x >= 0.9; within 5.2e-17 and within 3.8e-16|x| on (-0.25, 0.9)), Gamma being Euler's integral, proved to exist, to be unique and to extend the factorial; NaN for x <= -1. IEEE double (any libm log/exp/log1p): the table index / int conversions are defined for every non-NaN input, the chosen debye1 cell contains x up to 4e-16 relative, debye1 at every finite double (all rounding errors of index, Horner scheme and asymptotic branch included) is finite and within (u*2^-53 + 8e-15) relative of D1(x), u = 10 for |x| <= 2, 500 for 2 < |x| < 20 and 6 above, special values, loggamma1p domain and branch selection. expint1(NaN) is undefined behaviour (_refuted). When the C library's exp/log/log1p are within one unit in the last place (satisfiable: proved for correctly rounded ones), expint1 at every finite double x > 0 is finite and within (6 E1 + 3 + 31x) 2^-53 of E1(x) for x <= 1, within (10*2^-53 + 2.4e-16) relative (plus 2^-1073) above, whether long double is the 80-bit format or double; logexpint1 is within (180 + 3|ln E1|) 2^-53 for x <= 1 and (10 + 4|ln E1|) 2^-53 above. logfactorial at every int64 k >= 0 is finite and within 10*2^-53 relative of ln k!. loggamma1p at every finite double -1 < x <= 2^980 is finite and within 80*2^-53 |x| + 2^-1070 of ln Gamma(1+x) on (-1/4, 0), 15*2^-53 x + 2^-1070 on [0, 0.9], and (110 + 5|ln Gamma| + 10 (x + 3/2) ln(x + 7)) 2^-53 elsewhere. Partial only because expint1(NaN) is undefined behaviour in the source."
  },
  {
   "property": "C52",
   "status": "partial",
   "theorems": [
    "C52_one_hot",
    "C52_convert_to_base",
    "C52_nextn_greater",
    "C52_nextn_less",
    "C52_bincount",
    "C52_bincount_weights",
    "C52_axis_errors",
    "C52_axis_never_accepted",
    "C52_out_shape_errors",
    "C52_negative_n_errors",
    "C52_argument_errors",
    "C52_bincount_errors",
    "C52_bincount_weights_errors",
    "C52_axis_error_refuted"
   ],
   "note": "All shapes, axes and out arguments for bincount (with and without weights, given or default m), convert_to_base, one_hot and nextn_*: shape, every element, and the errors. NumPy's own behaviour (broadcasting, gufunc loops, allocation) is specified, not modelled from source; dtype casting is not modelled. False in one case: axis = ndim + 1 together with an out array of another shape gives ValueError instead of AxisError (C52_axis_error_refuted); some error is raised for every out-of-range axis (C52_axis_never_accepted)."
  },
  {
   "property": "C53",
   "status": "proved",
   "theorems": [
    "C53_public_names",
    "C53_unknown_names",
    "C53_only_attribute_errors",
    "C53_semivar",
    "C53_all_contents",
    "C53_all_sorted",
    "C53_eager_names",
    "C53_deleted_names",
    "C53_erfcx_listed_refuted",
    "C53_submodule_visibility"
   ],
   "note": "All names, all histories of attribute accesses. The table of modules and the names they define is part of the model. Submodules become visible after a public name has loaded them (C53_submodule_visibility)."
  },
  {
   "property": "C54",
   "status": "partial",
   "theorems": [
    "C54_roundtrip",
    "C54_tables",
    "C54_loop_names",
    "C54_duplicate_refuted",
    "C54_only_long_refuted",
    "C54_object_name_refuted"
   ],
   "note": "Proved for every list of sources with at least one signature each, equal arity and no duplicate; the function table and the type code table agree row by row. Refuted for duplicates and for a source that only has long double signatures where long double is double."
  },
  {
   "property": "C55",
   "status": "partial",
   "theorems": [
    "C55_to_lines",
    "C55_terminates_partial",
    "C55_diverges",
    "C55_terminates_refuted"
   ],
   "note": "Whenever to_lines returns, the fold is lossless and every line is shorter than 80 characters; it returns if every part fits on a continuation line. It loops forever when a part is too long (C55_diverges, C55_terminates_refuted)."
  },
  {
   "property": "C56",
   "status": "partial",
   "theorems": [
    "C56_nonzero_coredims",
    "C56_select",
    "C56_percentileofscore",
    "C56_stat",
    "C56_signal",
    "C56_softmax",
    "C56_backlash_sum",
    "C56_sosfilter",
    "C56_int",
    "C56_interp",
    "C56_interp_refuted",
    "C56_means_empty"
   ],
   "note": "The generated check of nonzero_coredims is proved for every signature; the means reject an empty core dimension; every core without such a check is shown to read nothing and to be defined at n = 0, except linear_interp1d when x and xp are common to all iterations, which reads xp[0] and xp[-1] (C56_interp_refuted). percentileofscore of an empty array is 0/0."
  },
  {
   "property": "C57",
   "status": "partial",
   "theorems": [
    "C57_cross2_partial",
    "C57_cross3_partial",
    "C57_loop_refuted"
   ],
   "note": "Proved within one slice for the object cores of cross2 and cross3; refuted across slices: the generated loop continues after an exception."
  },
  {
   "property": "C58",
   "status": "proved",
   "theorems": [
    "C58_check_params"
   ],
   "note": "Both directions, all lists. Default values are kept as text."
  },
  {
   "property": "C59",
   "status": "partial",
   "theorems": [
    "C59_erfcx_exists_unique",
    "C59_float",
    "C59_double",
    "C59_longdouble",
    "C59_overflow",
    "C59_special",
    "C59_nan_refuted",
    "C59_float_five_refuted",
    "C59_logcdf_double",
    "C59_logcdf_float",
    "C59_logcdf_longdouble",
    "C59_logsf_double",
    "C59_logcdf_special",
    "C59_ieee_middle",
    "C59_ieee_large",
    "C59_ieee_negative",
    "C59_ieee_edges",
    "C59_ieee_defined"
   ],
   "note": "Relative error for all x >= the lower limit with exact arithmetic (float 2.65e-7, double 3.83e-17, long double 5.51e-20), against the improper integral; overflow region; log cdf/sf. In IEEE double, every operation and literal rounded: 15*2^-53 relative on (0,50], 5*2^-53 (+2^-1075) above 50, (2x^2+21)*2^-53 below 0 for an exp within one ulp, no spurious overflow. Missing: rounding errors of the float and long double versions and of log cdf, and NaN is refuted (conversion of NaN to int)."
  },
  {
   "property": "C60",
   "status": "proved",
   "theorems": [
    "C60_expand",
    "C60_total",
    "C60_plain",
    "C60_blocks_sorted",
    "C60_shadow_refuted"
   ],
   "note": "For every well-formed template of any depth; termination for every text. The search for blocks is proved to find them in order, so the sort in the code changes nothing. A name declared in two nested blocks has the outer value (C60_shadow_refuted shows that the inner declaration is ignored)."
  },
  {
   "property": "C61",
   "status": "partial",
   "theorems": [
    "C61_values",
    "C61_heading",
    "C61_zero_refuted"
   ],
   "note": "Proved for counts from 1; refuted for count 0 (one empty value)."
  },
  {
   "property": "C62",
   "status": "partial",
   "theorems": [
    "C62_undefined",
    "C62_first_block",
    "C62_unclosed_refuted",
    "C62_no_final_newline_refuted",
    "C62_exclude_refuted",
    "C62_accepted_iff",
    "C62_rejected_iff"
   ],
   "note": "For every template built of text, names and blocks (the predicate good): C62_accepted_iff says exactly which are expanded, and C62_rejected_iff says that the error and line reported are those of the first error in reading order, at any depth. Refuted: an unclosed block and an end marker without a newline are accepted, exclusions are ignored."
  },
  {
   "property": "C63",
   "status": "partial",
   "theorems": [
    "C63_own_loop",
    "C63_order",
    "C63_values",
    "C63_least",
    "C63_real_functions",
    "C63_int64_refuted",
    "C63_cross_refuted",
    "C63_total_refuted"
   ],
   "note": "All tables and all argument types. Values are preserved except 64-bit integers above 2^53, which the type rules send to double (refuted for searchsorted and cross3); ten functions reject some real types (C63_total_refuted)."
  },
  {
   "property": "C64",
   "status": "proved",
   "theorems": [
    "C64_hand_written"
   ],
   "note": "The tables are transcribed from the C sources with the types each loop body uses."
  },
  {
   "property": "C65",
   "status": "partial",
   "theorems": [
    "C65_first_counts",
    "C65_ext_argext_counts",
    "C65_minmax_counts",
    "C65_cross2_counts",
    "C65_cross3_counts",
    "C65_peaktopeak_slice_counts",
    "C65_first_balanced",
    "C65_ext_argext_balanced",
    "C65_minmax_balanced",
    "C65_cross2_balanced",
    "C65_cross3_balanced",
    "C65_peaktopeak_balanced",
    "C65_first_borrowed",
    "C65_ext_argext_borrowed",
    "C65_minmax_borrowed",
    "C65_peaktopeak_borrowed",
    "C65_cross2_borrowed",
    "C65_cross3_borrowed",
    "C65_out_leak_refuted",
    "C65_use_after_free_refuted"
   ],
   "note": "Proved for every honest Python code with a new output array, exceptions included. Refuted for an output array that already holds objects (leak) and for Python code that replaces elements of an input array (use after free). Destructors are not modelled."
  },
  {
   "property": "C66",
   "status": "proved",
   "theorems": [
    "C66_module",
    "C66_accepts",
    "C66_names_apart",
    "C66_repository",
    "C66_duplicate_signature_refuted",
    "C66_duplicate_name_refuted",
    "C66_arity_refuted",
    "C66_header_files_refuted",
    "C66_header_guards_refuted"
   ],
   "note": "For all configurations with distinct ufunc names and distinct signatures of equal arity; instantiated for all 14 define_cxxgen_extmods.py files. The generator does not check these conditions: refuted with witnesses for duplicates, mixed arity and clashing header names."
  },
  {
   "property": "C67",
   "status": "partial",
   "theorems": [
    "C67_ufunc_docstring_partial",
    "C67_gufunc_docstring_partial",
    "C67_quote_refuted",
    "C67_backslash_refuted",
    "C67_newline_refuted",
    "C67_empty_refuted",
    "C67_macro_case_refuted",
    "C67_macro_module_refuted"
   ],
   "note": "Proved for docstrings without quotation marks and backslashes (for gufuncs: nonempty, line breaks only newlines, up to a final newline). Refuted for the others and for macro names that clash."
  }
 ]
}