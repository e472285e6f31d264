# Formal model of ufunclab in Rocq (Coq 8.16.1)

## 1. What is modelled

`/repo` implements NumPy ufuncs/gufuncs as C/C++ *core* functions (templates over the element
type), Python code generators that wrap the cores in loops, and thin Python wrappers. The model is
a set of total, mostly computable Gallina functions mirroring those functions branch by branch.
Every model definition carries a comment with the file and lines it models; simplifications are
named there.

### Semantic domains

* **UB monad** (`CSem.v`): `M A := option A`; `None` is "undefined behaviour" — a read or write of
  memory not owned by the operand, a division by zero of integers. `for`-loops are
  `loop_from`/`for_loop` with `Next/Break/Ret` control (structural recursion on the trip count).
* **Strided memory** (`CSem.v`): an operand's memory is `mem T := Z -> option T` (byte address of an
  element -> element). `get/set(p, stride, k)` of `src/util/strided.hpp` are `m (p + k*stride)`
  and the corresponding update; `None` is an access outside the array. Every operand has its own
  memory (NumPy copies overlapping operands before calling a loop: trusted).
* **Comparisons**: C's `<,<=,==,!=,>,>=` on any element type are derived from one function
  `cmp : T -> T -> option comparison` (`None` = unordered, i.e. NaN). The order laws are proved for
  Z (all integer dtypes) and for Flocq's `binary_float prec emax` for *every* precision (so for
  float, double and the 80-bit long double at once).
* **Arithmetic**: templates over floating types are modelled over an arithmetic record `arith T`,
  used at (a) `ER`, the reals extended with +inf, -inf, NaN with exact, IEEE-shaped
  operations, and (b) Flocq `binary_float prec emax` with round-to-nearest-even operations.
  Statements about formulas use (a) ("exact arithmetic" in the property text), statements about
  special values, selection and error-free transformations use (b).
* **Integers**: Z with explicit wrap-around (`mod 2^w`) where the width matters.
* **Python objects**: an arbitrary type with an oracle `cmp : op -> obj -> obj -> option bool`
  (`None` = exception raised).
* **Generators/wrappers**: Python strings/tuples as lists; the generated C call as a list of
  argument expressions with an interpreter.

### Layering of files (`rocq/theories`)

`CSem.v`, `Num.v` (domains) -> `M_*.v` (model, no proofs) -> `S_*.v` (specifications, independent of
the model) -> `P_*.v` (proofs) -> `C_*.v` (property theorems, each closed by `exact`, with
`Print Assumptions` and an `Example` showing the hypotheses are met).

## 2. Property plan

(see `properties.jsonl` for the full statements)

| id | modelled | proof idea |
|----|----------|------------|
| C01 | memory-level cores of the listed gufuncs | each core = list function when the list is laid out at (p, stride); so equal lists give equal results and no `None`. kbnsum ignores the stride in one branch: refuted + positive theorem for contiguous data |
| C02 | generated outer loop as fold over loop indices | induction on loop count, frame lemma |
| C03 | `parse_gufunc_signature`, `generate_concrete_loop` on token lists | index arithmetic by induction over the operand list |
| C04, C05 | `first`, `argfirst` for all op codes | loop = `find` on the list; prefix characterisation |
| C06 | object loops with oracle | induction; equality with the typed version when no error |
| C07 | `all_same_core` | induction with the order laws |
| C08 | `ordered_core` (+object) | induction; NaN and object cases refuted with witnesses |
| C09 | minmax family | loop invariants; NaN cases from the order laws |
| C10 | peaktopeak, wrapping subtraction | `mod 2^w` arithmetic |
| C11 | both binary searches | invariant lo/hi; fuel bound |
| C12 | counts and formulas over ER | list induction; monotonicity of counts |
| C13, C14 | bincount loops with casts; wrapper's default m with NEP 50 wrap | induction; refutation at 2^63 and at dtype max |
| C15 | digits loop with truncated division | induction, Z.quot/Z.rem |
| C16 | memset/loop + set | memory frame lemmas |
| C17 | fillnan1d | loop invariant on last non-NaN |
| C18, C19, C20, C21 | signal operators as state machines | induction over the signal; chunking by fold_app |
| C22 | the three sosfilter cores over an abstract ring | loop interchange (sample-major vs section-major) |
| C23 | KBNSummer over arith | exact: algebra; IEEE: Flocq error-free transformation |
| C24 | Welford update | invariant M2 = sum (x-mean)^2 |
| C25 | sort + weighted sum | permutation/sortedness, double-sum identity |
| C26, C27 | vnorm/rms/vdot | Rpower algebra; scaling |
| C28 | pearson | Cauchy-Schwarz |
| C29 | wjaccard | order of min/max sums |
| C30 | softmax | exp algebra |
| C31 | means | Rpower/ln algebra; refutation of the documented NaN rule at p=-1 |
| C32 | search + interpolation | bracketing invariant; refutations at n=0 and NaN |
| C33, C34 | geometry | polynomial identities (ring/nsatz/field) |
| C35-C38, C39-C42, C46 | elementwise formulas over ER/R | real analysis (lra, nra, exp/ln lemmas) |
| C43 | Bsucc/Bpred of Flocq | order characterisation of successor |
| C44, C45 | special values on binary_float | case analysis; refutations |
| C47 | bit masks on Z | Z.testbit / div-mod arithmetic |
| C48 | gendot loop, reduce, loop selection | fold equality under equal item sizes; refuted otherwise |
| C49 | multivariate_logbeta | permutation invariance |
| C50 | two_sum etc. on binary64 | Flocq Pff2Flocq theorems |
| C51 | tables, series, continued fraction, piecewise polynomials | truncation-error bounds over R (Stirling series, E1 by differential equation, D1 by term-wise integration, the gamma function by a bound on the second difference of Lanczos' formula, the Pade approximant by a bound on a second derivative and enclosures at 47 nodes), tables checked by integer interval arithmetic in the kernel; IEEE: branch and index selection |
| C52, C53 | wrappers, lazy loader | list arithmetic, table lookup |
| C54, C55 | generator helpers | list induction; non-termination refuted with witness |
| C56 | zero-length guards | case n = 0 |
| C63-C64 | type tables of all ufuncs, safe casts, search for a loop | value sets of the types (Flocq formats) are included along casts; tables checked by computation; least type by the order of float, double, long double |
| C65 | object cores once more, with reference counts and a heap that Python code may change | ghost count of references held elsewhere; each step of a core changes the difference by a known amount; simulation of the models without counts |
| C66, C67 | generator of elementwise ufuncs as the declarations it writes; docstring macros as text | function names are injective in name and signature, so each reference resolves to one definition; a reader of C string literals inverts the macros |
| C60-C62 | template expander as a function on texts | templates as trees; source text of a tree expands to its meaning by induction on tree and nesting; totality by progress of the search position |

Not modelled: NumPy itself (type resolution, broadcasting, iterator, buffer overlap copies),
destructors of Python objects, the C library's transcendental functions (abstract in the IEEE instance,
mathematical functions in the exact instance), compilers, UB other than the accesses listed above, performance.

## 3. Trusted base

* Coq's kernel (8.16.1), its standard library and the axioms of section 5. Flocq and Coquelicot are
  used as libraries of definitions and lemmas; they add no axioms of their own.
* The reading of `/repo` recorded in the comments of the `M_*.v` files.
* The specifications in `S_*.v` and the statements in `C_*.v`.

Modelled from source, function by function: all cores in `src/*/` listed in the comments of
`M_Select`, `M_Obj`, `M_Ref`, `M_Int`, `M_Signal`, `M_Stat`, `M_Means`, `M_Elem`, `M_Geom`, `M_Special`, `M_Log1p`,
`M_Erfcx`, `M_Gendot`; the loops written by `tools/cxxgen` (`M_Gen`, `M_Entry`), the modules it writes for elementwise ufuncs and its
docstring macros (`M_Cxx`); the Python wrappers in `ufunclab/`
(`M_Wrap`), the lazy loader (`M_Init`), the wrapper generator (`M_Uwrap`) and the template expander
`tools/conv_template.py` (`M_Template`; without `process_file`, which the build does not call), and the type
signatures of all ufuncs with NumPy's choice among them (`M_Types`; NumPy's safe-casting table and search are
stated from its documentation, for 64-bit Linux).

Simplifications and trusted contracts:

* Each operand lives in its own memory (NumPy copies operands that overlap). Only `M_Gendot` has one
  byte-addressed memory for everything, because there the temporary buffer matters.
* The code generators are modelled as the program they emit (argument lists, loop bounds, tables), not
  as text, except for the docstring macros. A C compiler's reading of those is specified in `S_Cxx` (line splicing,
  adjacent literals, three escape sequences; trigraphs left out). Copying of headers and the printed boilerplate are not modelled. A core dimension called `args`, `nloops`, `steps`, `dimensions` or `data` gives C that does
  not compile; this is not modelled.
* NumPy: `np_*` in `M_Wrap` (broadcasting, gufunc call, allocation, axis normalisation) and the
  inner-loop contracts `loop1`, `loop2` of `M_Gendot` are specifications. Casting of dtypes, type resolution
  and the conversion of the identity in gendot are not modelled.
* Regular expressions of `conv_template.py` are modelled by matching functions, for ASCII text; error
  messages are reduced to their kind and line number.
* Python: attribute lookup and import in `M_Init` follow the language reference. Objects are an oracle;
  their reference counts are modelled in `M_Ref` for the loops that store or create objects (first, minmax, min_argmin,
  max_argmax, peak_to_peak, cross2, cross3): Python code is honest about the references it owns, does not touch the
  output operand, and freed objects run no destructor. NumPy's new output arrays hold NULL.
* Floating point: round to nearest even, no contraction to FMA, no extended intermediate precision. The
  `FP_FAST_FMA` variants in log1p and the MSVC branches are left out. Mixed-precision literals in
  templates are taken in the template's type. The constant EULER in `expint1_01` is a long double: the
  expression it enters is evaluated in the 80-bit format or in double (`euler_sum`, both covered). `pow(z, 2.0)` in pearson_corr is `z*z`.
* libm functions are arbitrary functions in the IEEE theorems (with the stated hypotheses) and the
  mathematical functions in the exact theorems.

## 4. Findings

Each item is a machine-checked theorem about the model.

| behaviour of the code | theorem |
|---|---|
| object arrays passed as `out=` are overwritten without releasing the objects they hold (first, minmax, min_argmin, max_argmax, peak_to_peak, cross2, cross3): memory leak | C65_out_leak_refuted |
| a comparison or product that replaces an element of the input array frees an object the loop still uses (borrowed pointers) | C65_use_after_free_refuted |
| the ufunc generator accepts a signature or a ufunc name listed twice and writes two C functions of one name | C66_duplicate_signature_refuted, C66_duplicate_name_refuted |
| the ufunc generator accepts signatures of different arity for one ufunc; the loop then reads and writes operands NumPy does not pass | C66_arity_refuted |
| headers `x.h` and `x.hpp` of one module overwrite each other's generated files; headers `x.a.h` and `x.b.h` share an include guard | C66_header_files_refuted, C66_header_guards_refuted |
| docstring macros escape neither quotation marks nor backslashes: the C does not compile, or the docstring changes | C67_quote_refuted, C67_backslash_refuted |
| the gufunc docstring macro adds a final newline, and an empty docstring stops the generator with ValueError | C67_newline_refuted, C67_empty_refuted |
| two ufuncs whose names differ only in case share a docstring macro; a gufunc called `module` shares the module's | C67_macro_case_refuted, C67_macro_module_refuted |
| `ordered` skips NaN: [1, nan, 0] is "ordered" | C08_ordered_nan_refuted |
| `ordered` treats an unknown op code as GE | C08_ordered_invalid_op_refuted |
| `ordered` for object arrays compares every element with element 0, so [1, 3, 2] is "LT-ordered" | C08_ordered_object_refuted |
| `peak_to_peak` of int32/int64: signed overflow when max - min does not fit | C10_peaktopeak_strict_refuted |
| `bincount` of uint64 values >= 2^63 casts to a negative index and writes outside the output | C13_bincount_uint64_refuted |
| `bincount` without m: if the maximum is the largest value of the dtype, m wraps to 0 and all counts are lost | C14_default_m_refuted |
| `convert_to_base` with base 0 divides by zero | C15_convert_to_base_zero_undefined |
| `fillnan1d`: an infinite neighbour of a gap leaves NaN in the output | C17_inf_neighbour_refuted |
| `unwrap`: infinite first sample and quotients outside int are undefined conversions | C21_inf_first_refuted, C21_overflow_refuted |
| `unwrap` is not idempotent at half-period ties, and moves a step smaller than half a period by double rounding | C21_idempotent_refuted, C21_small_step_ieee_refuted |
| `sosfilter` with no sections leaves the output unwritten; a0 is ignored | C22_no_sections_unwritten |
| `kbnsum`: in the branch for infinities the loop reads p_x[j] instead of the strided element, so other data or memory outside the array is read | C23_kbnsum_stride_refuted, C23_kbnsum_reversed_refuted, C01_kbnsum_refuted |
| `kbnsum` gives NaN when a finite sum overflows | C23_kbnsum_overflow_refuted |
| `meanvar` of data with infinities depends on the order of the data | C24_inf_order_refuted |
| `mad`, `rmad`, `gini`: std::sort with NaN is undefined | C25_nan_refuted |
| `vnorm`: NaN elements are ignored, an infinite element gives NaN, int counter | C26_nan_refuted, C26_infinite_element_refuted, C26_int_counter_refuted |
| `vdot`: int counter, more than 2^31-1 elements overflow | C27_vdot_int_counter_refuted |
| `pearson_corr` can exceed 1 in double precision | C28_above_one_refuted |
| `hmean`/`pmean(-1)` of negative data is a number, not NaN as documented | C31_hmean_negative_refuted |
| `gmean` of data with -inf is +inf; with all weights zero a number; `pmean` with tiny p and a zero element is NaN | C31_gmean_neginf_refuted, C31_gmeanw_zero_weights_refuted, C31_pmean_small_zero_refuted |
| `pmean` with 0 < |p| < 2e-6 is a first-order expansion in p: half a percent off for [2^-500, 2^500] at p = 1.9e-6 (the error is below p^2 D^3 (1/9 + D/100), D = ln(max/min), while |p| D^2 <= 1) | C31_pmean_small_refuted, C31_pmean_small_accuracy |
| `linear_interp1d`: the two code paths round differently; NaN x with one node reads xp[1]; n = 0 reads outside the arrays in the common-x path; finite nodes so far apart that x1 - x0 overflows give fp[k] instead of the line | C32_paths_refuted, C32_nan_one_node_refuted, C32_empty_refuted, C32_overflow_refuted, C56_interp_refuted |
| `tri_area`: a collinear triple can give NaN or a positive area in double precision | C33_degenerate_ieee_refuted |
| `step(NaN)` is fa, `linearstep`/`smoothstep3` may return a number for NaN arguments | C35_nan_refuted |
| `linearstep`, `smoothstep3`, `smoothstep5` can leave [fa, fb] by rounding | C35_between_ieee_refuted |
| `linearstep`, `smoothstep3`, `smoothstep5` return fa and `trapezoid_pulse` 0 all along a transition so wide that b - a overflows | C35_overflow_refuted |
| `invsmoothstep3` accepts a > b, where `smoothstep3` is NaN | C36_reversed_interval_refuted |
| the ramps are a at 0, not 1 as the header comment says | C37_unit_at_zero_refuted |
| `hyperbolic_ramp(x, a)` is inf for a tiny a > 0 when x / a overflows, although the exact value is about x | C37_overflow_refuted |
| `swish(-inf, 1)` is NaN (the limit is 0) | C39_swish_neginf_refuted |
| `pow1pm1(inf, 0)` is NaN (pow(inf, 0) = 1) | C42_inf_zero_refuted |
| `deadzone(NaN)` is 0 | C44_deadzone_nan_refuted |
| `gendot` accepts sum loops whose result type differs from their input type: the temporary buffer is overrun, or product bytes are returned as another type | C48_no_overflow_refuted, C48_smaller_result, C48_retyped_result |
| `expint1(NaN)` converts NaN to int | C51_expint1_nan_refuted |
| generated loops use an int counter: more than 2^31-1 slices are undefined | C02_counter_refuted |
| a core dimension named j clashes with the loop variable; the prototype of a core with an operand of shape (1) does not match the call | C03_name_j_refuted, C03_declaration_one_refuted |
| duplicate sources or sources with long double only give tables of different lengths; object cores get `*` in the C function name | C54_duplicate_refuted, C54_only_long_refuted, C54_object_name_refuted |
| object loops go on with the next slice after an exception | C57_loop_refuted |
| `one_hot` with axis = ndim + 1 and a wrong out array raises ValueError instead of AxisError | C52_axis_error_refuted |
| `erfcx(nan)` converts NaN to int (undefined) | C59_nan_refuted |
| `erfcx` for float switches to a 5-term continued fraction at 5: the relative error just above 5 exceeds 2^-23 | C59_float_five_refuted |
| `erfcx` is importable but in neither `__all__` nor `dir()` | C53_erfcx_listed_refuted |
| `to_lines` of the wrapper generator never returns when a parameter is too long for a line | C55_terminates_refuted |
| the template expander accepts a block without an end marker (the rest of the file less one character is repeated), and appends the whole template when the end marker's line has no newline | C62_unclosed_refuted, C62_no_final_newline_refuted |
| the template expander reads `:exclude:` and ignores it | C62_exclude_refuted |
| a name declared again by an inner block keeps its outer value | C60_shadow_refuted |
| `x*0` in a value list is one empty value | C61_zero_refuted |
| `log1p_doubledouble` of complex64 input forms x^2+2x+y^2 in plain double: near the circle abs(1+z)=1 the real part can have a relative error of 3e-4 although the docstring promises no loss of precision | C50_float_accuracy_refuted |
| `searchsorted` of int64 data with a uint64 key and `cross3` of uint64 vectors go through double and lose integers above 2^53 | C63_int64_refuted, C63_cross_refuted |
| no loop accepts long double in `wjaccard`, `percentileofscore`, `debye1`, `loggamma1p`, `issnan`, `linear_interp1d`, nor uint64 in `logfactorial`, `one_hot`, mixed `convert_to_base`, indices of `tri_area_indexed` | C63_total_refuted |
| `percentileofscore` of an empty array is 0/0 | C56_percentileofscore |

## 5. Axioms per theorem

`Print Assumptions` follows every theorem in the `C_*.v` files. All axioms are the standard library's:

* D1 = `ClassicalDedekindReals.sig_forall_dec`, D2 = `ClassicalDedekindReals.sig_not_dec` (the reals),
* F = `FunctionalExtensionality.functional_extensionality_dep` (used by the reals),
* K = `Classical_Prop.classic` (used by Flocq and Coquelicot lemmas).

**No axioms (closed under the global context)** (283 theorems): C01_all_same, C01_argfirst, C01_backlash, C01_bincount, C01_bincountw, C01_confined, C01_convert_to_base, C01_fillnan1d, C01_first, C01_gmean, C01_hmean, C01_hysteresis_relay, C01_kbnsum_partial, C01_kbnsum_refuted, C01_logbeta, C01_mad, C01_meanvar, C01_minmax, C01_nothing_else, C01_objects, C01_one_hot, C01_ordered, C01_peaktopeak, C01_pearson_corr, C01_percentileofscore, C01_pmean, C01_rms, C01_searchsorted, C01_softmax, C01_unwrap, C01_vdot, C01_vnorm, C01_wjaccard, C02_backlash, C02_counter_refuted, C02_slices, C02_ufunc, C03_declaration, C03_declaration_one_refuted, C03_generated_calls, C03_name_j_refuted, C03_nin_nout, C03_output_names_distinct, C03_variable_names, C04_first_correct, C04_first_invalid_op, C04_first_nan_only_ne, C04_first_reads_prefix_only, C05_argfirst_correct, C05_first_agrees_argfirst, C06_all_same_object, C06_all_same_object_typed, C06_argfirst_object, C06_argfirst_object_typed, C06_first_object, C06_first_object_invalid_op, C06_first_object_typed, C06_integers_model_order, C06_minmax_object_error, C06_minmax_object_typed, C06_peaktopeak_object_error, C06_searchsorted_object_error, C06_searchsorted_object_typed, C07_all_same_complex, C07_all_same_correct, C07_all_same_nan, C07_all_same_pairwise, C08_ordered_all_pairs, C08_ordered_correct, C08_ordered_eq_nan, C08_ordered_invalid_op_refuted, C08_ordered_nan_skips, C08_ordered_object_partial, C08_ordered_object_refuted, C09_max_argmax_correct, C09_max_nan_first, C09_min_argmin_correct, C09_min_nan_first, C09_minmax_family_agrees, C10_peaktopeak_any_type, C10_peaktopeak_signed, C10_peaktopeak_strict_refuted, C10_peaktopeak_unsigned, C11_searchsorted_difference, C11_searchsorted_insert_sorted, C11_searchsorted_safe, C11_searchsortedl_correct, C11_searchsortedr_correct, C13_bincount_accumulates, C13_bincount_correct, C13_bincount_exact, C13_bincount_uint64_refuted, C13_bincountw_accumulates, C13_bincountw_correct, C13_bincountw_ones, C14_all_counted_partial, C14_default_m, C14_default_m_refuted, C14_dtype_max_always_lost, C15_convert_to_base_any_sign, C15_convert_to_base_nonneg, C15_convert_to_base_zero_undefined, C16_one_hot_correct, C17_fillnan1d_correct, C17_fillnan1d_idempotent, C18_hysteresis_chunks, C18_hysteresis_correct, C19_backlash_chunks, C20_backlash_sum_chunks, C20_backlash_sum_correct, C21_unwrap_any_type, C21_unwrap_nonfinite, C22_no_sections_unwritten, C22_sosfilter_correct, C22_sosfilter_ic_chunks, C22_sosfilter_ic_contig_correct, C22_sosfilter_ic_correct, C25_nan_refuted, C25_order_independent, C26_int_counter_refuted, C26_vnorm_bad_order, C27_crms_any_arithmetic, C27_rms_any_arithmetic, C27_vdot_any_arithmetic, C27_vdot_int_counter_refuted, C28_pearson_short, C29_wjaccard_nan, C30_softmax_all_neginf, C30_softmax_many_inf, C30_softmax_nan, C30_softmax_one_inf, C31_gmean_inf, C31_gmean_nan, C31_gmean_zero, C31_gmean_zero_inf, C31_gmeanw_nan, C31_rows, C32_interp_fast, C32_interp_general, C33_indexed, C33_indexed_no_stray_read, C33_indexed_out_of_range, C34_cross2_int, C34_cross2_int_defined, C34_cross2_object, C34_cross2_polynomial, C34_cross3_int, C34_cross3_object, C34_cross3_polynomial, C35_bad_interval, C35_ends, C35_nan, C35_step, C35_step_monotone, C38_nan, C44_deadzone_nan, C44_hypot3, C44_hypot3_nan, C44_nan_to_num, C44_step_nan, C44_steps_nan, C44_trapezoid_nan, C45_abssq_complex, C45_abssq_real, C47_issnan_double, C47_issnan_float, C47_issnan_half, C48_accepts, C48_call_partial, C48_empty, C48_entries, C48_gufunc, C48_itemsize, C48_no_overflow_refuted, C48_reduce, C48_retyped_result, C48_smaller_result, C49_logbeta_empty, C50_loop, C51_expint1_special, C51_logexpint1_special, C51_logfactorial_defined, C51_logfactorial_negative, C52_axis_error_refuted, C52_bincount, C52_bincount_errors, C52_bincount_weights, C52_bincount_weights_errors, C52_convert_to_base, C52_one_hot, C53_all_contents, C53_all_sorted, C53_deleted_names, C53_eager_names, C53_erfcx_listed_refuted, C53_only_attribute_errors, C53_public_names, C53_semivar, C53_submodule_visibility, C53_unknown_names, C54_duplicate_refuted, C54_loop_names, C54_object_name_refuted, C54_only_long_refuted, C54_roundtrip, C54_tables, C55_diverges, C55_terminates_partial, C55_terminates_refuted, C55_to_lines, C56_backlash_sum, C56_int, C56_interp, C56_interp_refuted, C56_means_empty, C56_nonzero_coredims, C56_percentileofscore, C56_select, C56_signal, C56_softmax, C56_sosfilter, C56_stat, C57_cross2_partial, C57_cross3_partial, C57_loop_refuted, C58_check_params, C60_blocks_sorted, C60_expand, C60_plain, C60_shadow_refuted, C60_total, C61_heading, C61_values, C61_zero_refuted, C62_accepted_iff, C62_exclude_refuted, C62_first_block, C62_no_final_newline_refuted, C62_rejected_iff, C62_unclosed_refuted, C62_undefined, C63_least, C63_own_loop, C63_real_functions, C63_total_refuted, C64_hand_written, C65_cross2_balanced, C65_cross2_borrowed, C65_cross2_counts, C65_cross3_balanced, C65_cross3_borrowed, C65_cross3_counts, C65_ext_argext_balanced, C65_ext_argext_borrowed, C65_ext_argext_counts, C65_first_balanced, C65_first_borrowed, C65_first_counts, C65_minmax_balanced, C65_minmax_borrowed, C65_minmax_counts, C65_out_leak_refuted, C65_peaktopeak_balanced, C65_peaktopeak_borrowed, C65_peaktopeak_slice_counts, C65_use_after_free_refuted, C66_accepts, C66_arity_refuted, C66_duplicate_name_refuted, C66_duplicate_signature_refuted, C66_header_files_refuted, C66_header_guards_refuted, C66_module, C66_names_apart, C66_repository, C67_backslash_refuted, C67_empty_refuted, C67_gufunc_docstring_partial, C67_macro_case_refuted, C67_macro_module_refuted, C67_newline_refuted, C67_quote_refuted, C67_ufunc_docstring_partial

**D1 + F** (6 theorems): C34_antisymmetric, C34_jacobi, C34_lagrange, C34_linear_left, C34_linear_right, C34_orthogonal

**D1 + D2 + F** (57 theorems): C02_cross3, C12_percentileofscore_correct, C12_percentileofscore_kinds_ordered, C12_percentileofscore_monotone, C17_fillnan1d_exact, C19_backlash_exact, C21_unwrap_exact, C21_unwrap_unchanged, C22_sosfilter_exact, C22_sosfilter_ic_linear, C22_sosfilter_linear, C23_kbnsum_exact, C24_meanvar_affine, C24_meanvar_ddof_n, C24_meanvar_exact, C24_meanvar_var_zero_iff, C25_gini_range, C25_gini_rmad_exact, C25_mad_exact, C27_crms_exact, C27_rms_exact, C27_vdot_exact, C27_vdot_linear, C28_pearson_constant, C28_pearson_exact, C29_wjaccard_exact, C29_wjaccard_range, C29_wjaccard_symmetric, C31_hmean_zero, C32_interp_exact, C32_interp_nan, C33_area, C33_degenerate, C33_nonneg, C33_permutation, C33_plane, C33_scaling, C33_space, C33_translation, C34_cross2, C34_cross3, C35_jump, C37_hyperbolic_decay, C37_hyperbolic_ramp, C45_abs_squared, C45_abs_squared_real, C45_hypot3_abs, C45_hypot3_exact, C45_hypot3_symmetric, C46_deadzone, C46_trapezoid, C46_trapezoid_bad, C49_logbeta_exact, C49_logbeta_order_independent, C51_E1_unique, C59_nan_refuted, C59_special

**D1 + D2 + F + K** (231 theorems): C08_ordered_nan_refuted, C17_fillnan1d_ieee, C17_inf_neighbour_refuted, C19_backlash_ieee, C21_idempotent_refuted, C21_inf_first_refuted, C21_overflow_refuted, C21_small_step_ieee_refuted, C23_kbnsum_bound, C23_kbnsum_ieee, C23_kbnsum_nonfinite_partial, C23_kbnsum_overflow_refuted, C23_kbnsum_reversed_refuted, C23_kbnsum_stride_refuted, C24_inf_order_refuted, C24_meanvar_const, C24_meanvar_nan, C26_infinite_element_refuted, C26_nan_refuted, C26_vnorm_finite, C26_vnorm_homogeneous, C26_vnorm_inf, C26_vnorm_inf_ieee, C26_vnorm_zero_iff, C27_crms_bound, C27_rms_bound, C27_vdot_bound, C27_vdot_symmetric_ieee, C28_above_one_refuted, C28_pearson_constant_ieee, C28_pearson_nan_ieee, C28_pearson_two_float, C28_pearson_undefined_float, C29_wjaccard_bound, C30_softmax_exact, C30_softmax_ieee, C30_softmax_shift, C31_equal_weights, C31_gmean_exact, C31_gmean_neginf_refuted, C31_gmeanw_exact, C31_gmeanw_zero_weight, C31_gmeanw_zero_weights_refuted, C31_hmean_exact, C31_hmean_negative_refuted, C31_hmeanw_bound, C31_hmeanw_exact, C31_pm_between, C31_pm_homogeneous, C31_pm_mono, C31_pm_perm, C31_pmean_bad, C31_pmean_exact, C31_pmean_gmean, C31_pmean_hmean, C31_pmean_inf, C31_pmean_nonneg, C31_pmean_one, C31_pmean_ordered, C31_pmean_small, C31_pmean_small_accuracy, C31_pmean_small_refuted, C31_pmean_small_zero_refuted, C31_pmean_zero, C31_pmeanw_exact, C31_pmeanw_gmean, C31_pmeanw_hmean, C31_pmeanw_nonneg, C31_pmeanw_small, C31_pmeanw_small_accuracy, C32_empty_refuted, C32_fast_bound, C32_general_bound, C32_nan_one_node_refuted, C32_overflow_refuted, C32_paths_bound, C32_paths_refuted, C33_area_bound, C33_coincident_ieee, C33_degenerate_ieee_refuted, C33_nonneg_ieee, C33_permutation_ieee, C34_cross2_antisymmetric_ieee, C34_cross2_bound, C34_cross3_antisymmetric_ieee, C34_cross3_bound, C34_cross3_self_ieee, C35_between_ieee_refuted, C35_linearstep, C35_linearstep_bound, C35_nan_refuted, C35_overflow_refuted, C35_smoothstep3, C35_smoothstep3_bound, C35_smoothstep5, C35_smoothstep5_bound, C36_inverse_left, C36_inverse_right, C36_outside, C36_reversed_interval_refuted, C37_exponential_decay, C37_exponential_ramp, C37_hyperbolic_bound, C37_infinities, C37_negative_width, C37_overflow_refuted, C37_unit_at_zero_refuted, C37_zero_width, C38_exponential, C38_exponential_bound, C38_linear, C38_linear_bound, C38_parabolic, C38_parabolic_bound, C38_spherical, C38_spherical_bound, C39_infinities, C39_log_logistic_bound, C39_logistic, C39_logistic_bound, C39_logistic_deriv_bound, C39_logistic_ieee, C39_swish_bound, C39_swish_limit, C39_swish_neginf_refuted, C40_cdf_ieee, C40_consistent, C40_integral, C41_increasing, C41_inverse_left, C41_inverse_right, C41_outside, C42_exact, C42_inf_zero_refuted, C42_limits, C43_mirror, C43_next_greater, C43_next_less, C43_nextn_greater, C43_nextn_less, C43_round_trip, C44_deadzone_nan_refuted, C45_abs_squared_bound, C45_abs_squared_real_ieee, C45_abssq_complex_bound, C45_abssq_real_bound, C46_deadzone_ieee, C46_trapezoid_bound, C47_issnan_double_ieee, C47_issnan_float_ieee, C49_lgamma_exists, C49_logbeta_Gamma, C49_logbeta_integers, C49_logbeta_single, C50_accuracy_ieee, C50_doubledouble, C50_error_ieee, C50_float, C50_float_accuracy_refuted, C50_infinite, C50_minus_one, C50_near_circle_ieee, C50_real_part_ieee, C50_square_ieee, C50_theorem4, C50_theorem4_ieee, C50_two_sum_ieee, C50_two_sum_quick_ieee, C51_D1_exists, C51_D1_unique, C51_E1_exists, C51_Gamma_exists, C51_Gamma_factorial, C51_Gamma_recurrence, C51_Gamma_unique, C51_debye1, C51_debye1_cell_ieee, C51_debye1_defined_ieee, C51_debye1_ieee, C51_debye1_inf_ieee, C51_debye1_loop, C51_debye1_loop_ieee, C51_debye1_nan_ieee, C51_expint1, C51_expint1_defined_ieee, C51_expint1_ieee, C51_expint1_inf_ieee, C51_expint1_nan_refuted, C51_logexpint1, C51_logexpint1_defined_ieee, C51_logexpint1_ieee, C51_logexpint1_inf_ieee, C51_logexpint1_nan_ieee, C51_logfactorial, C51_logfactorial_ieee, C51_logfactorial_loop, C51_logfactorial_loop_ieee, C51_loggamma1p, C51_loggamma1p_branch_ieee, C51_loggamma1p_domain_ieee, C51_loggamma1p_ieee, C51_loggamma1p_loop, C51_loggamma1p_loop_ieee, C51_loggamma1p_special, C52_argument_errors, C52_axis_errors, C52_axis_never_accepted, C52_negative_n_errors, C52_nextn_greater, C52_nextn_less, C52_out_shape_errors, C59_double, C59_erfcx_exists_unique, C59_float, C59_float_five_refuted, C59_ieee_defined, C59_ieee_edges, C59_ieee_large, C59_ieee_middle, C59_ieee_negative, C59_logcdf_double, C59_logcdf_float, C59_logcdf_longdouble, C59_logcdf_special, C59_logsf_double, C59_longdouble, C59_overflow, C63_cross_refuted, C63_int64_refuted, C63_order, C63_values
