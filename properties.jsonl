{"id": "C01", "title": "Gufunc cores see only logical elements: results are independent of memory layout", "statement": "For first, argfirst, all_same, ordered, the argmin/argmax/minmax family, kbnsum, bincount, mad, fillnan1d, backlash and hysteresis_relay, two calls whose array arguments hold the same logical elements give the same result, whatever the base address, stride (positive, negative, zero, non-contiguous) and neighbouring memory; no element outside the arrays is ever read.", "quantifier": "all array lengths, all element values, any offset, any signed stride (including 0 and negative) and any buffer contents around the array", "why_tests_cant": "Tests use C-contiguous arrays and a few slices; the claim is about every stride/offset/length combination.", "anchors": ["src/util/strided.hpp:get,set", "src/kbnsum/kbnsum_gufunc.h:kbnsum_core_calc", "src/first/first_gufunc.h", "src/minmax/minmax_gufunc.h"]}
{"id": "C02", "title": "A gufunc call processes every broadcast slice independently and writes only its outputs", "statement": "The generated outer loop applies the 1-d core once per loop index to exactly the slice NumPy laid out for that index (broadcast operands have step 0), in order, so the j-th output is the core's value on the j-th input slices; memory cells that are not output elements keep their value.", "quantifier": "all numbers of operands, loop counts, per-operand outer steps and base pointers, all core functions that write only their output", "why_tests_cant": "The number of loops, operands and step combinations is unbounded.", "anchors": ["tools/cxxgen/gufuncgen.py:generate_concrete_loop", "tools/cxxgen/generate_ufunc_extmod.py"]}
{"id": "C03", "title": "The code generator passes each core dimension and stride of a gufunc signature to the right core argument", "statement": "For every well-formed gufunc shape signature, the generated call passes, for operand i, its data pointer, the lengths of its symbolic core dimensions (each distinct dimension once, at its first occurrence) and the strides steps[...] that NumPy's convention assigns to that operand's core dimensions.", "quantifier": "all signatures: any number of inputs/outputs, any number of core dimensions per operand, repeated or fixed-size dimensions", "why_tests_cant": "Only the ~60 signatures shipped are exercised by the tests; the generator's index arithmetic must be right for all.", "anchors": ["tools/cxxgen/gufuncgen.py:parse_gufunc_signature,generate_declaration,generate_concrete_loop"]}
{"id": "C04", "title": "first returns the first matching element, or `otherwise`", "statement": "first(x, op, target, otherwise) is x[k] for the smallest k such that `x[k] op target` holds, and `otherwise` when no element matches or op is not one of the six comparison codes. NaN elements match only `!=`.", "quantifier": "all lengths including 0, all element values of every integer and floating point dtype including NaN, infinities and signed zeros, all six operators and all invalid op codes", "why_tests_cant": "Infinite input space; first-ness is a universally quantified statement over prefixes.", "anchors": ["src/first/first_gufunc.h:first_core_calc,first,cmp_lt.."]}
{"id": "C05", "title": "argfirst returns the smallest matching index, or -1; and agrees with first", "statement": "argfirst(x, op, target) is the smallest k with `x[k] op target`, -1 if there is none or op is invalid; when it is k >= 0 first returns x[k], when it is -1 first returns `otherwise`.", "quantifier": "all lengths, all values of all dtypes, all op codes", "why_tests_cant": "Universal statement over prefixes and over two API functions at once.", "anchors": ["src/first/first_gufunc.h:argfirst_core_calc,first_core_calc"]}
{"id": "C06", "title": "Object-dtype first/argfirst/all_same/minmax surface comparison errors and never use later elements after an error", "statement": "On object arrays the functions ask Python for comparisons strictly left to right, stop at the first decision or the first raised exception; when no comparison raises, the result equals the typed result computed from the same comparison outcomes; when one raises before the decision, the exception is left set.", "quantifier": "all object arrays, all comparison oracles (each comparison may return true, false or raise)", "why_tests_cant": "The comparison is arbitrary user Python code; its behaviours cannot be enumerated.", "anchors": ["src/first/first_gufunc.h:first_core_calc_object,argfirst_core_calc_object", "src/all_same/all_same_gufunc.h:all_same_core_object", "src/minmax/minmax_gufunc.h"]}
{"id": "C07", "title": "all_same is true exactly when all elements compare equal", "statement": "all_same(x) is true iff x is empty or every element equals the first; on arrays without NaN that is iff any two elements are equal; an array of length >= 2 containing NaN is never all_same.", "quantifier": "all lengths, all values of all dtypes", "why_tests_cant": "Quantifies over all pairs of elements of arrays of any length.", "anchors": ["src/all_same/all_same_gufunc.h:all_same_core"]}
{"id": "C08", "title": "ordered tests the requested order between every pair of consecutive elements", "statement": "For NaN-free x, ordered(x, op) is true iff x[i] op x[i+1] for every i (LT/LE/EQ/GE/GT), hence (these relations being transitive) iff x[i] op x[j] for all i<j; it is true for arrays of length 0 and 1. With NaN in x the answer must not be true for arrays of length >= 2. The same must hold for object arrays.", "quantifier": "all lengths, all values of every dtype, op in the five documented codes, object arrays with any consistent total order", "why_tests_cant": "All pairs i<j in arrays of any length.", "anchors": ["src/ordered/ordered_gufunc.h:check_ordered,ordered_core,ordered_core_object"]}
{"id": "C09", "title": "minmax, argmin, argmax, argminmax, min_argmin, max_argmax return attained extrema and first positions, and agree with each other", "statement": "For NaN-free x with at least one element: minmax(x) returns values that occur in x and bound every element; argmin/argmax return the smallest index attaining the extremum; argminmax, min_argmin and max_argmax return the same values and indices as minmax/argmin/argmax. For x containing NaN: a NaN in position 0 is returned (index 0); NaNs elsewhere are ignored.", "quantifier": "all lengths >= 1, all values of all dtypes, all strides", "why_tests_cant": "All arrays; cross-function agreement cannot be sampled exhaustively.", "anchors": ["src/minmax/minmax_gufunc.h"]}
{"id": "C10", "title": "peaktopeak of integers is exactly max - min in the unsigned output type, with no overflow", "statement": "For every signed or unsigned integer dtype, peaktopeak(x) equals max(x) - min(x) as a mathematical integer, and that value fits the (unsigned) output dtype; the contiguous and strided code paths agree. For floats it is the rounded difference of the extrema.", "quantifier": "all widths 8/16/32/64, all arrays of length >= 1, all strides", "why_tests_cant": "Overflow happens only near the ends of the integer range; all 2^64 pairs of extrema matter.", "anchors": ["src/peaktopeak/peaktopeak_gufunc.c.src:@typename@_max_diff,@typename@_peaktopeak_contig"]}
{"id": "C11", "title": "searchsortedl/searchsortedr return the left/right insertion point", "statement": "For a sorted array a (NaN-free) and any v, searchsortedl(a, v) is the number of elements < v and searchsortedr(a, v) the number of elements <= v; both lie in [0, len(a)], inserting v there keeps the array sorted, and their difference is the number of elements equal to v. The search always terminates and reads only a[0..n-1], even when a is not sorted.", "quantifier": "all lengths including 0, all sorted arrays, all keys; memory safety for unsorted arrays too", "why_tests_cant": "Binary search boundary errors show only for specific lengths/duplicates; universal over arrays.", "anchors": ["src/searchsorted/searchsorted_gufunc.c.src"]}
{"id": "C12", "title": "percentileofscore computes the documented percentage for each kind", "statement": "With b, e, a the numbers of elements below, equal to and above the score and n = b+e+a > 0: strict = 100 b/n, weak = 100 (b+e)/n, mean = 100 (b + e/2)/n, rank = 100 (b + (e+1)/2)/n if e>0 else 100 b/n; results lie in [0,100] and strict <= mean <= rank' <= weak, nondecreasing in the score.", "quantifier": "all arrays, all scores, the four kinds", "why_tests_cant": "Monotonicity in score and bounds quantify over all arrays and pairs of scores.", "anchors": ["src/percentileofscore/percentileofscore_gufunc.h"]}
{"id": "C13", "title": "bincount counts exactly the in-range values and accumulates into out", "statement": "After bincount(x, out=out), out[i] has increased by exactly the number of k with x[k] == i (modulo the output width), for each 0 <= i < m; values outside [0, m) are ignored and no memory outside out is touched; a sequence of calls accumulates the sum; bincountw adds the weights instead; weights of all ones reproduce bincount.", "quantifier": "all arrays, all m, all integer dtypes (including uint64 values >= 2^63), all strides, any sequence of calls", "why_tests_cant": "Values at the top of the dtype range and arbitrary call histories.", "anchors": ["src/bincount/bincount_gufunc.h:bincount,bincountw,bincountw_complex_core_calc"]}
{"id": "C14", "title": "bincount's default length covers every value", "statement": "bincount(x) with no m returns an array in which every nonnegative element of x has been counted: the output length is max(x)+1 (or 0 if all elements are negative).", "quantifier": "all integer dtypes, all nonempty x", "why_tests_cant": "The failure is at the dtype maximum only (int8 127, uint8 255, ...).", "anchors": ["ufunclab/_wrapped.py:bincount"]}
{"id": "C15", "title": "convert_to_base digits reconstruct k modulo base**ndigits", "statement": "For k >= 0 and base >= 2 every digit d satisfies 0 <= d < base and sum(d[i]*base**i) == k mod base**ndigits; hence digits determine k when k < base**ndigits. For negative k digits lie in (-base, 0] and the sum is the truncated remainder.", "quantifier": "all k, base, ndigits, all integer dtypes", "why_tests_cant": "Reconstruction is an induction over the number of digits, for every k and base.", "anchors": ["src/convert_to_base/convert_to_base_gufunc.h:convert_to_base_core", "ufunclab/_wrapped.py:convert_to_base"]}
{"id": "C16", "title": "one_hot writes exactly one 1 (or none)", "statement": "Afterwards out[i] = 1 if i == k else 0 for all 0 <= i < n \u2014 all zeros if k is negative or >= n \u2014 for contiguous and strided outputs alike, and nothing outside out is modified.", "quantifier": "all k, n, strides, dtypes", "why_tests_cant": "All offsets/strides; fast path vs. slow path equality.", "anchors": ["src/one_hot/one_hot_gufunc.h:one_hot_core"]}
{"id": "C17", "title": "fillnan1d removes every NaN by linear interpolation and changes nothing else", "statement": "If x has at least one non-NaN: the output has no NaN introduced by padding, equals x at non-NaN positions, equals the nearest non-NaN value before the first and after the last non-NaN, and lies on the straight line between the neighbouring non-NaN values inside a gap; if x is all NaN so is the output. Applying it twice equals applying it once (exact arithmetic).", "quantifier": "all lengths, all NaN patterns", "why_tests_cant": "2^n NaN patterns for every n.", "anchors": ["src/fillnan1d/fillnan1d_gufunc.h:fillnan1d_core_calc"]}
{"id": "C18", "title": "hysteresis_relay is the two-threshold relay automaton and can be computed in chunks", "statement": "out[i] = low_value if x[i] < low_threshold, high_value if x[i] > high_threshold, otherwise out[i-1] (init for i = 0). Hence out[i] is determined by the last sample outside the band, and processing a concatenation x++y equals processing x and then y with init = last output of x.", "quantifier": "all signals of any length, all thresholds/values, any chunking", "why_tests_cant": "History-dependent behaviour over signals of any length.", "anchors": ["src/hysteresis_relay/hysteresis_relay_gufunc.h:hysteresis_relay_core"]}
{"id": "C19", "title": "backlash keeps the output within half a deadband of the input and never moves unnecessarily", "statement": "out[0] follows from x[0] and initial like every later step: out[i] is the point of [x[i]-w/2, x[i]+w/2] nearest to out[i-1]; hence |out[i]-x[i]| <= w/2, out moves only when forced, out is monotone where x is, and the computation can be chunked. ", "quantifier": "all signals, all deadbands w >= 0, all initial values, any chunking (exact arithmetic)", "why_tests_cant": "Invariant over histories of any length.", "anchors": ["src/backlash/backlash_gufunc.h:backlash_core"]}
{"id": "C20", "title": "backlash_sum is the weighted sum of independent backlash operators", "statement": "backlash_sum(x, w, deadband, initial) returns out[i] = sum_j w[j]*backlash(x, deadband[j], initial[j])[i] and final[j] = last state of operator j; feeding final back as initial continues the process (chunking).", "quantifier": "all numbers of operators and samples (exact arithmetic for the sum order)", "why_tests_cant": "Unbounded numbers of operators and samples; refinement between two gufuncs.", "anchors": ["src/backlash/backlash_gufunc.h:backlash_sum_core"]}
{"id": "C21", "title": "unwrap output is congruent to the input and has no jump larger than half a period", "statement": "For period > 0: out[0] = x[0]; out[i]-x[i] is an integer multiple of the period; |out[i]-out[i-1]| <= period/2; unwrapping a signal whose steps are already < period/2 leaves it unchanged (so unwrapping twice is unwrapping once, unless a step is exactly half a period). A non-finite sample after the first makes the rest of the output NaN and leaves the earlier output as it would have been.", "quantifier": "all signals, all periods (exact arithmetic, quotient within int range)", "why_tests_cant": "Invariant over signals of any length.", "anchors": ["src/unwrap/unwrap_gufunc.h:unwrap_core_calc,unwrap1"]}
{"id": "C22", "title": "sosfilter, sosfilter_ic and sosfilter_ic_contig compute the same filter, chunk-wise", "statement": "sosfilter(sos, x) equals the first output of sosfilter_ic with zero initial state; sosfilter_ic_contig equals sosfilter_ic on contiguous data; each section satisfies the second-order difference equation; filtering x++y equals filtering x then y starting from the returned state; the map (x, zi) -> (y, zf) is linear.", "quantifier": "all numbers of sections and samples, all coefficients, any chunking (any commutative ring of samples)", "why_tests_cant": "Chunking and linearity quantify over all signals, split points and section counts.", "anchors": ["src/sosfilter/sosfilter_gufunc.h"]}
{"id": "C23", "title": "kbnsum returns the sum, with IEEE semantics for infinities and NaN", "statement": "In exact arithmetic kbnsum(x) is the sum of x. In IEEE arithmetic, without overflow, the running sum plus the exact rounding errors equals the exact sum (each compensation term is the exact rounding error of one addition), so the error of the result is only the rounding of the accumulated compensation. With +inf or NaN in x the result is what plain addition of the elements gives (inf, or NaN for inf-inf/NaN), for every stride.", "quantifier": "all lengths, all float values incl. inf/nan, all strides, f/d/g formats", "why_tests_cant": "Rounding behaviour for all inputs; special-value order; strides.", "anchors": ["src/kbnsum/kbnsum_gufunc.h:KBNSummer,kbnsum_core_calc"]}
{"id": "C24", "title": "meanvar returns the mean and the ddof-variance", "statement": "meanvar(x, ddof) = (sum(x)/n, sum((x-mean)^2)/(n-ddof)) in exact arithmetic, for n >= 1 and n > ddof; the variance is nonnegative and zero iff x is constant; invariant/covariant under shift and scale.", "quantifier": "all lengths, all reals, all ddof < n", "why_tests_cant": "The streaming (Welford) update equals the two-pass definition only by induction on n.", "anchors": ["src/meanvar/meanvar_gufunc.h:compensated_update,meanvar_core_calc"]}
{"id": "C25", "title": "mad, rmad and gini equal their pairwise definitions", "statement": "mad(x, unbiased) = sum_{i,j}|x_i-x_j| / n^2 (biased) or / (n(n-1)); gini = mad/(2 mean) and rmad = mad/mean; the results do not depend on the order of the elements; gini of nonnegative data lies in [0,1).", "quantifier": "all lengths, all reals, both unbiased flags", "why_tests_cant": "O(n^2) definition vs sorted O(n log n) computation, for all permutations.", "anchors": ["src/mad/mad_gufunc.h"]}
{"id": "C26", "title": "vnorm is the p-norm, computed without changing its value by scaling", "statement": "vnorm(x, p) = (sum |x_k|^p)^(1/p) for finite p > 0, max|x_k| for p = inf, and NaN for p <= 0; nonnegative, zero iff x is zero, absolutely homogeneous; 1- and 2-norm special cases agree with the general formula. NaN elements must propagate to the result.", "quantifier": "all lengths, all reals, all orders p", "why_tests_cant": "Universal over vectors and orders; special-case branches must agree with the general one.", "anchors": ["src/vnorm/vnorm_gufunc.h:vnorm_core_calc"]}
{"id": "C27", "title": "rms and vdot", "statement": "rms(x) = sqrt(sum x_k^2 / n) (NaN for n = 0) for real and complex input, contiguous and strided alike; vdot(x, y) = sum x_k*y_k, symmetric and bilinear. In IEEE arithmetic a finite result is within ((1+u)^(n+1)-1)*sum|x_k*y_k| plus an underflow term (vdot), and within the relative error (1+u)^(n+8)-1 (rms, real; n+10 complex) when the mean square is a normal number.", "quantifier": "all lengths, values, strides (exact arithmetic); all finite results in every binary IEEE format (error bounds)", "why_tests_cant": "All strides/lengths; path equality.", "anchors": ["src/vnorm/vnorm_gufunc.h:rms_core_calc,crms_core_calc,vdot_core_calc"]}
{"id": "C28", "title": "pearson_corr is the correlation coefficient, in [-1, 1]", "statement": "For n >= 2 and non-constant x, y: pearson_corr(x,y) = cov(x,y)/(sd(x) sd(y)), lies in [-1,1], is symmetric, is 1 (resp. -1) when y is an increasing (decreasing) affine function of x, and NaN if either input is constant; n < 2 raises ValueError.", "quantifier": "all lengths >= 2, all reals", "why_tests_cant": "Cauchy-Schwarz bound for all vectors.", "anchors": ["src/corr/corr_gufunc.h"]}
{"id": "C29", "title": "wjaccard equals sum(min)/sum(max)", "statement": "For nonnegative x, y not both zero, wjaccard = sum min(x_k,y_k)/sum max(x_k,y_k) in [0,1], symmetric, 1 iff x = y; NaN if any element is NaN. In IEEE arithmetic a finite nonzero result for non-negative finite weights is within the relative error (1+u)^(3n+1)-1 of that ratio, plus half the smallest subnormal.", "quantifier": "all lengths >= 1, all nonnegative reals; NaN positions arbitrary", "why_tests_cant": "Universal over vectors and NaN positions.", "anchors": ["src/wjaccard/wjaccard_gufunc.h:wjaccard_core_calc"]}
{"id": "C30", "title": "softmax is a probability vector and shift-invariant", "statement": "For finite x: softmax(x)_i = exp(x_i)/sum_j exp(x_j), all entries in (0,1], sum 1, unchanged when a constant is added to x, order-preserving. One +inf gives a one-hot result; NaN or several +inf give all NaN.", "quantifier": "all lengths >= 1, all reals / special-value patterns", "why_tests_cant": "Universal over vectors; special-value combinations.", "anchors": ["src/softmax/softmax_gufunc.h:softmax_core_calc"]}
{"id": "C31", "title": "gmean, hmean, pmean and weighted variants equal their definitions, and their special cases agree", "statement": "For positive x: gmean = (prod x)^(1/n), hmean = n/sum(1/x), pmean(x,p) = (sum x^p/n)^(1/p); the weighted versions with equal weights agree with the unweighted; pmean(x,-1)=hmean(x), pmean(x,0)=gmean(x), pmean(x,1)=arithmetic mean, pmean(x,\u00b1inf)=max/min; each lies between min(x) and max(x). If any value in x is negative, gmean and pmean return nan for every p, as documented.", "quantifier": "all lengths >= 1, all positive reals, all p", "why_tests_cant": "Universal over vectors and orders; documented NaN rule for every p.", "anchors": ["src/means/means_gufunc.c.src"]}
{"id": "C32", "title": "linear_interp1d interpolates, gives NaN outside, and its two code paths agree", "statement": "For strictly increasing xp: the result is NaN for x < xp[0] and for x > xp[n-1], fp[k] for x = xp[k], and between xp[k] and xp[k+1] the value at x of the line through the two points (in floating point: the rounded line formula); no memory outside xp, fp is read for non-NaN x; the fast path (shared x and xp) and the general path agree up to rounding; NaN x gives NaN when n > 1.", "quantifier": "all lengths n, all strictly increasing xp, all fp, all x including NaN, any numbers of broadcast rows", "why_tests_cant": "Search with remembered position; every n (including 0 and 1) and every query order.", "anchors": ["src/linear_interp1d/linear_interp1d_gufunc.c.src"]}
{"id": "C33", "title": "tri_area is the area of the triangle", "statement": "For points in R^n tri_area is (1/2) sqrt(|u|^2|v|^2-(u.v)^2) with u, v two edge vectors: nonnegative, invariant under vertex permutations and translations, quadratic under scaling, half |cross product| for n = 2, 3, 0 for degenerate triangles. tri_area_indexed(p, idx) = tri_area(p[idx]) with Python negative-index semantics, NaN for out-of-range indices and no out-of-range reads. In IEEE arithmetic the area of a triangle that is not a needle is right up to a relative error proportional to the unit roundoff, the dimension and the aspect ratio, provided nothing underflows.", "quantifier": "all points in all dimensions, all index triples, all binary floating formats", "why_tests_cant": "Equality of the Kahan-Heron formula with the Gram determinant over all reals.", "anchors": ["src/tri_area/tri_area_gufunc.h"]}
{"id": "C34", "title": "cross2 and cross3 are the cross products", "statement": "cross3(u,v) is orthogonal to both, antisymmetric, bilinear and satisfies Lagrange's identity; cross2(u,v) = u0*v1-u1*v0 is antisymmetric; object arrays evaluate the same polynomial through Python's operators, with errors surfaced. In floating point every finite component is within two rounding errors of |products| of the exact one.", "quantifier": "all vectors (integers without overflow / reals / objects)", "why_tests_cant": "Polynomial identities over all inputs.", "anchors": ["src/cross/cross_gufunc.h"]}
{"id": "C35", "title": "step, linearstep, smoothstep3, smoothstep5 are monotone transitions between their end values", "statement": "For a < b: value fa for x <= a, fb for x >= b, between fa and fb and monotone in between, symmetric about the midpoint; the smoothsteps join with zero slope; with a > b or NaN parameters the result is NaN; step is the documented three-valued function. NaN x gives NaN. In floating point a finite linearstep, smoothstep3 or smoothstep5 is within a few rounding errors of the exact transition.", "quantifier": "all reals x, a, b, fa, fb", "why_tests_cant": "Monotonicity quantifies over all pairs of inputs.", "anchors": ["src/step/step.h"]}
{"id": "C36", "title": "invsmoothstep3 inverts smoothstep3", "statement": "For a < b and fa != fb, invsmoothstep3(smoothstep3(x)) = x for x in [a,b] and smoothstep3(invsmoothstep3(y)) = y for y between fa and fb; NaN outside.", "quantifier": "all reals", "why_tests_cant": "Inverse-function identity on a continuum.", "anchors": ["src/step/step.h:smoothstep3,invsmoothstep3"]}
{"id": "C37", "title": "hyperbolic_ramp and exponential_ramp approximate max(x,0) from above", "statement": "For a > 0 both ramps are positive, strictly increasing, exceed max(x,0), differ from it by at most a (resp. a*log 2... as documented), satisfy f(x) - f(-x) = x, and the hyperbolic ramp satisfies f(x) f(-x) = a^2-type product identity; for a = 0 they equal max(x,0). In IEEE arithmetic hyperbolic_ramp is accurate to a few rounding errors (relative) as long as x / a does not overflow.", "quantifier": "all reals x, a >= 0; all floating-point x, a in every binary format for the accuracy", "why_tests_cant": "Bounds/monotonicity over a continuum.", "anchors": ["src/ramp/ramp.h"]}
{"id": "C38", "title": "semivariogram models are monotone from nugget to sill", "statement": "For each model, the value is nugget-consistent at h = 0+, nondecreasing in h for sill >= nugget, bounded by the sill, continuous at the range for the linear/spherical models, and equals the sill beyond the range. In floating point all four models are within a few rounding errors of the exact values (the exponential one if exp of the C library is accurate).", "quantifier": "all h >= 0, nugget <= sill, range > 0", "why_tests_cant": "Monotonicity/continuity over a continuum.", "anchors": ["src/semivar/semivar.h"]}
{"id": "C39", "title": "logistic family consistency", "statement": "logistic(x) = 1/(1+exp(-x)) on both branches, in (0,1), strictly increasing, logistic(-x) = 1-logistic(x); log_logistic = log(logistic); logistic_deriv is its derivative logistic*(1-logistic); swish(x,beta) = x*logistic(beta*x). In IEEE arithmetic logistic, logistic_deriv and log_logistic are accurate to a few rounding errors, relative to the exact value, if exp and log1p are; swish relative to x.", "quantifier": "all reals; all floating-point x in every binary format for the accuracy", "why_tests_cant": "Identities over a continuum.", "anchors": ["src/logistic/logistic.h"]}
{"id": "C40", "title": "normal.cdf/sf/logcdf/logsf are mutually consistent", "statement": "For any erfc satisfying its reflection law: cdf(x)+sf(x) = 1, sf(x) = cdf(-x), logcdf = log(cdf), logsf = log(sf) on all branches.", "quantifier": "all reals, all erfc/erfcx satisfying the stated laws", "why_tests_cant": "Branch cut-offs; all reals.", "anchors": ["src/normal/normal.h"]}
{"id": "C41", "title": "inv_yeo_johnson inverts yeo_johnson", "statement": "For every lambda, inv_yeo_johnson(yeo_johnson(x, lambda), lambda) = x for every x; yeo_johnson is strictly increasing in x; and yeo_johnson(inv(y)) = y on the range.", "quantifier": "all reals x, lambda", "why_tests_cant": "Inverse identity across four branches over a continuum.", "anchors": ["src/yeo_johnson/yeo_johnson.h"]}
{"id": "C42", "title": "pow1pm1(x, y) = (1+x)^y - 1", "statement": "For x > -1 both branches of pow1pm1 equal (1+x)^y - 1 in exact arithmetic; x = -1 and x < -1 follow the documented limits.", "quantifier": "all reals x > -1, y", "why_tests_cant": "Identity over a continuum.", "anchors": ["src/pow1pm1/pow1pm1.h"]}
{"id": "C43", "title": "next_greater/nextn_greater (less) enumerate consecutive floats", "statement": "next_greater(x) is the smallest float strictly greater than x (inf for the largest, inf, and NaN handled); nextn_greater(x, n) lists the next n floats in order with none skipped; nextn_less is the mirror image.", "quantifier": "all floats of any binary format, all n", "why_tests_cant": "2^32..2^80 values and all n.", "anchors": ["src/next/next.h", "src/nextn/nextn_gufunc.h"]}
{"id": "C44", "title": "Special-value behaviour of the elementwise float functions", "statement": "nan_to_num(x, r) is r iff x is NaN else x; hypot3 is +inf if any argument is infinite (even with NaN), NaN if any is NaN otherwise; NaN inputs to deadzone, step, linearstep, smoothstep and trapezoid_pulse give NaN.", "quantifier": "all float arguments of any binary format", "why_tests_cant": "All combinations of special values in all arguments.", "anchors": ["src/nan_to_num/nan_to_num.h", "src/hypot3/hypot3.h", "src/deadzone/deadzone.h", "src/step/step.h", "src/trapezoid_pulse/trapezoid_pulse.h"]}
{"id": "C45", "title": "hypot3 and abs_squared", "statement": "hypot3(x,y,z) = sqrt(x^2+y^2+z^2) in exact arithmetic (scaling included), symmetric in its arguments; abs_squared(z) = re^2+im^2 = z*conj(z); abssq agrees with abs_squared, contiguous or strided. In floating point abs_squared and abssq carry at most two rounding errors.", "quantifier": "all reals / complex numbers; all strides", "why_tests_cant": "Identity over a continuum, path equality.", "anchors": ["src/hypot3/hypot3.h", "src/abs_squared/abs_squared.h", "src/abssq/abssq_ufunc.cpp"]}
{"id": "C46", "title": "deadzone and trapezoid_pulse shape", "statement": "For low <= high deadzone is 0 on [low, high], x-high above, x-low below; monotone and 1-Lipschitz. For a <= b <= c <= d trapezoid_pulse is 0 outside (a,d), amp on [b,c], and between 0 and amp, rising on [a,b] and falling on [c,d]. In floating point trapezoid_pulse is within a few rounding errors of amp of the exact pulse, unless a side of it is too wide for the format.", "quantifier": "all reals", "why_tests_cant": "Monotone/Lipschitz bounds over pairs of reals.", "anchors": ["src/deadzone/deadzone.h", "src/trapezoid_pulse/trapezoid_pulse.h"]}
{"id": "C47", "title": "issnan detects exactly the signaling NaN bit patterns", "statement": "issnan(x) is true iff the bit pattern has all exponent bits set, the quiet bit clear and a nonzero remaining payload \u2014 in particular false for quiet NaNs, infinities and finite numbers.", "quantifier": "all 2^16, 2^32, 2^64 bit patterns", "why_tests_cant": "2^64 bit patterns.", "anchors": ["src/issnan/issnan_ufunc.c.src"]}
{"id": "C48", "title": "gendot composes product and sum exactly, for compatible type pairs", "statement": "gendot(prod, sum)(x, y) equals sum.reduce(prod(x, y)) (or sum(prod(x,y)) for a (n)->() gufunc), for every pair of loops the wrapper selects; loops are selected iff the product's output type equals the sum's input type; no memory outside the temporary buffer is written.", "quantifier": "all lengths >= 1, all product/sum loops, all type tables", "why_tests_cant": "All combinations of loop types and item sizes.", "anchors": ["src/gendot/gendotmodule.c:gendot_loop,reduce", "ufunclab/_gendot_wrap.py:gendot"]}
{"id": "C49", "title": "multivariate_logbeta equals sum(lgamma) - lgamma(sum)", "statement": "For n >= 1, multivariate_logbeta(x) = sum_k loggamma(x_k) - loggamma(sum_k x_k), independent of element order; NaN for n = 0; x of length 1 gives 0.", "quantifier": "all lengths, all values, any loggamma", "why_tests_cant": "All lengths and permutations.", "anchors": ["src/multivariate_logbeta/multivariate_logbeta_gufunc.h"]}
{"id": "C50", "title": "log1p_doubledouble computes log(1+z) accurately on the whole plane", "statement": "In exact arithmetic both branches give real part log|1+z| and imaginary part arg(1+z). In IEEE arithmetic, two_sum and two_sum_quick return an exact (value, error) pair and the squaring is error-free barring overflow/underflow. The results in double are then accurate to a few units in the last place (relative, plus 2^-97 absolute in the real part), also near the circle |1+z| = 1 where the docstring promises no loss of precision; the same near-circle promise is made for single precision.", "quantifier": "all complex z; all doubles without overflow", "why_tests_cant": "All doubles; exactness is an equality over reals.", "anchors": ["src/log1p/log1p_ufunc.c:two_sum,two_sum_quick,split,square,xsquared_plus_2x_plus_ysquared,log1p_doubledouble"]}
{"id": "C51", "title": "logfactorial, loggamma1p, expint1, logexpint1, debye1: values, domains and table safety", "statement": "logfactorial(k) is ln k! (NaN for k<0) and reads its table only in range; loggamma1p(x) is the logarithm of Euler's integral Gamma(1+x) for every x > -1, NaN for x <= -1 or NaN, +inf at +inf, 0 at 0 and 1; expint1/logexpint1 are the exponential integral and its logarithm for x>0, NaN for x<0 and +inf at 0; debye1(x) is (1/x) times the integral of t/(e^t-1) from 0 to x, and selects for each x an approximant fitted to an interval containing x. Each approximation error is bounded explicitly. In IEEE double arithmetic debye1 is finite at every finite x, expint1 and logexpint1 at every finite x > 0, logfactorial at every 64-bit k >= 0 and loggamma1p at every x in (-1, 2^980], with rounding errors bounded explicitly.", "quantifier": "all integers k; all real x (approximation error of the formulas and coefficient tables); all IEEE doubles (domains, special values, table indices)", "why_tests_cant": "The error bounds and the range checks must hold on whole intervals and for all int64/doubles; a wrong digit in one of about 1500 coefficients changes the result by less than a test tolerance or on one small interval only.", "anchors": ["src/logfactorial/logfactorial.c", "src/loggamma1p/loggamma1p.c", "src/expint1/expint1.h", "src/debye1"]}
{"id": "C52", "title": "Python wrappers validate axis/n and allocate the right output shape", "statement": "For bincount, convert_to_base, nextn_*, one_hot: for every input shape and axis, the allocated output shape is the broadcast shape with the new axis of the requested length inserted (or replaced) at the normalized axis; out-of-range axes raise AxisError; an `out` of a different shape raises ValueError and a negative m raises ValueError.", "quantifier": "all shapes, all axes (negative and positive), all n", "why_tests_cant": "All ranks and axes.", "anchors": ["ufunclab/_wrapped.py"]}
{"id": "C53", "title": "Lazy attribute loading: every public name resolves, unknown names raise AttributeError", "statement": "For every name in __all__, attribute access imports the module that defines the name and returns that attribute; any other name raises AttributeError, except semivar, the globals bound when the package is imported, and submodules (which become visible once a public name has loaded them).", "quantifier": "all strings as attribute names", "why_tests_cant": "All strings.", "anchors": ["ufunclab/__init__.py:__getattr__,_name_to_module,__all__"]}
{"id": "C54", "title": "The generator classifies type signatures so each template instantiation gets the types of its typecode string", "statement": "For every list of equally shaped type signatures, if classify_typenames accepts it, re-instantiating the classification with signature k's template types yields exactly the argument types of signature k.", "quantifier": "all lists of type signatures of any length/arity", "why_tests_cant": "Only the shipped lists are exercised.", "anchors": ["tools/cxxgen/gufuncgen.py:classify_typenames"]}
{"id": "C55", "title": "The wrapper generator's line folding loses nothing and terminates", "statement": "to_lines(line, offset) splits at ', ' and re-joining the lines gives back the same parts in order, each line shorter than 80 characters; it always terminates.", "quantifier": "all lines and offsets", "why_tests_cant": "All strings; termination.", "anchors": ["tools/uwrap/uwrap.py:to_lines"]}
{"id": "C56", "title": "Zero-length core dimensions are rejected or handled without touching memory", "statement": "Gufuncs that need at least one element (minmax family, means, mad, vnorm, wjaccard, meanvar, ...) raise ValueError when the core dimension is 0, and the others never read an element when n = 0.", "quantifier": "all gufuncs, n = 0, any loop count", "why_tests_cant": "Memory effects of n = 0 are invisible to value tests.", "anchors": ["tools/cxxgen/gufuncgen.py:gen", "src/means/means_gufunc.c.src", "src/linear_interp1d/linear_interp1d_gufunc.c.src"]}
{"id": "C57", "title": "An exception raised while an object array is processed stops the call", "statement": "When a Python operation raises while an object-dtype gufunc is processing its operands, no further Python operation is performed by that call: the failing operation is the last one.", "quantifier": "all objects, all operators that may raise at any point, any number of slices", "why_tests_cant": "All exception points and operator behaviours.", "anchors": ["tools/cxxgen/gufuncgen.py:generate_concrete_loop", "src/cross/cross_gufunc.h"]}
{"id": "C58", "title": "The wrapper generator accepts exactly well-formed parameter lists", "statement": "uwrap's parameter check accepts a parameter list iff the parameters without a default come first, those with a default follow, and no parameter has the name of a ufunc keyword (out, out1..outN for N > 1 outputs, casting, order, dtype, subok, signature, extobj, where, axis, axes, keepdims); it then returns the two groups in order.", "quantifier": "all parameter lists, all names, any number of outputs", "why_tests_cant": "All lists and names.", "anchors": ["tools/uwrap/uwrap.py:check_params"]}
{"id": "C59", "title": "erfcx and the logarithm of the normal distribution are accurate for every argument", "statement": "erfcx(x) differs from exp(x^2)*2/sqrt(pi)*int_x^oo exp(-s^2) ds by a relative error of at most a few units of the type's precision for every x above the overflow limit, is +inf only where the exact value is at the edge of or beyond the type's range, and normal_logcdf/normal_logsf are within such an error of log(Phi(x)) and log(1 - Phi(x)) arbitrarily far into the tails.", "quantifier": "all real x (the piecewise polynomials have 100 pieces per type)", "why_tests_cant": "Tests compare a few points per table; a wrong coefficient or boundary in one of 300 pieces shows only there.", "anchors": ["src/normal/erfcx_funcs.cxx:erfcx_y100,erfcx", "src/normal/normal.h:normal_logcdf,normal_logsf"]}
{"id": "C60", "title": "The template expander writes every block once per assignment, with the right values and line numbers", "statement": "For a template made of text, @name@ references and (nested) blocks closed on a line that ends in a newline, the generated C file is the header followed by the text with each reference replaced by its value and each block replaced by one copy of its body per assignment of its heading, in order; each copy starts with a #line directive naming the template line on which the body starts. Text without blocks and references is copied unchanged. Expansion of any text ends, with a file or a ValueError.", "quantifier": "all templates: any text, any number of blocks, any nesting depth, any number of names and values; for termination all texts", "why_tests_cant": "Only the five shipped templates are expanded; the position arithmetic must be right for every layout and depth.", "anchors": ["tools/conv_template.py:parse_structure,parse_string,process_str,main"]}
{"id": "C61", "title": "A block heading assigns the i-th value of every list in the i-th copy", "statement": "In a heading, lists '#name = v1, v2, ...#' may be spread over lines starting with *, contain 'v*n' for n copies of v and '(v, w)*n' for n copies of a group; the i-th assignment gives every name its i-th value with surrounding white space removed.", "quantifier": "all headings: any names, values, repetition counts, any line breaks and white space", "why_tests_cant": "Unbounded notation; the regular expressions interact.", "anchors": ["tools/conv_template.py:parse_values,paren_repl,parse_loop_header"]}
{"id": "C62", "title": "A malformed template is reported with the line of the block", "statement": "An undefined name, lists of different lengths, a heading without lists and a block that is not closed raise ValueError naming the line; exclusions given in a heading are applied.", "quantifier": "all templates", "why_tests_cant": "All positions of the error in all templates.", "anchors": ["tools/conv_template.py:parse_structure,parse_loop_header,parse_string"]}
{"id": "C63", "title": "Argument types select a loop that receives the caller's values", "statement": "For every ufunc, arguments with exactly the types of a registered loop run that loop. For any other argument types the loop chosen receives the same values the caller passed, and the functions with float, double and long double loops accept every mix of real argument types and compute in the smallest of the three to which all arguments can be cast safely.", "quantifier": "all ufuncs of the package, all lists of argument types, all values of those types", "why_tests_cant": "Thousands of type combinations and all values of each; a misordered table silently computes in a narrower type.", "anchors": ["src/*/define_cxx_gufunc_extmod.py:UFuncSource.typesignatures", "src/*/define_cxxgen_extmods.py:Func.types", "src/means/means_gufunc.c.src:typecodes", "src/searchsorted/searchsorted_gufunc.c.src:searchsorted_typecodes", "src/peaktopeak/peaktopeak_gufunc.c.src:peaktopeak_typecodes"]}
{"id": "C64", "title": "Hand-written loops are registered for the types they read and write", "statement": "In every hand-written module, the loop registered for a list of types reads and writes memory at exactly those types, and the arrays of loop functions, type numbers and data pointers passed to NumPy cover all loops.", "quantifier": "all hand-written ufuncs, all registered loops", "why_tests_cant": "A mismatch reads memory at the wrong type or past an array, which may go unnoticed on the tested values.", "anchors": ["src/means/means_gufunc.c.src:typecodes,gmean_funcs", "src/abssq/abssq_ufunc.cpp:abssq_typecodes,abssq_funcs", "src/log1p/log1p_ufunc.c:log1p_typecodes,log1p_theorem4_funcs", "src/peaktopeak/peaktopeak_gufunc.c.src:peaktopeak_typecodes,peaktopeak_funcs"]}
{"id": "C65", "title": "Object loops neither leak nor lose references and use no freed object", "statement": "After first, minmax, min_argmin, max_argmax, peak_to_peak, cross2 or cross3 on object arrays, whether or not Python code raised, the reference count of every object has changed exactly by the references the output array gained and those Python code created or dropped itself; and no object is used after it has been freed.", "quantifier": "all object arrays and layouts, all Python comparison and arithmetic methods (including raising ones and ones that change other references), all histories of calls, all previous contents of the output array", "why_tests_cant": "A leaked or missing reference does not change any returned value; a use after free depends on what the called Python code does to the array.", "anchors": ["src/first/first_gufunc.h:first_core_calc_object", "src/minmax/minmax_gufunc.h:minmax_object_core,min_argmin_object_core,max_argmax_object_core", "src/peaktopeak/peaktopeak_gufunc.c.src:peaktopeak_object_loop", "src/cross/cross_gufunc.h:det2,cross2_core_calc_object,cross3_core_calc_object"]}
{"id": "C66", "title": "Each loop the ufunc generator registers has exactly the registered types", "statement": "If the ufunc generator accepts a configuration whose ufunc names are distinct and whose ufuncs have distinct signatures of equal arity, then in the generated extension module, for every ufunc and every registered signature, the function pointer names exactly one loop; that loop reads operand i through pointer and stride i as the i-th registered type and writes the operand after the inputs as the last registered type; it calls exactly one C function, whose parameter and return types are those, and which calls the configured C++ function with the arguments in order. The type table has one entry per signature and operand. Every configuration with well-formed signatures is accepted, and all configurations of the repository qualify.", "quantifier": "all configurations (numbers of headers, functions and signatures, names, arities)", "why_tests_cant": "The tests run the 14 configurations of the repository; the generator has to be right for every list of functions and signatures, and a wrong table entry reads memory at a wrong type.", "anchors": ["tools/cxxgen/generate_concrete_cfuncs.py:generate_concrete_cfuncs", "tools/cxxgen/generate_ufunc_extmod.py:generate_ufunc_extmod,print_ufunc_create", "tools/cxxgen/generate_utils.py:typechar_to_ctype,typechar_to_npy_type,typesig_to_ext,header_to_concrete_filenames", "src/*/define_cxxgen_extmods.py"]}
{"id": "C67", "title": "Docstrings reach the extension module unchanged", "statement": "The docstring a user sees on a generated ufunc or gufunc is, character by character, the docstring of its configuration: the C macro the generator writes is a well-formed sequence of string literals that a C compiler reads as that string, under a name no other docstring uses.", "quantifier": "all docstrings and all ufunc names", "why_tests_cant": "A test reads some docstrings; quoting has to be right for every text.", "anchors": ["tools/cxxgen/generate_ufunc_extmod.py:cdef_docstring", "tools/cxxgen/gufuncgen.py:create_c_docstring_def"]}
