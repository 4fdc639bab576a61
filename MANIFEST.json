{
 "claims": [
  {
   "property": "C01",
   "status": "proved",
   "theorems": [
    "C01_exactly_once"
   ],
   "note": ""
  },
  {
   "property": "C02",
   "status": "proved",
   "theorems": [
    "C02_return_is_barrier"
   ],
   "note": ""
  },
  {
   "property": "C03",
   "status": "proved",
   "theorems": [
    "C03_terminates"
   ],
   "note": ""
  },
  {
   "property": "C04",
   "status": "proved",
   "theorems": [
    "C04_chunks_tile"
   ],
   "note": ""
  },
  {
   "property": "C05",
   "status": "proved",
   "theorems": [
    "C05_indices_exactly_once"
   ],
   "note": "safety; termination is C06"
  },
  {
   "property": "C06",
   "status": "partial",
   "theorems": [
    "C06_index_calls_return_partial",
    "C06_chunk_calls_return",
    "C06_one_cpu_refuted",
    "C06_wrong_worker_refuted"
   ],
   "note": "false as stated: with no woken worker (one CPU) the caller waits forever; with one woken worker FUTEX_WAKE may wake a core that is not entitled. Proved for every setting that wakes two or more workers, and for all chunked operations."
  },
  {
   "property": "C07",
   "status": "partial",
   "theorems": [
    "C07_consecutive_calls_refuted",
    "C07_late_workers_harmless_partial",
    "C07_exactly_once_without_intruder_partial",
    "C07_never_twice_without_intruder_partial"
   ],
   "note": "false as stated: a worker that tested the pool in one call can fetch the next call's half-filled ring slot. Proved on the fine-grained ring machine for every history and schedule in which no worker holds the slot the caller is filling (so that race is the only cause)."
  },
  {
   "property": "C08",
   "status": "proved",
   "theorems": [
    "C08_worker_counts"
   ],
   "note": ""
  },
  {
   "property": "C09",
   "status": "proved",
   "theorems": [
    "C09_threading_transparent"
   ],
   "note": "under the stated no-cross-overlap condition, which covers disjoint and exact in-place operands"
  },
  {
   "property": "C10",
   "status": "proved",
   "theorems": [
    "C10_int_sum_prod",
    "C10_idempotent",
    "C10_idempotent_ops",
    "C10_deterministic"
   ],
   "note": "integer sum/product modulo 2^w on the kernel path with any stride; idempotent operations on both paths (numpy path: contiguous input; the strided numpy path is refuted under C11); for floats only schedule independence holds"
  },
  {
   "property": "C11",
   "status": "partial",
   "theorems": [
    "C11_subtract_refuted",
    "C11_xor_refuted",
    "C11_strided_numpy_refuted",
    "C10_idempotent",
    "C10_int_sum_prod"
   ],
   "note": "false as stated, refuted for every schedule; the true part is C10"
  },
  {
   "property": "C12",
   "status": "proved",
   "theorems": [
    "C12_vector_reduce_is_fold",
    "C12_reads_only_elements"
   ],
   "note": ""
  },
  {
   "property": "C13",
   "status": "partial",
   "theorems": [
    "C13_float_sum_refuted",
    "C13_float_sum_partial"
   ],
   "note": "false as stated: out-of-bounds read for every contiguous input of 16 or more elements; proved for shorter or strided input"
  },
  {
   "property": "C14",
   "status": "proved",
   "theorems": [
    "C14_integer_ufuncs",
    "SimpleMathOpFast_elementwise",
    "SimpleMathOpFastSymmetric_elementwise",
    "C14_unary",
    "table_is_numpy",
    "C14_misaligned_faults"
   ],
   "note": "Byte-level memory, any length, address and stride. The integer/boolean table entries are proved to be NumPy's operations; the float entries are covered by the two general kernel theorems for any operation whose lane form equals its scalar form (and is commutative where the symmetric kernel is used). The alignment clause needs the output address to be a multiple of the item size, which NumPy guarantees to ufunc loops; C14_misaligned_faults shows the hypothesis is needed."
  },
  {
   "property": "C15",
   "status": "proved",
   "theorems": [
    "C15_mul_u64_exact",
    "C15_mul_signed_reading"
   ],
   "note": "In the code only uint64 multiply uses the vector routine (int64 multiply is left to NumPy); the routine is exact for both readings."
  },
  {
   "property": "C16",
   "status": "proved",
   "theorems": [
    "C16_compare_right",
    "C16_position_independent"
   ],
   "note": "All six comparisons, all integer/boolean widths and float/double (pattern order proved equal to IEEE value order), every length, stride and content; byte-level model of shuffles, packs and permutes. One-byte contiguous operands must not overlap the output (C17)."
  },
  {
   "property": "C17",
   "status": "partial",
   "theorems": [
    "C17_first_input_exact_partial",
    "C17_second_input_exact_partial",
    "C17_in_place_right_partial",
    "C17_in_place_refuted"
   ],
   "note": "False of the code: CompareInt8 lacks a return after its contiguous case and compares the first n mod 32 elements twice; refuted for every n not a multiple of 32, with the exact result proved."
  },
  {
   "property": "C18",
   "status": "partial",
   "theorems": [
    "C18_signed_unsigned",
    "C18_unsigned_signed_partial",
    "C18_unsigned_signed_eq_refuted",
    "C18_loop"
   ],
   "note": "int64 op uint64 right for all six; uint64 op int64 right for the orderings, equality refuted when both patterns are equal with the top bit set. Only reachable through the C API (hooks register equal types)."
  },
  {
   "property": "C19",
   "status": "proved",
   "theorems": [
    "C19_mask_count"
   ],
   "note": ""
  },
  {
   "property": "C20",
   "status": "partial",
   "theorems": [
    "C20_mask_getitem_partial",
    "C20_schedule_independent",
    "C20_mask_getitem_refuted"
   ],
   "note": "proved for every schedule of both passes unless the counting pass ran unthreaded and the copying pass threaded; in that case (work item taken by another thread during the first pass only) the claim is refuted"
  },
  {
   "property": "C21",
   "status": "partial",
   "theorems": [
    "C21_mask_getitem_partial",
    "C21_mask_getitem_refuted",
    "C21_out_of_bounds_write_refuted",
    "C21_two_dimensional_refuted"
   ],
   "note": "false as stated: memcpy-sized items with a strided value array, and two-dimensional contiguous arrays; proved for a strided mask or contiguous 1-D values"
  },
  {
   "property": "C22",
   "status": "partial",
   "theorems": [
    "C22_int_getitem",
    "C22_int_getitem_bytes",
    "C22_reads_only_elements",
    "C22_default_read_refuted",
    "C22_default_read_partial"
   ],
   "note": "indexing proved for every input (threaded: contiguous values, see C24); the default object is too small for complex128/longdouble/records/long strings"
  },
  {
   "property": "C23",
   "status": "partial",
   "theorems": [
    "C23_uint_getitem_partial",
    "C23_uint_getitem_refuted",
    "C23_uint_variable_hangs",
    "C23_uint_variable_skips"
   ],
   "note": "false as stated; proved for fixed-size items when indices are below half the type range"
  },
  {
   "property": "C24",
   "status": "partial",
   "theorems": [
    "C24_threaded_getitem_partial",
    "C24_threaded_getitem_refuted"
   ],
   "note": "false for strided values on every schedule; proved for contiguous values"
  },
  {
   "property": "C25",
   "status": "proved",
   "theorems": [
    "C25_int_arange"
   ],
   "note": "signed overflow taken to wrap"
  },
  {
   "property": "C26",
   "status": "partial",
   "theorems": [
    "C26_columns",
    "C26_python_wrapper_refuted"
   ],
   "note": "the native conversion is proved for every layout and schedule; the Python wrapper raises NameError on every record array"
  },
  {
   "property": "C27",
   "status": "partial",
   "theorems": [
    "C27_terminates_partial",
    "C27_no_fields_hangs_refuted"
   ],
   "note": "terminates with at least one field; hangs with none"
  },
  {
   "property": "C28",
   "status": "proved",
   "theorems": [
    "C28_sort_in_place",
    "C28_sort_string",
    "sort_in_place_generic"
   ],
   "note": "quick, heap and merge in one thread for integers, strings and any strict weak order; floats are C29, several threads C33"
  },
  {
   "property": "C29",
   "status": "partial",
   "theorems": [
    "C29_sort_float",
    "C29_half_refuted"
   ],
   "note": "proved for float/double/long double in all three modes, all NaN placements; REFUTED for float16: sorted by uint16 bit pattern (sort.cpp:2405, 135), so 1.0 comes before -1.0"
  },
  {
   "property": "C30",
   "status": "proved",
   "theorems": [
    "C30_quicksort_stack_bounded"
   ],
   "note": "quicksort ends normally on every input of fewer than 2^63 items; pushing past the 128-entry arrays is a Fault in the model"
  },
  {
   "property": "C31",
   "status": "proved",
   "theorems": [
    "C31_argsort_stable",
    "C31_argsort_quick_heap"
   ],
   "note": "merge kind stable; quick and heap kinds sorted"
  },
  {
   "property": "C32",
   "status": "partial",
   "theorems": [
    "C32_argsort_nan_refuted",
    "C31_argsort_quick_heap",
    "C31_argsort_stable"
   ],
   "note": "REFUTED for kind mergesort/stable: the last merge uses the bare < (sort.cpp:1165), with 16 doubles a NaN lands before larger numbers; proved for quick and heap kinds with NaNs anywhere, and for merge without NaN"
  },
  {
   "property": "C33",
   "status": "proved",
   "theorems": [
    "C33_par_sort",
    "C33_par_sort_int_same_as_one_thread",
    "C33_par_sort_float",
    "C33_no_conflict",
    "C33_merge_after_halves",
    "C33_can_return"
   ],
   "note": "numbers, any strict weak order, all three kinds, contiguous source, every interleaving of memory accesses and store-queue drains (x86-TSO); strings are C37, strided sources C38"
  },
  {
   "property": "C34",
   "status": "proved",
   "theorems": [
    "C34_par_argsort_stable",
    "C34_par_argsort_quick_heap",
    "C34_no_conflict",
    "C34_can_return",
    "C34_cutoffs",
    "C34_cutoffs_one_thread",
    "C34_cutoffs_can_return"
   ],
   "note": "every interleaving of memory accesses and store-queue drains (x86-TSO); integer and NaN-free float keys (merge kind), any float keys (quick, heap); with cutoffs also string keys. NaN keys with the merge kind: C32; threaded string argsort: C37"
  },
  {
   "property": "C35",
   "status": "partial",
   "theorems": [
    "C35_lexsort",
    "C35_lexsort_threads",
    "C35_lexsort_heap_refuted"
   ],
   "note": "proved for the default kind (merge), any number of int, string and NaN-free float keys, each column sorted alone or on threads with any schedule (string columns alone); REFUTED for kind=heapsort (unstable sort per key). Floats with NaN: see C32"
  },
  {
   "property": "C36",
   "status": "partial",
   "theorems": [
    "C36_string_lt_is_lexicographic",
    "C36_string_lt_total",
    "C36_void_total",
    "C36_void_refuted",
    "C36_binary_lt_differs"
   ],
   "note": "bytes and unicode: lexicographic and total. REFUTED for void items: little-endian 8/4/2-byte loads, so not byte order (still a total order)"
  },
  {
   "property": "C37",
   "status": "partial",
   "theorems": [
    "C37_string_sort_refuted",
    "C37_string_argsort_refuted",
    "C28_sort_string",
    "C34_cutoffs"
   ],
   "note": "REFUTED on threads, for infinitely many lengths and every schedule: the threaded string sort merges items as if they were single bytes and returns strings that were not in the input; the threaded string argsort looks at row (*pm)-1 instead of *(pm-1) and skips merges. True below 65536 items (C28_sort_string) and with cutoffs (C34_cutoffs)"
  },
  {
   "property": "C38",
   "status": "partial",
   "theorems": [
    "C38_alone_partial",
    "C38_threaded_refuted"
   ],
   "note": "proved below 65536 items for every stride; REFUTED on threads: the stride is not passed to the callback, so contiguous items are sorted instead"
  },
  {
   "property": "C39",
   "status": "partial",
   "theorems": [
    "C39_is_sorted_int",
    "C39_is_sorted_float",
    "C39_is_sorted_string",
    "C39_is_sorted_schedule_free",
    "C39_can_return",
    "C39_is_sorted_number_partial",
    "C39_is_sorted_half_refuted",
    "C39_is_sorted_double_refuted"
   ],
   "note": "the check itself is right for integers, float/double/long double (trailing NaNs) and strings, for every chunking and interleaving. REFUTED for half floats (bit patterns compared), and the Python wrapper passes numpy's type number instead of the library's, so doubles are read as floats"
  },
  {
   "property": "C40",
   "status": "partial",
   "theorems": [
    "C40_group_int",
    "C40_group_bytes",
    "C40_group_order",
    "C40_group_bytes_base0_refuted",
    "C40_group_float_refuted",
    "C40_group_empty_refuted"
   ],
   "note": "integers and byte items: groups, first rows and counts are right for every input. REFUTED: counts of byte items are shifted by one for base_index 0; floats are grouped by bit pattern (0.0 and -0.0 differ); an empty index array is read out of bounds"
  },
  {
   "property": "C41",
   "status": "partial",
   "theorems": [
    "C41_switches",
    "C41_hook",
    "C41_initialize",
    "C41_zigzag",
    "C41_ledger_partial",
    "C41_ledger_sequential_partial",
    "C41_refuted"
   ],
   "note": "Every switch except the ledger's behaves independently for every interleaving; the ledger switch does so when no ledger request or query overlaps a recorded call on another Python thread. C41_refuted: LEDGER_END re-enables the ledger unconditionally, so an overlapping ledger_disable is lost."
  },
  {
   "property": "C42",
   "status": "proved",
   "theorems": [
    "C42_classification"
   ],
   "note": "isnan/isinf/isfinite (and isnotnan/isnotfinite), float32, float64 and integers, every AVX and scalar path."
  },
  {
   "property": "C43",
   "status": "partial",
   "theorems": [
    "C43_float_values_partial",
    "C43_bits_exact",
    "C43_refuted",
    "C43_integers"
   ],
   "note": "False as stated for floats: the bits depend on the position for -0.0 and negative NaN (abs) and for +0.0 and NaN (negative). Proved: exactly when they differ, that the values are right everywhere, and that integers never differ."
  },
  {
   "property": "C44",
   "status": "partial",
   "theorems": [
    "C44_exact_partial",
    "C44_refuted"
   ],
   "note": "False as stated: NaN is propagated only from the second operand. Proved: exactly that, for all patterns, strides and positions."
  },
  {
   "property": "C45",
   "status": "partial",
   "theorems": [
    "C45_complete_partial",
    "C45_sound_partial",
    "C45_fortran",
    "C45_newaxis_refuted",
    "C45_window_refuted",
    "C45_fortran_refuted"
   ],
   "note": "Exact for arrays whose last stride is smaller than the first and no dimension of length 0 or 1. The property is false for a[:,None] (stride 0 accepted), sliding_window_view (equal strides) and Fortran order; each refuted by a theorem."
  },
  {
   "property": "C46",
   "status": "proved",
   "theorems": [
    "C46_tables"
   ],
   "note": "All entries and bytes of the four tables."
  },
  {
   "property": "C47",
   "status": "partial",
   "theorems": [
    "C47_alloc_partial",
    "C47_free",
    "C47_counters",
    "C47_refuted"
   ],
   "note": "Holds for every request below 2^64-16 bytes; C47_refuted: above that the size plus the header wraps."
  },
  {
   "property": "C48",
   "status": "partial",
   "theorems": [
    "C48_lifetime",
    "C48_last_32_partial",
    "C48_in_bounds",
    "C48_alone",
    "C48_names",
    "C48_refuted",
    "C48_race_refuted"
   ],
   "note": "Exact lifetime of a record proved. The property is false: the mask 8095 is not 2^k-1, so most records are overwritten 32 calls later (C48_refuted), two Python threads can share a slot (C48_race_refuted), and ledger_info returns None, so nothing can be retrieved. Writes are in bounds under every interleaving."
  },
  {
   "property": "C49",
   "status": "partial",
   "theorems": [
    "C49_float_arange_refuted",
    "C49_float_arange_partial"
   ],
   "note": "false: two executions of the same float32 arange differ; proved when re-storing elements 0 and 1 does not change them"
  },
  {
   "property": "C50",
   "status": "proved",
   "theorems": [
    "C50_overlap_sequential"
   ],
   "note": "vector/vector operands; with a scalar operand see C14 (the scalar must not lie inside the output). C50_guard_needed shows what the 64-byte guard prevents."
  },
  {
   "property": "C51",
   "status": "partial",
   "theorems": [
    "C51_shifted_output_refuted",
    "SimpleMathOpFast_elementwise"
   ],
   "note": "REFUTED on threads for every length above 16384 and every positive worker count; unthreaded it holds (C14's hypothesis no_clobber covers it). That NumPy passes such operands without a copy is a fact about NumPy, not modelled."
  },
  {
   "property": "C52",
   "status": "partial",
   "theorems": [
    "C52_rounding",
    "C52_rint_exact",
    "C52_rint_refuted"
   ],
   "note": "floor, ceil, trunc proved. np.rint on float64 rounds halfway cases away from zero (refuted); proved right exactly when |x| is not halfway above an even integer. float32 rint stays NumPy's loop."
  },
  {
   "property": "C53",
   "status": "proved",
   "theorems": [
    "C53_integer_unary",
    "C53_answer_unique",
    "C53_yes_no",
    "C53_float_sign"
   ],
   "note": "All integer types and bool; float sign, signbit, logical_not."
  },
  {
   "property": "C54",
   "status": "partial",
   "theorems": [
    "C54_floor_of_rounded_partial",
    "C54_refuted"
   ],
   "note": "False as stated: 1.0 // 0.1 gives 10.0. Proved: the answer is always the floor of the correctly rounded quotient."
  },
  {
   "property": "C55",
   "status": "proved",
   "theorems": [
    "C55_float_arithmetic",
    "C55_rounding_unique"
   ],
   "note": "Sign and payload of NaN results are not claimed."
  },
  {
   "property": "C56",
   "status": "proved",
   "theorems": [
    "C56_falls_back_to_numpy",
    "C56_right_operation",
    "C56_info_keys"
   ],
   "note": "The hook tables of newinit, the type translation and the dictionary keys."
  },
  {
   "property": "C57",
   "status": "partial",
   "theorems": [
    "C57_native_partial",
    "C57_native_threads_partial",
    "C57_declined",
    "C57_misaligned_partial",
    "C57_swapped_refuted"
   ],
   "note": "Proved for aligned arrays of native byte order, and for strided arrays and rows of 2-D arrays, which the hook must leave to NumPy (C57_declined). False for every byte-swapped array (the result holds the items with their bytes reversed) and, below the threading threshold, for misaligned ones unless memory behind the stride table holds the item size."
  },
  {
   "property": "C58",
   "status": "partial",
   "theorems": [
    "C58_exp_values",
    "C58_log_values",
    "C58_holds_partial",
    "C58_refuted"
   ],
   "note": "The answers of the AVX2 kernels at every special value are computed exactly. Holds: log of a negative number is NaN, float32 exp(-inf) is 0. False: exp and log of every NaN are finite numbers, exp(+inf) and log(+inf) and log(0) are finite (log(0) is NaN)."
  },
  {
   "property": "C61",
   "status": "proved",
   "theorems": [
    "C61_sin_odd",
    "C61_cos_even"
   ],
   "note": "For every pattern of both formats."
  },
  {
   "property": "C62",
   "status": "partial",
   "theorems": [
    "C62_within_groups_partial",
    "C62_refuted"
   ],
   "note": "Proved when both elements lie in whole 32-byte groups, or both in the tail. False across the boundary: float64 exp(0) is 2^1023 in a group and 1 in the tail; float32 exp(NaN) is a finite number in a group and NaN in the tail."
  },
  {
   "property": "C59",
   "status": "partial",
   "theorems": [
    "C59_float32_partial",
    "C59_float32_small_partial",
    "C59_float32_refuted",
    "C59_float64_refuted",
    "C59_float64_answers_partial"
   ],
   "note": "float32: proved within 1e-6 of e^x, relatively, for every element of the groups in [-87.68, 88.37625], and within the smallest normal number below that; false from 88.5 on (e^x is in range up to 88.72): a tenth off. float64: false for every finite x: the answer is +infinity or off by at least e^x/2 (it is 2^1023 e^x below 0.346, because the double exponent bias constant is 0x7fe). Missing: the scalar tail is libm's."
  },
  {
   "property": "C60",
   "status": "partial",
   "theorems": [
    "C60_float32_partial",
    "C60_float32_subnormal_refuted",
    "C60_float64_refuted"
   ],
   "note": "float32: proved for every positive normal number, relative error at most 1e-6 (exactly 0 at x = 1); false for subnormals, which get the answer of 2^-126 (more than 2 off from 2^-130 down). float64: false for every normal positive x: the answer is ln x - 1023 ln 2 (off by 709), because the double exponent bias constant is 0x7fe. Missing: the scalar tail is libm's."
  },
  {
   "property": "C63",
   "status": "partial",
   "theorems": [
    "C63_float32_partial",
    "C63_float64_partial",
    "C63_float64_refuted"
   ],
   "note": "float32: proved within 6.6e-7 for every finite |x| <= 8192 (missing: larger |x|, where C64 fails). float64: proved within 5.06e-6 only, and false as stated: at 51/128 (cos) and 63/32 (sin) the answer is off by more than 2e-6, because the double kernel evaluates the single precision polynomials over an octant chosen by rounding instead of truncation. Missing: the scalar tail is libm's."
  },
  {
   "property": "C64",
   "status": "partial",
   "theorems": [
    "C64_partial",
    "C64_refuted",
    "C64_infinite_refuted"
   ],
   "note": "Proved for |x| <= 8192 up to the error of C63. False for large arguments: float32 sin and cos of 2^29 have size above 1000, of 2^31 are infinite, float64 of 2^60 above 1000."
  },
  {
   "property": "C65",
   "status": "proved",
   "theorems": [
    "C65_unthreaded",
    "C65_threaded"
   ],
   "note": "float64, any stride: the error is at most (n/8+11) 2^-52 times the sum of absolute values for one contiguous call, and (2071 + n/131072) 2^-52 on threads in every interleaving (n instead of n/8, 16396 instead of 2071, for strided arrays), provided twice the sum of absolute values is finite. Integer statements, no axioms. float32 sums are C13."
  },
  {
   "property": "C66",
   "status": "proved",
   "theorems": [
    "C66_unthreaded",
    "C66_threaded"
   ],
   "note": "Every stride, every interleaving."
  },
  {
   "property": "C67",
   "status": "partial",
   "theorems": [
    "C67_exact_partial",
    "C67_refuted"
   ],
   "note": "Proved where the sums are exact (C66) and not zero. False in general: n negative zeros summed from -0.0 give -0.0 in one call and +0.0 on threads in every interleaving; inexact sums are rounded in a different order."
  },
  {
   "property": "C68",
   "status": "partial",
   "theorems": [
    "C68_lexsort_partial",
    "C68_lexsort_threads_partial",
    "C68_only_suitable_keys",
    "C68_float16_refuted",
    "C68_swapped_refuted",
    "C68_crash_refuted",
    "C68_tuple_goes_to_numpy"
   ],
   "note": "Proved for native bool, integer, float32, float64, longdouble, bytes and str keys of one length, contiguous or strided, as arguments or in a list, without NaN (NaN keys: C36), kind merge or default; on threads for numeric keys. False in general: float16 keys are accepted and the answer is 0..n-1 whatever they are; byte-swapped keys are read as native; a 0-d array (or None first) dereferences NULL; no key returns None. Row counts above 2^31 (lexsort32 casts the count) are not modelled."
  },
  {
   "property": "C69",
   "status": "partial",
   "theorems": [
    "C69_index_partial",
    "C69_cutoffs_partial",
    "C69_cutoffs_threads_partial",
    "C69_unfit_refused",
    "C69_index_and_cutoffs_refuted",
    "C69_disordered_cutoffs_refuted",
    "C69_empty_cutoffs_refuted",
    "C69_empty_index_refuted",
    "C69_index_out_of_range_refuted"
   ],
   "note": "Proved for index= of valid row numbers (one thread) and for cutoffs in order (one thread or threads, any kind). False in general: index shorter than the keys together with cutoffs writes behind the index array; disordered cutoffs write behind the result; empty cutoffs read cutoffs[-1]; an empty index sorts uninitialised memory; an out-of-range row number reads outside the key. index and cutoffs arrays are taken to be contiguous (the code does not check)."
  },
  {
   "property": "C70",
   "status": "partial",
   "theorems": [
    "C70_argsort_partial",
    "C70_lexsort_partial",
    "C70_argsort_ends",
    "C70_left_to_numpy",
    "C70_nan_refuted"
   ],
   "note": "Proved for all hooked dtypes (NPY 0..12), every kind, byte order and stride, alone or on threads; for a stable kind (and so lexsort) only without NaN: with NaN the answer is wrong (C70_nan_refuted). Trusted: how NumPy calls the function (buffer, fill with 0..n-1, one row at a time) and that NumPy's own functions sort (numpy_sorts)."
  },
  {
   "property": "C71",
   "status": "proved",
   "theorems": [
    "C71_integer_ufuncs",
    "C71_float_arithmetic",
    "C71_float_min_max",
    "C71_float_floor_divide",
    "C71_threaded_numpy_loop",
    "C71_threading_invisible",
    "C71_float_threading_invisible"
   ],
   "note": "For arrays where an output overlaps no input of another position (C51 shows threaded calls go wrong otherwise) and items and output stride are multiples of the item size (NumPy's aligned arrays). NumPy's own loop is taken to be the sequential loop with NumPy's operation. Memory is x86-TSO (store buffers, byte granularity, locked instructions of the engine drain them); the channel engine's atomics are as in C01. Float minimum/maximum/floor_divide: threads change nothing, the answers are those of C44 and C54."
  },
  {
   "property": "C72",
   "status": "proved",
   "theorems": [
    "C72_comparisons",
    "C72_threading_invisible"
   ],
   "note": "For arrays where an output byte lies in no input element of another position; one-byte items with unit strides: in no input element at all (C17). NumPy's own loop is taken to be the sequential loop with a predicate that is the comparison. Memory is x86-TSO (store buffers, byte granularity). Calls whose two inputs have different dtypes are C18."
  },
  {
   "property": "C73",
   "status": "proved",
   "theorems": [
    "C73_unary_ufuncs",
    "C73_rounding",
    "C73_trig",
    "C73_threading_invisible"
   ],
   "note": "For arrays where an output element meets no input element of another position (in place is allowed). np.rint of float64 as in C52. abs/negative of floats as numbers (bits: C43, and C73_threading_invisible: threading does not change them). sin/cos/exp/log: equal bit for bit to the unthreaded call, of which C58-C64 speak. NumPy's own loop is taken to be the sequential loop with an operation that gives NumPy's answer. Memory is x86-TSO (store buffers, byte granularity)."
  },
  {
   "property": "C74",
   "status": "partial",
   "theorems": [
    "C74_mask_partial",
    "C74_other_indices",
    "C74_byteswapped_refuted",
    "C74_dtype_and_shape_refuted",
    "C74_two_dimensional_refuted",
    "C74_zero_dimensional_refuted"
   ],
   "note": "Proved for boolean vectors indexing vectors of native dtypes, every stride, item size and schedule within C20/C21's restrictions, and for every index that is not a mask of the array's length. False in general: byte-swapped arrays come out reversed, structured and datetime arrays lose fields and unit, an (n,1) array indexed by n bools loses its shape, two-dimensional masks give the wrong count, a 0-d mask on a 0-d array dereferences NULL."
  },
  {
   "property": "C75",
   "status": "partial",
   "theorems": [
    "C75_getitem_partial",
    "C75_refusals",
    "C75_big_integer_default_refuted",
    "C75_bool_default_refuted",
    "C75_string_default_refuted",
    "C75_complex_default_refuted",
    "C75_longdouble_default_refuted",
    "C75_byteswapped_refuted"
   ],
   "note": "Proved for signed index arrays (and unsigned ones below half their range with items of 1, 2, 4, 8, 16 bytes: C23), any shape whose elements lie on one stride in C order with dimensions of at least 2, alone or on threads with contiguous values (C24), every default that fits. False in general: integers beyond 64 bits become -1.0, a number in a bool array keeps its low byte, bytes and str defaults leave uninitialised stack bytes, complex arrays ignore the default, long double arrays get a double's pattern, byte-swapped values come out reversed; other layouts: C45. gcc/x86-64's conversion of out-of-range floats is modelled, no theorem depends on it."
  },
  {
   "property": "C76",
   "status": "proved",
   "theorems": [
    "C76_sqrt",
    "C76_root_unique"
   ],
   "note": "For arrays where an output element meets no input element of another position (in place is allowed). NumPy's own loop is taken to be the sequential loop with a correctly rounded root. sqrtss/vsqrtps are taken to be IEEE 754 (modelled by integer square roots with a sticky bit). Statement over the real numbers: the standard library's axioms of Reals appear."
  },
  {
   "property": "C77",
   "status": "partial",
   "theorems": [
    "C77_sort_axis",
    "C77_axis_none_returns_unsorted",
    "C77_axis_none_refuted",
    "C77_axis_none_fallback",
    "C77_wrapfunc_partial",
    "C77_wrapfunc_refuted"
   ],
   "note": "pn.sort with an axis: proved for every array-like, item order and method. False for axis=None: the sorted copy is thrown away and the flattened array returned unsorted (unless sorting a copy raises). The other functions: proved unless the object must be converted and has __array_wrap__: then NameError (mu is not imported). The ndarray methods themselves are a parameter (C30-C35, C57, C70 speak of them)."
  },
  {
   "property": "C78",
   "status": "proved",
   "theorems": [
    "C78_integers",
    "C78_float64_schedule_free",
    "C78_float64_sum",
    "C78_float64_sum_exact"
   ],
   "note": "Subtract and xor are excluded (wrong on threads, C11), and so is NumPy's own loop on threads over a strided array (C11_strided_numpy_refuted) and float32 sum/product (C13). The chunk buffer is the caller's stack: assumed to share no byte with the arrays. NumPy's own loop is taken to be the sequential loop with an operation that gives the documented answers. Memory is x86-TSO (store buffers, byte granularity)."
  },
  {
   "property": "C79",
   "status": "partial",
   "theorems": [
    "C79_columns_partial",
    "C79_refused",
    "C79_short_column_refuted",
    "C79_strided_column_refuted",
    "C79_int32_offsets_refuted",
    "C79_fortran_refuted",
    "C79_unchecked_refuted",
    "C79_no_columns_refuted"
   ],
   "note": "Documented calls, alone or threaded: proved (columns apart from each other and from the bytes read). False in general: a short column is written past its end, a strided column or Fortran-ordered records give values in the wrong places, int32 offsets are read in pairs, arguments that are not arrays crash, records without fields never return; only the checks of C79_refused exist. Malloc is taken to succeed."
  },
  {
   "property": "C80",
   "status": "partial",
   "theorems": [
    "C80_sort_partial",
    "C80_refused",
    "C80_strided_threads_refuted",
    "C80_swapped_refuted",
    "C80_half_refuted",
    "C80_rows_refuted"
   ],
   "note": "Proved for vectors of native booleans, integers, float32/64, long double, bytes and str of any stride alone, and contiguous vectors of numbers on threads. False in general: on threads the stride is ignored, byte-swapped numbers come back with wrong values, float16 is ordered by bit pattern, arrays of several dimensions are sorted flat; strings on threads: C37; other layouts: C45. The allocations are taken to succeed."
  },
  {
   "property": "C81",
   "status": "partial",
   "theorems": [
    "C81_sysfs",
    "C81_cpuinfo",
    "C81_last_section_refuted",
    "C81_stat_refuted",
    "C81_import_refuted"
   ],
   "note": "The counts: proved for topology files of any machine and, without them, for every well-formed /proc/cpuinfo. False in general: a last section without an empty line after it is not counted, the /proc/stat fallback is a NameError, and the import fails where the files are missing or written otherwise although the counts are not used. What the operating system answers is a parameter."
  },
  {
   "property": "C82",
   "status": "partial",
   "theorems": [
    "C82_prod",
    "C82_prod_exact",
    "C82_reordered_refuted"
   ],
   "note": "Proved down to the bytes for every array in which no product of some of the elements leaves 2^-1020 .. 2^1020. Without that condition it is false, even where the product taken in order stays small: the lanes multiply other elements together, and the answer can be NaN instead of 1."
  },
  {
   "property": "C83",
   "status": "proved",
   "theorems": [
    "C83_own_kernel",
    "C83_accelerated",
    "C83_own_reduction"
   ],
   "note": "What is modelled of NumPy: its ufunc objects as numbers, which loops it has (a premise of C83_accelerated, shown satisfiable), and PyUFunc_ReplaceLoopBySignature as an update. rint is listed with half-away-from-zero rounding as its kernel: that the kernel is wrong is C52. Types no loop is hooked for are outside."
  },
  {
   "property": "C84",
   "status": "partial",
   "theorems": [
    "C84_idempotent",
    "C84_no_avx2",
    "C84_failure_is_kept",
    "C84_refuted"
   ],
   "note": "Proved whenever NumPy has the loops asked for, and without AVX2. False in general: after a call that raised TypeError half way every later call returns None with the rest not hooked."
  },
  {
   "property": "C85",
   "status": "proved",
   "theorems": [
    "C85_integers",
    "C85_floats",
    "C85_comparisons",
    "C85_unary",
    "C85_rounding",
    "C85_sqrt",
    "C85_trig"
   ],
   "note": "One theorem per kind of ufunc, from NumPy's name and dtype through the hooks installed by initialize() to the bytes of the result. NumPy's own loop is a parameter assumed right. Float minimum/maximum (C44, C71), floor_divide (C54) and rint (C52) are not in the statement: they are wrong. How close sin, cos, exp and log are to the real functions: C58-C64."
  },
  {
   "property": "C86",
   "status": "proved",
   "theorems": [
    "C86_own_function",
    "C86_numpy_answers",
    "C86_accelerated",
    "C86_accelerated_arange",
    "C86_other_dtypes"
   ],
   "note": "Premise: NumPy has every kind of sort and argsort for the dtypes 0 to 12 (it does; argmax, argmin and fill may be missing). Which calls pnumpy takes is a parameter here; SortHook_Model, ArgHook_Model and Arange_Model (C57, C70, C25, C49) say which, and what it then computes. Simplification: one ArrFuncs per dtype number."
  },
  {
   "property": "C87",
   "status": "proved",
   "theorems": [
    "C87_integers",
    "C87_float64_sum",
    "C87_float64_prod"
   ],
   "note": "From NumPy's name and dtype through the hooks, the slot's reduction kernel and the start value of its opcode to the bytes of the accumulator. NumPy's own loop is a parameter assumed right. Left out, because wrong: subtract and bitwise_xor (C11) and a strided array threaded through NumPy's own loop (C11_strided_numpy_refuted). float32 sum and product: C13."
  },
  {
   "property": "C88",
   "status": "partial",
   "theorems": [
    "C88_info",
    "C88_setworkers",
    "C88_governs",
    "C88_woken",
    "C88_invert",
    "C88_listed",
    "C88_refuted"
   ],
   "note": "Proved but for two cases in which it is false: the limit set for np.invert under its own name governs nothing (its loops have been replaced a second time, as bitwise_not; C88_invert: with NumPy as it is the limit of bitwise_not always governs), and atop_info() before initialize() returns NULL with no exception set (SystemError). Workers and dtypes are C ints. That a threaded call gives the same result whatever its limit: C02-C04, C71-C73."
  }
 ]
}