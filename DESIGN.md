# Design: a Rocq model of Quansight/pnumpy and the properties proved about it

This file was written before the proofs (see the first commits) and is kept in step with them. The per-property part at the end is
regenerated from `properties.jsonl` and `MANIFEST.json`.

## Shape of the development

Everything lives in `rocq/theories` (logical name `Verif`). For each area there are up to three kinds of file:

* `X_Model.v` – executable Gallina model of the C++ code, one definition per function or loop, each with a comment citing file and
  lines in /repo/src and saying what is simplified. No proofs.
* `X_Proofs.v` (also `Ring_Fine.v`, `Sort_*_Proofs.v`, ...) – lemmas and invariants.
* `X_Props.v` – the small independent specification the theorems talk about, the property theorems, `Print Assumptions`, and the
  non-vacuity `Example`s (a concrete, non-trivial case meeting each theorem's hypotheses).

Naming: `..._partial` proves part of a property and its comment says what is missing; `..._refuted` exhibits an input, state or
schedule (often: for every input of a class, every schedule) for which the code violates the property. A refuted property is a finding about the
code; whenever one was found the exact true part was proved next to it.

Semantics used:

* Concurrency (C01–C11, C20, C24, C25, C33, C34, C37–C39, C41, C48, C49, C51): interleaving. A work item is a record of the fields of
  `stMATH_WORKER_ITEM`; every thread has a program counter; one step of one thread is one access to shared memory (the `Interlocked*` calls,
  the volatile reads, one element of the user loop, one memory access of a sort or merge). A schedule is an arbitrary list of thread numbers, of any
  length, with any number of threads; theorems quantify over all schedules and are proved by invariants on reachable states.
* Memory of threaded callbacks (C20, C21, C24–C26, C39, C49: `Jobs_Model`; C33–C38, C57, C68–C70: the parallel sorts, `ParSort_Model`; C71–C73, C76, C78:
  `Ufunc_Model`): x86-TSO. Every thread has a FIFO queue of stores; it reads through its own queue; stores are committed at any time, oldest
  first; the engine's interlocked instructions, and the InterlockedOr with which two halves of a merge meet, wait for an empty queue. The engine's
  own counters, which only interlocked instructions change, are interleavings of atomic steps; so are the first, abstract versions of the
  reductions and element-wise calls (C01–C13), whose byte-level versions are C71–C73 and C78.
* Memory of the element-wise kernels: byte addressed (`bytes := Z -> Z`), so overlap, alignment and stride are real.
* Sorts: array programs in a state monad with an explicit `Fault` for out-of-bounds access and stack overflow; loops carry fuel and running
  out of fuel is a distinct outcome which the theorems exclude (so they include termination).
* Floats: bit patterns with the IEEE-754 value as an exact rational (sign, mantissa, exponent); rounding specified as nearest, ties to even.

## Trusted base

* Coq 8.16.1's kernel, including its `vm_compute` conversion (used for finite tables and concrete examples).
* `Print Assumptions` after the property theorems prints "Closed under the global context" for every theorem except the accuracy theorems
  over the real numbers (names starting with `C59_`, `C60_`, `C63_`, `C64_`: files Exp_Bounds, Trig_Real, Trig_Near, Trig_Exp*, Trig_Log*, Trig_Sin*). Those
  depend on the axioms of Coq's standard Reals library and nothing else: `ClassicalDedekindReals.sig_not_dec`,
  `ClassicalDedekindReals.sig_forall_dec`, `FunctionalExtensionality.functional_extensionality_dep` and (through `ln`, `sin`, `cos`)
  `Classical_Prop.classic`. No axiom of another library and none of our own.
* The reading of the C++ source. Nothing was executed. What this reading assumes:
  - x86-TSO for the data (see above); `lock` instructions for the Interlocked calls; the engine's volatile/plain 64-bit accesses are atomic and not
    reordered with them;
  - signed integer overflow wraps (the compiler does not exploit it), shifts and conversions behave as on x86-64 gcc;
  - the Intel semantics of each intrinsic as written in the model files;
  - build flags of setup.py: `-mavx2`, no `-ffast-math`, no FMA contraction.
* NumPy's side is a stated assumption in each theorem that needs it (how it calls loops, which strides it passes).

## What is modelled, file by file

| Source | Modelled in | Not modelled |
|---|---|---|
| src/atop/threads.h, threads.cpp | Threads_, Sleep_, Ring_, Settings_, Jobs_Model | CPU affinity/core detection, Windows and macOS variants, thread creation failure, NUMA |
| src/atop/ops_binary.cpp | Kernel_, Arith_, Reduce_, RedBytes_Model | power (calls libm), complex |
| src/atop/ops_compare.cpp | Compare_Model | – |
| src/atop/ops_unary.cpp | Unary_, Round_, Sqrt_Model | libm cbrt |
| src/atop/ops_log.cpp, ops_trig.cpp, avx_mathfun.h | Trig_Model (Trig_Fast only evaluates it faster, with equality lemmas; sin, cos, exp, log kernels with gcc) | SVML kernels (not compiled with gcc), the other functions, which have no kernel with gcc and stay with NumPy |
| src/atop/sort.cpp | Sort_, SortCmp_, ParSort_, StrPar_, IsSorted_, Group_Model | – |
| src/atop/recarray.cpp | RecArray_Model | – |
| src/pnumpy/conversions.cpp | RecCall_Model | – |
| src/atop/common_inc.h (allocator) | Alloc_Model | recycler |
| src/pnumpy/_pnumpy.cpp | Hooks_, Dispatch_, Entry_, EntryRed_, Desc_, Workers_, Reduce_, RedBytes_, Kernel_, SortHook_, ArgHook_, Ufunc_, UfuncCmp_, UfuncUn_, Settings_Model | Python reference counts, error strings, `oldinit` |
| src/pnumpy/getitem.cpp | Mask_, GetItem_, GetCall_Model | error strings |
| src/atop/fill.cpp and the arange hook | Arange_Model | src/pnumpy/arange.cpp and item_selection.cpp are not compiled (setup.py:161-162) |
| src/pnumpy/common.cpp | Layout_, LexCall_Model (BuildArrayInfo), GetCall_Model (ConvertScalarObject, GetDefaultForType, AllocateLikeResize) | other array allocation helpers |
| src/pnumpy/ledger.cpp | Ledger_, Settings_Model | printing, torn entries |
| src/pnumpy/sorting.cpp | Sort_, IsSorted_, Group_, LexCall_, SortCall_Model (entry points) | `GroupFromLexSortInternal` variants that are not exported |
| src/pnumpy/sort.py | PySort_, LexCall_Model | docstrings |
| cpu.py | cpu_count_linux, cpu_physical_linux, init on Linux (C81) | other systems |
| other src/pnumpy/*.py | only where a property needs it (C26, C39) | benchmark.py |

## Wrong programs

`seeded/LOG.jsonl` records each edit made to a scratch copy of the model (a realistic bug), the claim it breaks and the theorems that then fail.
Where a theorem survived, the line says what was tightened.

## Per property

### C01 Threaded element-wise calls process every element exactly once — proved

* Modelled: Threads_Model: `stMATH_WORKER_ITEM`, `GetNextWorkBlockCore(Internal)`, `WorkMain`, chunk callback; any number of threads
* Proof: inductive invariant over schedules: hand-outs distinct, completions distinct; pigeonhole at the barrier
* Theorems: `C01_exactly_once`

### C02 A threaded call returns only after all chunks are finished — proved

* Modelled: same machine, one element write = one step
* Proof: same invariant; the caller leaves its wait only with every block completed
* Theorems: `C02_return_is_barrier`

### C03 A threaded element-wise call always finishes, even if no worker ever wakes — proved

* Modelled: same machine
* Proof: ranking function on the caller's own steps: every schedule with enough caller steps returns
* Theorems: `C03_terminates`

### C04 Chunk-callback operations hand out pieces that tile the array exactly — proved

* Modelled: shared-counter machine (`GetNextWorkBlock`)
* Proof: invariant
* Theorems: `C04_chunks_tile`

### C05 Index-callback operations run every index exactly once — proved

* Modelled: index machine (`GetNextWorkIndex`)
* Proof: invariant
* Theorems: `C05_indices_exactly_once`
* Note: safety; termination is C06

### C06 Index-callback operations always return — partial

* Modelled: Sleep_Model: index machine + sleeping workers, futex wake rule, entitlement test
* Proof: refuted by inductive stuck invariants; progress proof when two or more workers are woken
* Theorems: `C06_index_calls_return_partial`, `C06_chunk_calls_return`, `C06_one_cpu_refuted`, `C06_wrong_worker_refuted`
* Note: false as stated: with no woken worker (one CPU) the caller waits forever; with one woken worker FUTEX_WAKE may wake a core that is not entitled. Proved for every setting that wakes two or more workers, and for all chunked operations.

### C07 Consecutive operations do not disturb each other — partial

* Modelled: Ring_Model: part 1, ring of 1024 work items with every field write of `GetWorkItem`/`WorkMain`/`SetWorkItem` and every read of the worker loop a separate step; part 2, histories of calls
* Proof: refuted by a concrete schedule; invariant over all schedules without a worker holding the slot being filled (Ring_Fine)
* Theorems: `C07_consecutive_calls_refuted`, `C07_late_workers_harmless_partial`, `C07_exactly_once_without_intruder_partial`, `C07_never_twice_without_intruder_partial`
* Note: false as stated: a worker that tested the pool in one call can fetch the next call's half-filled ring slot. Proved on the fine-grained ring machine for every history and schedule in which no worker holds the slot the caller is filling (so that race is the only cause).

### C08 Worker-count settings stay in range and wakeups reach every requested worker — proved

* Modelled: setting clamps and pool signalling on Z
* Proof: case analysis, lia
* Theorems: `C08_worker_counts`

### C09 Threading does not change element-wise results — proved

* Modelled: Threads_Model with memory
* Proof: corollary of exactly-once: final memory = sequential loop
* Theorems: `C09_threading_transparent`
* Note: under the stated no-cross-overlap condition, which covers disjoint and exact in-place operands

### C10 Threaded reductions equal the sequential reduction for sum, product, min, max, and/or — proved

* Modelled: Reduce_Model: `ReduceCallback`/`AtopBinaryMathFunction` reduce path, both kernel and NumPy-loop variants
* Proof: schedule invariant + algebra of folds
* Theorems: `C10_int_sum_prod`, `C10_idempotent`, `C10_idempotent_ops`, `C10_deterministic`
* Note: integer sum/product modulo 2^w on the kernel path with any stride; idempotent operations on both paths (numpy path: contiguous input; the strided numpy path is refuted under C11); for floats only schedule independence holds

### C11 Threaded reductions are right for every hooked ufunc and stride — partial

* Modelled: same
* Proof: refutations quantified over every schedule
* Theorems: `C11_subtract_refuted`, `C11_xor_refuted`, `C11_strided_numpy_refuted`, `C10_idempotent`, `C10_int_sum_prod`
* Note: false as stated, refuted for every schedule; the true part is C10

### C12 Vectorised reduction kernels equal the left fold — proved

* Modelled: Reduce kernels: lanes, unrolled body, tail
* Proof: induction; permutation of a commutative fold
* Theorems: `C12_vector_reduce_is_fold`, `C12_reads_only_elements`

### C13 float32 sum/product reduction stays inside its buffers — partial

* Modelled: same, loads outside the buffer are an explicit outcome
* Proof: refutation for every length >= 16 contiguous; proof for the rest
* Theorems: `C13_float_sum_refuted`, `C13_float_sum_partial`
* Note: false as stated: out-of-bounds read for every contiguous input of 16 or more elements; proved for shorter or strided input

### C14 Vectorised element-wise kernels equal the scalar loop for every length — proved

* Modelled: Kernel_Model: byte memory, unaligned and aligned loads/stores, peel/body/tail of `SimpleMathOpFast*`, table of operations
* Proof: induction on blocks, frame lemmas of byte memory
* Theorems: `C14_integer_ufuncs`, `SimpleMathOpFast_elementwise`, `SimpleMathOpFastSymmetric_elementwise`, `C14_unary`, `table_is_numpy`, `C14_misaligned_faults`
* Note: Byte-level memory, any length, address and stride. The integer/boolean table entries are proved to be NumPy's operations; the float entries are covered by the two general kernel theorems for any operation whose lane form equals its scalar form (and is commutative where the symmetric kernel is used). The alignment clause needs the output address to be a multiple of the item size, which NumPy guarantees to ufunc loops; C14_misaligned_faults shows the hypothesis is needed.

### C15 64-bit integer vector multiply is exact modulo 2^64 — proved

* Modelled: Kernel_Model: 32x32 partial products
* Proof: modular arithmetic
* Theorems: `C15_mul_u64_exact`, `C15_mul_signed_reading`
* Note: In the code only uint64 multiply uses the vector routine (int64 multiply is left to NumPy); the routine is exact for both readings.

### C16 Vectorised comparisons write each answer at its own position — proved

* Modelled: Compare_Model: shuffles, packs, permutes on byte lists
* Proof: lane tables + induction; bit-pattern order proved to be the IEEE order
* Theorems: `C16_compare_right`, `C16_position_independent`
* Note: All six comparisons, all integer/boolean widths and float/double (pattern order proved equal to IEEE value order), every length, stride and content; byte-level model of shuffles, packs and permutes. One-byte contiguous operands must not overlap the output (C17).

### C17 Comparing booleans in place is right — partial

* Modelled: Compare_Model: in-place
* Proof: exact result proved, refutation derived
* Theorems: `C17_first_input_exact_partial`, `C17_second_input_exact_partial`, `C17_in_place_right_partial`, `C17_in_place_refuted`
* Note: False of the code: CompareInt8 lacks a return after its contiguous case and compares the first n mod 32 elements twice; refuted for every n not a multiple of 32, with the exact result proved.

### C18 Mixed int64/uint64 comparisons follow mathematical order — partial

* Modelled: Compare_Model: mixed compares
* Proof: arithmetic on 64-bit words
* Theorems: `C18_signed_unsigned`, `C18_unsigned_signed_partial`, `C18_unsigned_signed_eq_refuted`, `C18_loop`
* Note: int64 op uint64 right for all six; uint64 op int64 right for the orderings, equality refuted when both patterns are equal with the top bit set. Only reachable through the C API (hooks register equal types).

### C19 Counting a boolean mask is exact — proved

* Modelled: Mask_Model: byte counters with wrap-around
* Proof: induction, no-overflow bound
* Theorems: `C19_mask_count`

### C20 Boolean-mask getitem returns the selected elements in order — partial

* Modelled: Mask_Model: counting pass and copying pass, chunk schedules
* Proof: prefix sums; filter lemma; refutation by a mixed schedule
* Theorems: `C20_mask_getitem_partial`, `C20_schedule_independent`, `C20_mask_getitem_refuted`
* Note: proved for every schedule of both passes unless the counting pass ran unthreaded and the copying pass threaded; in that case (work item taken by another thread during the first pass only) the claim is refuted

### C21 Boolean-mask getitem is right for other item sizes and strides — partial

* Modelled: same for memcpy items, strides, 2-D
* Proof: refutations and proof on the complement
* Theorems: `C21_mask_getitem_partial`, `C21_mask_getitem_refuted`, `C21_out_of_bounds_write_refuted`, `C21_two_dimensional_refuted`
* Note: false as stated: memcpy-sized items with a strided value array, and two-dimensional contiguous arrays; proved for a strided mask or contiguous 1-D values

### C22 Integer getitem follows Python indexing with default for out of range — partial

* Modelled: GetItem_Model: index loops, default read
* Proof: case analysis; refutation
* Theorems: `C22_int_getitem`, `C22_int_getitem_bytes`, `C22_reads_only_elements`, `C22_default_read_refuted`, `C22_default_read_partial`
* Note: indexing proved for every input (threaded: contiguous values, see C24); the default object is too small for complex128/longdouble/records/long strings

### C23 Unsigned getitem treats indices as unsigned — partial

* Modelled: GetItem_Model, unsigned index types
* Proof: refutation; non-termination proof
* Theorems: `C23_uint_getitem_partial`, `C23_uint_getitem_refuted`, `C23_uint_variable_hangs`, `C23_uint_variable_skips`
* Note: false as stated; proved for fixed-size items when indices are below half the type range

### C24 Threaded getitem writes each result in its own slot — partial

* Modelled: GetItem_Model on threads
* Proof: schedule invariant; refutation for all schedules
* Theorems: `C24_threaded_getitem_partial`, `C24_threaded_getitem_refuted`
* Note: false for strided values on every schedule; proved for contiguous values

### C25 arange fill is exact for integers and independent of threading — proved

* Modelled: Arange_Model: words mod 2^w
* Proof: schedule invariant
* Theorems: `C25_int_arange`
* Note: signed overflow taken to wrap

### C26 Record-array conversion puts each field in its column — partial

* Modelled: RecArray_Model: row/column loops and the Python wrapper's name use
* Proof: induction
* Theorems: `C26_columns`, `C26_python_wrapper_refuted`
* Note: the native conversion is proved for every layout and schedule; the Python wrapper raises NameError on every record array

### C27 Record-array conversion terminates — partial

* Modelled: same
* Proof: termination measure; divergence proof
* Theorems: `C27_terminates_partial`, `C27_no_fields_hangs_refuted`
* Note: terminates with at least one field; hangs with none

### C28 In-place sort returns a sorted permutation (quick, heap, merge) — proved

* Modelled: Sort_Model: array programs in a state monad with Fault; `quicksort_`, `heapsort_`, `mergesort_`, insertion
* Proof: weakest preconditions, loop invariants; permutation and order
* Theorems: `C28_sort_in_place`, `C28_sort_string`, `sort_in_place_generic`
* Note: quick, heap and merge in one thread for integers, strings and any strict weak order; floats are C29, several threads C33

### C29 Floating-point sort puts NaNs last — partial

* Modelled: SortCmp_Model: float comparisons on bit patterns
* Proof: comparison is a strict weak order with NaN last; refutation for float16
* Theorems: `C29_sort_float`, `C29_half_refuted`
* Note: proved for float/double/long double in all three modes, all NaN placements; REFUTED for float16: sorted by uint16 bit pattern (sort.cpp:2405, 135), so 1.0 comes before -1.0

### C30 Quicksort never overflows its fixed-size stack — proved

* Modelled: Sort_Model: explicit 128-entry stack
* Proof: invariant: segment sizes halve
* Theorems: `C30_quicksort_stack_bounded`
* Note: quicksort ends normally on every input of fewer than 2^63 items; pushing past the 128-entry arrays is a Fault in the model

### C31 Argsort returns a stable sorting permutation — proved

* Modelled: Sort_Model: argsort programs
* Proof: loop invariants with the tie-breaking order
* Theorems: `C31_argsort_stable`, `C31_argsort_quick_heap`
* Note: merge kind stable; quick and heap kinds sorted

### C32 Argsort handles NaN — partial

* Modelled: same with the bare `<` merge
* Proof: refutation
* Theorems: `C32_argsort_nan_refuted`, `C31_argsort_quick_heap`, `C31_argsort_stable`
* Note: REFUTED for kind mergesort/stable: the last merge uses the bare < (sort.cpp:1165), with 16 doubles a NaN lands before larger numbers; proved for quick and heap kinds with NaNs anywhere, and for merge without NaN

### C33 Parallel sort equals sequential sort for every schedule — proved

* Modelled: ParSort_Model: 8-way tree of sorts and merges, one memory access = one step
* Proof: ownership invariant: no two live jobs touch the same cell; reduction to sequential
* Theorems: `C33_par_sort`, `C33_par_sort_int_same_as_one_thread`, `C33_par_sort_float`, `C33_no_conflict`, `C33_merge_after_halves`, `C33_can_return`
* Note: numbers, any strict weak order, all three kinds, contiguous source, every interleaving of memory accesses and store-queue drains (x86-TSO); strings are C37, strided sources C38

### C34 Parallel argsort is stable and correct for every schedule — proved

* Modelled: same for index arrays
* Proof: same
* Theorems: `C34_par_argsort_stable`, `C34_par_argsort_quick_heap`, `C34_no_conflict`, `C34_can_return`, `C34_cutoffs`, `C34_cutoffs_one_thread`, `C34_cutoffs_can_return`
* Note: every interleaving of memory accesses and store-queue drains (x86-TSO); integer and NaN-free float keys (merge kind), any float keys (quick, heap); with cutoffs also string keys. NaN keys with the merge kind: C32; threaded string argsort: C37

### C35 lexsort orders by the last key first and is stable — partial

* Modelled: lexsort over key columns
* Proof: induction on columns by stability
* Theorems: `C35_lexsort`, `C35_lexsort_threads`, `C35_lexsort_heap_refuted`
* Note: proved for the default kind (merge), any number of int, string and NaN-free float keys, each column sorted alone or on threads with any schedule (string columns alone); REFUTED for kind=heapsort (unstable sort per key). Floats with NaN: see C32

### C36 String sort order is lexicographic by unsigned byte / code point — partial

* Modelled: SortCmp_Model: string compares
* Proof: induction; refutation for void
* Theorems: `C36_string_lt_is_lexicographic`, `C36_string_lt_total`, `C36_void_total`, `C36_void_refuted`, `C36_binary_lt_differs`
* Note: bytes and unicode: lexicographic and total. REFUTED for void items: little-endian 8/4/2-byte loads, so not byte order (still a total order)

### C37 Large string sorts and string argsorts are right — partial

* Modelled: StrPar_Model: threaded string sort/argsort
* Proof: refutation for infinitely many lengths and every schedule
* Theorems: `C37_string_sort_refuted`, `C37_string_argsort_refuted`, `C28_sort_string`, `C34_cutoffs`
* Note: REFUTED on threads, for infinitely many lengths and every schedule: the threaded string sort merges items as if they were single bytes and returns strings that were not in the input; the threaded string argsort looks at row (*pm)-1 instead of *(pm-1) and skips merges. True below 65536 items (C28_sort_string) and with cutoffs (C34_cutoffs)

### C38 Sorting a strided array sorts the strided elements — partial

* Modelled: StrPar_Model: strides
* Proof: proof below the threshold; refutation above
* Theorems: `C38_alone_partial`, `C38_threaded_refuted`
* Note: proved below 65536 items for every stride; REFUTED on threads: the stride is not passed to the callback, so contiguous items are sorted instead

### C39 is_sorted answers correctly for every schedule — partial

* Modelled: IsSorted_Model: chunk scan with overlap, shared flag
* Proof: schedule invariant
* Theorems: `C39_is_sorted_int`, `C39_is_sorted_float`, `C39_is_sorted_string`, `C39_is_sorted_schedule_free`, `C39_can_return`, `C39_is_sorted_number_partial`, `C39_is_sorted_half_refuted`, `C39_is_sorted_double_refuted`
* Note: the check itself is right for integers, float/double/long double (trailing NaNs) and strings, for every chunking and interleaving. REFUTED for half floats (bit patterns compared), and the Python wrapper passes numpy's type number instead of the library's, so doubles are read as floats

### C40 Grouping sorted data numbers equal runs — partial

* Modelled: Group_Model: `GroupFromLexSort`
* Proof: induction over rows
* Theorems: `C40_group_int`, `C40_group_bytes`, `C40_group_order`, `C40_group_bytes_base0_refuted`, `C40_group_float_refuted`, `C40_group_empty_refuted`
* Note: integers and byte items: groups, first rows and counts are right for every input. REFUTED: counts of byte items are shifted by one for base_index 0; floats are grouped by bit pattern (0.0 and -0.0 differ); an empty index array is read out of bounds

### C41 Settings behave as independent switches — partial

* Modelled: Settings_Model: settings record, API steps interleaved with recorded calls
* Proof: induction over histories
* Theorems: `C41_switches`, `C41_hook`, `C41_initialize`, `C41_zigzag`, `C41_ledger_partial`, `C41_ledger_sequential_partial`, `C41_refuted`
* Note: Every switch except the ledger's behaves independently for every interleaving; the ledger switch does so when no ledger request or query overlaps a recorded call on another Python thread. C41_refuted: LEDGER_END re-enables the ledger unconditionally, so an overlapping ledger_disable is lost.

### C42 isnan/isinf/isfinite agree with IEEE-754 on every bit pattern — proved

* Modelled: Unary_Model: classification on bit patterns, vector and scalar paths
* Proof: bit arithmetic for every pattern
* Theorems: `C42_classification`
* Note: isnan/isinf/isfinite (and isnotnan/isnotfinite), float32, float64 and integers, every AVX and scalar path.

### C43 negative/absolute give the same answer in vector body and tail — partial

* Modelled: Unary_Model: abs/negative
* Proof: exact characterisation; refutation
* Theorems: `C43_float_values_partial`, `C43_bits_exact`, `C43_refuted`, `C43_integers`
* Note: False as stated for floats: the bits depend on the position for -0.0 and negative NaN (abs) and for +0.0 and NaN (negative). Proved: exactly when they differ, that the values are right everywhere, and that integers never differ.

### C44 minimum/maximum propagate NaN — partial

* Modelled: Arith_Model: min/max lanes
* Proof: exact characterisation; refutation
* Theorems: `C44_exact_partial`, `C44_refuted`
* Note: False as stated: NaN is propagated only from the second operand. Proved: exactly that, for all patterns, strides and positions.

### C45 Array layout analysis is exact — partial

* Modelled: Layout_Model
* Proof: induction on dimensions
* Theorems: `C45_complete_partial`, `C45_sound_partial`, `C45_fortran`, `C45_newaxis_refuted`, `C45_window_refuted`, `C45_fortran_refuted`
* Note: Exact for arrays whose last stride is smaller than the first and no dimension of length 0 or 1. The property is false for a[:,None] (stride 0 accepted), sliding_window_view (equal strides) and Fortran order; each refuted by a theorem.

### C46 Boolean expansion tables are right for all masks — proved

* Modelled: Compare_Model tables
* Proof: complete evaluation (finite tables)
* Theorems: `C46_tables`
* Note: All entries and bytes of the four tables.

### C47 Aligned allocations are returned whole — partial

* Modelled: Alloc_Model: header, alignment, counters, 64-bit wrap
* Proof: lia
* Theorems: `C47_alloc_partial`, `C47_free`, `C47_counters`, `C47_refuted`
* Note: Holds for every request below 2^64-16 bytes; C47_refuted: above that the size plus the header wraps.

### C48 The ledger keeps the most recent calls — partial

* Modelled: Ledger_Model: ring of 8096 with mask 8095, several Python threads
* Proof: bit arithmetic for the exact lifetime; refutations
* Theorems: `C48_lifetime`, `C48_last_32_partial`, `C48_in_bounds`, `C48_alone`, `C48_names`, `C48_refuted`, `C48_race_refuted`
* Note: Exact lifetime of a record proved. The property is false: the mask 8095 is not 2^k-1, so most records are overwritten 32 calls later (C48_refuted), two Python threads can share a slot (C48_race_refuted), and ledger_info returns None, so nothing can be retrieved. Writes are in bounds under every interleaving.

### C49 Float arange is independent of threading — partial

* Modelled: Arange_Model floats
* Proof: refutation; conditional proof
* Theorems: `C49_float_arange_refuted`, `C49_float_arange_partial`
* Note: false: two executions of the same float32 arange differ; proved when re-storing elements 0 and 1 does not change them

### C50 Unthreaded calls on overlapping arrays equal the one-after-the-other loop — proved

* Modelled: Kernel_Model on overlapping operands
* Proof: block-wise induction with the 64-byte guard
* Theorems: `C50_overlap_sequential`
* Note: vector/vector operands; with a scalar operand see C14 (the scalar must not lie inside the output). C50_guard_needed shows what the 64-byte guard prevents.

### C51 An output shifted below its input is safe on threads — partial

* Modelled: threads + kernel
* Proof: refutation for every length above one chunk
* Theorems: `C51_shifted_output_refuted`, `SimpleMathOpFast_elementwise`
* Note: REFUTED on threads for every length above 16384 and every positive worker count; unthreaded it holds (C14's hypothesis no_clobber covers it). That NumPy passes such operands without a copy is a fact about NumPy, not modelled.

### C52 floor, ceil, trunc and rint are NumPy's — partial

* Modelled: Round_Model
* Proof: exact real values of patterns
* Theorems: `C52_rounding`, `C52_rint_exact`, `C52_rint_refuted`
* Note: floor, ceil, trunc proved. np.rint on float64 rounds halfway cases away from zero (refuted); proved right exactly when |x| is not halfway above an even integer. float32 rint stays NumPy's loop.

### C53 Integer unary ufuncs are NumPy's — proved

* Modelled: Unary_Model integers
* Proof: bit arithmetic
* Theorems: `C53_integer_unary`, `C53_answer_unique`, `C53_yes_no`, `C53_float_sign`
* Note: All integer types and bool; float sign, signbit, logical_not.

### C54 Float floor division is the floor of the quotient — partial

* Modelled: Arith_Model: divide then floor
* Proof: nearest-even rounding spec
* Theorems: `C54_floor_of_rounded_partial`, `C54_refuted`
* Note: False as stated: 1.0 // 0.1 gives 10.0. Proved: the answer is always the floor of the correctly rounded quotient.

### C55 Float arithmetic is correctly rounded everywhere — proved

* Modelled: Arith_Model: round-to-nearest-even from an exact rational value
* Proof: uniqueness of correct rounding; search procedure proved to find it
* Theorems: `C55_float_arithmetic`, `C55_rounding_unique`
* Note: Sign and payload of NaN results are not claimed.

### C56 Hooking NumPy's loops loses none of them — proved

* Modelled: Hooks_Model: hook tables of newinit, type translation, dictionary
* Proof: evaluation over the finite tables + induction over dictionary updates
* Theorems: `C56_falls_back_to_numpy`, `C56_right_operation`, `C56_info_keys`
* Note: The hook tables of newinit, the type translation and the dictionary keys.

### C57 Hooked np.sort sorts every one-dimensional array — partial

* Modelled: SortHook_Model: AtopSort hook
* Proof: composition with C28/C33; refutations
* Theorems: `C57_native_partial`, `C57_native_threads_partial`, `C57_declined`, `C57_misaligned_partial`, `C57_swapped_refuted`
* Note: Proved for aligned arrays of native byte order, and for strided arrays and rows of 2-D arrays, which the hook must leave to NumPy (C57_declined). False for every byte-swapped array (the result holds the items with their bytes reversed) and, below the threading threshold, for misaligned ones unless memory behind the stride table holds the item size.

### C58 Special values of np.exp and np.log — partial

* Modelled: Trig_Model: avx_mathfun.h exp256/log256 lane by lane on bit patterns, correctly rounded operations of Arith_Model, the kernel/tail split of UnaryOpFast
* Proof: symbolic evaluation after the clamps: every NaN and every large argument takes the same path
* Theorems: `C58_exp_values`, `C58_log_values`, `C58_holds_partial`, `C58_refuted`
* Note: The answers of the AVX2 kernels at every special value are computed exactly. Holds: log of a negative number is NaN, float32 exp(-inf) is 0. False: exp and log of every NaN are finite numbers, exp(+inf) and log(+inf) and log(0) are finite (log(0) is NaN).

### C61 np.sin is odd and np.cos is even, bit for bit — proved

* Modelled: Trig_Model: sin256/cos256
* Proof: the kernel strips the sign bit and xors it back; bit arithmetic
* Theorems: `C61_sin_odd`, `C61_cos_even`
* Note: For every pattern of both formats.

### C62 np.sin/cos/exp/log of an element does not depend on its position — partial

* Modelled: Trig_Model: UnaryOpFast
* Proof: the answer is a function of the element alone in each region; refuted by evaluation
* Theorems: `C62_within_groups_partial`, `C62_refuted`
* Note: Proved when both elements lie in whole 32-byte groups, or both in the tail. False across the boundary: float64 exp(0) is 2^1023 in a group and 1 in the tail; float32 exp(NaN) is a finite number in a group and NaN in the tail.

### C59 np.exp is close to e^x — partial

* Modelled: Trig_Model: exp256 (clamp, n = floor(x log2 e + 1/2), two-constant reduction, degree-7 polynomial, exponent-field scaling) with correctly rounded operations
* Proof: real error analysis in Coq Reals: each operation has relative error 2^-24 plus 2^-150 (Trig_Real, Trig_Near), Taylor remainder for exp and bounds for ln 2 (Exp_Bounds); the edges next to the clamps by monotonicity of the rounded operations
* Theorems: `C59_float32_partial`, `C59_float32_small_partial`, `C59_float32_refuted`, `C59_float64_refuted`, `C59_float64_answers_partial`
* Note: float32: proved within 1e-6 of e^x, relatively, for every element of the groups in [-87.68, 88.37625], and within the smallest normal number below that; false from 88.5 on (e^x is in range up to 88.72): a tenth off. float64: false for every finite x: the answer is +infinity or off by at least e^x/2 (it is 2^1023 e^x below 0.346, because the double exponent bias constant is 0x7fe). Missing: the scalar tail is libm's.

### C60 np.log is close to ln x — partial

* Modelled: Trig_Model: log256 (exponent/mantissa split, sqrt(1/2) branch, degree-11 polynomial, two-constant ln 2) with correctly rounded operations
* Proof: exactness of the reduction (dyadic arithmetic), real error analysis, mean value theorem for polynomial minus ln(1+x) with a bound of the residual derivative checked on 178 intervals by Taylor shift over the integers (Log_Bounds, inside Coq)
* Theorems: `C60_float32_partial`, `C60_float32_subnormal_refuted`, `C60_float64_refuted`
* Note: float32: proved for every positive normal number, relative error at most 1e-6 (exactly 0 at x = 1); false for subnormals, which get the answer of 2^-126 (more than 2 off from 2^-130 down). float64: false for every normal positive x: the answer is ln x - 1023 ln 2 (off by 709), because the double exponent bias constant is 0x7fe. Missing: the scalar tail is libm's.

### C63 np.sin and np.cos are close to sin x and cos x — partial

* Modelled: Trig_Model: sin256/cos256 (sign strip, octant j, three-constant reduction by pi/4, two polynomials, masks) with correctly rounded operations
* Proof: real error analysis: pi by Machin, Taylor enclosures of sin and cos and polynomial bounds on a grid of intervals (Sin_Bounds), octant and exactness of the reduction products for |x| <= 8192 (Trig_Sin), quadrant selection by bits (Trig_SinCos); refuted by evaluation against the Taylor enclosure
* Theorems: `C63_float32_partial`, `C63_float64_partial`, `C63_float64_refuted`
* Note: float32: proved within 6.6e-7 for every finite |x| <= 8192 (missing: larger |x|, where C64 fails). float64: proved within 5.06e-6 only, and false as stated: at 51/128 (cos) and 63/32 (sin) the answer is off by more than 2e-6, because the double kernel evaluates the single precision polynomials over an octant chosen by rounding instead of truncation. Missing: the scalar tail is libm's.

### C64 np.sin and np.cos stay within [-1, 1] — partial

* Modelled: as C63
* Proof: from C63 for |x| <= 8192; refuted by evaluation of the kernel at 2^29, 2^31 and 2^60
* Theorems: `C64_partial`, `C64_refuted`, `C64_infinite_refuted`
* Note: Proved for |x| <= 8192 up to the error of C63. False for large arguments: float32 sin and cos of 2^29 have size above 1000, of 2^31 are infinite, float64 of 2^60 above 1000.

### C65 np.sum of float64 has a small error bound — proved

* Modelled: Reduce_Model: the vector reduce kernel and the threaded reduction over the thread engine, with the IEEE addition of Arith_Model
* Proof: a relational (parametricity) argument: the kernel and the threaded run preserve a relation between floats and pairs (exact sum, sum of absolute values) indexed by the nesting depth of additions; the pair version is associative and commutative, so C10/C12 evaluate it; each addition has relative error 2^-53 (integer statement)
* Theorems: `C65_unthreaded`, `C65_threaded`
* Note: float64, any stride: the error is at most (n/8+11) 2^-52 times the sum of absolute values for one contiguous call, and (2071 + n/131072) 2^-52 on threads in every interleaving (n instead of n/8, 16396 instead of 2071, for strided arrays), provided twice the sum of absolute values is finite. Integer statements, no axioms. float32 sums are C13.

### C66 np.sum of integer-valued float64 data is exact — proved

* Modelled: as C65
* Proof: the same relational argument with the relation "is exactly k units while the absolute values stay below 2^53"
* Theorems: `C66_unthreaded`, `C66_threaded`
* Note: Every stride, every interleaving.

### C67 np.sum of float64 does not depend on threading — partial

* Modelled: as C65
* Proof: C66 plus uniqueness of patterns; refuted with the relation "is a zero of this sign", on which addition is a conjunction
* Theorems: `C67_exact_partial`, `C67_refuted`
* Note: Proved where the sums are exact (C66) and not zero. False in general: n negative zeros summed from -0.0 give -0.0 in one call and +0.0 on threads in every interleaving; inexact sums are rounded in a different order.

### C68 pn.lexsort accepts its keys as NumPy's lexsort does — partial

* Modelled: LexCall_Model: the arguments of lexsort32/64 as Python values (arrays with dtype, stride, byte order and bytes), CMultiListPrepare, BuildArrayInfo, EnsureContiguousArray, the dtype table, the type switch of SortIndex, pn.lexsort's fallback to NumPy
* Proof: the copy keeps the values, the type switch reads them, then C35 (sort_columns, and on threads columns_call); the refutations by the missing float16 case, by evaluation and by reflexivity
* Theorems: `C68_lexsort_partial`, `C68_lexsort_threads_partial`, `C68_only_suitable_keys`, `C68_float16_refuted`, `C68_swapped_refuted`, `C68_crash_refuted`, `C68_tuple_goes_to_numpy`
* Note: Proved for native bool, integer, float32, float64, longdouble, bytes and str keys of one length, contiguous or strided, as arguments or in a list, without NaN (NaN keys: C36), kind merge or default; on threads for numeric keys. False in general: float16 keys are accepted and the answer is 0..n-1 whatever they are; byte-swapped keys are read as native; a 0-d array (or None first) dereferences NULL; no key returns None. Row counts above 2^31 (lexsort32 casts the count) are not modelled.

### C69 pn.lexsort's index= and cutoffs= keywords — partial

* Modelled: LexCall_Model: GetCutOffs, GetKwargIndex, the fill per partition, SortIndex per column with cutoffs (cutoff_leaf of ParSort_Model), alone or over the thread engine
* Proof: stability is composed column by column (stable_step: a stable sort by k of a list sorted by ks is sorted by k::ks), with the frame of each partition; on threads by the tree theorem; refuted by following the fill to the first cell outside the array
* Theorems: `C69_index_partial`, `C69_cutoffs_partial`, `C69_cutoffs_threads_partial`, `C69_unfit_refused`, `C69_index_and_cutoffs_refuted`, `C69_disordered_cutoffs_refuted`, `C69_empty_cutoffs_refuted`, `C69_empty_index_refuted`, `C69_index_out_of_range_refuted`
* Note: Proved for index= of valid row numbers (one thread) and for cutoffs in order (one thread or threads, any kind). False in general: index shorter than the keys together with cutoffs writes behind the index array; disordered cutoffs write behind the result; empty cutoffs read cutoffs[-1]; an empty index sorts uninitialised memory; an out-of-range row number reads outside the key. index and cutoffs arrays are taken to be contiguous (the code does not check).

### C70 np.argsort and np.lexsort keep NumPy's answer after initialize() — partial

* Modelled: ArgHook_Model: AtopArgSortMathFunction with the type and kind tests, the buffer NumPy passes (copied and byte-swapped when needed), NumPy's loop over the keys of lexsort; SortIndex_column of LexCall_Model, alone or over the thread engine
* Proof: the buffer has the values of the array (bytes reversed twice), then sort_index_gen / argsort_result; lexsort by stable_step, a key sorted by NumPy's own function being taken in by its specification
* Theorems: `C70_argsort_partial`, `C70_lexsort_partial`, `C70_argsort_ends`, `C70_left_to_numpy`, `C70_nan_refuted`
* Note: Proved for all hooked dtypes (NPY 0..12), every kind, byte order and stride, alone or on threads; for a stable kind (and so lexsort) only without NaN: with NaN the answer is wrong (C70_nan_refuted). Trusted: how NumPy calls the function (buffer, fill with 0..n-1, one row at a time) and that NumPy's own functions sort (numpy_sorts).

### C71 Threaded element-wise arithmetic is right to the last byte in every interleaving — proved

* Modelled: Ufunc_Model: the binary loops of ops_binary.cpp as programs of single byte loads and stores, the loop selection and the block callbacks of _pnumpy.cpp, run by the threads of the channel engine of Threads_Model with interleaving at every byte, each thread behind an x86-TSO store buffer
* Proof: the machine with store buffers refines the one without (Rel, rel_thread: other threads' buffered stores do not meet a block's footprint); the byte machine simulates the channel engine (sim, reachable); an invariant says each held block still runs to the result it has alone, because footprints of different blocks do not meet (runs_agree); each loop run alone is Kernel_Model's function (kernel_runs) and C14/C55 give its elements; a call can always be completed by simulating C03's schedule
* Theorems: `C71_integer_ufuncs`, `C71_float_arithmetic`, `C71_float_min_max`, `C71_float_floor_divide`, `C71_threaded_numpy_loop`, `C71_threading_invisible`, `C71_float_threading_invisible`
* Note: For arrays where an output overlaps no input of another position (C51 shows threaded calls go wrong otherwise) and items and output stride are multiples of the item size (NumPy's aligned arrays). NumPy's own loop is taken to be the sequential loop with NumPy's operation. Memory is x86-TSO (store buffers, byte granularity, locked instructions of the engine drain them); the channel engine's atomics are as in C01. Float minimum/maximum/floor_divide: threads change nothing, the answers are those of C44 and C54.

### C72 Threaded comparisons are right to the last byte in every interleaving — proved

* Modelled: UfuncCmp_Model: the comparison loops of ops_compare.cpp as byte programs, with the block callbacks and the engine of C71
* Proof: as C71: the byte programs run alone are Compare_Model's functions (cruns), no vector store is longer than its round (table_regular), C16's element results per block (entry_did), then call_rule
* Theorems: `C72_comparisons`, `C72_threading_invisible`
* Note: For arrays where an output byte lies in no input element of another position; one-byte items with unit strides: in no input element at all (C17). NumPy's own loop is taken to be the sequential loop with a predicate that is the comparison. Memory is x86-TSO (store buffers, byte granularity). Calls whose two inputs have different dtypes are C18.

### C73 Threaded unary ufuncs are right to the last byte in every interleaving — proved

* Modelled: UfuncUn_Model: the unary loops of ops_unary.cpp and ops_trig.cpp as byte programs (vector body, scalar tail, slow loop, fills, the LUT and pack rounds), with the block callbacks and the engine of C71
* Proof: as C71: run alone they are Unary_Model, Round_Model and Trig_Model's functions (urun_table, uruns); blocks are whole numbers of registers, so an element is in the vector body of its block exactly when it is in that of the call (in_body_block); then call_rule and C42, C43, C52, C53
* Theorems: `C73_unary_ufuncs`, `C73_rounding`, `C73_trig`, `C73_threading_invisible`
* Note: For arrays where an output element meets no input element of another position (in place is allowed). np.rint of float64 as in C52. abs/negative of floats as numbers (bits: C43, and C73_threading_invisible: threading does not change them). sin/cos/exp/log: equal bit for bit to the unthreaded call, of which C58-C64 speak. NumPy's own loop is taken to be the sequential loop with an operation that gives NumPy's answer. Memory is x86-TSO (store buffers, byte granularity).

### C74 After hook_enable, a[i] is still NumPy's a[i] — partial

* Modelled: GetCall_Model: arrays with dtype number, byte order, shape, strides and bytes; GetItemHook, the checks of BooleanIndexInternal, the result array made by AllocateLikeResize; the loops of Mask_Model
* Proof: C20 and C21 lifted from items to bytes; the refutations for every array of the kind from the fact that only number and item size reach the result, or by evaluation
* Theorems: `C74_mask_partial`, `C74_other_indices`, `C74_byteswapped_refuted`, `C74_dtype_and_shape_refuted`, `C74_two_dimensional_refuted`, `C74_zero_dimensional_refuted`
* Note: Proved for boolean vectors indexing vectors of native dtypes, every stride, item size and schedule within C20/C21's restrictions, and for every index that is not a mask of the array's length. False in general: byte-swapped arrays come out reversed, structured and datetime arrays lose fields and unit, an (n,1) array indexed by n bools loses its shape, two-dimensional masks give the wrong count, a 0-d mask on a 0-d array dereferences NULL.

### C75 pn.getitem(values, index, default) fetches with a default for what is out of range — partial

* Modelled: GetCall_Model: the argument tuple, GetStridesAndContig, the type switches, ConvertScalarObject and GetDefaultForType as byte patterns; the loops of GetItem_Model
* Proof: C22/C23 for the element numbers, C45 for the strides (c_number is onto, c_number_onto), correct rounding of the conversions by rnd_ok, truncation by uniqueness of the quotient; refutations for every such default
* Theorems: `C75_getitem_partial`, `C75_refusals`, `C75_big_integer_default_refuted`, `C75_bool_default_refuted`, `C75_string_default_refuted`, `C75_complex_default_refuted`, `C75_longdouble_default_refuted`, `C75_byteswapped_refuted`
* Note: Proved for signed index arrays (and unsigned ones below half their range with items of 1, 2, 4, 8, 16 bytes: C23), any shape whose elements lie on one stride in C order with dimensions of at least 2, alone or on threads with contiguous values (C24), every default that fits. False in general: integers beyond 64 bits become -1.0, a number in a bool array keeps its low byte, bytes and str defaults leave uninitialised stack bytes, complex arrays ignore the default, long double arrays get a double's pattern, byte-swapped values come out reversed; other layouts: C45. gcc/x86-64's conversion of out-of-range floats is modelled, no theorem depends on it.

### C76 np.sqrt is correctly rounded, alone or on threads — proved

* Modelled: Sqrt_Model: sqrtss/sqrtsd as floor square root of the scaled mantissa with a sticky bit, rounded by round_num; the vector loop and scalar tail of UnaryOpFast; the threaded call of UfuncUn_Model
* Proof: the rounded root is nearest among all patterns of the format (squares compared in Z, then transported to R); sticky bit argument: the floor and the root lie strictly between the same rounding points; C73 call rule for threads
* Theorems: `C76_sqrt`, `C76_root_unique`
* Note: For arrays where an output element meets no input element of another position (in place is allowed). NumPy's own loop is taken to be the sequential loop with a correctly rounded root. sqrtss/vsqrtps are taken to be IEEE 754 (modelled by integer square roots with a sticky bit). Statement over the real numbers: the standard library's axioms of Reals appear.

### C77 pn.sort, argsort, argmin, argmax and searchsorted behave as numpy's functions — partial

* Modelled: PySort_Model: the Python functions statement by statement over a heap of arrays, a try/except monad and the method as a parameter; the names defined in the module
* Proof: case analysis of every outcome of conversion and method; refutations for every array and method
* Theorems: `C77_sort_axis`, `C77_axis_none_returns_unsorted`, `C77_axis_none_refuted`, `C77_axis_none_fallback`, `C77_wrapfunc_partial`, `C77_wrapfunc_refuted`
* Note: pn.sort with an axis: proved for every array-like, item order and method. False for axis=None: the sorted copy is thrown away and the flattened array returned unsorted (unless sorting a copy raises). The other functions: proved unless the object must be converted and has __array_wrap__: then NameError (mu is not imported). The ndarray methods themselves are a parameter (C30-C35, C57, C70 speak of them).

### C78 A reduction is right to the last byte, alone or on threads with store buffers — proved

* Modelled: RedBytes_Model: the reduction kernel, the per-chunk callbacks (strided and NumPy), the start values as global bytes, the chunk buffer and the last pass, all as programs of single byte loads and stores run by the engine with store buffers of C71
* Proof: the byte programs run alone store the value of Reduce_Model's kernel (runs_pReduce); slots of the buffer are pairwise apart, so tso_rule gives the buffer at return; folding commutes with the map into exact integers / truth values (hom_kval, hom_threaded), where the operation is associative and commutative; C65 and C66 through threaded_finish
* Theorems: `C78_integers`, `C78_float64_schedule_free`, `C78_float64_sum`, `C78_float64_sum_exact`
* Note: Subtract and xor are excluded (wrong on threads, C11), and so is NumPy's own loop on threads over a strided array (C11_strided_numpy_refuted) and float32 sum/product (C13). The chunk buffer is the caller's stack: assumed to share no byte with the arrays. NumPy's own loop is taken to be the sequential loop with an operation that gives the documented answers. Memory is x86-TSO (store buffers, byte granularity).

### C79 The native recarray_to_colmajor call fills the caller's columns — partial

* Modelled: RecCall_Model: the arguments as Python objects (arrays with dtype number, item size, shape, strides and address; an object array is a map from slots to objects), the checks in their order, the pointers and offsets read from memory; RecArray_Model for the conversion
* Proof: C26 with the fields read from the arguments; the refutations for every call of the kind
* Theorems: `C79_columns_partial`, `C79_refused`, `C79_short_column_refuted`, `C79_strided_column_refuted`, `C79_int32_offsets_refuted`, `C79_fortran_refuted`, `C79_unchecked_refuted`, `C79_no_columns_refuted`
* Note: Documented calls, alone or threaded: proved (columns apart from each other and from the bytes read). False in general: a short column is written past its end, a strided column or Fortran-ordered records give values in the wrong places, int32 offsets are read in pairs, arguments that are not arrays crash, records without fields never return; only the checks of C79_refused exist. Malloc is taken to succeed.

### C80 The native sort call returns a sorted copy of the array — partial

* Modelled: SortCall_Model: the argument tuple, the dtype and layout tests, the result array, CopyData with byte strides, the type switch of Sort on items as byte lists, the sorts of Sort_Model alone and of ParSort_Model on threads
* Proof: the copy loop by an invariant, then the leaf lemma of C28/C29, C28 for strings, C33 on threads (with TSO); cells are read back as the elements of the result; the refutations for every array of the kind, from the exact multiset the call sorts
* Theorems: `C80_sort_partial`, `C80_refused`, `C80_strided_threads_refuted`, `C80_swapped_refuted`, `C80_half_refuted`, `C80_rows_refuted`
* Note: Proved for vectors of native booleans, integers, float32/64, long double, bytes and str of any stride alone, and contiguous vectors of numbers on threads. False in general: on threads the stride is ignored, byte-swapped numbers come back with wrong values, float16 is ordered by bit pattern, arrays of several dimensions are sorted flat; strings on threads: C37; other layouts: C45. The allocations are taken to succeed.

### C81 cpu_count_linux() counts processors and cores — partial

* Modelled: Cpu_Model: bytes as lists of numbers with strip, lower, startswith, split, int and the lines of a file; the two dictionaries; the two ways of counting cores and the two of counting processors; the exceptions
* Proof: the line parser on a section by induction on its lines, the mapping by induction on the sections (keys distinct, entries those of the sections read), so its sum is that of any duplicate-free list of the packages; the refutations compute the same loops
* Theorems: `C81_sysfs`, `C81_cpuinfo`, `C81_last_section_refuted`, `C81_stat_refuted`, `C81_import_refuted`
* Note: The counts: proved for topology files of any machine and, without them, for every well-formed /proc/cpuinfo. False in general: a last section without an empty line after it is not counted, the /proc/stat fallback is a NameError, and the import fails where the files are missing or written otherwise although the counts are not used. What the operating system answers is a parameter.

### C82 np.prod of float64 is the product up to rounding — partial

* Modelled: RedBytes_Model as in C78, with f_mul of Arith_Model
* Proof: rounding: one relation (product, bounds of all partial products, number of factors) kept by every multiplication (good_mul), carried through the kernel and the threaded fold; exactness likewise
* Theorems: `C82_prod`, `C82_prod_exact`, `C82_reordered_refuted`
* Note: Proved down to the bytes for every array in which no product of some of the elements leaves 2^-1020 .. 2^1020. Without that condition it is false, even where the product taken in order stays small: the lanes multiply other elements together, and the answer can be NaN instead of 1.

### C83 Every hooked ufunc runs its own kernel — proved

* Modelled: Dispatch_Model: the tables GetSimpleMathOpFast, GetComparisonOpFast, GetUnaryOpFast/Slow, GetTrigOpFast and GetReduceMathOpFast as (output type, kernel) per opcode and type; the hooking loops of Hooks_Model with these tables
* Proof: specification: what each NumPy name means and which loops NumPy has, written without opcodes; an invariant of the hooking loops (every stub was hooked under a name of its ufunc with its own signature), installed cells stay installed, and the tables compared entry by entry
* Theorems: `C83_own_kernel`, `C83_accelerated`, `C83_own_reduction`
* Note: What is modelled of NumPy: its ufunc objects as numbers, which loops it has (a premise of C83_accelerated, shown satisfiable), and PyUFunc_ReplaceLoopBySignature as an update. rint is listed with half-away-from-zero rounding as its kernel: that the kernel is wrong is C52. Types no loop is hooked for are outside.

### C84 initialize() can be called any number of times — partial

* Modelled: Dispatch_Model.newinit: the Initialized flag set before hooking, the four loops with their early return, the ImportError
* Proof: induction on the calls; success from the availability of every loop asked for; the refutation runs a NumPy without integer isnan
* Theorems: `C84_idempotent`, `C84_no_avx2`, `C84_failure_is_kept`, `C84_refuted`
* Note: Proved whenever NumPy has the loops asked for, and without AVX2. False in general: after a call that raised TypeError half way every later call returns None with the rest not hooked.

### C85 NumPy's ufuncs answer as documented after initialize(), by name and dtype — proved

* Modelled: Entry_Model: the stub looks its slot (category, opcode, type) up in the tables of Dispatch_Model and calls the category callback of Ufunc_Model, UfuncCmp_Model or UfuncUn_Model with the kernel found
* Proof: at a name with a known meaning an installed stub has that meaning's category and kernel (C83), so C71-C73 and C76 apply to the kernel; a loop not hooked, or hooked with no kernel, is NumPy's own
* Theorems: `C85_integers`, `C85_floats`, `C85_comparisons`, `C85_unary`, `C85_rounding`, `C85_sqrt`, `C85_trig`
* Note: One theorem per kind of ufunc, from NumPy's name and dtype through the hooks installed by initialize() to the bytes of the result. NumPy's own loop is a parameter assumed right. Float minimum/maximum (C44, C71), floor_divide (C54) and rint (C52) are not in the statement: they are wrong. How close sin, cos, exp and log are to the real functions: C58-C64.

### C86 np.sort, argsort, argmax, argmin and arange still reach their own function after initialize() — proved

* Modelled: Desc_Model: the function pointers of the dtypes and the pOldFunc slots, the hooking loop with its guards, the stubs as (kind, type) and what a call through a pointer comes to, an inductive relation
* Proof: an invariant of the hooking loop: every pointer is NumPy's own or the stub of its own kind and type whose slot holds NumPy's own function of the same kind for a hooked dtype of that type; the call relation then has one end
* Theorems: `C86_own_function`, `C86_numpy_answers`, `C86_accelerated`, `C86_accelerated_arange`, `C86_other_dtypes`
* Note: Premise: NumPy has every kind of sort and argsort for the dtypes 0 to 12 (it does; argmax, argmin and fill may be missing). Which calls pnumpy takes is a parameter here; SortHook_Model, ArgHook_Model and Arange_Model (C57, C70, C25, C49) say which, and what it then computes. Simplification: one ArrFuncs per dtype number.

### C87 np.sum, prod, min, max, any, all of an array are right after initialize(), by name and dtype — proved

* Modelled: EntryRed_Model: the stub takes its slot's reduction kernel and the start value of its opcode and type (GetReduceStartVal by number); the call is RedBytes_Model
* Proof: the slot's kernel is that of the name's meaning (C83_own_reduction), its start value too (all table entries compared), then C78, C65 and C82 apply; a loop not hooked is NumPy's own, in one piece
* Theorems: `C87_integers`, `C87_float64_sum`, `C87_float64_prod`
* Note: From NumPy's name and dtype through the hooks, the slot's reduction kernel and the start value of its opcode to the bytes of the accumulator. NumPy's own loop is a parameter assumed right. Left out, because wrong: subtract and bitwise_xor (C11) and a strided array threaded through NumPy's own loop (C11_strided_numpy_refuted). float32 sum and product: C13.

### C88 atop_setworkers and atop_info are registers, one per function and machine type — partial

* Modelled: Workers_Model: MaxThreads of every slot as a register file, the dictionary of AddToDict with the slot of each key, atop_setworkers, atop_info, atop_enable/disable and newinit as steps of a history
* Proof: an invariant over histories: every key's register holds the last accepted request for its name and machine type; a name stands for one operation (tables compared, rint's second code is never hooked), so keys and slots correspond; the listed pairs are compared with a table written out
* Theorems: `C88_info`, `C88_setworkers`, `C88_governs`, `C88_woken`, `C88_invert`, `C88_listed`, `C88_refuted`
* Note: Proved but for two cases in which it is false: the limit set for np.invert under its own name governs nothing (its loops have been replaced a second time, as bitwise_not; C88_invert: with NumPy as it is the limit of bitwise_not always governs), and atop_info() before initialize() returns NULL with no exception set (SystemError). Workers and dtypes are C ints. That a threaded call gives the same result whatever its limit: C02-C04, C71-C73.

