{"id": "C01", "title": "Threaded element-wise calls process every element exactly once", "statement": "When a ufunc (binary, comparison, unary, trig) is split over worker threads, every element index of the array is computed exactly once, and no index outside the array is touched, whichever thread takes which chunk, with zigzag on or off and with work stealing.", "quantifier": "every array length, number of woken workers, zigzag setting, and interleaving of the atomic steps of any number of worker threads (including workers that start late or re-enter)", "why_tests_cant": "A test observes a handful of interleavings chosen by the OS; the claim ranges over all of them.", "anchors": ["src/atop/threads.h:GetNextWorkBlockCoreInternal", "src/atop/threads.h:GetNextWorkBlockCore", "src/atop/threads.h:WorkMain", "src/pnumpy/_pnumpy.cpp:BinaryThreadCallbackStrided"]}
{"id": "C02", "title": "A threaded call returns only after all chunks are finished", "statement": "When a threaded element-wise call returns to the caller, every chunk has been fully written and no worker thread still holds a chunk it could write to later.", "quantifier": "every length, worker count, zigzag setting and interleaving", "why_tests_cant": "A test observes a handful of interleavings chosen by the OS; the claim ranges over all of them.", "anchors": ["src/atop/threads.h:WorkMain", "src/atop/threads.h:CompleteWorkBlock"]}
{"id": "C03", "title": "A threaded element-wise call always finishes, even if no worker ever wakes", "statement": "The calling thread needs a bounded number of its own steps to run out of chunks, at that moment every chunk has been handed out, and if no worker is holding a chunk the call returns; workers are never needed for termination.", "quantifier": "every length, worker count, zigzag setting and interleaving", "why_tests_cant": "A test observes a handful of interleavings chosen by the OS; the claim ranges over all of them.", "anchors": ["src/atop/threads.h:WorkMain", "src/atop/threads.h:GetNextWorkBlockCore"]}
{"id": "C04", "title": "Chunk-callback operations hand out pieces that tile the array exactly", "statement": "An operation split by start/length pieces (arange fill, is-sorted check, boolean-mask copy, fancy indexing) receives pieces that are non-empty, lie inside the array, and cover each element exactly once, for every schedule; and the call returns only when all pieces are finished.", "quantifier": "every length and interleaving", "why_tests_cant": "A test observes a handful of interleavings chosen by the OS; the claim ranges over all of them.", "anchors": ["src/atop/threads.h:GetNextWorkBlock", "src/atop/threads.h:MultiThreadedChunkCallback", "src/atop/threads.h:DoMultiThreadedChunkWork"]}
{"id": "C05", "title": "Index-callback operations run every index exactly once", "statement": "An operation split by item index (record-array conversion, partitioned argsort) calls its callback exactly once for every index 0..n-1 and for no other index before returning, for every schedule.", "quantifier": "every item count and interleaving", "why_tests_cant": "A test observes a handful of interleavings chosen by the OS; the claim ranges over all of them.", "anchors": ["src/atop/threads.h:GetNextWorkIndex", "src/atop/threads.h:MultiThreadedCounterCallback", "src/atop/threads.h:DoMultiThreadedWork"]}
{"id": "C06", "title": "Index-callback operations always return", "statement": "pn.recarray_to_colmajor and every other operation split by item index returns for every machine and worker setting: the caller never waits for work nobody will do.", "quantifier": "every CPU count, worker setting, item count and choice of threads the OS wakes", "why_tests_cant": "Hangs depend on the CPU count of the machine and on which waiter the kernel wakes.", "anchors": ["src/atop/threads.h:GetNextWorkIndex", "src/atop/threads.h:WorkMain", "src/atop/threads.cpp:WorkerThreadFunction", "src/atop/threads.h:SetWorkItem"]}
{"id": "C07", "title": "Consecutive operations do not disturb each other", "statement": "A worker still finishing (or waking late from) one threaded call never processes, duplicates or drops a chunk of a later threaded call: each call still computes every element exactly once.", "quantifier": "every history of threaded calls and every interleaving of workers across calls", "why_tests_cant": "The window is a few instructions wide and needs ring-slot reuse.", "anchors": ["src/atop/threads.cpp:WorkerThreadFunction", "src/atop/threads.h:GetExistingWorkItem", "src/atop/threads.h:GetWorkItem", "src/atop/threads.h:WorkMain"]}
{"id": "C08", "title": "Worker-count settings stay in range and wakeups reach every requested worker", "statement": "thread_setworkers never lets more workers be woken than exist or than the per-call channel table holds, returns the previous setting, and for every request the thread pools signalled at the start of a call are exactly those released at its end and contain every worker core that is entitled to take part.", "quantifier": "every requested worker count (any integer), CPU count and previous setting", "why_tests_cant": "Machines in CI have one CPU count; the claim is about all of them.", "anchors": ["src/atop/threads.h:SetFutexWakeup", "src/atop/threads.h:StartWorkerThreads", "src/atop/threads.cpp:GetProcCount", "src/atop/threads.h:SetWorkItem", "src/atop/threads.h:CompleteWorkItem", "src/atop/threads.h:WorkMain"]}
{"id": "C09", "title": "Threading does not change element-wise results", "statement": "For a ufunc loop f, the output memory after a threaded call equals that after the single-threaded loop: out[i]=f(in1[i],in2[i]) for each i with scalar (stride 0), contiguous and strided operands, also when the output is exactly one of the inputs, and nothing else is written.", "quantifier": "every length, strides, operand contents, in-place aliasing and interleaving", "why_tests_cant": "A test observes a handful of interleavings chosen by the OS; the claim ranges over all of them.", "anchors": ["src/pnumpy/_pnumpy.cpp:BinaryThreadCallbackStrided", "src/pnumpy/_pnumpy.cpp:UnaryThreadCallbackStrided", "src/pnumpy/_pnumpy.cpp:AtopBinaryMathFunction"]}
{"id": "C10", "title": "Threaded reductions equal the sequential reduction for sum, product, min, max, and/or", "statement": "For an associative operation, reducing chunk by chunk on many threads and then reducing the chunk results gives the sequential fold started at the caller's initial value, for sum and product of integers (wrapping) and for every idempotent operation (minimum, maximum, bitwise/logical and/or).", "quantifier": "every length >= 1, initial value, element values and chunk completion order", "why_tests_cant": "A test observes a handful of interleavings chosen by the OS; the claim ranges over all of them.", "anchors": ["src/pnumpy/_pnumpy.cpp:AtopBinaryMathFunction", "src/pnumpy/_pnumpy.cpp:ReduceThreadCallbackStrided", "src/pnumpy/_pnumpy.cpp:GetReduceStartVal"]}
{"id": "C11", "title": "Threaded reductions are right for every hooked ufunc and stride", "statement": "np.<ufunc>.reduce over a long array gives the same result threaded as unthreaded, for every hooked ufunc (subtract, bitwise_xor, ...), initial value and stride.", "quantifier": "every hooked ufunc, initial value, stride, length", "why_tests_cant": "Needs inputs of at least 65536 elements with unusual ufunc/stride/initial combinations.", "anchors": ["src/pnumpy/_pnumpy.cpp:AtopBinaryMathFunction", "src/pnumpy/_pnumpy.cpp:ReduceThreadCallbackNumpy", "src/pnumpy/_pnumpy.cpp:GetReduceStartVal"]}
{"id": "C12", "title": "Vectorised reduction kernels equal the left fold", "statement": "The unrolled, multi-lane reduction kernel gives the same value as folding the elements one at a time from the initial value, for every associative and commutative operation, every length and stride.", "quantifier": "every length, lane count, initial value, element values", "why_tests_cant": "The claim ranges over every array length and content; tests sample a few.", "anchors": ["src/atop/ops_binary.cpp:ReduceMathOpFast"]}
{"id": "C13", "title": "float32 sum/product reduction stays inside its buffers", "statement": "Summing or multiplying a float32 array reads only array elements and values it computed, and returns the fold of the elements.", "quantifier": "every length >= 1 and contents", "why_tests_cant": "Reading past a stack temporary gives values that depend on the compiler's frame layout.", "anchors": ["src/atop/ops_binary.cpp:ReduceMathOpFastUpcast"]}
{"id": "C14", "title": "Vectorised element-wise kernels equal the scalar loop for every length", "statement": "A kernel with a vector body, an alignment peel and a scalar tail produces exactly map2 of the scalar operation for vector/vector, scalar/vector and vector/scalar operands, writes exactly n outputs, and never performs an aligned store at an unaligned address.", "quantifier": "every length, start address, operand kind", "why_tests_cant": "The claim ranges over every array length and content; tests sample a few.", "anchors": ["src/atop/ops_binary.cpp:SimpleMathOpFast", "src/atop/ops_binary.cpp:SimpleMathOpFastSymmetric", "src/atop/ops_unary.cpp:UnaryOpFast"]}
{"id": "C15", "title": "64-bit integer vector multiply is exact modulo 2^64", "statement": "Multiplying int64/uint64 arrays through the vector path gives x*y mod 2^64 in every lane, the same as the scalar path.", "quantifier": "all pairs of 64-bit words", "why_tests_cant": "2^128 operand pairs.", "anchors": ["src/atop/ops_binary.cpp:MUL_OP_256u64"]}
{"id": "C16", "title": "Vectorised comparisons write each answer at its own position", "statement": "Comparing integer arrays of every width yields, at output position i, exactly 1 if the comparison of element i holds and exactly 0 otherwise; lane packing and shuffling never exchanges positions.", "quantifier": "all lane contents, all six comparisons, every length", "why_tests_cant": "The claim ranges over every array length and content; tests sample a few.", "anchors": ["src/atop/ops_compare.cpp:COMP32i_EQS", "src/atop/ops_compare.cpp:COMP64i_EQ", "src/atop/ops_compare.cpp:CompareInt32S", "src/atop/ops_compare.cpp:CompareInt64", "src/atop/ops_compare.cpp:CompareInt16", "src/atop/ops_compare.cpp:CompareInt8"]}
{"id": "C17", "title": "Comparing booleans in place is right", "statement": "np.equal/not_equal/... on boolean arrays gives the right answer when the output array is one of the inputs.", "quantifier": "every length and contents", "why_tests_cant": "Only the aliasing call with a length that is not a multiple of 32 shows it.", "anchors": ["src/atop/ops_compare.cpp:CompareInt8"]}
{"id": "C18", "title": "Mixed int64/uint64 comparisons follow mathematical order", "statement": "Comparing a signed with an unsigned 64-bit integer compares the mathematical values.", "quantifier": "all pairs of 64-bit words", "why_tests_cant": "2^128 pairs.", "anchors": ["src/atop/ops_compare.cpp:COMP_LT_INT64", "src/atop/ops_compare.cpp:COMP_EQ", "src/atop/ops_compare.cpp:GetComparisonOpFast"]}
{"id": "C19", "title": "Counting a boolean mask is exact", "statement": "The number of selected elements computed for a boolean mask equals the number of non-zero bytes, for every length: no partial sum overflows its lane.", "quantifier": "every mask length and contents", "why_tests_cant": "The claim ranges over every array length and content; tests sample a few.", "anchors": ["src/pnumpy/getitem.cpp:SumBooleanMask"]}
{"id": "C20", "title": "Boolean-mask getitem returns the selected elements in order", "statement": "pn.getitem(a, mask) returns exactly the elements where the mask is true, in order, whatever the chunking, schedule, and item size 1,2,4,8.", "quantifier": "every length, mask, contents, item size and interleaving; threads run on x86 memory with store buffers", "why_tests_cant": "A test observes a handful of interleavings chosen by the OS; the claim ranges over all of them.", "anchors": ["src/pnumpy/getitem.cpp:BooleanIndexInternal"]}
{"id": "C21", "title": "Boolean-mask getitem is right for other item sizes and strides", "statement": "pn.getitem(a, mask) is also right for items of other sizes (complex128, strings, records) and for strided arrays.", "quantifier": "every length, mask, item size, stride; threads run on x86 memory with store buffers", "why_tests_cant": "Fails only for particular tail patterns.", "anchors": ["src/pnumpy/getitem.cpp:BooleanIndexInternal"]}
{"id": "C22", "title": "Integer getitem follows Python indexing with default for out of range", "statement": "pn.getitem(a, idx) with signed integer indices returns a[i] for -n<=i<n (negative counted from the end) and the type's default value otherwise, reading only inside a.", "quantifier": "every array length, index list, index width", "why_tests_cant": "Out-of-range reads usually go unnoticed.", "anchors": ["src/pnumpy/getitem.cpp:GetItemInt", "src/pnumpy/getitem.cpp:GetItemIntVariable"]}
{"id": "C23", "title": "Unsigned getitem treats indices as unsigned", "statement": "pn.getitem(a, idx) with unsigned indices returns a[i] when i<n and the default otherwise, reading only inside a, for every index width and item size.", "quantifier": "every array length, index list, index width, item size", "why_tests_cant": "Only indices above the signed maximum of their width expose it.", "anchors": ["src/pnumpy/getitem.cpp:GetItemUInt", "src/pnumpy/getitem.cpp:GetItemUIntVariable"]}
{"id": "C24", "title": "Threaded getitem writes each result in its own slot", "statement": "The output of a threaded fancy-index call equals the single-threaded output, for contiguous and strided value arrays.", "quantifier": "every length, stride and interleaving; threads run on x86 memory with store buffers", "why_tests_cant": "A test observes a handful of interleavings chosen by the OS; the claim ranges over all of them.", "anchors": ["src/pnumpy/getitem.cpp:GetItemCallback"]}
{"id": "C25", "title": "arange fill is exact for integers and independent of threading", "statement": "np.arange over an integer type fills element i with start+i*(next-start) modulo the type's width, for every schedule of chunks, even though the start values live in the buffer being filled.", "quantifier": "every start, next, length, width and interleaving; threads run on x86 memory with store buffers", "why_tests_cant": "A test observes a handful of interleavings chosen by the OS; the claim ranges over all of them.", "anchors": ["src/atop/fill.cpp:ArangeFill", "src/pnumpy/arange.cpp"]}
{"id": "C26", "title": "Record-array conversion puts each field in its column", "statement": "recarray_to_colmajor writes field k of row r at position r of column k for every row and field, nothing else, for every chunk schedule.", "quantifier": "every row count, item size, field layout and schedule; threads run on x86 memory with store buffers", "why_tests_cant": "The claim ranges over every array length and content; tests sample a few.", "anchors": ["src/atop/recarray.cpp:ConvertRecArray", "src/atop/recarray.cpp:RecArrayToColMajor"]}
{"id": "C27", "title": "Record-array conversion terminates", "statement": "recarray_to_colmajor returns for every record type, including records with no convertible field.", "quantifier": "every row count and field list", "why_tests_cant": "A test must happen to use an empty field list.", "anchors": ["src/atop/recarray.cpp:ConvertRecArray"]}
{"id": "C28", "title": "In-place sort returns a sorted permutation (quick, heap, merge)", "statement": "Sorting an array of any totally ordered type with quicksort, heapsort or mergesort yields a permutation of the input in non-decreasing order, for every length and content, without reading or writing outside the array.", "quantifier": "every length and contents; every strict weak order", "why_tests_cant": "The claim ranges over every array length and content; tests sample a few.", "anchors": ["src/atop/sort.cpp:quicksort_", "src/atop/sort.cpp:heapsort_", "src/atop/sort.cpp:mergesort0_"]}
{"id": "C29", "title": "Floating-point sort puts NaNs last", "statement": "Sorting floating-point data yields a permutation with the non-NaN values ascending followed by all NaNs.", "quantifier": "every length, contents and NaN placement", "why_tests_cant": "The claim ranges over every array length and content; tests sample a few.", "anchors": ["src/atop/sort.cpp:COMPARE_LT", "src/atop/sort.cpp:mergesort0_", "src/atop/sort.cpp:FIND_NANS"]}
{"id": "C30", "title": "Quicksort never overflows its fixed-size stack", "statement": "Quicksort's explicit stack of 128 entries is never exceeded for any array that fits in memory.", "quantifier": "every length below 2^63 and every partition outcome", "why_tests_cant": "Adversarial inputs of 2^60 elements cannot be tested.", "anchors": ["src/atop/sort.cpp:quicksort_"]}
{"id": "C31", "title": "Argsort returns a stable sorting permutation", "statement": "argsort/lexsort on integer keys returns a permutation of the indices that sorts the keys and keeps equal keys in their previous order.", "quantifier": "every length and contents", "why_tests_cant": "The claim ranges over every array length and content; tests sample a few.", "anchors": ["src/atop/sort.cpp:amergesort0_"]}
{"id": "C32", "title": "Argsort handles NaN", "statement": "argsort/lexsort on floating keys sorts with NaNs last for every placement of NaNs.", "quantifier": "every length, contents and NaN placement", "why_tests_cant": "Depends on NaNs falling in the left half of a merge.", "anchors": ["src/atop/sort.cpp:amergesort0_"]}
{"id": "C33", "title": "Parallel sort equals sequential sort for every schedule", "statement": "Sorting a large array on many threads (8 parts, then pairwise merges as parts finish) returns a sorted permutation for every order in which parts finish; each merge runs exactly once, after both halves are complete, and merge workspaces of concurrent merges never overlap.", "quantifier": "every length, contents and interleaving", "why_tests_cant": "A test observes a handful of interleavings chosen by the OS; the claim ranges over all of them.", "anchors": ["src/atop/sort.cpp:par_sort", "src/atop/sort.cpp:ParMergeInPlaceThreadCallback", "src/atop/sort.cpp:MERGE_SPLITTER", "src/atop/sort.cpp:IsBuddyBitSet"]}
{"id": "C34", "title": "Parallel argsort is stable and correct for every schedule", "statement": "The parallel argsort returns a stable sorting permutation for every order in which parts finish, with and without group cutoffs.", "quantifier": "every length, contents, cutoffs and interleaving", "why_tests_cant": "A test observes a handful of interleavings chosen by the OS; the claim ranges over all of them.", "anchors": ["src/atop/sort.cpp:par_amergesort", "src/atop/sort.cpp:ParMergeMerge"]}
{"id": "C35", "title": "lexsort orders by the last key first and is stable", "statement": "lexsort32/lexsort64 return the permutation that orders rows lexicographically with the last key as primary, ties in original order.", "quantifier": "every number of keys, lengths, contents", "why_tests_cant": "The claim ranges over every array length and content; tests sample a few.", "anchors": ["src/pnumpy/sorting.cpp:lexsort"]}
{"id": "C36", "title": "String sort order is lexicographic by unsigned byte / code point", "statement": "The comparison used to sort byte strings, unicode and void items is the lexicographic order on unsigned units, a strict weak order.", "quantifier": "all pairs of items of equal length", "why_tests_cant": "The claim ranges over every array length and content; tests sample a few.", "anchors": ["src/atop/sort.cpp:STRING_LT", "src/atop/sort.cpp:UNICODE_LT", "src/atop/sort.cpp:VOID_LT", "src/atop/sort.cpp:BINARY_LT"]}
{"id": "C37", "title": "Large string sorts and string argsorts are right", "statement": "Sorting or arg-sorting 65536 or more strings gives a sorted permutation of the items.", "quantifier": "every length and contents", "why_tests_cant": "Only large arrays take the parallel path.", "anchors": ["src/atop/sort.cpp:ParInPlaceMerge", "src/atop/sort.cpp:ParMergeMergeString"]}
{"id": "C38", "title": "Sorting a strided array sorts the strided elements", "statement": "pn.sort on a strided view of any length sorts exactly the viewed elements.", "quantifier": "every stride, length, contents", "why_tests_cant": "Only strided arrays of at least 65536 elements take the failing path.", "anchors": ["src/atop/sort.cpp:ParMergeInPlaceThreadCallback", "src/atop/sort.cpp:CopyData"]}
{"id": "C39", "title": "is_sorted answers correctly for every schedule", "statement": "The sortedness check returns true exactly when the array is in non-decreasing order (trailing NaNs allowed), independent of how it is chunked and scheduled.", "quantifier": "every length, contents, interleaving; threads run on x86 memory with store buffers", "why_tests_cant": "A test observes a handful of interleavings chosen by the OS; the claim ranges over all of them.", "anchors": ["src/atop/sort.cpp:IsSorted", "src/atop/sort.cpp:IsSortedFloat"]}
{"id": "C40", "title": "Grouping sorted data numbers equal runs", "statement": "Grouping an indirectly sorted key array assigns the same group to rows exactly when their keys are equal, numbers groups in sorted order, and reports each group's first row and size.", "quantifier": "every length, contents, base index", "why_tests_cant": "The claim ranges over every array length and content; tests sample a few.", "anchors": ["src/atop/sort.cpp:GroupIndexStep2"]}
{"id": "C41", "title": "Settings behave as independent switches", "statement": "After any history of enable/disable calls each *_isenabled reports the last request for that feature and no other; zigzag alternates direction only while on; initialize is idempotent; hook_disable restores the original handler.", "quantifier": "every finite history of API calls", "why_tests_cant": "Histories are unbounded.", "anchors": ["src/pnumpy/_pnumpy.cpp:atop_enable", "src/pnumpy/_pnumpy.cpp:thread_zigzag", "src/pnumpy/_pnumpy.cpp:hook_enable"]}
{"id": "C42", "title": "isnan/isinf/isfinite agree with IEEE-754 on every bit pattern", "statement": "The vectorised classification gives the IEEE answer for every 32- and 64-bit pattern, at every position.", "quantifier": "all 2^32 and 2^64 bit patterns, every length", "why_tests_cant": "2^64 patterns.", "anchors": ["src/atop/ops_unary.cpp:FINITE_OP", "src/atop/ops_unary.cpp:UnaryNanFastFloat"]}
{"id": "C43", "title": "negative/absolute give the same answer in vector body and tail", "statement": "np.negative and np.abs give the same bits for the same input whatever its position in the array.", "quantifier": "every value, length, position", "why_tests_cant": "Depends on sign of zero and position modulo vector width.", "anchors": ["src/atop/ops_unary.cpp:NEG_OP", "src/atop/ops_unary.cpp:ABS_OP", "src/atop/ops_unary.cpp:UnaryOpFast"]}
{"id": "C44", "title": "minimum/maximum propagate NaN", "statement": "np.minimum and np.maximum return NaN when either operand is NaN, as NumPy documents.", "quantifier": "all float pairs", "why_tests_cant": "Depends on operand order.", "anchors": ["src/atop/ops_binary.cpp:MinOp", "src/atop/ops_binary.cpp:MaxOp"]}
{"id": "C45", "title": "Array layout analysis is exact", "statement": "The stride/contiguity analysis accepts exactly those arrays that can be walked with one constant stride, and the walk visits the elements in C order.", "quantifier": "every shape and stride vector", "why_tests_cant": "The claim ranges over every array length and content; tests sample a few.", "anchors": ["src/pnumpy/common.cpp:GetStridesAndContig"]}
{"id": "C46", "title": "Boolean expansion tables are right for all masks", "statement": "Expanding a comparison bit mask to bytes (64-bit and 32-bit tables) writes byte j = bit j, and the inverse tables its complement.", "quantifier": "all 256 (16) table entries and all bytes", "why_tests_cant": "A single wrong entry affects one in 256 patterns.", "anchors": ["src/atop/atop.cpp:atop_init"]}
{"id": "C47", "title": "Aligned allocations are returned whole", "statement": "Every pointer returned by the guarded allocator is aligned as promised, has the requested usable size inside the underlying block, and freeing it releases exactly the underlying block.", "quantifier": "every size and base address returned by malloc", "why_tests_cant": "Depends on allocator addresses.", "anchors": ["src/atop/common_inc.h:FmAlloc", "src/atop/common_inc.h:FmFree"]}
{"id": "C48", "title": "The ledger keeps the most recent calls", "statement": "Ledger entries recorded since the last reset are retrievable: each record has its own slot until the buffer's capacity is exceeded, and no write is out of bounds.", "quantifier": "every number of recorded calls", "why_tests_cant": "Needs thousands of records and inspection of slots.", "anchors": ["src/pnumpy/ledger.cpp:LedgerRecord"]}
{"id": "C49", "title": "Float arange is independent of threading", "statement": "np.arange over a floating-point type gives the same elements whether or not the fill is threaded, for every schedule.", "quantifier": "every start, next, length and interleaving", "why_tests_cant": "A test observes a handful of interleavings and start values; the claim ranges over all of them.", "anchors": ["src/atop/fill.cpp:ArangeFill", "src/pnumpy/_pnumpy.cpp:AtopArangeMathFunction"]}
{"id": "C50", "title": "Unthreaded calls on overlapping arrays equal the one-after-the-other loop", "statement": "For contiguous arrays at any addresses, overlapping in any way, an unthreaded call of a hooked integer ufunc leaves exactly the memory that computing element 0, then 1, ... leaves.", "quantifier": "every hooked integer/boolean ufunc and type, every length, every placement of the output relative to the inputs, every memory content", "why_tests_cant": "the outcome depends on the byte distance between arrays, the length modulo the register width and the contents; tests sample a few placements", "anchors": ["src/pnumpy/_pnumpy.cpp:AtopBinaryMathFunction", "src/atop/ops_binary.cpp:SimpleMathOpFast", "src/atop/ops_binary.cpp:SimpleMathOpFastSymmetric"]}
{"id": "C51", "title": "An output shifted below its input is safe on threads", "statement": "np.add(a[1:], b, out=a[:-1]), which NumPy runs without a copy because the loop reads each element before overwriting it, gives the same answer when the call is threaded.", "quantifier": "every length, worker count and interleaving", "why_tests_cant": "the wrong answer appears only if a later block starts before the previous one ends", "anchors": ["src/pnumpy/_pnumpy.cpp:AtopBinaryMathFunction", "src/pnumpy/_pnumpy.cpp:BinaryThreadCallbackStrided"]}
{"id": "C52", "title": "floor, ceil, trunc and rint are NumPy's", "statement": "np.floor, np.ceil, np.trunc and np.rint of a float array give, at every position, the floor, ceiling, truncation, or nearest integer (halfway cases to even) of the element there, keep its sign bit, give NaN exactly for NaN, and write nothing else.", "quantifier": "every float32/float64 pattern, length, stride and position", "why_tests_cant": "The halfway cases and the exponent boundaries are a sparse set of inputs, and body and tail use different code.", "anchors": ["src/atop/ops_unary.cpp:ROUND_OP", "src/atop/ops_unary.cpp:FLOOR_OP", "src/atop/ops_unary.cpp:UnaryOpFast", "src/pnumpy/_pnumpy.cpp:gUnaryMapping"]}
{"id": "C53", "title": "Integer unary ufuncs are NumPy's", "statement": "np.abs, np.negative, np.sign, np.invert on integers and bool, np.logical_not on every type, np.sign and np.signbit on floats give NumPy's answer for the element at each position (wrapping at the most negative integer), at any stride, and write nothing outside the output.", "quantifier": "every element value, type, length, stride, in-place or not", "why_tests_cant": "Values times positions modulo the vector width times strides cannot be enumerated.", "anchors": ["src/atop/ops_unary.cpp:UnaryOpFast", "src/atop/ops_unary.cpp:UnaryOpSlow", "src/atop/ops_unary.cpp:GetUnaryOpFast", "src/atop/ops_unary.cpp:GetUnaryOpSlow"]}
{"id": "C54", "title": "Float floor division is the floor of the quotient", "statement": "np.floor_divide of two float arrays gives, at every position, the largest integer not above the exact quotient of the two elements there (NumPy's answer), and NaN if an operand is NaN.", "quantifier": "every pair of float32/float64 patterns, length, stride and position", "why_tests_cant": "The pairs whose rounded quotient is an integer above the exact one are a sparse set.", "anchors": ["src/atop/ops_binary.cpp:FloorDivOp", "src/atop/ops_binary.cpp:SimpleMathOpSlow"]}
{"id": "C55", "title": "Float arithmetic is correctly rounded everywhere", "statement": "np.add, np.subtract, np.multiply and np.true_divide of float32 or float64 arrays give, at every position, the IEEE-754 correctly rounded (nearest, ties to even) result on the original elements there, with the IEEE rules for NaN, infinities and signed zeros, whatever the length, strides, alignment, scalar operand or in-place output, and write nothing else.", "quantifier": "every pair of patterns, length, stride, alignment, overlap the guard admits", "why_tests_cant": "2^128 pairs times positions and alignments.", "anchors": ["src/atop/ops_binary.cpp:SimpleMathOpFast", "src/atop/ops_binary.cpp:SimpleMathOpFastSymmetric", "src/atop/ops_binary.cpp:SimpleMathOpSlow", "src/pnumpy/_pnumpy.cpp:AtopBinaryMathFunction"]}
{"id": "C56", "title": "Hooking NumPy's loops loses none of them", "statement": "After initialize(), a call of any hooked ufunc and dtype for which the accelerated path is off, refused or missing is executed by NumPy's own loop of the same ufunc and the same machine type; each hooked loop runs the operation of its own ufunc; and atop_info/atop_setworkers requests for different (function, dtype) pairs never touch each other's settings.", "quantifier": "every ufunc and dtype in the hook tables, every switch setting", "why_tests_cant": "Tables of several hundred slots keyed by (category, function, dtype); a missed or swapped slot shows only for one combination.", "anchors": ["src/pnumpy/_pnumpy.cpp:newinit", "src/pnumpy/_pnumpy.cpp:gUnaryMapping", "src/pnumpy/_pnumpy.cpp:GetFromDict"]}
{"id": "C57", "title": "Hooked np.sort sorts every one-dimensional array", "statement": "After initialize(), np.sort and ndarray.sort of a one-dimensional array leave its own values in ascending order (NumPy's answer), whatever the array's byte order, alignment, length and sort kind.", "quantifier": "every array content, byte order, alignment, length, kind", "why_tests_cant": "Depends on how NumPy buffers unusual arrays and on memory beyond the array's stride table.", "anchors": ["src/pnumpy/_pnumpy.cpp:AtopSortMathFunction", "src/atop/sort.cpp:par_sort", "src/atop/sort.cpp:CopyData"]}
{"id": "C58", "title": "Special values of np.exp and np.log", "statement": "After initialize(), np.exp and np.log of a contiguous float32 or float64 array answer NaN for NaN, exp(+inf) = +inf, exp(-inf) = 0, log(+inf) = +inf, log(0) = -inf, and NaN for the log of a negative number, at every position.", "quantifier": "every NaN payload, every infinite, zero and negative pattern, every position and length, both formats", "why_tests_cant": "The answers must hold for all 2^24 (2^53) NaNs and every element position; tests use one of each.", "anchors": ["src/atop/avx_mathfun.h:exp256_ps", "src/atop/avx_mathfun.h:log256_ps", "src/atop/avx_mathfun.h:sin256_ps", "src/atop/avx_mathfun.h:cos256_ps", "src/atop/ops_trig.cpp:UnaryOpFast", "src/pnumpy/_pnumpy.cpp:AtopTrigMathFunction"]}
{"id": "C61", "title": "np.sin is odd and np.cos is even, bit for bit", "statement": "After initialize(), for any element x of a contiguous float32 or float64 array, np.sin of -x is exactly the negation of np.sin of x and np.cos of -x is exactly np.cos of x (elements inside whole 32-byte groups), including NaN, infinities and huge arguments.", "quantifier": "every pattern x, both formats, every array and position in a whole group", "why_tests_cant": "2^64 patterns.", "anchors": ["src/atop/avx_mathfun.h:exp256_ps", "src/atop/avx_mathfun.h:log256_ps", "src/atop/avx_mathfun.h:sin256_ps", "src/atop/avx_mathfun.h:cos256_ps", "src/atop/ops_trig.cpp:UnaryOpFast", "src/pnumpy/_pnumpy.cpp:AtopTrigMathFunction"]}
{"id": "C62", "title": "np.sin/cos/exp/log of an element does not depend on its position", "statement": "Equal elements get equal answers wherever they lie in a contiguous array and however long the array is.", "quantifier": "every element, position, length, both formats, the four functions", "why_tests_cant": "A kernel and a scalar tail compute the same function by different code; a test compares them at a few points.", "anchors": ["src/atop/avx_mathfun.h:exp256_ps", "src/atop/avx_mathfun.h:log256_ps", "src/atop/avx_mathfun.h:sin256_ps", "src/atop/avx_mathfun.h:cos256_ps", "src/atop/ops_trig.cpp:UnaryOpFast", "src/pnumpy/_pnumpy.cpp:AtopTrigMathFunction"]}
{"id": "C59", "title": "np.exp is close to e^x", "statement": "After initialize(), for every finite element x of a contiguous float32 or float64 array, np.exp answers a finite number within a few units in the last place of the real number e^x whenever e^x is a normal number of the format.", "quantifier": "every finite pattern x with e^x in range, both formats, every array, position and length", "why_tests_cant": "2^32 or 2^64 arguments; the reference value is a real number.", "anchors": ["src/atop/avx_mathfun.h:exp256_ps", "src/atop/avx_mathfun.h:exp256_pd", "src/atop/avx_mathfun.h:_ps256_cephes_exp_p0", "src/atop/avx_mathfun.h:_pd256_0x7f", "src/atop/ops_trig.cpp:UnaryOpFast", "src/pnumpy/_pnumpy.cpp:AtopTrigMathFunction"]}
{"id": "C60", "title": "np.log is close to ln x", "statement": "After initialize(), for every positive finite element x of a contiguous float32 or float64 array, np.log answers a finite number within a few units in the last place of the real number ln x.", "quantifier": "every positive finite pattern x, both formats, every array, position and length", "why_tests_cant": "2^31 or 2^63 arguments; the reference value is a real number.", "anchors": ["src/atop/avx_mathfun.h:log256_ps", "src/atop/avx_mathfun.h:log256_pd", "src/atop/avx_mathfun.h:_ps256_cephes_log_p0", "src/atop/avx_mathfun.h:_pd256_0x7f", "src/atop/ops_trig.cpp:UnaryOpFast", "src/pnumpy/_pnumpy.cpp:AtopTrigMathFunction"]}
{"id": "C63", "title": "np.sin and np.cos are close to sin x and cos x", "statement": "After initialize(), for every finite element x of a contiguous float32 or float64 array, np.sin (np.cos) answers a finite number within a few units in the last place of 1 of the real number sin x (cos x).", "quantifier": "every finite pattern x, both formats and functions, every array, position and length", "why_tests_cant": "2^32 or 2^64 arguments; the reference value is a real number.", "anchors": ["src/atop/avx_mathfun.h:sin256_ps", "src/atop/avx_mathfun.h:cos256_ps", "src/atop/avx_mathfun.h:sin256_pd", "src/atop/avx_mathfun.h:cos256_pd", "src/atop/avx_mathfun.h:_ps256_minus_cephes_DP1", "src/atop/ops_trig.cpp:UnaryOpFast", "src/pnumpy/_pnumpy.cpp:AtopTrigMathFunction"]}
{"id": "C64", "title": "np.sin and np.cos stay within [-1, 1]", "statement": "After initialize(), for every finite element x of a contiguous float32 or float64 array, the answer of np.sin and np.cos is a finite number of size at most 1 (up to rounding error).", "quantifier": "every finite pattern x, both formats and functions, every array, position and length", "why_tests_cant": "2^32 or 2^64 arguments; the failures are at large arguments which tests do not sample.", "anchors": ["src/atop/avx_mathfun.h:sin256_ps", "src/atop/avx_mathfun.h:cos256_ps", "src/atop/avx_mathfun.h:sin256_pd", "src/atop/avx_mathfun.h:cos256_pd", "src/atop/avx_mathfun.h:_ps256_minus_cephes_DP1", "src/atop/ops_trig.cpp:UnaryOpFast", "src/pnumpy/_pnumpy.cpp:AtopTrigMathFunction"]}
{"id": "C65", "title": "np.sum of float64 has a small error bound", "statement": "For every float64 array of finite elements (any stride) whose sum of absolute values A stays below half the largest float64, np.sum answers a finite number that differs from the exact sum by at most k 2^-52 A, where k is about n/8 for one contiguous call (n if strided) and about 2071 + n/131072 on worker threads (16396 + n/131072 if strided), in every interleaving of the worker threads.", "quantifier": "every array content, length up to 2^50, stride, initial value, number of workers, schedule and previous content of the scratch buffer", "why_tests_cant": "Worst-case rounding errors are not found by sampling; the order of additions depends on length, layout and threading.", "anchors": ["src/atop/ops_binary.cpp:ReduceMathOpFast", "src/atop/ops_binary.cpp:GetReduceMathOpFast", "src/pnumpy/_pnumpy.cpp:AtopBinaryMathFunction", "src/pnumpy/_pnumpy.cpp:ReduceThreadCallbackStrided", "src/pnumpy/_pnumpy.cpp:GetReduceStartVal", "src/atop/threads.h:WorkMain"]}
{"id": "C66", "title": "np.sum of integer-valued float64 data is exact", "statement": "If every element of a float64 array (and the initial value) is an integer, or a multiple of one fixed power of two, and the absolute values add up to less than 2^53 of these units, then np.sum is the exact sum, with or without threads.", "quantifier": "every array content, length, stride, number of workers and schedule", "why_tests_cant": "Must hold for every content and interleaving.", "anchors": ["src/atop/ops_binary.cpp:ReduceMathOpFast", "src/atop/ops_binary.cpp:GetReduceMathOpFast", "src/pnumpy/_pnumpy.cpp:AtopBinaryMathFunction", "src/pnumpy/_pnumpy.cpp:ReduceThreadCallbackStrided", "src/pnumpy/_pnumpy.cpp:GetReduceStartVal", "src/atop/threads.h:WorkMain"]}
{"id": "C67", "title": "np.sum of float64 does not depend on threading", "statement": "np.sum of a float64 array returns the same bits whether or not the call ran on worker threads.", "quantifier": "every array content, length, stride, number of workers and schedule", "why_tests_cant": "The difference shows only for special contents (signed zeros, inexact sums) and only above the threading threshold.", "anchors": ["src/atop/ops_binary.cpp:ReduceMathOpFast", "src/atop/ops_binary.cpp:GetReduceMathOpFast", "src/pnumpy/_pnumpy.cpp:AtopBinaryMathFunction", "src/pnumpy/_pnumpy.cpp:ReduceThreadCallbackStrided", "src/pnumpy/_pnumpy.cpp:GetReduceStartVal", "src/atop/threads.h:WorkMain"]}
{"id": "C68", "title": "pn.lexsort accepts its keys as NumPy's lexsort does", "statement": "For every call pn.lexsort(k1, ..., kn) or pn.lexsort([k1, ..., kn]) of one-dimensional arrays of equal length, contiguous or not, of whatever dtype and byte order, the result is a permutation of the rows in lexicographic order of the values (last key first), ties in row order; unsuitable arguments raise or are left to NumPy, and no argument crashes the process.", "quantifier": "every list of Python arguments: arrays of any dtype, length, stride, byte order and content, None, lists, other objects; every number of worker threads and schedule", "why_tests_cant": "Dtype, layout, byte order and number of keys combine without bound; missing branches show only for the combination nobody tried.", "anchors": ["src/pnumpy/sort.py:lexsort", "src/pnumpy/sorting.cpp:lexsort", "src/pnumpy/sorting.cpp:CMultiListPrepare", "src/pnumpy/common.cpp:BuildArrayInfo", "src/pnumpy/common.cpp:EnsureContiguousArray", "src/atop/sort.cpp:SortIndex", "src/atop/sort.cpp:par_amergesort"]}
{"id": "C69", "title": "pn.lexsort's index= and cutoffs= keywords", "statement": "With index=i the given row numbers (repeats allowed) are stably sorted by the keys, in place, and returned; with cutoffs=c the rows between consecutive cutoffs are stably sorted among themselves, numbered from the start of their partition, with or without threads; arguments that do not fit the keys are refused and no memory outside the arrays is touched.", "quantifier": "every key list, every index array and cutoffs array (any content, length), every kind, number of workers and schedule", "why_tests_cant": "Content of index and cutoffs is arbitrary; memory errors may stay unnoticed in a test.", "anchors": ["src/pnumpy/sort.py:lexsort", "src/pnumpy/sorting.cpp:lexsort", "src/pnumpy/sorting.cpp:CMultiListPrepare", "src/pnumpy/common.cpp:BuildArrayInfo", "src/pnumpy/common.cpp:EnsureContiguousArray", "src/atop/sort.cpp:SortIndex", "src/atop/sort.cpp:par_amergesort"]}
{"id": "C70", "title": "np.argsort and np.lexsort keep NumPy's answer after initialize()", "statement": "After pn.initialize(), np.argsort of every row of a bool, integer or floating array - any kind, contiguous or not, native or byte-swapped, aligned or not - gives a permutation of the row numbers that puts the values in ascending order with NaNs last, equal values in row order for a stable kind; np.lexsort gives the lexicographic order, ties in row order. This holds with or without worker threads, whatever their schedule, and with atop switched off.", "quantifier": "every row content, length, dtype, byte order, stride; every kind; every number of keys; every number of worker threads and schedule", "why_tests_cant": "The hooked function mixes native, threaded and NumPy's own sorts by dtype, kind and length; tests see a few of the combinations and one schedule each.", "anchors": ["src/pnumpy/_pnumpy.cpp:AtopArgSortMathFunction", "src/pnumpy/_pnumpy.cpp:newinit", "src/atop/sort.cpp:SortIndex", "src/atop/sort.cpp:par_amergesort"]}
{"id": "C71", "title": "Threaded element-wise arithmetic is right to the last byte in every interleaving", "statement": "np.add, subtract, multiply, divide, minimum, maximum, bitwise and logical operations on arrays long enough to be shared among worker threads - contiguous, strided, with a scalar operand, in place - leave in every output element the documented result on the original inputs at that position, change no other byte of memory, never perform a faulting access, and can always still return, however the threads' individual loads and stores interleave; threading, pn.atop_disable and the worker count are invisible in the result.", "quantifier": "every ufunc and dtype pnumpy replaces (and every NumPy loop it only threads), every length, stride, alignment to the item size and content; every number of workers, every interleaving of single byte accesses; threads run on x86 memory with store buffers", "why_tests_cant": "A test sees one interleaving per run; races between a vectorised block's whole-register stores and the neighbouring block, or a wrong block offset for one stride combination, show up only under particular schedules and lengths.", "anchors": ["src/pnumpy/_pnumpy.cpp:AtopBinaryMathFunction", "src/pnumpy/_pnumpy.cpp:BinaryThreadCallbackStrided", "src/pnumpy/_pnumpy.cpp:BinaryThreadCallbackNumpy", "src/atop/ops_binary.cpp:SimpleMathOpFast", "src/atop/ops_binary.cpp:SimpleMathOpFastSymmetric", "src/atop/ops_binary.cpp:SimpleMathOpSlow", "src/atop/threads.h:GetNextWorkBlockCore"]}
{"id": "C72", "title": "Threaded comparisons are right to the last byte in every interleaving", "statement": "np.equal, not_equal, less, less_equal, greater and greater_equal on arrays long enough to be shared among worker threads leave in every output byte exactly 1 or 0 as the comparison of the original inputs at that position holds or not, change no other byte of memory, perform no faulting access and can always still return, however the threads' individual loads and stores interleave; threading, pn.atop_disable and the worker count are invisible in the result.", "quantifier": "every comparison, every integer, boolean and float dtype, every length, stride and content; every number of workers, every interleaving of single byte accesses; threads run on x86 memory with store buffers", "why_tests_cant": "The vectorised loops store 8, 16 or 32 result bytes at once next to a block boundary that depends on the length; a store reaching over the boundary is overwritten by the neighbour in most runs and only some schedules leave it visible.", "anchors": ["src/pnumpy/_pnumpy.cpp:AtopCompareMathFunction", "src/pnumpy/_pnumpy.cpp:BinaryThreadCallbackStrided", "src/pnumpy/_pnumpy.cpp:BinaryThreadCallbackNumpy", "src/atop/ops_compare.cpp:CompareFloat", "src/atop/ops_compare.cpp:CompareInt64", "src/atop/ops_compare.cpp:CompareAny", "src/atop/threads.h:GetNextWorkBlockCore"]}
{"id": "C73", "title": "Threaded unary ufuncs are right to the last byte in every interleaving", "statement": "np.absolute, negative, sign, invert, logical_not, signbit, isnan, isinf, isfinite, floor, ceil and trunc on arrays long enough to be shared among worker threads - contiguous, strided, in place - leave in every output element the documented answer for the original element at that position, change no other byte of memory, perform no faulting access and can always still return, however the threads' individual loads and stores interleave; np.sin, cos, exp and log leave on threads, bit for bit, what they leave without threads. Threading and the worker count are invisible in the result.", "quantifier": "every unary ufunc and dtype pnumpy replaces, every length, stride and content; every number of workers, every interleaving of single byte accesses; threads run on x86 memory with store buffers", "why_tests_cant": "Each worker runs the vector body and the scalar tail on its own block; whether an element is computed by the vector or the scalar code must not depend on the blocks, whatever the length, and no vector store may reach into a neighbour's block in any schedule.", "anchors": ["src/pnumpy/_pnumpy.cpp:AtopUnaryMathFunction", "src/pnumpy/_pnumpy.cpp:AtopTrigMathFunction", "src/pnumpy/_pnumpy.cpp:UnaryThreadCallbackStrided", "src/pnumpy/_pnumpy.cpp:UnaryThreadCallbackNumpy", "src/atop/ops_unary.cpp:GetUnaryOpFast", "src/atop/ops_trig.cpp:GetTrigOpFast", "src/atop/threads.h:GetNextWorkBlockCore"]}
{"id": "C74", "title": "After hook_enable, a[i] is still NumPy's a[i]", "statement": "After pn.hook_enable(), indexing any array with any object gives what NumPy gives: for a boolean mask the selected elements in order, with the array's dtype (byte order, fields and unit included) and NumPy's shape; for every other index - numbers, slices, lists, integer arrays, masks that do not fit - NumPy's own answer or error.", "quantifier": "every array and index object: dtype, byte order, shape, strides, contents; with and without threads", "why_tests_cant": "The hook replaces NumPy's subscript for the whole process, so it has to be right for every layout, dtype and mask any program uses, and each combination of stride, item size and mask takes its own path.", "anchors": ["src/pnumpy/_pnumpy.cpp:GetItemHook", "src/pnumpy/_pnumpy.cpp:hook_enable", "src/pnumpy/getitem.cpp:BooleanIndexInternal", "src/pnumpy/getitem.cpp:getitem", "src/pnumpy/common.cpp:AllocateLikeResize"]}
{"id": "C75", "title": "pn.getitem(values, index, default) fetches with a default for what is out of range", "statement": "pn.getitem(values, index[, default]) returns a one-dimensional array of values' dtype with one element per element of index, in C order: the element of values (flattened) that Python indexing with that integer, negative ones included, selects, and for an integer out of range the default: the given number converted to the dtype, or, without one, the smallest signed integer, the largest unsigned one, NaN, False or the empty string. Anything but two arrays with an optional object, and an index that does not hold integers or booleans, is refused.", "quantifier": "every pair of arrays (dtype, shape, strides, byte order, contents), every default object, any schedule", "why_tests_cant": "The result depends on every index value, on the conversion of every possible default into every dtype and on every layout that the one-stride test accepts.", "anchors": ["src/pnumpy/getitem.cpp:getitem", "src/pnumpy/getitem.cpp:GetItemFunction", "src/pnumpy/common.cpp:ConvertScalarObject", "src/pnumpy/common.cpp:GetDefaultForType", "src/pnumpy/common.cpp:GetStridesAndContig", "src/pnumpy/common.cpp:AllocateLikeResize"]}
{"id": "C76", "title": "np.sqrt is correctly rounded, alone or on threads", "statement": "np.sqrt of a float32 or float64 array puts in every output the nearest representable number to the real square root of the ORIGINAL input (an even one of two equally near), keeps the sign of zeros, gives +inf for +inf and NaN for NaN and every negative number, and writes no other byte - whatever strides, alignment, length, and however many threads take part.", "quantifier": "every bit pattern of both formats, every length, strides, contents, number of workers, zigzag direction and interleaving under store buffers", "why_tests_cant": "2^64 patterns, the vector and the scalar loop meet at any offset, and the number of interleavings is unbounded.", "anchors": ["src/atop/ops_unary.cpp:SQRT_OP", "src/atop/ops_unary.cpp:SQRT_OP_256", "src/atop/ops_unary.cpp:GetUnaryOpFast", "src/pnumpy/_pnumpy.cpp:AtopUnaryMathFunction"]}
{"id": "C77", "title": "pn.sort, argsort, argmin, argmax and searchsorted behave as numpy's functions", "statement": "pn.sort(a, axis, kind, order) returns a new sorted copy, along the given axis or, for axis=None, of the flattened array, and leaves a as it was; argsort, argmin, argmax and searchsorted accept everything numpy's do: objects with the method, objects whose method is missing or refuses the arguments, and anything convertible to an array (wrapped again where the object wraps results). What numpy raises is raised.", "quantifier": "every array-like object (with or without method, convertible or not, wrapping or not), every item type and order, every axis and kind, every exception the conversion or the method raises", "why_tests_cant": "It must hold for every class that can be passed and every exception its methods raise, not for the arrays of a test.", "anchors": ["src/pnumpy/sort.py:sort", "src/pnumpy/sort.py:_wrapfunc", "src/pnumpy/sort.py:_wrapit", "src/pnumpy/sort.py:argsort", "src/pnumpy/sort.py:argmin", "src/pnumpy/sort.py:argmax", "src/pnumpy/sort.py:searchsorted"]}
{"id": "C78", "title": "A reduction is right to the last byte, alone or on threads with store buffers", "statement": "np.sum, np.prod, np.min, np.max (and bitwise/logical and/or) over an integer or boolean array put in the accumulator the documented value (sum and product modulo 2^width, the smallest or largest element, any/all, bit by bit) of the elements and the initial value; float64 sums keep the error bound of C65, are exact where C66 says so, and float64 sums and products on threads give the same bits whatever the number of workers and their interleaving. No access is wild, no other byte than the accumulator and the caller's own chunk buffer changes, and from every point a threaded call can run to its end.", "quantifier": "every element type, length, stride and contents, pnumpy enabled or not, every number of workers, zigzag direction and interleaving of the single byte loads, stores and store-buffer drains", "why_tests_cant": "The chunk results pass between threads through memory: a lost or late store shows only in some interleavings, of which there are unboundedly many.", "anchors": ["src/pnumpy/_pnumpy.cpp:AtopBinaryMathFunction", "src/pnumpy/_pnumpy.cpp:ReduceThreadCallbackStrided", "src/pnumpy/_pnumpy.cpp:ReduceThreadCallbackNumpy", "src/pnumpy/_pnumpy.cpp:GetReduceStartVal", "src/atop/ops_binary.cpp:ReduceMathOpFast", "src/atop/ops_binary.cpp:GetReduceMathOpFast", "src/atop/threads.h:WorkMain"]}
{"id": "C79", "title": "The native recarray_to_colmajor call fills the caller's columns", "statement": "_pnumpy.recarray_to_colmajor(records, offsets, columns) with a contiguous structured array, int64 offsets and an object array of contiguous arrays returns None and has put in item r of column k the bytes of the field at offset k of record r, changing no other byte; arguments it does not document (other dtypes, lengths, strides, objects) raise ValueError and change nothing.", "quantifier": "every structured array, field layout, number of records and columns and every memory; alone or on any number of workers with any interleaving", "why_tests_cant": "It ranges over all layouts, contents and schedules, and over arguments for which the call writes past an array or crashes the process.", "anchors": ["src/pnumpy/conversions.cpp:RecArrayToColMajor", "src/pnumpy/module_init.cpp:methods", "src/atop/recarray.cpp:RecArrayToColMajor", "src/pnumpy/common.cpp:ArrayLength"]}
{"id": "C80", "title": "The native sort call returns a sorted copy of the array", "statement": "_pnumpy.sort(a, kind=...) returns a new array of the dtype and shape of a whose elements along the last axis are those of a in ascending order (NaNs last), whatever the stride, byte order and dtype the call accepts; anything else raises.", "quantifier": "every dtype, length, stride, byte order and contents, every kind, alone or on any number of workers with any interleaving", "why_tests_cant": "It ranges over all layouts, contents and schedules; the wrong answers appear only for particular layouts above the threading threshold.", "anchors": ["src/pnumpy/sorting.cpp:sort", "src/pnumpy/module_init.cpp:module_functions", "src/pnumpy/common.cpp:AllocateLikeNumpyArray", "src/pnumpy/common.cpp:GetStridesAndContig", "src/atop/sort.cpp:Sort", "src/atop/sort.cpp:par_sort", "src/atop/sort.cpp:CopyData"]}
{"id": "C81", "title": "cpu_count_linux() counts processors and cores", "statement": "pn.cpu_count_linux() returns the number of logical processors and of physical cores: the number of different sibling lists of the topology files; without these files the cores of every package of /proc/cpuinfo, each package once, None if it does not tell; importing pnumpy does not depend on it.", "quantifier": "every number of processors, every assignment of processors to cores and packages, every /proc/cpuinfo of any number of sections with any other lines in any order, sysconf answering or not", "why_tests_cant": "A test sees one machine: its own; the counts must be right for every topology and every layout of the files, including those the test machine does not have.", "anchors": ["src/pnumpy/cpu.py:cpu_count_linux", "src/pnumpy/cpu.py:cpu_physical_linux", "src/pnumpy/cpu.py:init", "src/pnumpy/__init__.py:init"]}
{"id": "C82", "title": "np.prod of float64 is the product up to rounding", "statement": "After initialize(), np.prod of a float64 array is, as long as no product of some of the elements leaves the range of normal numbers, within n relative rounding errors of the exact product (and exactly the product for integers that stay below 2^53), alone or on any number of worker threads, and nothing but the result is written.", "quantifier": "every length, stride and contents, every initial value, alone or on any number of workers with any interleaving of their loads and stores", "why_tests_cant": "The order of the multiplications depends on the stride, the length and the chunking; a test sees one order of one array and cannot show that no array of any length drifts or that no interleaving loses a factor.", "anchors": ["src/atop/ops_binary.cpp:ReduceMathOpFast", "src/atop/ops_binary.cpp:GetReduceMathOpFast", "src/atop/ops_binary.cpp:MulOp", "src/pnumpy/_pnumpy.cpp:GetReduceStartVal", "src/pnumpy/_pnumpy.cpp:ReduceThreadCallbackStrided", "src/pnumpy/_pnumpy.cpp:AtopBinaryMathFunction"]}
{"id": "C83", "title": "Every hooked ufunc runs its own kernel", "statement": "After initialize(), every NumPy ufunc loop that pnumpy has replaced runs the kernel of that ufunc's own operation for that loop's own element type and gives NumPy's result dtype (or, where pnumpy has no kernel, NumPy's own loop); its reduction is that of the same operation; and every operation and dtype for which pnumpy has a kernel is in fact accelerated.", "quantifier": "every hooked ufunc, dtype and result dtype, every NumPy (whatever loops it has and however its ufunc objects are numbered), including an initialize() that stops half way", "why_tests_cant": "Over four hundred loops are installed through four opcode tables, a dtype renumbering and two aliases; a wrong code in one of them is silent for the dtypes a test does not call, and which loop ends up in an aliased ufunc depends on the order of hooking.", "anchors": ["src/pnumpy/_pnumpy.cpp:newinit", "src/pnumpy/_pnumpy.cpp:gBinaryMapping", "src/pnumpy/_pnumpy.cpp:convert_dtype_to_atop", "src/pnumpy/stubs.h:g_UFuncGenericLUT", "src/atop/ops_binary.cpp:GetSimpleMathOpFast", "src/atop/ops_binary.cpp:GetReduceMathOpFast", "src/atop/ops_compare.cpp:GetComparisonOpFast", "src/atop/ops_unary.cpp:GetUnaryOpFast", "src/atop/ops_unary.cpp:GetUnaryOpSlow", "src/atop/ops_trig.cpp:GetTrigOpFast"]}
{"id": "C84", "title": "initialize() can be called any number of times", "statement": "The first initialize() of a process either succeeds with every wanted loop hooked or raises; calling it again never hooks anything twice, and it returns without an error only when everything is hooked; without AVX2 every call raises ImportError and leaves NumPy as it was.", "quantifier": "every number of calls, every NumPy, with and without AVX2", "why_tests_cant": "initialize() runs once per process in a test suite, with one NumPy; repeated calls, and calls after a failed one, are histories the suite does not visit.", "anchors": ["src/pnumpy/_pnumpy.cpp:newinit"]}
{"id": "C85", "title": "NumPy's ufuncs answer as documented after initialize(), by name and dtype", "statement": "After initialize(), calling add, subtract, multiply, minimum, maximum or bitwise_and/or/xor of integer or boolean arrays, logical_and/or of boolean arrays, add, subtract, multiply or true_divide of float arrays, any of the six comparisons, abs, negative, sign, invert, logical_not, signbit, isnan, isinf or isfinite of any hooked dtype, or floor, ceil, trunc or sqrt of float arrays gives for every element the value NumPy documents for that ufunc and dtype, writes nothing else, never faults and can always finish; sin, cos, exp and log give what their single-threaded kernel gives.", "quantifier": "every such ufunc by its NumPy name, every dtype, every NumPy (whichever loops could be hooked), pnumpy enabled or disabled, every array length, address and stride not overlapping at other positions, every element value, alone or on any number of workers in every interleaving", "why_tests_cant": "The answer depends on the composition of the hooking tables, the slot lookup, the chunking over workers and the kernel; a test fixes one name, dtype, length, stride, alignment and schedule.", "anchors": ["src/pnumpy/_pnumpy.cpp:AtopBinaryMathFunction", "src/pnumpy/_pnumpy.cpp:AtopCompareMathFunction", "src/pnumpy/_pnumpy.cpp:AtopUnaryMathFunction", "src/pnumpy/_pnumpy.cpp:AtopTrigMathFunction", "src/pnumpy/_pnumpy.cpp:newinit", "src/pnumpy/stubs.h:g_UFuncGenericLUT"]}
{"id": "C86", "title": "np.sort, argsort, argmax, argmin and arange still reach their own function after initialize()", "statement": "After initialize(), a call of any dtype's sort or argsort (of each kind), argmax, argmin or arange fill function comes to exactly one end: NumPy's own function of that same kind for that dtype (or the other dtype number of the same machine type), or, for a sort, argsort or arange pnumpy takes, pnumpy's for the same kind and machine type; never another kind or type, a null pointer or an endless loop. argmax and argmin always end in NumPy's own; with pnumpy disabled all do. Dtypes other than 0 to 12 are untouched.", "quantifier": "every NumPy (whichever of these functions each dtype has), every dtype number, every function and kind, every number of times the hooks are installed, every choice of calls pnumpy takes", "why_tests_cant": "Two dtype numbers share one fallback slot and the order of hooking decides what it holds; 117 pointers are replaced and a wrong or self-referring fallback shows only in the calls pnumpy declines.", "anchors": ["src/pnumpy/_pnumpy.cpp:newinit", "src/pnumpy/_pnumpy.cpp:AtopSortMathFunction", "src/pnumpy/_pnumpy.cpp:AtopArgSortMathFunction", "src/pnumpy/_pnumpy.cpp:AtopArgMinMaxMathFunction", "src/pnumpy/_pnumpy.cpp:AtopArangeMathFunction", "src/pnumpy/stubs.h:g_UFuncSortLUT"]}
{"id": "C87", "title": "np.sum, prod, min, max, any, all of an array are right after initialize(), by name and dtype", "statement": "After initialize(), reducing an integer or boolean array with add, multiply, minimum, maximum, bitwise_and/or (and a boolean one with logical_and/or) leaves in the accumulator what NumPy documents for that ufunc and dtype, changes nothing else, never faults and can always finish; on threads wherever pnumpy's kernel is in use or the array is contiguous. float64 add and multiply reductions with pnumpy's kernel stay within the error bounds of C65 and C82.", "quantifier": "every such ufunc by its NumPy name, every dtype, every NumPy (whichever loops could be hooked), pnumpy enabled or disabled, every length, stride and content, alone or on any number of workers in every interleaving", "why_tests_cant": "The result depends on which opcode, start value and reduction kernel the hooked slot holds and on how the row was split; wrong start values or slots show only for particular names, dtypes and lengths above the threshold.", "anchors": ["src/pnumpy/_pnumpy.cpp:AtopBinaryMathFunction", "src/pnumpy/_pnumpy.cpp:GetReduceStartVal", "src/pnumpy/_pnumpy.cpp:newinit", "src/atop/ops_binary.cpp:GetReduceMathOpFast"]}
{"id": "C88", "title": "atop_setworkers and atop_info are registers, one per function and machine type", "statement": "atop_setworkers(name, dtype, w) takes effect exactly when atop is enabled, atop_info() lists the pair and 0 <= w < 64, and then returns the limit in force before, otherwise False with nothing changed; atop_info(name, dtype) reports the last limit that took effect for that function and machine type (3 at first, 7 for the trig functions) and no other request, enable, disable or repeated initialize() changes it; that limit is the one the function's threaded calls run under: they wake that many workers, never more than thread_getworkers() reports, and that many for a limit of 0; and atop_info() lists exactly the (function, dtype) pairs that initialize() hooks.", "quantifier": "every history of initialize, enable, disable, set and info calls, every function name, dtype and worker count, every NumPy", "why_tests_cant": "The claim is about every interleaving of requests over some five hundred (function, dtype) pairs sharing four tables; a test looks at one pair after one request.", "anchors": ["src/pnumpy/_pnumpy.cpp:atop_setworkers", "src/pnumpy/_pnumpy.cpp:atop_info", "src/pnumpy/_pnumpy.cpp:GetFromDict", "src/pnumpy/_pnumpy.cpp:AddToDict", "src/pnumpy/_pnumpy.cpp:newinit", "src/atop/threads.h:WorkMain"]}
