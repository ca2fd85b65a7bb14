{"id": "C01", "title": "Taint words round trip", "statement": "Every well formed taint (source index up to 255 and offset up to 2^54-1, range first<last, non-adjacent union, labels up to 2^31-1, control-flow flag either way) that is written to the label table is read back as exactly that taint, and two different taints never share a stored word.", "quantifier": "all taints in the documented ranges", "why_tests_cant": "the value space is 2^63 words; a random test samples a vanishing part and never hits all boundary combinations", "anchors": ["polytracker/src/taintdag/encoding.cpp: encode, decode", "polytracker/include/taintdag/taint.h: SourceTaint, RangeTaint, UnionTaint"]}
{"id": "C02", "title": "C++ and Python readers agree", "statement": "For every non-zero label and every word the runtime can store for it, the Python TDFile.decode_node reports the same kind of node, the same fields and the same control-flow flag as the C++ Labels::read_label.", "quantifier": "all well formed taints / all 64-bit words accepted by the C++ reader", "why_tests_cant": "two independent decoders over 2^64 inputs; agreement on samples does not imply agreement", "anchors": ["polytracker/src/taintdag/encoding.cpp: decode", "polytracker/taint_dag.py: TDFile.decode_node"]}
{"id": "C03", "title": "Marking control flow touches only the flag", "statement": "Setting the affects-control-flow flag on a stored taint sets that flag, leaves source index, offset, range bounds and union members unchanged, and is idempotent; equality that ignores the flag is exactly equality of everything else.", "quantifier": "all 64-bit words", "why_tests_cant": "bit-level frame property over all words", "anchors": ["polytracker/src/taintdag/encoding.cpp: add_affects_control_flow, check_affects_control_flow", "polytracker/include/taintdag/encoding.h: equal_ignore_cf"]}
{"id": "C04", "title": "Union computes exactly the set union of input bytes", "statement": "For every history of label operations and all labels l and r in use, the label returned by union_taint(l, r) stands for exactly the input bytes of l together with the input bytes of r: nothing lost, nothing invented, including every range-merging, enclosing and duplicate-reuse shortcut.", "quantifier": "every history of create_source_labels/union_taint/affects_control_flow and every pair of allocated labels", "why_tests_cant": "the shortcut rules interact with the whole history of allocated labels; the property test only samples 32 labels and explicitly leaves the 'nothing invented' half as a TODO", "anchors": ["polytracker/include/taintdag/union.h: compute, Visitor", "polytracker/include/taintdag/labels.h: union_taint, duplicate_check"]}
{"id": "C05", "title": "The taint graph is a DAG of existing labels and its constructor assertions never fire", "statement": "In every reachable label table each range or union taint refers only to labels >= 1 that are strictly smaller than itself, ranges have first<last, unions are ordered and non-adjacent; hence the assertions in the RangeTaint/UnionTaint constructors never fire and the decoder's error branch is never taken for a label >= 1 in use.", "quantifier": "every history of label operations", "why_tests_cant": "an invariant over unbounded histories", "anchors": ["polytracker/include/taintdag/taint.h: RangeTaint, UnionTaint", "polytracker/include/taintdag/union.h: union_labels", "polytracker/src/taintdag/encoding.cpp: decode"]}
{"id": "C06", "title": "Labels are immutable and never reused", "statement": "Once a label has been returned, every later operation leaves its taint unchanged except that the control-flow flag may go from false to true; the number of labels never decreases and new labels are always larger than all earlier ones.", "quantifier": "every pair of a state and any continuation of the history", "why_tests_cant": "quantifies over all continuations", "anchors": ["polytracker/include/taintdag/labels.h: Labels", "polytracker/include/taintdag/section.h: FixedSizeAlloc"]}
{"id": "C07", "title": "Source labels are contiguous and carry the right byte offsets", "statement": "create_source_labels(src, off, n) returns n consecutive fresh labels and the i-th of them decodes to source src, offset off+i, control-flow flag clear, as long as off+n stays within 2^54; beyond that the stored offset silently wraps.", "quantifier": "all states, sources, offsets and lengths", "why_tests_cant": "unbounded lengths and 54-bit offsets", "anchors": ["polytracker/include/taintdag/labels.h: create_source_labels", "polytracker/include/taintdag/taint.h: max_source_offset"]}
{"id": "C08", "title": "Union algebra", "statement": "union_taint(l,l)=l with no allocation; union_taint(l,r) and union_taint(r,l) stand for the same input bytes; repeating the same union immediately (in either order) allocates nothing; and associativity holds on input bytes.", "quantifier": "every reachable table and all labels", "why_tests_cant": "algebraic laws over all states", "anchors": ["polytracker/include/taintdag/labels.h: union_taint, duplicate_check", "polytracker/include/taintdag/union.h: Visitor"]}
{"id": "C09", "title": "Control-flow marking reaches exactly the ancestors in the taint graph", "statement": "affects_control_flow(l) terminates in every reachable table, sets the flag on l and on every label l was (transitively) built from, and on no other label.", "quantifier": "every reachable table and label", "why_tests_cant": "termination and exact reachability over arbitrary DAGs", "anchors": ["polytracker/include/taintdag/labels.h: affects_control_flow", "polytracker/include/taintdag/labeldeq.h: LabelDeq"]}
{"id": "C10", "title": "A flagged label has all its input bytes flagged", "statement": "In every reachable table, if a label is flagged as affecting control flow then so are all labels it was built from, down to the source labels; and every flagged label was built into some label that was passed to affects_control_flow. Therefore stopping the traversal at flagged labels is sound.", "quantifier": "every history", "why_tests_cant": "inductive invariant over histories", "anchors": ["polytracker/include/taintdag/labels.h: affects_control_flow"]}
{"id": "C11", "title": "LabelDeq is an unbounded FIFO", "statement": "For every sequence of push_back, pop_front and empty calls, the hybrid ring-buffer/deque behaves exactly like an unbounded FIFO queue, for every positive inline capacity, across the migration from the inline array to the heap.", "quantifier": "all operation sequences, all capacities N>=2", "why_tests_cant": "the unit test runs random sequences for N=16 only", "anchors": ["polytracker/include/taintdag/labeldeq.h: LabelDeq, ArrayImpl"]}
{"id": "C12", "title": "Label exhaustion is detected by unions", "statement": "When the label table is full union_taint terminates the process instead of returning a wrong label, and in all other cases it returns; create_source_labels on the other hand dereferences an empty optional (undefined behaviour) when the request does not fit.", "quantifier": "all table states and requests", "why_tests_cant": "needs 2^31 labels to reach; cannot be exercised by a unit test", "anchors": ["polytracker/include/taintdag/labels.h: union_taint, create_source_labels", "polytracker/include/taintdag/section.h: construct_range"]}
{"id": "C13", "title": "Section allocation never overlaps or escapes", "statement": "For every sequence of allocation requests of any 64-bit size on a section, granted regions lie inside the section, are pairwise disjoint and gapless, and a refused request changes nothing (including requests whose size overflows pointer arithmetic).", "quantifier": "all request sequences and sizes", "why_tests_cant": "requires adversarial sizes near 2^64 and unbounded sequences", "anchors": ["polytracker/include/taintdag/section.h: SectionBase::write"]}
{"id": "C14", "title": "Fixed-size records: the k-th construct gets index k and is read back verbatim", "statement": "In a fixed-size section the k-th successful construct returns index k and the record is stored at byte k*entry_size; later constructs never disturb it; construct_range(n) refuses exactly when it does not fit provided n*entry_size does not overflow 64 bits.", "quantifier": "all histories of construct/construct_range", "why_tests_cant": "unbounded histories and 64-bit wrap-around", "anchors": ["polytracker/include/taintdag/section.h: FixedSizeAlloc"]}
{"id": "C15", "title": "String table round trip", "statement": "Every string of at most 65535 bytes that the string table accepts is returned unchanged for its offset forever after, by the C++ accessor and, when it is valid UTF-8, by the Python reader; iterating the table yields all added strings in order of addition; offsets are even and pairwise distinct; longer strings abort. (A name that is not UTF-8 makes the Python reader raise.)", "quantifier": "all sequences of strings", "why_tests_cant": "unbounded histories; odd/even padding and maximal lengths interact", "anchors": ["polytracker/include/taintdag/string_table.h: StringTable", "polytracker/taint_dag.py: TDStringSection.read_string"]}
{"id": "C16", "title": "Function name/index mapping is a stable bijection", "statement": "For every sequence of add_mapping calls two calls get the same index iff they passed the same name; indices are 0,1,2,... in order of first appearance; the index recorded in the file leads back to the name.", "quantifier": "all call sequences", "why_tests_cant": "unbounded histories", "anchors": ["polytracker/include/taintdag/fnmapping.h: FnMapping", "polytracker/src/taintdag/fnmapping.cpp: add_mapping"]}
{"id": "C17", "title": "Function trace is the exact chronological event list", "statement": "The list of events read back from the file equals the sequence of function entry/exit calls made, in order, with kinds and indices preserved.", "quantifier": "all event sequences", "why_tests_cant": "unbounded histories", "anchors": ["polytracker/include/taintdag/fntrace.h: Events, Event", "polytracker/taint_dag.py: TDEventsSection"]}
{"id": "C18", "title": "Control-flow log round trip", "statement": "The Python decoder applied to the bytes of the control-flow log yields exactly the logged sequence of enter/leave/tainted-branch events with function ids and labels, for every sequence of events and every 32-bit value.", "quantifier": "all event sequences and all 32-bit ids/labels", "why_tests_cant": "variable-length encoding over unbounded sequences", "anchors": ["polytracker/include/taintdag/control_flow_log.h: ControlFlowLog", "polytracker/taint_dag.py: TDControlFlowLogSection.__iter__"]}
{"id": "C19", "title": "Variable length integers", "statement": "varint encoding of any 32-bit value uses 1 to 5 bytes, decodes (Python decoder) to the same value whatever follows, and no encoding is a prefix of another.", "quantifier": "all 2^32 values and all suffixes", "why_tests_cant": "tests cover six literals", "anchors": ["polytracker/include/taintdag/control_flow_log.h: detail::varint_encode", "polytracker/taint_dag.py: TDControlFlowLogSection._decode_varint"]}
{"id": "C20", "title": "Bitmap holds exactly the requested bits", "statement": "After any sequence of set and set_range calls that stay inside the bitmap, a bit is set iff some call covered it; the reported size covers every set bit; the Python enumeration of the section yields exactly the set bits in increasing order, unless a set_range call reached into the last bucket. (In that case the size is reported one bucket too large and Python may report bits nobody set.)", "quantifier": "all sequences of set/set_range with arbitrary alignment", "why_tests_cant": "bucket-boundary cases combine with arbitrary histories", "anchors": ["polytracker/include/taintdag/bitmap_section.h: BitmapSection", "polytracker/taint_dag.py: TDBitmapSection.enumerate_set_bits"]}
{"id": "C21", "title": "Concurrent bitmap updates lose nothing", "statement": "For every number of threads and every interleaving of the atomic steps of set/set_range, when all calls have returned every requested bit is set, no other bit is, and the reported size covers all of them. No call waits for another thread: whatever has run before, a thread that runs alone returns from all of its calls.", "quantifier": "all thread counts, programs and schedules", "why_tests_cant": "schedules cannot be enumerated by tests", "anchors": ["polytracker/include/taintdag/bitmap_section.h: set_bits, update_buckets_used"]}
{"id": "C22", "title": "Concurrent allocations are disjoint", "statement": "For every interleaving of concurrent allocations on a section, no two callers get overlapping memory and record indices are unique.", "quantifier": "all schedules", "why_tests_cant": "schedules", "anchors": ["polytracker/include/taintdag/section.h: SectionBase::write"]}
{"id": "C23", "title": "Sink log records exactly the tainted bytes written", "statement": "Writing a buffer to an opened file logs, for exactly those bytes whose label is non-zero, the byte's position in the output stream together with its label, in order; a label-based write advances the stream by its length and logs every position when the label is non-zero; nothing is logged for unopened descriptors.", "quantifier": "all histories of opens and writes while the sink section has room", "why_tests_cant": "all histories and buffers", "anchors": ["polytracker/src/taintdag/polytracker.cpp: taint_sink", "polytracker/include/taintdag/sink.h: TaintSink", "polytracker/include/taintdag/stream_offset.h: StreamOffset"]}
{"id": "C24", "title": "Output stream offsets partition the stream", "statement": "For every schedule of concurrent writers, the offset intervals handed out for one output are pairwise disjoint, gapless from zero, and each as long as its write.", "quantifier": "all schedules of concurrent writes", "why_tests_cant": "schedules", "anchors": ["polytracker/include/taintdag/stream_offset.h: StreamOffset::increase"]}
{"id": "C25", "title": "Descriptor lookup finds the most recent open", "statement": "Looking up a file descriptor yields the most recently registered source with this descriptor, for every history with at most 255 registrations; afterwards newer registrations are silently lost.", "quantifier": "all histories of opens", "why_tests_cant": "descriptor reuse over arbitrary histories", "anchors": ["polytracker/include/taintdag/taint_source.h: SourceSection::add_source, mapping_idx", "polytracker/src/taintdag/polytracker.cpp: open_file"]}
{"id": "C26", "title": "Source label index is exact", "statement": "In every reachable state the source label bitmap has bit l set iff label l is a source taint.", "quantifier": "all API histories", "why_tests_cant": "cross-section invariant over all histories", "anchors": ["polytracker/src/taintdag/polytracker.cpp: create_source_taint", "polytracker/include/taintdag/bitmap_section.h: set_range"]}
{"id": "C27", "title": "Output file layout", "statement": "For every list of sections with valid alignments the sections and the header occupy pairwise disjoint regions inside the file; for the layout PolyTracker ships, every section is aligned as requested. (The general alignment claim is false: the padding is computed wrongly.)", "quantifier": "all section lists / the shipped layout", "why_tests_cant": "the general claim ranges over all section lists", "anchors": ["polytracker/include/taintdag/outputfile.h: OutputFile::do_allocation, required_allocation_size"]}
{"id": "C28", "title": "Header round trip", "statement": "After a clean shutdown the Python reader finds, for every section tag, exactly the offset and the used size that the runtime had for that section.", "quantifier": "all final states", "why_tests_cant": "all combinations of section sizes", "anchors": ["polytracker/include/taintdag/outputfile.h: ~OutputFile, SectionMeta, FileMeta", "polytracker/taint_dag.py: TDFile.__init__"]}
{"id": "C29", "title": "Crash before shutdown", "statement": "If the process dies at any point before the orderly shutdown, the file has a valid header and the reader sees every section as empty rather than seeing garbage.", "quantifier": "every crash point in every history", "why_tests_cant": "crash points", "anchors": ["polytracker/include/taintdag/outputfile.h: OutputFile, ~OutputFile", "polytracker/include/taintdag/storage.h: FixedSizeFile"]}
{"id": "C30", "title": "End to end provenance", "statement": "For every history of runtime API calls followed by shutdown, the input/output mapping computed by the Python analysis from the bytes of the file relates an output position to an input byte iff, by the plain set semantics of the calls, the written value was derived from this input byte.", "quantifier": "all API histories", "why_tests_cant": "composition of every component over all histories", "anchors": ["polytracker/src/taintdag/polytracker.cpp: PolyTracker", "polytracker/taint_dag.py: TDFile", "polytracker/mapping.py: InputOutputMapping.mapping"]}
{"id": "C31", "title": "Inputs affecting control flow, end to end", "statement": "For every history, the set of input bytes that the Python reader reports as affecting control flow is exactly the set of input bytes of labels that were passed to affects_control_flow.", "quantifier": "all API histories", "why_tests_cant": "composition over all histories", "anchors": ["polytracker/taint_dag.py: TDProgramTrace.inputs_affecting_control_flow", "polytracker/include/taintdag/labels.h: affects_control_flow"]}
{"id": "C32", "title": "Cavities are sound and complete", "statement": "The byte ranges reported as cavities of an input file are exactly the maximal runs of offsets below the file size that reach no output and do not affect control flow, when the file was registered once; with several registrations of different size the merge truncates to the shortest.", "quantifier": "all files and markers", "why_tests_cant": "all label tables and file sizes", "anchors": ["polytracker/mapping.py: InputOutputMapping.file_cavities, marker_to_ranges"]}
{"id": "C33", "title": "Taint forest unfolding preserves provenance", "statement": "In the forest produced by the Python reader, the source leaves reachable from the node of a label are exactly the input bytes of the label, every inner node has exactly two existing parents, and synthetic labels are negative and unique.", "quantifier": "all label tables", "why_tests_cant": "arbitrary DAGs", "anchors": ["polytracker/taint_dag.py: TDTaintForest.create_node"]}
{"id": "C34", "title": "Call stacks reconstructed from the control-flow log", "statement": "For every properly nested log, each tainted-branch event is reported with exactly the stack of functions active at that moment; an early exit past several frames is realigned; a leave without matching enter makes the reader fail.", "quantifier": "all logs", "why_tests_cant": "unbounded nesting", "anchors": ["polytracker/taint_dag.py: TDControlFlowLogSection.__iter__, _align_callstack"]}
{"id": "C35", "title": "Shadow memory mapping is injective and separate", "statement": "On the documented x86-64 memory map, distinct application bytes have non-overlapping shadow cells, and shadow cells never overlap application memory or the shadow mapping of other bytes.", "quantifier": "all application addresses", "why_tests_cant": "2^44 addresses", "anchors": ["polytracker/src/compiler-rt/lib/dfsan/dfsan.h: shadow_for", "polytracker/src/compiler-rt/lib/dfsan/dfsan_platform.h"]}
{"id": "C36", "title": "Shadow writes set exactly the addressed bytes", "statement": "dfsan_set_label(l, p, n) makes exactly the n bytes from p carry label l and changes no other byte's label, for all n, including the page-releasing path for label zero.", "quantifier": "all addresses, lengths, labels and prior shadow contents", "why_tests_cant": "page-boundary arithmetic over all alignments", "anchors": ["polytracker/src/compiler-rt/lib/dfsan/dfsan.cpp: SetShadow, dfsan_set_label"]}
{"id": "C37", "title": "Label reads combine all bytes", "statement": "dfsan_read_label(p, n) and the multi-byte load label stand for exactly the union of the input bytes of the n labels read; label zero is the identity and an untainted buffer reads as zero.", "quantifier": "all tables, shadows, addresses and sizes", "why_tests_cant": "all states and sizes", "anchors": ["polytracker/src/compiler-rt/lib/dfsan/dfsan.cpp: __dfsan_union, __dfsan_union_load, dfsan_read_label"]}
{"id": "C38", "title": "Copies carry provenance", "statement": "memcpy/memmove give every destination byte the label of the corresponding source byte (also for overlapping moves) and change nothing else; memset gives all bytes the label of the value; realloc preserves the labels of the bytes it preserves; malloc and free change no label (so a new block may carry the labels of one freed before).", "quantifier": "all addresses and sizes", "why_tests_cant": "all overlaps and sizes", "anchors": ["polytracker/src/compiler-rt/lib/dfsan/dfsan_custom.cpp: dfsan_memcpy, dfsan_memmove, dfsan_memset", "polytracker/src/taint_sources/memory_taints.cpp: __dfsw_realloc, __dfsw_malloc, __dfsw_free"]}
{"id": "C39", "title": "No recording before initialisation", "statement": "Before initialisation has completed every instrumentation callback leaves the recorded state untouched.", "quantifier": "all callbacks and arguments", "why_tests_cant": "all call sequences", "anchors": ["polytracker/src/polytracker/polytracker.cpp"]}
{"id": "C40", "title": "Reads taint exactly the bytes read", "statement": "A successful read/pread/fread of k bytes at file position o from a tracked descriptor labels the first k bytes of the buffer with source labels (file, o), (file, o+1), ... and nothing else; a failed or empty read and reads from untracked descriptors label nothing new; the return value is passed through.", "quantifier": "all libc outcomes, positions, sizes", "why_tests_cant": "all outcomes of the wrapped call", "anchors": ["polytracker/src/taint_sources/taint_sources.cpp: __dfsw_read, __dfsw_pread, __dfsw_fread", "polytracker/src/taintdag/polytracker.cpp: source_taint"]}
{"id": "C41", "title": "Writes log exactly the bytes written", "statement": "A write/fwrite that reports k bytes written logs taint for exactly the first k bytes of the buffer and nothing on failure, and passes the return value through.", "quantifier": "all libc outcomes and buffers", "why_tests_cant": "all outcomes of the wrapped call", "anchors": ["polytracker/src/taint_sources/write_taints.cpp: __dfsw_write, __dfsw_fwrite"]}
{"id": "C42", "title": "Size and offset validation", "statement": "Lengths derived from libc return values are valid exactly when bytes were transferred, products of sizes that do not fit abort instead of wrapping, and negative or too large offsets are rejected.", "quantifier": "all 64-bit values", "why_tests_cant": "all 64-bit values", "anchors": ["polytracker/src/taintdag/util.cpp: Length, Offset"]}
{"id": "C43", "title": "Command line tainting", "statement": "With argv tainting enabled every byte of every argument (terminator excluded) gets the source label argv[i], offset j and no other memory is labelled.", "quantifier": "all argument vectors", "why_tests_cant": "all argument vectors", "anchors": ["polytracker/src/taint_sources/argv.cpp: taint_argv"]}
{"id": "C44", "title": "Instrumentation function ids", "statement": "The control-flow instrumentation gives the functions that have a body the ids 0,1,2,... in module order and embeds in every call it inserts into a function that function's id; the emitted functionid.json parses as JSON to a list in which the entry at that id is the function's name, provided at least one function has a body and no name needs JSON escaping.", "quantifier": "all modules", "why_tests_cant": "the numbering depends on all functions of the module and must agree with the ids embedded in every block", "anchors": ["polytracker/src/passes/tainted_control_flow.cpp: get_or_add_mapping"]}
{"id": "C45", "title": "Instrumented branches keep their condition", "statement": "Routing a branch, switch or index condition through the logging callback leaves its value unchanged for every integer width up to 64 bits; wider conditions lose their upper bits.", "quantifier": "all widths and values", "why_tests_cant": "all widths and values", "anchors": ["polytracker/src/passes/tainted_control_flow.cpp: visitSwitchInst, visitBranchInst, visitGetElementPtrInst", "polytracker/src/polytracker/polytracker.cpp: __dfsw___polytracker_log_tainted_control_flow"]}
{"id": "C46", "title": "Ignore lists", "statement": "For ignore lists that consist of comments, empty lines and lines fun:NAME=CATEGORY (where NAME does not contain 'main' or 'discard'), the ignored functions are exactly those with a line fun:NAME=discard; ignored functions are left unchanged by the branch and the function-trace instrumentation. For arbitrary file contents a name is ignored iff some line, not a comment, contains the word discard, does not contain main, and has the name between its first colon and the following equals sign.", "quantifier": "all file contents", "why_tests_cant": "all file contents", "anchors": ["polytracker/src/passes/utils.cpp: readIgnoreLists", "polytracker/src/passes/taint_tracking.cpp", "polytracker/src/passes/function_tracing.cpp"]}
{"id": "C47", "title": "Concurrent unions are sound", "statement": "For every interleaving of threads creating sources and unions on one table, every returned label stands for exactly the union of the input bytes of its operands, and tables remain acyclic.", "quantifier": "all schedules", "why_tests_cant": "schedules", "anchors": ["polytracker/include/taintdag/labels.h: union_taint, create_source_labels", "polytracker/include/taintdag/section.h: SectionBase::write"]}
{"id": "C48", "title": "Concurrent control-flow marking", "statement": "For every interleaving of threads marking labels, no taint other than the flag changes and after all calls have returned every label reachable from a marked label is flagged.", "quantifier": "all schedules", "why_tests_cant": "schedules", "anchors": ["polytracker/include/taintdag/labels.h: affects_control_flow"]}
{"id": "C49", "title": "Cost of control-flow marking", "statement": "The number of label visits of a single affects_control_flow call is bounded by the number of edges of the taint graph (each label expanded at most once). (False: labels are flagged when taken from the queue, so a label can be queued and expanded many times, exponentially often.)", "quantifier": "all reachable tables", "why_tests_cant": "worst-case cost over all graphs", "anchors": ["polytracker/include/taintdag/labels.h: affects_control_flow"]}
{"id": "C50", "title": "Calls after shutdown", "statement": "After the shutdown handler ran, no callback may touch the destroyed runtime state. (False: the initialised flag stays set.)", "quantifier": "all call sequences around shutdown", "why_tests_cant": "process-exit ordering", "anchors": ["polytracker/src/polytracker/main.cpp: polytracker_end", "polytracker/src/polytracker/polytracker.cpp"]}
{"id": "C51", "title": "Inputs of a trace", "statement": "Iterating over the inputs of the trace of any run yields every registered file from which at least one byte was read, exactly once per registration, with the path, descriptor and size recorded when it was registered, and yields nothing else.", "quantifier": "all API histories", "why_tests_cant": "all histories, all interleavings of registrations and reads", "anchors": ["polytracker/taint_dag.py: TDProgramTrace.inputs", "polytracker/include/taintdag/taint_source.h"]}
{"id": "C52", "title": "Output taints of a trace", "statement": "The output taints the Python reader reports for the trace of any run are, in program order, exactly the tainted bytes that were written: the output file, the position in it, and a label standing for exactly the input bytes the output byte depends on.", "quantifier": "all API histories", "why_tests_cant": "all histories", "anchors": ["polytracker/taint_dag.py: TDProgramTrace.output_taints"]}
{"id": "C53", "title": "String functions carry provenance", "statement": "strdup, strncpy and strcat give every character they copy, and the terminator, the label of the character it was copied from, clear the padding of strncpy and change no other label. (False for strcat: the variant of the sanitizer runtime leaves the terminator's label, the variant of the tracking runtime gives all appended characters and the byte before them the label of the source pointer.)", "quantifier": "all strings, buffers, labels and addresses", "why_tests_cant": "strings have any length and content, and stale labels in the destination only matter for some earlier histories", "anchors": ["polytracker/src/compiler-rt/lib/dfsan/dfsan_custom.cpp: __dfsw_strdup, __dfsw_strncpy, __dfsw_strcat", "polytracker/src/taint_sources/string_taints.cpp: __dfsw_strcat"]}
{"id": "C54", "title": "Whole executions, end to end", "statement": "After any execution of an instrumented program that stays within the limits of the file format and has not shut down yet, shutting down leaves a file that opens, whose reported input/output mapping is exactly the dependence of the written bytes on the bytes read in that execution (through files, streams, argv, mappings, computations and copies), and in which exactly the input bytes that some tainted condition depended on are reported as affecting control flow. The function table and event list name exactly the functions entered and left, and the control-flow log lists exactly the entries, exits and tainted decisions of the execution in order, each decision with its function and a label whose nodes in the file lead to exactly the input bytes it depended on.", "quantifier": "all executions: sequences of library calls, computations, copies, conditions and function events of any length, with any outcome of the operating system", "why_tests_cant": "executions are unbounded and every interleaving of wrappers, computations and conditions can create labels other steps then reuse", "anchors": ["polytracker/src/taint_sources/taint_sources.cpp", "polytracker/src/taint_sources/write_taints.cpp", "polytracker/src/polytracker/polytracker.cpp", "polytracker/src/polytracker/taint_argv.cpp", "polytracker/taint_dag.py: TDProgramTrace"]}
{"id": "C55", "title": "Control-flow instrumentation, from compiler to reader", "statement": "A program instrumented for control flow behaves like the original one (same results, same effects, same decisions) when conditions have at most 64 bits, and every execution reports each function entry, each function exit and each tainted branch, switch, index or select condition of the original execution, in order; the Python reader, given the log and functionid.json, reports these with the names of the functions active at that time, and leaves for the functions still active at the end.", "quantifier": "all programs, inputs and execution lengths (including executions that have not ended)", "why_tests_cant": "must hold for every program the compiler is given and every path through it", "anchors": ["polytracker/src/passes/tainted_control_flow.cpp", "polytracker/src/polytracker/polytracker.cpp: __polytracker_enter_function, __polytracker_leave_function, __dfsw___polytracker_log_tainted_control_flow", "polytracker/taint_dag.py: TDControlFlowLogSection"]}
{"id": "C56", "title": "Branch instrumentation", "statement": "A program instrumented for taint tracking behaves like the original one in which main first hands its argc and argv to the runtime; before each branch, switch and index in functions that are not ignored the runtime is told the condition, and nothing else is reported. The instrumentation is defined exactly when main (unless ignored) has a body and at least two parameters.", "quantifier": "all programs, ignore lists, inputs and execution lengths", "why_tests_cant": "must hold for every program the compiler is given and every path through it", "anchors": ["polytracker/src/passes/taint_tracking.cpp"]}
{"id": "C57", "title": "Function tracing", "statement": "A program instrumented for function tracing behaves like the original one, and the runtime is told each entry and each return of a function that is not ignored, in order and with the function's name (for names shorter than 65536 bytes).", "quantifier": "all programs, ignore lists, inputs and execution lengths", "why_tests_cant": "must hold for every program the compiler is given and every path through it", "anchors": ["polytracker/src/passes/function_tracing.cpp", "polytracker/src/polytracker/polytracker.cpp: __polytracker_log_func_entry, __polytracker_log_func_exit"]}
{"id": "C58", "title": "DFSan instrumentation: same behaviour, and labels are dependences", "statement": "A program instrumented by the DFSan pass behaves like the original one: same control flow, registers and memory at every step. At every step the label kept for every value in use (register of any active function, byte of memory) stands for exactly the input bytes the value depends on: through computations, loads (also through the pointer), stores, selects, copies, calls, returns, phis and libc calls; atomic accesses and arguments after the 200th lose their dependence.", "quantifier": "all programs of the modelled IR, all inputs and results of libc, all execution lengths", "why_tests_cant": "must hold for every program the compiler is given and every path through it", "anchors": ["polytracker/src/passes/DataFlowSanitizer.cpp: DFSanVisitor, DFSanFunction::combineShadows, loadShadowOrigin, storePrimitiveShadowOrigin", "polytracker/src/compiler-rt/lib/dfsan/dfsan.cpp: __dfsan_union, __dfsan_union_load"]}
{"id": "C59", "title": "From program to report", "statement": "The file that an instrumented program leaves behind, opened by the Python reader, reports the data flow of the original program's execution: an output byte is mapped to exactly the input bytes it depends on, the inputs affecting control flow are those that reported conditions depend on, the function table, the events and the control-flow log are those of the execution.", "quantifier": "all programs of the modelled IR, all inputs and results of libc, all execution lengths within the limits of the file", "why_tests_cant": "must hold for every program, input and path", "anchors": ["polytracker/src/passes/DataFlowSanitizer.cpp", "polytracker/src/taint_sources/*.cpp", "polytracker/src/taintdag/polytracker.cpp", "polytracker/taint_dag.py", "polytracker/mapping.py"]}
{"id": "C60", "title": "No data flow is lost by instrumentation", "statement": "The label of a value stands for all input bytes it depends on, also after atomic stores and read-modify-write operations and for every argument of a call.", "quantifier": "all programs of the modelled IR, all executions", "why_tests_cant": "must hold for every program and path", "anchors": ["polytracker/src/passes/DataFlowSanitizer.cpp: visitCASOrRMW, visitStoreInst, getShadowForTLSArgument, visitCallBase"]}
{"id": "C61", "title": "Instrumented programs do not get stuck", "statement": "The runtime starts in every environment, and the instrumented program can perform every execution of the original program, from whatever point it is at: no wrapper, callback or piece of shadow code aborts or is undefined as long as the labels, names, events and log entries the execution needs (one label per byte read, at most one per combination of two values) fit the tables. Hence every such execution ends in a file that reports its data flow.", "quantifier": "all programs of the modelled IR, all inputs and results of libc, all execution lengths within the capacities, all environments", "why_tests_cant": "must hold for every program, path and history; tests exercise a few", "anchors": ["polytracker/src/passes/DataFlowSanitizer.cpp", "polytracker/src/compiler-rt/lib/dfsan/dfsan.cpp", "polytracker/src/taint_sources/*.cpp", "polytracker/src/polytracker/main.cpp: taint_start", "polytracker/src/taintdag/polytracker.cpp"]}
{"id": "C62", "title": "Collections of tainted bytes are sets", "statement": "A Taints collection contains exactly the bytes it was made of, each once; iteration yields the bytes of one source in increasing order; its length, truth value, sources and per-source selection agree with that set; the difference of two collections contains, on each side, exactly the bytes missing from the other.", "quantifier": "all finite collections of bytes of any inputs", "why_tests_cant": "must hold for every set, order and multiplicity", "anchors": ["polytracker/tracing.py: ByteOffset, Taints, TaintDiff"]}
{"id": "C63", "title": "Regions are the runs of tainted bytes", "statement": "The regions of a collection (and of a difference) cover exactly its bytes, are disjoint, not empty, maximal, and in increasing order; a slice of a region covers the named part of it. In particular the regions of the bytes affecting control flow of a trace cover exactly those bytes.", "quantifier": "all collections, all slices, all recorded traces", "why_tests_cant": "depends on every combination of gaps and sources", "anchors": ["polytracker/tracing.py: Taints.to_regions, Taints.regions, TaintDiff, TaintedRegion.__getitem__", "polytracker/taint_dag.py: inputs_affecting_control_flow"]}
{"id": "C64", "title": "Search in tainted bytes is exact", "statement": "A byte sequence is reported to be contained in a collection if and only if it is the content of consecutive tainted bytes of one input; find() yields every occurrence and ends.", "quantifier": "all collections, all file contents, all sequences", "why_tests_cant": "must hold for every content and sequence", "anchors": ["polytracker/tracing.py: Taints.find, Taints.__contains__"]}
{"id": "C65", "title": "Instrumentation by all passes leaves the program's behaviour alone", "statement": "A program built with control-flow logging, taint tracking, function tracing and data-flow instrumentation does what the uninstrumented program does: at every moment its memory, active functions, position and the values of the program's own variables are those of an execution of the original program to which the outside world gives the same answers.", "quantifier": "all programs, ignore lists and choices of passes, all inputs and answers of the outside world, every moment of the execution", "why_tests_cant": "must hold for every program and every execution", "anchors": ["polytracker/src/passes/tainted_control_flow.cpp", "polytracker/src/passes/taint_tracking.cpp", "polytracker/src/passes/function_tracing.cpp", "polytracker/src/passes/DataFlowSanitizer.cpp", "polytracker/build.py"]}
{"id": "C66", "title": "A trace describes the uninstrumented program's execution", "statement": "What is recorded when a program built with all passes runs is what a watcher of the original program's execution would record: labels stand for the bytes values depend on, the reported mapping, control-flow bytes, functions and events, and the control-flow log list exactly the outputs, decisions (branches, switches, indices, selects), calls and returns of that execution, in order; functions of the ignore list are left out of all but the control-flow log.", "quantifier": "all programs, ignore lists and choices of passes, all executions within the limits of the tables", "why_tests_cant": "must hold for every program and every execution", "anchors": ["polytracker/src/passes", "polytracker/src/polytracker/polytracker.cpp", "polytracker/taint_dag.py", "polytracker/mapping.py"]}
{"id": "C67", "title": "Reported call stacks are the call stacks of the program", "statement": "The call stack reported with each entry of the control-flow log consists of exactly the functions of the program, by id or by the names of functionid.json, that were active at that moment, outermost first; when the program has ended nothing is reported as still active.", "quantifier": "all programs that return normally from their functions, all executions, every entry of the log", "why_tests_cant": "must hold for every program, every nesting of calls and every point in the execution", "anchors": ["polytracker/src/passes/tainted_control_flow.cpp", "polytracker/taint_dag.py: TDControlFlowLogSection", "polytracker/taint_dag.py: TDTaintedControlFlowEvent"]}
{"id": "C68", "title": "Instrumented string comparison and search give libc's answers", "statement": "In an instrumented program memcmp, bcmp, strcmp, strncmp, strcasecmp and strncasecmp return zero, a negative or a positive number exactly when libc's do, and strchr returns the position libc returns, whatever bytes the strings hold and whether or not the result is tracked; with valid arguments they return.", "quantifier": "all memories, strings, lengths and characters, both settings of the dependency flag", "why_tests_cant": "must hold for all byte contents, including those above 127, at every position of the first difference", "anchors": ["polytracker/src/compiler-rt/lib/dfsan/dfsan_custom.cpp: __dfsw_memcmp, __dfsw_bcmp, __dfsw_strcmp, __dfsw_strncmp, __dfsw_strcasecmp, __dfsw_strncasecmp, __dfsw_strchr"]}
{"id": "C69", "title": "Results of string functions are labelled with the bytes that were looked at", "statement": "When control dependencies of library functions are tracked, the label of the result of a comparison, a search or strlen stands for exactly the input bytes behind the bytes the function had to look at (and behind the pointers and the character passed); with the default setting a search returns the label of the pointer it searched and a comparison or length returns no label. A number converted from text is always labelled with the characters that were used and the base.", "quantifier": "all label tables, memories, strings, results of libc", "why_tests_cant": "the labels depend on all bytes, on where the function stops and on the history of the label table", "anchors": ["polytracker/src/compiler-rt/lib/dfsan/dfsan_custom.cpp: dfsan_get_memcmp_label, __dfsw_strlen, __dfsw_strchr, __dfsw_memchr, __dfsw_strrchr, __dfsw_strpbrk, __dfsw_strstr, __dfsw_strtol, __dfsw_strtod", "polytracker/src/compiler-rt/lib/dfsan/dfsan_flags.inc: strict_data_dependencies"]}
{"id": "C70", "title": "Formatted printing of instrumented programs is that of libc", "statement": "In an instrumented program sprintf and snprintf leave in the buffer exactly the text libc's functions leave there, truncated to the size given and terminated, change no other byte of the program and return the length of the whole text.", "quantifier": "all formats of the C standard, arguments, buffers, sizes (also too small ones), and whatever libc makes of each directive", "why_tests_cant": "formats, arguments and the point of truncation combine without bound", "anchors": ["polytracker/src/compiler-rt/lib/dfsan/dfsan_custom.cpp: format_buffer, Formatter, __dfsw_sprintf, __dfsw_snprintf"]}
{"id": "C71", "title": "Formatted text carries the labels of what was printed", "statement": "After sprintf or snprintf, a byte of the text that comes from an argument has the label of the argument, a byte of a string printed with %s has the label of that byte of the string, bytes from the format have no label, and no other byte changes its label.", "quantifier": "all formats, arguments, labels, buffers and sizes", "why_tests_cant": "the position of every byte depends on the lengths of all texts before it", "anchors": ["polytracker/src/compiler-rt/lib/dfsan/dfsan_custom.cpp: format_buffer, Formatter::num_written_bytes, __dfsw_sprintf, __dfsw_snprintf"]}
{"id": "C72", "title": "Data from the operating system carries no stale labels", "statement": "When a wrapped system function (stat, poll, select, getsockname, recvmsg, getcwd, time, ...) stores into objects of the program, the bytes stored have no label afterwards, whatever label was there before; no other byte changes its label, and a call that stores nothing changes no label. Bytes computed from bytes of the program (ctime_r, localtime_r, inet_pton) get the labels of those.", "quantifier": "all wrapped functions, arguments, results of the system, memories and labels", "why_tests_cant": "ranges over every result of the system, every layout of buffers and every label that was there before", "anchors": ["polytracker/src/compiler-rt/lib/dfsan/dfsan_custom.cpp: __dfsw_stat, __dfsw_poll, __dfsw_select, __dfsw_getpwuid_r, __dfsw_recvmsg, __dfsw_recvmmsg, clear_msghdr_labels, __dfsw_getsockname, __dfsw_ctime_r, __dfsw_inet_pton"]}
{"id": "C73", "title": "Signals are handled as without instrumentation", "statement": "sigaction and signal in an instrumented program return what they return without instrumentation, and every signal that arrives runs the function the program installed last, with the same number of arguments (or is ignored, or has its default action). While a handler runs, its arguments and the objects they point to carry no labels.", "quantifier": "all kernels, all sequences of sigaction, signal and arriving signals, all handlers, flags and masks", "why_tests_cant": "ranges over every history of installations and deliveries, including failures, one-shot handlers and mixtures of both interfaces", "anchors": ["polytracker/src/compiler-rt/lib/dfsan/dfsan_custom.cpp: SignalHandler, SignalAction, __dfsw_sigaction, dfsan_signal, __dfsw_signal", "polytracker/src/compiler-rt/lib/dfsan/dfsan.cpp: dfsan_clear_arg_tls, dfsan_clear_thread_local_state"]}
{"id": "C74", "title": "An extracted grammar accepts the input it was extracted from", "statement": "The grammar made from a parse tree of an input accepts that input; each function or basic block in the tree derives the bytes that were read below it, and every rule is the sequence of children of some node. Simplifying the tree first does not change the bytes, and the grammar of the simplified tree still accepts them.", "quantifier": "all parse trees of any shape, depth and size, with any bytes at the leaves and any repetition of function and block names", "why_tests_cant": "ranges over every tree a trace can produce, including recursive functions and functions that read in several ways", "anchors": ["polytracker/grammars.py: parse_tree_to_grammar, Rule, Rule.combine_terminals, Production, Production.add", "polytracker/parsing.py: ParseTree.preorder_traversal, ParseTree.matches, MutableParseTree.simplify"]}
{"id": "C75", "title": "Simplifying a grammar does not change what it accepts", "statement": "Grammar.simplify() keeps the language of the start production, and that of every production that remains; productions are only removed where no derivation needs them.", "quantifier": "all grammars, whatever their rules, recursion and order of productions, and all byte strings", "why_tests_cant": "equality of two languages: infinitely many words, for every grammar and every order in which productions are inlined", "anchors": ["polytracker/grammars.py: Grammar.simplify, Grammar.remove, Rule.replace_sub_production, Rule.remove_sub_production, Production.replace_sub_production, Production.remove_recursive_rules, Production.can_produce_terminal, Production._propagate_terminals"]}
{"id": "C76", "title": "A match is a derivation", "statement": "If grammar.match(input) is true, the grammar derives the input from its start production.", "quantifier": "all grammars, all byte strings, all orders in which rules and states are visited", "why_tests_cant": "ranges over all grammars and inputs; the parser shares states between derivations, so that a wrong state shows only for particular combinations", "anchors": ["polytracker/grammars.py: EarleyParser, EarleyQueue, EarleyState and subclasses, Match, Grammar.match"]}
{"id": "C77", "title": "The parser finds every match, and ends", "statement": "For every grammar and input, matching ends; if the grammar derives the input, it is true, otherwise false. In particular the input of a parse tree matches the grammar extracted from it.", "quantifier": "all grammars including recursive and ambiguous ones, all byte strings", "why_tests_cant": "completeness is about every derivation of every input, and termination about every grammar", "anchors": ["polytracker/grammars.py: EarleyParser.parse, EarleyParser._predict, EarleyParser._scan, EarleyParser._complete, EarleyQueue.add, EarleyQueue.complete_state, Production.__eq__, Production.can_produce_terminal"]}
{"id": "C78", "title": "Reusing combined labels never mixes them up", "statement": "Instrumented code reuses labels it has combined before instead of combining them again. On every execution path of a function, also around loops, the label kept for a value whose definition dominates the current block still means exactly the bytes of all its operands, as if every union were computed where it is needed.", "quantifier": "all functions in single-assignment form, all execution paths, all labels of loaded values", "why_tests_cant": "a stale label would show only for particular control-flow graphs and paths; both are unbounded", "anchors": ["polytracker/src/passes/DataFlowSanitizer.cpp: DFSanFunction::combineShadows, DFSanFunction::combineOperandShadows, CachedShadows, ShadowElements, DFSanVisitor::visitPHINode, DataFlowSanitizer::runImpl"]}
{"id": "C79", "title": "The bounded cache forgets only what it must", "statement": "After every history of reads, stores and deletions the cache holds no more than its capacity, a read returns what was stored last for the key, nothing is forgotten while the stored keys fit, and when room is needed exactly one key goes: the one that was read, or newly stored, least recently. A loop over the cache yields every key once and changes nothing.", "quantifier": "all histories of operations, all capacities", "why_tests_cant": "which key is evicted depends on the whole history", "anchors": ["polytracker/cache.py: LRUCache"]}
{"id": "C80", "title": "Ordered sets are sets, in order of insertion", "statement": "After every history of additions and removals an ordered set contains exactly the items added and not removed since, each once, in the order in which they came in; its operators (|, &, -, |=, &=) are those of sets.", "quantifier": "all histories, all operands", "why_tests_cant": "order and membership depend on the whole history", "anchors": ["polytracker/cache.py: OrderedSet", "polytracker/diffing.py: ControlFlowDiff._diff (a user of &=)"]}
{"id": "C81", "title": "Chunks of tainted offsets are exact", "statement": "The chunks reported for a function and a source hold exactly the offsets it touched, in order, and are as long as possible: between two chunks there is an offset that was not touched.", "quantifier": "all lists of offsets, in any order and with repetitions", "why_tests_cant": "ranges over all sets of offsets", "anchors": ["polytracker/cfg.py: FunctionInfo.tainted_chunks, input_chunks, cmp_chunks"]}
{"id": "C82", "title": "Threads do not mix up labels", "statement": "Instrumentation changes nothing a program with several threads computes, in any schedule. If the program has no data race, no thread ever sees a label on a value that does not depend on it, although label and value are read and written by separate instructions; if moreover its atomic writes carry no inputs, the labels of all registers and of memory are exactly the inputs the values depend on.", "quantifier": "all programs, any number of threads, all schedules of the instrumented instructions", "why_tests_cant": "ranges over every interleaving; the windows between an access and the access to its shadow are a few instructions wide", "anchors": ["polytracker/src/passes/DataFlowSanitizer.cpp: DFSanVisitor::visitLoadInst, visitStoreInst, visitCASOrRMW, addAcquireOrdering, addReleaseOrdering"]}
{"id": "C83", "title": "Mutating cavities touches only cavities", "statement": "The copy of a file that mutate_cavities.py writes is as long as the file and differs from it only inside the cavities listed for that file (those that --limit and --skip select); inside them every byte is what the chosen method says (zero, random, reversed, flipped). Without cavities no copy is written.", "quantifier": "all files, cavity lists, methods, limits and numbers to skip", "why_tests_cant": "ranges over all files and lists, including the lines that a failed detection writes", "anchors": ["build_in_docker/mutate_cavities.py: mutate_cavities, iter_cavities", "build_in_docker/file_cavity_detection.py: file_cavity_detection"]}
{"id": "C84", "title": "The cavities that are found can be fed to the mutator", "statement": "Mutating a file with the output of the cavity finder changes all the bytes that are in cavities, and no byte that is used.", "quantifier": "all files and all sets of cavities", "why_tests_cant": "depends on conventions of two programs (ends of ranges, names) meeting for every file", "anchors": ["polytracker/mapping.py: InputOutputMapping.file_cavities, FileCavities.run", "build_in_docker/mutate_cavities.py: iter_cavities, mutate_cavities"]}
{"id": "C85", "title": "Batches process every file once", "statement": "If no task raises, then whatever the order in which tasks end, each file given on the command line or on the standard input is processed exactly once, each result is written exactly once, the number of files is right, and no more than the given number of tasks is waiting.", "quantifier": "all lists of files, all tasks, all orders in which they end", "why_tests_cant": "ranges over every completion order of the thread pool", "anchors": ["build_in_docker/file_cavity_detection.py: process_paths, path_iterator"]}
{"id": "C86", "title": "Cavities are verified one byte at a time", "statement": "Each file that verify_cavities.py tries differs from the input in exactly the byte at the offset under test; offsets are all those listed as cavities and as many others as asked for, none of which is listed; the report counts, for both kinds, how many outputs were the same, different and missing.", "quantifier": "all files, cavity lists, tools, samples", "why_tests_cant": "a statement about all tools and all offsets, with a buffer that is reused from offset to offset", "anchors": ["build_in_docker/verify_cavities.py: verify_in_container", "build_in_docker/mutate_cavities.py: iter_cavity_offsets, FileMutatorInfo, FileMutator, flip_restore"]}
{"id": "C87", "title": "Functions are treated as the ABI list says, however they are called", "statement": "A call or invoke of a function or alias, by its name or through a pointer, runs the function once: the program's own code with the labels of the arguments, or, if the list names it, the native code with the result labelled with the labels of all arguments (functional) or none (discard, no category), or the custom wrapper with the labels of all arguments, which says the label of the result.", "quantifier": "all modules, ABI lists, calls, values, labels and contents of the thread-local arrays", "why_tests_cant": "ranges over all combinations of categories, aliases, types and ways of calling, with labels passed through thread-local arrays that any code may have overwritten", "anchors": ["polytracker/src/passes/DataFlowSanitizer.cpp: isInstrumented, getWrapperKind, buildWrapperFunction, runImpl, visitCallBase, visitWrappedCallBase, getShadowForTLSArgument, visitReturnInst"]}
{"id": "C88", "title": "Callbacks of custom functions keep labels", "statement": "When the wrapper of a custom function calls a function that the program passed to it, that function sees the labels the wrapper gives, and the wrapper gets the label of the result, as in a call by the program.", "quantifier": "all functions, aliases, lists, values and labels", "why_tests_cant": "as C87", "anchors": ["polytracker/src/passes/DataFlowSanitizer.cpp: getOrBuildTrampolineFunction, visitWrappedCallBase"]}
{"id": "C89", "title": "The Datalog program of a grammar recognises what the grammar derives", "statement": "For every grammar and every input, the relation named after a production holds of (i, j), given the clauses made from the grammar and the facts made from the input, if and only if the production derives the bytes of the input from offset i up to offset j; and the clauses can be read by a Datalog engine.", "quantifier": "all grammars, names of productions, inputs and offsets", "why_tests_cant": "an equivalence of two recursive semantics (least model and derivations) over all grammars and inputs; collisions of escaped names", "anchors": ["polytracker/datalog.py: get_valid_datalog_name, DatalogRuleList, DatalogClause, DatalogGrammar, ExtractDatalogCommand"]}
{"id": "C90", "title": "Each instrumented program is made of its own target", "statement": "For every build journal and list of targets, instrument-targets writes for each target a program made of the bitcode of that target, logged for control flow before and instrumented after the optimisation as asked for, with the passes in the right order and with all lists of functions to ignore, linked by the command that built the target with the runtime added; it leaves the targets and all other files unchanged, ends normally if all targets were built, and fails if one was not.", "quantifier": "all journals, lists of targets, options and contents of the file system", "why_tests_cant": "names of targets and journals are arbitrary; clashes between the files of several targets only show for certain combinations of names", "anchors": ["polytracker/build.py: InstrumentTargets.run, _find_target, _lower_bitcode, _instrument_bitcode, _preopt_instrument_bitcode, _extract_bitcode, _optimize_bitcode"]}
{"id": "C91", "title": "Compressing a trace keeps what is in it", "statement": "For every trace file, compress_tdag.py writes a file in which the reader finds the same sections, names and functions as in the input, every section at a multiple of its alignment and after the one before it, and which is no longer than the header, the used bytes and the alignment gaps.", "quantifier": "all trace files with any number of sections of any size and alignment, in particular the files of all runs of the runtime", "why_tests_cant": "whether sections overlap depends on sizes modulo alignments; a wrong rounding only shows for some totals of name lengths", "anchors": ["examples/analysis/ubet/compress_tdag.py: main, compact_section, copy_section"]}
{"id": "C92", "title": "Comparing control-flow logs shows both and pairs what matches", "statement": "For every two recorded runs, compare_cflog shows every tainted record of both logs exactly once and in order, with its call stack and the sorted offsets of the input bytes it depended on; two records stand side by side only if they depended on the same bytes, and a record that is present in both logs is found again after any number of records that only one log has.", "quantifier": "all pairs of runs with any logs of nested calls", "why_tests_cant": "whether the search resynchronises depends on how many records precede and follow; the offsets are collected over label graphs of any shape", "anchors": ["examples/analysis/ubet/eval_nitro.py: compare_cflog, get_cflog_entires, input_offsets, input_set"]}
{"id": "C93", "title": "Comparing input and output mappings reports every difference", "statement": "For every two recorded runs, comparing the mappings reports exactly the output positions whose input bytes differ and the input bytes whose output positions differ, each once and with both sets; comparing the inputs used reports the input bytes only the second run used.", "quantifier": "all pairs of runs", "why_tests_cant": "the relation is computed from label graphs of any shape and size", "anchors": ["examples/analysis/ubet/eval_nitro.py: OutputInputMapping, compare_input_output, compare_output_input, compare_inputs_used"]}
{"id": "C94", "title": "The parse tree extracted from a trace spells its input", "statement": "For every trace with one input, the extraction returns a parse tree whose leaves, from left to right, are exactly the bytes of the input, in which the range of every node is made up of those of its children in order, and whose other nodes are the calls and basic blocks of the trace, in its order, each with the range it read; the grammar extracted from the tree accepts the input. A byte read by several goes to the last reader.", "quantifier": "all traces: any nesting of calls, any blocks, any regions read, any input", "why_tests_cant": "ranges are cut and filled recursively in trees of any depth and width; overlaps of any shape occur", "anchors": ["polytracker/parsing.py: trace_to_tree, trace_to_non_generalized_tree, NonGeneralizedParseTree", "polytracker/grammars.py: parse_tree_to_grammar"]}
{"id": "C95", "title": "The exported taint forest is the provenance of the run", "statement": "For every run, the graph exported from its trace has one node per label of the taint forest and one edge from each parent of a label to the label; it has no cycle; the nodes nothing points to are the label 0 and the labels of single input bytes; the input bytes of a label are those of the such nodes from which a path leads to it. The drawing shows each node once, captioned with its label, square exactly if nothing points to it, shows each edge once, and orders the square nodes by label.", "quantifier": "all runs of the instrumented program and all states of the forest, whatever nodes were asked for before", "why_tests_cant": "the graph is built while nodes are created on demand, including synthetic nodes for ranges of any length; the graphs have any size and depth", "anchors": ["polytracker/taint_forest.py: TaintForest.to_graph, ExportTaintForest.run", "polytracker/graphs.py: DiGraph.roots, DiGraph.to_dot", "polytracker/taint_dag.py: TDTaintForest.nodes, TDTaintForestNode.parent_one, TDTaintForestNode.parent_two"]}
{"id": "C96", "title": "Comparing ABI lists finds the conflicts, and choosing a list makes it win", "statement": "For any two ABI lists, the comparison succeeds exactly if neither list says twice how a function is wrapped and both say the same of the functions they share, and otherwise names exactly the functions concerned; then the pass wraps each function as either list says. Choosing one list comments out, in the other, exactly the lines of the functions on which they disagree and changes nothing else; doing it again changes nothing; afterwards each function of the chosen list is treated by the pass as that list says.", "quantifier": "all pairs of list files, all choices, all functions", "why_tests_cant": "the lists have thousands of generated lines in any order, with repeated, conflicting and malformed entries", "anchors": ["polytracker/scripts/track_list_diff.py: analyze_abi_file, list_diff, auto_resolve_conflicts, main", "polytracker/src/passes/DataFlowSanitizer.cpp: DFSanABIList, getWrapperKind"]}
{"id": "C97", "title": "Navigation in a trace follows the calls that were made", "statement": "For every trace of a thread, whether it ended normally or was cut off: the calls of an invocation are the calls it made, in order; its basic blocks are those entered in it and not in functions it called, in order; iterating over it yields both, in order; the caller of a function is the block that was current when it was called; the number of earlier entries of a block counts those of the same invocation; a function returns to the block entered next in its caller; the next function can always be found.", "quantifier": "all runs of a thread as trees of calls of any depth, with calls that never returned, and all events in them", "why_tests_cant": "nesting, recursion and the point at which the trace is cut off are unbounded; entries and returns must be matched across any number of events in between", "anchors": ["polytracker/tracing.py: TraceEvent.next_control_flow_event, TraceEvent.previous_control_flow_event, FunctionEntry.caller, FunctionEntry.entrypoint, BasicBlockEntry.entry_count, BasicBlockEntry.called_function, BasicBlockEntry.next_basic_block_in_function, FunctionReturn.returning_to, FunctionInvocation.calls, FunctionInvocation.basic_blocks, FunctionInvocation.__iter__, ProgramTrace.next_function_entry"]}
{"id": "C98", "title": "The summaries of a trace say how the input was read", "statement": "For every sequence of accesses and every input: the input properties list exactly the offsets that were never read, exactly the offsets first read before the offset in front of them, and exactly the steps back to a smaller offset; they are true if and only if all bytes were read and offsets never went down. The taints of a set of nodes of the taint forest are the input bytes their labels stand for.", "quantifier": "all sequences of accesses of any length, inputs of any size, and all nodes of the taint forest of every run", "why_tests_cant": "the order and repetition of accesses is unbounded; inputs that were only partly read are the common case and any byte may be the unread one", "anchors": ["polytracker/tracing.py: ProgramTrace.input_properties, ProgramTrace.taints", "polytracker/inputs.py: InputProperties", "polytracker/taint_forest.py: TaintForestNode.__eq__"]}
{"id": "C99", "title": "A grammar extracted from the events of a trace accepts what the trace consumed", "statement": "For every trace, extracting a grammar from its events either has nothing to extract or ends with a grammar whose names all have productions and whose productions are all reached from the start, and which accepts the bytes that the traced run consumed.", "quantifier": "all trees of function calls of any depth and width, with any number of basic blocks per call, any consumed tokens and any names", "why_tests_cant": "the shape of the call tree, recursion, repeated calls and blocks, and which calls consumed nothing vary without bound; the failing cases depend on two properties of one call deep in the tree", "anchors": ["polytracker/grammars.py: trace_to_grammar, extract, Grammar.verify, Grammar.dependency_graph, Grammar.find_disconnected, Production, Rule", "polytracker/datalog.py: DatalogGrammar"]}
{"id": "C100", "title": "Mapped memory starts without taint and unmapping affects nothing else", "statement": "After any sequence of mappings, unmappings and labellings of memory, a byte carries the taint it was given last since its page was last mapped or unmapped, freshly mapped pages carry none, and a call that fails changes no taint. This holds also when other threads map and unmap memory at the same time.", "quantifier": "all sequences of mapping, unmapping and labelling calls with any addresses and lengths, any outcome of each, and all interleavings of the steps of two threads", "why_tests_cant": "it depends on the whole history of each page, on lengths that are not multiples of the page size, on failing system calls, and on a window of a few instructions between two threads", "anchors": ["polytracker/src/compiler-rt/lib/dfsan/dfsan_interceptors.cpp: mmap, mmap64, munmap", "polytracker/src/taint_sources/taint_sources.cpp: __dfsw_mmap, __dfsw_munmap"]}
{"id": "C101", "title": "The diff of two traces reports exactly what differs", "statement": "For every two traces, the diff names exactly the functions that ran in one of them alone, gives for each function of both the exact bytes that only one of its runs operated on, and reports exactly the input bytes that only one trace touched, in order and without overlaps; it is empty only if the traces do not differ.", "quantifier": "all pairs of traces with any functions, inputs and sets of touched bytes", "why_tests_cant": "the regions of the two traces can overlap in every possible way, over any number of functions and inputs", "anchors": ["polytracker/diffing.py: TraceDiff, _diff_bytes, _diff_functions, functions_in_both, input_chunks_only_in_first, __bool__, __str__"]}
{"id": "C102", "title": "The context of a region shows its bytes and marks exactly them", "statement": "For every file and region, the printed context shows bytes of the file unambiguously, the marks under it are under exactly the bytes of the region (up to the maximum), and the bytes of the region that are not shown are counted.", "quantifier": "all file contents, offsets and lengths, including regions at or beyond either end of the file, and all context sizes", "why_tests_cant": "the width of the text of each byte varies, and the start, the end of the file and the maximum cut the context in different ways", "anchors": ["polytracker/diffing.py: print_file_context"]}
{"id": "C103", "title": "The image of a diff has a pixel for every byte, coloured by who touched it", "statement": "For every two traces the image has a pixel for each byte of the inputs, and its colour tells whether both traces, one of them or none touched it.", "quantifier": "all pairs of traces, all inputs and sizes", "why_tests_cant": "the size of the image is rounded, and every offset of every size of input has to have a pixel within it", "anchors": ["polytracker/diffing.py: TraceDiff.to_image", "polytracker/visualizations.py: file_diff"]}
{"id": "C104", "title": "Network connections are recorded under names of their own", "statement": "Every connection an instrumented program accepts or makes is recorded as a source whose name tells both end points, so that different connections have different names; the program sees what accept or connect return, calls that fail are not recorded, and recording a connection never ends the program.", "quantifier": "all end points and descriptors, all states of the runtime, all answers of the kernel", "why_tests_cant": "names are built from two addresses and ports; that no two of the 2^96 pairs share a name, and what happens when a peer is gone at the wrong moment, cannot be tried out", "anchors": ["polytracker/src/taint_sources/taint_sources.cpp: connect_name, __dfsw_accept, __dfsw_accept4, __dfsw_connect"]}
{"id": "C105", "title": "Threads run as without instrumentation and leave nothing behind", "statement": "A thread of an instrumented program calls its start routine once with its argument and the label of that; during its life, including the destructors of its thread specific data, it finds its own record, and whether a signal handler runs is known; when it is gone its record is gone, and the runtime never uses a record that is gone.", "quantifier": "all interleavings of creations (also failing ones), starts, signals, ends and passes of destructors of any number of threads, all addresses of records including reused ones", "why_tests_cant": "ranges over all schedules of threads, signals and destructors, and over the reuse of memory", "anchors": ["polytracker/src/compiler-rt/lib/dfsan/dfsan_thread.cpp: Create, Destroy, ThreadStart, SetCurrentThread, DFsanTSDDtor", "polytracker/src/compiler-rt/lib/dfsan/dfsan_custom.cpp: dfsan_pthread_create, DFsanThreadStartFunc, SignalHandlerScope"]}
{"id": "C106", "title": "Questions about a graph are answered for the graph as it is", "statement": "Whatever nodes and edges were added to a graph, in whatever order and with whatever questions in between, the length of a shortest path, the roots, the depth of a node, its ancestors and descendants are those of the graph as it is; contraction merges exactly the nodes with one predecessor, independently of order; a union has the nodes and edges of both.", "quantifier": "all sequences of edits and questions, all graphs, all orders of iteration", "why_tests_cant": "quantifies over all graphs and all histories of edits and cached answers", "anchors": ["polytracker/graphs.py: DiGraph.path_length, roots, set_roots, depth, ancestors, descendants, has_one_predecessor, contract, union"]}
{"id": "C107", "title": "Dominators, loop entries and conditionals", "statement": "The dominator forest of a graph leads from a node to those it immediately dominates, so that the ancestors of a node in it are its strict dominators, closest first; a basic block is called a loop entry if and only if it is entered by a loop, and a conditional if and only if it has more than one successor in its function without being one.", "quantifier": "all graphs, all control flow graphs of functions and blocks", "why_tests_cant": "domination speaks about all paths of all graphs", "anchors": ["polytracker/graphs.py: DiGraph.dominator_forest, ancestors", "polytracker/tracing.py: ProgramTrace.cfg, BasicBlock.is_loop_entry, is_conditional"]}
{"id": "C108", "title": "The first function whose control flow differs", "statement": "For a function that ran in two traces, the comparison of their control flow reports the closest function that dominates it in both and operated on different input bytes, and nothing if there is none.", "quantifier": "all pairs of traces, all graphs of calls, all names", "why_tests_cant": "ranges over all pairs of call graphs and the paths in them", "anchors": ["polytracker/diffing.py: ControlFlowDiff", "polytracker/tracing.py: function_cfg, Taints"]}
{"id": "C109", "title": "Wrappers of custom functions get every argument, its label and a place for the label of the result", "statement": "A call of a custom function becomes a call of its wrapper whose arguments are, in the documented order, the arguments (functions with a trampoline before them), the labels of all of them, the labels of the variable ones, the place for the label of the result and the variable arguments; their types are those the wrapper is declared with, their attributes those they had; and the label of the result is what the wrapper put there.", "quantifier": "all types of functions, with any number of parameters, functions among them, variadic or not, with or without result; all calls and attributes; all sequences of calls in a function", "why_tests_cant": "positions shift with every parameter that is a function; all combinations of types are infinitely many", "anchors": ["polytracker/src/passes/DataFlowSanitizer.cpp: getCustomFunctionType, getTrampolineFunctionType, transformFunctionAttributes, addShadowArguments, visitWrappedCallBase"]}
{"id": "C110", "title": "Labels keep their meaning when the program forks", "statement": "In a traced program that forks, every label that a process holds means exactly the bytes from which that process (or its ancestors) made it, and a reader of the file gets all of them, whichever process exits last.", "quantifier": "all histories of any number of processes that read, unite and mark labels, fork, exit or are killed, in any order", "why_tests_cant": "depends on the order in which processes run; a test sees one order", "anchors": ["polytracker/src/compiler-rt/lib/dfsan/dfsan_custom.cpp: __dfsw_fork", "polytracker/include/taintdag/storage.h: MMapFile", "polytracker/include/taintdag/section.h: SectionBase", "polytracker/include/taintdag/outputfile.h: ~OutputFile", "polytracker/src/polytracker/main.cpp: polytracker_end"]}
{"id": "C111", "title": "The partial parse trees of a fragment are enumerated exactly", "statement": "find_partial_trees(fragment) enumerates all partial parse trees of the grammar that produce the fragment, and nothing else: every tree spells the fragment and can go on to an accepted input, every accepted input that starts with the fragment is represented, and the enumeration ends.", "quantifier": "all grammars, recursive ones and ones with empty rules included, and all fragments", "why_tests_cant": "grammars and fragments are infinitely many, and a search with backtracking may miss or repeat some only in rare combinations", "anchors": ["polytracker/grammars.py: Grammar.find_partial_trees, Production.partial_match, PartialMatch", "polytracker/parsing.py: ImmutableParseTree"]}
{"id": "C112", "title": "Labels that a program creates for itself are new", "statement": "Every label returned by dfsan_create_label differs from every other label in the process, those of input bytes and unions included, and is never 0; dfsan_get_label_count is the number of labels allocated; data marked with such a label can be combined with other labelled data.", "quantifier": "all numbers of threads, all interleavings of their calls, all histories of reads and unions before", "why_tests_cant": "schedules and histories are unbounded, and the last labels are only reached after four billion calls", "anchors": ["polytracker/src/compiler-rt/lib/dfsan/dfsan.cpp: dfsan_create_label, dfsan_check_label, dfsan_get_label_count, dfsan_union", "polytracker/src/compiler-rt/include/sanitizer/dfsan_interface.h"]}
{"id": "C113", "title": "The verification of a file's cavities tells whether they matter", "statement": "verify_cavities reports OK for a file exactly if the original output exists and is not empty, some byte was mutated, and the tool makes an output of the mutated file with the checksum of the original output; it reports a difference exactly if that output's checksum differs, and a missing output exactly if the tool writes none. Only the mutated file and its output are written.", "quantifier": "all input files, cavity lists, mutation methods, limits and skips, all tools and all contents of the results directory", "why_tests_cant": "the directory's history, the tool and the names of the files are arbitrary", "anchors": ["polytracker/build_in_docker/verify_cavities.py: verify_cavities, result_file", "polytracker/build_in_docker/mutate_cavities.py: target_path, method_mapping"]}
{"id": "C114", "title": "The summary of verifications shows the totals of all files", "statement": "The summary shows the number of files, files without cavities and files with errors, and the sums, averages and percentages of the sizes and mutations over the verified files; the shares of other bytes with and without effect add up to 100 percent; it is printed whatever the results are.", "quantifier": "all lists of verification results", "why_tests_cant": "any number of files with any counts", "anchors": ["polytracker/build_in_docker/cavity_results.py: main"]}
{"id": "C115", "title": "polytracker info shows the recorded run", "statement": "For the file of any run, polytracker info ends normally with any choice of options; it prints the number of labels, and as asked for one numbered line per input or output file and per function, one line per tainted output byte with its position and its label's node, one line per label with a node that says what it was made from, one line per function event and one per control-flow log entry with the functions active then, all in the order of the run.", "quantifier": "all runs (sequences of runtime calls of any length) and all combinations of options", "why_tests_cant": "runs are unbounded; every label, event and log entry must be decoded right", "anchors": ["polytracker/taint_dag.py: TDInfo, TDFile.decode_node, TDEvent.Kind"]}
{"id": "C116", "title": "Bytes shown in messages can be told apart and are pointed at", "statement": "The text of a terminal symbol consists of printable characters, ends where it seems to end, and is different for different byte strings; the excerpt shown for an offset in an error message contains the byte at that offset and its neighbours, and the marks in the second line stand exactly below the characters for that byte.", "quantifier": "all byte strings, all offsets, all lengths of the excerpt", "why_tests_cant": "byte strings and offsets are unbounded; escapes of different lengths shift the marks", "anchors": ["polytracker/parsing.py: escape_byte, highlight_offset, Terminal.__str__"]}
{"id": "C117", "title": "Parse trees are traversed, cloned, counted and shown completely", "statement": "The traversals of a parse tree end and visit each node once, in the order they are named after; a clone equals the tree; the number of descendants is that of the nodes below; the text of a tree tells which tree it is.", "quantifier": "all trees, all values, all sequences of asking for the number and adding children", "why_tests_cant": "trees have any depth and width; the loops use explicit stacks, and numbers are remembered", "anchors": ["polytracker/parsing.py: ParseTree.preorder_traversal, ParseTree.postorder_traversal, ParseTree.leaves, ParseTree.to_dag, ParseTree.descendants, ParseTree.__str__, ImmutableParseTree.clone, MutableParseTree.add_child"]}
{"id": "C118", "title": "Every byte of the application has a label of its own, and all can be forgotten", "statement": "On every supported platform, instrumented code and the runtime agree on where the label of a byte is kept, the labels of different bytes of the application are kept apart from each other and from its memory, and dfsan_flush (also used at the start) forgets the labels of all of them and changes nothing else.", "quantifier": "all platforms, all addresses, all contents of memory", "why_tests_cant": "address spaces have 2^39 to 2^48 bytes and tests run on one platform", "anchors": ["polytracker/src/compiler-rt/lib/dfsan/dfsan_platform.h", "polytracker/src/compiler-rt/lib/dfsan/dfsan.h: shadow_for", "polytracker/src/compiler-rt/lib/dfsan/dfsan.cpp: dfsan_flush, dfsan_init, UnusedAddr", "polytracker/src/passes/DataFlowSanitizer.cpp: getShadowOffset, getShadowAddress, init"]}
{"id": "C119", "title": "The environment variables do what is documented, and the program's output stays its own", "statement": "POLYDB names the trace file (polytracker.tdag if unset); a standard stream is tracked, or the arguments are tainted, if and only if its variable is set to 1; what is printed about the settings agrees with what is in effect; and the output of the traced program is that of the program.", "quantifier": "all environments", "why_tests_cant": "the values of the variables are arbitrary text", "anchors": ["polytracker/src/polytracker/main.cpp: polytracker_parse_env, set_defaults, polytracker_print_settings, sink_streams, stdin_source, taint_start", "README.md: Environment Variables"]}
{"id": "C120", "title": "No optimisation may take the calls that carry labels for calls without effect", "statement": "After instrumentation, a call of a wrapper or an instrumented function carries no attribute that lets the optimiser assume that it leaves labels alone, a call that records an event carries none that lets it be dropped, and nothing else about the program changes.", "quantifier": "all modules, functions, calls and attributes", "why_tests_cant": "which attributes meet depends on the program and on the optimiser", "anchors": ["polytracker/src/passes/remove_fn_attr.cpp", "polytracker/src/passes/DataFlowSanitizer.cpp: visitWrappedCallBase, buildWrapperFunction, addGlobalNamePrefix", "polytracker/src/passes/tainted_control_flow.cpp: declareLoggingFunctions", "polytracker/build.py: _preopt_instrument_bitcode, _optimize_bitcode, _instrument_bitcode"]}
{"id": "C121", "title": "The lists made from a library have its functions, and no others", "statement": "The list generated from a library marks every function that other code can call as uninstrumented and discard, under its name in the source program, once, and nothing else; the list for libc++ has the functions of its ABI library and those that libc++ needs from elsewhere; the difference of two lists has the entries whose function the first does not mention.", "quantifier": "all libraries: any number of symbols with any names, sizes, sections, bindings and visibilities; all lists", "why_tests_cant": "the scripts read fixed columns of readelf's output, which hold for the libraries tried", "anchors": ["polytracker/scripts/create_stublist.py: defined_function_list", "polytracker/scripts/libcxx_tracklist.py: undefined_function_list", "polytracker/scripts/list_diff.py", "polytracker/src/compiler-rt/lib/dfsan/scripts/build-libc-list.py"]}
{"id": "C122", "title": "The bytes of a cavity are shown and marked exactly", "statement": "polytracker cavities --print-bytes shows, for each cavity, the at most ten bytes before it, the bytes inside and the at most ten bytes behind it as printable text that determines them, and puts a mark under every character that stands for a byte inside, and nowhere else.", "quantifier": "all file contents and all cavities", "why_tests_cant": "the width of the text of a byte depends on the byte; all sequences of bytes can occur", "anchors": ["polytracker/mapping.py: ascii, FileCavities.run"]}
{"id": "C123", "title": "A match gives one answer however often and in whatever way it is asked", "statement": "The object returned by Grammar.match may be asked by bool, by parse_tree and by iteration, in any order and any number of times: every question gets the same answer, which says whether the grammar accepts the input.", "quantifier": "all grammars, all inputs and all sequences of questions put to one match", "why_tests_cant": "the object keeps state, so that all histories of questions matter, for all grammars and inputs", "anchors": ["polytracker/grammars.py: Match, EarleyParser.parse, EarleyParser.parse_trees"]}
{"id": "C124", "title": "Defined commands are run by their names, with their extensions", "statement": "Defining a Command, Subcommand or CommandExtension as documented makes it available: polytracker with the words of a command or subcommand runs exactly that class and then each of its extensions once, in the order of definition, and exits with the result of the command; other words run nothing; classes called by different words do not clash; a class whose definition fails has no effect.", "quantifier": "all sequences of class definitions and all command lines", "why_tests_cant": "plugins may be defined in any number and order, with any names, by code that is not part of the project", "anchors": ["polytracker/plugins.py: PluginMeta, AbstractCommand, CommandExtensionMeta, CommandExtension, Subcommand, add_command_subparsers", "polytracker/__main__.py: main"]}
{"id": "C125", "title": "A container is started as asked and only from an image that is up to date", "statement": "DockerContainer.run and polytracker docker run start a container with exactly the given mounts, environment and command words, from an image that exists; with the check for old images it is refused exactly if a file of PolyTracker was changed after the image was built.", "quantifier": "all mounts, environments and words, all images and files, all histories of runs, rebuilds and changes of files", "why_tests_cant": "paths, values and words are arbitrary, and the object keeps state between runs", "anchors": ["polytracker/containerization.py: DockerContainer.run, DockerContainer.out_of_date_sources, DockerRun.run_on"]}
{"id": "C126", "title": "Completions at the prompt fit what was typed and are complete", "statement": "The completions offered at PolyTracker's prompt only add to the text before the cursor, no name is offered twice, and every command, variable, builtin and public attribute that continues what is being typed is offered.", "quantifier": "all sets of commands, variables and attributes, all lines and positions of the cursor", "why_tests_cant": "lines and names are arbitrary, and several sources of names overlap", "anchors": ["polytracker/repl.py: PolyTrackerCompleter"]}
{"id": "C127", "title": "The progress of a container's build follows the lines of the Dockerfile", "statement": "The Dockerfile's length is its number of lines, and the line reported for a build step is the first line from the given one on that holds its command, or none if there is no such line.", "quantifier": "all Dockerfiles, commands and lines to start from", "why_tests_cant": "files of arbitrary length with arbitrary, repeated and unterminated lines", "anchors": ["polytracker/containerization.py: Dockerfile.__len__, Dockerfile.get_line, DockerContainer.rebuild"]}
{"id": "C128", "title": "An interactive session survives errors and runs its exit functions", "statement": "A session at PolyTracker's prompt goes on after interrupts and failing lines until the user leaves; then every function registered to run on exit is run once for each registration and in that order; and the current instance is a running session exactly while one runs.", "quantifier": "all sequences of lines, interrupts and exits, all registered functions, all nestings of sessions", "why_tests_cant": "sessions are arbitrarily long, functions register further functions while the list is being run through, and sessions can be started from within sessions", "anchors": ["polytracker/repl.py: PolyTrackerREPL.run, run_on_exit, current_instance"]}
{"id": "C129", "title": "Versioned symbols follow the renaming of instrumented functions", "statement": "When an instrumented function gets its dfs$ name, every .symver directive for it in the module's assembly names the instrumented function and version afterwards, and all other assembly stays as it is.", "quantifier": "all functions and all module assembly", "why_tests_cant": "assembly text is arbitrary; names can be parts of other names and have several versions", "anchors": ["polytracker/src/passes/DataFlowSanitizer.cpp: DataFlowSanitizer::addGlobalNamePrefix"]}
{"id": "C130", "title": "Origins follow tainted bytes when memory is labelled and copied", "statement": "With origin tracking, labelling a range sets the origin of exactly the four-byte groups it meets, and after a memory copy or move each tainted byte's group has an origin chained to that of the group the byte came from, whether the ranges overlap or not, while other origins stay as they are; the origin read for a range is that of its first tainted byte.", "quantifier": "all addresses, alignments, sizes and overlaps, all labels and origins", "why_tests_cant": "depends on the alignment of source, destination and size, on overlap and on which bytes are tainted", "anchors": ["polytracker/src/compiler-rt/lib/dfsan/dfsan.cpp: SetOrigin, CopyOrigin, ReverseCopyOrigin, MoveOrigin, dfsan_read_origin_of_first_taint, __dfsan_mem_origin_transfer"]}
{"id": "C131", "title": "The history of a tainted value records its stores, up to the limits", "statement": "With origin tracking, storing a tainted value adds the stack of the store to the front of the value's history, unless the history already has as many stores as the limit set (and at most sixteen if a limit is set), the stack cannot be kept or was used more often than the limit per stack; then the value keeps its history. Histories of other values never change, every history is unique and ends, and the initial origin is the one of the first store.", "quantifier": "all limits, all sequences of stores of values with any of the origins made so far", "why_tests_cant": "holds for every order of stores, sharing of stacks and settings of the limits", "anchors": ["polytracker/src/compiler-rt/lib/dfsan/dfsan_origin.h: Origin::CreateChainedOrigin, getNextChainedOrigin", "polytracker/src/compiler-rt/lib/dfsan/dfsan.cpp: dfsan_get_init_origin", "polytracker/src/compiler-rt/lib/sanitizer_common/sanitizer_chained_origin_depot.cpp: Put, Get"]}
{"id": "C132", "title": "The report of an origin tells the whole history of a tainted byte", "statement": "With origin tracking, the report of a tainted byte has its label and then one message per store in the history of the byte's origin, the latest first; each message's origin has the rest of the messages as its history, exactly the last message says that the value was created there, and it shows the byte's initial origin. Without tracking, for an untainted byte or one without origin the report says so and the initial origin is 0.", "quantifier": "all sequences of stores and limits, all contents of memory and all addresses", "why_tests_cant": "holds for histories of every length and sharing of origins", "anchors": ["polytracker/src/compiler-rt/lib/dfsan/dfsan.cpp: dfsan_print_origin_trace, dfsan_get_init_origin"]}
{"id": "C133", "title": "Every tainted byte has an origin", "statement": "With origin tracking, after any sequence of labelling and storing, every tainted byte has an origin with a history; a byte just labelled has the stack of that call as its whole history, and a byte just stored has the stack of the store in front of the history of the value stored, unless that is full.", "quantifier": "all sequences of dfsan_set_label, dfsan_add_label and instrumented stores, all labels, stacks, addresses and sizes", "why_tests_cant": "an invariant over all histories of labelling and storing, with groups of bytes sharing an origin", "anchors": ["polytracker/src/compiler-rt/lib/dfsan/dfsan.cpp: ChainOrigin, dfsan_set_label, dfsan_add_label, __dfsan_maybe_store_origin, SetShadow", "polytracker/src/passes/DataFlowSanitizer.cpp: DFSanFunction::storeOrigin"]}
{"id": "C134", "title": "A loaded value has the label and the origin of its bytes", "statement": "With origin tracking, a value loaded from memory has a label that stands for exactly the sources of its bytes' labels, and the origin of its first tainted byte.", "quantifier": "all addresses, sizes, alignments, labels and origins", "why_tests_cant": "depends on the size and alignment of the load and on which bytes are tainted", "anchors": ["polytracker/src/compiler-rt/lib/dfsan/dfsan.cpp: __dfsan_load_label_and_origin, __dfsan_union_load", "polytracker/src/passes/DataFlowSanitizer.cpp: DFSanFunction::loadShadowOrigin, useCallbackLoadLabelAndOrigin"]}
{"id": "C135", "title": "A computed value has the origin of a tainted operand", "statement": "With origin tracking, a value computed from operands has the origin of its last tainted operand, so that it is not 0 if tainted operands have origins, and never an origin that is not one of the operands'.", "quantifier": "all numbers of operands, labels and origins", "why_tests_cant": "holds for every number and mixture of tainted, untainted and constant operands", "anchors": ["polytracker/src/passes/DataFlowSanitizer.cpp: DFSanFunction::combineOrigins, combineOperandOrigins"]}
