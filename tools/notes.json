{
 "C07": {
  "note": "Offsets beyond 2^54 and requests whose byte size overflows are refuted, as the statement says."
 },
 "C12": {
  "note": "Union part proved; for source labels the undefined behaviour is proved, as the statement says."
 },
 "C35": {
  "note": "Holds for the application region of the x86-64 map; the cells of its upper half lie outside the documented shadow region (C35_documented_region_refuted) and addresses below the application region share cells with it (C35_low_addresses_refuted)."
 },
 "C36": {
  "note": "The statement says 'for all n'; it is false of the code in one case, so this is partial. The side condition excludes clearing a range that ends at 0x800000000000, for which the code releases application memory (C36_last_byte_refuted).",
  "status": "partial"
 },
 "C37": {
  "note": "After initialisation (before it every union is 0, see C39). The OR-combining variants do not have the property (C37_or_load_refuted)."
 },
 "C38": {
  "note": "realloc labels new_size bytes, so growth copies labels of unrelated memory (C38_realloc_growth_refuted); a failing realloc touches unmapped shadow (C38_realloc_failure_refuted)."
 },
 "C53": {
  "note": "The statement is false of the code for strcat, so this is partial. strdup and strncpy proved in full; strcat: characters proved for the sanitizer variant, the rest of the statement is false and refuted.",
  "status": "partial"
 },
 "C49": {
  "note": "REFUTED, not proved: the stated bound is false of the code. The documented bound is false, so the theorem refutes it: a family of API-built tables with 6n+6 labels, no label with more than two components, needs at least 2^n - 1 loop iterations (C49_exponential_refuted), so more than one per label (C49_once_refuted). C49_finishes gives the true upper bound 2^l.",
  "status": "partial"
 },
 "C39": {
  "note": "Callbacks: proved for every sequence of callbacks from process start (C39_no_recording, C39_callbacks_return). Two defects: the control-flow callback replaces every condition by 0 before initialisation (C39_condition_refuted), and the libc wrappers are not guarded at all (C39_wrappers_refuted)."
 },
 "C40": {
  "note": "Proved except where the code violates the statement, so this is partial. Total correctness of read/recv/recvfrom, pread, fread, getc, fgets/gets, getdelim and mmap wrappers after any history of calls. False corners are refuted with witnesses: incomplete fread items, fgets past a NUL, mmap beyond the end of file, anonymous mmap after a named source, untracked reads over old labels, failing munmap.",
  "status": "partial"
 },
 "C41": {
  "note": "Total correctness of write/send, fwrite and putc/fputc wrappers after any history of calls. Refuted: putc of negative character codes, _putc, files opened for appending."
 },
 "C42": {
  "note": "The statement is false of the code for the empty string, so this is partial. Exact characterisation for all arguments; the string variant accepts the empty string (C42_empty_string_refuted).",
  "status": "partial"
 },
 "C43": {
  "note": "For every argument list (disjoint, NUL terminated) after any history; includes the decimal rendering of the source names argv[i]."
 },
 "C50": {
  "note": "REFUTED, not proved: the stated property is false of the code. The property is false; C50_after_end_refuted proves it for every process state: all recording callbacks and a second shutdown are undefined behaviour after polytracker_end.",
  "status": "partial"
 },
 "C54": {
  "note": "One simulation from executions of the modelled process (wrappers, callbacks, argv, shadow memory) to plain dependence sets, composed with the API-level theorems C25/C26/C30; the operating system's results are parameters of each event."
 },
 "C44": {
  "note": "C44_function_ids: the parsed list and the ids; C44_embedded_ids: the ids in the inserted calls. C44_json_refuted: without functions or with names that need escaping the file is not JSON."
 },
 "C45": {
  "note": "C45_wide says what becomes of wider conditions."
 },
 "C46": {
  "note": "Exact for every file content (C46_ignored_names) and for ordinary lists (C46_ordinary_lists); C46_ignore_refuted shows the quirks. The control-flow pass reads no ignore lists at all."
 },
 "C55": {
  "note": "IR level (M_Ir, M_Passes) to reader; C55_written and C55_served link the calls to the runtime callbacks. C55_wide_refuted: a 128-bit switch takes a different branch once instrumented."
 },
 "C56": {
  "note": "C56_main_refuted: the pass is undefined on main() without parameters."
 },
 "C57": {
  "note": "C57_long_name_refuted: longer names are cut."
 },
 "C58": {
  "note": "Simulation between executions of the instrumented program (shadow code, wrappers and label table as in the models) and executions that carry dependence sets. Every execution of the instrumented program corresponds to one of the program (that the instrumented program does not get stuck is C61)."
 },
 "C59": {
  "note": "C58 composed with the theorems behind C54."
 },
 "C60": {
  "status": "partial",
  "note": "False of the code: atomic stores and exchanges clear labels, and only 200 argument labels fit the argument area (three _refuted theorems). C60_nothing_lost_partial: true of programs without atomic accesses and without calls with more than 200 arguments."
 },
 "C61": {
  "note": "Totality of the shadow code, of every wrapper and callback and of the startup, given room in the tables; composed over executions with the simulation of C58, and with C59 for the file. S_Demand states the resources. Besides: file positions below 2^54 (the encoding aborts beyond them) and products of fread/fwrite sizes below 2^64."
 },
 "C62": {
  "note": "Sets are lists without duplicates: their iteration order, which Python leaves open, is only used where the code sorts afterwards. Equality of inputs is that of the dataclass fields used by __eq__ (uid and path)."
 },
 "C63": {
  "status": "partial",
  "note": "Proved: the regions cover exactly the bytes, are disjoint and not empty (C63_regions), also for the bytes affecting control flow of a recorded trace (C63_control_flow). False of the code: with two sources, every byte of the second becomes a region of its own (last_input is never updated), regions do not come in increasing order, regions of differences mix inputs of the same uid, and slices can leave the region; _partial theorems give the cases in which these hold."
 },
 "C64": {
  "status": "partial",
  "note": "Proved: what is found is at consecutive tainted bytes; with one source everything is found. False of the code: sequences in a second source are missed, and find() does not end once it has found something (offset never advances)."
 },
 "C65": {
  "note": "Simulation of pt-tcf, pt-taint and pt-ftrace composed with C58. The optimisations between the passes are not modelled; casts to 64 bits and back are the identity (widths: C45). Executions that leave functions other than by return (exceptions, longjmp) are not in M_Llvm."
 },
 "C66": {
  "note": "S_Watch says what is watched; `watching` is the specification of what the passes are to record. Composed with C58 and C59. pt-tcf does not look at ignore lists, as in the code. Hypotheses: those of C59 for the woven program, and no jump to an entry block (LLVM guarantees it)."
 },
 "C67": {
  "note": "For programs that do not call the callbacks themselves. `open` is the whole active stack, or all but the innermost function when its entry was not yet, or its exit already, logged; it is empty when the program ended."
 },
 "C68": {
  "status": "partial",
  "note": "Equality and termination hold for all bytes (C68_equal, C68_returns). Order holds if the bytes compared are on the same side of 128; it is false otherwise because bytes are compared as signed char, where libc compares unsigned char (C68_order_refuted). strchr holds for characters in the range of char and finds nothing for 128..255, which libc converts (C68_strchr_refuted)."
 },
 "C69": {
  "note": "Per function; the positions looked at are defined by what the C standard says (S_Libc). Results of functions the wrapper only forwards to libc (memchr, strrchr, strpbrk, strstr, strto*) are hypotheses of the standard's form. C69_endptr_refuted (neighbouring claim): the pointer stored through endptr keeps the old label of its cell."
 },
 "C70": {
  "status": "partial",
  "note": "Proved for every nonempty format of ordinary characters, %% and the standard's directives with at most one star argument, which is not negative, for every size. False otherwise: an empty format writes no terminator (C70_empty_refuted), a negative star or two stars make the wrapper call libc with too few arguments (C70_negative_width_refuted, C70_two_stars_refuted), an unknown directive such as %m at the end makes it read behind the format (C70_overread_refuted). %n is not in the theorem."
 },
 "C71": {
  "status": "partial",
  "note": "Proved when the text fits the buffer, except for strings with a width or precision. False when the text is truncated: the label goes to the first length-minus-size bytes, possibly behind the buffer (C71_truncation_refuted, C71_truncation_bytes_refuted); for padded strings (C71_padding_refuted); and %n clears labels behind the count (C71_count_refuted)."
 },
 "C72": {
  "status": "partial",
  "note": "Proved for 26 functions that store and 3 that convert, for every result, with these exceptions, each refuted: select with a null timeout and an interrupted nanosleep with a null argument are undefined; a failed select loses labels; getpwuid_r leaves labels on all strings but the first; recvmsg clears labels of header fields it does not write and behind a short address buffer, is undefined for a null address with a length, and asserts on MSG_TRUNC. read, pread and fgets have versions of PolyTracker's own (C39, C40)."
 },
 "C73": {
  "status": "partial",
  "note": "All results and deliveries equal those of the uninstrumented program (C73_same_partial) unless signal is called while a SA_SIGINFO function is installed; then still all deliveries and results of sigaction (C73_delivery). Refuted: that case; PolyTracker's list, which wraps only sigaction; numbers below 0 (undefined) and from 1024 (stops); signal(s, SIG_ERR); a signal between the table and the kernel update; labels of an interrupted call. One thread."
 },
 "C74": {
  "note": "A name and whether it is a basic block stand for a trace event. C74_in_order: the grammar object's table of users is complete and exact, so it meets the hypotheses of C75."
 },
 "C75": {
  "status": "partial",
  "note": "Inlining (the first loop) keeps all languages if every production derives something (C75_inline). The whole of simplify does if removable productions with several rules have a terminal in each rule (C75_simplify_partial), or if the second loop drops nothing (C75_kept_partial); C75_extracted_partial composes with C74. Refuted in general: whether a rule has a terminal is not noted again after inlining, so that a production is dropped as empty although it is not (C75_flag_refuted, C75_other_words_refuted: grammars of trees); a rule that calls itself is cut (C75_recursive_refuted)."
 },
 "C76": {
  "status": "partial",
  "note": "Proved for grammars whose productions all derive some bytes and whose start, and every production with the same rules, is used in no rule, empty rules included. Refuted for the others: end states are not checked to begin at 0 (C76_nested_refuted), and a production that derives only the empty string is entered as its user (C76_empty_refuted). Parse trees are not modelled; a match is an end state."
 },
 "C77": {
  "status": "partial",
  "note": "Proved for grammars without empty rules and without two productions with the same rules (C77_match_partial; C77_extracted_partial for grammars of trees: True exactly for the accepted inputs). Refuted: productions with the same rules are taken for one, so that the input of a tree may be rejected (C77_same_rules_refuted); empty rules (C77_empty_refuted); False is often a ValueError, and text with characters of several bytes an IndexError (C77_false_refuted)."
 },
 "C78": {
  "note": "C78_reuse for every path and every register whose definition dominates the block executed last; C78_ends: the pass ends. LLVM's dominator analysis is assumed to be right (a hypothesis); a block that is split for a union counts as one block. Beside them a loop in which both caches are hit."
 },
 "C79": {
  "note": "Used means: read while present, or stored while absent. A store to a present key does not count as a use, so that the key stored last can go first (C79_update_refuted)."
 },
 "C80": {
  "status": "partial",
  "note": "Membership, order and |= are proved (C80_members, C80_union_in_place). Refuted: |, & and - all return a set whose only item is an iterator object, because the constructor takes items and not an iterable; &= does nothing for the same reason (C80_operators_refuted)."
 },
 "C81": {
  "note": "C81_unique: the specification determines the answer."
 },
 "C82": {
  "note": "Data races are the usual notion (two threads about to access the same cell, one writing, not both atomic, in some reachable state). Both hypotheses are needed: with a race a value can lose its labels or get those of another (C82_race_refuted); atomic stores and exchanges drop the labels of what they write (C82_atomic_refuted), which is what the pass documents."
 },
 "C83": {
  "status": "partial",
  "note": "Proved for lists whose selected lines are offsets in order (C83_only_cavities_partial; C83_methods also needs them apart). Refuted for the lines that a failed detection writes: their error codes -2, -3 and -4 are taken for offsets from the end (C83_errors_refuted)."
 },
 "C84": {
  "status": "partial",
  "note": "All cavity bytes are flipped, and nothing else but the byte behind each cavity (C84_pipeline_partial). That byte is flipped as well, since the finder prints exclusive ends and the mutator takes them as inclusive (C84_end_refuted), and the names do not match without editing: the finder prints the path in the container (C84_names_refuted)."
 },
 "C85": {
  "note": "The hypothesis is needed: if a task raises, the whole batch does (C85_raise_refuted), which drops the results that were not yet written."
 },
 "C86": {
  "status": "partial",
  "note": "Exact for one byte and for samples; the report is exact if every offset is in the file and the tool has an output for each mutated file (C86_report_partial). Refuted: a missing output ends the run without a report (C86_no_output_refuted), so does a cavity at the end of the file (C86_last_cavity_refuted), and a failing write leaves the buffer changed (C86_failed_write_refuted). Running the tool is a function from files to outputs."
 },
 "C87": {
  "status": "partial",
  "note": "Proved for functions and aliases with at most 200 parameters and no variable arguments (C87_calls_partial), and for variadic functions on the list that are called by name (C87_variadic_partial). Refuted: a variadic function on the list stops the program if called through a pointer, by invoke (custom) or through an alias (C87_variadic_pointer_refuted, C87_variadic_invoke_refuted, C87_variadic_alias_refuted); labels of variable arguments of the program's own functions go nowhere (C87_variadic_labels_refuted); so do those beyond the 200th parameter (C87_many_parameters_refuted); results of pointers to native code have a label that was left over (C87_native_pointer_refuted)."
 },
 "C88": {
  "status": "partial",
  "note": "With the same restrictions as C87_calls_partial."
 },
 "C89": {
  "status": "partial",
  "note": "Soundness for all grammars whose productions have rules (C89_sound); equivalence for those without empty rules (C89_datalog_partial), and for all if the facts also say that the end of the input is a position (C89_datalog_end). The facts are those of the command that is commented out at this commit. Refuted: empty rules at the end of the input (C89_end_refuted), productions without rules (C89_no_rules_refuted), rules that are an empty terminal (C89_empty_terminal_refuted), rules with more than 25 bytes and names, whose variables run past 'z' (C89_readable_refuted), and names with control characters (C89_names_refuted)."
 },
 "C90": {
  "status": "partial",
  "note": "The programs (C90_programs_partial) for targets with different names without extension that do not end in .bc or .instrumented, built by commands that name their output in a separate argument; what changes on disk (C90_frame), normal and abnormal end (C90_total, C90_missing) for all journals. Refuted: two targets with the same name without extension, such as libx.so and libx.dylib (C90_same_stem_refuted), a target called *.bc (C90_bitcode_target_refuted), a build command with -ofile (C90_joined_output_refuted)."
 },
 "C91": {
  "status": "partial",
  "note": "All files whose sections start less than half an alignment after the one before, or right after it (C91_compress_partial, C91_aligned); the files of all runs whose names take 0 or 6 bytes modulo 8 (C91_recorded_partial). Refuted: offsets are rounded to the nearest multiple instead of up, so that the outputs of a run are put over the end of a name (C91_recorded_refuted); the number of bytes copied is not looked at (C91_short_copy_refuted)."
 },
 "C92": {
  "status": "partial",
  "note": "The records and the lines for all pairs of runs (C92_runs, C92_shows, C92_same); records put in are skipped while there are no more of them than old records from there on (C92_inserted_partial). Refuted: after more records the old one is not found again (C92_inserted_refuted); a byte read twice counts twice, so the same bytes can differ (C92_same_bytes_refuted); only offsets are compared, so that bytes of different files count as the same (C92_files_refuted)."
 },
 "C93": {
  "status": "partial",
  "note": "All differences at keys of the first run, for all pairs of runs (C93_values_partial). Refuted: keys only in the second run are not reported (C93_only_second_refuted); the comparison of the inputs used compares output positions (C93_inputs_used_refuted)."
 },
 "C94": {
  "status": "partial",
  "note": "Every tree that is returned spells the input, for all traces (C94_spells, C94_grammar). For programs that read from left to right at each level of their calls there always is one, with the ranges read (C94_left_to_right_partial). Refuted: a block that reads everything followed by two that read one byte each makes the extraction raise (C94_overlap_refuted); so does an empty input (C94_empty_refuted); the last reader of a byte can be dropped from the tree (C94_last_reader_refuted); a node never takes a byte from its child, since the part cut off is always empty (C94_parent_refuted)."
 },
 "C95": {
  "status": "proved",
  "note": "Proved for the files of all runs and all states of the forest. The graph object is networkx's and the text of the .dot file graphviz's: nodes and edges are lists without duplicates, the drawing is the list of statements handed to graphviz with the meaning of its defaults given in S_Graph."
 },
 "C96": {
  "status": "partial",
  "note": "Proved: on which files the comparison works (C96_works: it raises for a line that starts with f and is no declaration), the report and the status (C96_report), what agreement means for the pass (C96_agreement), the effect of a choice (C96_choose). After a choice, a function is treated as the chosen list says if that list also marks it uninstrumented and neither list declares it twice (C96_choice_partial). In general it is not: the line that marks it uninstrumented is commented out with the others, so that the function becomes instrumented and its wrapper unused (C96_choice_refuted). The order of precedence the script documents for several attributes is not the pass's (C96_order_refuted). Names are taken literally: wildcards are not expanded. Not modelled: the command line, the test that the files exist."
 },
 "C97": {
  "status": "partial",
  "note": "Proved for all runs: calls, entry counts, the block returned to, and that the loops end (C97_calls, C97_count, C97_returning; the first function, C97_first; C97_matching says that the model of the abstract methods agrees with the tree). The blocks, iteration and the caller need hypotheses the code does not establish (C97_blocks_partial, C97_iter_partial, C97_caller_partial, C97_next_partial): the function starts with a block, makes no uninstrumented call, and no block makes two calls. Without them the claims are false: the second of two calls made by one block is not iterated over, so that its taints are missing from the invocation (C97_iter_refuted); a function whose first event is a call has no blocks and is not found as caller (C97_late_refuted); after the event of an uninstrumented or indirect call the rest of the blocks is lost (C97_extern_refuted). next_function_entry does not end if the function returned to a block (C97_next_refuted). The previous and next event, and matching entries and returns, are abstract in the code; the model takes their documentation."
 },
 "C98": {
  "status": "partial",
  "note": "The summary is exact if every byte was read, or there is at most one byte (C98_properties_partial, C98_in_order_partial); all reads must lie within the input. In all other cases there is none: with two or more bytes one of which was not read, input_properties compares None with a number and raises, so that unread bytes are never reported (C98_unused_refuted); grammar extraction calls it. ProgramTrace.taints marks the nodes it starts from as seen and skips seen nodes, so that the result is empty for all nodes of every trace (C98_taints_refuted); the control-flow variant of TDAG traces overrides it and is right (C31). The accesses are a parameter: the byte offsets of each, in the order in which they are iterated over."
 },
 "C99": {
  "status": "partial",
  "note": "C99_in_order holds for all runs in which every function consumed something. Acceptance (C99_accepts_partial) holds if moreover no function consumed anything after a call that returned to it. Otherwise: the rule of a block with a call ends in both the block that the call returned to and the next block, which are the same, so that what follows must be repeated and the consumed bytes are not accepted (C99_repeat_refuted, for all runs whose names are distinct); a function that consumed nothing gets a production without rules, so that the grammar accepts nothing at all (C99_untouched_refuted); and if a function is called twice and nothing is consumed the first time, extraction raises an exception (C99_twice_refuted). What the trace says of each function and block (tokens, the call it made, whether the call returned to the next block) is a parameter; a run in which a call returned elsewhere than to the next block of its caller is not covered."
 },
 "C100": {
  "status": "partial",
  "note": "C100_labels_partial holds for all histories of one thread in which no unmapping fails; C100_contents holds without that restriction. An unmapping that fails still removes the labels of the memory, which stays mapped (C100_failed_unmap_refuted, for all addresses, lengths and bytes). The labels are removed after the kernel released the memory, so that another thread that maps and labels the same region in between loses its labels (C100_race_refuted, for all regions and labels; C100_sequential is the order in which they are kept). mremap is not instrumented and not modelled."
 },
 "C101": {
  "status": "partial",
  "note": "C101_functions is about all traces. C101_in_both_partial is about traces of one program: otherwise functions are identified by index but looked up by name, and an exception is raised (C101_in_both_refuted). C101_chunks_partial: what is reported is right; C101_complete_partial and C101_complete_second_partial: a byte is reported if the other trace touched none of the contiguous bytes around it. Otherwise the whole chunk is dropped because the overlapping intervals are removed and not cut, and both traces are said to have consumed the same (C101_complete_refuted). The functions of the repository lack the method get_taints that is called, so the comparison of bytes raises an exception for all traces with a function (C101_method_refuted); the other theorems assume that it exists. 'Traces do not differ' only looks at functions (C101_verdict_refuted). ControlFlowDiff is not modelled."
 },
 "C102": {
  "status": "partial",
  "note": "C102_marks and C102_unambiguous hold for all files, offsets, lengths and context sizes. The count of further bytes is right if there are enough bytes before the offset (C102_rest_partial); near the start of the file bytes that are shown are counted again (C102_rest_refuted)."
 },
 "C103": {
  "status": "partial",
  "note": "C103_image_partial holds for the one input that is shown, whatever size the floating point computation starts from. Of several inputs only one is shown (C103_inputs_refuted). As in C101, functions need a method that those of the repository lack (C103_method_refuted)."
 },
 "C104": {
  "status": "partial",
  "note": "C104_accepted and C104_connected: the source is recorded as an opened file is, so that C23 to C30 apply to what is read from it; C104_names_differ, C104_goes_through, C104_failed hold in full. Missing: connections of other families than IPv4 are not recorded at all (C104_other_family), and a call that succeeds ends the program if the peer's address is no longer known when it is asked for: the peer is gone already, or connect dissolved an association (C104_never_ends_the_program_refuted)."
 },
 "C105": {
  "status": "partial",
  "note": "C105_never_fails, C105_routine, C105_current, C105_memory and C105_signals hold for all histories. Records of attempts that fail are never freed (C105_freed_refuted; C105_freed_partial is about histories without such); the label of the argument is lost (C105_label_refuted; that of the result is lost in pthread_join, C72); the attribute object of the program is changed if its stack is small (C105_attributes_refuted, C105_attributes_partial). Bounds of stacks and origins are not modelled."
 },
 "C106": {
  "status": "partial",
  "note": "C106_answers_partial: all answers are right if all edits come before the first question; later edits are not seen (C106_edits_after_questions_refuted, C106_roots_after_edits_refuted). Roots that are set replace the computed ones (C106_set_roots). C106_ancestors holds for nodes that can be compared; functions and blocks cannot (C106_ancestors_incomparable_refuted). C106_one_predecessor and C106_union (edges) hold; a union loses nodes without edges. Contraction only connects what was connected (C106_contract_partial), but depends on the order and loses connections. Descendants include the node itself and omit nodes without successors (C106_descendants_refuted)."
 },
 "C107": {
  "status": "partial",
  "note": "C107_edges holds for all graphs. C107_ancestors_partial is about graphs with one root; with more the forest can have a cycle and questions about it can be errors. C107_loop_entry and C107_conditional say what is computed; loops entered from one block only are found (C107_loops_found_partial), others can be missed (C107_loop_missed_refuted), blocks behind an if without else are called loop entries (C107_loop_entry_without_loop_refuted), and blocks without root are an error. networkx's immediate_dominators is modelled by its documentation."
 },
 "C108": {
  "status": "partial",
  "note": "C108_report_partial says what is reported for traces with one start: the first name at which the two chains of dominators agree at the same position. It is a common dominator (C108_reported_is_common_partial), but it need not have operated on different bytes (C108_same_taints_refuted: collections of taints have no equality), and a common one that did is missed if it is at different positions (C108_shifted_refuted). For the function called by none the question is an error (C108_start_refuted). A function that ran in one trace only has no difference (C108_absent)."
 },
 "C109": {
  "status": "partial",
  "note": "C109_arguments_partial is about all types without pointers to variadic functions: those end the compilation by an assertion (C109_variadic_callback_refuted). C109_result_labels_partial is about wrappers that store a label; one that does not (dfsan_set_write_callback) leaves the label of an earlier result (C109_result_labels_refuted). Attributes of a pointer to a function go to its trampoline. Origins are not modelled."
 },
 "C110": {
  "status": "partial",
  "note": "True when at each moment only a process that has all labels makes new ones (C110_one_writer_partial) and such a process exits last (C110_last_exit_partial). Refuted otherwise: processes side by side give out the same labels over the same words (C110_two_writers_refuted), and a child without any new label that exits last cuts the file (C110_late_exit_refuted). In all histories the file stays a graph that can be read and unions are defined (C110_file_stays_readable, C110_union_total). Only the section of labels; operations are not interleaved."
 },
 "C111": {
  "status": "partial",
  "note": "As the code is, no tree is ever enumerated: it assigns the children of an ImmutableParseTree, which has no setter, so that the call raises for every fragment that has a tree (C111_raises_refuted). With trees that can be assigned the search is exact for trees that stop at a terminal (C111_trees_partial), finds every accepted input (C111_accepted_partial), every tree that spells the fragment goes on to an accepted input (C111_extends_partial), and it ends without left recursion (C111_ends_partial). Refuted even then: trees of a beginning only (C111_rest_refuted), fragments that end inside a terminal (C111_inside_terminal_refuted), left recursion (C111_left_recursion_refuted)."
 },
 "C112": {
  "status": "partial",
  "note": "The labels come from a counter of their own. Among each other they are distinct and nonzero and the count is exact for fewer than 2^32-1 calls under every schedule (C112_distinct_partial, C112_in_order), and one thread that exhausts them stops (C112_exhausted). Refuted: at the end a second thread can get label 0 (C112_wrap_refuted); the labels coincide with those of input bytes (C112_taken_for_input, C112_not_fresh_refuted); a union with a created label that the table does not hold ends the program (C112_union_stops, C112_union_refuted); the count leaves out all other labels (C112_count_refuted)."
 },
 "C113": {
  "status": "partial",
  "note": "Proved for input names with an extension other than the output's and no output left from an earlier run (C113_verdict_partial). Refuted: an output of an earlier run with the same method is taken for this run's, so a mutation on which the tool fails is reported as OK (C113_stale_refuted); for an input without an extension the mutated output has the original output's name, so every output is reported as OK and replaces it (C113_no_extension_refuted)."
 },
 "C114": {
  "status": "partial",
  "note": "Proved for files that all were verified, with mutations of both kinds (C114_summary_partial, C114_hundred). Refuted: files with errors count in the averages (C114_errors_refuted); without cavities, without samples of other bytes, or with an empty file the program stops with a division by zero before the summary is complete (C114_breaks_off_refuted)."
 },
 "C115": {
  "status": "partial",
  "note": "Proved for all runs and options, the control-flow log under C34's condition that every logged exit has its entry on the stack (C115_info_partial). Refuted: the number printed is one more than the number of labels, as it counts label 0 (C115_number_refuted); a log with an uninstrumented frame ends the command with an exception (C115_log_refuted)."
 },
 "C116": {
  "status": "partial",
  "note": "Terminals: C116_terminal in full. Excerpts: C116_excerpt_partial for every length of at least two (20 is the default), C116_end for the offset behind the text. Refuted for a length of one: nothing is shown or marked (C116_length_refuted)."
 },
 "C117": {
  "status": "partial",
  "note": "Traversals, edges and clones in full (C117_traversals, C117_edges, C117_clone). The number of descendants is right the first time (C117_descendants_partial) and wrong after a child is added (C117_descendants_refuted). The text is given by C117_text_partial; the first two children are shown without a blank between them, so that different trees have one text (C117_text_refuted)."
 },
 "C118": {
  "status": "partial",
  "note": "Agreement in full (C118_agree). Apart on x86-64, MIPS and AArch64 with 42 bits (C118_apart_partial); refuted for AArch64 with 39 and 48 bits (C118_apart_refuted). Flushing is complete on x86-64 (C118_flush_partial); refuted on MIPS and AArch64 with 42 bits (C118_flush_refuted), and for programs linked to a fixed address on x86-64 (C118_fixed_address_refuted). The constants date from 2-byte labels; labels have 4 bytes."
 },
 "C119": {
  "status": "partial",
  "note": "Streams and file name as documented (C119_effects_partial); what is printed (C119_printed_partial). Refuted: the arguments are tainted for every value that starts with 1, values other than 1 are announced without effect (C119_values_refuted), and the settings are printed to the program's own standard output (C119_output_refuted)."
 },
 "C120": {
  "status": "partial",
  "note": "The three kinds of attributes are removed (C120_removed) and nothing else changes (C120_kept); labels of results and of memory follow when ReadNone and ArgMemOnly do not occur (C120_return_label_partial, C120_instrumented_partial). Refuted with ReadNone (C120_instrumented_refuted, C120_return_label_refuted), for wrappers called by invoke or pointer (C120_wrapped_refuted) and for the function that records decisions, declared ReadNone before opt -O3 (C120_recording_refuted). What the optimiser then does is not modelled."
 },
 "C121": {
  "status": "partial",
  "note": "Proved for symbols that fit readelf's columns (C121_names_partial) and names with at most one prefix in front (C121_listed_partial, C121_only_partial, C121_once_partial, C121_tracklist_partial, C121_ignored_partial); differences of lists of function entries (C121_difference_partial). Refuted: functions of 100000 bytes are missing (C121_large_refuted), protected ones get a wrong name (C121_protected_refuted), prefixes inside a name are cut out (C121_inner_refuted), UND in a name counts as undefined and undefined symbols of object files are missing (C121_undefined_refuted), the libc list has the same text for every function (C121_libc_refuted), other kinds of entries hide functions (C121_difference_refuted). The format of readelf's output is part of the specification, taken from binutils."
 },
 "C122": {
  "status": "partial",
  "note": "What is shown and marked in full (C122_marked). The text determines the bytes if none is 11, 12, 14 or 15 (C122_unambiguous_partial); refuted with one of these, whose hexadecimal form has one digit (C122_unambiguous_refuted)."
 },
 "C123": {
  "status": "partial",
  "note": "All answers agree, for every grammar, but for the first question, which may raise (C123_same_partial); in the grammars of C76 and C77 every answer, after any history, is True exactly if the input is accepted, and only the first question for an input that is not accepted may raise (C123_history_partial). Refuted for the first question: it raises a ValueError where the later ones answer False (C123_same_refuted)."
 },
 "C124": {
  "status": "partial",
  "note": "For all histories as documented that succeed: what is run and, without extensions, the status (C124_runs_partial), that words belong to one class (C124_unique), the full name (C124_full_name); all definitions succeed if names have no underscore and no two classes agree in their name and that of their parent (C124_defined_partial). Refuted: the status with extensions, which is always 0 (C124_status_refuted); a class whose definition fails is still run (C124_failed_refuted); classes called by different words clash (C124_clash_refuted); a command is silently replaced (C124_replaced_refuted); a subcommand without help disables all commands (C124_help_refuted)."
 },
 "C125": {
  "status": "partial",
  "note": "The command for all words, mounts without colons and values without double quotes (C125_command_partial), read by a specification of docker run; the image exists, after any history (C125_exists); the first checked run of an object, for files other than Python code (C125_checked_partial). Refuted: values with double quotes are changed (C125_quote_refuted), directories with colons fail (C125_colon_refuted), changed Python code is not noticed (C125_python_refuted), later runs of an object use the comparison of the first (C125_later_refuted)."
 },
 "C126": {
  "status": "partial",
  "note": "Completions only add to the text (C126_continues) and are offered once (C126_once), in full; all names that continue the line at its end (C126_offered_partial) and all public attributes behind a variable and a dot (C126_attributes_partial). Refuted: names inside a line are not offered (C126_inside_refuted), and behind a.b. the attributes of the variable b are offered instead of those of a.b (C126_chain_refuted)."
 },
 "C127": {
  "status": "partial",
  "note": "For files of plain lines: the length counts the terminated lines (C127_length_partial); the first line equal to the command with its newline is found (C127_found_partial), nothing behind the file (C127_behind), and a found line can be started from (C127_resume). Refuted: commands as docker reports them, without a newline, are never found (C127_moves_refuted, for every Dockerfile with terminated lines), a last unterminated line is not counted (C127_last_refuted), and carriage returns shift the numbers (C127_carriage_refuted)."
 },
 "C128": {
  "status": "partial",
  "note": "The session goes on after interrupts and failing lines and shows the error prompt exactly after them (C128_survives); with quiet functions all run in order (C128_exits_partial), and whenever run returns all registered functions have run, including those registered meanwhile (C128_all_run); nested sessions keep the current instance (C128_nested). Refuted: a failing exit function keeps the others from running and the session stays current (C128_failing_refuted), an exception of the prompt runs none (C128_prompt_refuted), overlapping or self-nested sessions lose the current instance (C128_overlap_refuted)."
 },
 "C129": {
  "status": "partial",
  "note": "The name (C129_name), assembly without directives for the function (C129_others) and the first directive line, with all other lines unchanged (C129_first_partial). Refuted: a second version of the same function keeps the old name (C129_second_refuted), a space behind the comma is put inside the version's name (C129_space_refuted), and directives with a tabulator are missed (C129_tab_refuted)."
 },
 "C130": {
  "status": "partial",
  "note": "C130_set and C130_first in full. Transfers of whole groups: all bytes tainted, overlapping or not (C130_move_partial), and none tainted (C130_untainted_partial); a copy onto itself (C130_itself). Refuted in general: the check for taint reads two 32-bit labels instead of four, so taint in the second half of a group is missed (C130_half_refuted); an overlapping move with one whole group skips it (C130_overlap_refuted); an unaligned source gives the origin of a neighbouring group (C130_unaligned_refuted)."
 },
 "C131": {
  "status": "proved",
  "note": "No store fails before 2^28 - 1 origins are kept (C131_total; the CHECK fails then). The depot's numbers are modelled as positions in the list of entries, concurrency of the depot is not modelled. The limit per stack lets one more origin through than it says (C131_uses). C131_sixteen: a limit above sixteen is not honoured."
 },
 "C132": {
  "status": "proved",
  "note": "Messages are data; colours, the description, addresses and the text of stacks are left out. Origins are those made as in C131."
 },
 "C133": {
  "status": "partial",
  "note": "Proved without a limit of uses per stack, for stacks that can be kept, outside of signal handlers, for stores instrumented with a call and labels with one of the lower 16 bits set, and for stores without a call that are aligned to 4 bytes (C133_inline_partial). Refuted otherwise: __dfsan_maybe_store_origin takes the 32-bit label as 16 bits (C133_wide_refuted), and bytes labelled in a signal handler get no origin, so their report says it is invalid (C133_signal_refuted). A store without a call that is not aligned misses the last group it meets (C133_unaligned_refuted). Copies of memory are in C130."
 },
 "C134": {
  "status": "partial",
  "note": "Labels in full for loads without the call (C134_sources_partial; C134_when says which), with the call if all tainted bytes have one label (C134_label_partial); origins with the call, or if all bytes are in one group of four (C134_origin_partial), when tainted bytes have origins as in C133. Refuted otherwise: the call ors different labels instead of joining them (C134_union_refuted), and an aligned load of eight bytes gives the origin of its first four (C134_second_refuted)."
 },
 "C135": {
  "status": "proved",
  "note": "The added code is modelled by the value it computes. Operands whose origin is a null constant have no label (proper), as the pass makes them."
 }
}