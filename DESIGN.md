# Formal model of PolyTracker in Rocq (Coq 8.16.1)

The source modelled is `/repo` (trailofbits/polytracker at the pinned commit).  The model is written in
`rocq/theories`, logical prefix `Verif`.

## 1. Layout of the development

* `M_*.v`  model files.  Definitions only; every definition carries a comment citing the file and lines it models
  and any simplification.
* `S_*.v`  small independent specifications (plain sets, lists, FIFO queues, reachability...) in which the
  properties are stated.  They do not mention the helpers of the model.
* `P_*.v`  proofs (lemmas, invariants).
* `T_*.v`  the property theorems: statement, one-line proof, `Print Assumptions`, and beside each an `Example`
  showing a concrete non-trivial case that meets the hypotheses.

Outcomes.  C++ code that ends in `error_exit` is the outcome `Exit`; undefined behaviour (null/empty optional
dereference, out of bounds access, failed `assert`) is the distinct outcome `UB`; normal results are `Ok v`.
Fixed-width arithmetic is written with explicit `mod 2^k` wherever the code can wrap.

## 2. Layers

| layer | code modelled | model | specification | theorems |
|---|---|---|---|---|
| machine integers, bytes, outcome monad | – | `M_Base`, `M_Memory` | – | – |
| taint words | `taint.h`, `encoding.{h,cpp}` | `M_Encoding` | `S_Encoding` | `T_Encoding` (C01–C03) |
| union rules, label table | `union.h`, `labels.h` | `M_Union`, `M_Labels` | `S_Labels`, `S_Provenance` | `T_Labels` (C04–C10, C12), `T_Cost` (C49) |
| label queue | `labeldeq.h` | `M_LabelDeq` | `S_Fifo` | `T_LabelDeq` (C11) |
| sections over bytes | `section.h` | `M_Section` | `S_Section` | `T_Section` (C13, C14) |
| string table | `string_table.h` | `M_StringTable` | `S_Strings` | `T_Strings` (C15) |
| functions and events | `fnmapping.{h,cpp}`, `fntrace.{h,cpp}` | `M_Functions` | `S_Functions` | `T_Functions` (C16, C17) |
| control-flow log | `control_flow_log.h` | `M_CfLog` | `S_CallStack` | `T_CfLog` (C18, C19, C34) |
| bitmap | `bitmap_section.h` | `M_Bitmap` | `S_Bitmap` | `T_Bitmap` (C20) |
| sources, sinks, stream offsets | `taint_source.h`, `sink.h`, `stream_offset.h` | `M_Sources` | `S_Api` | `T_Api` |
| output file | `outputfile.h`, `storage.h` | `M_OutputFile` | `S_OutputFile` | `T_OutputFile` (C27, C28) |
| runtime API | `src/taintdag/polytracker.cpp` | `M_Api` | `S_Api`, `S_History` | `T_Api` (C23, C25, C26, C29, C30) |
| process, callbacks, libc wrappers, argv | `src/polytracker/*.cpp`, `src/taint_sources/*.cpp`, `src/taintdag/util.cpp` | `M_Runtime` | `S_Runtime` | `T_Runtime` (C39–C43, C50), `T_ProcRun` (C54) |
| shadow memory | `compiler-rt/lib/dfsan` (parts, see 4) | `M_Dfsan` | `S_Dfsan` | `T_Dfsan` (C35–C38, C53) |
| Python reader | `taint_dag.py` | `M_PyFile`, `M_PyNode`, `M_PySections` | `S_PyAnalysis` | `T_Encoding`, `T_OutputFile`, `T_Api` |
| Python analyses | `taint_dag.py`, `mapping.py` | `M_PyAnalysis` | `S_Forest`, `S_Cavities`, `S_PyAnalysis` | `T_Forest` (C31, C33, C51, C52), `T_Cavities` (C32) |
| Python collections of tainted bytes | `tracing.py` (`ByteOffset`, `TaintedRegion`, `Taints`, `TaintDiff`) | `M_PyTaints` | `S_PyTaints` | `T_PyTaints` (C62–C64) |
| threads | atomics and mutexes of the sections | `M_Conc`, `M_ConcBitmap`, `M_ConcSection`, `M_ConcStream`, `M_ConcLabels` | `S_ConcSection`, `S_ConcLabels` | `T_ConcBitmap` (C21), `T_ConcSection` (C22), `T_ConcStream` (C24), `T_ConcLabels` (C47, C48) |
| compiler passes | `src/passes` | `M_Ir` (instructions and their execution), `M_Passes` | `S_Passes` | `T_Passes` (C44–C46, C55–C57) |
| DFSan instrumentation | `src/passes/DataFlowSanitizer.cpp` | `M_Llvm` (programs), `M_DfsanPass` (the pass), `M_DfsanRun` (instrumented executions) | `S_DataFlow` (executions with dependence), `S_Demand` (resources) | `T_DfsanPass` (C58–C60), `T_Progress` (C61) |
| all passes together | `src/passes`, order of `polytracker/build.py` | `M_LlvmPasses` (pt-tcf, pt-taint, pt-ftrace on the programs of `M_Llvm`), `M_DfsanPass` | `S_Watch` (watched executions) | `T_Watch` (C65–C67) |
| libc string functions | `compiler-rt/lib/dfsan/dfsan_custom.cpp` (comparison, search, conversion, `strcpy`, `calloc`) | `M_DfsanStr` | `S_Libc` (the C standard) | `T_DfsanStr` (C68, C69; C38, C53) |
| `sprintf`, `snprintf` | `compiler-rt/lib/dfsan/dfsan_custom.cpp` (`format_buffer`) | `M_DfsanFormat` | `S_Format` (the C standard) | `T_DfsanFormat` (C70, C71) |
| system functions with outputs | `compiler-rt/lib/dfsan/dfsan_custom.cpp` (29 functions: `stat` to `recvmmsg`, `ctime_r`, `inet_pton`) | `M_DfsanSys` | `S_DfsanSys` (manual pages) | `T_DfsanSys` (C72) |
| signal handlers | `compiler-rt/lib/dfsan/dfsan_custom.cpp` (`SignalHandler`, `SignalAction`, `sigaction`, `signal`) | `M_DfsanSignal` (the kernel's table of actions is part of the model) | `S_Signal` (the same program without instrumentation) | `T_DfsanSignal` (C73) |
| grammars | `polytracker/grammars.py` (`Rule`, `Production`, `Grammar.remove`/`simplify`, `parse_tree_to_grammar`), `polytracker/parsing.py` (`ParseTree`, `simplify`) | `M_PyGrammar` | `S_Grammar` (derivations, yield of a tree) | `T_Grammar` (C74, C75) |
| reuse of combined shadows | `DataFlowSanitizer.cpp` (`combineShadows` with `ShadowElements` and `CachedShadows`, the order of visits) | `M_DfsanCache` | `S_Shadow` | `T_DfsanCache` (C78) |
| Earley parser | `polytracker/grammars.py` (`EarleyParser`, `EarleyQueue`, the states, `Grammar.match`) | `M_PyEarley` | `S_Grammar`, `S_Earley` | `T_Earley` (C76, C77) |
| caches, ordered sets | `polytracker/cache.py` (`LRUCache`, `OrderedSet`) | `M_PyCache` | `S_Cache` (last stored value, time of last use) | `T_PyCache` (C79, C80) |
| chunks | `polytracker/cfg.py` (`tainted_chunks`, `input_chunks`, `cmp_chunks`) | `M_PyChunks` | — | `T_PyChunks` (C81) |
| threads | `DataFlowSanitizer.cpp` (`visitLoadInst`, `visitStoreInst`, `visitCASOrRMW`): the order of an access and of the access to its shadow | `M_Threads` | `S_Threads` (interleavings, data races, dependencies) | `T_Threads` (C82) |
| cavity tools | `build_in_docker/file_cavity_detection.py`, `mutate_cavities.py`, `verify_cavities.py` | `M_PyMutate` | `S_Mutate` (lists, cavities, methods), `S_Cavities` | `T_PyMutate` (C83-C86) |
| ABI list and calls | `polytracker/src/passes/DataFlowSanitizer.cpp` (list, wrappers, aliases, calls, trampolines) | `M_DfsanAbi` | `S_DfsanAbi` (categories, treatment of a call) | `T_DfsanAbi` (C87, C88) |
| Datalog | `polytracker/datalog.py` | `M_PyDatalog` | `S_Datalog` (least model of a Datalog program), `S_Grammar` | `T_PyDatalog` (C89) |
| build | `polytracker/build.py` (get-bc, opt and the compiler by what they write) | `M_PyBuild` | `S_Build` | `T_PyBuild` (C90) |
| trace compression | `examples/analysis/ubet/compress_tdag.py` (argument parsing and printing left out) | `M_PyCompress` | `S_Compress` | `T_PyCompress` (C91) |
| trace comparison | `examples/analysis/ubet/eval_nitro.py`: `compare_cflog`, `compare_input_output`, `compare_output_input`, `compare_inputs_used` and what they call (printing, running the programs and `enum_diff`, which fails with a TypeError, left out) | `M_PyCompare` | `S_Compare` | `T_PyCompare` (C92, C93) |
| parse tree extraction | `polytracker/parsing.py`: `trace_to_tree` (without terminals), `NonGeneralizedParseTree` (without `simplify`), `trace_to_non_generalized_tree`; the operations of the intervaltree package they use, after its documentation (the package is not in /repo) | `M_PyTree` | `S_Tree` | `T_PyTree` (C94) |
| exported taint forest | `polytracker/taint_forest.py`: `to_graph`, `ExportTaintForest.run` (without loading and printing); `polytracker/graphs.py`: `roots`, `to_dot` without filter and labeler; nodes and edges of networkx as lists | `M_PyGraph` | `S_Graph` | `T_PyGraph` (C95) |
| comparison of ABI lists | `polytracker/scripts/track_list_diff.py` (without the command line and the messages) | `M_PyAbiDiff` | `S_AbiDiff` | `T_PyAbiDiff` (C96) |
| navigation in traces | `polytracker/tracing.py`: the trace event classes, `FunctionInvocation`, `ProgramTrace.next_function_entry` (the abstract methods after their documentation) | `M_PyTrace` | `S_Calls` (runs as trees of calls) | `T_PyTrace` (C97) |
| summaries of traces | `polytracker/tracing.py`: `ProgramTrace.input_properties`, `taints`; `inputs.py` | `M_PyProgram` | `S_Reads` | `T_PyProgram` (C98) |
| grammars from events of traces | `polytracker/grammars.py`: `trace_to_grammar`, `verify`, `find_disconnected` | `M_PyTraceGrammar` | `S_TraceGrammar`, `S_Grammar` | `T_PyTraceGrammar` (C99) |
| mapping of memory | `dfsan_interceptors.cpp`: `mmap`, `munmap`; `taint_sources.cpp`: `__dfsw_munmap` | `M_DfsanMap` | `S_DfsanMap` | `T_DfsanMap` (C100) |
| diffs of traces | `polytracker/diffing.py`: `TraceDiff`, `print_file_context`; `visualizations.py`: `file_diff` | `M_PyDiff`, `M_PyDiffShow` | `S_Diff`, `S_DiffShow` | `T_PyDiff` (C101), `T_PyDiffShow` (C102, C103) |
| names of connections | `taint_sources.cpp`: `connect_name`, accept, connect | `M_Socket` | `S_Socket` | `T_Socket` (C104) |
| records of threads | `dfsan_thread.cpp`, `dfsan_custom.cpp`: pthread_create, signal scopes | `M_DfsanThread` | `S_DfsanThread` | `P_DfsanThread`, `T_DfsanThread` (C105) |
| questions to graphs, dominators | `graphs.py`: `DiGraph`; `tracing.py`: `cfg`, `function_cfg`, `is_loop_entry`, `is_conditional`; shortest paths and immediate dominators of networkx by their documentation | `M_PyDiGraph` | `S_Dominators`, `S_DiGraph` | `P_PyDiGraph`, `P_PyDiGraph2`, `P_Dominators`, `P_Blocks`, `T_PyDiGraph` (C106), `T_Dominators` (C107) |
| difference in control flow | `diffing.py`: `ControlFlowDiff` | `M_PyCfDiff` | `S_CfDiff` | `T_PyCfDiff` (C108) |
| calls of custom functions | `DataFlowSanitizer.cpp`: types, arguments and attributes of calls of `__dfsw_` functions | `M_DfsanCustom` | `S_DfsanCustom` | `T_DfsanCustom` (C109) |
| forks | shared mapping of the file, private position, sizes written at exit | `M_Fork` | `S_Fork` | `T_Fork` (C110) |
| partial parses | `grammars.py`: `partial_match`, `find_partial_trees` | `M_PyPartial` | `S_Partial` | `T_PyPartial` (C111) |
| labels a program creates | `dfsan.cpp`: `dfsan_create_label`, `dfsan_get_label_count` | `M_UserLabels` | `S_UserLabels` | `T_UserLabels` (C112) |
| verification of cavities, summary | `verify_cavities.py`: `verify_cavities`; `cavity_results.py` | `M_PyVerify` | `S_Verify` | `T_PyVerify` (C113, C114) |
| polytracker info | `taint_dag.py`: `TDInfo` | `M_PyInfo` | `S_Info` | `T_PyInfo` (C115) |
| trees and terminals of the grammar tools | `parsing.py:29-244` | `M_PyParseTree` | `S_ParseTree` | `T_PyParseTree` (C116, C117) |
| address spaces of the platforms, flushing | `dfsan_platform.h`, `dfsan.h:69-72`, `dfsan.cpp:969-972`, `DataFlowSanitizer.cpp:1056-1075, 1801-1850` | `M_DfsanLayout` | `S_DfsanLayout` | `T_DfsanLayout` (C118) |
| settings and what is printed about them | `main.cpp:45-96, 109-130` | `M_Settings` | `S_Settings` | `T_Settings` (C119) |
| attributes of functions and calls | `remove_fn_attr.cpp`, `DataFlowSanitizer.cpp:1146-1148, 1166-1195, 1493-1564, 2990-3049`, `tainted_control_flow.cpp:147-164` | `M_RemoveAttrs` | `S_RemoveAttrs` | `T_RemoveAttrs` (C120) |
| lists of functions made from libraries | `create_stublist.py`, `libcxx_tracklist.py`, `list_diff.py`, `build-libc-list.py` | `M_PyStubList` | `S_StubList` | `T_PyStubList` (C121) |
| the bytes around cavities | `mapping.py:166-187, 216-225` | `M_PyShowBytes` | `S_ShowBytes` | `T_PyShowBytes` (C122) |
| asking a match | `grammars.py:707-771, 953-980` | `M_PyMatch` | `S_Grammar`, `S_Earley` | `P_PyMatch`, `T_PyMatch` (C123) |
| commands and their extensions | `plugins.py:96-366`, `__main__.py:20-48` | `M_PyPlugins` | `S_Plugins` | `P_PyPlugins`, `T_PyPlugins` (C124) |
| running containers | `containerization.py:103-143, 145-234, 248-314` | `M_PyDocker` | `S_Docker` | `T_PyDocker` (C125) |
| completions at the prompt | `repl.py:21-96` | `M_PyRepl` | in `T_PyRepl` (`continues`) | `T_PyRepl` (C126) |
| lines of the Dockerfile | `containerization.py:32-79` | `M_PyDockerfile` | `S_Dockerfile` | `T_PyDockerfile` (C127) |
| sessions at the prompt | `repl.py:180-190, 359-416` | `M_PySession` | `S_Session` | `T_PySession` (C128) |
| `.symver` directives | `DataFlowSanitizer.cpp:1146-1163` | `M_Symver` | in `T_Symver` (`text`, `directive`, `mentions`) | `T_Symver` (C129) |
| origins | `dfsan.cpp:317-330, 374-532, 564-571`, `dfsan.h:65-87` | `M_DfsanOrigin` | in `T_DfsanOrigin` | `T_DfsanOrigin` (C130) |
| histories of origins | `dfsan_origin.h:46-122`, `dfsan.cpp:853-872`, `sanitizer_chained_origin_depot.cpp:82-97` | `M_DfsanChain` | in `T_DfsanChain` | `T_DfsanChain` (C131) |
| reports of origins | `dfsan.cpp:806-872` | `M_DfsanTrace` | in `T_DfsanTrace` | `T_DfsanTrace` (C132) |
| labelling and storing with origins | `dfsan.cpp:349-372, 580-590, 625-635, 660-692`, `DataFlowSanitizer.cpp:2392-2468` | `M_DfsanStore` | in `T_DfsanStore` | `T_DfsanStore` (C133) |
| loads with origins | `dfsan.cpp:233-269`, `DataFlowSanitizer.cpp:2022-2042, 2191-2300` | `M_DfsanLoad` | in `T_DfsanLoad` | `T_DfsanLoad` (C134) |
| origins of computed values | `DataFlowSanitizer.cpp:1966-2010` | `M_DfsanCombine` | in `T_DfsanCombine` | `T_DfsanCombine` (C135) |

## 3. Per-property plan

| id | what is modelled | how proved |
|---|---|---|
| C01, C03 | 64-bit words as `N`, shifts and masks as in the code | bit/arith lemmas, case analysis |
| C02 | both decoders | case analysis over kinds |
| C04, C05, C06, C08 | label table as list of words, `union_taint` with the visitor and the duplicate scan | invariant over histories + denotation (`sources of a label`, an inductive relation) |
| C07, C12 | `create_source_labels`, capacity, `Exit`/`UB` outcomes | induction on length; refutations by witness |
| C09, C10, C49 | worklist loop on the table | well-founded measure, reachability invariant; exponential family for the cost refutation |
| C11 | ring buffer + deque | refinement to list FIFO |
| C13, C14, C22 | byte memory, write pointers | induction over requests; interleaving semantics |
| C15–C20 | byte level models of the sections and of the Python decoders | refinement to lists/sets |
| C21, C24, C47, C48 | small-step interleavings with atomic CAS / fetch_add / lock-protected steps | inductive invariants over all schedules |
| C23, C25, C26 | API state machine | invariants over API histories |
| C27–C29 | layout function, header bytes | arithmetic; witness for misalignment; crash = prefix of the history without the destructor |
| C30, C31 | composition: API history → file bytes → Python reader → mapping | refinement to the set semantics of the history |
| C32–C34 | Python algorithms | induction |
| C35–C38 | shadow memory as map, page release path | arithmetic, induction |
| C39–C43, C50 | wrappers and guards as functions of the libc outcome | case analysis, reuse of the API theorems |
| C51, C52 | trace accessors of the Python reader | composition with the API invariant |
| C53 | strdup, strncpy, strcat wrappers | byte-level shadow lemmas; witnesses for strcat |
| C54 | executions: events with the results of libc as parameters | simulation of the process model by plain dependence sets |
| C44–C46 | passes as functions on modules; ignore files as bytes | induction over functions, blocks, lines |
| C55–C57 | small-step execution of a module with an external world | forward simulation between the original and the instrumented module; C55 continues through the log to the reader |
| C58–C60 | IR programs, the pass as a function on them, executions of both | shadow code first refined to sets of bytes, then simulated against the program with dependence; C59 composes with C54 |
| C61 | the same | totality of every piece of shadow code, wrapper and callback under the invariants of C58, with a count of labels; then induction over the execution |
| C65–C67 | the four passes composed; executions of the result, and executions of the original program with a watcher that takes notes | the code of each pass is related to the original by insertions that hold notes; forward simulation of the three passes, composed with C58/C59; C67 by an invariant that relates the log to the call stack, composed with C34 |
| C68, C69 | loops of the wrappers over a byte memory; results of forwarded functions as parameters | one loop lemma for all comparisons; labels through the lemmas of C36/C37; witnesses for bytes above 127 |
| C70, C71 | the formatting loop over the bytes of the format; what libc makes of a single directive is an arbitrary function | one invariant of the loop for text, truncation and labels, against a relation that lists the bytes of the result with their labels; witnesses for formats and sizes where the code goes wrong |
| C72 | every wrapper after its call of libc, with the memories before and after the call as parameters | one lemma about clearing a list of ranges, composed per function; inductions over iovecs, messages, descriptors |
| C73 | runtime table and kernel actions, step by step over calls and deliveries | simulation: the kernel has the program's action with functions replaced, the table has the function |
| C74 | trees with events and bytes, the traversal and the grammar object with its table of users | invariant of the loop over nodes; induction on the tree for the derivation |
| C75 | the two loops of simplify with the caches of `can_produce_terminal` | inlining a sole rule preserves derivations (induction on derivations); invariant of the table of users; witnesses |
| C76, C77 | charts as lists in the order of the queues, the tables of waiting and completed states, equality of states as in the code | C76: each state is justified by a derivation of a part of the input, invariant of every operation. C77: states form a finite set, so each chart loop ends; processed states are closed; induction on the derivation |
| C78 | a function reduced to its shadows: new ones, joins of operands, phis; the caches as maps; LLVM's dominator analysis is a parameter that is right; executions are paths with arbitrary new labels | invariant: unions computed in dominators of the current block are up to date (dominance is antisymmetric, so nothing redefines their operands since); elements of a union mean the union |
| C62–C64 | sets as lists without duplicates, grouping by source, the region loop, slices, search | induction over the lists; C63 composes with C31; witnesses where the region loop, slices and find() go wrong |
| C79 | an ordered dictionary as the list of its items; histories of operations | invariant: the keys are sorted by the time of their last use; witness for the refutation |
| C80 | the same dictionary; the library's operators with the iterator they hand to the constructor | invariant: sorted by the time of insertion |
| C81 | sorting and the loop | induction over the sorted list; uniqueness of such lists of intervals |
| C82 | instrumented instructions as two steps; interleavings of any number of threads | simulation with an invariant per thread and cell; a conflicting access inside a window would be a race of a reachable state; witnesses for the refutations |
| C83 | slices of a bytearray, the list of cavities, the methods | the loop is a fold over the selected lines; induction over them |
| C84 | the printed cavities as input of the mutator | C83 with maximal runs as the list; witnesses for any run |
| C85 | the loop over a thread pool, with any completion order | invariant: taken = done + waiting up to order; each turn decreases what is left |
| C86 | the loop over offsets with the buffer that is restored | induction over the offsets |
| C87 | what every name refers to after the pass; calls with arguments and results in thread-local arrays; function bodies as any functions of values, labels and state | case analysis over listing and way of calling; what is read from the arrays is what was stored |
| C88 | trampolines | instance of the lemma of C87 |
| C89 | clauses with relation names (as text) and variables; facts of an input | induction over the least model, and over derivations with a valuation built from the positions; escaped printable names form a prefix code |
| C90 | paths, the journal, the commands run; files as terms saying what they were made of | induction over the targets with a frame theorem for the files written |
| C91 | the file as bytes and a length; rounding of Python; the system call as a function saying how many bytes it copies | layout invariant by induction over the sections, then the reader's loop; runs through the invariant of C30 |
| C92 | logs as lists of offsets and stacks; printed lines as columns | induction over the loop; resynchronisation by the number of steps to the next equal record; runs through the invariants of C30 and C34 |
| C93 | dictionaries of sets as lists of pairs | the mapping is that of C30 with the pairs turned round; sets compared by membership |
| C94 | invocations as trees of blocks with regions; interval trees as lists without duplicates | any tree returned: the final check forces the children to form a chain, by induction over the tree; success: invariant of both passes (intervals disjoint, hulls kept) by induction over the tree |
| C95 | the loop over the forest, interleaved with asking for parents, builds a graph | the loop equals a fold over the nodes it visits (invariant of the forest, every positive label cached on the way down); in the final forest every label is cached, so that paths are walks and C33 applies |
| C96 | list files as text, lines as Python reads them; the pass through `M_DfsanAbi` | the dictionaries built by the loop are the first and repeated declarations, by induction over the lines; commenting out is a map over the lines |
| C97 | events of a thread as a list, positions as uids | a call of the tree is a frame: events before, what was done, what is to come; the loops by induction over what is to come, or back over what was done; matching by induction over the tree |
| C98 | accesses as lists of (source, offset); the table of first usages; the stack of `taints` | the state of the loop describes the reads so far (induction over the reads); order by sortedness; `taints` by induction over the stack, on top of C33 |
| C99 | runs as trees of calls with blocks; the stack of functions; `verify` as a search in the dependency graph | the grammar is made of a list of entries, by induction over the calls; the language of the entries by induction over the tree, in both directions |
| C100 | the interceptors and the wrapper as updates of shadow memory; system calls and label updates as separate actions of threads | induction over histories with C36; explicit schedules that the kernel permits |
| C101 | functions with their bytes; dictionaries of interval sets; whole intervals removed | the intervals cover the touched bytes, by induction over functions and regions; merging as in C94 |
| C102 | the loop over the bytes with the positions of the marks | the state after a prefix of the bytes in closed form |
| C103 | images as functions of positions; the loop that makes room; painting byte by byte | induction over the bytes; position and offset determine each other |
| C104 | addresses as the bytes the kernel writes; the text built from them; the wrappers of C39 to C43 | decimal numbers between separators can be read back; one more call of an API run |
| C105 | memory of records, current record and thread specific value of each thread; libc's passes over the data in the specification | an invariant over all histories: who owns which record, in which state |
| C106 | graph with cached tables; edits and questions as data | breadth first search is right; tables equal the distances of the graph at the first question |
| C107 | removal of a node and reachability; walks in the specification | strict dominators form a chain; the forest's edges are the immediate ones; ancestors by distance are the chain |
| C108 | traces as functions with calls; identity of objects instead of equality | both chains by C107; induction on the shorter |
| C109 | types, arguments as symbols, attribute sets by position | both lists computed by the pass against the roles of the specification, by induction on the parameters |
| C110 | shared words, a position per process; each process runs the operations of `M_Labels` on its view | invariant over all histories; refinement to one table for one writer at a time; two witnesses |
| C111 | the search with its stack, a flag for the missing setter | exact set of trees by induction on the passes of the loop; end by induction on length and rank; simulation for the missing setter |
| C112 | the counter with an atomic addition and a check per call, beside the label table | invariant over interleavings; histories of the label table for the collisions |
| C113 | one verification over a results directory as a function from names, with an arbitrary tool and checksum | case analysis; names split at the last dot |
| C114 | the loop over results and the printed lines with exact fractions | induction over the results |
| C115 | the command over the reader of M_PyFile, lines kept with their parts | the opened file of a run (P_ApiFile), one line relation per section |
| C116 | escapes of bytes, the loop over the excerpt | a decoder as left inverse; the loop split at the offset |
| C117 | the loops with their explicit stacks, clone with a store of numbered nodes | induction on trees with a frame condition for the store |
| C118 | the constants of five platforms, the address computations of runtime and pass, the mapping of fresh pages | bit masks as remainders, linear arithmetic |
| C119 | getenv, the defaults, the lines printed, the start of the runtime of M_Runtime | case analysis on the values |
| C120 | attributes as lists on functions and calls, the pass, the functions that the other passes create | induction over the module, membership in filtered lists |
| C121 | the columns read, removal of the prefixes, the lines printed; symbols and readelf's line of a symbol in the specification | lengths of the fields of a line, induction over names and lists |
| C122 | the text of a byte, the two lines printed for a cavity | case analysis on bytes, offsets in lists, a reader that inverts the text |
| C123 | the object Match with the parser it keeps, any sequence of bool, parse_tree and iteration | invariant of the object after the first question, on top of C76 and C77 |
| C124 | the registration of classes, the parsers, what a command line runs | invariant of the registry over all histories; induction on words |
| C125 | the words for docker run, the decision to start, the cached list of files | round trip with a reader of docker's words, induction on mounts and variables; invariant over histories |
| C126 | the names offered for a line and a cursor | characterisation of the loop over names by induction; splitting at dots |
| C127 | offsets of lines, seeking, reading lines, first match | induction over the lines of a file given as its list of lines |
| C128 | the loop of a session, the growing list of exit functions, the current instance | induction over steps and fuel; induction over nestings |
| C129 | search and replacement in the module's assembly | the first occurrence lies within one line, by induction over lines |
| C130 | setting and copying of origins, upwards and downwards | loop invariants over the cells copied; division by 4 by lia |
| C131 | making of chained origins and following them | induction over the origins made; the depot only grows |
| C132 | the report of an origin and the initial origin of a byte | induction over the history |
| C133 | labelling, and the call made or the code added for a store | invariant over runs, from C130_set and C131_store |
| C134 | the call and the code for loads | loop invariants; bits of 64-bit words by N.shiftr and N.land |
| C135 | the selection of an operand's origin | induction over the operands |

Properties that are false of the code in full generality get a `_refuted` theorem (with a witness) beside the
strongest true statement.

### Status of properties that do not hold

`MANIFEST.json` says `proved` only if the English statement is proved as it stands.  C36, C40, C42, C53, C60, C63, C64, C68,
C70–C73, C75–C77, C80, C83, C84, C86–C94, C96–C130, C133 and C134 are `partial`: the code violates the statement in the cases named in the notes, each shown by a `_refuted` theorem.
C49 and C50 are `partial` because they are false: their theorems are refutations (C49 also has the true bound).
`_refuted` theorems beside properties that are `proved` concern neighbouring claims a user might expect
(for instance C24: offsets are disjoint, but they need not be the positions at which the kernel wrote).

## 4. Trusted base

* Coq 8.16.1's kernel, including its virtual machine (`vm_compute` is used in examples, refutation witnesses and a few
  finite computations).  No `native_compute`, plugin, functor, or switched-off check.
* Axioms: `Print Assumptions` reports "Closed under the global context" for every theorem in a `T_` file.  `coqchk`
  also lists the constants of `Coq.ssr.ssrunder.Under_rel` (`Under_rel`, `Over_rel`, ...): the standard library
  declares them opaquely through a module type, they are loaded with it, and no theorem here uses them.
* The reading of the source: the code was not run, so that the definitions say what the code does rests on the
  citations in the comments.

### Assumptions of the model

* Threads: sequentially consistent interleavings; aligned 64-bit words are accessed atomically.  In the C++ memory
  model the unlocked accesses of the label table are data races; weak memory behaviour is not modelled.
* Platform: x86-64, little endian, 64-bit `size_t` and `off_t`, page size 4096.
* The output file is a byte memory which the kernel writes back; I/O errors of `mmap`/`ftruncate` are not modelled.  A
  crash is the end of the process without the destructor, not a crash of the machine.
* libc and the kernel: what the wrapped functions return, the file position before the call and the bytes of strings
  they produced are parameters, so theorems hold for every outcome.  Preconditions on them (e.g. a result is not larger
  than the request) are in the hypotheses.
* Fuel: loops whose termination is not structural take fuel; `Fuel` is an outcome of its own and theorems either exclude
  it or prove that enough fuel exists.
* Python: integers and lists are unbounded; an exception is the outcome `Exit`; text is a list of code points.

* Passes: `M_Ir` is a register machine with the instructions the passes look at (branches, switches, selects, index
  computations, casts, calls, returns) plus opaque operations on an arbitrary world.  What the runtime answers to the
  inserted calls is a parameter; `fair` says that a condition comes back as it was handed over (C45_callback).

### Not modelled

* In the passes: vector instructions, unwinding (`invoke`, `resume`), the global constructor that starts the runtime, and
  optimisations that run after the passes (the control-flow log function is declared `ReadNone`, so a later
  optimiser may merge or drop its calls).

* In the DFSan pass: origin tracking and `dfso_` variants, landing pads, the 16-bit and fast-label modes, and the options that PolyTracker does not set.
  Invokes, variadic functions, function pointers passed to custom functions and aliases are left out of `M_DfsanPass`; `M_DfsanAbi` has
  them, for calls alone.  The cache of combined shadows is left out of `M_DfsanPass`; `M_DfsanCache` has it, for shadows alone.  A value of any type is one number with one label (the
  configuration does not track fields of aggregates).  `dfsan_custom.cpp` wrappers other than those in `M_Dfsan`,
  `M_DfsanStr`, `M_DfsanFormat` and `M_DfsanSys`; weak hooks; `tolower` outside the C locale.
* In `M_LlvmPasses`: the optimisations `polytracker/build.py` runs between the passes; widening a condition to 64 bits and
  narrowing it again is the identity (C45 has it with bit widths).
* C54's events are an interface: that instrumented code calls the runtime accordingly is what C58 and C59 prove, for
  programs of `M_Llvm`.  Calls of `munmap` that fail are left out of all three (C100 shows what they do to labels), and `mremap` of
  all of the model.
* C54, C58, C59 and C65–C67 cover one thread; C82 covers the instrumentation of memory accesses in several, with mutexes and atomic accesses but
  without calls, and with sequentially consistent interleavings.  The other concurrency theorems are about each section on its own.
* `spdlog` output, command line tools, Docker and build scripts (but the cavity tools of `build_in_docker` as in `M_PyMutate`: not their arguments, directories, containers and timeouts), plugins, the rest of `grammars.py` and `parsing.py` (partial
  matches, the Earley parser's trees), the rest of
  `tracing.py` (functions, output taints, the methods that traces must provide, which C97 takes from their documentation),
  animations and graph visualisation.
