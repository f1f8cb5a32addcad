INP = "A test samples finitely many inputs; the claim is about every input of every length."
HIST = "A test runs finitely many call histories; the claim is about every history of calls."
SCHED = "Tests see the interleavings the OS happens to produce; the claim is about every interleaving."

# ---------------------------------------------------------------- heap
prop("C01", "Heap behaves as a sorted multiset",
 "After any sequence of Heap calls (constructor, append, extend, remove, popleft, append_and_popleft, popleft_and_append, clear) the heap holds exactly the multiset obtained by performing the same calls on a plain multiset; popleft / popleft_and_append / append_and_popleft return a least element of what the multiset held (after the append in the last case) and heap[0] is a least element; the calls that need a non-empty heap or a present element raise (IndexError / ValueError) exactly when it is missing and then change nothing.",
 "every element type with a strict weak order, every initial list, every finite sequence of operations and arguments",
 HIST, ["big/heap.py:Heap", "big/heap.py:Heap.append", "big/heap.py:Heap.popleft", "big/heap.py:Heap.remove", "big/heap.py:Heap.append_and_popleft", "big/heap.py:Heap.popleft_and_append"],
 "Model the wrapper on top of a literal Gallina transcription of CPython's heapq (_siftup/_siftdown/heapify); prove heap-shape invariant and refinement to a multiset (Permutation) step by step, lift by induction on the operation list.")
prop("C02", "Heap iteration and .queue are sorted and complete",
 "Iterating over an unmodified Heap yields every element exactly once in ascending order and leaves the heap unchanged; heap.queue is the same list.",
 "every heap reachable by any history",
 HIST, ["big/heap.py:Heap.__iter__", "big/heap.py:Heap.HeapIterator", "big/heap.py:Heap.queue"],
 "Iterator modelled as (copy, version); induction on number of __next__ calls using the heap invariant.")
prop("C03", "Modifying a Heap invalidates its iterators",
 "If any mutating call on a Heap succeeds after an iterator was created, every later __next__ of that iterator raises RuntimeError; if no mutating call succeeded it never raises RuntimeError.",
 "every history of heap calls interleaved with any number of iterators",
 HIST, ["big/heap.py:Heap.HeapIterator.__next__", "big/heap.py:Heap._version"],
 "Version counter proved strictly monotone on successful mutation and unchanged on failure.")
prop("C04", "Heap indexing equals indexing the sorted list",
 "heap[i] for an int i, and heap[a:b:c] for a slice, return what indexing sorted(contents) returns (same value, or IndexError exactly when it would).",
 "every heap contents and every int and slice",
 INP, ["big/heap.py:Heap.__getitem__"],
 "Transcribe __getitem__ with nsmallest/nlargest/max/sorted; prove equality with Python list indexing for slices and for every int outside -9..-2 (and -1 on an empty heap); the remaining ints are false of the code: refuted theorem with witness.")
prop("C05", "Heap equality is multiset equality",
 "Two Heaps compare equal exactly when they contain the same multiset of elements, whatever histories produced them, and copy() produces an equal heap that later operations on either side do not affect.",
 "every pair of heaps over a total order, every pair of histories",
 HIST, ["big/heap.py:Heap.__eq__", "big/heap.py:Heap.copy"],
 "queue is the sorted list; uniqueness of sorted permutations under an antisymmetric order.")

# ---------------------------------------------------------------- scheduler
prop("C06", "Scheduler yields in (time, priority, FIFO) order",
 "Whenever the Scheduler yields an event, that event is the first, in order of (time, priority, order of schedule() calls), of all events scheduled and not yet yielded or cancelled at that moment.",
 "every history of schedule/cancel/next calls from any number of threads, every clock",
 SCHED, ["big/scheduler.py:Scheduler._next", "big/scheduler.py:Event.__lt__"],
 "Labelled transition system whose atomic steps are the code's locked regions, on top of the Heap model; invariant over all reachable states.")
prop("C07", "Scheduler never yields early",
 "An event is yielded only when the regulator's now() at that moment is >= the event's time.",
 "every history and interleaving, every monotone clock",
 SCHED, ["big/scheduler.py:Scheduler._next"],
 "Same transition system; step lemma plus trace induction.")
prop("C08", "Scheduler neither loses nor duplicates events",
 "At every moment, the events scheduled so far are exactly the disjoint union of: still queued, yielded once, successfully cancelled.",
 "every history and interleaving",
 SCHED, ["big/scheduler.py:Scheduler.schedule", "big/scheduler.py:Scheduler.cancel", "big/scheduler.py:Scheduler._next"],
 "Conservation invariant (Permutation) over the ghost history.")
prop("C09", "cancel succeeds exactly on queued events",
 "cancel(event) removes precisely that event if it is queued, and otherwise raises ValueError and changes nothing; other events (even with identical time, priority and payload) are unaffected.",
 "every history and every event object",
 HIST, ["big/scheduler.py:Scheduler.cancel", "big/scheduler.py:Event.cancel"],
 "remove uses object identity (no __eq__ on Event); identity = sequence number; uniqueness invariant.")
prop("C10", "non_blocking yields all due events and never sleeps",
 "Draining scheduler.non_blocking() while the clock stands still at now yields exactly the queued events with time <= now, in (time, priority, FIFO) order, leaves exactly the others queued, and never calls sleep.",
 "every queue contents and every clock value",
 INP, ["big/scheduler.py:Scheduler.non_blocking", "big/scheduler.py:Scheduler._next"],
 "Run the model's _next(blocking=False) to exhaustion; induction on the queue.")
prop("C11", "A thread blocked in next() reacts to a newly scheduled earlier event",
 "If a thread is blocked in next(scheduler) and another thread schedules an event with an earlier time (or cancels the awaited one), the blocked thread re-examines the queue instead of sleeping to the old deadline.",
 "every interleaving of the threads with a ThreadSafeRegulator",
 SCHED, ["big/scheduler.py:Scheduler._next", "big/scheduler.py:ThreadSafeRegulator.wake", "big/scheduler.py:ThreadSafeRegulator.sleep"],
 "Prove the positive half (a thread already inside sleep is woken); exhibit the window between releasing the lock and entering sleep as a refutation trace.")
prop("C12", "Scheduler lock discipline",
 "Scheduler calls now() and wake() only while holding the regulator's lock, calls sleep() only while not holding it and only with an interval > 0, never re-enters the lock, and holds no lock after any call returns or raises.",
 "every history and interleaving",
 SCHED, ["big/scheduler.py:Scheduler", "big/scheduler.py:Regulator"],
 "Per-thread program of regulator actions emitted by each method; trace predicate proved by case analysis and induction on loop iterations.")

# ---------------------------------------------------------------- graph
prop("C13", "ready() never yields a node before its predecessors are done",
 "Every node returned by ready() had, at that moment, all of its current predecessors marked done in that view.",
 "every graph and every history of add / remove / view / ready / done / reset calls in which done() is given nodes ready() returned and no node twice in one call",
 HIST, ["big/graph.py:TopologicalSorter.View.ready", "big/graph.py:TopologicalSorter.View._mark_node_done", "big/graph.py:TopologicalSorter.View._add_successor"],
 "Executable model of graph + all views; invariant relating each view's counters to the graph's edges and the view's done set; induction over operation lists.")
prop("C14", "ready() yields each node at most once",
 "Between two resets, a view's ready() never returns the same node twice (unless the node was removed and added again), and returns no duplicates in one call.",
 "every history as in C13", HIST,
 ["big/graph.py:TopologicalSorter.View.ready"],
 "Disjointness invariant of the view's node sets.")
prop("C15", "static_order is a complete topological order",
 "For a graph without cycles, list(graph.static_order()) terminates and contains every node exactly once, each after all of its predecessors; likewise the documented while/ready/done loop.",
 "every acyclic graph built by any history of add and remove calls", INP,
 ["big/graph.py:TopologicalSorter.static_order", "big/graph.py:TopologicalSorter.View"],
 "Progress lemma from acyclicity (some not-done node has only done predecessors), then induction on the number of nodes left.")
prop("C16", "Cycle detection is sound and complete",
 "cycle() returns None exactly when the graph has no directed cycle, and otherwise returns a tuple of distinct nodes forming a directed cycle; ready()/prepare()/static_order() raise CycleError exactly when there is a cycle; cycle() always terminates.",
 "every graph reachable by add/remove, every iteration order of the node set", INP,
 ["big/graph.py:TopologicalSorter.cycle", "big/graph.py:TopologicalSorter.check_for_cycles"],
 "Transcribe Kahn pass and the explicit-stack DFS with a termination argument; dirty-flag invariant over histories.")
prop("C17", "add/remove maintain exactly the declared graph",
 "After any history of add and remove calls, the graph's nodes and dependencies are exactly those of the abstract graph obtained by set union on add and deletion on remove; repeated and duplicated dependencies are ignored; remove of a missing node raises ValueError and changes nothing; len(graph) is the number of nodes.",
 "every history of add/remove", HIST,
 ["big/graph.py:TopologicalSorter.add", "big/graph.py:TopologicalSorter.remove"],
 "Refinement of the nodes dict (counts + successor dicts) to (node set, edge set).")
prop("C18", "Incoherent views are detected",
 "A view raises RuntimeError from bool/ready/done if and only if some dependency was added whose successor had already been yielded by (or done in) that view while its predecessor was not done, and neither endpoint has been removed since.",
 "every history as in C13", HIST,
 ["big/graph.py:TopologicalSorter.View._raise_conflicts", "big/graph.py:TopologicalSorter.View._add_successor"],
 "Invariant tying the conflict tables to graph edges and view sets.")
prop("C19", "Views are independent",
 "ready/done/reset/close on one view never changes what any other view yields.",
 "every pair of views, every history", HIST,
 ["big/graph.py:TopologicalSorter.View"],
 "Frame theorem on the view store.")
prop("C20", "A copied graph is independent of the original",
 "After c = g.copy(), operations on g do not affect c and vice versa, and c behaves as g would have.",
 "every graph and history", HIST,
 ["big/graph.py:TopologicalSorter.copy"],
 "False of the code (views registered with the wrong graph, dirty flag lost): refuted theorems with witnesses; state what does hold.")
prop("C21", "Late dependencies on finished nodes do not block a view",
 "Adding a dependency whose predecessor is already done in a view leaves the successor able to become ready in that view.",
 "every graph, view and added edge", HIST,
 ["big/graph.py:TopologicalSorter.View._add_successor"],
 "False of the code: refuted theorem; prove the safe condition.")
prop("C22", "done() is all-or-nothing",
 "If done() raises ValueError the view is unchanged; naming a node twice in one done() call has the same effect as naming it once.",
 "every view and argument list", INP,
 ["big/graph.py:TopologicalSorter.View.done"],
 "False of the code when an earlier argument was valid and has successors: refuted; prove the condition under which it holds.")

# ---------------------------------------------------------------- state
prop("C23", "State transitions run the documented sequence",
 "Assigning a legal new state calls, in this order: on_exit of the old state, every observer registered at that moment in order, then (after state has changed and next is None) on_enter of the new state; during on_exit and observers state is the old one and next the new one.",
 "every state object, observer list and callback behaviour, arbitrarily nested transitions from on_enter", HIST,
 ["big/state.py:StateManager.state"],
 "Callbacks as arbitrary deterministic programs over the manager (interpreted with fuel); trace semantics.")
prop("C24", "No nested transition",
 "While a transition is in progress every attempt to assign state raises TransitionError and changes nothing; assigning None, the current state object, or an instance of the wrong class raises and changes nothing.",
 "every point inside every transition", HIST,
 ["big/state.py:StateManager.state", "big/state.py:TransitionError"],
 "Invariant of the interpreter.")
prop("C25", "A failed transition does not wedge the manager",
 "If on_exit or an observer raises, a later transition is still possible.",
 "every callback behaviour", HIST,
 ["big/state.py:StateManager.state"],
 "False of the code (next stays set): prove that after such a failure every later assignment raises, for all histories.")
prop("C26", "Observer list changes apply from the next transition",
 "Modifying the observers list from inside an observer or on_exit does not alter which observers are called in ... the current transition once observers have begun; the next transition uses the new list.",
 "every modification made by any callback", HIST,
 ["big/state.py:StateManager.state"],
 "Cache (_observers_copy/_observers_tuple) invariant.")

# ---------------------------------------------------------------- version
prop("C27", "Version ordering is a strict total order",
 "For versions, < is irreflexive, transitive and total with respect to ==, and == is an equivalence.",
 "every triple of Version objects", INP,
 ["big/version.py:Version.__lt__", "big/version.py:Version.__eq__"],
 "Lexicographic comparison of the comparison tuple; proved for all field values.")
prop("C28", "Equal versions have equal hashes",
 "v == w implies hash(v) == hash(w).",
 "every pair of Version objects", INP,
 ["big/version.py:Version.__hash__", "big/version.py:Version.__eq__"],
 "False of the code (hash uses un-normalised fields): refuted; prove it for versions with identical stored fields.")
prop("C29", "str(Version) parses back to an equal version",
 "For every version v constructed from a string, Version(str(v)) == v.",
 "every parsable version string", INP,
 ["big/version.py:Version.__str__", "big/version.py:Version.__init__"],
 "Backtracking matcher for the PEP 440 regular expression, printer, and a round-trip proof.")
prop("C30", "Versions order as PEP 440 prescribes",
 "For version strings s and t, Version(s) < Version(t) iff PEP 440 puts s before t: epoch, release with trailing zeros ignored, pre-release phase and number, post, dev, then local segments.",
 "every pair of version strings", INP,
 ["big/version.py:Version._tuple"],
 "Independent specification of PEP 440 grammar and order; equivalence theorem with provisos; refuted where the code departs (dev before alpha, implicit .dev/.post numbers, case of local segments).")

# ---------------------------------------------------------------- text: splitting
prop("C31", "multisplit with keep preserves the text",
 "With strip false, joining what multisplit yields with keep=True or ALTERNATING, or flattening AS_PAIRS, gives back s exactly.",
 "every s, every list of non-empty separators, every maxsplit, both values of separate and reverse", INP,
 ["big/text.py:multisplit"],
 "Model re.split over the generated alternation pattern (longest-first), then the post-processing; induction on the string.")
prop("C32", "multisplit splits at every separator and nowhere else",
 "With maxsplit=-1 no yielded non-separator string contains a separator, and every kept separator string is a separator (separate=True) or a concatenation of separators (separate=False); the split is leftmost and, at each position, the longest separator is used.",
 "every s and separators", INP,
 ["big/text.py:multisplit", "big/text.py:__separators_to_re"],
 "Relational specification of the leftmost-longest split; model = spec; spec is functional.")
prop("C33", "maxsplit bounds the number of splits",
 "multisplit(maxsplit=n) with n >= 0 yields at most n+1 pieces; the pieces before the remainder are the first pieces of the unlimited split.",
 "every s, separators, n", INP, ["big/text.py:multisplit"],
 "Induction on n over the splitter.")
prop("C34", "separate=False merges adjacent separators",
 "With separate=False, only the first and last non-separator strings can be empty, and no two kept separator strings are adjacent; (the documented claim that ALTERNATING never yields an empty non-separator string is false at the ends).",
 "every s and separators", INP, ["big/text.py:multisplit"],
 "Maximal-run lemma; refutation of the unconditional claim.")
prop("C35", "reverse=True is the mirror image",
 "With strip false, multisplit(s, seps, reverse=True, ...) yields the mirror image of multisplit(reversed s, reversed seps, ...) (with strip=True this is false: the two ends are stripped by different rules); for every built-in separator tuple the precomputed reversed tuple is equivalent to the reversed separators.",
 "every s, separators, keep=ALTERNATING or False, maxsplit and separate", INP,
 ["big/text.py:multisplit", "big/text.py:_reversed_builtin_separators"],
 "Mirror theorem at API level; table check lifted by a lemma on separator-set extensionality.")
prop("C36", "multistrip removes exactly leading and trailing separators",
 "multistrip(s, seps) removes a leading and a trailing run of separators and nothing else, and the result neither starts nor ends with a separator.",
 "every s and separators", INP, ["big/text.py:multistrip"],
 "Model the anchored searches including Python's $ (which also matches before a final newline): refuted for strings ending in a newline that is not a separator, proved otherwise.")
prop("C37", "multipartition shape and content",
 "multipartition(s, seps, count) returns exactly 2*count+1 strings whose concatenation is s, the odd ones being separators or empty padding; multirpartition likewise from the right.",
 "every s, separators, count, reverse, separate", INP,
 ["big/text.py:multipartition", "big/text.py:multirpartition"],
 "From the multisplit theorems.")
prop("C38", "normalize_whitespace",
 "normalize_whitespace(s) equals s with every maximal run of whitespace replaced by the replacement string; the fast path and the general path agree; it is idempotent.",
 "every s", INP, ["big/text.py:normalize_whitespace"],
 "Model both paths; independent run-replacement spec; equality.")
prop("C39", "split_quoted_strings preserves the text",
 "Concatenating all strings of all tuples yielded by split_quoted_strings recreates s; quoted and unquoted segments are delimited as documented.",
 "every s, quote set, escape and initial state", INP,
 ["big/text.py:split_quoted_strings"],
 "Model the generator on top of multisplit; invariant on buffer; join theorem.")
prop("C40", "split_delimiters preserves the text and nests delimiters correctly",
 "Concatenating everything split_delimiters yields recreates s; opens and closes are properly nested and matched; the parser never pops an empty stack.",
 "every s, every delimiter table", INP,
 ["big/text.py:split_delimiters", "big/text.py:_delimiters_to_state_and_tokens"],
 "Transcribe table construction and the resplitting loop; theorem for single-character tokens; refuted for overlapping multi-character delimiters (consumed not advanced on flush).")

# ---------------------------------------------------------------- text: lines
prop("C41", "lines() is a faithful decomposition",
 "lines(s) yields every line once in order with consecutive line numbers starting at line_number; concatenating info.line over all lines recreates s; info.line == line + info.end.",
 "every s and separators", INP, ["big/text.py:lines", "big/text.py:LineInfo"],
 "Model on multisplit AS_PAIRS.")
prop("C42", "Lines modifiers account for every character",
 "After any composition of lines_strip, lines_rstrip, lines_strip_indent, lines_strip_line_comments and filters, info.leading + line + info.trailing + info.end == info.line for every yielded pair.",
 "every s, every pipeline", INP,
 ["big/text.py:LineInfo.clip_leading", "big/text.py:LineInfo.clip_trailing", "big/text.py:lines_strip", "big/text.py:lines_rstrip"],
 "Invariant of clip_leading/clip_trailing preserved by each modifier; induction on the pipeline.")
prop("C43", "Line column numbers stay consistent",
 "info.column_number always equals the starting column plus the display width of info.leading.",
 "every s, every pipeline", INP,
 ["big/text.py:LineInfo.clip_leading", "big/text.py:LineInfo.clip_trailing"],
 "Proved without tabs; refuted when a tab was clipped and the rest of the line is then clipped.")
prop("C44", "lines_strip_indent accepts every dedent to an earlier level",
 "Dedenting to a column that is currently an open indent level is accepted and restores that level's indent number; anything else raises IndentationError.",
 "every sequence of line indents", INP, ["big/text.py:lines_strip_indent"],
 "Stack model of Python-style indentation as spec; refuted for multi-level dedents; exact characterisation proved.")
prop("C45", "wrap_words respects the margin and preserves the words",
 "Every output line of wrap_words is at most margin long unless it consists of a single longer word; words appear unmodified, in order.",
 "every list of words and every margin", INP, ["big/text.py:wrap_words"],
 "Fold invariant on (column, output); theorem for words without embedded whitespace plus newline words; refute two_spaces=False.")
prop("C46", "int_to_words is faithful",
 "An independent reader of English numerals (that also knows the library's own spelling of one scale word and one ordinal) reads int_to_words(i) as i, and the ordinal as the i-th; larger integers become their decimal digits; distinct integers always get distinct words.",
 "every integer, flowery and plain, cardinal and ordinal", INP, ["big/text.py:int_to_words"],
 "Independent numeral reader on tokens; induction over the quantity table.")
prop("C47", "split_title_case preserves the text",
 "Joining the words yielded by split_title_case gives s, no word is empty (unless s is), and words begin exactly at the upper-case letters that follow a lower-case letter or (split_allcaps) are the last of several upper-case letters and followed by a lower-case one.",
 "every s and any upper/lower classification", INP, ["big/text.py:split_title_case"],
 "Model the iterator loop; invariant.")
prop("C48", "combine_splits applies exactly all split points",
 "combine_splits(s, *arrays) yields non-empty pieces that concatenate to s and whose boundaries are exactly the union of the boundaries of all arrays.",
 "every s and arrays that each concatenate to s", INP, ["big/text.py:combine_splits"],
 "Model with the heapq transcription; boundary-set invariant.")
prop("C49", "gently_title changes only letter case",
 "gently_title uppercases exactly the characters named by its documented rules (first of a word, after quote marks beginning a word, after O' or D' beginning a word) and leaves every other character unchanged; titling twice is the same as once.",
 "every s", INP, ["big/text.py:gently_title"],
 "State machine as a fold; per-character theorem; idempotence.")

# ---------------------------------------------------------------- other modules
prop("C50", "PushbackIterator is a stack in front of an iterator",
 "The values obtained from a PushbackIterator are the pushed values last-in-first-out, then the wrapped iterator's, each exactly once; truth-testing never loses or reorders a value.",
 "every history of next / push / bool / next(default)", HIST,
 ["big/itertools.py:PushbackIterator"],
 "Refinement to a list.")
prop("C51", "Log nesting and elapsed times are exact",
 "Every logged event is reported once, in order, with depth equal to the number of enter() calls not yet exited at that moment; start_time + elapsed_time of each event equals the next event's start_time.",
 "every history of log/enter/exit and every clock", HIST,
 ["big/log.py:Log"], "State model, induction on history.")
prop("C52", "Log prints times correctly",
 "The printed time of an event is its number of seconds and nanoseconds.",
 "every time value", INP, ["big/log.py:Log.print"],
 "Model format_time: refuted for t >= 1s, proved for t < 1s.")
prop("C53", "translate_filename_to_exfat produces only legal characters",
 "No character of the result is disallowed in an exFAT filename.",
 "every non-empty str", INP, ["big/file.py:translate_filename_to_exfat"],
 "False for control characters (mapped to '?NN'): refuted, proved for all other inputs.")
prop("C54", "translate_filename_to_unix produces only legal characters",
 "The result has the same length, contains no NUL and no slash, changes no other character, and translating again changes nothing.",
 "every non-empty str", INP, ["big/file.py:translate_filename_to_unix"],
 "Map over characters.")

# ---------------------------------------------------------------- added as the model grew
prop("C55", "Version() accepts exactly the PEP 440 version strings",
 "Version(s) raises ValueError iff s is not a version string of PEP 440's grammar (with optional surrounding whitespace and leading v); an accepted string has a correctly spelled pre-release label; the only other exception is AssertionError, and only for a label not in lower case.",
 "every str s", INP, ["big/version.py:Version.__init__", "big/version.py:VERSION_PATTERN"],
 "Soundness and completeness of the backtracking matcher on the pattern against an independent grammar.")
prop("C57", "lines_sort is a stable sort",
 "lines_sort yields exactly the lines it was given (none lost, duplicated or modified), in ascending order (descending with reverse=True), and lines that compare equal stay in their original order.",
 "every list of lines, every strict weak order of keys, both directions", INP, ["big/text.py:lines_sort"],
 "Insertion sort model (list.sort's contract); permutation, sortedness and stability by induction.")
prop("C58", "The line filters keep exactly the right lines",
 "lines_filter_empty_lines, lines_containing, lines_grep and lines_filter_line_comment_lines yield, in order and unmodified, exactly the lines satisfying their condition (not empty; contains the substring; the pattern is found; not 'whitespace then a comment marker'), inverted where requested.",
 "every list of lines and arguments", INP, ["big/text.py:lines_filter_empty_lines", "big/text.py:lines_containing", "big/text.py:lines_grep", "big/text.py:lines_filter_line_comment_lines"],
 "filter characterisation; regular expression of comment markers by matcher soundness and completeness.")
prop("C59", "lines_strip_line_comments cuts at the first unquoted marker",
 "Every line is cut at the first comment marker that is outside every quoted string, where a multi-line quote may have been opened on an earlier line; lines without one are unchanged; SyntaxError is raised exactly for an unterminated single-line quote, a line break inside one, or a multi-line quote still open at the end.",
 "every list of lines and marker/quote arguments", INP, ["big/text.py:lines_strip_line_comments"],
 "Induction over the lines on top of the split_quoted_strings theorem.")
prop("C60", "re_partition cuts the text at the leftmost matches",
 "re_partition(s, pattern, count) returns a tuple of 2*count+1 elements, text and matches in turn; the matches are the first count leftmost non-overlapping matches of the pattern (then None), the text before, between and after them is the text of s around the matches, so that all of it together is s; a negative count raises ValueError.",
 "every str s, every regular expression, every count", INP, ["big/text.py:re_partition"],
 "The shape for every pattern; the cutting for patterns without anchors that do not match the empty string (the backtracking matcher of Regex.v is shown to be one); refuted for anchored patterns ('a$' in 'aba') and empty matches.")
prop("C61", "reversed_re_finditer yields non-overlapping matches from right to left and misses none",
 "For every pattern reversed_re_finditer ends without an exception, every match it yields is one the pattern finds at that place when the text is cut off somewhere behind it, and each match lies wholly before the one yielded before. For a pattern without anchors and lookaround that does not match the empty string, moreover no match lies wholly in a gap between the matches yielded, and each is the pattern's match in the text before the previous one, with none that starts later ending later.",
 "every str and every pattern", INP, ["big/text.py:reversed_re_finditer"],
 "The re module as a parameter with laws; loop invariant over the forward matches not yet looked at; the laws proved for the backtracking matcher of Regex.v.")
prop("C62", "re_rpartition cuts the text at the matches found from the right",
 "re_rpartition(s, pattern, count) returns a tuple of 2*count+1 elements, text and matches in turn; the matches are the first count matches of reversed_re_finditer, and the text around them is the text of s around the matches, so that all of it together is s.",
 "every str s, every regular expression, every count", INP, ["big/text.py:re_rpartition", "big/text.py:re_partition"],
 "As C60, on top of C61: the text of a match cannot appear again behind it; refuted for anchored patterns ('^a' in 'aba').")
prop("C63", "reversed_re_finditer is a search from right to left",
 "Of all matches in the text before the previous match, reversed_re_finditer yields the one that ends last and of these the longest, and it yields no match twice.",
 "every str and every pattern", INP, ["big/text.py:reversed_re_finditer"],
 "False of the code: refuted with (ab|cd|bcde) in 'abcde' and for duplicates with (abcdef|efg|) in 'abcdefgh'; proved for patterns whose later matches end later.")
prop("C64", "multisplit with strip is multistrip, then the split",
 "multisplit(s, seps, strip=X, ...) for X = True, LEFT, RIGHT (any maxsplit) and PROGRESSIVE (maxsplit=-1) yields exactly what multisplit(s', seps, strip=False, ...) with the same other arguments yields, where s' is multistrip(s, seps, left=X is not RIGHT, right=X is not LEFT). In particular a string of separators only yields one empty string.",
 "every str s, separators, keep, maxsplit, reverse, separate", INP, ["big/text.py:multisplit", "big/text.py:multistrip"],
 "Case analysis on the model, with C32 for the early exit on an empty string.")
prop("C65", "multisplit with strip=PROGRESSIVE strips the far end only when the splitting gets there",
 "multisplit(s, seps, strip=PROGRESSIVE, maxsplit=n, ...) strips the near end of s, splits what is left at most n times (from the left, or with reverse from the right), drops the empty strings (and their separators) at the far end, and presents the result as keep asks. maxsplit=None means the same as maxsplit=-1. No separators at all: ValueError.",
 "every str s, separators, keep, n, reverse, separate", INP, ["big/text.py:multisplit"],
 "The index arithmetic on the alternating list is shown equal to a recursive strip_end / strip_start of the split of C32. Refuted for maxsplit=None, which leaves the far end unstripped.")
prop("C66", "multisplit can stand in for str.split(None, n) and str.rsplit(None, n)",
 "list(multisplit(s, strip=PROGRESSIVE, maxsplit=n)) == s.split(None, n), with reverse=True == s.rsplit(None, n), and without a limit (also with strip=True) == s.split().",
 "every str s, every n", INP, ["big/text.py:multisplit"],
 "Relational specification of str.split (words are runs of non-space characters; after n words the rest is one string), proved unique; proved for every s with a non-space character; refuted for blank strings ([''] instead of []).")
prop("C67", "Version from keyword arguments is valid and can be written and read back",
 "Version(epoch=..., release=..., ...) without a string is accepted exactly if release is given and not empty, epoch, serial, post and dev are not negative, and local (if given) is a non-empty sequence of segments of letters and digits; otherwise it raises ValueError. The version made has exactly those fields, and Version(str(v)) == v.",
 "every combination of keyword arguments of the right types", INP, ["big/version.py:Version.__init__", "big/version.py:Version.__str__"],
 "The constructor's keyword branch as a function of optional fields, on top of C27; the round trip is false for trailing zeros, negative release numbers, a serial on a final version and a newline in local: each refuted, the rest proved.")
prop("C68", "Version of sys.version_info and the major/minor/micro attributes",
 "Version(version_info) has the major, minor and micro numbers, release level and serial of version_info (no serial if it is 0 or the level is final) and nothing else set. For a Version parsed from text, major, minor and micro are the first three numbers of the release as written, or 0 where there are fewer.",
 "every version_info with numbers >= 0; every text Version accepts", INP, ["big/version.py:Version.__init__", "big/version.py:Version.major", "big/version.py:Version.minor", "big/version.py:Version.micro"],
 "The text built from version_info is run through the regular expression symbolically (which alternative of 'a|b|...|alpha' wins is settled by backtracking); release clipping does not change the first three numbers.")
prop("C69", "fgrep finds exactly the lines that contain the text",
 "fgrep(path, text) returns exactly the lines of the file that contain text, in their order and without their line breaks; enumerate=True adds their numbers, from 1. (\\n, \\r\\n and \\r end a line of a text file, \\n one of a binary file; nothing follows the last line break.) bytes with an encoding raises ValueError.",
 "every file, text, mode", INP, ["big/file.py:fgrep"],
 "Relational specification of the lines of a file (proved total and unique); str.split on the newline-translated contents gives the same lines, plus '' at the end; refuted for the empty text.")
prop("C70", "case-insensitive fgrep finds the lines that contain the text in any case",
 "fgrep(path, text, case_insensitive=True) returns the lines of which some part equals text when both are lowercased; in particular every line that contains text. Lowercasing the whole file at once is the same as lowercasing each line.",
 "every file, text, Unicode case tables", INP, ["big/file.py:fgrep"],
 "str.lower as CPython does it, with the context-dependent capital sigma, over arbitrary case tables; it is shown to commute with splitting into lines. Refuted for capital sigma and for characters that lower() makes two of; proved for lines without them.")
prop("C71", "grep finds exactly the lines that match",
 "grep(path, pattern) returns exactly the lines of the file in which the pattern matches somewhere, in their order, with enumerate=True numbered from 1.",
 "every file and pattern", INP, ["big/file.py:grep"],
 "As C69, with the re module as a parameter. Refuted for patterns that match an empty line.")
prop("C72", "safe_mkdir makes the directory, also among other processes",
 "safe_mkdir(path) alone: fails exactly if path is below a file, changing nothing; otherwise path and all above it are directories afterwards, a file at path is gone, and nothing else changes. Among other processes: if it returns, there was a directory at path during the call; its own calls only make directories where nothing was, or remove a file at path. Among processes that remove nothing at path or above it and make no file there, it fails exactly if path is below a file, and otherwise path is a directory when it returns. In particular any number of concurrent calls succeed, in every order of their system calls, if no file is at or above a path. (It is not promised, and false, that concurrent calls succeed when a file is at path.)",
 "every file system, path, schedule, and every behaviour of other processes", SCHED, ["big/file.py:safe_mkdir"],
 "A function is a tree of system calls (os.makedirs written out); induction over the path; interleavings by rely/guarantee arguments, for any processes that keep to the rely condition. With a file at path two processes can race, and one gets FileNotFoundError (C72_race_refuted).")
prop("C73", "safe_unlink removes the file and does not mind if there is none",
 "safe_unlink(path) alone never fails; afterwards no file is at path, and nothing else has changed. Among other processes its own calls only remove a file at path, and if it returns there was a moment without a file at path; it fails only if another process has removed or replaced the file during the call, so it never fails among processes that do not. (It is not promised, and false, that it is safe among processes that do.)",
 "every file system, path, schedule, and every behaviour of other processes", SCHED, ["big/file.py:safe_unlink"],
 "As C72. Two processes unlinking one file, and one gets FileNotFoundError: C73_race_refuted.")
prop("C74", "touch never harms what is there",
 "touch(path) gives what is at path the current modification time and does not change its contents; where nothing is, it makes an empty file; it fails exactly if the directory is missing. Any number of concurrent touches succeed and change no contents; the same among processes that make or remove nothing at path nor remove its directory (but may write to the file): what is there keeps the contents it has at that moment. (Not among processes that make a file at path meanwhile: it can be emptied.)",
 "every file system, path, schedule, and every behaviour of other processes", SCHED, ["big/file.py:touch"],
 "As C72. A file made between exists() and open() is emptied: C74_race_refuted.")
prop("C75", "pushd restores the current directory",
 "with pushd(path): block runs the block in path; afterwards the current directory is the one before the with statement, whatever the block did, also if it raised an exception, which is passed on; only if that directory is gone by then OSError is raised. If path is no directory the block is not run and nothing changes. Code that changes directories with pushd only, however nested, ends where it began.",
 "every block (any code), path and file system", HIST, ["big/file.py:pushd"],
 "Blocks are arbitrary functions on the world; nesting by induction. A pushd object that was made earlier or is used twice, which is not documented, goes back to where it was made (C75_made_earlier_refuted, C75_reused_refuted).")
prop("C76", "split_text_with_code keeps all text",
 "The characters of s that are not whitespace are, in order, those of the words split_text_with_code(s) returns: nothing is lost, repeated or invented, whatever the settings.",
 "every str or bytes s and every setting", INP, ["big/text.py:split_text_with_code"],
 "Invariant of the character-by-character state machine. Refuted when the last line is code without a newline: that line is lost.")
prop("C77", "split_text_with_code without code: the words of each paragraph",
 "With allow_code=False it never raises; the result is the words of each paragraph (lines without a blank line between) in order, '\\n\\n' between paragraphs, and [''] if there is no word.",
 "every str or bytes s", INP, ["big/text.py:split_text_with_code"],
 "Specification by lines: each line has a class (blank, text, code), classes are grouped into blocks; the state machine is shown to emit the words of the blocks, by simultaneous induction over its line-boundary states.")
prop("C78", "split_text_with_code keeps code blocks line by line",
 "Lines indented by at least code_indent columns are code, kept as they are up to the last word (tabs expanded if asked); between two lines of a code block there is one '\\n' per newline in s; between a code block and its neighbours there is '\\n\\n'; paragraphs are split into words.",
 "every str or bytes s with no whitespace but space, tab and newline; every tab_width > 0, code_indent", INP, ["big/text.py:split_text_with_code"],
 "As C77. Refuted with two code blocks with text between (AssertionError or an extra '\\n') and for a last line of code without newline.")
prop("C79", "merge_columns raises exactly when it should",
 "merge_columns raises OverflowError exactly if overflow_strategy is RAISE and some line of some column, without trailing whitespace, is longer than max_width; AssertionError exactly if there are no columns or the strategy is not one of the three; it never fails otherwise.",
 "every list of columns, separator, strategy, overflow_before, overflow_after", INP, ["big/text.py:merge_columns"],
 "The two loops over the lines of a column, with their bookkeeping of intervals; termination of the loop over rows by the number of lines left.")
prop("C80", "merge_columns lines up columns in which no line is too wide",
 "If no line is too wide, there are as many rows as the longest column has lines, and row r is line r of every column, padded with spaces to max_width, joined with the separator (trailing whitespace removed).",
 "every list of columns, separator, strategy", INP, ["big/text.py:merge_columns"],
 "Instance of C81 with no intruding lines. Refuted for lines with trailing spaces beyond max_width: they push the following columns right.")
prop("C81", "merge_columns with lines that are too wide loses nothing",
 "With INTRUDE_ALL (DELAY_ALL) every line of every column is shown in exactly one row, in order; in a row that shows a line near a line that is too wide (a line up to the last such one) no later column is shown; every other row shows the next line of each column, padded to its width.",
 "every list of columns, separator, overflow_before, overflow_after", INP, ["big/text.py:merge_columns"],
 "Column-by-column specification (a column shows its lines in the rows the columns before leave free) against the row-by-row code; the merged intervals are shown to be the lines near a line that is too wide. Refuted: overflow_after lines after the last line of a column are dropped.")
prop("C82", "A bound inner class has one identity per object",
 "Reading a class decorated with BoundInnerClass or UnboundInnerClass through an object o always succeeds; it gives a class made for o (bound to o, same name, the decorated class as first base); every later read gives that same class, no other object or name ever gives it, and Outer.Inner is always the decorated class itself.",
 "every program of class statements, every object, every history of attribute reads and class statements", HIST, ["big/boundinnerclass.py:_Worker.__get__", "big/boundinnerclass.py:BoundInnerClass", "big/boundinnerclass.py:UnboundInnerClass"],
 "World of classes with C3 linearisation and instance dictionaries; invariant of the caches by induction on histories; termination by a rank on attribute names. Refuted: attribute name other than the class name, two threads, mutually named bases, an attribute called object.")
prop("C83", "A bound inner class has the method resolution order of the class, doubled",
 "The method resolution order of o.Inner is that of Outer.Inner with, in front of every decorated class C in it, the class o.C; making it never raises TypeError.",
 "every class hierarchy with a C3 linearisation (multiple inheritance, diamonds, other outer classes), every history", INP, ["big/boundinnerclass.py:_Worker.__get__"],
 "A theorem about the C3 merge: merging the doubled linearisations of the bases after the linearisation of the class is the doubled linearisation; induction over the merge.")
prop("C84", "Every __init__ runs once, and exactly those of bound inner classes get the outer object",
 "Constructing o.Inner() runs the __init__ of every class in the method resolution order of Outer.Inner exactly once and in that order (if each calls super().__init__()); those of classes decorated with BoundInnerClass get o as extra argument, the others do not.",
 "every class hierarchy, every choice of which classes have an __init__, every history", INP, ["big/boundinnerclass.py:BoundInnerClass._wrap", "big/boundinnerclass.py:UnboundInnerClass._wrap"],
 "Interpreter for chains of super().__init__() calls over the doubled method resolution order. Refuted: a bound class without __init__ (TypeError, or the __init__ of a sibling is left out), an outer object that is gone (None is passed).")
prop("C85", "get_int_or_float gives the same number, as an int when it is whole",
 "get_int_or_float returns an int unchanged; for a float it returns the same number, as an int exactly if it is whole; for another object it returns int(o) if that succeeds, else float(o) treated the same way, else the default; it never raises if the conversions raise only TypeError or ValueError.",
 "every int, float and other object, every default", INP, ["big/builtin.py:get_int_or_float"],
 "Floats as m*2^e, infinities and NaN; values in Q. Refuted for infinities and NaN.")
prop("C86", "try_int/try_float and get_int/get_float agree",
 "try_int(o) is True exactly if get_int(o, default) returns int(o), False exactly if it returns the default; likewise for float.",
 "every object, every default", INP, ["big/builtin.py:try_int", "big/builtin.py:try_float", "big/builtin.py:get_int", "big/builtin.py:get_float"],
 "Case analysis over the outcome of the conversion. Refuted: OverflowError escapes both.")
prop("C87", "timestamp_3339Z says the right instant",
 "timestamp_3339Z(t) is YYYY-MM-DDTHH:MM:SS[.ffffff]Z, valid in the Gregorian calendar, for exactly the instant of t; microseconds are shown as documented (want_microseconds, or whether the type of t has them); it raises TypeError exactly for unsupported types, and otherwise fails exactly outside the years 1 to 9999.",
 "every int, float, struct_time, datetime (naive or aware) or None, every want_microseconds, every local time zone", INP, ["big/time.py:timestamp_3339Z"],
 "Calendar conversion proved right for all days; decimal fields of fixed width. Refuted: floats lose their microseconds, years before 1000, struct_time in UTC not labelled GMT.")
prop("C88", "timestamps sort in the order of time",
 "Comparing two results of timestamp_3339Z as strings compares their instants; equal strings are the same instant (to the microsecond, or second if microseconds are left out).",
 "every two instants", INP, ["big/time.py:timestamp_3339Z"],
 "Lexicographic order of fixed-width decimal fields; monotonicity of the calendar. Refuted: with and without microseconds mixed; years before 1000.")
prop("C89", "timestamp_human says the right local time",
 "timestamp_human(t) is YYYY/MM/DD HH:MM:SS[.ffffff] for the local wall time at the instant of t, with microseconds as documented.",
 "every int, float, struct_time, datetime or None, every want_microseconds, every local time zone", INP, ["big/time.py:timestamp_human"],
 "As C87, with the time zone as a function from instants to offsets. Refuted as a name for the instant: when clocks go back two instants have the same timestamp.")
prop("C56", "lines_strip and lines_rstrip strip the line and keep what they strip",
 "lines_strip yields every line without its leading and trailing whitespace (or separators), lines_rstrip without the trailing; what is taken off, and it must be whitespace (or separators), is added to info.leading and info.trailing, except that a line of which nothing is left goes to trailing whole.",
 "every sequence of lines, every list of separators", INP, ["big/text.py:lines_strip", "big/text.py:lines_rstrip", "big/text.py:LineInfo.clip_leading", "big/text.py:LineInfo.clip_trailing"],
 "Relation taken_off between the pairs before and after; the strip functions specified by what is taken off. Refuted: with separators of more than one character leading and trailing can be cut inside a separator.")
prop("C90", "lines_convert_tabs_to_spaces puts the text at the right screen column",
 "The line yielded has no tabs, and every character is at the screen column it had with tab stops every tab_width columns; info is unchanged.",
 "every line, every tab width", INP, ["big/text.py:lines_convert_tabs_to_spaces"],
 "Inductive specification of tab stops; induction over the line. Refuted for a line from which something was clipped before.")
prop("C91", "parse_delimiters accepts exactly well nested text and cuts it at the delimiters",
 "parse_delimiters (deprecated) yields the text cut at every delimiter, so that joining all strings recreates s, exactly if s is well nested (every opened delimiter is closed by its own closing delimiter; no closing delimiter without its opening one; quote-like delimiters hide everything but a backslash and their closing delimiter); otherwise it raises ValueError after yielding a start of s. Bad delimiters are rejected at once. No tuple is all empty or has both open and close.",
 "every text, every list of delimiters", INP, ["big/deprecated.py:parse_delimiters", "big/deprecated.py:Delimiter"],
 "Inductive grammar of well nested token lists; soundness and completeness of the stack machine by induction.")
prop("C92", "the old split_quoted_strings preserves the text and finds the quoted strings",
 "big.deprecated.split_quoted_strings yields segments that join to s; a segment is marked quoted exactly if it is a quoted string: it starts with a quote mark (three, if there are three and triple_quotes is true) outside quotes and ends with the next such mark that no backslash escapes, or at the end of s.",
 "every text, every set of quote marks, every escape character", INP, ["big/deprecated.py:split_quoted_strings"],
 "Inductive specification of the segments; completeness by induction, soundness by totality of the specification. Refuted: a quote mark outside quotes at the very end of s raises RuntimeError.")
prop("C93", "lines_strip_comments cuts each line at the first marker outside quotes",
 "big.deprecated.lines_strip_comments yields each line up to the first comment marker that is outside quoted strings, without whitespace before it (if rstrip), and unchanged if there is none; what is cut off goes to info.trailing.",
 "every sequence of lines, every list of markers, every set of quote marks", INP, ["big/deprecated.py:lines_strip_comments"],
 "On top of C92. Refuted: a comment that ends with a quote mark raises RuntimeError.")
prop("C94", "encode_strings encodes every str inside, and keeps everything else",
 "encode_strings(o, encoding) returns o with every str, at any depth inside dicts, sets, lists and tuples (and subclasses of these), replaced by its encoding; bytes are kept, as are the types, sizes, orders and associations of the containers. It raises TypeError exactly if there is something of another type inside, and otherwise fails only if a str cannot be encoded.",
 "every value (finite tree of containers), every encoding", INP, ["big/text.py:encode_strings", "big/text.py:_recursive_encode_strings"],
 "Inductive relation between a value and its encoding; equivalence by induction on values. Refuted: a str and an equal bytes collide as elements or keys; subclasses whose constructor does not take the contents.")
prop("C95", "the separator tuples are what Python, Unicode and ASCII define",
 "str_whitespace contains exactly the characters for which str.isspace() is true, and '\\r\\n'; unicode_whitespace the same without the four ASCII separators; ascii_whitespace what of that is ASCII; bytes_whitespace what bytes.isspace() accepts; the linebreaks tuples likewise for the characters at which splitlines() breaks lines; each ..._without_crlf lacks only '\\r\\n'; no tuple has duplicates.",
 "every code point", "A test can enumerate the table but checks it against the interpreter it runs on; the statement is about all code points.", ["big/text.py:str_whitespace", "big/text.py:unicode_whitespace", "big/text.py:ascii_whitespace", "big/text.py:bytes_whitespace", "big/text.py:str_linebreaks", "big/text.py:bytes_linebreaks"],
 "For an arbitrary code point, by linear arithmetic over the ranges that define the classes.")
prop("C96", "multisplit and lines with the default line breaks agree with splitlines",
 "list(multisplit(s, linebreaks, keep=keepends, separate=True)), without an empty string at its end, is s.splitlines(keepends); an empty string is at its end exactly if s is empty or ends with a line break. lines(s) yields the same lines. The same for bytes with bytes_linebreaks.",
 "every str and bytes string, both values of keepends", INP, ["big/text.py:multisplit", "big/text.py:lines", "README.md:Reimplementing library functions using multisplit"],
 "From C32 and C95 by induction on the split, against an executable model of splitlines.")
prop("C97", "multisplit at one separator is str.split, str.rsplit",
 "multisplit(s, [sep], maxsplit=n, separate=True) yields s.split(sep, n), and with reverse=True s.rsplit(sep, n): cuts at the leftmost (rightmost) occurrences that do not overlap, at most n.",
 "every string, every non-empty separator, every maxsplit", INP, ["big/text.py:multisplit", "README.md:Reimplementing library functions using multisplit"],
 "From C32, with str.split specified by first/last occurrences. Refuted for maxsplit below -1, which to str.split means no limit, to multisplit no split.")
prop("C98", "multipartition at one separator is str.partition, str.rpartition",
 "multipartition(s, [sep]) is s.partition(sep) and multirpartition(s, [sep]) is s.rpartition(sep), also if sep is not in s.",
 "every string, every non-empty separator", INP, ["big/text.py:multipartition", "big/text.py:multirpartition", "README.md:Reimplementing library functions using multisplit"],
 "From C37.")
prop("C99", "multisplit with strip=PROGRESSIVE reimplements str.split() and str.rsplit()",
 "list(multisplit(s, whitespace, maxsplit=n, reverse=r, strip=PROGRESSIVE)), without an empty string at its end, is s.split(None, n) or s.rsplit(None, n) - for every s, also empty or blank.",
 "every string, every maxsplit >= -1, both directions", INP, ["big/text.py:multisplit", "README.md:Reimplementing library functions using multisplit"],
 "From C66 for strings that are not blank, and directly for the others.")
prop("C100", "an accessor is the state of the state manager, and nothing else",
 "In a class decorated with accessor(attribute, state_manager), reading, assigning or calling self.attribute does exactly what self.state_manager.state does - same values, same effects, same exceptions - in every program; no other attribute of the class changes. If both names are the same (or two accessors name each other) every access ends in RecursionError.",
 "every class, every pair of names, every program that uses the object, every behaviour of the state manager and all other objects", HIST, ["big/state.py:accessor"],
 "Programs as interaction trees over attribute reads, assignments and calls; equality of the run of a program on the decorated class and of the rewritten program on the undecorated one, by induction on programs.")
prop("C101", "a dispatched event is the event of the current state",
 "In a class where event is decorated with dispatch(state_manager, prefix=prefix, suffix=suffix), self.event(args) does exactly what self.state_manager.state.<prefix>event<suffix>(args) does, looked up at the time of the call - same result, effects and exceptions; the body of the decorated function is never run.",
 "every class, every names, every program, every behaviour of the other objects", HIST, ["big/state.py:dispatch"],
 "As C100; an attribute of that name in the instance hides the method, which is the one condition.")
prop("C102", "setting and ensuring a time zone changes nothing else",
 "datetime_set_timezone(d, tz) is a datetime with the fields and fold of d and tzinfo tz, and never fails; datetime_ensure_timezone(d, tz) is d itself if d has a time zone and the former otherwise; the second call of either is as documented (the last one set wins; ensuring twice changes nothing).",
 "every datetime object (and subclass), every time zone or None", INP, ["big/time.py:datetime_set_timezone", "big/time.py:datetime_ensure_timezone"],
 "datetime's constructor with its checks modelled; proved for every object that passes them. Refuted: a tzinfo object that is false counts as none.")
prop("C103", "parse_timestamp_3339Z reads what timestamp_3339Z writes",
 "parse_timestamp_3339Z(timestamp_3339Z(t), timezone=tz) is a datetime in UTC for exactly the instant of t (to the second if microseconds were left out), whatever tz is. A string without time zone gets tz and is otherwise what dateutil makes of it.",
 "every t of every supported type, every tz, every parser that understands RFC 3339", INP, ["big/time.py:parse_timestamp_3339Z", "big/time.py:timestamp_3339Z"],
 "From C87 and C102, with dateutil.parser.parse any function that reads RFC 3339 in UTC (one is given).")
prop("C104", "multistrip, multisplit and multipartition check their separators and keep the type of s",
 "multistrip, multisplit and multipartition raise TypeError or ValueError exactly if separators is not an iterable of non-empty strings of the type of s (or a non-empty string of that type); otherwise every string they return has the type of s, is a plain str or bytes, and is what they make of the characters (C31-C37) whatever kind of iterable separators is.",
 "every str, bytes or instance of a subclass; every object given as separators", INP, ["big/text.py:multistrip", "big/text.py:multisplit", "big/text.py:multipartition"],
 "Objects as a datatype (strings of two kinds with subclasses, None, collections, iterators, others); the error conditions as inductive relations, equivalence by induction on the collection. Refuted: an iterator as separators of multisplit; an empty iterator; subclass instances returned.")
prop("C105", "normalize_whitespace for str and bytes, any separators and replacement",
 "normalize_whitespace(s, separators, replacement) raises TypeError or ValueError exactly if separators or replacement are of the wrong type or empty; otherwise it replaces every run of whitespace (what isspace() says for the type of s) or of separators with the replacement, and the result has the type of s.",
 "every str and bytes, every object as separators and replacement", INP, ["big/text.py:normalize_whitespace"],
 "As C104, on top of C38 and C95. Refuted: separators='' is accepted if s is empty.")
prop("C106", "LineInfo.clip_leading and clip_trailing account for every character, whoever calls them",
 "For a line yielded by lines(), however often a modifier calls info.clip_leading(line, s) and info.clip_trailing(line, s) with a prefix or suffix of the line or with any int: the call returns line[n:] or line[:-n], what it clipped moves to info.leading or info.trailing (everything to trailing if nothing is left), leading + line + trailing + end is always the original line, and column_number advances by the width of what was clipped in front. Clipping nothing changes nothing.",
 "every line, every string and int, every sequence of calls", HIST, ["big/text.py:LineInfo.clip_leading", "big/text.py:LineInfo.clip_trailing"],
 "The definitions of C42, called directly; the positions of Python slices for every int; induction over the sequence of calls. Refuted: clip_trailing with 0 or '' clips everything; the column after a tab was clipped and then the rest.")
prop("C107", "A closed View is dead, and only it",
 "After view.close() has succeeded, every call of ready, done, bool, reset, close or copy on that view raises ValueError and changes nothing, whatever calls are made on the graph and its other views in between. close() of an open view of an uncopied graph succeeds; a graph whose default view is closed refuses copy() and still gives out views.",
 "every history of calls on any number of graphs and views", HIST, ["big/graph.py:TopologicalSorter.View.close", "big/graph.py:TopologicalSorter.View"],
 "The world of C13-C22; invariant 'the view has no graph' preserved by every call, with no assumption on the callers.")
prop("C108", "split_quoted_strings and split_delimiters check the types of their arguments",
 "split_quoted_strings(s, quotes, escape=, multiline_quotes=, state=) and split_delimiters(s, delimiters, state=) accept str and bytes alike: if every string given is of the type of s (None and the defaults of either type standing for the default of the type of s, a string for its characters) the result depends on the characters only (C39, C40), otherwise TypeError or ValueError is raised before anything is yielded.",
 "every str and bytes, every object for each other argument", INP, ["big/text.py:split_quoted_strings", "big/text.py:split_delimiters"],
 "Objects as in C104, == of objects a parameter with its laws for strings; the checks in their order. Proved: right types give the function of C39 / C40, anything that does not raise had the right types. Refuted: quotes as an iterator; an escape of the wrong type if there are multiline quotes.")
prop("C109", "Delimiter objects are values",
 "Delimiter(close, escape=, multiline=, quoting=) raises ValueError exactly if close is a backslash, escape and quoting disagree or multiline is false without quoting; otherwise its attributes are what was given. Delimiter(d) and d.copy() equal d. == is an equivalence relation, equal Delimiters hash alike, and Delimiters (and open delimiters) that are equal can take each other's place in split_delimiters, so that its cache is not observable.",
 "every argument, every mapping of delimiters, every string", INP, ["big/text.py:Delimiter", "big/text.py:_delimiters_to_state_and_tokens"],
 "Delimiter objects over the objects of C104, hash functions any that respect ==; the checks of split_delimiters proved not to depend on which of equal objects is given.")
prop("C110", "lines() accepts text or an iterable of strings or pairs, and one bad value does not disturb the others",
 "lines(s, separators, line_number=, column_number=, tab_width=) for a str or bytes (or an instance of a subclass) yields the lines of the text; for an iterable of plain str or bytes, or of pairs (line, end), it yields one line per value. The first value of an iterable decides which, and of what type. Every value that fits yields a LineInfo whose attributes describe it, numbered consecutively; every other value raises TypeError or ValueError (a pair without two elements) from that next() only, and is not counted. The constructor raises exactly if a number is not an int, separators are wrong for the text, separators are given for an iterable, or s is not iterable.",
 "every object s, every iterable of arbitrary objects, every history of next() calls", HIST, ["big/text.py:lines.__init__", "big/text.py:lines.__next__"],
 "Objects as in C104 plus ints, tuples and lists; the state of the lines object; induction over the values, going on after exceptions. The result is compared with the untyped model of C41-C44.")
prop("C111", "LineInfo objects store what they are given and compare by value",
 "LineInfo(lines, line, line_number, column_number, leading=, trailing=, end=, indent=, match=, **kwargs) stores every argument as the attribute of that name, None standing for an empty string of the type of line; it raises TypeError exactly if line is no str or bytes, a number is no int, leading, trailing or end is not of the type of line, or match is neither None nor a match. Two LineInfo objects are equal exactly if they have the same class and equal attributes; this is an equivalence relation.",
 "every tuple of objects as arguments, every set of keyword arguments", INP, ["big/text.py:LineInfo.__init__", "big/text.py:LineInfo.__eq__"],
 "Attribute dictionaries over the objects of C110; isinstance with an arbitrary subclass relation; Python's rule for == of subclasses. Refuted: a re.Match object is rejected as match (the code checks for re.Pattern).")
prop("C112", "The comment modifiers check their markers",
 "lines_filter_line_comment_lines(li, markers) and lines_strip_line_comments(li, markers, quotes=, escape=, multiline_quotes=) accept a str, bytes or collection of either, and then work on the characters (C58, C59, C93); they raise ValueError or TypeError at once exactly if markers is empty or not of one type, or the quotes are wrong.",
 "every object as markers, quotes, escape and multiline_quotes", INP, ["big/text.py:lines_filter_line_comment_lines", "big/text.py:lines_strip_line_comments", "big/text.py:_iterate_over_bytes"],
 "Objects as in C110, o[0] of other collections a parameter; case analysis over the checks in their order. Refuted: sets and iterators, which are iterables, are rejected; a single marker of the wrong type is only rejected at the first line.")
prop("C113", "lines_grep yields exactly the matching lines and records the match",
 "lines_grep(li, pattern, invert=, match=name) yields the lines on which pattern.search succeeds (invert: fails), in order and unchanged; the attribute called name of each LineInfo is the match object (None if inverted) and no other attribute changes. A name that is no identifier raises ValueError; a line of the other type raises TypeError after the lines before it have been yielded.",
 "every sequence of lines, every search function, every attribute name", INP, ["big/text.py:lines_grep"],
 "Attribute dictionaries as in C111; induction over the lines.")

prop("C114", "gently_title checks its quote marks and returns a plain str or bytes",
 "For s a str or bytes (or an instance of a subclass), apostrophes and double_quotes may each be None, a non-empty string like s (standing for its characters) or an iterable of non-empty strings like s (an iterator that yields nothing standing for no marks at all); then the result is a str or bytes, of the same kind as s and never of a subclass, and is the title C49 describes for those marks. Anything else raises: ValueError for an empty string or collection, TypeError for a value of the wrong type, the first wrong thing deciding, and apostrophes before double_quotes. (The documentation says that any false value means the default; only None does.)",
 "every s of every class, and every pair of objects", INP, ["big/text.py:gently_title", "big/text.py:_iterate_over_bytes"],
 "Typed objects as in C104; the argument checks modelled line by line; exact characterisation of exceptions; agreement with the untyped model of C49.")

prop("C115", "Heap: what is left when a comparison raises",
 "If comparing two values raises during a call on a Heap, or the iterable given to extend raises, the exception comes out of the call, and the heap afterwards contains exactly: for append, everything and the new value; for extend, everything and the values the iterable yielded; for remove, everything, or everything but the value removed; for the popping methods, everything and the value given, or that without one value, which is lost. No call ever duplicates a value. The version is unchanged, so iterators do not notice. As long as nothing has raised the heap behaves like a sorted multiset (C01), and it does so again after any extend or remove that succeeds.",
 "every history of calls, every point at which any comparison raises, every set of values comparable or not", HIST, ["big/heap.py:Heap"],
 "CPython's C heapq, which exchanges elements, modelled comparison by comparison, the outcome of the n-th comparison a parameter; permutation lemmas for siftup/siftdown at every crash point; agreement with the model of C01 when nothing raises. Refuted: 'a call that raises changes nothing'; order after a failure.")
prop("C116", "Scheduler: an exception at any statement of any call",
 "If the regulator's now, sleep, wake or lock raises inside a call of a Scheduler, or an exception strikes a thread between two statements of a call (KeyboardInterrupt), the exception ends that call only: the lock is released, no other thread is affected, and what C06-C09 and C12 say still holds of the whole history (order, never early, once each, scheduled = queued + yielded + cancelled, lock discipline). The call has had either no effect or its full effect. If only the regulator raises, next never loses an event: a next that raises has taken none from the queue.",
 "every number of threads, every interleaving, every statement as the point of failure, any number of failures", SCHED, ["big/scheduler.py:Scheduler", "big/scheduler.py:ThreadSafeRegulator"],
 "The threads of C06-C12 with one more move, 'the statement of thread t raises'; the invariants of C06-C12 and a new one for each thread's view. Refuted: no effect if raised (wake raising in schedule), no event lost under asynchronous exceptions, blocking after an exception inside wake.")

prop("C117", "Separators are taken literally, and the pattern strings mean what the models say",
 "Whatever characters the separators given to multisplit, multistrip, multipartition, lines_filter_line_comment_lines or lines_strip_line_comments are made of (., *, (, |, backslashes, spaces, line breaks...), they stand for themselves: the pattern string big builds from them is well-formed, and re finds with it exactly the separators: the longest one at each position (separate=True) or a maximal run of them, captured as group 1 when they are to be kept, and re.split cuts exactly there. With the empty string among the separators the pattern is still well-formed, finds the other separators as before, and the empty string everywhere else. The pattern string with which Version parses its text, read under re.VERBOSE | re.IGNORECASE, and the one with which it validates segments of local, mean what C26-C30 and C67 take them to mean: the same match and the same text in each named group, for every text.",
 "every non-empty list of separators over any alphabet, every text, every choice of characters that re.escape escapes which includes the metacharacters and no ASCII letter or digit", INP, ["big/text.py:_re_quote", "big/text.py:__separators_to_re", "big/text.py:multistrip", "big/text.py:lines_filter_line_comment_lines", "big/version.py:Version"],
 "A model of re.compile on the fragment of pattern syntax used (a character-by-character parser), run symbolically over the strings that re.escape and join build; the resulting tree is proved equivalent to the trees of SplitModel and VersionModel. VERSION_PATTERN is copied character for character.")
prop("C118", "Version: arguments of any type, properties, repr and operators",
 "Version's keyword arguments are accepted exactly if release is a non-empty tuple of ints, epoch, serial, post and dev are None or non-negative ints, release_level is None or one of 'alpha', 'beta', 'rc', 'final', and local is None or a non-empty tuple of strings of letters and digits (possibly followed by a newline); the properties then are the values given, 0 standing for no epoch or serial. A first argument is parsed if it is a str, read as a version string if it is sys.version_info; anything else, and any keyword argument that is not None beside it, is an error. Errors are ValueError, whatever the arguments (AssertionError for a pre-release label not in lower case). Bools count as ints in comparisons. repr() of a version made from a string is Version('...') with a text that evaluates to an equal version. ==, !=, < and > work between versions and agree; <= and >= raise TypeError; a version is unequal to, and not comparable with, anything else.",
 "every eight objects as arguments, every pair of operands", INP, ["big/version.py:Version"],
 "Python objects of the relevant types; the checks modelled in order; reduction to the untyped model of C26-C30 and C67; Python's dispatch of rich comparisons for a class with __eq__ and __lt__. Refuted: str() with bools among the numbers; the documented short names of release_level.")
prop("C119", "TopologicalSorter: what a call that fails on an unhashable argument leaves behind",
 "add, remove and done given an unhashable node raise TypeError. If the first argument is the unhashable one, nothing changes. If add(n, *deps) fails at a dependency, n and the dependencies before it are in the graph and n depends on them, but the graph's count of dependencies and the views are not updated; so nothing changes exactly if n was in the graph and depended on each of these already. A history whose failing calls are of these harmless kinds is, to C13-C22, a history without them.",
 "every history of calls, every list of dependencies, every position of the unhashable argument", HIST, ["big/graph.py:TopologicalSorter.add", "big/graph.py:TopologicalSorter.remove", "big/graph.py:TopologicalSorter.View.done"],
 "The world of C13-C22 with calls whose arguments may be unhashable; the dependencies before the bad one processed by the same loop. Refuted: 'a call that raises changes nothing' for add and done, with the consequences (KeyError on a correct retry, a node handed out before its predecessor).")
prop("C120", "Scheduler: no deadlock, and no event is forgotten",
 "In every execution in which every thread gets to run again and again and time goes on, whatever the threads call and whenever: while some thread is inside a call of the scheduler, some call returns later. If from some moment on threads only call next(scheduler), and there is again and again a thread in such a call, every event pending at that moment is yielded. (In particular the lost wake-up of C11 only delays.)",
 "every infinite fair interleaving of any number of threads, with time unbounded", SCHED, ["big/scheduler.py:Scheduler", "big/scheduler.py:ThreadSafeRegulator"],
 "Infinite schedules over the threads of C06-C12; leads-to arguments by induction on the position of the lock holder in its call and on the number of pending events, constructively. Refuted: that each particular call returns (threading.Lock is not fair).")
prop("C121", "BoundInnerClass: threads",
 "In every interleaving of threads that read bound inner classes of any objects and run class statements: a read of o.Inner ends after a bounded number of steps of its own thread; if it succeeds it gives a new class with the right name and first base, bound to o, which no other object or name gives; the only exception is TypeError. When no thread is in the middle of reading an attribute of o, every class read through o stays the same ever after. If two threads never read attributes of o at the same time (whatever they do with other objects), every read succeeds, all give the same class, and its method resolution order is that of C83. The same holds, except for 'the same class', of any interleaving of reads of a class whose decorated bases have been read before (in particular of one that has none), and constructing an instance is as in C84.",
 "every interleaving of any number of threads, every program that decorates classes as documented", SCHED, ["big/boundinnerclass.py:_Worker.__get__"],
 "__get__ in small steps (a look in a dictionary, making the class, storing it), threads with stacks of calls, an arbitrary list of scheduling choices; invariants on worlds and stacks with a ghost owner for each class made; the sequential theorem on linearisation reused through a world restricted to what o has. Refuted: that threads get the same class; that o.D() runs the same __init__ methods; that o.D does not raise.")
prop("C122", "safe_mkdir, safe_unlink and touch can be killed anywhere and repeated",
 "However often a process is killed in the middle of safe_mkdir(path), safe_unlink(path) or touch(path), and between whichever system calls: the file system has not changed but that a file at path may be gone and directories on the way to path have been made (safe_mkdir), the file at path may be gone (safe_unlink), or the time of path may be new or an empty file made (touch, which never loses contents); and when the call is repeated to the end it succeeds or fails exactly as it would have at first, with the same result. file_size and file_mtime_ns report what these calls have done.",
 "every file system, every path, every number of kills at any points", "Crash points and their combinations cannot be enumerated by tests.", ["big/file.py:safe_mkdir", "big/file.py:safe_unlink", "big/file.py:touch", "big/file.py:file_size", "big/file.py:file_mtime_ns"],
 "The programs of C72-C74 cut off after n system calls, repeatedly; invariant of the world left behind from the theorems about their own calls; then C72_alone, C73_alone, C74_alone.")
prop("C123", "The lines modifiers are lazy",
 "Calling lines modifiers, in whatever chain, reads nothing from the iterator they are given. Iterating over the chain gives one after the other exactly the lines that C42-C44 and C57-C60 speak of, then the exception if there is one, and then StopIteration for ever; every next() comes back if the source ends. If the source is endless, what has been yielded is right whatever follows in it, and a line is read from the source only when the lines read before are not enough to yield anything more. Only lines_sort waits for the end of the source (on an endless one it never comes back), and only lines_strip_indent holds lines back, which are blank.",
 "every chain of modifiers with any arguments, every finite or endless source of lines, every number of calls of next()", HIST, ["big/text.py:lines_rstrip", "big/text.py:lines_strip", "big/text.py:lines_filter_line_comment_lines", "big/text.py:lines_sort", "big/text.py:lines_strip_line_comments", "big/text.py:lines_strip_indent"],
 "A second model of the modifiers: generator objects asked for one line at a time, each asking the one below. Simulation between the pull-based model and the list-based one of C41-C44, for finite sources exactly and for endless ones by prefixes.")
prop("C124", "The Scheduler works with any Regulator and any class of times",
 "With a Regulator written by the user, whose now() returns anything and whose sleep() returns whenever it likes, and with times of any class whose comparisons and subtraction are consistent in the way of numbers: next() yields the first pending event in order of (time, priority, order of scheduling) and only if its time minus now() is <= 0, that is, never early; it calls sleep() exactly if nothing pending is due, with the time left until the first event; non_blocking() stops exactly then; StopIteration, cancel, bool and queue are right. An event's time is the time given, or that plus now(). The floats of the regulators that come with big (finite clock, finite or infinite event times, with all rounding of IEEE doubles) and ints are consistent. Even if the times are inconsistent, no event is lost or duplicated, and every call does what it is for.",
 "every class of times and priorities, every sequence of values returned by now(), every interleaving of calls and returns of sleep()", HIST, ["big/scheduler.py:Regulator", "big/scheduler.py:Scheduler", "big/scheduler.py:Event"],
 "The blocks under the lock as steps over an abstract time class; invariant of the heap against the history; binary64 of Coq's standard library (SpecFloat): comparison is that of exact values, and a rounded difference has the sign of the exact one. Refuted: that this extends to NaN.")
prop("C125", "A text can be parsed in parts with the state carried over",
 "split_quoted_strings (quote marks and escape of one character): when a text is cut into parts anywhere but between an escape character and the quote mark or escape it escapes, and each part is parsed with state= the quote mark open after the parts before (that of the last tuple, if it has no trailing quote mark), then the tuples, those at the cuts joined, are the tuples of the whole text; and one of the calls raises SyntaxError exactly if the call for the whole text does. split_delimiters (delimiters of one character): the same for a cut at any point at which the first call succeeds, when the state is kept as the documentation advises (append open delimiters, pop at close delimiters); if the first call raises then the call for the whole text raises too, after the same tuples, unless the cut is after an escape character.",
 "every text, every list of parts, every set of one-character quote marks or mapping of one-character delimiters, every initial state", INP, ["big/text.py:split_quoted_strings", "big/text.py:split_delimiters"],
 "The character-by-character scanners that C39 and C40 prove equal to the code, run in two steps: what is complete after the first part, and where the scanner is; the text read so far only changes the first tuple. Refuted: the same for a cut after an escape character; the documented way to recognise an unterminated string, for a call that was given a state.")
prop("C126", "python -m big.graph is a tsort",
 "Given a text file, if every line is blank or has two words and no word comes, directly or indirectly, before itself, the program prints every word exactly once, one per line, the first word of each line before the second; if some word does, it raises CycleError and prints nothing; if some line is not of this form, it exits with that line, stripped (the first such line), as its message and prints nothing.",
 "every text file, every order of iterating over sets", INP, ["big/graph.py:TopologicalSorter.static_order", "big/graph.py (program at the end of the file)"],
 "The program composed of the models of iterating over a file, str.strip, str.split and TopologicalSorter; the history of add calls against the lines read; C15-C17.")
prop("C127", "Wrapped text can be split and wrapped again",
 "For every text, wrap_words(split_text_with_code(text)) split again with split_text_with_code gives the same words, whatever the margin: nothing is lost or joined, paragraphs stay paragraphs and code lines code lines. So text can be reformatted to any other width. With allow_code=False for every text; with code for texts with at most one code block (see C78), if a newline follows the output or the text ends with a paragraph.",
 "every str or bytes text, margin, tab width and code indent", INP, ["big/text.py:wrap_words", "big/text.py:split_text_with_code"],
 "From the exact characterisations of both functions (C45, C77, C78): the lines wrap_words makes are shown to have the classes (blank, text, code) that the blocks of the text require.")
prop("C128", "Wrapped paragraphs fit their columns",
 "If each column of merge_columns is the result of wrap_words with a margin not greater than the width of the column, and no word (text without line breaks, or line breaks only) is longer than that width, then merge_columns never raises OverflowError, no column delays another whatever the overflow strategy, and row r of the result shows line r of every column, each padded to its width.",
 "every number of columns, every list of words, every margin and width, every overflow strategy and separator", INP, ["big/text.py:wrap_words", "big/text.py:merge_columns"],
 "C45 (margin) and C80 (columns): the lines merge_columns looks at are prefixes of the lines wrap_words wrote.")
prop("C129", "Laws of the lines modifiers",
 "The order of two filters (lines_filter_empty_lines, lines_filter_line_comment_lines, lines_containing, lines_grep) does not matter, nor does the order of a filter and lines_sort; sorting by one key and then by another is sorting by the second key and, where that is equal, by the first (in either direction each); lines_rstrip before or after lines_strip changes nothing; and each of these, lines_strip_indent and lines_convert_tabs_to_spaces does nothing the second time. This holds for the lines and their infos, and for an exception that ends the source.",
 "every sequence of lines that any source or earlier modifiers yield, ending in an exception or not", INP, ["big/text.py:lines_filter_empty_lines", "big/text.py:lines_filter_line_comment_lines", "big/text.py:lines_containing", "big/text.py:lines_grep", "big/text.py:lines_sort", "big/text.py:lines_strip", "big/text.py:lines_rstrip", "big/text.py:lines_strip_indent", "big/text.py:lines_convert_tabs_to_spaces"],
 "A modifier that treats each line by itself is a loop; two loops fuse into one, so the laws reduce to one line. Sorting: a list in order is determined by its ties, in order (uniqueness of the stable sort). lines_strip_indent: invariant over the blank lines it holds back.")
prop("C130", "TopologicalSorter replaces graphlib's",
 "A program that builds a graph with graphlib.TopologicalSorter's add(), calls prepare() and then makes any calls of get_ready(), done() and is_active() sees the same when the class is replaced by big's: the same exception at the same call (up to and including the first one), the same answers of is_active(), the same nodes from each get_ready() - in the same order, if no dependency is declared twice. static_order() yields the same nodes in the same order, or raises CycleError in both.",
 "every sequence of add, get_ready, done and is_active calls, correct or not, every order of iterating over sets", HIST, ["big/graph.py:TopologicalSorter.add", "big/graph.py:TopologicalSorter.check_for_cycles", "big/graph.py:TopologicalSorter.View.ready", "big/graph.py:TopologicalSorter.View.done", "big/graph.py:TopologicalSorter.View.__bool__", "big/graph.py:TopologicalSorter.static_order"],
 "graphlib.TopologicalSorter of CPython 3.12 transcribed as a second machine (counts with multiplicity, statuses -1 and -2, the depth-first search of _find_cycle proved right with an invariant on its stack, the ValueErrors for calls out of order); a simulation relation between it and the model of big, preserved by every call; is_active agrees because an acyclic graph can always make progress. Refuted: the same order with repeated dependencies, done() with a node twice, and going on after CycleError.")
prop("C131", "Without a limit multisplit does not depend on the direction",
 "If no end of a separator (short of the whole) is the beginning of a separator - as when all are single characters, or with big's own tuples of white space and line breaks -, then multisplit(s, seps, reverse=True) without a limit yields what multisplit(s, seps) yields, whatever keep, separate and strip are; and reverse=True, maxsplit=n cuts at the last n of the places where multisplit cuts. For a single separator this holds of every s exactly if the separator cannot overlap itself.",
 "every str s, separators that cannot overlap, every keep, separate, strip and limit", INP, ["big/text.py:multisplit"],
 "A separator that occurs in s lies inside one of the cuts (leftmost, longest, no overlap); so prepending a cut to a split from the right is again one. Runs of separators: the same parts, grouped from the other end.")
prop("C132", "A text can be split in parts, and splitting can be continued",
 "Splitting what maxsplit=n left with maxsplit=m gives what maxsplit=n+m gives. If a text is cut into two parts anywhere but inside a separator, then the results of multisplit for the two parts, the last string of one and the first of the other joined, are the result for the whole text (with separate=False, separators that meet at the cut are one). With the default separators every cut is good but one between \\r and \\n. The same for lines(): after a line break the lines of the rest, numbered on, follow.",
 "every str s, cut, separators, separate, n and m", INP, ["big/text.py:multisplit", "big/text.py:lines"],
 "The cuts of multisplit are a relation (SplitSpec.v): a cut in the first part stays one, since no separator that starts in it can end later. Runs of separators can grow at the end of the first part.")
prop("C133", "re_partition generalises multipartition",
 "With a pattern that matches given separators - the longest where several begin, as '|'.join(re.escape(s) for s in sorted(separators, key=len, reverse=True)) does -, re_partition(s, pattern, count) returns the strings that multipartition(s, separators, count) returns (the text of the Match objects, '' for None), and re_rpartition those of multirpartition if the separators are equally long, for instance if there is one; a negative count raises ValueError in all of them.",
 "every str s, separators and count, every pattern that finds the separators", INP, ["big/text.py:re_partition", "big/text.py:re_rpartition", "big/text.py:multipartition", "big/text.py:multirpartition"],
 "Both have been shown to cut at relations (leftmost matches, leftmost longest separators): a match of the pattern is a separator and the other way round; induction over the count. From the right the same with rightmost matches.")

prop("C134", "The Scheduler replaces Python's sched.scheduler",
 "Scheduler is \"a replacement for Python's sched.scheduler\". A program that uses a sched.scheduler and is rewritten call by call -- enter(delay, priority, action) into schedule(action, delay, priority=priority), enterabs into schedule(..., absolute=True), cancel and queue unchanged, empty() into not s, run() into 'for action in s: action()', run(blocking=False) into the same over s.non_blocking(), timefunc and delayfunc into the Regulator's now and sleep -- does the same: the same actions are called in the same order at the same readings of the clock, with the same delays, the same exceptions at the same points, the same answers to empty and queue, and the same events cancelled; also when actions or the delay function enter or cancel events, run the scheduler themselves, or raise.",
 "every program (its next move and its clock's next reading an arbitrary function of everything it has observed), any class of times and priorities, every number of steps",
 HIST, ["big/scheduler.py:185-393 Event, Scheduler", "CPython Lib/sched.py scheduler"],
 "sched.scheduler transcribed from CPython; both driven by an arbitrary program as a machine with a stack of running runs; lockstep simulation: the two heaps are the same list. Differences refuted: delayfunc(0) and the returned deadline, events of another scheduler, StopIteration from the delay function, NaN.")
prop("C135", "str and bytes are treated alike",
 "A call on bytes does what the same call on the str with the same ASCII characters does, and yields bytes where that yields str: multisplit, multistrip, multipartition, normalize_whitespace and gently_title with any arguments (also wrong ones: the same exception), lines with any modifiers, split_quoted_strings, split_delimiters, wrap_words, split_text_with_code and merge_columns. This is for texts without the characters that are whitespace, or line breaks, for str and not for bytes (\\x1c to \\x1f, and \\v and \\f as line breaks); with explicit separators multisplit, multistrip and multipartition agree on every text. Moreover separators that do not occur in s make no difference to multisplit and multistrip.",
 "every text, all separators, arguments and pipelines of modifiers", INP,
 ["big/text.py:126-306", "big/text.py:859 multistrip", "big/text.py:1098 multisplit", "big/text.py:1279 multipartition", "big/text.py:1590 gently_title", "big/text.py:1731 normalize_whitespace", "big/text.py:1937 split_quoted_strings", "big/text.py:2677 split_delimiters", "big/text.py:2985 lines", "big/text.py:3703 wrap_words", "big/text.py:4050 split_text_with_code", "big/text.py:4105 merge_columns"],
 "the types of objects are swapped in the arguments (TypedModel, GargModel); a congruence for sets of separators that agree on the substrings of s, from the specification of multisplit; characters classes compared by computation below 128; invariants that lines and pieces consist of such characters")
prop("C136", "The deprecated parsers and their replacements agree",
 "Where big.deprecated says 'please switch to the modern version', a caller of parse_delimiters who switches to split_delimiters with the corresponding delimiters gets the same tuples: for every s the old function accepts, the new one yields the same, exactly if no text outside quotes has a backslash and no quoted text a line break that is not allowed; for every s the new function accepts, the old one yields the same exactly if all delimiters are closed, and otherwise the tuples up to the last delimiter and then ValueError; what one yields is always the beginning of what the other yields. The same with the default delimiters of both. split_quoted_strings: with one-character quote marks and without triple quotes, the segments (is_quoted, text) of the old function are those (opening mark, text, closing mark) of the new one, if there is no escape character outside quotes and no line break inside. lines_strip_comments(rstrip=False): without quotes the same lines, infos and exceptions as lines_strip_line_comments; with such quotes (triple_quotes=False), every sequence of lines that the new one accepts and whose quotes both understand gives the same.",
 "every s, str or bytes, every sequence of lines, and every set of pairs of one-character delimiters that both functions accept", INP, ["big/deprecated.py:parse_delimiters", "big/deprecated.py:split_quoted_strings", "big/deprecated.py:lines_strip_comments", "big/text.py:split_delimiters", "big/text.py:split_quoted_strings", "big/text.py:lines_strip_line_comments"],
 "the loop of parse_delimiters and the character scanner that split_delimiters is proved equal to (C40) are run in step; a relation between what they have yielded from there on, with six cases, is shown by induction on s; everything else is read off it. The same for split_quoted_strings and C39's scanner.")
prop("C137", "The filename translations work together and in parts",
 "A name translated by translate_filename_to_exfat is left alone by translate_filename_to_unix, and translating for Unix first makes no difference to the exFAT name; so to be legal on both systems the exFAT translation suffices, in any order. A name can be translated in parts (a stem and an extension): the results joined are the result for the whole name, unless it is cut between a colon and the space after it.",
 "every str", INP, ["big/file.py:translate_filename_to_exfat", "big/file.py:translate_filename_to_unix"],
 "both are functions of one character and the one after it (C53_exact, C54); no character that the first produces is changed by the second")
prop("C138", "repr() and print() tell the truth",
 "After any calls: repr(heap) shows the number of items and a smallest one. repr(view) shows the nodes the next ready() would give, how many nodes are handed out and not done, how many are done, and conflicts=True exactly if ready(), done() and bool() raise RuntimeError. view.print() prints these nodes in ascending order, and the nodes with a conflict; graph.print() prints each node once, in ascending order, with the number of nodes it depends on and the nodes that depend on it. repr() and print() work on every object.",
 "every sequence of calls on heaps, graphs and views", HIST, ["big/heap.py:60-62 Heap.__repr__", "big/graph.py:52-62", "big/graph.py:124-125 View.__repr__", "big/graph.py:356-370 View.print", "big/graph.py:440-441 TopologicalSorter.__repr__", "big/graph.py:671-681 TopologicalSorter.print"],
 "the texts as the values put into them; the invariants that tie a history of calls to the world it leaves (heap order; GraphProof4.v) give what they are")
prop("C139", "split_quoted_strings and split_delimiters agree on quotes",
 "split_delimiters given Delimiter(q, escape=e, multiline=..., quoting=True) for each quote mark q finds the same quoted strings and the same text between them as split_quoted_strings given the same marks as quotes or multiline_quotes and the same escape, from the start or from inside a quote. If e does not occur in s, this holds for every s, with SyntaxError raised at the same point. If it does: as long as e stands neither before a line break, nor before a multiline mark, nor outside quotes, nor at the end of s, one accepts s if and only if the other does, and the results are the same. Otherwise they can differ.",
 "every str or bytes, every set of one-character quote marks without the backslash, every one-character escape", INP, ["big/text.py:1871-2118 split_quoted_strings", "big/text.py:2136-2781 Delimiter, split_delimiters"],
 "both are character scanners (C39_scanner, C40_scanner); induction on the text, with the state and the text read so far in step")
prop("C140", "repr() of a LineInfo shows exactly what is set",
 "repr(info) shows every attribute of a LineInfo object, those given as keyword arguments and those set later included, whose value is true, once and with its value: lines, line, line_number, column_number, leading, trailing and end in this order, then the others in the order of their names; and no other. It fails only if one of the seven was deleted: with ValueError.",
 "every LineInfo object, any attributes", INP, ["big/text.py:2965-2978 LineInfo.__repr__"],
 "the list of names after removing the seven and sorting the rest; for every dict of attributes")
prop("C141", "combine_splits obeys the laws of a union",
 "For arrays that join to s, the result of combine_splits depends only on the set of places where the arrays split s: not on their order, nor on how often an array or an empty string is among them. Without arrays it is s, with one array the array without its empty strings; combining the result with further arrays is combining all of them at once. Splitting s by several sets of one-character separators with multisplit (keep=True or keep=ALTERNATING, from either side) and combining gives what multisplit gives for all the separators together, without empty strings.",
 "every s, every number of arrays, every set of one-character separators", INP, ["big/text.py:1472-1573 combine_splits", "big/text.py:972-1225 multisplit"],
 "the pieces are determined by the places (uniqueness), the places by C48; those of multisplit by C32, and C131 for the direction")
prop("C142", "The laws of split_title_case",
 "A word that split_title_case yields is not split again. split_allcaps=True splits wherever False does. split_title_case(s1 + s2) is split_title_case(s1) followed by split_title_case(s2) exactly if a word begins after s1. Words in title case - an upper-case letter, then lower-case letters - joined together are split into the same words again if no two words of one letter follow each other (with split_allcaps=False: if only the last word can have one letter); a lower-case word in front (camelCase) is split off too.",
 "every text, every list of words", INP, ["big/text.py:1377-1466 split_title_case"],
 "C47 gives the places where words begin; what such a place needs of the text around it is monotone; pieces are determined by the places")
prop("C143", "The laws of multistrip",
 "multistrip of both sides is multistrip of the left side and then of the right; with neither side it returns the string unchanged. Stripping a second time with the same arguments changes nothing. If the separators are single characters the order of the sides does not matter, and stripping some characters first makes no difference if they are stripped along with others afterwards.",
 "all strings, all non-empty lists of non-empty separators, both flags",
 INP, ["big/text.py:859-955 (multistrip)"],
 "The model of C36 (SplitModel.multistrip) and the description proved there; uniqueness of the description for separators of one character.")
prop("C144", "repr() of an instance of a bound inner class names the class and the outer object",
 "repr() of an instance of a class decorated with BoundInnerClass that has no custom __repr__ is '<module.name object bound to REPR at ADDRESS>', where module and name are those of the class as written and REPR is repr() of the outer object it is bound to (None if that object is gone). A custom __repr__, defined in the class or inherited, is used instead, as it is for the class that is not bound.",
 "all programs that decorate classes as documented, all sets of classes with a __repr__, all outer objects, all histories of attribute reads and class statements",
 HIST, ["big/boundinnerclass.py:163-185 (BoundInnerClass._wrap, Wrapper.__repr__)", "big/boundinnerclass.py:205-214 (UnboundInnerClass._wrap)"],
 "The model of C82 with the lookup of __repr__ along the method resolution order; C83's description of that order.")
prop("C145", "The laws of multipartition",
 "Partitioning again what is left over continues: multipartition(s, seps, n) with its last string replaced by multipartition(last, seps, m) is multipartition(s, seps, n+m), so that count=n is n calls with count=1, each for what the call before left over, and a larger count keeps what a smaller one gives. multirpartition does the same at the left end, and is multipartition of the reversed string at the reversed separators, reversed. All this includes strings with fewer separators than counted.",
 "all strings, all non-empty collections of non-empty separators or the default, separate true or false, all counts from 0",
 INP, ["big/text.py:1280-1350 (multipartition, multirpartition)"],
 "From C37 and the continuation of splits of C132; the right-hand side by reversal.")
prop("C146", "The laws of normalize_whitespace",
 "normalize_whitespace of a concatenation is the concatenation of the results, unless white space meets white space at the seam. If the replacement is white space, normalizing again with any other replacement is the same as normalizing with that alone. Normalizing again with the same arguments changes nothing exactly if the replacement is all white space, or has none, or nothing was replaced. With the default separators the result is replacement.join(s.split()), with the replacement in front and behind where s starts or ends with white space.",
 "all strings, all replacements, the default separators and all separators that amount to a class of characters",
 INP, ["big/text.py:1731-1826 (normalize_whitespace)"],
 "From C38: the result is s with every run of characters of the class replaced; induction on s, and for the converse of idempotence a count of the characters outside the class.")
prop("C147", "The laws of int_to_words",
 "flowery=True differs from flowery=False only by commas in front of blanks and by 'and' between words: the plain text is the flowery one with those left out, has no comma and no 'and', and the other words are the same. A negative number is 'negative ' and the words of the number without sign. Both hold for ordinals, too.",
 "all integers, cardinal and ordinal",
 INP, ["big/text.py:4309-4443 (int_to_words)"],
 "The model of C46; a relation between the two texts kept by every step of the loop over the scales, by induction on the recursion; that no piece has a comma or a word starting with a.")
prop("C148", "gently_title works word by word",
 "What gently_title writes for the beginning of a text does not depend on what follows it; and the part of a text before a space or left parenthesis and the part after it can be titled separately: gently_title(s + ' ' + t) is gently_title(s) + ' ' + gently_title(t).",
 "every s and t, every space character, every choice of marks and every upper()", INP, ["big/text.py:1590 gently_title"],
 "laws of the modelled gently_title, from the state after the first part; refuted for a first part that ends with the word d, proved otherwise")
prop("C149", "wrap_words uses as few lines as possible",
 "For words without white space words among them, wrap_words returns the words distributed over lines of at most margin characters (a longer word has a line of its own), and no other such distribution has fewer lines; so a wider margin never gives more lines, and if the words have room on one line they are put on one line. White space among the words ('\\n\\n') starts afresh: the words before and after it can be wrapped separately.",
 "every list of words, every margin, every other distribution of the words over lines", INP, ["big/text.py:3703 wrap_words"],
 "an exchange argument between the modelled loop and an arbitrary layout, by induction over the words with the number of lines saved so far")
prop("C150", "The values of multisplit's keep tell the same thing",
 "The same call of multisplit with keep=False, True, ALTERNATING and AS_PAIRS raises the same exception, or finds the same pieces of text with the same separators after them, and keep only says how they are shown: without the separators, with the separator at the end of each piece, as strings that alternate, or as pairs, the last one with an empty separator.",
 "every s and separators, every maxsplit, reverse, separate and strip", INP, ["big/text.py:972 __multisplit", "big/text.py:1098 multisplit"],
 "the four results of the modelled generator come from one list, for each way to strip and cut it")
