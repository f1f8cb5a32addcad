{"id": "C01", "title": "Heap behaves as a sorted multiset", "statement": "After any sequence of Heap calls (constructor, append, extend, remove, popleft, append_and_popleft, popleft_and_append, clear) the heap holds exactly the multiset obtained by performing the same calls on a plain multiset; popleft / popleft_and_append / append_and_popleft return a least element of what the multiset held (after the append in the last case) and heap[0] is a least element; the calls that need a non-empty heap or a present element raise (IndexError / ValueError) exactly when it is missing and then change nothing.", "quantifier": "every element type with a strict weak order, every initial list, every finite sequence of operations and arguments", "why_tests_cant": "A test runs finitely many call histories; the claim is about every history of calls.", "anchors": ["big/heap.py:Heap", "big/heap.py:Heap.append", "big/heap.py:Heap.popleft", "big/heap.py:Heap.remove", "big/heap.py:Heap.append_and_popleft", "big/heap.py:Heap.popleft_and_append"]}
{"id": "C02", "title": "Heap iteration and .queue are sorted and complete", "statement": "Iterating over an unmodified Heap yields every element exactly once in ascending order and leaves the heap unchanged; heap.queue is the same list.", "quantifier": "every heap reachable by any history", "why_tests_cant": "A test runs finitely many call histories; the claim is about every history of calls.", "anchors": ["big/heap.py:Heap.__iter__", "big/heap.py:Heap.HeapIterator", "big/heap.py:Heap.queue"]}
{"id": "C03", "title": "Modifying a Heap invalidates its iterators", "statement": "If any mutating call on a Heap succeeds after an iterator was created, every later __next__ of that iterator raises RuntimeError; if no mutating call succeeded it never raises RuntimeError.", "quantifier": "every history of heap calls interleaved with any number of iterators", "why_tests_cant": "A test runs finitely many call histories; the claim is about every history of calls.", "anchors": ["big/heap.py:Heap.HeapIterator.__next__", "big/heap.py:Heap._version"]}
{"id": "C04", "title": "Heap indexing equals indexing the sorted list", "statement": "heap[i] for an int i, and heap[a:b:c] for a slice, return what indexing sorted(contents) returns (same value, or IndexError exactly when it would).", "quantifier": "every heap contents and every int and slice", "why_tests_cant": "A test samples finitely many inputs; the claim is about every input of every length.", "anchors": ["big/heap.py:Heap.__getitem__"]}
{"id": "C05", "title": "Heap equality is multiset equality", "statement": "Two Heaps compare equal exactly when they contain the same multiset of elements, whatever histories produced them, and copy() produces an equal heap that later operations on either side do not affect.", "quantifier": "every pair of heaps over a total order, every pair of histories", "why_tests_cant": "A test runs finitely many call histories; the claim is about every history of calls.", "anchors": ["big/heap.py:Heap.__eq__", "big/heap.py:Heap.copy"]}
{"id": "C06", "title": "Scheduler yields in (time, priority, FIFO) order", "statement": "Whenever the Scheduler yields an event, that event is the first, in order of (time, priority, order of schedule() calls), of all events scheduled and not yet yielded or cancelled at that moment.", "quantifier": "every history of schedule/cancel/next calls from any number of threads, every clock", "why_tests_cant": "Tests see the interleavings the OS happens to produce; the claim is about every interleaving.", "anchors": ["big/scheduler.py:Scheduler._next", "big/scheduler.py:Event.__lt__"]}
{"id": "C07", "title": "Scheduler never yields early", "statement": "An event is yielded only when the regulator's now() at that moment is >= the event's time.", "quantifier": "every history and interleaving, every monotone clock", "why_tests_cant": "Tests see the interleavings the OS happens to produce; the claim is about every interleaving.", "anchors": ["big/scheduler.py:Scheduler._next"]}
{"id": "C08", "title": "Scheduler neither loses nor duplicates events", "statement": "At every moment, the events scheduled so far are exactly the disjoint union of: still queued, yielded once, successfully cancelled.", "quantifier": "every history and interleaving", "why_tests_cant": "Tests see the interleavings the OS happens to produce; the claim is about every interleaving.", "anchors": ["big/scheduler.py:Scheduler.schedule", "big/scheduler.py:Scheduler.cancel", "big/scheduler.py:Scheduler._next"]}
{"id": "C09", "title": "cancel succeeds exactly on queued events", "statement": "cancel(event) removes precisely that event if it is queued, and otherwise raises ValueError and changes nothing; other events (even with identical time, priority and payload) are unaffected.", "quantifier": "every history and every event object", "why_tests_cant": "A test runs finitely many call histories; the claim is about every history of calls.", "anchors": ["big/scheduler.py:Scheduler.cancel", "big/scheduler.py:Event.cancel"]}
{"id": "C10", "title": "non_blocking yields all due events and never sleeps", "statement": "Draining scheduler.non_blocking() while the clock stands still at now yields exactly the queued events with time <= now, in (time, priority, FIFO) order, leaves exactly the others queued, and never calls sleep.", "quantifier": "every queue contents and every clock value", "why_tests_cant": "A test samples finitely many inputs; the claim is about every input of every length.", "anchors": ["big/scheduler.py:Scheduler.non_blocking", "big/scheduler.py:Scheduler._next"]}
{"id": "C11", "title": "A thread blocked in next() reacts to a newly scheduled earlier event", "statement": "If a thread is blocked in next(scheduler) and another thread schedules an event with an earlier time (or cancels the awaited one), the blocked thread re-examines the queue instead of sleeping to the old deadline.", "quantifier": "every interleaving of the threads with a ThreadSafeRegulator", "why_tests_cant": "Tests see the interleavings the OS happens to produce; the claim is about every interleaving.", "anchors": ["big/scheduler.py:Scheduler._next", "big/scheduler.py:ThreadSafeRegulator.wake", "big/scheduler.py:ThreadSafeRegulator.sleep"]}
{"id": "C12", "title": "Scheduler lock discipline", "statement": "Scheduler calls now() and wake() only while holding the regulator's lock, calls sleep() only while not holding it and only with an interval > 0, never re-enters the lock, and holds no lock after any call returns or raises.", "quantifier": "every history and interleaving", "why_tests_cant": "Tests see the interleavings the OS happens to produce; the claim is about every interleaving.", "anchors": ["big/scheduler.py:Scheduler", "big/scheduler.py:Regulator"]}
{"id": "C13", "title": "ready() never yields a node before its predecessors are done", "statement": "Every node returned by ready() had, at that moment, all of its current predecessors marked done in that view.", "quantifier": "every graph and every history of add / remove / view / ready / done / reset calls in which done() is given nodes ready() returned and no node twice in one call", "why_tests_cant": "A test runs finitely many call histories; the claim is about every history of calls.", "anchors": ["big/graph.py:TopologicalSorter.View.ready", "big/graph.py:TopologicalSorter.View._mark_node_done", "big/graph.py:TopologicalSorter.View._add_successor"]}
{"id": "C14", "title": "ready() yields each node at most once", "statement": "Between two resets, a view's ready() never returns the same node twice (unless the node was removed and added again), and returns no duplicates in one call.", "quantifier": "every history as in C13", "why_tests_cant": "A test runs finitely many call histories; the claim is about every history of calls.", "anchors": ["big/graph.py:TopologicalSorter.View.ready"]}
{"id": "C15", "title": "static_order is a complete topological order", "statement": "For a graph without cycles, list(graph.static_order()) terminates and contains every node exactly once, each after all of its predecessors; likewise the documented while/ready/done loop.", "quantifier": "every acyclic graph built by any history of add and remove calls", "why_tests_cant": "A test samples finitely many inputs; the claim is about every input of every length.", "anchors": ["big/graph.py:TopologicalSorter.static_order", "big/graph.py:TopologicalSorter.View"]}
{"id": "C16", "title": "Cycle detection is sound and complete", "statement": "cycle() returns None exactly when the graph has no directed cycle, and otherwise returns a tuple of distinct nodes forming a directed cycle; ready()/prepare()/static_order() raise CycleError exactly when there is a cycle; cycle() always terminates.", "quantifier": "every graph reachable by add/remove, every iteration order of the node set", "why_tests_cant": "A test samples finitely many inputs; the claim is about every input of every length.", "anchors": ["big/graph.py:TopologicalSorter.cycle", "big/graph.py:TopologicalSorter.check_for_cycles"]}
{"id": "C17", "title": "add/remove maintain exactly the declared graph", "statement": "After any history of add and remove calls, the graph's nodes and dependencies are exactly those of the abstract graph obtained by set union on add and deletion on remove; repeated and duplicated dependencies are ignored; remove of a missing node raises ValueError and changes nothing; len(graph) is the number of nodes.", "quantifier": "every history of add/remove", "why_tests_cant": "A test runs finitely many call histories; the claim is about every history of calls.", "anchors": ["big/graph.py:TopologicalSorter.add", "big/graph.py:TopologicalSorter.remove"]}
{"id": "C18", "title": "Incoherent views are detected", "statement": "A view raises RuntimeError from bool/ready/done if and only if some dependency was added whose successor had already been yielded by (or done in) that view while its predecessor was not done, and neither endpoint has been removed since.", "quantifier": "every history as in C13", "why_tests_cant": "A test runs finitely many call histories; the claim is about every history of calls.", "anchors": ["big/graph.py:TopologicalSorter.View._raise_conflicts", "big/graph.py:TopologicalSorter.View._add_successor"]}
{"id": "C19", "title": "Views are independent", "statement": "ready/done/reset/close on one view never changes what any other view yields.", "quantifier": "every pair of views, every history", "why_tests_cant": "A test runs finitely many call histories; the claim is about every history of calls.", "anchors": ["big/graph.py:TopologicalSorter.View"]}
{"id": "C20", "title": "A copied graph is independent of the original", "statement": "After c = g.copy(), operations on g do not affect c and vice versa, and c behaves as g would have.", "quantifier": "every graph and history", "why_tests_cant": "A test runs finitely many call histories; the claim is about every history of calls.", "anchors": ["big/graph.py:TopologicalSorter.copy"]}
{"id": "C21", "title": "Late dependencies on finished nodes do not block a view", "statement": "Adding a dependency whose predecessor is already done in a view leaves the successor able to become ready in that view.", "quantifier": "every graph, view and added edge", "why_tests_cant": "A test runs finitely many call histories; the claim is about every history of calls.", "anchors": ["big/graph.py:TopologicalSorter.View._add_successor"]}
{"id": "C22", "title": "done() is all-or-nothing", "statement": "If done() raises ValueError the view is unchanged; naming a node twice in one done() call has the same effect as naming it once.", "quantifier": "every view and argument list", "why_tests_cant": "A test samples finitely many inputs; the claim is about every input of every length.", "anchors": ["big/graph.py:TopologicalSorter.View.done"]}
{"id": "C23", "title": "State transitions run the documented sequence", "statement": "Assigning a legal new state calls, in this order: on_exit of the old state, every observer registered at that moment in order, then (after state has changed and next is None) on_enter of the new state; during on_exit and observers state is the old one and next the new one.", "quantifier": "every state object, observer list and callback behaviour, arbitrarily nested transitions from on_enter", "why_tests_cant": "A test runs finitely many call histories; the claim is about every history of calls.", "anchors": ["big/state.py:StateManager.state"]}
{"id": "C24", "title": "No nested transition", "statement": "While a transition is in progress every attempt to assign state raises TransitionError and changes nothing; assigning None, the current state object, or an instance of the wrong class raises and changes nothing.", "quantifier": "every point inside every transition", "why_tests_cant": "A test runs finitely many call histories; the claim is about every history of calls.", "anchors": ["big/state.py:StateManager.state", "big/state.py:TransitionError"]}
{"id": "C25", "title": "A failed transition does not wedge the manager", "statement": "If on_exit or an observer raises, a later transition is still possible.", "quantifier": "every callback behaviour", "why_tests_cant": "A test runs finitely many call histories; the claim is about every history of calls.", "anchors": ["big/state.py:StateManager.state"]}
{"id": "C26", "title": "Observer list changes apply from the next transition", "statement": "Modifying the observers list from inside an observer or on_exit does not alter which observers are called in ... the current transition once observers have begun; the next transition uses the new list.", "quantifier": "every modification made by any callback", "why_tests_cant": "A test runs finitely many call histories; the claim is about every history of calls.", "anchors": ["big/state.py:StateManager.state"]}
{"id": "C27", "title": "Version ordering is a strict total order", "statement": "For versions, < is irreflexive, transitive and total with respect to ==, and == is an equivalence.", "quantifier": "every triple of Version objects", "why_tests_cant": "A test samples finitely many inputs; the claim is about every input of every length.", "anchors": ["big/version.py:Version.__lt__", "big/version.py:Version.__eq__"]}
{"id": "C28", "title": "Equal versions have equal hashes", "statement": "v == w implies hash(v) == hash(w).", "quantifier": "every pair of Version objects", "why_tests_cant": "A test samples finitely many inputs; the claim is about every input of every length.", "anchors": ["big/version.py:Version.__hash__", "big/version.py:Version.__eq__"]}
{"id": "C29", "title": "str(Version) parses back to an equal version", "statement": "For every version v constructed from a string, Version(str(v)) == v.", "quantifier": "every parsable version string", "why_tests_cant": "A test samples finitely many inputs; the claim is about every input of every length.", "anchors": ["big/version.py:Version.__str__", "big/version.py:Version.__init__"]}
{"id": "C30", "title": "Versions order as PEP 440 prescribes", "statement": "For version strings s and t, Version(s) < Version(t) iff PEP 440 puts s before t: epoch, release with trailing zeros ignored, pre-release phase and number, post, dev, then local segments.", "quantifier": "every pair of version strings", "why_tests_cant": "A test samples finitely many inputs; the claim is about every input of every length.", "anchors": ["big/version.py:Version._tuple"]}
{"id": "C31", "title": "multisplit with keep preserves the text", "statement": "With strip false, joining what multisplit yields with keep=True or ALTERNATING, or flattening AS_PAIRS, gives back s exactly.", "quantifier": "every s, every list of non-empty separators, every maxsplit, both values of separate and reverse", "why_tests_cant": "A test samples finitely many inputs; the claim is about every input of every length.", "anchors": ["big/text.py:multisplit"]}
{"id": "C32", "title": "multisplit splits at every separator and nowhere else", "statement": "With maxsplit=-1 no yielded non-separator string contains a separator, and every kept separator string is a separator (separate=True) or a concatenation of separators (separate=False); the split is leftmost and, at each position, the longest separator is used.", "quantifier": "every s and separators", "why_tests_cant": "A test samples finitely many inputs; the claim is about every input of every length.", "anchors": ["big/text.py:multisplit", "big/text.py:__separators_to_re"]}
{"id": "C33", "title": "maxsplit bounds the number of splits", "statement": "multisplit(maxsplit=n) with n >= 0 yields at most n+1 pieces; the pieces before the remainder are the first pieces of the unlimited split.", "quantifier": "every s, separators, n", "why_tests_cant": "A test samples finitely many inputs; the claim is about every input of every length.", "anchors": ["big/text.py:multisplit"]}
{"id": "C34", "title": "separate=False merges adjacent separators", "statement": "With separate=False, only the first and last non-separator strings can be empty, and no two kept separator strings are adjacent; (the documented claim that ALTERNATING never yields an empty non-separator string is false at the ends).", "quantifier": "every s and separators", "why_tests_cant": "A test samples finitely many inputs; the claim is about every input of every length.", "anchors": ["big/text.py:multisplit"]}
{"id": "C35", "title": "reverse=True is the mirror image", "statement": "With strip false, multisplit(s, seps, reverse=True, ...) yields the mirror image of multisplit(reversed s, reversed seps, ...) (with strip=True this is false: the two ends are stripped by different rules); for every built-in separator tuple the precomputed reversed tuple is equivalent to the reversed separators.", "quantifier": "every s, separators, keep=ALTERNATING or False, maxsplit and separate", "why_tests_cant": "A test samples finitely many inputs; the claim is about every input of every length.", "anchors": ["big/text.py:multisplit", "big/text.py:_reversed_builtin_separators"]}
{"id": "C36", "title": "multistrip removes exactly leading and trailing separators", "statement": "multistrip(s, seps) removes a leading and a trailing run of separators and nothing else, and the result neither starts nor ends with a separator.", "quantifier": "every s and separators", "why_tests_cant": "A test samples finitely many inputs; the claim is about every input of every length.", "anchors": ["big/text.py:multistrip"]}
{"id": "C37", "title": "multipartition shape and content", "statement": "multipartition(s, seps, count) returns exactly 2*count+1 strings whose concatenation is s, the odd ones being separators or empty padding; multirpartition likewise from the right.", "quantifier": "every s, separators, count, reverse, separate", "why_tests_cant": "A test samples finitely many inputs; the claim is about every input of every length.", "anchors": ["big/text.py:multipartition", "big/text.py:multirpartition"]}
{"id": "C38", "title": "normalize_whitespace", "statement": "normalize_whitespace(s) equals s with every maximal run of whitespace replaced by the replacement string; the fast path and the general path agree; it is idempotent.", "quantifier": "every s", "why_tests_cant": "A test samples finitely many inputs; the claim is about every input of every length.", "anchors": ["big/text.py:normalize_whitespace"]}
{"id": "C39", "title": "split_quoted_strings preserves the text", "statement": "Concatenating all strings of all tuples yielded by split_quoted_strings recreates s; quoted and unquoted segments are delimited as documented.", "quantifier": "every s, quote set, escape and initial state", "why_tests_cant": "A test samples finitely many inputs; the claim is about every input of every length.", "anchors": ["big/text.py:split_quoted_strings"]}
{"id": "C40", "title": "split_delimiters preserves the text and nests delimiters correctly", "statement": "Concatenating everything split_delimiters yields recreates s; opens and closes are properly nested and matched; the parser never pops an empty stack.", "quantifier": "every s, every delimiter table", "why_tests_cant": "A test samples finitely many inputs; the claim is about every input of every length.", "anchors": ["big/text.py:split_delimiters", "big/text.py:_delimiters_to_state_and_tokens"]}
{"id": "C41", "title": "lines() is a faithful decomposition", "statement": "lines(s) yields every line once in order with consecutive line numbers starting at line_number; concatenating info.line over all lines recreates s; info.line == line + info.end.", "quantifier": "every s and separators", "why_tests_cant": "A test samples finitely many inputs; the claim is about every input of every length.", "anchors": ["big/text.py:lines", "big/text.py:LineInfo"]}
{"id": "C42", "title": "Lines modifiers account for every character", "statement": "After any composition of lines_strip, lines_rstrip, lines_strip_indent, lines_strip_line_comments and filters, info.leading + line + info.trailing + info.end == info.line for every yielded pair.", "quantifier": "every s, every pipeline", "why_tests_cant": "A test samples finitely many inputs; the claim is about every input of every length.", "anchors": ["big/text.py:LineInfo.clip_leading", "big/text.py:LineInfo.clip_trailing", "big/text.py:lines_strip", "big/text.py:lines_rstrip"]}
{"id": "C43", "title": "Line column numbers stay consistent", "statement": "info.column_number always equals the starting column plus the display width of info.leading.", "quantifier": "every s, every pipeline", "why_tests_cant": "A test samples finitely many inputs; the claim is about every input of every length.", "anchors": ["big/text.py:LineInfo.clip_leading", "big/text.py:LineInfo.clip_trailing"]}
{"id": "C44", "title": "lines_strip_indent accepts every dedent to an earlier level", "statement": "Dedenting to a column that is currently an open indent level is accepted and restores that level's indent number; anything else raises IndentationError.", "quantifier": "every sequence of line indents", "why_tests_cant": "A test samples finitely many inputs; the claim is about every input of every length.", "anchors": ["big/text.py:lines_strip_indent"]}
{"id": "C45", "title": "wrap_words respects the margin and preserves the words", "statement": "Every output line of wrap_words is at most margin long unless it consists of a single longer word; words appear unmodified, in order.", "quantifier": "every list of words and every margin", "why_tests_cant": "A test samples finitely many inputs; the claim is about every input of every length.", "anchors": ["big/text.py:wrap_words"]}
{"id": "C46", "title": "int_to_words is faithful", "statement": "An independent reader of English numerals (that also knows the library's own spelling of one scale word and one ordinal) reads int_to_words(i) as i, and the ordinal as the i-th; larger integers become their decimal digits; distinct integers always get distinct words.", "quantifier": "every integer, flowery and plain, cardinal and ordinal", "why_tests_cant": "A test samples finitely many inputs; the claim is about every input of every length.", "anchors": ["big/text.py:int_to_words"]}
{"id": "C47", "title": "split_title_case preserves the text", "statement": "Joining the words yielded by split_title_case gives s, no word is empty (unless s is), and words begin exactly at the upper-case letters that follow a lower-case letter or (split_allcaps) are the last of several upper-case letters and followed by a lower-case one.", "quantifier": "every s and any upper/lower classification", "why_tests_cant": "A test samples finitely many inputs; the claim is about every input of every length.", "anchors": ["big/text.py:split_title_case"]}
{"id": "C48", "title": "combine_splits applies exactly all split points", "statement": "combine_splits(s, *arrays) yields non-empty pieces that concatenate to s and whose boundaries are exactly the union of the boundaries of all arrays.", "quantifier": "every s and arrays that each concatenate to s", "why_tests_cant": "A test samples finitely many inputs; the claim is about every input of every length.", "anchors": ["big/text.py:combine_splits"]}
{"id": "C49", "title": "gently_title changes only letter case", "statement": "gently_title uppercases exactly the characters named by its documented rules (first of a word, after quote marks beginning a word, after O' or D' beginning a word) and leaves every other character unchanged; titling twice is the same as once.", "quantifier": "every s", "why_tests_cant": "A test samples finitely many inputs; the claim is about every input of every length.", "anchors": ["big/text.py:gently_title"]}
{"id": "C50", "title": "PushbackIterator is a stack in front of an iterator", "statement": "The values obtained from a PushbackIterator are the pushed values last-in-first-out, then the wrapped iterator's, each exactly once; truth-testing never loses or reorders a value.", "quantifier": "every history of next / push / bool / next(default)", "why_tests_cant": "A test runs finitely many call histories; the claim is about every history of calls.", "anchors": ["big/itertools.py:PushbackIterator"]}
{"id": "C51", "title": "Log nesting and elapsed times are exact", "statement": "Every logged event is reported once, in order, with depth equal to the number of enter() calls not yet exited at that moment; start_time + elapsed_time of each event equals the next event's start_time.", "quantifier": "every history of log/enter/exit and every clock", "why_tests_cant": "A test runs finitely many call histories; the claim is about every history of calls.", "anchors": ["big/log.py:Log"]}
{"id": "C52", "title": "Log prints times correctly", "statement": "The printed time of an event is its number of seconds and nanoseconds.", "quantifier": "every time value", "why_tests_cant": "A test samples finitely many inputs; the claim is about every input of every length.", "anchors": ["big/log.py:Log.print"]}
{"id": "C53", "title": "translate_filename_to_exfat produces only legal characters", "statement": "No character of the result is disallowed in an exFAT filename.", "quantifier": "every non-empty str", "why_tests_cant": "A test samples finitely many inputs; the claim is about every input of every length.", "anchors": ["big/file.py:translate_filename_to_exfat"]}
{"id": "C54", "title": "translate_filename_to_unix produces only legal characters", "statement": "The result has the same length, contains no NUL and no slash, changes no other character, and translating again changes nothing.", "quantifier": "every non-empty str", "why_tests_cant": "A test samples finitely many inputs; the claim is about every input of every length.", "anchors": ["big/file.py:translate_filename_to_unix"]}
{"id": "C55", "title": "Version() accepts exactly the PEP 440 version strings", "statement": "Version(s) raises ValueError iff s is not a version string of PEP 440's grammar (with optional surrounding whitespace and leading v); an accepted string has a correctly spelled pre-release label; the only other exception is AssertionError, and only for a label not in lower case.", "quantifier": "every str s", "why_tests_cant": "A test samples finitely many inputs; the claim is about every input of every length.", "anchors": ["big/version.py:Version.__init__", "big/version.py:VERSION_PATTERN"]}
{"id": "C56", "title": "lines_strip and lines_rstrip strip the line and keep what they strip", "statement": "lines_strip yields every line without its leading and trailing whitespace (or separators), lines_rstrip without the trailing; what is taken off, and it must be whitespace (or separators), is added to info.leading and info.trailing, except that a line of which nothing is left goes to trailing whole.", "quantifier": "every sequence of lines, every list of separators", "why_tests_cant": "A test samples finitely many inputs; the claim is about every input of every length.", "anchors": ["big/text.py:lines_strip", "big/text.py:lines_rstrip", "big/text.py:LineInfo.clip_leading", "big/text.py:LineInfo.clip_trailing"]}
{"id": "C57", "title": "lines_sort is a stable sort", "statement": "lines_sort yields exactly the lines it was given (none lost, duplicated or modified), in ascending order (descending with reverse=True), and lines that compare equal stay in their original order.", "quantifier": "every list of lines, every strict weak order of keys, both directions", "why_tests_cant": "A test samples finitely many inputs; the claim is about every input of every length.", "anchors": ["big/text.py:lines_sort"]}
{"id": "C58", "title": "The line filters keep exactly the right lines", "statement": "lines_filter_empty_lines, lines_containing, lines_grep and lines_filter_line_comment_lines yield, in order and unmodified, exactly the lines satisfying their condition (not empty; contains the substring; the pattern is found; not 'whitespace then a comment marker'), inverted where requested.", "quantifier": "every list of lines and arguments", "why_tests_cant": "A test samples finitely many inputs; the claim is about every input of every length.", "anchors": ["big/text.py:lines_filter_empty_lines", "big/text.py:lines_containing", "big/text.py:lines_grep", "big/text.py:lines_filter_line_comment_lines"]}
{"id": "C59", "title": "lines_strip_line_comments cuts at the first unquoted marker", "statement": "Every line is cut at the first comment marker that is outside every quoted string, where a multi-line quote may have been opened on an earlier line; lines without one are unchanged; SyntaxError is raised exactly for an unterminated single-line quote, a line break inside one, or a multi-line quote still open at the end.", "quantifier": "every list of lines and marker/quote arguments", "why_tests_cant": "A test samples finitely many inputs; the claim is about every input of every length.", "anchors": ["big/text.py:lines_strip_line_comments"]}
{"id": "C60", "title": "re_partition cuts the text at the leftmost matches", "statement": "re_partition(s, pattern, count) returns a tuple of 2*count+1 elements, text and matches in turn; the matches are the first count leftmost non-overlapping matches of the pattern (then None), the text before, between and after them is the text of s around the matches, so that all of it together is s; a negative count raises ValueError.", "quantifier": "every str s, every regular expression, every count", "why_tests_cant": "A test samples finitely many inputs; the claim is about every input of every length.", "anchors": ["big/text.py:re_partition"]}
{"id": "C61", "title": "reversed_re_finditer yields non-overlapping matches from right to left and misses none", "statement": "For every pattern reversed_re_finditer ends without an exception, every match it yields is one the pattern finds at that place when the text is cut off somewhere behind it, and each match lies wholly before the one yielded before. For a pattern without anchors and lookaround that does not match the empty string, moreover no match lies wholly in a gap between the matches yielded, and each is the pattern's match in the text before the previous one, with none that starts later ending later.", "quantifier": "every str and every pattern", "why_tests_cant": "A test samples finitely many inputs; the claim is about every input of every length.", "anchors": ["big/text.py:reversed_re_finditer"]}
{"id": "C62", "title": "re_rpartition cuts the text at the matches found from the right", "statement": "re_rpartition(s, pattern, count) returns a tuple of 2*count+1 elements, text and matches in turn; the matches are the first count matches of reversed_re_finditer, and the text around them is the text of s around the matches, so that all of it together is s.", "quantifier": "every str s, every regular expression, every count", "why_tests_cant": "A test samples finitely many inputs; the claim is about every input of every length.", "anchors": ["big/text.py:re_rpartition", "big/text.py:re_partition"]}
{"id": "C63", "title": "reversed_re_finditer is a search from right to left", "statement": "Of all matches in the text before the previous match, reversed_re_finditer yields the one that ends last and of these the longest, and it yields no match twice.", "quantifier": "every str and every pattern", "why_tests_cant": "A test samples finitely many inputs; the claim is about every input of every length.", "anchors": ["big/text.py:reversed_re_finditer"]}
{"id": "C64", "title": "multisplit with strip is multistrip, then the split", "statement": "multisplit(s, seps, strip=X, ...) for X = True, LEFT, RIGHT (any maxsplit) and PROGRESSIVE (maxsplit=-1) yields exactly what multisplit(s', seps, strip=False, ...) with the same other arguments yields, where s' is multistrip(s, seps, left=X is not RIGHT, right=X is not LEFT). In particular a string of separators only yields one empty string.", "quantifier": "every str s, separators, keep, maxsplit, reverse, separate", "why_tests_cant": "A test samples finitely many inputs; the claim is about every input of every length.", "anchors": ["big/text.py:multisplit", "big/text.py:multistrip"]}
{"id": "C65", "title": "multisplit with strip=PROGRESSIVE strips the far end only when the splitting gets there", "statement": "multisplit(s, seps, strip=PROGRESSIVE, maxsplit=n, ...) strips the near end of s, splits what is left at most n times (from the left, or with reverse from the right), drops the empty strings (and their separators) at the far end, and presents the result as keep asks. maxsplit=None means the same as maxsplit=-1. No separators at all: ValueError.", "quantifier": "every str s, separators, keep, n, reverse, separate", "why_tests_cant": "A test samples finitely many inputs; the claim is about every input of every length.", "anchors": ["big/text.py:multisplit"]}
{"id": "C66", "title": "multisplit can stand in for str.split(None, n) and str.rsplit(None, n)", "statement": "list(multisplit(s, strip=PROGRESSIVE, maxsplit=n)) == s.split(None, n), with reverse=True == s.rsplit(None, n), and without a limit (also with strip=True) == s.split().", "quantifier": "every str s, every n", "why_tests_cant": "A test samples finitely many inputs; the claim is about every input of every length.", "anchors": ["big/text.py:multisplit"]}
{"id": "C67", "title": "Version from keyword arguments is valid and can be written and read back", "statement": "Version(epoch=..., release=..., ...) without a string is accepted exactly if release is given and not empty, epoch, serial, post and dev are not negative, and local (if given) is a non-empty sequence of segments of letters and digits; otherwise it raises ValueError. The version made has exactly those fields, and Version(str(v)) == v.", "quantifier": "every combination of keyword arguments of the right types", "why_tests_cant": "A test samples finitely many inputs; the claim is about every input of every length.", "anchors": ["big/version.py:Version.__init__", "big/version.py:Version.__str__"]}
{"id": "C68", "title": "Version of sys.version_info and the major/minor/micro attributes", "statement": "Version(version_info) has the major, minor and micro numbers, release level and serial of version_info (no serial if it is 0 or the level is final) and nothing else set. For a Version parsed from text, major, minor and micro are the first three numbers of the release as written, or 0 where there are fewer.", "quantifier": "every version_info with numbers >= 0; every text Version accepts", "why_tests_cant": "A test samples finitely many inputs; the claim is about every input of every length.", "anchors": ["big/version.py:Version.__init__", "big/version.py:Version.major", "big/version.py:Version.minor", "big/version.py:Version.micro"]}
{"id": "C69", "title": "fgrep finds exactly the lines that contain the text", "statement": "fgrep(path, text) returns exactly the lines of the file that contain text, in their order and without their line breaks; enumerate=True adds their numbers, from 1. (\\n, \\r\\n and \\r end a line of a text file, \\n one of a binary file; nothing follows the last line break.) bytes with an encoding raises ValueError.", "quantifier": "every file, text, mode", "why_tests_cant": "A test samples finitely many inputs; the claim is about every input of every length.", "anchors": ["big/file.py:fgrep"]}
{"id": "C70", "title": "case-insensitive fgrep finds the lines that contain the text in any case", "statement": "fgrep(path, text, case_insensitive=True) returns the lines of which some part equals text when both are lowercased; in particular every line that contains text. Lowercasing the whole file at once is the same as lowercasing each line.", "quantifier": "every file, text, Unicode case tables", "why_tests_cant": "A test samples finitely many inputs; the claim is about every input of every length.", "anchors": ["big/file.py:fgrep"]}
{"id": "C71", "title": "grep finds exactly the lines that match", "statement": "grep(path, pattern) returns exactly the lines of the file in which the pattern matches somewhere, in their order, with enumerate=True numbered from 1.", "quantifier": "every file and pattern", "why_tests_cant": "A test samples finitely many inputs; the claim is about every input of every length.", "anchors": ["big/file.py:grep"]}
{"id": "C72", "title": "safe_mkdir makes the directory, also among other processes", "statement": "safe_mkdir(path) alone: fails exactly if path is below a file, changing nothing; otherwise path and all above it are directories afterwards, a file at path is gone, and nothing else changes. Among other processes: if it returns, there was a directory at path during the call; its own calls only make directories where nothing was, or remove a file at path. Among processes that remove nothing at path or above it and make no file there, it fails exactly if path is below a file, and otherwise path is a directory when it returns. In particular any number of concurrent calls succeed, in every order of their system calls, if no file is at or above a path. (It is not promised, and false, that concurrent calls succeed when a file is at path.)", "quantifier": "every file system, path, schedule, and every behaviour of other processes", "why_tests_cant": "Tests see the interleavings the OS happens to produce; the claim is about every interleaving.", "anchors": ["big/file.py:safe_mkdir"]}
{"id": "C73", "title": "safe_unlink removes the file and does not mind if there is none", "statement": "safe_unlink(path) alone never fails; afterwards no file is at path, and nothing else has changed. Among other processes its own calls only remove a file at path, and if it returns there was a moment without a file at path; it fails only if another process has removed or replaced the file during the call, so it never fails among processes that do not. (It is not promised, and false, that it is safe among processes that do.)", "quantifier": "every file system, path, schedule, and every behaviour of other processes", "why_tests_cant": "Tests see the interleavings the OS happens to produce; the claim is about every interleaving.", "anchors": ["big/file.py:safe_unlink"]}
{"id": "C74", "title": "touch never harms what is there", "statement": "touch(path) gives what is at path the current modification time and does not change its contents; where nothing is, it makes an empty file; it fails exactly if the directory is missing. Any number of concurrent touches succeed and change no contents; the same among processes that make or remove nothing at path nor remove its directory (but may write to the file): what is there keeps the contents it has at that moment. (Not among processes that make a file at path meanwhile: it can be emptied.)", "quantifier": "every file system, path, schedule, and every behaviour of other processes", "why_tests_cant": "Tests see the interleavings the OS happens to produce; the claim is about every interleaving.", "anchors": ["big/file.py:touch"]}
{"id": "C75", "title": "pushd restores the current directory", "statement": "with pushd(path): block runs the block in path; afterwards the current directory is the one before the with statement, whatever the block did, also if it raised an exception, which is passed on; only if that directory is gone by then OSError is raised. If path is no directory the block is not run and nothing changes. Code that changes directories with pushd only, however nested, ends where it began.", "quantifier": "every block (any code), path and file system", "why_tests_cant": "A test runs finitely many call histories; the claim is about every history of calls.", "anchors": ["big/file.py:pushd"]}
{"id": "C76", "title": "split_text_with_code keeps all text", "statement": "The characters of s that are not whitespace are, in order, those of the words split_text_with_code(s) returns: nothing is lost, repeated or invented, whatever the settings.", "quantifier": "every str or bytes s and every setting", "why_tests_cant": "A test samples finitely many inputs; the claim is about every input of every length.", "anchors": ["big/text.py:split_text_with_code"]}
{"id": "C77", "title": "split_text_with_code without code: the words of each paragraph", "statement": "With allow_code=False it never raises; the result is the words of each paragraph (lines without a blank line between) in order, '\\n\\n' between paragraphs, and [''] if there is no word.", "quantifier": "every str or bytes s", "why_tests_cant": "A test samples finitely many inputs; the claim is about every input of every length.", "anchors": ["big/text.py:split_text_with_code"]}
{"id": "C78", "title": "split_text_with_code keeps code blocks line by line", "statement": "Lines indented by at least code_indent columns are code, kept as they are up to the last word (tabs expanded if asked); between two lines of a code block there is one '\\n' per newline in s; between a code block and its neighbours there is '\\n\\n'; paragraphs are split into words.", "quantifier": "every str or bytes s with no whitespace but space, tab and newline; every tab_width > 0, code_indent", "why_tests_cant": "A test samples finitely many inputs; the claim is about every input of every length.", "anchors": ["big/text.py:split_text_with_code"]}
{"id": "C79", "title": "merge_columns raises exactly when it should", "statement": "merge_columns raises OverflowError exactly if overflow_strategy is RAISE and some line of some column, without trailing whitespace, is longer than max_width; AssertionError exactly if there are no columns or the strategy is not one of the three; it never fails otherwise.", "quantifier": "every list of columns, separator, strategy, overflow_before, overflow_after", "why_tests_cant": "A test samples finitely many inputs; the claim is about every input of every length.", "anchors": ["big/text.py:merge_columns"]}
{"id": "C80", "title": "merge_columns lines up columns in which no line is too wide", "statement": "If no line is too wide, there are as many rows as the longest column has lines, and row r is line r of every column, padded with spaces to max_width, joined with the separator (trailing whitespace removed).", "quantifier": "every list of columns, separator, strategy", "why_tests_cant": "A test samples finitely many inputs; the claim is about every input of every length.", "anchors": ["big/text.py:merge_columns"]}
{"id": "C81", "title": "merge_columns with lines that are too wide loses nothing", "statement": "With INTRUDE_ALL (DELAY_ALL) every line of every column is shown in exactly one row, in order; in a row that shows a line near a line that is too wide (a line up to the last such one) no later column is shown; every other row shows the next line of each column, padded to its width.", "quantifier": "every list of columns, separator, overflow_before, overflow_after", "why_tests_cant": "A test samples finitely many inputs; the claim is about every input of every length.", "anchors": ["big/text.py:merge_columns"]}
{"id": "C82", "title": "A bound inner class has one identity per object", "statement": "Reading a class decorated with BoundInnerClass or UnboundInnerClass through an object o always succeeds; it gives a class made for o (bound to o, same name, the decorated class as first base); every later read gives that same class, no other object or name ever gives it, and Outer.Inner is always the decorated class itself.", "quantifier": "every program of class statements, every object, every history of attribute reads and class statements", "why_tests_cant": "A test runs finitely many call histories; the claim is about every history of calls.", "anchors": ["big/boundinnerclass.py:_Worker.__get__", "big/boundinnerclass.py:BoundInnerClass", "big/boundinnerclass.py:UnboundInnerClass"]}
{"id": "C83", "title": "A bound inner class has the method resolution order of the class, doubled", "statement": "The method resolution order of o.Inner is that of Outer.Inner with, in front of every decorated class C in it, the class o.C; making it never raises TypeError.", "quantifier": "every class hierarchy with a C3 linearisation (multiple inheritance, diamonds, other outer classes), every history", "why_tests_cant": "A test samples finitely many inputs; the claim is about every input of every length.", "anchors": ["big/boundinnerclass.py:_Worker.__get__"]}
{"id": "C84", "title": "Every __init__ runs once, and exactly those of bound inner classes get the outer object", "statement": "Constructing o.Inner() runs the __init__ of every class in the method resolution order of Outer.Inner exactly once and in that order (if each calls super().__init__()); those of classes decorated with BoundInnerClass get o as extra argument, the others do not.", "quantifier": "every class hierarchy, every choice of which classes have an __init__, every history", "why_tests_cant": "A test samples finitely many inputs; the claim is about every input of every length.", "anchors": ["big/boundinnerclass.py:BoundInnerClass._wrap", "big/boundinnerclass.py:UnboundInnerClass._wrap"]}
{"id": "C85", "title": "get_int_or_float gives the same number, as an int when it is whole", "statement": "get_int_or_float returns an int unchanged; for a float it returns the same number, as an int exactly if it is whole; for another object it returns int(o) if that succeeds, else float(o) treated the same way, else the default; it never raises if the conversions raise only TypeError or ValueError.", "quantifier": "every int, float and other object, every default", "why_tests_cant": "A test samples finitely many inputs; the claim is about every input of every length.", "anchors": ["big/builtin.py:get_int_or_float"]}
{"id": "C86", "title": "try_int/try_float and get_int/get_float agree", "statement": "try_int(o) is True exactly if get_int(o, default) returns int(o), False exactly if it returns the default; likewise for float.", "quantifier": "every object, every default", "why_tests_cant": "A test samples finitely many inputs; the claim is about every input of every length.", "anchors": ["big/builtin.py:try_int", "big/builtin.py:try_float", "big/builtin.py:get_int", "big/builtin.py:get_float"]}
{"id": "C87", "title": "timestamp_3339Z says the right instant", "statement": "timestamp_3339Z(t) is YYYY-MM-DDTHH:MM:SS[.ffffff]Z, valid in the Gregorian calendar, for exactly the instant of t; microseconds are shown as documented (want_microseconds, or whether the type of t has them); it raises TypeError exactly for unsupported types, and otherwise fails exactly outside the years 1 to 9999.", "quantifier": "every int, float, struct_time, datetime (naive or aware) or None, every want_microseconds, every local time zone", "why_tests_cant": "A test samples finitely many inputs; the claim is about every input of every length.", "anchors": ["big/time.py:timestamp_3339Z"]}
{"id": "C88", "title": "timestamps sort in the order of time", "statement": "Comparing two results of timestamp_3339Z as strings compares their instants; equal strings are the same instant (to the microsecond, or second if microseconds are left out).", "quantifier": "every two instants", "why_tests_cant": "A test samples finitely many inputs; the claim is about every input of every length.", "anchors": ["big/time.py:timestamp_3339Z"]}
{"id": "C89", "title": "timestamp_human says the right local time", "statement": "timestamp_human(t) is YYYY/MM/DD HH:MM:SS[.ffffff] for the local wall time at the instant of t, with microseconds as documented.", "quantifier": "every int, float, struct_time, datetime or None, every want_microseconds, every local time zone", "why_tests_cant": "A test samples finitely many inputs; the claim is about every input of every length.", "anchors": ["big/time.py:timestamp_human"]}
{"id": "C90", "title": "lines_convert_tabs_to_spaces puts the text at the right screen column", "statement": "The line yielded has no tabs, and every character is at the screen column it had with tab stops every tab_width columns; info is unchanged.", "quantifier": "every line, every tab width", "why_tests_cant": "A test samples finitely many inputs; the claim is about every input of every length.", "anchors": ["big/text.py:lines_convert_tabs_to_spaces"]}
{"id": "C91", "title": "parse_delimiters accepts exactly well nested text and cuts it at the delimiters", "statement": "parse_delimiters (deprecated) yields the text cut at every delimiter, so that joining all strings recreates s, exactly if s is well nested (every opened delimiter is closed by its own closing delimiter; no closing delimiter without its opening one; quote-like delimiters hide everything but a backslash and their closing delimiter); otherwise it raises ValueError after yielding a start of s. Bad delimiters are rejected at once. No tuple is all empty or has both open and close.", "quantifier": "every text, every list of delimiters", "why_tests_cant": "A test samples finitely many inputs; the claim is about every input of every length.", "anchors": ["big/deprecated.py:parse_delimiters", "big/deprecated.py:Delimiter"]}
{"id": "C92", "title": "the old split_quoted_strings preserves the text and finds the quoted strings", "statement": "big.deprecated.split_quoted_strings yields segments that join to s; a segment is marked quoted exactly if it is a quoted string: it starts with a quote mark (three, if there are three and triple_quotes is true) outside quotes and ends with the next such mark that no backslash escapes, or at the end of s.", "quantifier": "every text, every set of quote marks, every escape character", "why_tests_cant": "A test samples finitely many inputs; the claim is about every input of every length.", "anchors": ["big/deprecated.py:split_quoted_strings"]}
{"id": "C93", "title": "lines_strip_comments cuts each line at the first marker outside quotes", "statement": "big.deprecated.lines_strip_comments yields each line up to the first comment marker that is outside quoted strings, without whitespace before it (if rstrip), and unchanged if there is none; what is cut off goes to info.trailing.", "quantifier": "every sequence of lines, every list of markers, every set of quote marks", "why_tests_cant": "A test samples finitely many inputs; the claim is about every input of every length.", "anchors": ["big/deprecated.py:lines_strip_comments"]}
{"id": "C94", "title": "encode_strings encodes every str inside, and keeps everything else", "statement": "encode_strings(o, encoding) returns o with every str, at any depth inside dicts, sets, lists and tuples (and subclasses of these), replaced by its encoding; bytes are kept, as are the types, sizes, orders and associations of the containers. It raises TypeError exactly if there is something of another type inside, and otherwise fails only if a str cannot be encoded.", "quantifier": "every value (finite tree of containers), every encoding", "why_tests_cant": "A test samples finitely many inputs; the claim is about every input of every length.", "anchors": ["big/text.py:encode_strings", "big/text.py:_recursive_encode_strings"]}
{"id": "C95", "title": "the separator tuples are what Python, Unicode and ASCII define", "statement": "str_whitespace contains exactly the characters for which str.isspace() is true, and '\\r\\n'; unicode_whitespace the same without the four ASCII separators; ascii_whitespace what of that is ASCII; bytes_whitespace what bytes.isspace() accepts; the linebreaks tuples likewise for the characters at which splitlines() breaks lines; each ..._without_crlf lacks only '\\r\\n'; no tuple has duplicates.", "quantifier": "every code point", "why_tests_cant": "A test can enumerate the table but checks it against the interpreter it runs on; the statement is about all code points.", "anchors": ["big/text.py:str_whitespace", "big/text.py:unicode_whitespace", "big/text.py:ascii_whitespace", "big/text.py:bytes_whitespace", "big/text.py:str_linebreaks", "big/text.py:bytes_linebreaks"]}
{"id": "C96", "title": "multisplit and lines with the default line breaks agree with splitlines", "statement": "list(multisplit(s, linebreaks, keep=keepends, separate=True)), without an empty string at its end, is s.splitlines(keepends); an empty string is at its end exactly if s is empty or ends with a line break. lines(s) yields the same lines. The same for bytes with bytes_linebreaks.", "quantifier": "every str and bytes string, both values of keepends", "why_tests_cant": "A test samples finitely many inputs; the claim is about every input of every length.", "anchors": ["big/text.py:multisplit", "big/text.py:lines", "README.md:Reimplementing library functions using multisplit"]}
{"id": "C97", "title": "multisplit at one separator is str.split, str.rsplit", "statement": "multisplit(s, [sep], maxsplit=n, separate=True) yields s.split(sep, n), and with reverse=True s.rsplit(sep, n): cuts at the leftmost (rightmost) occurrences that do not overlap, at most n.", "quantifier": "every string, every non-empty separator, every maxsplit", "why_tests_cant": "A test samples finitely many inputs; the claim is about every input of every length.", "anchors": ["big/text.py:multisplit", "README.md:Reimplementing library functions using multisplit"]}
{"id": "C98", "title": "multipartition at one separator is str.partition, str.rpartition", "statement": "multipartition(s, [sep]) is s.partition(sep) and multirpartition(s, [sep]) is s.rpartition(sep), also if sep is not in s.", "quantifier": "every string, every non-empty separator", "why_tests_cant": "A test samples finitely many inputs; the claim is about every input of every length.", "anchors": ["big/text.py:multipartition", "big/text.py:multirpartition", "README.md:Reimplementing library functions using multisplit"]}
{"id": "C99", "title": "multisplit with strip=PROGRESSIVE reimplements str.split() and str.rsplit()", "statement": "list(multisplit(s, whitespace, maxsplit=n, reverse=r, strip=PROGRESSIVE)), without an empty string at its end, is s.split(None, n) or s.rsplit(None, n) - for every s, also empty or blank.", "quantifier": "every string, every maxsplit >= -1, both directions", "why_tests_cant": "A test samples finitely many inputs; the claim is about every input of every length.", "anchors": ["big/text.py:multisplit", "README.md:Reimplementing library functions using multisplit"]}
{"id": "C100", "title": "an accessor is the state of the state manager, and nothing else", "statement": "In a class decorated with accessor(attribute, state_manager), reading, assigning or calling self.attribute does exactly what self.state_manager.state does - same values, same effects, same exceptions - in every program; no other attribute of the class changes. If both names are the same (or two accessors name each other) every access ends in RecursionError.", "quantifier": "every class, every pair of names, every program that uses the object, every behaviour of the state manager and all other objects", "why_tests_cant": "A test runs finitely many call histories; the claim is about every history of calls.", "anchors": ["big/state.py:accessor"]}
{"id": "C101", "title": "a dispatched event is the event of the current state", "statement": "In a class where event is decorated with dispatch(state_manager, prefix=prefix, suffix=suffix), self.event(args) does exactly what self.state_manager.state.<prefix>event<suffix>(args) does, looked up at the time of the call - same result, effects and exceptions; the body of the decorated function is never run.", "quantifier": "every class, every names, every program, every behaviour of the other objects", "why_tests_cant": "A test runs finitely many call histories; the claim is about every history of calls.", "anchors": ["big/state.py:dispatch"]}
{"id": "C102", "title": "setting and ensuring a time zone changes nothing else", "statement": "datetime_set_timezone(d, tz) is a datetime with the fields and fold of d and tzinfo tz, and never fails; datetime_ensure_timezone(d, tz) is d itself if d has a time zone and the former otherwise; the second call of either is as documented (the last one set wins; ensuring twice changes nothing).", "quantifier": "every datetime object (and subclass), every time zone or None", "why_tests_cant": "A test samples finitely many inputs; the claim is about every input of every length.", "anchors": ["big/time.py:datetime_set_timezone", "big/time.py:datetime_ensure_timezone"]}
{"id": "C103", "title": "parse_timestamp_3339Z reads what timestamp_3339Z writes", "statement": "parse_timestamp_3339Z(timestamp_3339Z(t), timezone=tz) is a datetime in UTC for exactly the instant of t (to the second if microseconds were left out), whatever tz is. A string without time zone gets tz and is otherwise what dateutil makes of it.", "quantifier": "every t of every supported type, every tz, every parser that understands RFC 3339", "why_tests_cant": "A test samples finitely many inputs; the claim is about every input of every length.", "anchors": ["big/time.py:parse_timestamp_3339Z", "big/time.py:timestamp_3339Z"]}
{"id": "C104", "title": "multistrip, multisplit and multipartition check their separators and keep the type of s", "statement": "multistrip, multisplit and multipartition raise TypeError or ValueError exactly if separators is not an iterable of non-empty strings of the type of s (or a non-empty string of that type); otherwise every string they return has the type of s, is a plain str or bytes, and is what they make of the characters (C31-C37) whatever kind of iterable separators is.", "quantifier": "every str, bytes or instance of a subclass; every object given as separators", "why_tests_cant": "A test samples finitely many inputs; the claim is about every input of every length.", "anchors": ["big/text.py:multistrip", "big/text.py:multisplit", "big/text.py:multipartition"]}
{"id": "C105", "title": "normalize_whitespace for str and bytes, any separators and replacement", "statement": "normalize_whitespace(s, separators, replacement) raises TypeError or ValueError exactly if separators or replacement are of the wrong type or empty; otherwise it replaces every run of whitespace (what isspace() says for the type of s) or of separators with the replacement, and the result has the type of s.", "quantifier": "every str and bytes, every object as separators and replacement", "why_tests_cant": "A test samples finitely many inputs; the claim is about every input of every length.", "anchors": ["big/text.py:normalize_whitespace"]}
{"id": "C106", "title": "LineInfo.clip_leading and clip_trailing account for every character, whoever calls them", "statement": "For a line yielded by lines(), however often a modifier calls info.clip_leading(line, s) and info.clip_trailing(line, s) with a prefix or suffix of the line or with any int: the call returns line[n:] or line[:-n], what it clipped moves to info.leading or info.trailing (everything to trailing if nothing is left), leading + line + trailing + end is always the original line, and column_number advances by the width of what was clipped in front. Clipping nothing changes nothing.", "quantifier": "every line, every string and int, every sequence of calls", "why_tests_cant": "A test runs finitely many call histories; the claim is about every history of calls.", "anchors": ["big/text.py:LineInfo.clip_leading", "big/text.py:LineInfo.clip_trailing"]}
{"id": "C107", "title": "A closed View is dead, and only it", "statement": "After view.close() has succeeded, every call of ready, done, bool, reset, close or copy on that view raises ValueError and changes nothing, whatever calls are made on the graph and its other views in between. close() of an open view of an uncopied graph succeeds; a graph whose default view is closed refuses copy() and still gives out views.", "quantifier": "every history of calls on any number of graphs and views", "why_tests_cant": "A test runs finitely many call histories; the claim is about every history of calls.", "anchors": ["big/graph.py:TopologicalSorter.View.close", "big/graph.py:TopologicalSorter.View"]}
{"id": "C108", "title": "split_quoted_strings and split_delimiters check the types of their arguments", "statement": "split_quoted_strings(s, quotes, escape=, multiline_quotes=, state=) and split_delimiters(s, delimiters, state=) accept str and bytes alike: if every string given is of the type of s (None and the defaults of either type standing for the default of the type of s, a string for its characters) the result depends on the characters only (C39, C40), otherwise TypeError or ValueError is raised before anything is yielded.", "quantifier": "every str and bytes, every object for each other argument", "why_tests_cant": "A test samples finitely many inputs; the claim is about every input of every length.", "anchors": ["big/text.py:split_quoted_strings", "big/text.py:split_delimiters"]}
{"id": "C109", "title": "Delimiter objects are values", "statement": "Delimiter(close, escape=, multiline=, quoting=) raises ValueError exactly if close is a backslash, escape and quoting disagree or multiline is false without quoting; otherwise its attributes are what was given. Delimiter(d) and d.copy() equal d. == is an equivalence relation, equal Delimiters hash alike, and Delimiters (and open delimiters) that are equal can take each other's place in split_delimiters, so that its cache is not observable.", "quantifier": "every argument, every mapping of delimiters, every string", "why_tests_cant": "A test samples finitely many inputs; the claim is about every input of every length.", "anchors": ["big/text.py:Delimiter", "big/text.py:_delimiters_to_state_and_tokens"]}
{"id": "C110", "title": "lines() accepts text or an iterable of strings or pairs, and one bad value does not disturb the others", "statement": "lines(s, separators, line_number=, column_number=, tab_width=) for a str or bytes (or an instance of a subclass) yields the lines of the text; for an iterable of plain str or bytes, or of pairs (line, end), it yields one line per value. The first value of an iterable decides which, and of what type. Every value that fits yields a LineInfo whose attributes describe it, numbered consecutively; every other value raises TypeError or ValueError (a pair without two elements) from that next() only, and is not counted. The constructor raises exactly if a number is not an int, separators are wrong for the text, separators are given for an iterable, or s is not iterable.", "quantifier": "every object s, every iterable of arbitrary objects, every history of next() calls", "why_tests_cant": "A test runs finitely many call histories; the claim is about every history of calls.", "anchors": ["big/text.py:lines.__init__", "big/text.py:lines.__next__"]}
{"id": "C111", "title": "LineInfo objects store what they are given and compare by value", "statement": "LineInfo(lines, line, line_number, column_number, leading=, trailing=, end=, indent=, match=, **kwargs) stores every argument as the attribute of that name, None standing for an empty string of the type of line; it raises TypeError exactly if line is no str or bytes, a number is no int, leading, trailing or end is not of the type of line, or match is neither None nor a match. Two LineInfo objects are equal exactly if they have the same class and equal attributes; this is an equivalence relation.", "quantifier": "every tuple of objects as arguments, every set of keyword arguments", "why_tests_cant": "A test samples finitely many inputs; the claim is about every input of every length.", "anchors": ["big/text.py:LineInfo.__init__", "big/text.py:LineInfo.__eq__"]}
{"id": "C112", "title": "The comment modifiers check their markers", "statement": "lines_filter_line_comment_lines(li, markers) and lines_strip_line_comments(li, markers, quotes=, escape=, multiline_quotes=) accept a str, bytes or collection of either, and then work on the characters (C58, C59, C93); they raise ValueError or TypeError at once exactly if markers is empty or not of one type, or the quotes are wrong.", "quantifier": "every object as markers, quotes, escape and multiline_quotes", "why_tests_cant": "A test samples finitely many inputs; the claim is about every input of every length.", "anchors": ["big/text.py:lines_filter_line_comment_lines", "big/text.py:lines_strip_line_comments", "big/text.py:_iterate_over_bytes"]}
{"id": "C113", "title": "lines_grep yields exactly the matching lines and records the match", "statement": "lines_grep(li, pattern, invert=, match=name) yields the lines on which pattern.search succeeds (invert: fails), in order and unchanged; the attribute called name of each LineInfo is the match object (None if inverted) and no other attribute changes. A name that is no identifier raises ValueError; a line of the other type raises TypeError after the lines before it have been yielded.", "quantifier": "every sequence of lines, every search function, every attribute name", "why_tests_cant": "A test samples finitely many inputs; the claim is about every input of every length.", "anchors": ["big/text.py:lines_grep"]}
{"id": "C114", "title": "gently_title checks its quote marks and returns a plain str or bytes", "statement": "For s a str or bytes (or an instance of a subclass), apostrophes and double_quotes may each be None, a non-empty string like s (standing for its characters) or an iterable of non-empty strings like s (an iterator that yields nothing standing for no marks at all); then the result is a str or bytes, of the same kind as s and never of a subclass, and is the title C49 describes for those marks. Anything else raises: ValueError for an empty string or collection, TypeError for a value of the wrong type, the first wrong thing deciding, and apostrophes before double_quotes. (The documentation says that any false value means the default; only None does.)", "quantifier": "every s of every class, and every pair of objects", "why_tests_cant": "A test samples finitely many inputs; the claim is about every input of every length.", "anchors": ["big/text.py:gently_title", "big/text.py:_iterate_over_bytes"]}
{"id": "C115", "title": "Heap: what is left when a comparison raises", "statement": "If comparing two values raises during a call on a Heap, or the iterable given to extend raises, the exception comes out of the call, and the heap afterwards contains exactly: for append, everything and the new value; for extend, everything and the values the iterable yielded; for remove, everything, or everything but the value removed; for the popping methods, everything and the value given, or that without one value, which is lost. No call ever duplicates a value. The version is unchanged, so iterators do not notice. As long as nothing has raised the heap behaves like a sorted multiset (C01), and it does so again after any extend or remove that succeeds.", "quantifier": "every history of calls, every point at which any comparison raises, every set of values comparable or not", "why_tests_cant": "A test runs finitely many call histories; the claim is about every history of calls.", "anchors": ["big/heap.py:Heap"]}
{"id": "C116", "title": "Scheduler: an exception at any statement of any call", "statement": "If the regulator's now, sleep, wake or lock raises inside a call of a Scheduler, or an exception strikes a thread between two statements of a call (KeyboardInterrupt), the exception ends that call only: the lock is released, no other thread is affected, and what C06-C09 and C12 say still holds of the whole history (order, never early, once each, scheduled = queued + yielded + cancelled, lock discipline). The call has had either no effect or its full effect. If only the regulator raises, next never loses an event: a next that raises has taken none from the queue.", "quantifier": "every number of threads, every interleaving, every statement as the point of failure, any number of failures", "why_tests_cant": "Tests see the interleavings the OS happens to produce; the claim is about every interleaving.", "anchors": ["big/scheduler.py:Scheduler", "big/scheduler.py:ThreadSafeRegulator"]}
{"id": "C117", "title": "Separators are taken literally, and the pattern strings mean what the models say", "statement": "Whatever characters the separators given to multisplit, multistrip, multipartition, lines_filter_line_comment_lines or lines_strip_line_comments are made of (., *, (, |, backslashes, spaces, line breaks...), they stand for themselves: the pattern string big builds from them is well-formed, and re finds with it exactly the separators: the longest one at each position (separate=True) or a maximal run of them, captured as group 1 when they are to be kept, and re.split cuts exactly there. With the empty string among the separators the pattern is still well-formed, finds the other separators as before, and the empty string everywhere else. The pattern string with which Version parses its text, read under re.VERBOSE | re.IGNORECASE, and the one with which it validates segments of local, mean what C26-C30 and C67 take them to mean: the same match and the same text in each named group, for every text.", "quantifier": "every non-empty list of separators over any alphabet, every text, every choice of characters that re.escape escapes which includes the metacharacters and no ASCII letter or digit", "why_tests_cant": "A test samples finitely many inputs; the claim is about every input of every length.", "anchors": ["big/text.py:_re_quote", "big/text.py:__separators_to_re", "big/text.py:multistrip", "big/text.py:lines_filter_line_comment_lines", "big/version.py:Version"]}
{"id": "C118", "title": "Version: arguments of any type, properties, repr and operators", "statement": "Version's keyword arguments are accepted exactly if release is a non-empty tuple of ints, epoch, serial, post and dev are None or non-negative ints, release_level is None or one of 'alpha', 'beta', 'rc', 'final', and local is None or a non-empty tuple of strings of letters and digits (possibly followed by a newline); the properties then are the values given, 0 standing for no epoch or serial. A first argument is parsed if it is a str, read as a version string if it is sys.version_info; anything else, and any keyword argument that is not None beside it, is an error. Errors are ValueError, whatever the arguments (AssertionError for a pre-release label not in lower case). Bools count as ints in comparisons. repr() of a version made from a string is Version('...') with a text that evaluates to an equal version. ==, !=, < and > work between versions and agree; <= and >= raise TypeError; a version is unequal to, and not comparable with, anything else.", "quantifier": "every eight objects as arguments, every pair of operands", "why_tests_cant": "A test samples finitely many inputs; the claim is about every input of every length.", "anchors": ["big/version.py:Version"]}
{"id": "C119", "title": "TopologicalSorter: what a call that fails on an unhashable argument leaves behind", "statement": "add, remove and done given an unhashable node raise TypeError. If the first argument is the unhashable one, nothing changes. If add(n, *deps) fails at a dependency, n and the dependencies before it are in the graph and n depends on them, but the graph's count of dependencies and the views are not updated; so nothing changes exactly if n was in the graph and depended on each of these already. A history whose failing calls are of these harmless kinds is, to C13-C22, a history without them.", "quantifier": "every history of calls, every list of dependencies, every position of the unhashable argument", "why_tests_cant": "A test runs finitely many call histories; the claim is about every history of calls.", "anchors": ["big/graph.py:TopologicalSorter.add", "big/graph.py:TopologicalSorter.remove", "big/graph.py:TopologicalSorter.View.done"]}
{"id": "C120", "title": "Scheduler: no deadlock, and no event is forgotten", "statement": "In every execution in which every thread gets to run again and again and time goes on, whatever the threads call and whenever: while some thread is inside a call of the scheduler, some call returns later. If from some moment on threads only call next(scheduler), and there is again and again a thread in such a call, every event pending at that moment is yielded. (In particular the lost wake-up of C11 only delays.)", "quantifier": "every infinite fair interleaving of any number of threads, with time unbounded", "why_tests_cant": "Tests see the interleavings the OS happens to produce; the claim is about every interleaving.", "anchors": ["big/scheduler.py:Scheduler", "big/scheduler.py:ThreadSafeRegulator"]}
{"id": "C121", "title": "BoundInnerClass: threads", "statement": "In every interleaving of threads that read bound inner classes of any objects and run class statements: a read of o.Inner ends after a bounded number of steps of its own thread; if it succeeds it gives a new class with the right name and first base, bound to o, which no other object or name gives; the only exception is TypeError. When no thread is in the middle of reading an attribute of o, every class read through o stays the same ever after. If two threads never read attributes of o at the same time (whatever they do with other objects), every read succeeds, all give the same class, and its method resolution order is that of C83. The same holds, except for 'the same class', of any interleaving of reads of a class whose decorated bases have been read before (in particular of one that has none), and constructing an instance is as in C84.", "quantifier": "every interleaving of any number of threads, every program that decorates classes as documented", "why_tests_cant": "Tests see the interleavings the OS happens to produce; the claim is about every interleaving.", "anchors": ["big/boundinnerclass.py:_Worker.__get__"]}
{"id": "C122", "title": "safe_mkdir, safe_unlink and touch can be killed anywhere and repeated", "statement": "However often a process is killed in the middle of safe_mkdir(path), safe_unlink(path) or touch(path), and between whichever system calls: the file system has not changed but that a file at path may be gone and directories on the way to path have been made (safe_mkdir), the file at path may be gone (safe_unlink), or the time of path may be new or an empty file made (touch, which never loses contents); and when the call is repeated to the end it succeeds or fails exactly as it would have at first, with the same result. file_size and file_mtime_ns report what these calls have done.", "quantifier": "every file system, every path, every number of kills at any points", "why_tests_cant": "Crash points and their combinations cannot be enumerated by tests.", "anchors": ["big/file.py:safe_mkdir", "big/file.py:safe_unlink", "big/file.py:touch", "big/file.py:file_size", "big/file.py:file_mtime_ns"]}
{"id": "C123", "title": "The lines modifiers are lazy", "statement": "Calling lines modifiers, in whatever chain, reads nothing from the iterator they are given. Iterating over the chain gives one after the other exactly the lines that C42-C44 and C57-C60 speak of, then the exception if there is one, and then StopIteration for ever; every next() comes back if the source ends. If the source is endless, what has been yielded is right whatever follows in it, and a line is read from the source only when the lines read before are not enough to yield anything more. Only lines_sort waits for the end of the source (on an endless one it never comes back), and only lines_strip_indent holds lines back, which are blank.", "quantifier": "every chain of modifiers with any arguments, every finite or endless source of lines, every number of calls of next()", "why_tests_cant": "A test runs finitely many call histories; the claim is about every history of calls.", "anchors": ["big/text.py:lines_rstrip", "big/text.py:lines_strip", "big/text.py:lines_filter_line_comment_lines", "big/text.py:lines_sort", "big/text.py:lines_strip_line_comments", "big/text.py:lines_strip_indent"]}
{"id": "C124", "title": "The Scheduler works with any Regulator and any class of times", "statement": "With a Regulator written by the user, whose now() returns anything and whose sleep() returns whenever it likes, and with times of any class whose comparisons and subtraction are consistent in the way of numbers: next() yields the first pending event in order of (time, priority, order of scheduling) and only if its time minus now() is <= 0, that is, never early; it calls sleep() exactly if nothing pending is due, with the time left until the first event; non_blocking() stops exactly then; StopIteration, cancel, bool and queue are right. An event's time is the time given, or that plus now(). The floats of the regulators that come with big (finite clock, finite or infinite event times, with all rounding of IEEE doubles) and ints are consistent. Even if the times are inconsistent, no event is lost or duplicated, and every call does what it is for.", "quantifier": "every class of times and priorities, every sequence of values returned by now(), every interleaving of calls and returns of sleep()", "why_tests_cant": "A test runs finitely many call histories; the claim is about every history of calls.", "anchors": ["big/scheduler.py:Regulator", "big/scheduler.py:Scheduler", "big/scheduler.py:Event"]}
{"id": "C125", "title": "A text can be parsed in parts with the state carried over", "statement": "split_quoted_strings (quote marks and escape of one character): when a text is cut into parts anywhere but between an escape character and the quote mark or escape it escapes, and each part is parsed with state= the quote mark open after the parts before (that of the last tuple, if it has no trailing quote mark), then the tuples, those at the cuts joined, are the tuples of the whole text; and one of the calls raises SyntaxError exactly if the call for the whole text does. split_delimiters (delimiters of one character): the same for a cut at any point at which the first call succeeds, when the state is kept as the documentation advises (append open delimiters, pop at close delimiters); if the first call raises then the call for the whole text raises too, after the same tuples, unless the cut is after an escape character.", "quantifier": "every text, every list of parts, every set of one-character quote marks or mapping of one-character delimiters, every initial state", "why_tests_cant": "A test samples finitely many inputs; the claim is about every input of every length.", "anchors": ["big/text.py:split_quoted_strings", "big/text.py:split_delimiters"]}
{"id": "C126", "title": "python -m big.graph is a tsort", "statement": "Given a text file, if every line is blank or has two words and no word comes, directly or indirectly, before itself, the program prints every word exactly once, one per line, the first word of each line before the second; if some word does, it raises CycleError and prints nothing; if some line is not of this form, it exits with that line, stripped (the first such line), as its message and prints nothing.", "quantifier": "every text file, every order of iterating over sets", "why_tests_cant": "A test samples finitely many inputs; the claim is about every input of every length.", "anchors": ["big/graph.py:TopologicalSorter.static_order", "big/graph.py (program at the end of the file)"]}
{"id": "C127", "title": "Wrapped text can be split and wrapped again", "statement": "For every text, wrap_words(split_text_with_code(text)) split again with split_text_with_code gives the same words, whatever the margin: nothing is lost or joined, paragraphs stay paragraphs and code lines code lines. So text can be reformatted to any other width. With allow_code=False for every text; with code for texts with at most one code block (see C78), if a newline follows the output or the text ends with a paragraph.", "quantifier": "every str or bytes text, margin, tab width and code indent", "why_tests_cant": "A test samples finitely many inputs; the claim is about every input of every length.", "anchors": ["big/text.py:wrap_words", "big/text.py:split_text_with_code"]}
{"id": "C128", "title": "Wrapped paragraphs fit their columns", "statement": "If each column of merge_columns is the result of wrap_words with a margin not greater than the width of the column, and no word (text without line breaks, or line breaks only) is longer than that width, then merge_columns never raises OverflowError, no column delays another whatever the overflow strategy, and row r of the result shows line r of every column, each padded to its width.", "quantifier": "every number of columns, every list of words, every margin and width, every overflow strategy and separator", "why_tests_cant": "A test samples finitely many inputs; the claim is about every input of every length.", "anchors": ["big/text.py:wrap_words", "big/text.py:merge_columns"]}
{"id": "C129", "title": "Laws of the lines modifiers", "statement": "The order of two filters (lines_filter_empty_lines, lines_filter_line_comment_lines, lines_containing, lines_grep) does not matter, nor does the order of a filter and lines_sort; sorting by one key and then by another is sorting by the second key and, where that is equal, by the first (in either direction each); lines_rstrip before or after lines_strip changes nothing; and each of these, lines_strip_indent and lines_convert_tabs_to_spaces does nothing the second time. This holds for the lines and their infos, and for an exception that ends the source.", "quantifier": "every sequence of lines that any source or earlier modifiers yield, ending in an exception or not", "why_tests_cant": "A test samples finitely many inputs; the claim is about every input of every length.", "anchors": ["big/text.py:lines_filter_empty_lines", "big/text.py:lines_filter_line_comment_lines", "big/text.py:lines_containing", "big/text.py:lines_grep", "big/text.py:lines_sort", "big/text.py:lines_strip", "big/text.py:lines_rstrip", "big/text.py:lines_strip_indent", "big/text.py:lines_convert_tabs_to_spaces"]}
{"id": "C130", "title": "TopologicalSorter replaces graphlib's", "statement": "A program that builds a graph with graphlib.TopologicalSorter's add(), calls prepare() and then makes any calls of get_ready(), done() and is_active() sees the same when the class is replaced by big's: the same exception at the same call (up to and including the first one), the same answers of is_active(), the same nodes from each get_ready() - in the same order, if no dependency is declared twice. static_order() yields the same nodes in the same order, or raises CycleError in both.", "quantifier": "every sequence of add, get_ready, done and is_active calls, correct or not, every order of iterating over sets", "why_tests_cant": "A test runs finitely many call histories; the claim is about every history of calls.", "anchors": ["big/graph.py:TopologicalSorter.add", "big/graph.py:TopologicalSorter.check_for_cycles", "big/graph.py:TopologicalSorter.View.ready", "big/graph.py:TopologicalSorter.View.done", "big/graph.py:TopologicalSorter.View.__bool__", "big/graph.py:TopologicalSorter.static_order"]}
{"id": "C131", "title": "Without a limit multisplit does not depend on the direction", "statement": "If no end of a separator (short of the whole) is the beginning of a separator - as when all are single characters, or with big's own tuples of white space and line breaks -, then multisplit(s, seps, reverse=True) without a limit yields what multisplit(s, seps) yields, whatever keep, separate and strip are; and reverse=True, maxsplit=n cuts at the last n of the places where multisplit cuts. For a single separator this holds of every s exactly if the separator cannot overlap itself.", "quantifier": "every str s, separators that cannot overlap, every keep, separate, strip and limit", "why_tests_cant": "A test samples finitely many inputs; the claim is about every input of every length.", "anchors": ["big/text.py:multisplit"]}
{"id": "C132", "title": "A text can be split in parts, and splitting can be continued", "statement": "Splitting what maxsplit=n left with maxsplit=m gives what maxsplit=n+m gives. If a text is cut into two parts anywhere but inside a separator, then the results of multisplit for the two parts, the last string of one and the first of the other joined, are the result for the whole text (with separate=False, separators that meet at the cut are one). With the default separators every cut is good but one between \\r and \\n. The same for lines(): after a line break the lines of the rest, numbered on, follow.", "quantifier": "every str s, cut, separators, separate, n and m", "why_tests_cant": "A test samples finitely many inputs; the claim is about every input of every length.", "anchors": ["big/text.py:multisplit", "big/text.py:lines"]}
{"id": "C133", "title": "re_partition generalises multipartition", "statement": "With a pattern that matches given separators - the longest where several begin, as '|'.join(re.escape(s) for s in sorted(separators, key=len, reverse=True)) does -, re_partition(s, pattern, count) returns the strings that multipartition(s, separators, count) returns (the text of the Match objects, '' for None), and re_rpartition those of multirpartition if the separators are equally long, for instance if there is one; a negative count raises ValueError in all of them.", "quantifier": "every str s, separators and count, every pattern that finds the separators", "why_tests_cant": "A test samples finitely many inputs; the claim is about every input of every length.", "anchors": ["big/text.py:re_partition", "big/text.py:re_rpartition", "big/text.py:multipartition", "big/text.py:multirpartition"]}
{"id": "C134", "title": "The Scheduler replaces Python's sched.scheduler", "statement": "Scheduler is \"a replacement for Python's sched.scheduler\". A program that uses a sched.scheduler and is rewritten call by call -- enter(delay, priority, action) into schedule(action, delay, priority=priority), enterabs into schedule(..., absolute=True), cancel and queue unchanged, empty() into not s, run() into 'for action in s: action()', run(blocking=False) into the same over s.non_blocking(), timefunc and delayfunc into the Regulator's now and sleep -- does the same: the same actions are called in the same order at the same readings of the clock, with the same delays, the same exceptions at the same points, the same answers to empty and queue, and the same events cancelled; also when actions or the delay function enter or cancel events, run the scheduler themselves, or raise.", "quantifier": "every program (its next move and its clock's next reading an arbitrary function of everything it has observed), any class of times and priorities, every number of steps", "why_tests_cant": "A test runs finitely many call histories; the claim is about every history of calls.", "anchors": ["big/scheduler.py:185-393 Event, Scheduler", "CPython Lib/sched.py scheduler"]}
{"id": "C135", "title": "str and bytes are treated alike", "statement": "A call on bytes does what the same call on the str with the same ASCII characters does, and yields bytes where that yields str: multisplit, multistrip, multipartition, normalize_whitespace and gently_title with any arguments (also wrong ones: the same exception), lines with any modifiers, split_quoted_strings, split_delimiters, wrap_words, split_text_with_code and merge_columns. This is for texts without the characters that are whitespace, or line breaks, for str and not for bytes (\\x1c to \\x1f, and \\v and \\f as line breaks); with explicit separators multisplit, multistrip and multipartition agree on every text. Moreover separators that do not occur in s make no difference to multisplit and multistrip.", "quantifier": "every text, all separators, arguments and pipelines of modifiers", "why_tests_cant": "A test samples finitely many inputs; the claim is about every input of every length.", "anchors": ["big/text.py:126-306", "big/text.py:859 multistrip", "big/text.py:1098 multisplit", "big/text.py:1279 multipartition", "big/text.py:1590 gently_title", "big/text.py:1731 normalize_whitespace", "big/text.py:1937 split_quoted_strings", "big/text.py:2677 split_delimiters", "big/text.py:2985 lines", "big/text.py:3703 wrap_words", "big/text.py:4050 split_text_with_code", "big/text.py:4105 merge_columns"]}
{"id": "C136", "title": "The deprecated parsers and their replacements agree", "statement": "Where big.deprecated says 'please switch to the modern version', a caller of parse_delimiters who switches to split_delimiters with the corresponding delimiters gets the same tuples: for every s the old function accepts, the new one yields the same, exactly if no text outside quotes has a backslash and no quoted text a line break that is not allowed; for every s the new function accepts, the old one yields the same exactly if all delimiters are closed, and otherwise the tuples up to the last delimiter and then ValueError; what one yields is always the beginning of what the other yields. The same with the default delimiters of both. split_quoted_strings: with one-character quote marks and without triple quotes, the segments (is_quoted, text) of the old function are those (opening mark, text, closing mark) of the new one, if there is no escape character outside quotes and no line break inside. lines_strip_comments(rstrip=False): without quotes the same lines, infos and exceptions as lines_strip_line_comments; with such quotes (triple_quotes=False), every sequence of lines that the new one accepts and whose quotes both understand gives the same.", "quantifier": "every s, str or bytes, every sequence of lines, and every set of pairs of one-character delimiters that both functions accept", "why_tests_cant": "A test samples finitely many inputs; the claim is about every input of every length.", "anchors": ["big/deprecated.py:parse_delimiters", "big/deprecated.py:split_quoted_strings", "big/deprecated.py:lines_strip_comments", "big/text.py:split_delimiters", "big/text.py:split_quoted_strings", "big/text.py:lines_strip_line_comments"]}
{"id": "C137", "title": "The filename translations work together and in parts", "statement": "A name translated by translate_filename_to_exfat is left alone by translate_filename_to_unix, and translating for Unix first makes no difference to the exFAT name; so to be legal on both systems the exFAT translation suffices, in any order. A name can be translated in parts (a stem and an extension): the results joined are the result for the whole name, unless it is cut between a colon and the space after it.", "quantifier": "every str", "why_tests_cant": "A test samples finitely many inputs; the claim is about every input of every length.", "anchors": ["big/file.py:translate_filename_to_exfat", "big/file.py:translate_filename_to_unix"]}
{"id": "C138", "title": "repr() and print() tell the truth", "statement": "After any calls: repr(heap) shows the number of items and a smallest one. repr(view) shows the nodes the next ready() would give, how many nodes are handed out and not done, how many are done, and conflicts=True exactly if ready(), done() and bool() raise RuntimeError. view.print() prints these nodes in ascending order, and the nodes with a conflict; graph.print() prints each node once, in ascending order, with the number of nodes it depends on and the nodes that depend on it. repr() and print() work on every object.", "quantifier": "every sequence of calls on heaps, graphs and views", "why_tests_cant": "A test runs finitely many call histories; the claim is about every history of calls.", "anchors": ["big/heap.py:60-62 Heap.__repr__", "big/graph.py:52-62", "big/graph.py:124-125 View.__repr__", "big/graph.py:356-370 View.print", "big/graph.py:440-441 TopologicalSorter.__repr__", "big/graph.py:671-681 TopologicalSorter.print"]}
{"id": "C139", "title": "split_quoted_strings and split_delimiters agree on quotes", "statement": "split_delimiters given Delimiter(q, escape=e, multiline=..., quoting=True) for each quote mark q finds the same quoted strings and the same text between them as split_quoted_strings given the same marks as quotes or multiline_quotes and the same escape, from the start or from inside a quote. If e does not occur in s, this holds for every s, with SyntaxError raised at the same point. If it does: as long as e stands neither before a line break, nor before a multiline mark, nor outside quotes, nor at the end of s, one accepts s if and only if the other does, and the results are the same. Otherwise they can differ.", "quantifier": "every str or bytes, every set of one-character quote marks without the backslash, every one-character escape", "why_tests_cant": "A test samples finitely many inputs; the claim is about every input of every length.", "anchors": ["big/text.py:1871-2118 split_quoted_strings", "big/text.py:2136-2781 Delimiter, split_delimiters"]}
{"id": "C140", "title": "repr() of a LineInfo shows exactly what is set", "statement": "repr(info) shows every attribute of a LineInfo object, those given as keyword arguments and those set later included, whose value is true, once and with its value: lines, line, line_number, column_number, leading, trailing and end in this order, then the others in the order of their names; and no other. It fails only if one of the seven was deleted: with ValueError.", "quantifier": "every LineInfo object, any attributes", "why_tests_cant": "A test samples finitely many inputs; the claim is about every input of every length.", "anchors": ["big/text.py:2965-2978 LineInfo.__repr__"]}
{"id": "C141", "title": "combine_splits obeys the laws of a union", "statement": "For arrays that join to s, the result of combine_splits depends only on the set of places where the arrays split s: not on their order, nor on how often an array or an empty string is among them. Without arrays it is s, with one array the array without its empty strings; combining the result with further arrays is combining all of them at once. Splitting s by several sets of one-character separators with multisplit (keep=True or keep=ALTERNATING, from either side) and combining gives what multisplit gives for all the separators together, without empty strings.", "quantifier": "every s, every number of arrays, every set of one-character separators", "why_tests_cant": "A test samples finitely many inputs; the claim is about every input of every length.", "anchors": ["big/text.py:1472-1573 combine_splits", "big/text.py:972-1225 multisplit"]}
{"id": "C142", "title": "The laws of split_title_case", "statement": "A word that split_title_case yields is not split again. split_allcaps=True splits wherever False does. split_title_case(s1 + s2) is split_title_case(s1) followed by split_title_case(s2) exactly if a word begins after s1. Words in title case - an upper-case letter, then lower-case letters - joined together are split into the same words again if no two words of one letter follow each other (with split_allcaps=False: if only the last word can have one letter); a lower-case word in front (camelCase) is split off too.", "quantifier": "every text, every list of words", "why_tests_cant": "A test samples finitely many inputs; the claim is about every input of every length.", "anchors": ["big/text.py:1377-1466 split_title_case"]}
{"id": "C143", "title": "The laws of multistrip", "statement": "multistrip of both sides is multistrip of the left side and then of the right; with neither side it returns the string unchanged. Stripping a second time with the same arguments changes nothing. If the separators are single characters the order of the sides does not matter, and stripping some characters first makes no difference if they are stripped along with others afterwards.", "quantifier": "all strings, all non-empty lists of non-empty separators, both flags", "why_tests_cant": "A test samples finitely many inputs; the claim is about every input of every length.", "anchors": ["big/text.py:859-955 (multistrip)"]}
{"id": "C144", "title": "repr() of an instance of a bound inner class names the class and the outer object", "statement": "repr() of an instance of a class decorated with BoundInnerClass that has no custom __repr__ is '<module.name object bound to REPR at ADDRESS>', where module and name are those of the class as written and REPR is repr() of the outer object it is bound to (None if that object is gone). A custom __repr__, defined in the class or inherited, is used instead, as it is for the class that is not bound.", "quantifier": "all programs that decorate classes as documented, all sets of classes with a __repr__, all outer objects, all histories of attribute reads and class statements", "why_tests_cant": "A test runs finitely many call histories; the claim is about every history of calls.", "anchors": ["big/boundinnerclass.py:163-185 (BoundInnerClass._wrap, Wrapper.__repr__)", "big/boundinnerclass.py:205-214 (UnboundInnerClass._wrap)"]}
{"id": "C145", "title": "The laws of multipartition", "statement": "Partitioning again what is left over continues: multipartition(s, seps, n) with its last string replaced by multipartition(last, seps, m) is multipartition(s, seps, n+m), so that count=n is n calls with count=1, each for what the call before left over, and a larger count keeps what a smaller one gives. multirpartition does the same at the left end, and is multipartition of the reversed string at the reversed separators, reversed. All this includes strings with fewer separators than counted.", "quantifier": "all strings, all non-empty collections of non-empty separators or the default, separate true or false, all counts from 0", "why_tests_cant": "A test samples finitely many inputs; the claim is about every input of every length.", "anchors": ["big/text.py:1280-1350 (multipartition, multirpartition)"]}
{"id": "C146", "title": "The laws of normalize_whitespace", "statement": "normalize_whitespace of a concatenation is the concatenation of the results, unless white space meets white space at the seam. If the replacement is white space, normalizing again with any other replacement is the same as normalizing with that alone. Normalizing again with the same arguments changes nothing exactly if the replacement is all white space, or has none, or nothing was replaced. With the default separators the result is replacement.join(s.split()), with the replacement in front and behind where s starts or ends with white space.", "quantifier": "all strings, all replacements, the default separators and all separators that amount to a class of characters", "why_tests_cant": "A test samples finitely many inputs; the claim is about every input of every length.", "anchors": ["big/text.py:1731-1826 (normalize_whitespace)"]}
{"id": "C147", "title": "The laws of int_to_words", "statement": "flowery=True differs from flowery=False only by commas in front of blanks and by 'and' between words: the plain text is the flowery one with those left out, has no comma and no 'and', and the other words are the same. A negative number is 'negative ' and the words of the number without sign. Both hold for ordinals, too.", "quantifier": "all integers, cardinal and ordinal", "why_tests_cant": "A test samples finitely many inputs; the claim is about every input of every length.", "anchors": ["big/text.py:4309-4443 (int_to_words)"]}
{"id": "C148", "title": "gently_title works word by word", "statement": "What gently_title writes for the beginning of a text does not depend on what follows it; and the part of a text before a space or left parenthesis and the part after it can be titled separately: gently_title(s + ' ' + t) is gently_title(s) + ' ' + gently_title(t).", "quantifier": "every s and t, every space character, every choice of marks and every upper()", "why_tests_cant": "A test samples finitely many inputs; the claim is about every input of every length.", "anchors": ["big/text.py:1590 gently_title"]}
{"id": "C149", "title": "wrap_words uses as few lines as possible", "statement": "For words without white space words among them, wrap_words returns the words distributed over lines of at most margin characters (a longer word has a line of its own), and no other such distribution has fewer lines; so a wider margin never gives more lines, and if the words have room on one line they are put on one line. White space among the words ('\\n\\n') starts afresh: the words before and after it can be wrapped separately.", "quantifier": "every list of words, every margin, every other distribution of the words over lines", "why_tests_cant": "A test samples finitely many inputs; the claim is about every input of every length.", "anchors": ["big/text.py:3703 wrap_words"]}
{"id": "C150", "title": "The values of multisplit's keep tell the same thing", "statement": "The same call of multisplit with keep=False, True, ALTERNATING and AS_PAIRS raises the same exception, or finds the same pieces of text with the same separators after them, and keep only says how they are shown: without the separators, with the separator at the end of each piece, as strings that alternate, or as pairs, the last one with an empty separator.", "quantifier": "every s and separators, every maxsplit, reverse, separate and strip", "why_tests_cant": "A test samples finitely many inputs; the claim is about every input of every length.", "anchors": ["big/text.py:972 __multisplit", "big/text.py:1098 multisplit"]}
