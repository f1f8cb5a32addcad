# Formal model of larryhastings/big in Rocq (Coq 8.16.1)

## Layout

`rocq/theories/` (logical name `Verif`):

* `PyBase.v` – Python strings as lists of code points, exceptions as values, slicing.
* for each module `X` of the library:
  * `XModel.v` – the executable model, function by function; every definition cites
    the file and lines of /repo it transcribes;
  * `XSpec.v` – the small independent specification in which properties are stated;
  * `XProof.v` – lemmas and proofs;
  * `XProps.v` – only the property theorems (closed by `exact`), each with
    `Print Assumptions` and a non-vacuity `Example`.

## Conventions

* Python exceptions are values (`Err ValueError`), mutation returns the new value,
  generators are lists of what they yield (plus the exception that ended them),
  loops are structural recursion or fuel recursion with an explicit out-of-fuel
  value that the theorems exclude.
* A property that is false of the code is recorded as `..._refuted` with a concrete
  witness, together with the strongest true statement found (`..._partial`).

## Trusted base

* **Coq's kernel** (8.16.1), its `vm_compute` conversion (used for closed computations only), and `coq_makefile`/`coqc`.
* **Axioms: none.**  Every theorem named in MANIFEST.json is followed in its file by `Print Assumptions`, and each prints
  "Closed under the global context".  No file declares an axiom, parameter, section-less variable, functor or module type;
  nothing is admitted, no kernel check is switched off.  (A listing of all constants loaded by a file can contain the
  standard library's `Coq.ssr.ssrunder.Under_rel.*`, which are loaded with `ssreflect`-aware parts of the standard library;
  no theorem here depends on them.)  Only the standard library of Coq is used.
* **The transcription.**  That each `XModel.v` says what the Python source says is not proved: it was written by reading
  the source, and each definition cites the lines it stands for.  `seeded/LOG.jsonl` records how the theorems react when
  the model is changed in the way a bug would change the program.
* **Python itself.**  Behaviour of the language and of its library that the code relies on is modelled by definitions, not
  by the interpreter.  Transcribed: `heapq` (HeapModel), `int(str)`/`str(int)` (PyStr), slicing (PyBase, LinesModel),
  `str.partition/split/strip/splitlines/expandtabs/isspace`, dicts as ordered association lists (PyDict), `re` for the
  patterns that the library builds itself (Regex.v: backtracking matcher, with greedy and lazy repetition, alternation in order),
  the C3 linearisation and attribute lookup (BicModel), the calendar (TimeModel), `os.makedirs` (FsModel), `strftime` as in glibc.
  Parameters (the theorems hold for all of them, under the laws stated as hypotheses): `str.lower/upper/isupper/islower`
  tables, hash functions, a user's compiled patterns, clocks, time zones, `dateutil.parser.parse`, callbacks, other threads and processes.

### What is modelled

| /repo/big | model | not modelled |
|---|---|---|
| heap.py | HeapModel: all of Heap; HexnModel: comparisons that raise; ShowModel: `__repr__` | elements whose order is not total |
| scheduler.py | SchedModel: Scheduler, Event, both regulators; any number of threads at statement granularity; SexnModel: exceptions at every point; SliveSpec: infinite fair executions; SregModel, SregModel2: any Regulator, any times, floats | `__repr__`; float rounding outside SregModel2 (times are integers there) |
| graph.py | GraphModel: TopologicalSorter and View, aliasing included; GexnModel: unhashable arguments; TsortModel: the program at the end; ShowModel: `print`, `__repr__`; GraphlibSpec: the standard library's class (C130) | hash collisions, nodes with an inconsistent `__eq__` |
| state.py | StateModel (StateManager, State), AccessModel (accessor, dispatch) | `__repr__`, TransitionError's text, metadata copied by update_wrapper |
| version.py | VersionModel: parser, constructor, comparison, hash, str, attributes; VargModel: arguments of any type, properties, repr, operators; PatModel: its regular expressions | limit on int literals |
| text.py | SplitModel, TypedModel (separators, multisplit, multistrip, multipartition, normalize_whitespace), GargModel (types of the arguments of gently_title), LargModel (those of lines, LineInfo and the modifiers), PatModel (the regular expressions), DargModel (types of the arguments of split_quoted_strings and split_delimiters, Delimiter objects), RefindModel (re_partition, reversed_re_finditer, re_rpartition), ConstModel (the tuples of separators), DelimModel (split_quoted_strings, split_delimiters, Delimiter), LinesModel (LineInfo, lines, all modifiers), LazyModel (the modifiers as generators), ReprModel (LineInfo.__repr__), WordsModel (wrap_words, split_title_case, gently_title), CombineModel, TextCodeModel, MergeModel, IntWordsModel, EncodeModel | each file's head comment says; in general: `Delimiter.__repr__`, error texts, and the str/bytes checks outside TypedModel and DargModel |
| itertools.py | PushbackModel: all of PushbackIterator | `__repr__` |
| log.py | LogModel: all of Log | a clock that returns floats |
| file.py | GrepModel, FsModel, FilenameModel | codecs, symbolic links, permissions, `which`, the float of `file_mtime` |
| time.py | TimeModel, DateModel | leap seconds |
| builtin.py | NumModel | `pure_virtual` (a wrapper that raises NotImplementedError) |
| boundinnerclass.py | BicModel: BoundInnerClass, UnboundInnerClass, weak references; BthrModel: interleaved reads in threads; BicReprModel: which `__repr__` runs and what it returns | metaclasses, layout conflicts, `__doc__` and the like |
| deprecated.py | DeprModel: split_quoted_strings, parse_delimiters, lines_strip_comments | `__repr__` |
| all.py, metadata.py, `__init__.py` | nothing to model | |

### Behaviour of the code that contradicts its documentation

Each is a theorem with the suffix `_refuted`, with a concrete witness; the note of the property says which.

<!-- REFUTED BEGIN -->
* `C04_heap_index_empty_refuted` (HeapProps.v)
* `C04_heap_index_refuted` (HeapProps.v): C04 is false of the code for small negative ints: heap[-3] of [1;2;3;4;5] is 4.
* `C11_lost_wakeup_refuted` (SchedProps.v): C11 as stated is false of the code: thread 1 has released the lock and is about to enter event.wait when thread 0 schedules an event due at 1 and calls wake() (set, then clear at once); thread 1 then sleeps to the old deadline 100 although an event has been due since 1, every other thread is idle, and only the passage of time to 100 (or another schedule/cancel) lets it move.
* `C20_copy_cannot_be_modified_refuted` (GraphProps.v): False of the code: the copy's views are registered with the original. g = TopologicalSorter(); g.add(1); c = g.copy(); then (a) c.add(1, 2), which is legal on g, raises KeyError; (b) after c.add(5), c.ready() does not return 5; (c) g.add(7) makes c.ready() return 7, which is not a node of c.
* `C20_copy_forgets_cycles_refuted` (GraphProps.v)
* `C21_late_dependency_blocks_refuted` (GraphProps.v)
* `C22_duplicate_argument_refuted` (GraphProps.v): (b) g.add(3, 1, 2); g.ready() -> (1, 2); g.done(1, 1) makes 3 ready while 2 is not done; g.done(1) does not.
* `C22_failed_done_changes_view_refuted` (GraphProps.v): False in general. (a) g.add(2, 1); g.ready() -> (1,); g.done(1, 9) raises ValueError, yet afterwards g.ready() -> (2,) although 1 was never marked done.
* `C25_refuted` (StateProps.v)
* `C28_equal_hash_refuted` (VersionProps.v)
* `C28_equal_hash_refuted` (VersionProps.v): C28 is false: hash() is computed from the stored fields, of which different values can compare equal. Python's hash(None) differs from hash(0).
* `C28_equal_hash_refuted` (VersionProps.v): the same with the pre-release's serial number, and with a numeric local segment
* `C30_dev_before_alpha_refuted` (VersionProps.v): PEP 440: 1.0.dev1 precedes 1.0a1; big: 1.0a1 precedes 1.0.dev1
* `C30_implicit_dev_number_refuted` (VersionProps.v): PEP 440: 1.0.dev is 1.0.dev0, which precedes 1.0; big: 1.0.dev == 1.0
* `C30_local_case_refuted` (VersionProps.v): PEP 440: 1.0+a precedes 1.0+B (case is ignored); big: 1.0+B precedes 1.0+a
* `C34_never_empty_refuted` (SplitProps.v): The documented stronger claim, that with separate=False ALTERNATING never yields an empty string, is false.
* `C35_mirror_with_strip_refuted` (SplitProps.v): With strip=True it is not: the left end is stripped greedily from the left, the right end by a search that backtracks.
* `C36_multistrip_refuted` (SplitProps.v): Otherwise it can remove a newline that is not a separator.
* `C39_multiline_escape_refuted` (DelimProps.v): The documented "escape will escape quote delimiters inside a quoted string" is false of multiline quote marks: the quote is closed by the escaped mark.
* `C40_text_preserved_refuted` (DelimProps.v): In general the text is not preserved: after a token that is passed over inside a quoting delimiter, cutting a token that overlaps the closing one starts again one character early.
* `C43_tab_refuted` (LinesProps.v): With tabs it is false: clipping the rest of a line subtracts the number of characters, not columns, that had been added; and clipping twice measures the second part from column 0.
* `C44_dedent_refuted` (LinesProps.v): Python's rule accepts a dedent of two levels to an open one; the code does not.
* `C45_margin_refuted` (WordsProps.v): With other words of white space, a line may be too long although no word is.
* `C45_two_spaces_refuted` (WordsProps.v): two_spaces=False has no effect.
* `C46_english_refuted` (IntWordsProps.v): It is not always English: a scale and an ordinal are misspelled, and there are extra blanks.
* `C48_too_long_refuted` (CombineProps.v): ... but of two arrays, one that is too long may go unnoticed.
* `C49_rules_refuted` (WordsProps.v): "Uppercase the first character of every word in s" is false after a one-letter word d or o.
* `C50_exceptions_refuted` (PushbackProps.v)
* `C52_negative_refuted` (LogProps.v): A clock that goes backwards makes times negative; they are printed with a stray sign.
* `C52_time_refuted` (LogProps.v): After a second and a half, "01.149999999" is printed.
* `C53_legal_refuted` (FilenameProps.v)
* `C56_leading_refuted` (LinesProps2.v): With longer separators what goes to leading and to trailing need not be separators: the stripped text is looked for from the left, and may be found too early. (The line is right.)
* `C58_space_marker_refuted` (LinesProps.v): A marker that starts with whitespace works only in company.
* `C60_anchor_refuted` (RefindProps.v)
* `C60_empty_match_refuted` (RefindProps.v): A match of the empty string raises ValueError.
* `C61_duplicate_refuted` (RefindProps.v): A pattern that matches the empty string can yield the same empty match twice: (abcdef|efg|) in 'abcdefgh'.
* `C61_reverse_search_refuted` (RefindProps.v): It is not in general: for (ab|cd|bcde) in 'abcde' searching backwards gives 'bcde', but 'cd' and 'ab' are found.
* `C62_anchor_refuted` (RefindProps.v)
* `C65_maxsplit_None_refuted` (SplitProps2.v): maxsplit=None means "no limit" as -1 does, but with PROGRESSIVE the far end then is not stripped.
* `C66_blank_refuted` (SplitProps2.v): A string of whitespace only: str.split gives no strings, multisplit one empty string.
* `C67_final_serial_refuted` (VersionProps2.v)
* `C67_negative_refuted` (VersionProps2.v)
* `C67_newline_refuted` (VersionProps2.v)
* `C67_trailing_zero_refuted` (VersionProps2.v): Each of those conditions is needed: a release with trailing zeros is kept as it is, and is not equal to the same version parsed; negative release numbers are accepted, and their str() does not parse; a final version may have a serial, and then str() fails; a local segment may end in a newline, which str() shows and parsing drops.
* `C69_empty_text_refuted` (GrepProps.v): The empty text is contained in every line; but fgrep returns one line too many if the file is empty or ends with a line break, as every text file should.
* `C70_dotted_refuted` (GrepProps.v): And a character that lower() makes two of (I with dot above) is found by its first half.
* `C70_sigma_refuted` (GrepProps.v): In Greek that is false: the text OMICRON SIGMA is in the line OMICRON SIGMA OMICRON, and fgrep finds it, but not with case_insensitive. (True of every tables with these three entries, as Unicode's.)
* `C71_empty_line_refuted` (GrepProps.v): grep('^$') (every regular expression that matches the empty line): one line too many
* `C72_race_refuted` (FsProps.v): But "a file at path is unlinked" is not safe: two processes that call safe_mkdir on the same file, and one of them fails.
* `C73_race_refuted` (FsProps.v): Not safe: two processes that call it for the same file, and one of them fails.
* `C74_race_fails_refuted` (FsProps.v)
* `C74_race_refuted` (FsProps.v): Among others the contents are not safe: touch itself may empty a file (which another process made after touch looked); and it may fail although the directory is there (another process removes the file after touch looked).
* `C75_made_earlier_refuted` (FsProps.v): The directory is the one from when the object was made: made before, a with statement goes elsewhere afterwards; and one object used twice, nested, leaves the inner block for the wrong directory.
* `C75_reused_refuted` (FsProps.v)
* `C76_keeps_text_refuted` (TextCodeProps.v): ... unless the last line is code and has no newline: " x"
* `C78_blocks_refuted` (TextCodeProps.v): ... but not with two code blocks: " a\nb\n c\n" raises, " a\nb\n\n c\n" has a newline too many
* `C80_trailing_spaces_refuted` (MergeProps.v): ... but trailing spaces of a line count: "a \nb" in a column of width 2, beside "x\ny": "a x\nb y"
* `C81_overflow_after_refuted` (MergeProps.v): after the last line of a column overflow_after does nothing: "abc" in a column of width 1, overflow_after=1, beside "x": the empty line is missing
* `C82_alias_refuted` (BicProps.v)
* `C82_mutual_names_refuted` (BicProps.v)
* `C82_object_attribute_refuted` (BicProps.v)
* `C82_threads_refuted` (BicProps.v)
* `C84_no_init_refuted` (BicProps.v): A class decorated with BoundInnerClass that has no __init__ (nor inherits one with an outer parameter) cannot be instantiated: object.__init__ gets o
* `C84_outer_collected_refuted` (BicProps.v): The class keeps only a weak reference to o: in "Outer().Inner()" the outer object is gone by the time __init__ runs, and it gets None
* `C84_skipped_init_refuted` (BicProps.v)
* `C85_not_finite_refuted` (NumProps.v): Floats that are not finite: the documented "otherwise return o" does not happen; get_int_or_float(inf) raises OverflowError, get_int_or_float(nan) ValueError; the string "inf" raises OverflowError too, and the string "nan" is not converted although float("nan") works.
* `C86_overflow_refuted` (NumProps.v): OverflowError is not caught: try_int(float("inf")) and try_float(10 ** 400) raise it instead of returning False, and get_int and get_float instead of returning the default
* `C87_early_year_refuted` (TimeProps.v): Before the year 1000 the year is not padded (strftime of glibc), which is not RFC 3339
* `C87_float_microseconds_refuted` (TimeProps.v): A float never gets its microseconds, against the documentation: its type is looked at after it has been converted to a datetime
* `C87_struct_time_refuted` (TimeProps.v): A struct_time for 1970-01-01 00:00:00 UTC whose tm_zone is "UTC" and not "GMT" is taken for local time; here the machine is five hours behind
* `C88_early_year_refuted` (TimeProps.v)
* `C88_mixed_refuted` (TimeProps.v): With and without microseconds mixed it is false: half a second later sorts before. And the year 999 sorts after the year 1000.
* `C89_clocks_back_refuted` (TimeProps.v)
* `C90_after_clipping_refuted` (LinesProps2.v): C90: the tab stops are counted from the start of what is left of the line, not from its column: clip a space first, and the text moves to the right.
* `C92_final_quote_refuted` (DeprProps.v)
* `C93_comment_with_quote_refuted` (DeprProps2.v): It breaks on a comment that ends with a quote mark, although no quoted string comes before the comment.
* `C94_nothing_lost_refuted` (EncodeProps.v): A set {'a', b'a'} loses an element, a dict {'a': 1, b'a': 2} an item.
* `C94_subclass_refuted` (EncodeProps.v)
* `C97_below_minus_one_refuted` (SplitProps3.v)
* `C102_false_timezone_refuted` (DateProps.v): "If d has a timezone set, returns d" is false for a tzinfo object that is false: its time zone is replaced.
* `C104_empty_iterator_refuted` (TypedProps.v): An iterator without elements is not rejected (an empty collection is), and a newline at the end is removed.
* `C104_iterator_refuted` (TypedProps.v): An iterator as separators, which is an iterable, is used up by the check of types: what it yields does not matter at all.
* `C104_multisplit_subclass_refuted` (TypedProps.v): "multisplit will only return str or bytes objects"
* `C104_subclass_refuted` (TypedProps.v): "multistrip will only return str or bytes objects, even if left and right are both false": it returns s, an instance of a subclass.
* `C105_empty_separators_refuted` (TypedProps.v): separators='' is rejected - unless s is empty.
* `C106_nothing_refuted` (LinesProps3.v): clip_trailing(line, 0) is documented to clip nothing, as clip_leading(line, 0) does; it clips the whole line. So does clip_trailing(line, '').
* `C106_tab_refuted` (LinesProps3.v): Once a tab has been clipped, clipping the rest of the line leaves a column before the line.
* `C108_escape_refuted` (DargProps.v): "escape must match s": not checked if there are multiline quotes and it is empty.
* `C108_iterator_refuted` (DargProps.v): "quotes is an iterable of unique quote delimiters", but an iterator is not accepted.
* `C111_match_refuted` (LargProps.v): "match is the re.Match object that matched this line" - which the constructor rejects
* `C112_iterable_refuted` (LargProps2.v): Sets and iterators are iterables of strings, but are rejected.
* `C114_false_default_refuted` (GargProps.v): "If apostrophes is false, gently_title will use a default value": only for None; '' and [] are errors.
* `C115_failed_append_refuted` (HexnProps.v): "A call that raises changes nothing" is false. A value that cannot be compared stays in the heap, for every heap and every such append.
* `C115_lost_value_refuted` (HexnProps.v): A popleft that raises loses a value: here the 1.
* `C115_order_refuted` (HexnProps.v): After an exception in the iterable given to extend, popleft returns a value that is not the smallest, and then one that is smaller.
* `C116_async_loses_event_refuted` (SexnProps.v): With an asynchronous exception an event can be lost: next() has taken it from the queue, and raises instead of returning it.
* `C116_polling_refuted` (SexnProps.v): An exception in the middle of wake() leaves the regulator's event set: a thread that has nothing to do does not block any more, but polls (until the next schedule or cancel).
* `C116_schedule_raises_refuted` (SexnProps.v): 'A call that raises has no effect' fails even if only wake() raises: the event is scheduled, but the caller has no Event object to cancel it with.
* `C118_bool_refuted` (VargProps.v): With them it need not be a version string.
* `C118_level_names_refuted` (VargProps.v): The documentation offers 'a' and 'b' as release_level: only the long names are accepted.
* `C119_done_refuted` (GexnProps.v): (c) g.add(2, 1); g.ready() -> (1,); g.done(1, [3]) raises TypeError, and 2 becomes ready although 1 is not done.
* `C119_order_refuted` (GexnProps.v): (b) g.add(1); g.add(2); g.add(1, 2, [3]) raises TypeError; g.add(1, 2) is then without effect, and ready() hands out 1 together with 2, on which it depends.
* `C119_retry_refuted` (GexnProps.v): False: a call that raises changes nothing. (a) g.add(1, [2]) - a list by mistake - raises TypeError; then g.add(1, 2) raises KeyError, and bool(g) and len(g) count a node that ready() never hands out; static_order() would not end.
* `C120_starvation_refuted` (SliveProps.v)
* `C121_same_class_refuted` (BthrProps.v): Two threads read o.Inner and get different classes (see also C82_threads_refuted).
* `C121_skipped_init_refuted` (BthrProps.v)
* `C121_type_error_refuted` (BthrProps.v)
* `C124_nan_refuted` (SregProps.v)
* `C125_cut_escape_refuted` (ResumeProps.v): Cutting between an escape character and what it escapes does change the result, so the hypothesis is needed.
* `C125_unterminated_refuted` (ResumeProps.v): "If s ends with an unterminated quoted string the last tuple yielded will have a non-empty leading_quote" is false of a call that was given a state: its results do not tell whether the quote mark is still open.
* `C127_code_at_end_refuted` (ReflowProps.v): Without the newline the last line of code is lost, as in C76
* `C129_strip_filter_refuted` (AlgebraProps.v): Filters do not commute with stripping: " " is not empty, but is when stripped.
* `C129_strip_separators_refuted` (AlgebraProps.v): With separators, stripping again can do more: one character is '\n', see C36.
* `C130_after_cycle_error_refuted` (GraphlibProps.v): (c) Carrying on after the CycleError: graphlib still hands out what it can ("if the user wants to catch the CycleError, that's fine"), big raises it again.
* `C130_done_twice_refuted` (GraphlibProps.v): (b) The same node twice in one done(): graphlib raises ValueError, big does not.
* `C130_order_of_calls_refuted` (GraphlibProps.v): (d) graphlib wants add() before prepare(), prepare() once, and the other calls after it; big does not.
* `C130_repeated_dependency_refuted` (GraphlibProps.v)
* `C131_overlap_refuted` (SplitProps6.v): In general reverse makes a difference.
* `C132_across_refuted` (SplitProps7.v): The condition is needed.
* `C133_from_the_right_refuted` (RefindProps4.v): With separators of different lengths it is different from the right: reversed_re_finditer does not find the longest match that ends last (C63).
* `C134_identical_refuted` (SchedlibProps.v): sched calls delayfunc(0) after an action, and its run(blocking=False) returns the deadline of the next event; big does neither.
* `C134_nan_refuted` (SchedlibProps.v)
* `C134_other_event_refuted` (SchedlibProps.v): An event of another scheduler: sched takes one that has the same fields for its own and cancels it; big raises ValueError.
* `C134_stop_iteration_refuted` (SchedlibProps.v): A delay function that raises StopIteration: run raises it; the for statement over big's iterator just ends, with the event still scheduled.
* `C135_delimiters_refuted` (KindProps.v)
* `C135_lines_refuted` (KindProps.v): Where they differ: \v is a line break in a str only, \x1c is whitespace in a str only.
* `C135_merge_columns_refuted` (KindProps.v)
* `C135_multisplit_refuted` (KindProps.v)
* `C135_normalize_whitespace_refuted` (KindProps.v)
* `C135_quoted_refuted` (KindProps.v)
* `C135_wrap_words_refuted` (KindProps.v)
* `C136_delimiters_refuted` (MigrateProps.v): They do not always agree: an unclosed delimiter, a backslash outside quotes, a line break inside them.
* `C136_quoted_strings_refuted` (MigrateProps.v): Otherwise they may differ: an escaped quote mark outside quotes; a line break inside; the default calls, with triple quotes.
* `C136_strip_comments_refuted` (MigrateProps.v): A quote that is not closed before the end of the line is an error only in the new one; and the old one also strips white space before the comment if rstrip=True.
* `C137_parts_refuted` (FilenameProps2.v)
* `C138_closed_view_refuted` (ShowProps.v): repr() of every view that calls can make: it fails on closed ones
* `C138_empty_heap_refuted` (ShowProps.v): repr(Heap())
* `C139_refuted` (QuoteAgreeProps.v): Where they do differ: an escape outside quotes, an escaped line break, an escaped multiline quote mark, an escape at the very end.
* `C141_overlap_refuted` (LawsProps.v): Not so for longer separators: "ab" and "bc" overlap.
* `C142_one_letter_refuted` (TitleLawsProps.v): two words of one letter cannot be told apart
* `C143_idempotent_refuted` (StripLawsProps.v): It does change something for "a", space, newline, space: first the last space goes, then the one before it with the newline.
* `C143_order_refuted` (StripLawsProps.v): It can matter if separators overlap.
* `C144_custom_repr_refuted` (BicReprProps.v)
* `C148_parts_refuted` (GentleLawsProps.v): The guard is needed: 'plan d works' is not titled word by word.
<!-- REFUTED END -->

## Properties

<!-- PROPS BEGIN -->
### C01 Heap behaves as a sorted multiset

*Property.* After any sequence of Heap calls (constructor, append, extend, remove, popleft, append_and_popleft, popleft_and_append, clear) the heap holds exactly the multiset obtained by performing the same calls on a plain multiset; popleft / popleft_and_append / append_and_popleft return a least element of what the multiset held (after the append in the last case) and heap[0] is a least element; the calls that need a non-empty heap or a present element raise (IndexError / ValueError) exactly when it is missing and then change nothing.

*Plan.* Model the wrapper on top of a literal Gallina transcription of CPython's heapq (_siftup/_siftdown/heapify); prove heap-shape invariant and refinement to a multiset (Permutation) step by step, lift by induction on the operation list.

*Status.* proved: `C01_heap_is_multiset`, `C01_heap_first_is_least`, `C01_heap_failed_call_changes_nothing`

### C02 Heap iteration and .queue are sorted and complete

*Property.* Iterating over an unmodified Heap yields every element exactly once in ascending order and leaves the heap unchanged; heap.queue is the same list.

*Plan.* Iterator modelled as (copy, version); induction on number of __next__ calls using the heap invariant.

*Status.* proved: `C02_heap_iteration`, `C02_heap_queue_sorted`, `C02_heap_iteration_is_queue`

### C03 Modifying a Heap invalidates its iterators

*Property.* If any mutating call on a Heap succeeds after an iterator was created, every later __next__ of that iterator raises RuntimeError; if no mutating call succeeded it never raises RuntimeError.

*Plan.* Version counter proved strictly monotone on successful mutation and unchanged on failure.

*Status.* proved: `C03_iterator_invalidated_iff_mutated`

### C04 Heap indexing equals indexing the sorted list

*Property.* heap[i] for an int i, and heap[a:b:c] for a slice, return what indexing sorted(contents) returns (same value, or IndexError exactly when it would).

*Plan.* Transcribe __getitem__ with nsmallest/nlargest/max/sorted; prove equality with Python list indexing for slices and for every int outside -9..-2 (and -1 on an empty heap); the remaining ints are false of the code: refuted theorem with witness.

*Status.* partial: `C04_heap_slice`, `C04_heap_index_partial`, `C04_heap_index_refuted`, `C04_heap_index_empty_refuted`, `C04_heap_small_negative_index`. Proved for every slice, every int >= 0 or <= -10, and -1 on a non-empty heap. False of the code for -9..-2 (heap.py:146-148 takes nlargest(-i+1)[i], always the second largest) and for -1 on an empty heap (ValueError); both refuted with witnesses, and the actual result characterised.

### C05 Heap equality is multiset equality

*Property.* Two Heaps compare equal exactly when they contain the same multiset of elements, whatever histories produced them, and copy() produces an equal heap that later operations on either side do not affect.

*Plan.* queue is the sorted list; uniqueness of sorted permutations under an antisymmetric order.

*Status.* proved: `C05_heap_eq_is_multiset_eq`, `C05_heap_objects_independent`

### C06 Scheduler yields in (time, priority, FIFO) order

*Property.* Whenever the Scheduler yields an event, that event is the first, in order of (time, priority, order of schedule() calls), of all events scheduled and not yet yielded or cancelled at that moment.

*Plan.* Labelled transition system whose atomic steps are the code's locked regions, on top of the Heap model; invariant over all reachable states.

*Status.* proved: `C06_yield_in_order`, `C06_calls_return_their_effect`. Thread-level LTS at statement granularity; times/priorities are integers.

### C07 Scheduler never yields early

*Property.* An event is yielded only when the regulator's now() at that moment is >= the event's time.

*Plan.* Same transition system; step lemma plus trace induction.

*Status.* proved: `C07_never_early`

### C08 Scheduler neither loses nor duplicates events

*Property.* At every moment, the events scheduled so far are exactly the disjoint union of: still queued, yielded once, successfully cancelled.

*Plan.* Conservation invariant (Permutation) over the ghost history.

*Status.* proved: `C08_conservation`, `C08_queue_and_bool`, `C06_calls_return_their_effect`

### C09 cancel succeeds exactly on queued events

*Property.* cancel(event) removes precisely that event if it is queued, and otherwise raises ValueError and changes nothing; other events (even with identical time, priority and payload) are unaffected.

*Plan.* remove uses object identity (no __eq__ on Event); identity = sequence number; uniqueness invariant.

*Status.* proved: `C09_cancel_exact`, `C06_calls_return_their_effect`

### C10 non_blocking yields all due events and never sleeps

*Property.* Draining scheduler.non_blocking() while the clock stands still at now yields exactly the queued events with time <= now, in (time, priority, FIFO) order, leaves exactly the others queued, and never calls sleep.

*Plan.* Run the model's _next(blocking=False) to exhaustion; induction on the queue.

*Status.* proved: `C10_non_blocking_drain`, `C10_stop_iteration`, `C10_non_blocking_terminates`

### C11 A thread blocked in next() reacts to a newly scheduled earlier event

*Property.* If a thread is blocked in next(scheduler) and another thread schedules an event with an earlier time (or cancels the awaited one), the blocked thread re-examines the queue instead of sleeping to the old deadline.

*Plan.* Prove the positive half (a thread already inside sleep is woken); exhibit the window between releasing the lock and entering sleep as a refutation trace.

*Status.* partial: `C11_blocked_thread_is_woken_partial`, `C11_lost_wakeup_refuted`, `C11_sleep_blocks`, `C11_wake_flag`, `C11_due_event_is_returned`. Proved for a thread already inside event.wait. False of the code in the window between releasing the lock and entering wait: wake() is event.set(); event.clear(), so the wake-up is lost and the thread sleeps to the old deadline (refuted with a concrete interleaving).

### C12 Scheduler lock discipline

*Property.* Scheduler calls now() and wake() only while holding the regulator's lock, calls sleep() only while not holding it and only with an interval > 0, never re-enters the lock, and holds no lock after any call returns or raises.

*Plan.* Per-thread program of regulator actions emitted by each method; trace predicate proved by case analysis and induction on loop iterations.

*Status.* proved: `C12_lock_discipline`, `C12_lock_is_released`

### C13 ready() never yields a node before its predecessors are done

*Property.* Every node returned by ready() had, at that moment, all of its current predecessors marked done in that view.

*Plan.* Executable model of graph + all views; invariant relating each view's counters to the graph's edges and the view's done set; induction over operation lists.

*Status.* proved: `C13_ready_only_after_predecessors`

### C14 ready() yields each node at most once

*Property.* Between two resets, a view's ready() never returns the same node twice (unless the node was removed and added again), and returns no duplicates in one call.

*Plan.* Disjointness invariant of the view's node sets.

*Status.* proved: `C14_ready_at_most_once`

### C15 static_order is a complete topological order

*Property.* For a graph without cycles, list(graph.static_order()) terminates and contains every node exactly once, each after all of its predecessors; likewise the documented while/ready/done loop.

*Plan.* Progress lemma from acyclicity (some not-done node has only done predecessors), then induction on the number of nodes left.

*Status.* proved: `C15_static_order_is_topological`, `C15_loop_makes_progress`, `C15_bool_means_work_left`

### C16 Cycle detection is sound and complete

*Property.* cycle() returns None exactly when the graph has no directed cycle, and otherwise returns a tuple of distinct nodes forming a directed cycle; ready()/prepare()/static_order() raise CycleError exactly when there is a cycle; cycle() always terminates.

*Plan.* Transcribe Kahn pass and the explicit-stack DFS with a termination argument; dirty-flag invariant over histories.

*Status.* proved: `C16_cycle_sound_and_complete`, `C16_cycle_errors`, `C16_ready_cycle_error`, `C16_static_order_cycle_error`, `C20_cycle_exact`. C20_cycle_exact: cycle() and check_for_cycles() for every history of calls, including failing ones and copies.

### C17 add/remove maintain exactly the declared graph

*Property.* After any history of add and remove calls, the graph's nodes and dependencies are exactly those of the abstract graph obtained by set union on add and deletion on remove; repeated and duplicated dependencies are ignored; remove of a missing node raises ValueError and changes nothing; len(graph) is the number of nodes.

*Plan.* Refinement of the nodes dict (counts + successor dicts) to (node set, edge set).

*Status.* proved: `C17_graph_is_as_declared`, `C17_len`, `C17_add_succeeds`, `C17_remove`, `C20_contents_exact`. C20_contents_exact: the same for every history of calls, including failing ones and copies.

### C18 Incoherent views are detected

*Property.* A view raises RuntimeError from bool/ready/done if and only if some dependency was added whose successor had already been yielded by (or done in) that view while its predecessor was not done, and neither endpoint has been removed since.

*Plan.* Invariant tying the conflict tables to graph edges and view sets.

*Status.* proved: `C18_conflicts_are_detected`

### C19 Views are independent

*Property.* ready/done/reset/close on one view never changes what any other view yields.

*Plan.* Frame theorem on the view store.

*Status.* proved: `C19_views_are_independent`. Exact equality of every later result (not just sets), for arbitrary later calls that do not name the view.

### C20 A copied graph is independent of the original

*Property.* After c = g.copy(), operations on g do not affect c and vice versa, and c behaves as g would have.

*Plan.* False of the code (views registered with the wrong graph, dirty flag lost): refuted theorems with witnesses; state what does hold.

*Status.* partial: `C20_copy_behaves_until_modified_partial`, `C20_copy_cannot_be_modified_refuted`, `C20_copy_forgets_cycles_refuted`, `C20_contents_exact`, `C20_cycle_exact`. False of the code: the copy's default and stock views are registered in the original's view list, and the dirty flag is lost. Proved for acyclic graphs until the next add/remove on either graph. C20_contents_exact, C20_cycle_exact: for every history the contents of original and copy (nodes, dependencies, len, remove, cycle) are independent, except that cycle() on an unmodified copy says None.

### C21 Late dependencies on finished nodes do not block a view

*Property.* Adding a dependency whose predecessor is already done in a view leaves the successor able to become ready in that view.

*Plan.* False of the code: refuted theorem; prove the safe condition.

*Status.* partial: `C21_ready_exactly_partial`, `C21_late_node_is_blocked`, `C21_late_dependency_blocks_refuted`. False of the code: the successor's counter is incremented for an already finished predecessor and never decremented. Proved: exact characterisation of what ready() returns, with the late nodes excluded.

### C22 done() is all-or-nothing

*Property.* If done() raises ValueError the view is unchanged; naming a node twice in one done() call has the same effect as naming it once.

*Plan.* False of the code when an earlier argument was valid and has successors: refuted; prove the condition under which it holds.

*Status.* partial: `C22_failed_done_changes_nothing_partial`, `C22_first_argument_bad_partial`, `C22_failed_done_changes_view_refuted`, `C22_duplicate_argument_refuted`, `C22_failed_done_exact`. False of the code when an earlier argument has successors, and when a node is named twice. Proved when no argument has successors, and when the first argument is the invalid one. C22_failed_done_exact: what a failing done() has done in general.

### C23 State transitions run the documented sequence

*Property.* Assigning a legal new state calls, in this order: on_exit of the old state, every observer registered at that moment in order, then (after state has changed and next is None) on_enter of the new state; during on_exit and observers state is the old one and next the new one.

*Plan.* Callbacks as arbitrary deterministic programs over the manager (interpreted with fuel); trace semantics.

*Status.* proved: `C23_protocol`, `C23_transition_sequence`. Callbacks and the using program are arbitrary interaction trees over the manager; nesting depth is unbounded (quantified).

### C24 No nested transition

*Property.* While a transition is in progress every attempt to assign state raises TransitionError and changes nothing; assigning None, the current state object, or an instance of the wrong class raises and changes nothing.

*Plan.* Invariant of the interpreter.

*Status.* proved: `C24_illegal_assignment`, `C24_no_nested_transition`

### C25 A failed transition does not wedge the manager

*Property.* If on_exit or an observer raises, a later transition is still possible.

*Plan.* False of the code (next stays set): prove that after such a failure every later assignment raises, for all histories.

*Status.* partial: `C25_refuted`, `C25_failure_wedges_for_ever`, `C25_partial`. The property is false of the code: an exception in on_exit or an observer leaves next set for ever. Proved: that this is permanent for every later program, and that without such an exception legal assignments outside a transition are accepted.

### C26 Observer list changes apply from the next transition

*Property.* Modifying the observers list from inside an observer or on_exit does not alter which observers are called in ... the current transition once observers have begun; the next transition uses the new list.

*Plan.* Cache (_observers_copy/_observers_tuple) invariant.

*Status.* proved: `C26_observers`. 'Same observer' is Python's identity-or-== as used by the cache comparison.

### C27 Version ordering is a strict total order

*Property.* For versions, < is irreflexive, transitive and total with respect to ==, and == is an equivalence.

*Plan.* Lexicographic comparison of the comparison tuple; proved for all field values.

*Status.* proved: `C27_version_total_order`. For all objects, from strings or keyword arguments.

### C28 Equal versions have equal hashes

*Property.* v == w implies hash(v) == hash(w).

*Plan.* False of the code (hash uses un-normalised fields): refuted; prove it for versions with identical stored fields.

*Status.* partial: `C28_equal_hash_refuted`, `C28_equal_hash_refuted_serial`, `C28_equal_hash_refuted_local`, `C28_equal_hash_partial`, `C28_equal_hash_exact`. False of the code: hash uses un-normalised fields (None vs 0 epoch/serial, '1' vs '01' local). Proved when epoch and serial are present on both or neither and local versions are spelled the same. Python's hash functions are parameters. C28_equal_hash_exact: for versions made from strings, exactly when equal versions hash equally.

### C29 str(Version) parses back to an equal version

*Property.* For every version v constructed from a string, Version(str(v)) == v.

*Plan.* Backtracking matcher for the PEP 440 regular expression, printer, and a round-trip proof.

*Status.* proved: `C29_str_round_trip`, `C29_str_of_fields_fails`. For versions made from strings (as stated); for keyword construction str() can raise AssertionError (shown).

### C30 Versions order as PEP 440 prescribes

*Property.* For version strings s and t, Version(s) < Version(t) iff PEP 440 puts s before t: epoch, release with trailing zeros ignored, pre-release phase and number, post, dev, then local segments.

*Plan.* Independent specification of PEP 440 grammar and order; equivalence theorem with provisos; refuted where the code departs (dev before alpha, implicit .dev/.post numbers, case of local segments).

*Status.* partial: `C30_pep440_order_partial`, `C30_dev_before_alpha_refuted`, `C30_implicit_dev_number_refuted`, `C30_local_case_refuted`, `C30_order_exact`. False of the code in three ways, each refuted with a witness; proved with exactly those cases excluded. C30_order_exact: the order (and ==) of all accepted strings is that of PEP 440 with exactly these three changes.

### C31 multisplit with keep preserves the text

*Property.* With strip false, joining what multisplit yields with keep=True or ALTERNATING, or flattening AS_PAIRS, gives back s exactly.

*Plan.* Model re.split over the generated alternation pattern (longest-first), then the post-processing; induction on the string.

*Status.* proved: `C31_text_preserved`

### C32 multisplit splits at every separator and nowhere else

*Property.* With maxsplit=-1 no yielded non-separator string contains a separator, and every kept separator string is a separator (separate=True) or a concatenation of separators (separate=False); the split is leftmost and, at each position, the longest separator is used.

*Plan.* Relational specification of the leftmost-longest split; model = spec; spec is functional.

*Status.* proved: `C32_multisplit_is_the_split`, `C32_split_is_unique`, `C32_no_separator_left`

### C33 maxsplit bounds the number of splits

*Property.* multisplit(maxsplit=n) with n >= 0 yields at most n+1 pieces; the pieces before the remainder are the first pieces of the unlimited split.

*Plan.* Induction on n over the splitter.

*Status.* proved: `C33_maxsplit`, `C33_at_most`

### C34 separate=False merges adjacent separators

*Property.* With separate=False, only the first and last non-separator strings can be empty, and no two kept separator strings are adjacent; (the documented claim that ALTERNATING never yields an empty non-separator string is false at the ends).

*Plan.* Maximal-run lemma; refutation of the unconditional claim.

*Status.* proved: `C34_merged`, `C34_never_empty_refuted`. The documented stronger claim is refuted at the ends.

### C35 reverse=True is the mirror image

*Property.* With strip false, multisplit(s, seps, reverse=True, ...) yields the mirror image of multisplit(reversed s, reversed seps, ...) (with strip=True this is false: the two ends are stripped by different rules); for every built-in separator tuple the precomputed reversed tuple is equivalent to the reversed separators.

*Plan.* Mirror theorem at API level; table check lifted by a lemma on separator-set extensionality.

*Status.* proved: `C35_reverse_is_mirror`, `C35_builtin_table`, `C35_mirror_with_strip_refuted`

### C36 multistrip removes exactly leading and trailing separators

*Property.* multistrip(s, seps) removes a leading and a trailing run of separators and nothing else, and the result neither starts nor ends with a separator.

*Plan.* Model the anchored searches including Python's $ (which also matches before a final newline): refuted for strings ending in a newline that is not a separator, proved otherwise.

*Status.* partial: `C36_multistrip_partial`, `C36_multistrip_refuted`, `C36_multistrip_errors`, `C36_multistrip_exact`, `C36_cuts_unique`. False of the code when s ends in a newline that is not a separator ($ also matches before a final newline); proved otherwise. C36_multistrip_exact: the exact result for every string, without that hypothesis.

### C37 multipartition shape and content

*Property.* multipartition(s, seps, count) returns exactly 2*count+1 strings whose concatenation is s, the odd ones being separators or empty padding; multirpartition likewise from the right.

*Plan.* From the multisplit theorems.

*Status.* proved: `C37_multipartition`, `C37_multirpartition`, `C37_negative_count`

### C38 normalize_whitespace

*Property.* normalize_whitespace(s) equals s with every maximal run of whitespace replaced by the replacement string; the fast path and the general path agree; it is idempotent.

*Plan.* Model both paths; independent run-replacement spec; equality.

*Status.* proved: `C38_normalize`, `C38_normalize_general`, `C38_paths_agree`, `C38_normalize_any`, `C38_idempotent`, `C38_errors`

### C39 split_quoted_strings preserves the text

*Property.* Concatenating all strings of all tuples yielded by split_quoted_strings recreates s; quoted and unquoted segments are delimited as documented.

*Plan.* Model the generator on top of multisplit; invariant on buffer; join theorem.

*Status.* proved: `C39_segments`, `C39_text_preserved`, `C39_scanner`, `C39_errors`, `C39_multiline_escape_refuted`. For every string, every quotes/escape/multiline_quotes and every start state. C39_scanner: for one-character marks, equality with a character-by-character scanner. The documented escape inside multiline quotes is refuted (C39_multiline_escape_refuted).

### C40 split_delimiters preserves the text and nests delimiters correctly

*Property.* Concatenating everything split_delimiters yields recreates s; opens and closes are properly nested and matched; the parser never pops an empty stack.

*Plan.* Transcribe table construction and the resplitting loop; theorem for single-character tokens; refuted for overlapping multi-character delimiters (consumed not advanced on flush).

*Status.* partial: `C40_delimiter`, `C40_nesting`, `C40_text_preserved_nesting_partial`, `C40_scanner`, `C40_text_preserved_single_partial`, `C40_default`, `C40_text_preserved_refuted`, `C40_nothing_lost`, `C40_text_preserved_partial`, `C40_exact`, `C40_nesting_exact`, `C40_delimiter_errors`, `C40_errors`. Proper nesting proved for every accepted mapping. Text preservation is false of the code in general (C40_text_preserved_refuted, a quoting delimiter plus multi-character delimiters); proved for all mappings without quoting delimiters and for all one-character mappings, including the default one. C40_exact: for every mapping, text and state, split_delimiters yields exactly what the scanner of DelimScanSpec.v finds (longest token at each place; the code goes back by the length of the tokens it passed over when it next reads only part of a token). C40_nesting_exact: the simpler rule without quoting delimiters. C40_nothing_lost: for every mapping and every text, no character is ever lost (the input is a subsequence of the output). C40_errors: which texts raise.

### C41 lines() is a faithful decomposition

*Property.* lines(s) yields every line once in order with consecutive line numbers starting at line_number; concatenating info.line over all lines recreates s; info.line == line + info.end.

*Plan.* Model on multisplit AS_PAIRS.

*Status.* proved: `C41_lines_of_text`, `C41_lines_of_iterable`

### C42 Lines modifiers account for every character

*Property.* After any composition of lines_strip, lines_rstrip, lines_strip_indent, lines_strip_line_comments and filters, info.leading + line + info.trailing + info.end == info.line for every yielded pair.

*Plan.* Invariant of clip_leading/clip_trailing preserved by each modifier; induction on the pipeline.

*Status.* proved: `C42_accounted`, `C42_same_lines`. For every pipeline without lines_convert_tabs_to_spaces (which is meant to change the text).

### C43 Line column numbers stay consistent

*Property.* info.column_number always equals the starting column plus the display width of info.leading.

*Plan.* Proved without tabs; refuted when a tab was clipped and the rest of the line is then clipped.

*Status.* partial: `C43_column_partial`, `C43_tab_refuted`, `C43_column_exact`. C43_column_exact gives the column for every line. As stated it is proved for lines without tabs, and false of the code when a line with tabs is clipped twice or stripped completely (C43_tab_refuted).

### C44 lines_strip_indent accepts every dedent to an earlier level

*Property.* Dedenting to a column that is currently an open indent level is accepted and restores that level's indent number; anything else raises IndentationError.

*Plan.* Stack model of Python-style indentation as spec; refuted for multi-level dedents; exact characterisation proved.

*Status.* partial: `C44_exact`, `C44_accepted_is_python`, `C44_text`, `C44_dedent_refuted`. Python's rule for dedents is not the code's: dedenting several levels at once raises IndentationError (C44_dedent_refuted). Proved: the exact behaviour, and that every accepted text gets Python's indents.

### C45 wrap_words respects the margin and preserves the words

*Property.* Every output line of wrap_words is at most margin long unless it consists of a single longer word; words appear unmodified, in order.

*Plan.* Fold invariant on (column, output); theorem for words without embedded whitespace plus newline words; refute two_spaces=False.

*Status.* partial: `C45_wrap`, `C45_errors`, `C45_words_preserved`, `C45_margin_partial`, `C45_margin_refuted`, `C45_two_spaces_refuted`. C45_wrap characterises the output completely for all words. The margin claim is false of the code when words contain white space words other than line breaks (C45_margin_refuted), proved otherwise. two_spaces=False has no effect (C45_two_spaces_refuted).

### C46 int_to_words is faithful

*Property.* An independent reader of English numerals (that also knows the library's own spelling of one scale word and one ordinal) reads int_to_words(i) as i, and the ordinal as the i-th; larger integers become their decimal digits; distinct integers always get distinct words.

*Plan.* Independent numeral reader on tokens; induction over the quantity table.

*Status.* proved: `C46_read_back`, `C46_ordinal`, `C46_large`, `C46_distinct`, `C46_english_refuted`. C46_english_refuted: 10**48 is 'qindecillion', 12th is 'twelveth', and some scales print extra blanks.

### C47 split_title_case preserves the text

*Property.* Joining the words yielded by split_title_case gives s, no word is empty (unless s is), and words begin exactly at the upper-case letters that follow a lower-case letter or (split_allcaps) are the last of several upper-case letters and followed by a lower-case one.

*Plan.* Model the iterator loop; invariant.

*Status.* proved: `C47_title_case`, `C47_empty`. isupper/islower of a character are parameters that exclude each other.

### C48 combine_splits applies exactly all split points

*Property.* combine_splits(s, *arrays) yields non-empty pieces that concatenate to s and whose boundaries are exactly the union of the boundaries of all arrays.

*Plan.* Model with the heapq transcription; boundary-set invariant.

*Status.* proved: `C48_combine`, `C48_combine_lengths`, `C48_too_long`, `C48_errors`, `C48_too_long_refuted`. Also beyond the property: arrays shorter than s; a single too long array raises ValueError, of several a too long one may go unnoticed (C48_too_long_refuted).

### C49 gently_title changes only letter case

*Property.* gently_title uppercases exactly the characters named by its documented rules (first of a word, after quote marks beginning a word, after O' or D' beginning a word) and leaves every other character unchanged; titling twice is the same as once.

*Plan.* State machine as a fold; per-character theorem; idempotence.

*Status.* partial: `C49_only_case`, `C49_rules_partial`, `C49_rules_refuted`, `C49_rules_exact`, `C49_rules_exact_total`, `C49_idempotent`, `C49_ascii`, `C49_errors`, `C49_default_marks`. The documented rules are false of the code after a whole word o, d or a whole word of quote marks (C49_rules_refuted); proved otherwise (C49_rules_partial), and C49_rules_exact says what happens for every text. Only-case-changes and idempotence hold for all texts. c.upper() is a parameter.

### C50 PushbackIterator is a stack in front of an iterator

*Property.* The values obtained from a PushbackIterator are the pushed values last-in-first-out, then the wrapped iterator's, each exactly once; truth-testing never loses or reorders a value.

*Plan.* Refinement to a list.

*Status.* proved: `C50_refinement`, `C50_none`, `C50_lifo`, `C50_nested`, `C50_exceptions`, `C50_exceptions_refuted`. For wrapped iterators that raise nothing but StopIteration. Other exceptions: C50_exceptions; __next__ swallows them and drops the iterator (C50_exceptions_refuted).

### C51 Log nesting and elapsed times are exact

*Property.* Every logged event is reported once, in order, with depth equal to the number of enter() calls not yet exited at that moment; start_time + elapsed_time of each event equals the next event's start_time.

*Plan.* State model, induction on history.

*Status.* proved: `C51_events`, `C51_reset`, `C51_exit`. Histories of log/enter/exit/reset with any clock; a failing exit() changes nothing.

### C52 Log prints times correctly

*Property.* The printed time of an event is its number of seconds and nanoseconds.

*Plan.* Model format_time: refuted for t >= 1s, proved for t < 1s.

*Status.* partial: `C52_time_partial`, `C52_time_refuted`, `C52_negative_refuted`, `C52_lines`, `C52_time_exact`, `C52_negative_exact`, `C52_header`. False of the code from one second on: t - seconds is printed for the nanoseconds (C52_time_refuted); proved below one second. C52_time_exact, C52_negative_exact: what is printed for every time.

### C53 translate_filename_to_exfat produces only legal characters

*Property.* No character of the result is disallowed in an exFAT filename.

*Plan.* False for control characters (mapped to '?NN'): refuted, proved for all other inputs.

*Status.* partial: `C53_exact`, `C53_legal_partial`, `C53_legal_refuted`, `C53_unchanged`, `C53_idempotent`. False of the code: control characters become '?NN', and '?' is not legal (C53_legal_refuted). Proved: legal exactly when s has no control character but NUL.

### C54 translate_filename_to_unix produces only legal characters

*Property.* The result has the same length, contains no NUL and no slash, changes no other character, and translating again changes nothing.

*Plan.* Map over characters.

*Status.* proved: `C54_unix`

### C55 Version() accepts exactly the PEP 440 version strings

*Property.* Version(s) raises ValueError iff s is not a version string of PEP 440's grammar (with optional surrounding whitespace and leading v); an accepted string has a correctly spelled pre-release label; the only other exception is AssertionError, and only for a label not in lower case.

*Plan.* Soundness and completeness of the backtracking matcher on the pattern against an independent grammar.

*Status.* proved: `C55_version_accepts`, `C55_characters`

### C56 lines_strip and lines_rstrip strip the line and keep what they strip

*Property.* lines_strip yields every line without its leading and trailing whitespace (or separators), lines_rstrip without the trailing; what is taken off, and it must be whitespace (or separators), is added to info.leading and info.trailing, except that a line of which nothing is left goes to trailing whole.

*Plan.* Relation taken_off between the pairs before and after; the strip functions specified by what is taken off. Refuted: with separators of more than one character leading and trailing can be cut inside a separator.

*Status.* partial: `C56_rstrip_whitespace`, `C56_strip_whitespace`, `C56_strip_separators_partial`, `C56_strip_is_multistrip`, `C56_strip_exact`, `C56_leading_refuted`. Proved for whitespace, and for separators of one character (a newline being one, or no line ending with one: see C36). For any separators the line yielded is right and nothing is lost (C56_strip_is_multistrip), but leading and trailing need not be separators (C56_leading_refuted): C56_strip_exact says what they are.

### C57 lines_sort is a stable sort

*Property.* lines_sort yields exactly the lines it was given (none lost, duplicated or modified), in ascending order (descending with reverse=True), and lines that compare equal stay in their original order.

*Plan.* Insertion sort model (list.sort's contract); permutation, sortedness and stability by induction.

*Status.* proved: `C57_sort`

### C58 The line filters keep exactly the right lines

*Property.* lines_filter_empty_lines, lines_containing, lines_grep and lines_filter_line_comment_lines yield, in order and unmodified, exactly the lines satisfying their condition (not empty; contains the substring; the pattern is found; not 'whitespace then a comment marker'), inverted where requested.

*Plan.* filter characterisation; regular expression of comment markers by matcher soundness and completeness.

*Status.* proved: `C58_filters`, `C58_comment_lines`, `C58_space_marker_refuted`, `C58_whitespace`. For comment markers that do not start with whitespace; a single marker that does is never found (C58_space_marker_refuted). The pattern search of lines_grep is a parameter.

### C59 lines_strip_line_comments cuts at the first unquoted marker

*Property.* Every line is cut at the first comment marker that is outside every quoted string, where a multi-line quote may have been opened on an earlier line; lines without one are unchanged; SyntaxError is raised exactly for an unterminated single-line quote, a line break inside one, or a multi-line quote still open at the end.

*Plan.* Induction over the lines on top of the split_quoted_strings theorem.

*Status.* proved: `C59_comments`, `C59_no_quotes`

### C60 re_partition cuts the text at the leftmost matches

*Property.* re_partition(s, pattern, count) returns a tuple of 2*count+1 elements, text and matches in turn; the matches are the first count leftmost non-overlapping matches of the pattern (then None), the text before, between and after them is the text of s around the matches, so that all of it together is s; a negative count raises ValueError.

*Plan.* The shape for every pattern; the cutting for patterns without anchors that do not match the empty string (the backtracking matcher of Regex.v is shown to be one); refuted for anchored patterns ('a$' in 'aba') and empty matches.

*Status.* partial: `C60_shape`, `C60_negative`, `C60_partition_partial`, `C60_regex`, `C60_anchor_refuted`, `C60_empty_match_refuted`, `C60_exact`, `C60_cuts_unique`. Cutting is proved for patterns without anchors that do not match the empty string, in particular for every such regular expression of Regex.v (C60_regex). False otherwise: the text is cut where the text of the match first appears (C60_anchor_refuted); an empty match raises ValueError (C60_empty_match_refuted). C60_exact says exactly what happens for every pattern, with anchors and empty matches: each cut is at the first appearance of the matched text, nothing is lost, ValueError iff one of the matches used is empty.

### C61 reversed_re_finditer yields non-overlapping matches from right to left and misses none

*Property.* For every pattern reversed_re_finditer ends without an exception, every match it yields is one the pattern finds at that place when the text is cut off somewhere behind it, and each match lies wholly before the one yielded before. For a pattern without anchors and lookaround that does not match the empty string, moreover no match lies wholly in a gap between the matches yielded, and each is the pattern's match in the text before the previous one, with none that starts later ending later.

*Plan.* The re module as a parameter with laws; loop invariant over the forward matches not yet looked at; the laws proved for the backtracking matcher of Regex.v.

*Status.* proved: `C61_right_to_left`, `C61_searched`, `C61_regex`. The re module is a parameter: sane (a match lies between pos and endpos) and plain (looks only at the text it matches). C61_regex discharges plain for every regular expression of Regex.v without $ that does not match the empty string.

### C62 re_rpartition cuts the text at the matches found from the right

*Property.* re_rpartition(s, pattern, count) returns a tuple of 2*count+1 elements, text and matches in turn; the matches are the first count matches of reversed_re_finditer, and the text around them is the text of s around the matches, so that all of it together is s.

*Plan.* As C60, on top of C61: the text of a match cannot appear again behind it; refuted for anchored patterns ('^a' in 'aba').

*Status.* partial: `C62_shape`, `C60_negative`, `C62_partition_partial`, `C62_regex`, `C62_anchor_refuted`, `C62_exact`, `C62_cuts_unique`. As C60: proved for plain patterns, false for anchored ones. C62_exact: exactly what happens for every pattern.

### C63 reversed_re_finditer is a search from right to left

*Property.* Of all matches in the text before the previous match, reversed_re_finditer yields the one that ends last and of these the longest, and it yields no match twice.

*Plan.* False of the code: refuted with (ab|cd|bcde) in 'abcde' and for duplicates with (abcdef|efg|) in 'abcdefgh'; proved for patterns whose later matches end later.

*Status.* partial: `C61_reverse_search_partial`, `C61_reverse_search_refuted`, `C61_duplicate_refuted`, `C63_reverse_search_exact`. False of the code (two refutations); proved when matches that start later end later, e.g. when all have the same length. C63_reverse_search_exact: what is yielded for every pattern without anchors that does not match the empty string.

### C64 multisplit with strip is multistrip, then the split

*Property.* multisplit(s, seps, strip=X, ...) for X = True, LEFT, RIGHT (any maxsplit) and PROGRESSIVE (maxsplit=-1) yields exactly what multisplit(s', seps, strip=False, ...) with the same other arguments yields, where s' is multistrip(s, seps, left=X is not RIGHT, right=X is not LEFT). In particular a string of separators only yields one empty string.

*Plan.* Case analysis on the model, with C32 for the early exit on an empty string.

*Status.* proved: `C64_strip_then_split`

### C65 multisplit with strip=PROGRESSIVE strips the far end only when the splitting gets there

*Property.* multisplit(s, seps, strip=PROGRESSIVE, maxsplit=n, ...) strips the near end of s, splits what is left at most n times (from the left, or with reverse from the right), drops the empty strings (and their separators) at the far end, and presents the result as keep asks. maxsplit=None means the same as maxsplit=-1. No separators at all: ValueError.

*Plan.* The index arithmetic on the alternating list is shown equal to a recursive strip_end / strip_start of the split of C32. Refuted for maxsplit=None, which leaves the far end unstripped.

*Status.* partial: `C65_progressive`, `C65_maxsplit_None_refuted`, `C65_no_separators`, `C65_maxsplit_None`. Proved for every integer maxsplit >= 0 (-1 is C64). The part about maxsplit=None is false: C65_maxsplit_None_refuted. C65_maxsplit_None: with None, and below -1, PROGRESSIVE is the same as LEFT (RIGHT if reverse).

### C66 multisplit can stand in for str.split(None, n) and str.rsplit(None, n)

*Property.* list(multisplit(s, strip=PROGRESSIVE, maxsplit=n)) == s.split(None, n), with reverse=True == s.rsplit(None, n), and without a limit (also with strip=True) == s.split().

*Plan.* Relational specification of str.split (words are runs of non-space characters; after n words the rest is one string), proved unique; proved for every s with a non-space character; refuted for blank strings ([''] instead of []).

*Status.* partial: `C66_as_str_split_partial`, `C66_as_str_split_unlimited_partial`, `C66_split_is_unique`, `C66_blank_refuted`, `C66_blank`. Proved for every string with a non-space character; false for blank strings (C66_blank_refuted). C66_blank: for every blank string multisplit gives one empty string.

### C67 Version from keyword arguments is valid and can be written and read back

*Property.* Version(epoch=..., release=..., ...) without a string is accepted exactly if release is given and not empty, epoch, serial, post and dev are not negative, and local (if given) is a non-empty sequence of segments of letters and digits; otherwise it raises ValueError. The version made has exactly those fields, and Version(str(v)) == v.

*Plan.* The constructor's keyword branch as a function of optional fields, on top of C27; the round trip is false for trailing zeros, negative release numbers, a serial on a final version and a newline in local: each refuted, the rest proved.

*Status.* partial: `C67_fields`, `C67_round_trip_partial`, `C67_trailing_zero_refuted`, `C67_negative_refuted`, `C67_final_serial_refuted`, `C67_newline_refuted`, `C67_round_trip_exact`. Acceptance and fields proved; the round trip is false in four cases (the refuted theorems), and proved outside them; C67_round_trip_exact: it holds if and only if none of the four is the case.

### C68 Version of sys.version_info and the major/minor/micro attributes

*Property.* Version(version_info) has the major, minor and micro numbers, release level and serial of version_info (no serial if it is 0 or the level is final) and nothing else set. For a Version parsed from text, major, minor and micro are the first three numbers of the release as written, or 0 where there are fewer.

*Plan.* The text built from version_info is run through the regular expression symbolically (which alternative of 'a|b|...|alpha' wins is settled by backtracking); release clipping does not change the first three numbers.

*Status.* proved: `C68_version_info`, `C68_major_minor_micro`

### C69 fgrep finds exactly the lines that contain the text

*Property.* fgrep(path, text) returns exactly the lines of the file that contain text, in their order and without their line breaks; enumerate=True adds their numbers, from 1. (\n, \r\n and \r end a line of a text file, \n one of a binary file; nothing follows the last line break.) bytes with an encoding raises ValueError.

*Plan.* Relational specification of the lines of a file (proved total and unique); str.split on the newline-translated contents gives the same lines, plus '' at the end; refuted for the empty text.

*Status.* partial: `C69_lines`, `C69_fgrep_partial`, `C69_errors`, `C69_empty_text`, `C69_empty_text_refuted`. Proved for every non-empty text; false for the empty text: one line too many if the file ends with a line break or is empty (C69_empty_text_refuted; C69_empty_text says exactly what happens).

### C70 case-insensitive fgrep finds the lines that contain the text in any case

*Property.* fgrep(path, text, case_insensitive=True) returns the lines of which some part equals text when both are lowercased; in particular every line that contains text. Lowercasing the whole file at once is the same as lowercasing each line.

*Plan.* str.lower as CPython does it, with the context-dependent capital sigma, over arbitrary case tables; it is shown to commute with splitting into lines. Refuted for capital sigma and for characters that lower() makes two of; proved for lines without them.

*Status.* partial: `C70_fgrep`, `C70_part_partial`, `C70_sigma_refuted`, `C70_dotted_refuted`. C70_fgrep: exactly the lines whose lowercase contains the lowercase text. That this is what the property says is false in Greek (C70_sigma_refuted) and for I with dot (C70_dotted_refuted), and proved elsewhere (C70_part_partial). The case tables are a parameter with five laws.

### C71 grep finds exactly the lines that match

*Property.* grep(path, pattern) returns exactly the lines of the file in which the pattern matches somewhere, in their order, with enumerate=True numbered from 1.

*Plan.* As C69, with the re module as a parameter. Refuted for patterns that match an empty line.

*Status.* partial: `C71_grep_partial`, `C71_empty_line_refuted`, `C71_errors`, `C71_grep_exact`. Proved for patterns that do not match the empty string; false otherwise: one line too many. C71_grep_exact: exactly what happens for every pattern.

### C72 safe_mkdir makes the directory, also among other processes

*Property.* safe_mkdir(path) alone: fails exactly if path is below a file, changing nothing; otherwise path and all above it are directories afterwards, a file at path is gone, and nothing else changes. Among other processes: if it returns, there was a directory at path during the call; its own calls only make directories where nothing was, or remove a file at path. Among processes that remove nothing at path or above it and make no file there, it fails exactly if path is below a file, and otherwise path is a directory when it returns. In particular any number of concurrent calls succeed, in every order of their system calls, if no file is at or above a path. (It is not promised, and false, that concurrent calls succeed when a file is at path.)

*Plan.* A function is a tree of system calls (os.makedirs written out); induction over the path; interleavings by rely/guarantee arguments, for any processes that keep to the rely condition. With a file at path two processes can race, and one gets FileNotFoundError (C72_race_refuted).

*Status.* proved: `C72_alone`, `C72_guarantee`, `C72_only`, `C72_concurrent`, `C72_among_others`, `C72_race_refuted`. With a file at path two concurrent calls can race (C72_race_refuted): stated in the property. Symbolic links and permissions are not modelled.

### C73 safe_unlink removes the file and does not mind if there is none

*Property.* safe_unlink(path) alone never fails; afterwards no file is at path, and nothing else has changed. Among other processes its own calls only remove a file at path, and if it returns there was a moment without a file at path; it fails only if another process has removed or replaced the file during the call, so it never fails among processes that do not. (It is not promised, and false, that it is safe among processes that do.)

*Plan.* As C72. Two processes unlinking one file, and one gets FileNotFoundError: C73_race_refuted.

*Status.* proved: `C73_alone`, `C73_only`, `C73_among_others`, `C73_fails_only_if_removed`, `C73_race_refuted`. It can fail if another process removes the file meanwhile (C73_race_refuted): stated in the property.

### C74 touch never harms what is there

*Property.* touch(path) gives what is at path the current modification time and does not change its contents; where nothing is, it makes an empty file; it fails exactly if the directory is missing. Any number of concurrent touches succeed and change no contents; the same among processes that make or remove nothing at path nor remove its directory (but may write to the file): what is there keeps the contents it has at that moment. (Not among processes that make a file at path meanwhile: it can be emptied.)

*Plan.* As C72. A file made between exists() and open() is emptied: C74_race_refuted.

*Status.* proved: `C74_errors`, `C74_alone`, `C74_concurrent`, `C74_only`, `C74_among_others`, `C74_fails_only_if`, `C74_race_refuted`, `C74_race_fails_refuted`. Among processes that make or remove a file at path meanwhile it can empty the file, or fail (the _refuted theorems): stated in the property.

### C75 pushd restores the current directory

*Property.* with pushd(path): block runs the block in path; afterwards the current directory is the one before the with statement, whatever the block did, also if it raised an exception, which is passed on; only if that directory is gone by then OSError is raised. If path is no directory the block is not run and nothing changes. Code that changes directories with pushd only, however nested, ends where it began.

*Plan.* Blocks are arbitrary functions on the world; nesting by induction. A pushd object that was made earlier or is used twice, which is not documented, goes back to where it was made (C75_made_earlier_refuted, C75_reused_refuted).

*Status.* proved: `C75_errors`, `C75_pushd`, `C75_no_directory`, `C75_nested`, `C75_made_earlier_refuted`, `C75_reused_refuted`. with pushd(...) as documented. False if the object is made before the with statement or used twice (the _refuted theorems), which is not documented.

### C76 split_text_with_code keeps all text

*Property.* The characters of s that are not whitespace are, in order, those of the words split_text_with_code(s) returns: nothing is lost, repeated or invented, whatever the settings.

*Plan.* Invariant of the character-by-character state machine. Refuted when the last line is code without a newline: that line is lost.

*Status.* partial: `C76_keeps_text_partial`, `C76_keeps_text_exact`, `C76_keeps_text_refuted`. For every s what is kept is a prefix of the text, and all of it with allow_code=False or if a newline follows the last word; false otherwise (C76_keeps_text_refuted). C76_keeps_text_exact: what is lost is the last line if it is code without a newline, and otherwise nothing.

### C77 split_text_with_code without code: the words of each paragraph

*Property.* With allow_code=False it never raises; the result is the words of each paragraph (lines without a blank line between) in order, '\n\n' between paragraphs, and [''] if there is no word.

*Plan.* Specification by lines: each line has a class (blank, text, code), classes are grouped into blocks; the state machine is shown to emit the words of the blocks, by simultaneous induction over its line-boundary states.

*Status.* proved: `C77_paragraphs`

### C78 split_text_with_code keeps code blocks line by line

*Property.* Lines indented by at least code_indent columns are code, kept as they are up to the last word (tabs expanded if asked); between two lines of a code block there is one '\n' per newline in s; between a code block and its neighbours there is '\n\n'; paragraphs are split into words.

*Plan.* As C77. Refuted with two code blocks with text between (AssertionError or an extra '\n') and for a last line of code without newline.

*Status.* partial: `C78_blocks_partial`, `C78_blocks_refuted`, `C78_blocks_exact`. Proved when there is at most one code block and a newline after its last line; false otherwise (C78_blocks_refuted, C76_keeps_text_refuted).  C78_blocks_exact gives the words for every sequence of blank, text and code lines: the newlines after a code block are given again before the next code line (or AssertionError if it directly follows text), and a last code line without newline is lost.

### C79 merge_columns raises exactly when it should

*Property.* merge_columns raises OverflowError exactly if overflow_strategy is RAISE and some line of some column, without trailing whitespace, is longer than max_width; AssertionError exactly if there are no columns or the strategy is not one of the three; it never fails otherwise.

*Plan.* The two loops over the lines of a column, with their bookkeeping of intervals; termination of the loop over rows by the number of lines left.

*Status.* proved: `C79_raise`. Texts are strings; widths and overflow_before/after are not negative.

### C80 merge_columns lines up columns in which no line is too wide

*Property.* If no line is too wide, there are as many rows as the longest column has lines, and row r is line r of every column, padded with spaces to max_width, joined with the separator (trailing whitespace removed).

*Plan.* Instance of C81 with no intruding lines. Refuted for lines with trailing spaces beyond max_width: they push the following columns right.

*Status.* partial: `C80_columns_partial`, `C80_trailing_spaces_refuted`, `C80_columns_exact`. C80_columns_exact: the result for all lines. Proved as stated if trailing whitespace of lines is spaces within the width; false otherwise (C80_trailing_spaces_refuted).

### C81 merge_columns with lines that are too wide loses nothing

*Property.* With INTRUDE_ALL (DELAY_ALL) every line of every column is shown in exactly one row, in order; in a row that shows a line near a line that is too wide (a line up to the last such one) no later column is shown; every other row shows the next line of each column, padded to its width.

*Plan.* Column-by-column specification (a column shows its lines in the rows the columns before leave free) against the row-by-row code; the merged intervals are shown to be the lines near a line that is too wide. Refuted: overflow_after lines after the last line of a column are dropped.

*Status.* partial: `C81_layout_partial`, `C81_overflow_after_refuted`, `C81_layout_exact`. C81_layout_exact: the result for all lines. Proved as stated for tidy lines as in C80, with overflow_after cut off at the end of a column (C81_overflow_after_refuted shows the missing empty line).

### C82 A bound inner class has one identity per object

*Property.* Reading a class decorated with BoundInnerClass or UnboundInnerClass through an object o always succeeds; it gives a class made for o (bound to o, same name, the decorated class as first base); every later read gives that same class, no other object or name ever gives it, and Outer.Inner is always the decorated class itself.

*Plan.* World of classes with C3 linearisation and instance dictionaries; invariant of the caches by induction on histories; termination by a rank on attribute names. Refuted: attribute name other than the class name, two threads, mutually named bases, an attribute called object.

*Status.* partial: `C82_bound_class_identity_partial`, `C82_other_attributes`, `C82_alias_refuted`, `C82_threads_refuted`, `C82_mutual_names_refuted`, `C82_object_attribute_refuted`. Proved for every program that follows the documentation (usage in BicSpec.v) and all single-threaded histories of reads and class statements; false for attributes under another name, threads, mutually named bases and an attribute called object (the _refuted theorems).

### C83 A bound inner class has the method resolution order of the class, doubled

*Property.* The method resolution order of o.Inner is that of Outer.Inner with, in front of every decorated class C in it, the class o.C; making it never raises TypeError.

*Plan.* A theorem about the C3 merge: merging the doubled linearisations of the bases after the linearisation of the class is the doubled linearisation; induction over the merge.

*Status.* proved: `C83_method_resolution_order`. For programs that follow the documentation (usage in BicSpec.v). Layout conflicts when __bases__ is assigned are not modelled.

### C84 Every __init__ runs once, and exactly those of bound inner classes get the outer object

*Property.* Constructing o.Inner() runs the __init__ of every class in the method resolution order of Outer.Inner exactly once and in that order (if each calls super().__init__()); those of classes decorated with BoundInnerClass get o as extra argument, the others do not.

*Plan.* Interpreter for chains of super().__init__() calls over the doubled method resolution order. Refuted: a bound class without __init__ (TypeError, or the __init__ of a sibling is left out), an outer object that is gone (None is passed).

*Status.* partial: `C84_init_gets_outer_partial`, `C84_no_init_refuted`, `C84_skipped_init_refuted`, `C84_outer_collected_refuted`, `C84_init_exact`. C84_init_exact says which __init__ runs and what it gets for any classes, outer object alive or not (BicSpec2.v). Proved as documented if every class decorated with BoundInnerClass has its own __init__ and the outer object is alive; false otherwise (the _refuted theorems).

### C85 get_int_or_float gives the same number, as an int when it is whole

*Property.* get_int_or_float returns an int unchanged; for a float it returns the same number, as an int exactly if it is whole; for another object it returns int(o) if that succeeds, else float(o) treated the same way, else the default; it never raises if the conversions raise only TypeError or ValueError.

*Plan.* Floats as m*2^e, infinities and NaN; values in Q. Refuted for infinities and NaN.

*Status.* partial: `C85_get_int_or_float_partial`, `C85_idempotent_partial`, `C85_not_finite_refuted`, `C85_get_int_or_float_exact`. C85_get_int_or_float_exact: the result for every object. Proved as documented except for infinities and NaN, where it is false (C85_not_finite_refuted). What int() and float() do with other objects, e.g. strings, is a parameter.

### C86 try_int/try_float and get_int/get_float agree

*Property.* try_int(o) is True exactly if get_int(o, default) returns int(o), False exactly if it returns the default; likewise for float.

*Plan.* Case analysis over the outcome of the conversion. Refuted: OverflowError escapes both.

*Status.* partial: `C86_try_and_get_partial`, `C86_overflow_refuted`. Proved for every object and default, including that other exceptions escape both; the documented 'False if it can't' is false for OverflowError (C86_overflow_refuted).

### C87 timestamp_3339Z says the right instant

*Property.* timestamp_3339Z(t) is YYYY-MM-DDTHH:MM:SS[.ffffff]Z, valid in the Gregorian calendar, for exactly the instant of t; microseconds are shown as documented (want_microseconds, or whether the type of t has them); it raises TypeError exactly for unsupported types, and otherwise fails exactly outside the years 1 to 9999.

*Plan.* Calendar conversion proved right for all days; decimal fields of fixed width. Refuted: floats lose their microseconds, years before 1000, struct_time in UTC not labelled GMT.

*Status.* partial: `C87_timestamp_3339Z_partial`, `C87_float_microseconds_refuted`, `C87_early_year_refuted`, `C87_struct_time_refuted`, `C87_timestamp_3339Z_exact`. C87_timestamp_3339Z_exact gives the result for every argument. Proved for years from 1000, and for floats if want_microseconds is given; false otherwise (the _refuted theorems). Floats are taken to be rounded to microseconds by datetime; strftime is that of glibc.

### C88 timestamps sort in the order of time

*Property.* Comparing two results of timestamp_3339Z as strings compares their instants; equal strings are the same instant (to the microsecond, or second if microseconds are left out).

*Plan.* Lexicographic order of fixed-width decimal fields; monotonicity of the calendar. Refuted: with and without microseconds mixed; years before 1000.

*Status.* partial: `C88_timestamps_sort_partial`, `C88_timestamp_3339Z_sorts_partial`, `C88_mixed_refuted`, `C88_early_year_refuted`, `C88_timestamps_sort_same_length`. Proved for any years if the results have the same length (C88_timestamps_sort_same_length), for years from 1000 and timestamps that both have, or both lack, microseconds; false otherwise (the _refuted theorems).

### C89 timestamp_human says the right local time

*Property.* timestamp_human(t) is YYYY/MM/DD HH:MM:SS[.ffffff] for the local wall time at the instant of t, with microseconds as documented.

*Plan.* As C87, with the time zone as a function from instants to offsets. Refuted as a name for the instant: when clocks go back two instants have the same timestamp.

*Status.* partial: `C89_timestamp_human_partial`, `C89_clocks_back_refuted`, `C89_timestamp_human_exact`. C89_timestamp_human_exact gives the result for every argument. Proved for years from 1000; the timestamp does not determine the instant (C89_clocks_back_refuted).

### C90 lines_convert_tabs_to_spaces puts the text at the right screen column

*Property.* The line yielded has no tabs, and every character is at the screen column it had with tab stops every tab_width columns; info is unchanged.

*Plan.* Inductive specification of tab stops; induction over the line. Refuted for a line from which something was clipped before.

*Status.* partial: `C90_convert_tabs`, `C90_convert_tabs_no_width`, `C90_after_clipping_refuted`. C90_convert_tabs gives the result for every line: tab stops are counted from the start of what is left of it. That is the right column if nothing was clipped at the left; otherwise tab stops are counted from the wrong column (C90_after_clipping_refuted).

### C91 parse_delimiters accepts exactly well nested text and cuts it at the delimiters

*Property.* parse_delimiters (deprecated) yields the text cut at every delimiter, so that joining all strings recreates s, exactly if s is well nested (every opened delimiter is closed by its own closing delimiter; no closing delimiter without its opening one; quote-like delimiters hide everything but a backslash and their closing delimiter); otherwise it raises ValueError after yielding a start of s. Bad delimiters are rejected at once. No tuple is all empty or has both open and close.

*Plan.* Inductive grammar of well nested token lists; soundness and completeness of the stack machine by induction.

*Status.* proved: `C91_well_nested`, `C91_default`, `C91_errors`, `C91_tuples`. Strings and delimiters of one type (the str/bytes checks are not modelled).

### C92 the old split_quoted_strings preserves the text and finds the quoted strings

*Property.* big.deprecated.split_quoted_strings yields segments that join to s; a segment is marked quoted exactly if it is a quoted string: it starts with a quote mark (three, if there are three and triple_quotes is true) outside quotes and ends with the next such mark that no backslash escapes, or at the end of s.

*Plan.* Inductive specification of the segments; completeness by induction, soundness by totality of the specification. Refuted: a quote mark outside quotes at the very end of s raises RuntimeError.

*Status.* partial: `C92_split_quoted_strings`, `C92_joins_partial`, `C92_final_quote_refuted`. The exact behaviour is proved (C92_split_quoted_strings, which includes the RuntimeError); joining gives s unless triple_quotes is true and s ends with a quote mark (C92_final_quote_refuted).

### C93 lines_strip_comments cuts each line at the first marker outside quotes

*Property.* big.deprecated.lines_strip_comments yields each line up to the first comment marker that is outside quoted strings, without whitespace before it (if rstrip), and unchanged if there is none; what is cut off goes to info.trailing.

*Plan.* On top of C92. Refuted: a comment that ends with a quote mark raises RuntimeError.

*Status.* partial: `C93_lines_strip_comments_partial`, `C93_comment_with_quote_refuted`. Proved, if quote marks are not whitespace, up to a line on which split_quoted_strings fails (C93_comment_with_quote_refuted). The info field 'comment', which the documentation promises, is never set by the code.

### C94 encode_strings encodes every str inside, and keeps everything else

*Property.* encode_strings(o, encoding) returns o with every str, at any depth inside dicts, sets, lists and tuples (and subclasses of these), replaced by its encoding; bytes are kept, as are the types, sizes, orders and associations of the containers. It raises TypeError exactly if there is something of another type inside, and otherwise fails only if a str cannot be encoded.

*Plan.* Inductive relation between a value and its encoding; equivalence by induction on values. Refuted: a str and an equal bytes collide as elements or keys; subclasses whose constructor does not take the contents.

*Status.* partial: `C94_result_partial`, `C94_succeeds_partial`, `C94_errors_partial`, `C94_no_str_left_partial`, `C94_nothing_lost_partial`, `C94_ascii`, `C94_bytes_kept_partial`, `C94_nothing_lost_refuted`, `C94_subclass_refuted`. Proved for subclasses whose constructor takes the contents; nothing is lost if there are no bytes inside. {'a', b'a'} loses an element (C94_nothing_lost_refuted), a namedtuple inside raises TypeError (C94_subclass_refuted).

### C95 the separator tuples are what Python, Unicode and ASCII define

*Property.* str_whitespace contains exactly the characters for which str.isspace() is true, and '\r\n'; unicode_whitespace the same without the four ASCII separators; ascii_whitespace what of that is ASCII; bytes_whitespace what bytes.isspace() accepts; the linebreaks tuples likewise for the characters at which splitlines() breaks lines; each ..._without_crlf lacks only '\r\n'; no tuple has duplicates.

*Plan.* For an arbitrary code point, by linear arithmetic over the ranges that define the classes.

*Status.* proved: `C95_whitespace`, `C95_linebreaks`, `C95_bytes_built`, `C95_linebreaks_are_whitespace`. For a Python whose bytes.splitlines breaks lines at \n and \r only.

### C96 multisplit and lines with the default line breaks agree with splitlines

*Property.* list(multisplit(s, linebreaks, keep=keepends, separate=True)), without an empty string at its end, is s.splitlines(keepends); an empty string is at its end exactly if s is empty or ends with a line break. lines(s) yields the same lines. The same for bytes with bytes_linebreaks.

*Plan.* From C32 and C95 by induction on the split, against an executable model of splitlines.

*Status.* proved: `C96_multisplit_is_splitlines`, `C96_reversed`, `C96_lines_is_splitlines`. Also with reverse=True (C96_reversed).

### C97 multisplit at one separator is str.split, str.rsplit

*Property.* multisplit(s, [sep], maxsplit=n, separate=True) yields s.split(sep, n), and with reverse=True s.rsplit(sep, n): cuts at the leftmost (rightmost) occurrences that do not overlap, at most n.

*Plan.* From C32, with str.split specified by first/last occurrences. Refuted for maxsplit below -1, which to str.split means no limit, to multisplit no split.

*Status.* partial: `C97_as_str_split`, `C97_split_is_unique`, `C97_below_minus_one`, `C97_below_minus_one_refuted`. Proved for maxsplit >= -1 and None. Below -1 multisplit never splits (C97_below_minus_one), while str.split does (C97_below_minus_one_refuted). (The documentation's str_split passes sep itself as separators, which works only if it has one character.)

### C98 multipartition at one separator is str.partition, str.rpartition

*Property.* multipartition(s, [sep]) is s.partition(sep) and multirpartition(s, [sep]) is s.rpartition(sep), also if sep is not in s.

*Plan.* From C37.

*Status.* proved: `C98_as_str_partition`

### C99 multisplit with strip=PROGRESSIVE reimplements str.split() and str.rsplit()

*Property.* list(multisplit(s, whitespace, maxsplit=n, reverse=r, strip=PROGRESSIVE)), without an empty string at its end, is s.split(None, n) or s.rsplit(None, n) - for every s, also empty or blank.

*Plan.* From C66 for strings that are not blank, and directly for the others.

*Status.* proved: `C99_as_str_split`

### C100 an accessor is the state of the state manager, and nothing else

*Property.* In a class decorated with accessor(attribute, state_manager), reading, assigning or calling self.attribute does exactly what self.state_manager.state does - same values, same effects, same exceptions - in every program; no other attribute of the class changes. If both names are the same (or two accessors name each other) every access ends in RecursionError.

*Plan.* Programs as interaction trees over attribute reads, assignments and calls; equality of the run of a program on the decorated class and of the rewritten program on the undecorated one, by induction on programs.

*Status.* proved: `C100_accessor`, `C100_only`, `C100_same_name`, `C100_mutual`. Provided the state manager's attribute is not itself an accessor and no other accessor or dispatch goes through the new attribute. Descriptors other than properties made by accessor and functions made by dispatch are not modelled, nor is reading a method without calling it.

### C101 a dispatched event is the event of the current state

*Property.* In a class where event is decorated with dispatch(state_manager, prefix=prefix, suffix=suffix), self.event(args) does exactly what self.state_manager.state.<prefix>event<suffix>(args) does, looked up at the time of the call - same result, effects and exceptions; the body of the decorated function is never run.

*Plan.* As C100; an attribute of that name in the instance hides the method, which is the one condition.

*Status.* proved: `C101_dispatch`, `C101_only`, `C101_hidden`. While self.__dict__ has no entry of that name (C101_hidden: otherwise that is called). The metadata copied by update_wrapper is not modelled.

### C102 setting and ensuring a time zone changes nothing else

*Property.* datetime_set_timezone(d, tz) is a datetime with the fields and fold of d and tzinfo tz, and never fails; datetime_ensure_timezone(d, tz) is d itself if d has a time zone and the former otherwise; the second call of either is as documented (the last one set wins; ensuring twice changes nothing).

*Plan.* datetime's constructor with its checks modelled; proved for every object that passes them. Refuted: a tzinfo object that is false counts as none.

*Status.* partial: `C102_set_timezone`, `C102_set_twice`, `C102_ensure_timezone`, `C102_ensure_idempotent`, `C102_false_timezone_refuted`. Proved for tzinfo objects that are true; one that is false is replaced (C102_false_timezone_refuted).

### C103 parse_timestamp_3339Z reads what timestamp_3339Z writes

*Property.* parse_timestamp_3339Z(timestamp_3339Z(t), timezone=tz) is a datetime in UTC for exactly the instant of t (to the second if microseconds were left out), whatever tz is. A string without time zone gets tz and is otherwise what dateutil makes of it.

*Plan.* From C87 and C102, with dateutil.parser.parse any function that reads RFC 3339 in UTC (one is given).

*Status.* partial: `C103_round_trip_partial`, `C103_default_timezone`, `C103_errors`, `C103_understands`. Proved for years from 1000, and for floats if want_microseconds is given (C87 is false otherwise). dateutil.parser.parse is any function that understands RFC 3339.

### C104 multistrip, multisplit and multipartition check their separators and keep the type of s

*Property.* multistrip, multisplit and multipartition raise TypeError or ValueError exactly if separators is not an iterable of non-empty strings of the type of s (or a non-empty string of that type); otherwise every string they return has the type of s, is a plain str or bytes, and is what they make of the characters (C31-C37) whatever kind of iterable separators is.

*Plan.* Objects as a datatype (strings of two kinds with subclasses, None, collections, iterators, others); the error conditions as inductive relations, equivalence by induction on the collection. Refuted: an iterator as separators of multisplit; an empty iterator; subclass instances returned.

*Status.* partial: `C104_empty_separator`, `C104_empty_separator_alternating`, `C104_empty_separator_text`, `C104_one_pattern`, `C104_multistrip_errors`, `C104_multistrip`, `C104_multisplit_errors`, `C104_multisplit`, `C104_multipartition`, `C104_iterator_result`, `C104_iterator_refuted`, `C104_empty_iterator_refuted`, `C104_empty_iterator_exact`, `C104_subclass_refuted`, `C104_multisplit_subclass_refuted`. The exact conditions for exceptions are proved for every object. An iterator as separators is ignored by multisplit (C104_iterator_refuted, C104_iterator_result); an empty iterator is accepted by multistrip (C104_empty_iterator_refuted); s of a subclass may be returned as it is, against the documentation. Empty strings among the separators are not rejected by multisplit without strip: then the pieces fall apart into their characters (C104_empty_separator).

### C105 normalize_whitespace for str and bytes, any separators and replacement

*Property.* normalize_whitespace(s, separators, replacement) raises TypeError or ValueError exactly if separators or replacement are of the wrong type or empty; otherwise it replaces every run of whitespace (what isspace() says for the type of s) or of separators with the replacement, and the result has the type of s.

*Plan.* As C104, on top of C38 and C95. Refuted: separators='' is accepted if s is empty.

*Status.* partial: `C105_normalize_errors`, `C105_normalize`, `C105_normalize_separators`, `C105_empty_separators_refuted`. Proved exactly; separators='' is accepted if s is empty (C105_empty_separators_refuted).

### C106 LineInfo.clip_leading and clip_trailing account for every character, whoever calls them

*Property.* For a line yielded by lines(), however often a modifier calls info.clip_leading(line, s) and info.clip_trailing(line, s) with a prefix or suffix of the line or with any int: the call returns line[n:] or line[:-n], what it clipped moves to info.leading or info.trailing (everything to trailing if nothing is left), leading + line + trailing + end is always the original line, and column_number advances by the width of what was clipped in front. Clipping nothing changes nothing.

*Plan.* The definitions of C42, called directly; the positions of Python slices for every int; induction over the sequence of calls. Refuted: clip_trailing with 0 or '' clips everything; the column after a tab was clipped and then the rest.

*Status.* partial: `C106_clip_leading_string`, `C106_clip_trailing_string`, `C106_clip_leading_int`, `C106_clip_trailing_int`, `C106_clip_trailing_nothing`, `C106_history`, `C106_nothing_refuted`, `C106_tab_refuted`. Proved for all strings and ints, except that clip_trailing(line, 0) and clip_trailing(line, '') clip the whole line (C106_nothing_refuted), and that the column is wrong when the whole line is clipped after a tab was (C106_tab_refuted; right without tabs).

### C107 A closed View is dead, and only it

*Property.* After view.close() has succeeded, every call of ready, done, bool, reset, close or copy on that view raises ValueError and changes nothing, whatever calls are made on the graph and its other views in between. close() of an open view of an uncopied graph succeeds; a graph whose default view is closed refuses copy() and still gives out views.

*Plan.* The world of C13-C22; invariant 'the view has no graph' preserved by every call, with no assumption on the callers.

*Status.* proved: `C107_closed_view_is_dead`, `C107_close_succeeds`, `C107_graph_after_default_closed`

### C108 split_quoted_strings and split_delimiters check the types of their arguments

*Property.* split_quoted_strings(s, quotes, escape=, multiline_quotes=, state=) and split_delimiters(s, delimiters, state=) accept str and bytes alike: if every string given is of the type of s (None and the defaults of either type standing for the default of the type of s, a string for its characters) the result depends on the characters only (C39, C40), otherwise TypeError or ValueError is raised before anything is yielded.

*Plan.* Objects as in C104, == of objects a parameter with its laws for strings; the checks in their order. Proved: right types give the function of C39 / C40, anything that does not raise had the right types. Refuted: quotes as an iterator; an escape of the wrong type if there are multiline quotes.

*Status.* partial: `C108_default_delimiters`, `C108_split_quoted_strings`, `C108_split_quoted_strings_only`, `C108_split_delimiters`, `C108_split_delimiters_only`, `C108_iterator_refuted`, `C108_escape_refuted`. Proved exactly for all objects. Against the documentation an iterator as quotes is rejected (C108_iterator_refuted); an empty escape of the wrong type is accepted if there are multiline quotes (C108_escape_refuted).

### C109 Delimiter objects are values

*Property.* Delimiter(close, escape=, multiline=, quoting=) raises ValueError exactly if close is a backslash, escape and quoting disagree or multiline is false without quoting; otherwise its attributes are what was given. Delimiter(d) and d.copy() equal d. == is an equivalence relation, equal Delimiters hash alike, and Delimiters (and open delimiters) that are equal can take each other's place in split_delimiters, so that its cache is not observable.

*Plan.* Delimiter objects over the objects of C104, hash functions any that respect ==; the checks of split_delimiters proved not to depend on which of equal objects is given.

*Status.* proved: `C109_attributes`, `C109_errors`, `C109_copy`, `C109_equality`, `C109_hash`, `C109_interchangeable`. close and escape may be any objects, quoting and multiline are bools; that == of the strings given is an equivalence and agrees with hash is a hypothesis.

### C110 lines() accepts text or an iterable of strings or pairs, and one bad value does not disturb the others

*Property.* lines(s, separators, line_number=, column_number=, tab_width=) for a str or bytes (or an instance of a subclass) yields the lines of the text; for an iterable of plain str or bytes, or of pairs (line, end), it yields one line per value. The first value of an iterable decides which, and of what type. Every value that fits yields a LineInfo whose attributes describe it, numbered consecutively; every other value raises TypeError or ValueError (a pair without two elements) from that next() only, and is not counted. The constructor raises exactly if a number is not an int, separators are wrong for the text, separators are given for an iterable, or s is not iterable.

*Plan.* Objects as in C104 plus ints, tuples and lists; the state of the lines object; induction over the values, going on after exceptions. The result is compared with the untyped model of C41-C44.

*Status.* proved: `C110_iterable`, `C110_collection`, `C110_deterministic`, `C110_text`, `C110_strings`, `C110_pairs`, `C110_errors`, `C110_mixed_pairs`, `C110_subclass_in_iterable`. Iterators as separators are excluded in C110_text (C104 says what they do). C110_mixed_pairs: a string of two characters among pairs is taken for a pair; C110_subclass_in_iterable: lines of a subclass of str are rejected in an iterable. Exceptions raised by the iterable itself and keyword arguments of lines() are not modelled.

### C111 LineInfo objects store what they are given and compare by value

*Property.* LineInfo(lines, line, line_number, column_number, leading=, trailing=, end=, indent=, match=, **kwargs) stores every argument as the attribute of that name, None standing for an empty string of the type of line; it raises TypeError exactly if line is no str or bytes, a number is no int, leading, trailing or end is not of the type of line, or match is neither None nor a match. Two LineInfo objects are equal exactly if they have the same class and equal attributes; this is an equivalence relation.

*Plan.* Attribute dictionaries over the objects of C110; isinstance with an arbitrary subclass relation; Python's rule for == of subclasses. Refuted: a re.Match object is rejected as match (the code checks for re.Pattern).

*Status.* partial: `C111_attributes`, `C111_accepts`, `C111_errors`, `C111_equal`, `C111_equivalence`, `C111_match_refuted`. Everything proved except that a re.Match object is rejected as match, against the documentation (C111_match_refuted): the code accepts re.Pattern instead.

### C112 The comment modifiers check their markers

*Property.* lines_filter_line_comment_lines(li, markers) and lines_strip_line_comments(li, markers, quotes=, escape=, multiline_quotes=) accept a str, bytes or collection of either, and then work on the characters (C58, C59, C93); they raise ValueError or TypeError at once exactly if markers is empty or not of one type, or the quotes are wrong.

*Plan.* Objects as in C110, o[0] of other collections a parameter; case analysis over the checks in their order. Refuted: sets and iterators, which are iterables, are rejected; a single marker of the wrong type is only rejected at the first line.

*Status.* partial: `C112_filter`, `C112_filter_errors`, `C112_strip`, `C112_strip_errors`, `C112_strip_quotes`, `C112_iterable_refuted`. The exact conditions are proved (for lines_strip_line_comments without quotes; with quotes of the type of the markers the checks are those of C39). Sets and iterators are rejected (C112_iterable_refuted). Collections among the markers are not modelled.

### C113 lines_grep yields exactly the matching lines and records the match

*Property.* lines_grep(li, pattern, invert=, match=name) yields the lines on which pattern.search succeeds (invert: fails), in order and unchanged; the attribute called name of each LineInfo is the match object (None if inverted) and no other attribute changes. A name that is no identifier raises ValueError; a line of the other type raises TypeError after the lines before it have been yielded.

*Plan.* Attribute dictionaries as in C111; induction over the lines.

*Status.* proved: `C113_lines_grep`, `C113_errors`, `C113_wrong_type`. pattern.search is any function; compiling the pattern is not modelled.

### C114 gently_title checks its quote marks and returns a plain str or bytes

*Property.* For s a str or bytes (or an instance of a subclass), apostrophes and double_quotes may each be None, a non-empty string like s (standing for its characters) or an iterable of non-empty strings like s (an iterator that yields nothing standing for no marks at all); then the result is a str or bytes, of the same kind as s and never of a subclass, and is the title C49 describes for those marks. Anything else raises: ValueError for an empty string or collection, TypeError for a value of the wrong type, the first wrong thing deciding, and apostrophes before double_quotes. (The documentation says that any false value means the default; only None does.)

*Plan.* Typed objects as in C104; the argument checks modelled line by line; exact characterisation of exceptions; agreement with the untyped model of C49.

*Status.* proved: `C114_accepted`, `C114_errors`, `C114_false_default_refuted`, `C114_empty_iterator`. The documented default for false values is refuted for everything but None (C114_false_default_refuted), so the statement says None. Instances of subclasses of str are assumed to be equal to the str of the same characters.

### C115 Heap: what is left when a comparison raises

*Property.* If comparing two values raises during a call on a Heap, or the iterable given to extend raises, the exception comes out of the call, and the heap afterwards contains exactly: for append, everything and the new value; for extend, everything and the values the iterable yielded; for remove, everything, or everything but the value removed; for the popping methods, everything and the value given, or that without one value, which is lost. No call ever duplicates a value. The version is unchanged, so iterators do not notice. As long as nothing has raised the heap behaves like a sorted multiset (C01), and it does so again after any extend or remove that succeeds.

*Plan.* CPython's C heapq, which exchanges elements, modelled comparison by comparison, the outcome of the n-th comparison a parameter; permutation lemmas for siftup/siftdown at every crash point; agreement with the model of C01 when nothing raises. Refuted: 'a call that raises changes nothing'; order after a failure.

*Status.* proved: `C115_contents`, `C115_version`, `C115_conservation`, `C115_sorted_while_nothing_raised`, `C115_repaired`, `C115_failed_append_refuted`, `C115_lost_value_refuted`, `C115_order_refuted`, `C115_iterators_unaffected`. The natural stronger properties are refuted: a call that raises changes nothing (C115_failed_append_refuted, C115_lost_value_refuted), and popleft returns the smallest after a failure (C115_order_refuted). heapq is CPython's C implementation (the order in which heapify visits positions is a parameter, except for the agreement with C01, where it is downward); comparisons are assumed not to modify the heap.

### C116 Scheduler: an exception at any statement of any call

*Property.* If the regulator's now, sleep, wake or lock raises inside a call of a Scheduler, or an exception strikes a thread between two statements of a call (KeyboardInterrupt), the exception ends that call only: the lock is released, no other thread is affected, and what C06-C09 and C12 say still holds of the whole history (order, never early, once each, scheduled = queued + yielded + cancelled, lock discipline). The call has had either no effect or its full effect. If only the regulator raises, next never loses an event: a next that raises has taken none from the queue.

*Plan.* The threads of C06-C12 with one more move, 'the statement of thread t raises'; the invariants of C06-C12 and a new one for each thread's view. Refuted: no effect if raised (wake raising in schedule), no event lost under asynchronous exceptions, blocking after an exception inside wake.

*Status.* proved: `C116_history_good`, `C116_conservation`, `C116_lock_released`, `C116_lock_holder_progresses`, `C116_calls`, `C116_regulator_raises`, `C116_no_event_lost`, `C116_async_loses_event_refuted`, `C116_schedule_raises_refuted`, `C116_polling_refuted`. Natural stronger properties are refuted: an asynchronous exception between popleft and return loses an event (C116_async_loses_event_refuted); if wake raises, schedule has scheduled the event although it raises (C116_schedule_raises_refuted); an exception inside wake leaves waiting threads polling (C116_polling_refuted). Entering and leaving the with block, and each Heap call, are single steps (for exceptions inside Heap calls see C115).

### C117 Separators are taken literally, and the pattern strings mean what the models say

*Property.* Whatever characters the separators given to multisplit, multistrip, multipartition, lines_filter_line_comment_lines or lines_strip_line_comments are made of (., *, (, |, backslashes, spaces, line breaks...), they stand for themselves: the pattern string big builds from them is well-formed, and re finds with it exactly the separators: the longest one at each position (separate=True) or a maximal run of them, captured as group 1 when they are to be kept, and re.split cuts exactly there. With the empty string among the separators the pattern is still well-formed, finds the other separators as before, and the empty string everywhere else. The pattern string with which Version parses its text, read under re.VERBOSE | re.IGNORECASE, and the one with which it validates segments of local, mean what C26-C30 and C67 take them to mean: the same match and the same text in each named group, for every text.

*Plan.* A model of re.compile on the fragment of pattern syntax used (a character-by-character parser), run symbolically over the strings that re.escape and join build; the resulting tree is proved equivalent to the trees of SplitModel and VersionModel. VERSION_PATTERN is copied character for character.

*Status.* proved: `C117_separators`, `C117_empty_separator`, `C117_other_patterns`, `C117_version_pattern`, `C117_segment_pattern`. re.compile is a model of the fragment of pattern syntax that these patterns use; what re.escape escapes is a parameter, assumed to include every metacharacter and no ASCII letter or digit (true of every version of Python; checked of 3.7's table in C117_hypotheses). lru_cache is not modelled.

### C118 Version: arguments of any type, properties, repr and operators

*Property.* Version's keyword arguments are accepted exactly if release is a non-empty tuple of ints, epoch, serial, post and dev are None or non-negative ints, release_level is None or one of 'alpha', 'beta', 'rc', 'final', and local is None or a non-empty tuple of strings of letters and digits (possibly followed by a newline); the properties then are the values given, 0 standing for no epoch or serial. A first argument is parsed if it is a str, read as a version string if it is sys.version_info; anything else, and any keyword argument that is not None beside it, is an error. Errors are ValueError, whatever the arguments (AssertionError for a pre-release label not in lower case). Bools count as ints in comparisons. repr() of a version made from a string is Version('...') with a text that evaluates to an equal version. ==, !=, < and > work between versions and agree; <= and >= raise TypeError; a version is unequal to, and not comparable with, anything else.

*Plan.* Python objects of the relevant types; the checks modelled in order; reduction to the untyped model of C26-C30 and C67; Python's dispatch of rich comparisons for a class with __eq__ and __lt__. Refuted: str() with bools among the numbers; the documented short names of release_level.

*Status.* proved: `C118_keywords`, `C118_first_argument`, `C118_only_ValueError`, `C118_numbers`, `C118_string_numbers`, `C118_str`, `C118_str_parsed`, `C118_repr`, `C118_operators`, `C118_bool_refuted`, `C118_level_names_refuted`. The documentation is refuted on two points: release_level='a' and 'b' are rejected (C118_level_names_refuted), and with bools, which are accepted as ints, str() is no version string (C118_bool_refuted). Subclasses of int and str that redefine operations, and objects equal to None or to a string, are not modelled.

### C119 TopologicalSorter: what a call that fails on an unhashable argument leaves behind

*Property.* add, remove and done given an unhashable node raise TypeError. If the first argument is the unhashable one, nothing changes. If add(n, *deps) fails at a dependency, n and the dependencies before it are in the graph and n depends on them, but the graph's count of dependencies and the views are not updated; so nothing changes exactly if n was in the graph and depended on each of these already. A history whose failing calls are of these harmless kinds is, to C13-C22, a history without them.

*Plan.* The world of C13-C22 with calls whose arguments may be unhashable; the dependencies before the bad one processed by the same loop. Refuted: 'a call that raises changes nothing' for add and done, with the consequences (KeyError on a correct retry, a node handed out before its predecessor).

*Status.* proved: `C119_first_argument`, `C119_failed_add`, `C119_failed_add_unchanged_iff`, `C119_views_not_told`, `C119_failed_done`, `C119_hashable`, `C119_retry_refuted`, `C119_order_refuted`, `C119_done_refuted`, `C119_harmless`. The natural stronger property, that a call which raises changes nothing, is refuted: after the failing add(1, [2]) the correct add(1, 2) raises KeyError (C119_retry_refuted); a dependency is lost, so that ready() hands out a node with its predecessor (C119_order_refuted); the failing done(1, [3]) makes the successors of 1 ready (C119_done_refuted). __hash__ and __eq__ of nodes are otherwise assumed not to raise.

### C120 Scheduler: no deadlock, and no event is forgotten

*Property.* In every execution in which every thread gets to run again and again and time goes on, whatever the threads call and whenever: while some thread is inside a call of the scheduler, some call returns later. If from some moment on threads only call next(scheduler), and there is again and again a thread in such a call, every event pending at that moment is yielded. (In particular the lost wake-up of C11 only delays.)

*Plan.* Infinite schedules over the threads of C06-C12; leads-to arguments by induction on the position of the lock holder in its call and on the number of pending events, constructively. Refuted: that each particular call returns (threading.Lock is not fair).

*Status.* proved: `C120_progress`, `C120_every_event_is_yielded`, `C120_starvation_refuted`. That the call of a particular thread returns is refuted (C120_starvation_refuted): threading.Lock is unfair, and a thread can find it taken each time, while another calls bool(scheduler) for ever. Times are integers; exceptions are C116.

### C121 BoundInnerClass: threads

*Property.* In every interleaving of threads that read bound inner classes of any objects and run class statements: a read of o.Inner ends after a bounded number of steps of its own thread; if it succeeds it gives a new class with the right name and first base, bound to o, which no other object or name gives; the only exception is TypeError. When no thread is in the middle of reading an attribute of o, every class read through o stays the same ever after. If two threads never read attributes of o at the same time (whatever they do with other objects), every read succeeds, all give the same class, and its method resolution order is that of C83. The same holds, except for 'the same class', of any interleaving of reads of a class whose decorated bases have been read before (in particular of one that has none), and constructing an instance is as in C84.

*Plan.* __get__ in small steps (a look in a dictionary, making the class, storing it), threads with stacks of calls, an arbitrary list of scheduling choices; invariants on worlds and stacks with a ghost owner for each class made; the sequential theorem on linearisation reused through a world restricted to what o has. Refuted: that threads get the same class; that o.D() runs the same __init__ methods; that o.D does not raise.

*Status.* proved: `C121_every_interleaving`, `C121_wait_free`, `C121_stable_when_quiet`, `C121_one_reader`, `C121_bases_first`, `C121_same_class_refuted`, `C121_skipped_init_refuted`, `C121_type_error_refuted`. Thread safety in the usual sense is refuted, each time with a program that meets the hypotheses: two threads can get different classes (C121_same_class_refuted); with a diamond of decorated classes a race for the base makes o.D() leave out an __init__, permanently, and issubclass(o.B, o.A) false (C121_skipped_init_refuted); with eight classes a race makes every later read of o.D raise TypeError (C121_type_error_refuted). A step of a thread is a look in a dictionary, making the class, or storing it; class attributes do not change; the recursion limit is C82.

### C122 safe_mkdir, safe_unlink and touch can be killed anywhere and repeated

*Property.* However often a process is killed in the middle of safe_mkdir(path), safe_unlink(path) or touch(path), and between whichever system calls: the file system has not changed but that a file at path may be gone and directories on the way to path have been made (safe_mkdir), the file at path may be gone (safe_unlink), or the time of path may be new or an empty file made (touch, which never loses contents); and when the call is repeated to the end it succeeds or fails exactly as it would have at first, with the same result. file_size and file_mtime_ns report what these calls have done.

*Plan.* The programs of C72-C74 cut off after n system calls, repeatedly; invariant of the world left behind from the theorems about their own calls; then C72_alone, C73_alone, C74_alone.

*Status.* proved: `C122_safe_mkdir`, `C122_safe_mkdir_blocked`, `C122_safe_unlink`, `C122_touch`, `C122_observers`. One Python call that is one system call is atomic. No other process runs meanwhile (C72-C74 say what they may do). st_size of a directory is a parameter; file_mtime, which rounds to a float, is not modelled.

### C123 The lines modifiers are lazy

*Property.* Calling lines modifiers, in whatever chain, reads nothing from the iterator they are given. Iterating over the chain gives one after the other exactly the lines that C42-C44 and C57-C60 speak of, then the exception if there is one, and then StopIteration for ever; every next() comes back if the source ends. If the source is endless, what has been yielded is right whatever follows in it, and a line is read from the source only when the lines read before are not enough to yield anything more. Only lines_sort waits for the end of the source (on an endless one it never comes back), and only lines_strip_indent holds lines back, which are blank.

*Plan.* A second model of the modifiers: generator objects asked for one line at a time, each asking the one below. Simulation between the pull-based model and the list-based one of C41-C44, for finite sources exactly and for endless ones by prefixes.

*Status.* proved: `C123_calls`, `C123_generators`, `C123_right_so_far`, `C123_not_too_early`, `C123_nothing_held_back`, `C123_sort_waits`. Generators are closed by nobody (no close() or throw()), and the source may be an iterator that raises. The mutable LineInfo objects are passed by value, as in C42-C44: no modifier looks at one again after yielding it.

### C124 The Scheduler works with any Regulator and any class of times

*Property.* With a Regulator written by the user, whose now() returns anything and whose sleep() returns whenever it likes, and with times of any class whose comparisons and subtraction are consistent in the way of numbers: next() yields the first pending event in order of (time, priority, order of scheduling) and only if its time minus now() is <= 0, that is, never early; it calls sleep() exactly if nothing pending is due, with the time left until the first event; non_blocking() stops exactly then; StopIteration, cancel, bool and queue are right. An event's time is the time given, or that plus now(). The floats of the regulators that come with big (finite clock, finite or infinite event times, with all rounding of IEEE doubles) and ints are consistent. Even if the times are inconsistent, no event is lost or duplicated, and every call does what it is for.

*Plan.* The blocks under the lock as steps over an abstract time class; invariant of the heap against the history; binary64 of Coq's standard library (SpecFloat): comparison is that of exact values, and a rounded difference has the sign of the exact one. Refuted: that this extends to NaN.

*Status.* proved: `C124_any_times`, `C124_history`, `C124_floats`, `C124_ints`, `C124_nan_refuted`. With an event at NaN an event that is due need not be yielded (C124_nan_refuted). The documentation lists __le__, __eq__, __add__ and __sub__ as what a time class needs; the code calls < and > on times. A block under the lock is atomic: the lock excludes other threads or there are none, and now() and wake() don't call the scheduler. The exact sum is not: time + now() is rounded, and the event's time is the rounded sum.

### C125 A text can be parsed in parts with the state carried over

*Property.* split_quoted_strings (quote marks and escape of one character): when a text is cut into parts anywhere but between an escape character and the quote mark or escape it escapes, and each part is parsed with state= the quote mark open after the parts before (that of the last tuple, if it has no trailing quote mark), then the tuples, those at the cuts joined, are the tuples of the whole text; and one of the calls raises SyntaxError exactly if the call for the whole text does. split_delimiters (delimiters of one character): the same for a cut at any point at which the first call succeeds, when the state is kept as the documentation advises (append open delimiters, pop at close delimiters); if the first call raises then the call for the whole text raises too, after the same tuples, unless the cut is after an escape character.

*Plan.* The character-by-character scanners that C39 and C40 prove equal to the code, run in two steps: what is complete after the first part, and where the scanner is; the text read so far only changes the first tuple. Refuted: the same for a cut after an escape character; the documented way to recognise an unterminated string, for a call that was given a state.

*Status.* proved: `C125_quoted`, `C125_quoted_parts`, `C125_cut_escape_refuted`, `C125_unterminated_refuted`, `C125_delimiters`, `C125_default_delimiters`. C125_cut_escape_refuted shows that the condition on the cut is needed. A call with a state that does not reach the closing mark yields ('', text, ''), so that 'the last tuple has a non-empty leading_quote' (documentation) does not hold and the caller must remember the state (C125_unterminated_refuted). Marks and delimiters of several characters can be cut through and are not covered.

### C126 python -m big.graph is a tsort

*Property.* Given a text file, if every line is blank or has two words and no word comes, directly or indirectly, before itself, the program prints every word exactly once, one per line, the first word of each line before the second; if some word does, it raises CycleError and prints nothing; if some line is not of this form, it exits with that line, stripped (the first such line), as its message and prints nothing.

*Plan.* The program composed of the models of iterating over a file, str.strip, str.split and TopologicalSorter; the history of add calls against the lines read; C15-C17.

*Status.* proved: `C126_tsort`, `C126_invalid_input`, `C126_lines`, `C126_numbering`. Strings are numbered to become the nodes of GraphModel (C126_numbering: this is possible). Opening and decoding the file, the text of the message and the exit status are not modelled.

### C127 Wrapped text can be split and wrapped again

*Property.* For every text, wrap_words(split_text_with_code(text)) split again with split_text_with_code gives the same words, whatever the margin: nothing is lost or joined, paragraphs stay paragraphs and code lines code lines. So text can be reformatted to any other width. With allow_code=False for every text; with code for texts with at most one code block (see C78), if a newline follows the output or the text ends with a paragraph.

*Plan.* From the exact characterisations of both functions (C45, C77, C78): the lines wrap_words makes are shown to have the classes (blank, text, code) that the blocks of the text require.

*Status.* proved: `C127_reflow`, `C127_reflow_code`, `C127_code_at_end_refuted`. Without the newline a text that ends with code loses its last line (C127_code_at_end_refuted, the same bug as in C76).

### C128 Wrapped paragraphs fit their columns

*Property.* If each column of merge_columns is the result of wrap_words with a margin not greater than the width of the column, and no word (text without line breaks, or line breaks only) is longer than that width, then merge_columns never raises OverflowError, no column delays another whatever the overflow strategy, and row r of the result shows line r of every column, each padded to its width.

*Plan.* C45 (margin) and C80 (columns): the lines merge_columns looks at are prefixes of the lines wrap_words wrote.

*Status.* proved: `C128_wrapped_columns`. min_width is not used by the code. The texts are those of C80: trailing line breaks of a column are not shown.

### C129 Laws of the lines modifiers

*Property.* The order of two filters (lines_filter_empty_lines, lines_filter_line_comment_lines, lines_containing, lines_grep) does not matter, nor does the order of a filter and lines_sort; sorting by one key and then by another is sorting by the second key and, where that is equal, by the first (in either direction each); lines_rstrip before or after lines_strip changes nothing; and each of these, lines_strip_indent and lines_convert_tabs_to_spaces does nothing the second time. This holds for the lines and their infos, and for an exception that ends the source.

*Plan.* A modifier that treats each line by itself is a loop; two loops fuse into one, so the laws reduce to one line. Sorting: a list in order is determined by its ties, in order (uniqueness of the stable sort). lines_strip_indent: invariant over the blank lines it holds back.

*Status.* proved: `C129_filters_commute`, `C129_sort_filter`, `C129_sort_sort`, `C129_rstrip_strip`, `C129_idempotent`, `C129_strip_separators_refuted`, `C129_strip_filter_refuted`. For lines_strip and lines_rstrip without separators: with separators stripping again can strip more (C129_strip_separators_refuted). A filter before or after lines_strip is not the same (C129_strip_filter_refuted). The attribute that lines_grep adds to info (match) is not part of the infos compared. Keys must be ordered consistently (strict weak order).

### C130 TopologicalSorter replaces graphlib's

*Property.* A program that builds a graph with graphlib.TopologicalSorter's add(), calls prepare() and then makes any calls of get_ready(), done() and is_active() sees the same when the class is replaced by big's: the same exception at the same call (up to and including the first one), the same answers of is_active(), the same nodes from each get_ready() - in the same order, if no dependency is declared twice. static_order() yields the same nodes in the same order, or raises CycleError in both.

*Plan.* graphlib.TopologicalSorter of CPython 3.12 transcribed as a second machine (counts with multiplicity, statuses -1 and -2, the depth-first search of _find_cycle proved right with an invariant on its stack, the ValueErrors for calls out of order); a simulation relation between it and the model of big, preserved by every call; is_active agrees because an acyclic graph can always make progress. Refuted: the same order with repeated dependencies, done() with a node twice, and going on after CycleError.

*Status.* partial: `C130_drop_in_partial`, `C130_drop_in_identical_partial`, `C130_static_order_identical_partial`, `C130_out_of_order`, `C130_graphlib_finds_cycles`, `C130_repeated_dependency_refuted`, `C130_done_twice_refuted`, `C130_after_cycle_error_refuted`, `C130_order_of_calls_refuted`. graphlib's class is transcribed from CPython 3.12 completely, its search for a cycle and the checks of the order of calls included (GraphlibSpec.v; C130_graphlib_finds_cycles proves that search right). The theorems hold of programs that make their calls in graphlib's order (add, prepare once, then the others); C130_out_of_order: in every other program graphlib itself raises ValueError. Where the property fails: a dependency declared twice can change the order within a tuple; done() with the same node twice raises ValueError only in graphlib; after a CycleError graphlib still hands out nodes and big raises again; the order of calls that graphlib forbids (add() after prepare(), a second prepare(), get_ready()/done()/is_active() before prepare()) big allows (C130_order_of_calls_refuted).

### C131 Without a limit multisplit does not depend on the direction

*Property.* If no end of a separator (short of the whole) is the beginning of a separator - as when all are single characters, or with big's own tuples of white space and line breaks -, then multisplit(s, seps, reverse=True) without a limit yields what multisplit(s, seps) yields, whatever keep, separate and strip are; and reverse=True, maxsplit=n cuts at the last n of the places where multisplit cuts. For a single separator this holds of every s exactly if the separator cannot overlap itself.

*Plan.* A separator that occurs in s lies inside one of the cuts (leftmost, longest, no overlap); so prepending a cut to a split from the right is again one. Runs of separators: the same parts, grouped from the other end.

*Status.* proved: `C131_direction`, `C131_single_characters`, `C131_builtin`, `C131_one_separator`, `C131_last_cuts`, `C131_overlap_refuted`. The condition is exact for one separator (C131_one_separator). Without it reverse makes a difference (C131_overlap_refuted). PROGRESSIVE with maxsplit=None is excepted (see C65_maxsplit_None).

### C132 A text can be split in parts, and splitting can be continued

*Property.* Splitting what maxsplit=n left with maxsplit=m gives what maxsplit=n+m gives. If a text is cut into two parts anywhere but inside a separator, then the results of multisplit for the two parts, the last string of one and the first of the other joined, are the result for the whole text (with separate=False, separators that meet at the cut are one). With the default separators every cut is good but one between \r and \n. The same for lines(): after a line break the lines of the rest, numbered on, follow.

*Plan.* The cuts of multisplit are a relation (SplitSpec.v): a cut in the first part stays one, since no separator that starts in it can end later. Runs of separators can grow at the end of the first part.

*Status.* proved: `C132_continue`, `C132_parts`, `C132_across_refuted`, `C132_where_to_cut`, `C132_lines`, `C132_lines_after_a_break`. For multisplit without strip and reverse, keep=ALTERNATING (from which the others follow, C31, C32). C132_across_refuted: cutting between \r and \n is different.

### C133 re_partition generalises multipartition

*Property.* With a pattern that matches given separators - the longest where several begin, as '|'.join(re.escape(s) for s in sorted(separators, key=len, reverse=True)) does -, re_partition(s, pattern, count) returns the strings that multipartition(s, separators, count) returns (the text of the Match objects, '' for None), and re_rpartition those of multirpartition if the separators are equally long, for instance if there is one; a negative count raises ValueError in all of them.

*Plan.* Both have been shown to cut at relations (leftmost matches, leftmost longest separators): a match of the pattern is a separator and the other way round; induction over the count. From the right the same with rightmost matches.

*Status.* proved: `C133_pattern`, `C133_re_partition`, `C133_re_rpartition`, `C133_one_separator`, `C133_from_the_right_refuted`. C133_from_the_right_refuted: the condition that separators are equally long is needed from the right. C133_pattern: the pattern of the statement is of the kind the theorems speak of.

### C134 The Scheduler replaces Python's sched.scheduler

*Property.* Scheduler is "a replacement for Python's sched.scheduler". A program that uses a sched.scheduler and is rewritten call by call -- enter(delay, priority, action) into schedule(action, delay, priority=priority), enterabs into schedule(..., absolute=True), cancel and queue unchanged, empty() into not s, run() into 'for action in s: action()', run(blocking=False) into the same over s.non_blocking(), timefunc and delayfunc into the Regulator's now and sleep -- does the same: the same actions are called in the same order at the same readings of the clock, with the same delays, the same exceptions at the same points, the same answers to empty and queue, and the same events cancelled; also when actions or the delay function enter or cancel events, run the scheduler themselves, or raise.

*Plan.* sched.scheduler transcribed from CPython; both driven by an arbitrary program as a machine with a stack of running runs; lockstep simulation: the two heaps are the same list. Differences refuted: delayfunc(0) and the returned deadline, events of another scheduler, StopIteration from the delay function, NaN.

*Status.* partial: `C134_replaces_sched_partial`, `C134_replaces_sched_with_queue_partial`, `C134_ints`, `C134_floats`, `C134_identical_refuted`, `C134_other_event_refuted`, `C134_stop_iteration_refuted`, `C134_nan_refuted`. One thread. sched's class is transcribed from CPython 3.12 (SchedlibModel.v). The theorems hold of every program that cancels events only in the scheduler they come from and whose delay function does not raise StopIteration, and say that it observes the same but for delayfunc(0) (called by sched after each action) and the deadline returned by run(blocking=False), which big does not have (C134_identical_refuted). Outside the guards: sched cancels its own event if given an equal one of another sched.scheduler, big raises ValueError; StopIteration raised by sleep ends the for statement silently; an event at NaN is due at once in sched and never in big. The property queue needs times and priorities ordered as numbers (ints, and floats without NaN: C124_ints, C124_floats, C134_ints, C134_floats).

### C135 str and bytes are treated alike

*Property.* A call on bytes does what the same call on the str with the same ASCII characters does, and yields bytes where that yields str: multisplit, multistrip, multipartition, normalize_whitespace and gently_title with any arguments (also wrong ones: the same exception), lines with any modifiers, split_quoted_strings, split_delimiters, wrap_words, split_text_with_code and merge_columns. This is for texts without the characters that are whitespace, or line breaks, for str and not for bytes (\x1c to \x1f, and \v and \f as line breaks); with explicit separators multisplit, multistrip and multipartition agree on every text. Moreover separators that do not occur in s make no difference to multisplit and multistrip.

*Plan.* the types of objects are swapped in the arguments (TypedModel, GargModel); a congruence for sets of separators that agree on the substrings of s, from the specification of multisplit; characters classes compared by computation below 128; invariants that lines and pieces consist of such characters

*Status.* proved: `C135_only_separators_in_s`, `C135_only_separators_in_s_strip`, `C135_multistrip`, `C135_multisplit`, `C135_multipartition`, `C135_normalize_whitespace`, `C135_gently_title`, `C135_lines`, `C135_split_quoted_strings`, `C135_split_delimiters`, `C135_wrap_words`, `C135_split_text_with_code`, `C135_merge_columns`, `C135_lines_refuted`, `C135_multisplit_refuted`, `C135_normalize_whitespace_refuted`, `C135_wrap_words_refuted`, `C135_merge_columns_refuted`, `C135_quoted_refuted`, `C135_delimiters_refuted`. The _refuted theorems show that the restriction on the characters is needed: for other ASCII texts str and bytes differ (a\vb is two lines as a str and one as bytes). A function given as an argument (grep, sort keys, upper in gently_title) is taken to be the same for both. The class of the result of normalize_whitespace can differ when the replacement is an instance of a subclass. Delimiters are non-empty; lines' separators are non-empty.

### C136 The deprecated parsers and their replacements agree

*Property.* Where big.deprecated says 'please switch to the modern version', a caller of parse_delimiters who switches to split_delimiters with the corresponding delimiters gets the same tuples: for every s the old function accepts, the new one yields the same, exactly if no text outside quotes has a backslash and no quoted text a line break that is not allowed; for every s the new function accepts, the old one yields the same exactly if all delimiters are closed, and otherwise the tuples up to the last delimiter and then ValueError; what one yields is always the beginning of what the other yields. The same with the default delimiters of both. split_quoted_strings: with one-character quote marks and without triple quotes, the segments (is_quoted, text) of the old function are those (opening mark, text, closing mark) of the new one, if there is no escape character outside quotes and no line break inside. lines_strip_comments(rstrip=False): without quotes the same lines, infos and exceptions as lines_strip_line_comments; with such quotes (triple_quotes=False), every sequence of lines that the new one accepts and whose quotes both understand gives the same.

*Plan.* the loop of parse_delimiters and the character scanner that split_delimiters is proved equal to (C40) are run in step; a relation between what they have yielded from there on, with six cases, is shown by induction on s; everything else is read off it. The same for split_quoted_strings and C39's scanner.

*Status.* proved: `C136_old_to_new`, `C136_new_to_old`, `C136_same_start`, `C136_default`, `C136_delimiters_refuted`, `C136_quoted_strings`, `C136_quoted_strings_refuted`, `C136_strip_comments_no_quotes`, `C136_strip_comments`, `C136_strip_comments_refuted`. The _refuted theorems show that each condition is needed: an unclosed delimiter is an error only in the old function, a backslash outside quotes (if there are quoting delimiters) and a line break inside quotes only in the new; an escaped quote mark outside quotes opens a quote only in the old split_quoted_strings, and the default calls differ on triple quotes. Pairs both functions accept: no backslash, different opening delimiters, and what closes one opens no other.

### C137 The filename translations work together and in parts

*Property.* A name translated by translate_filename_to_exfat is left alone by translate_filename_to_unix, and translating for Unix first makes no difference to the exFAT name; so to be legal on both systems the exFAT translation suffices, in any order. A name can be translated in parts (a stem and an extension): the results joined are the result for the whole name, unless it is cut between a colon and the space after it.

*Plan.* both are functions of one character and the one after it (C53_exact, C54); no character that the first produces is changed by the second

*Status.* proved: `C137_both_systems`, `C137_parts`, `C137_parts_refuted`. C137_parts_refuted: the cut between a colon and a space is different.

### C138 repr() and print() tell the truth

*Property.* After any calls: repr(heap) shows the number of items and a smallest one. repr(view) shows the nodes the next ready() would give, how many nodes are handed out and not done, how many are done, and conflicts=True exactly if ready(), done() and bool() raise RuntimeError. view.print() prints these nodes in ascending order, and the nodes with a conflict; graph.print() prints each node once, in ascending order, with the number of nodes it depends on and the nodes that depend on it. repr() and print() work on every object.

*Plan.* the texts as the values put into them; the invariants that tie a history of calls to the world it leaves (heap order; GraphProof4.v) give what they are

*Status.* partial: `C138_heap_repr_exact`, `C138_empty_heap_refuted`, `C138_view_repr`, `C138_closed_view`, `C138_graph_print`, `C138_view_print`, `C138_closed_view_refuted`. All of it proved but for 'work on every object': repr() of an empty heap raises IndexError (C138_empty_heap_refuted), repr() and print() of a closed view AttributeError (C138_closed_view, C138_closed_view_refuted), and of no others. For graphs that are not copied (C20). Nodes are numbers (sorted() can compare them); class names and addresses in the texts are left out.

### C139 split_quoted_strings and split_delimiters agree on quotes

*Property.* split_delimiters given Delimiter(q, escape=e, multiline=..., quoting=True) for each quote mark q finds the same quoted strings and the same text between them as split_quoted_strings given the same marks as quotes or multiline_quotes and the same escape, from the start or from inside a quote. If e does not occur in s, this holds for every s, with SyntaxError raised at the same point. If it does: as long as e stands neither before a line break, nor before a multiline mark, nor outside quotes, nor at the end of s, one accepts s if and only if the other does, and the results are the same. Otherwise they can differ.

*Plan.* both are character scanners (C39_scanner, C40_scanner); induction on the text, with the state and the text read so far in step

*Status.* proved: `C139_without_escapes`, `C139_delimiters_to_strings`, `C139_strings_to_delimiters`, `C139_refuted`. segments_of (QuoteAgreeSpec.v) says how the (text, open, close) tuples of split_delimiters read as the (open, text, close) tuples of split_quoted_strings. C139_refuted: in each of the four cases that are excluded the two functions differ.

### C140 repr() of a LineInfo shows exactly what is set

*Property.* repr(info) shows every attribute of a LineInfo object, those given as keyword arguments and those set later included, whose value is true, once and with its value: lines, line, line_number, column_number, leading, trailing and end in this order, then the others in the order of their names; and no other. It fails only if one of the seven was deleted: with ValueError.

*Plan.* the list of names after removing the seven and sorting the rest; for every dict of attributes

*Status.* proved: `C140_repr`, `C140_new_object`. The texts of the values are left out: what is shown is the list of (name, value). Values are those of LargModel.v.

### C141 combine_splits obeys the laws of a union

*Property.* For arrays that join to s, the result of combine_splits depends only on the set of places where the arrays split s: not on their order, nor on how often an array or an empty string is among them. Without arrays it is s, with one array the array without its empty strings; combining the result with further arrays is combining all of them at once. Splitting s by several sets of one-character separators with multisplit (keep=True or keep=ALTERNATING, from either side) and combining gives what multisplit gives for all the separators together, without empty strings.

*Plan.* the pieces are determined by the places (uniqueness), the places by C48; those of multisplit by C32, and C131 for the direction

*Status.* proved: `C141_same_places`, `C141_any_order`, `C141_none`, `C141_one`, `C141_nested`, `C141_multisplit`, `C141_overlap_refuted`. C141_overlap_refuted: for separators of several characters, which can overlap, the last part is false.

### C142 The laws of split_title_case

*Property.* A word that split_title_case yields is not split again. split_allcaps=True splits wherever False does. split_title_case(s1 + s2) is split_title_case(s1) followed by split_title_case(s2) exactly if a word begins after s1. Words in title case - an upper-case letter, then lower-case letters - joined together are split into the same words again if no two words of one letter follow each other (with split_allcaps=False: if only the last word can have one letter); a lower-case word in front (camelCase) is split off too.

*Plan.* C47 gives the places where words begin; what such a place needs of the text around it is monotone; pieces are determined by the places

*Status.* proved: `C142_words_stay`, `C142_allcaps_refines`, `C142_parts`, `C142_round_trip`, `C142_camel_case`, `C142_one_letter_refuted`. isupper/islower of a character are parameters that exclude each other, as in C47. C142_one_letter_refuted: 'A', 'I' joined is 'AI', which is not split.

### C143 The laws of multistrip

*Property.* multistrip of both sides is multistrip of the left side and then of the right; with neither side it returns the string unchanged. Stripping a second time with the same arguments changes nothing. If the separators are single characters the order of the sides does not matter, and stripping some characters first makes no difference if they are stripped along with others afterwards.

*Plan.* The model of C36 (SplitModel.multistrip) and the description proved there; uniqueness of the description for separators of one character.

*Status.* partial: `C143_left_then_right`, `C143_neither`, `C143_idempotent`, `C143_idempotent_refuted`, `C143_order`, `C143_order_refuted`, `C143_more`. Idempotence is false of the code: multistrip of 'a', space, newline, space with the separator space leaves 'a', space, newline, of which a second call strips more (C143_idempotent_refuted: the pattern ends with $, which also matches before a final newline); it is proved when newline is a separator or does not occur in the string (C143_idempotent), as are the laws of single-character separators. With longer, overlapping separators the order of the sides matters (C143_order_refuted), so that law is stated for single characters.

### C144 repr() of an instance of a bound inner class names the class and the outer object

*Property.* repr() of an instance of a class decorated with BoundInnerClass that has no custom __repr__ is '<module.name object bound to REPR at ADDRESS>', where module and name are those of the class as written and REPR is repr() of the outer object it is bound to (None if that object is gone). A custom __repr__, defined in the class or inherited, is used instead, as it is for the class that is not bound.

*Plan.* The model of C82 with the lookup of __repr__ along the method resolution order; C83's description of that order.

*Status.* partial: `C144_repr_exact`, `C144_bound_repr`, `C144_unbound_repr`, `C144_custom_repr_partial`, `C144_custom_repr_refuted`. A custom __repr__ inherited from a later base is not used if an earlier base is decorated with BoundInnerClass and has none: class C(A, Mixin), where Mixin has a __repr__ (C144_custom_repr_refuted: the test in Wrapper looks at the class without the bound classes). C144_repr_exact says whose __repr__ runs for any classes. hex(id()), repr() of the outer object and custom __repr__ methods are parameters; metaclasses are not modelled.

### C145 The laws of multipartition

*Property.* Partitioning again what is left over continues: multipartition(s, seps, n) with its last string replaced by multipartition(last, seps, m) is multipartition(s, seps, n+m), so that count=n is n calls with count=1, each for what the call before left over, and a larger count keeps what a smaller one gives. multirpartition does the same at the left end, and is multipartition of the reversed string at the reversed separators, reversed. All this includes strings with fewer separators than counted.

*Plan.* From C37 and the continuation of splits of C132; the right-hand side by reversal.

*Status.* proved: `C145_continue`, `C145_continue_right`, `C145_mirror`, `C145_one_at_a_time`, `C145_prefix`

### C146 The laws of normalize_whitespace

*Property.* normalize_whitespace of a concatenation is the concatenation of the results, unless white space meets white space at the seam. If the replacement is white space, normalizing again with any other replacement is the same as normalizing with that alone. Normalizing again with the same arguments changes nothing exactly if the replacement is all white space, or has none, or nothing was replaced. With the default separators the result is replacement.join(s.split()), with the replacement in front and behind where s starts or ends with white space.

*Plan.* From C38: the result is s with every run of characters of the class replaced; induction on s, and for the converse of idempotence a count of the characters outside the class.

*Status.* proved: `C146_concat`, `C146_twice`, `C146_idempotent`, `C146_words`

### C147 The laws of int_to_words

*Property.* flowery=True differs from flowery=False only by commas in front of blanks and by 'and' between words: the plain text is the flowery one with those left out, has no comma and no 'and', and the other words are the same. A negative number is 'negative ' and the words of the number without sign. Both hold for ordinals, too.

*Plan.* The model of C46; a relation between the two texts kept by every step of the loop over the scales, by induction on the recursion; that no piece has a comma or a word starting with a.

*Status.* proved: `C147_flowery`, `C147_flowery_words`, `C147_plain`, `C147_negative`. Beyond 75 digits int_to_words gives the decimal digits (C46_large), so C147_plain and C147_negative are stated below that.

### C148 gently_title works word by word

*Property.* What gently_title writes for the beginning of a text does not depend on what follows it; and the part of a text before a space or left parenthesis and the part after it can be titled separately: gently_title(s + ' ' + t) is gently_title(s) + ' ' + gently_title(t).

*Plan.* laws of the modelled gently_title, from the state after the first part; refuted for a first part that ends with the word d, proved otherwise

*Status.* partial: `C148_prefix`, `C148_parts_partial`, `C148_parts_exact`, `C148_parts_refuted`, `C148_default_marks`. False (C148_parts_refuted) if the first part ends with a word that is the letter D or O ('plan d' + ' ' + 'works'), that letter and an apostrophe, or only quote marks: gently_title does not see that the space ends the word (as in C49). C148_parts_partial is the law for every other first part and marks that are not spaces; C148_parts_exact for every text, by the words gently_title really sees.

### C149 wrap_words uses as few lines as possible

*Property.* For words without white space words among them, wrap_words returns the words distributed over lines of at most margin characters (a longer word has a line of its own), and no other such distribution has fewer lines; so a wider margin never gives more lines, and if the words have room on one line they are put on one line. White space among the words ('\n\n') starts afresh: the words before and after it can be wrapped separately.

*Plan.* an exchange argument between the modelled loop and an arbitrary layout, by induction over the words with the number of lines saved so far

*Status.* proved: `C149_layout`, `C149_fewest_lines`, `C149_wider_margin`, `C149_one_line`, `C149_parts`. The words are not empty, not white space and contain no line break (white space words are dealt with by C149_parts). Sentence ends are followed by two blanks whatever two_spaces says (C45_two_spaces_refuted), and the layouts compared are written the same way.

### C150 The values of multisplit's keep tell the same thing

*Property.* The same call of multisplit with keep=False, True, ALTERNATING and AS_PAIRS raises the same exception, or finds the same pieces of text with the same separators after them, and keep only says how they are shown: without the separators, with the separator at the end of each piece, as strings that alternate, or as pairs, the last one with an empty separator.

*Plan.* the four results of the modelled generator come from one list, for each way to strip and cut it

*Status.* proved: `C150_keep_modes`, `C150_no_error`. Separators are not empty strings here (an empty one that re.split would get is in C104). What the pieces are is C31 to C36 and C64 to C66.
<!-- PROPS END -->
