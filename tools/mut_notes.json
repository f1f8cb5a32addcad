[
[
"BicModel",
"Some v => Err AttributeError",
{
"claim": "C82 (attributes that are not decorated)",
"why": "survived when it was tried; the theorem named was added or strengthened and the edit is now caught",
"tightened": [
"C82_other_attributes"
],
"verdict": "survived, then tightened"
}
],
[
"DargModel",
"(OText k None (d_escape (snd p))) (OText k None (d_close",
{
"claim": "C108 (the default delimiters)",
"why": "survived when it was tried; the theorem named was added or strengthened and the edit is now caught",
"tightened": [
"C108_default_delimiters"
],
"verdict": "survived, then tightened"
}
],
[
"TypedModel",
"3 * length",
{
"why": "more fuel than is needed",
"verdict": "equivalent or outside every claim"
}
],
[
"TypedModel",
"if again then None else Some t",
{
"why": "the same for these patterns: after an empty match no other separator starts there",
"verdict": "equivalent or outside every claim"
}
],
[
"TypedModel",
"length t =?",
{
"claim": "C104 (the empty string among the separators)",
"why": "survived the theorems that existed when it was tried",
"tightened": [
"C104_empty_separator",
"C104_empty_separator_alternating"
],
"verdict": "survived, then tightened"
}
],
[
"TypedModel",
"if (length t",
{
"claim": "C104 (the empty string among the separators)",
"why": "survived the theorems that existed when it was tried",
"tightened": [
"C104_empty_separator",
"C104_empty_separator_alternating"
],
"verdict": "survived, then tightened"
}
],
[
"TypedModel",
"1 * length s + 1",
{
"claim": "C104 (the empty string among the separators)",
"why": "survived the theorems that existed when it was tried",
"tightened": [
"C104_empty_separator",
"C104_empty_separator_alternating"
],
"verdict": "survived, then tightened"
}
],
[
"TypedModel",
"S (length s) - length t",
{
"claim": "C104 (the empty string among the separators)",
"why": "survived the theorems that existed when it was tried",
"tightened": [
"C104_empty_separator",
"C104_empty_separator_alternating"
],
"verdict": "survived, then tightened"
}
],
[
"TypedModel",
"S (length t)",
{
"claim": "C104 (the empty string among the separators)",
"why": "survived the theorems that existed when it was tried",
"tightened": [
"C104_empty_separator",
"C104_empty_separator_alternating"
],
"verdict": "survived, then tightened"
}
],
[
"TypedModel",
"if true then match rev v",
{
"claim": "C104 (an empty iterator as separators)",
"why": "survived when it was tried; the theorem named was added or strengthened and the edit is now caught",
"tightened": [
"C104_empty_iterator_exact"
],
"verdict": "survived, then tightened"
}
],
[
"TypedModel",
"OText KStr _ s",
{
"claim": "C108 (a string stands for its characters)",
"why": "survived the theorems of its own file; caught by those of DargProps.v",
"tightened": [
"marks_strings"
],
"verdict": "survived, then tightened"
}
],
[
"LargModel",
"mkLines (map Obj l) IsPairs",
{
"claim": "C110 (the first value decides)",
"why": "survived when it was tried; the theorem named was added or strengthened and the edit is now caught",
"tightened": [
"C110_collection"
],
"verdict": "survived, then tightened"
}
],
[
"TimeModel",
"in_year TypeError",
{
"claim": "C89 (which exception an out of range time raises)",
"why": "survived when it was tried; the theorem named was added or strengthened and the edit is now caught",
"tightened": [
"C89_timestamp_human_exact"
],
"verdict": "survived, then tightened"
}
],
[
"GexnModel",
"if false then [] else [node]",
{
"claim": "C119 (the graph after an add that fails)",
"why": "survived when it was tried; the theorem named was added or strengthened and the edit is now caught",
"tightened": [
"C119_failed_add"
],
"verdict": "survived, then tightened"
}
],
[
"GexnModel",
"if true then [] else [node]",
{
"claim": "C119 (the graph after an add that fails)",
"why": "survived when it was tried; the theorem named was added or strengthened and the edit is now caught",
"tightened": [
"C119_failed_add"
],
"verdict": "survived, then tightened"
}
],
[
"GexnModel",
"[] (if dmem node",
{
"claim": "C119 (the graph after an add that fails)",
"why": "survived when it was tried; the theorem named was added or strengthened and the edit is now caught",
"tightened": [
"C119_failed_add"
],
"verdict": "survived, then tightened"
}
],
[
"GexnModel",
"(set_nodes g (a_nodes a)))",
{
"claim": "C119 (the graph after an add that fails)",
"why": "survived when it was tried; the theorem named was added or strengthened and the edit is now caught",
"tightened": [
"C119_failed_add"
],
"verdict": "survived, then tightened"
}
],
[
"GexnModel",
"pc_of N gi",
{
"claim": "C119 (the graph after an add that fails)",
"why": "survived when it was tried; the theorem named was added or strengthened and the edit is now caught",
"tightened": [
"C119_failed_add"
],
"verdict": "survived, then tightened"
}
],
[
"GexnModel",
"ORemove n gi",
{
"claim": "C119 (hashable arguments behave as in C19-C30)",
"why": "survived when it was tried; the theorem named was added or strengthened and the edit is now caught",
"tightened": [
"C119_hashable"
],
"verdict": "survived, then tightened"
}
],
[
"StateModel",
"[], [] => false",
{
"why": "refreshes the cached tuple of observers although it is up to date: the same observers are called",
"verdict": "equivalent or outside every claim"
}
],
[
"VersionModel",
"between 97 123",
{
"why": "the pattern has no such character",
"verdict": "equivalent or outside every claim"
}
],
[
"MergeModel",
"c => Err RecursionError",
{
"why": "a branch that C80 proves is never reached",
"verdict": "equivalent or outside every claim"
}
],
[
"AccessModel",
"",
{
"why": "what Python itself does with attributes that are not accessors; no claim is about those",
"verdict": "equivalent or outside every claim"
}
],
[
"BicModel",
"a => Err AttributeError",
{
"why": "the same function: a pattern variable instead of the only constructor left",
"verdict": "equivalent or outside every claim"
}
],
[
"BicModel",
"call_init fuel self_mro",
{
"why": "not reached: a wrapper is never given an outer argument by the code before it",
"verdict": "equivalent or outside every claim"
}
],
[
"BicModel",
"None => Err RecursionError",
{
"why": "C83 proves that this case does not occur for programs that follow the documentation; for the others the exception is Python's",
"verdict": "equivalent or outside every claim"
}
],
[
"CombineModel",
"",
{
"why": "a branch that C48 proves is never reached (the heap is never empty there, no list in it is empty, the fuel suffices)",
"verdict": "equivalent or outside every claim"
}
],
[
"ConstModel",
"(VStr 1)",
{
"why": "the class of the members of the tuple before encode, which only looks at their characters",
"verdict": "equivalent or outside every claim"
}
],
[
"ConstModel",
"",
{
"why": "the same tuple: bytes.splitlines never splits at VT or FF, so the test is false whatever is tested for; C98 pins the tuples",
"verdict": "equivalent or outside every claim"
}
],
[
"DargModel",
"Z.lxor",
{
"why": "exclusive or is commutative and associative: the same hash",
"verdict": "equivalent or outside every claim"
}
],
[
"DateModel",
"tz => datetime_set",
{
"why": "the same function: a pattern variable instead of None",
"verdict": "equivalent or outside every claim"
}
],
[
"DateModel",
"between",
{
"why": "the range check of datetime.datetime, which belongs to Python; no claim is about the arguments it rejects",
"verdict": "equivalent or outside every claim"
}
],
[
"DelimModel",
"id line",
{
"why": "only the number of lines is used",
"verdict": "equivalent or outside every claim"
}
],
[
"DelimModel",
"",
{
"why": "a branch that C40 proves is never reached",
"verdict": "equivalent or outside every claim"
}
],
[
"DeprModel",
"ValueError",
{
"why": "a branch that C80 proves is never reached (a stack that is never empty there)",
"verdict": "equivalent or outside every claim"
}
],
[
"DeprModel",
"in_backslash in_triple",
{
"why": "both arguments are false there, so the edit is the same program",
"verdict": "equivalent or outside every claim"
}
],
[
"EncodeModel",
"",
{
"why": "x <= 0 is x = 0 for natural numbers",
"verdict": "equivalent or outside every claim"
}
],
[
"FsModel",
"Error",
{
"why": "which errno the operating system reports; the claims say that an OSError is raised and what is left on disk",
"verdict": "equivalent or outside every claim"
}
],
[
"FsModel",
"",
{
"why": "the same function: a pattern variable instead of the only constructor left",
"verdict": "equivalent or outside every claim"
}
],
[
"GargModel",
"",
{
"why": "the same function: a pattern variable instead of the only constructor left",
"verdict": "equivalent or outside every claim"
}
],
[
"GraphModel",
"RuntimeError",
{
"why": "does not occur",
"verdict": "equivalent or outside every claim"
}
],
[
"GraphModel",
"DErr",
{
"why": "a branch that C27 proves is never reached",
"verdict": "equivalent or outside every claim"
}
],
[
"GraphModel",
"S (S (length N))",
{
"why": "fuel that suffices before and after",
"verdict": "equivalent or outside every claim"
}
],
[
"GraphModel",
"O => n |",
{
"why": "fuel that suffices before and after",
"verdict": "equivalent or outside every claim"
}
],
[
"GraphModel",
"if true then",
{
"why": "checking again a graph that has been checked gives the same answer (C26)",
"verdict": "equivalent or outside every claim"
}
],
[
"GraphModel",
"order_loop ord f",
{
"why": "not reached: get() does not raise in that loop (C25)",
"verdict": "equivalent or outside every claim"
}
],
[
"HeapModel",
"heapify_loop",
{
"why": "sifting down leaves does nothing, so starting later changes nothing",
"verdict": "equivalent or outside every claim"
}
],
[
"HexnModel",
"",
{
"why": "the counter of comparisons, which only chooses which comparison raises; the claims hold for every choice",
"verdict": "equivalent or outside every claim"
}
],
[
"IntWordsModel",
"List.last",
{
"why": "the default of last for a list that is never empty",
"verdict": "equivalent or outside every claim"
}
],
[
"IntWordsModel",
"",
{
"why": "a branch that C53 proves is never reached",
"verdict": "equivalent or outside every claim"
}
],
[
"LargModel",
"",
{
"why": "a branch not reached, or a renamed pattern variable",
"verdict": "equivalent or outside every claim"
}
],
[
"LinesModel",
"indent + 1",
{
"why": "the loop that goes on here ends in IndentationError always (C44), so the count is not used",
"verdict": "equivalent or outside every claim"
}
],
[
"LinesModel",
"indent - 2",
{
"why": "as above",
"verdict": "equivalent or outside every claim"
}
],
[
"LinesModel",
"if false",
{
"why": "line + end is line if end is empty",
"verdict": "equivalent or outside every claim"
}
],
[
"MergeModel",
"",
{
"why": "the flag is written and not read again before it is overwritten",
"verdict": "equivalent or outside every claim"
}
],
[
"NumModel",
"",
{
"why": "a branch not reached (no such float is compared there), or a renamed pattern variable",
"verdict": "equivalent or outside every claim"
}
],
[
"PatModel",
"",
{
"why": "how Python's re reads characters that occur in none of the patterns compiled, or a newline more or less in a re.VERBOSE pattern: the compiled patterns are the same",
"verdict": "equivalent or outside every claim"
}
],
[
"PushbackModel",
"",
{
"why": "not reached, or a renamed pattern variable: the code never asks there",
"verdict": "equivalent or outside every claim"
}
],
[
"SexnModel",
"",
{
"why": "more schedules of exceptions: an exception is allowed where the code does not call the regulator, the claims still hold",
"verdict": "equivalent or outside every claim"
}
],
[
"StateModel",
"",
{
"why": "copying the list of observers again when nothing changed, or the record of a rejected assignment",
"verdict": "equivalent or outside every claim"
}
],
[
"TextCodeModel",
"",
{
"why": "which tag stands for ZeroDivisionError, or a branch that is not reached",
"verdict": "equivalent or outside every claim"
}
],
[
"TimeModel",
"1%Z",
{
"why": "the default of nth outside 1..12, not used",
"verdict": "equivalent or outside every claim"
}
],
[
"TimeModel",
"[1; 0",
{
"why": "month 0 does not exist",
"verdict": "equivalent or outside every claim"
}
],
[
"TimeModel",
"None => None",
{
"why": "None is taken as true afterwards, so the edit is the same program",
"verdict": "equivalent or outside every claim"
}
],
[
"VargModel",
"",
{
"why": "Python never asks: NotImplemented of both sides gives TypeError in either case, or a renamed pattern variable",
"verdict": "equivalent or outside every claim"
}
],
[
"VersionModel",
"AssertionError",
{
"why": "the regular expression makes the assertion true always (C13)",
"verdict": "equivalent or outside every claim"
}
],
[
"VersionModel",
"between 97 123",
{
"why": "[ is not a letter of any pattern",
"verdict": "equivalent or outside every claim"
}
],
[
"VersionModel",
"",
{
"why": "the same function: a pattern variable",
"verdict": "equivalent or outside every claim"
}
],
[
"WordsModel",
"last word 1",
{
"why": "the default of last for a list that is never empty",
"verdict": "equivalent or outside every claim"
}
],
[
"WordsModel",
"",
{
"why": "only the comment differs",
"verdict": "equivalent or outside every claim"
}
],
[
"BthrModel",
"",
{
"why": "a renamed pattern variable or a branch that is not reached",
"verdict": "equivalent or outside every claim"
}
],
[
"SchedlibModel",
"",
{
"why": "an arm that is not reached (the command asked for gives one of the results listed above it), or a renamed pattern variable",
"verdict": "equivalent or outside every claim"
}
],
[
"SregModel",
"",
{
"why": "only a comment differs, a renamed pattern variable, or a branch that is not reached",
"verdict": "equivalent or outside every claim"
}
],
[
"TsortModel",
"",
{
"why": "the first graph and its default view have the same number, a renamed pattern variable, or a branch that is not reached: add does not raise (C17)",
"verdict": "equivalent or outside every claim"
}
],
[
"ShowModel",
"| v => (own, Err no_object)",
{
"why": "equivalent: the catch-all stands for the same case, None (Some g is matched before)",
"verdict": "equivalent or outside every claim"
}
],
[
"ShowModel",
"| g => None end with",
{
"why": "equivalent: the catch-all stands for None; there the repr of the view has already failed",
"verdict": "equivalent or outside every claim"
}
],
[
"ShowModel",
"| v => None end with",
{
"why": "equivalent: the catch-all stands for None; there the repr of the view has already failed",
"verdict": "equivalent or outside every claim"
}
],
[
"ReprModel",
"=> [] end)",
{
"why": "equivalent: the catch-all stands for None",
"verdict": "equivalent or outside every claim"
}
],
[
"BicReprModel",
"u \" object at \" ++ u \">\"",
{
"claim": "C144 (the repr of an object that is not bound)",
"why": "survived when it was tried; the theorem named was added or strengthened and the edit is now caught",
"tightened": [
"C144_unbound_repr"
],
"verdict": "survived, then tightened"
}
],
[
"BicReprModel",
"object_repr fuel",
{
"claim": "C144 (the repr of an object that is not bound)",
"why": "survived when it was tried; the theorem named was added or strengthened and the edit is now caught",
"tightened": [
"C144_unbound_repr"
],
"verdict": "survived, then tightened"
}
],
[
"BicReprModel",
"| fuel => object_repr k end",
{
"why": "equivalent: the catch-all stands for the same case, ByObject",
"verdict": "equivalent or outside every claim"
}
],
[
"BicReprModel",
"| r => object_repr k end",
{
"why": "equivalent: the catch-all stands for the same case, ByObject",
"verdict": "equivalent or outside every claim"
}
],
[
"BicReprModel",
"Ok ByObject",
{
"why": "not enough fuel: the theorems suppose enough",
"verdict": "equivalent or outside every claim"
}
]
]