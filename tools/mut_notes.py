import json
N=[]
def h(f,sub,why): N.append([f,sub,dict(why=why,verdict='equivalent or outside every claim')])
def t(f,sub,claim,thms,why=''): N.append([f,sub,dict(claim=claim,why=why or 'survived when it was tried; the theorem named was added or strengthened and the edit is now caught',tightened=thms,verdict='survived, then tightened')])
t('BicModel','Some v => Err AttributeError','C82 (attributes that are not decorated)',['C82_other_attributes'])
t('DargModel','(OText k None (d_escape (snd p))) (OText k None (d_close','C108 (the default delimiters)',['C108_default_delimiters'])
t('TypedModel','if true then match rev v','C104 (an empty iterator as separators)',['C104_empty_iterator_exact'])
t('TypedModel','OText KStr _ s','C108 (a string stands for its characters)',['marks_strings'],'survived the theorems of its own file; caught by those of DargProps.v')
t('LargModel','mkLines (map Obj l) IsPairs','C110 (the first value decides)',['C110_collection'])
t('TimeModel','in_year TypeError','C89 (which exception an out of range time raises)',['C89_timestamp_human_exact'])
for s in ['if false then [] else [node]','if true then [] else [node]','[] (if dmem node','(set_nodes g (a_nodes a)))','pc_of N gi']:
    t('GexnModel',s,'C119 (the graph after an add that fails)',['C119_failed_add'])
t('GexnModel','ORemove n gi','C119 (hashable arguments behave as in C19-C30)',['C119_hashable'])
h('StateModel','[], [] => false','refreshes the cached tuple of observers although it is up to date: the same observers are called')
h('VersionModel','between 97 123','the pattern has no such character')
h('MergeModel','c => Err RecursionError','a branch that C80 proves is never reached')
h('AccessModel','','what Python itself does with attributes that are not accessors; no claim is about those')
h('BicModel','a => Err AttributeError','the same function: a pattern variable instead of the only constructor left')
h('BicModel','call_init fuel self_mro','not reached: a wrapper is never given an outer argument by the code before it')
h('BicModel','None => Err RecursionError','C83 proves that this case does not occur for programs that follow the documentation; for the others the exception is Python\'s')
h('CombineModel','','a branch that C48 proves is never reached (the heap is never empty there, no list in it is empty, the fuel suffices)')
h('ConstModel','(VStr 1)','the class of the members of the tuple before encode, which only looks at their characters')
h('ConstModel','','the same tuple: bytes.splitlines never splits at VT or FF, so the test is false whatever is tested for; C98 pins the tuples')
h('DargModel','Z.lxor','exclusive or is commutative and associative: the same hash')
h('DateModel','tz => datetime_set','the same function: a pattern variable instead of None')
h('DateModel','between','the range check of datetime.datetime, which belongs to Python; no claim is about the arguments it rejects')
h('DelimModel','id line','only the number of lines is used')
h('DelimModel','','a branch that C40 proves is never reached')
h('DeprModel','ValueError','a branch that C80 proves is never reached (a stack that is never empty there)')
h('DeprModel','in_backslash in_triple','both arguments are false there, so the edit is the same program')
h('EncodeModel','','x <= 0 is x = 0 for natural numbers')
h('FsModel','Error','which errno the operating system reports; the claims say that an OSError is raised and what is left on disk')
h('FsModel','','the same function: a pattern variable instead of the only constructor left')
h('GargModel','','the same function: a pattern variable instead of the only constructor left')
h('GraphModel','RuntimeError','does not occur'); h('GraphModel','DErr','a branch that C27 proves is never reached')
h('GraphModel','S (S (length N))','fuel that suffices before and after'); h('GraphModel','O => n |','fuel that suffices before and after')
h('GraphModel','if true then','checking again a graph that has been checked gives the same answer (C26)')
h('GraphModel','order_loop ord f','not reached: get() does not raise in that loop (C25)')
h('HeapModel','heapify_loop','sifting down leaves does nothing, so starting later changes nothing')
h('HexnModel','','the counter of comparisons, which only chooses which comparison raises; the claims hold for every choice')
h('IntWordsModel','List.last','the default of last for a list that is never empty')
h('IntWordsModel','','a branch that C53 proves is never reached')
h('LargModel','','a branch not reached, or a renamed pattern variable')
h('LinesModel','indent + 1','the loop that goes on here ends in IndentationError always (C44), so the count is not used'); h('LinesModel','indent - 2','as above')
h('LinesModel','if false','line + end is line if end is empty')
h('MergeModel','','the flag is written and not read again before it is overwritten')
h('NumModel','','a branch not reached (no such float is compared there), or a renamed pattern variable')
h('PatModel','','how Python\'s re reads characters that occur in none of the patterns compiled, or a newline more or less in a re.VERBOSE pattern: the compiled patterns are the same')
h('PushbackModel','','not reached, or a renamed pattern variable: the code never asks there')
h('SexnModel','','more schedules of exceptions: an exception is allowed where the code does not call the regulator, the claims still hold')
h('StateModel','','copying the list of observers again when nothing changed, or the record of a rejected assignment')
h('TextCodeModel','','which tag stands for ZeroDivisionError, or a branch that is not reached')
h('TimeModel','1%Z','the default of nth outside 1..12, not used'); h('TimeModel','[1; 0','month 0 does not exist'); h('TimeModel','None => None','None is taken as true afterwards, so the edit is the same program')
h('VargModel','','Python never asks: NotImplemented of both sides gives TypeError in either case, or a renamed pattern variable')
h('VersionModel','AssertionError','the regular expression makes the assertion true always (C13)'); h('VersionModel','between 97 123','[ is not a letter of any pattern'); h('VersionModel','','the same function: a pattern variable')
h('WordsModel','last word 1','the default of last for a list that is never empty'); h('WordsModel','','only the comment differs')
h('BthrModel','','a renamed pattern variable or a branch that is not reached')
h('SregModel','','only a comment differs, a renamed pattern variable, or a branch that is not reached')
h('TsortModel','','the first graph and its default view have the same number, a renamed pattern variable, or a branch that is not reached: add does not raise (C17)')
json.dump(N,open('/verif/tools/mut_notes.json','w'),indent=0)
