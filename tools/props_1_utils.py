U='src/teflow/utils.py'
p('C01','AttrDict.retain keeps exactly the requested keys, in order',
 "After popped = d.retain(keys) (match_order=False) on any AttrDict d and any iterable of hashable keys, d holds exactly its former entries whose key occurs in keys, in their former relative order and with their former values; popped holds exactly the other former entries; no entry is lost, duplicated or altered.",
 "every dictionary content, every insertion order, every iterable of keys",
 "the claim is about every dictionary and every key list, including repeated, missing and empty keys; examples cover a handful",
 [U+':AttrDict.retain'])
p('C02','AttrDict.retain(match_order=True) puts the survivors in the order of keys',
 "After d.retain(keys, match_order=True) with a sequence keys, d holds exactly the surviving entries of d sorted by the (last) position of their key in keys; the in-place reordering loop never fails with an index error, and the popped entries are the same as without match_order.",
 "every dictionary content and insertion order, every key sequence with or without repetitions",
 "the code does not sort: it keeps a greedily chosen prefix and moves the rest to the end; that this equals sorting must hold for every permutation",
 [U+':AttrDict.retain'])
p('C03','Failure behaviour of AttrDict.retain',
 "retain raises TypeError and leaves d unchanged when keys is not iterable. When match_order=True and keys is iterable but not a sequence (e.g. a set), it also raises TypeError, but only after the non-matching entries have been removed: d is already shrunk to the matching entries and the removed entries are lost to the caller. d is unchanged by that failing call if and only if every key of d is in keys.",
 "every dictionary, every kind of keys argument, both values of match_order",
 "an exactness claim about the state left by an exception for all inputs; a test only samples some",
 [U+':AttrDict.retain'])
p('C04','ListDict.merge / append / extend / sum are pointwise',
 "merge(objs) yields, for each key of the first dict (or of a selection of distinct keys), the list of the values of that key in objs in order, and raises KeyError iff some dict misses such a key; after d.append(o) (d.extend(o)) every list of d has o[key] appended (concatenated); merge of a history equals merge of its beginning followed by append of each later dict; sum gives start plus the values added in list order. If append meets a missing key it raises KeyError after the lists of the preceding keys have already grown: the update is not atomic.",
 "every list of dictionaries, every selection of distinct keys, every history of appends",
 "quantifies over unboundedly long histories and all dictionaries",
 [U+':ListDict.append', U+':ListDict.extend', U+':ListDict.merge', U+':ListDict.sum'])
p('C05','ExecWrapper argument bookkeeping over any history',
 "For every ExecWrapper(obj, args, opts) and every history of update/execute calls: an execute call runs obj with exactly (a) every name in args bound to the value given in this call, else to the latest updated value; (b) every name in opts bound likewise when it has ever been updated or is given in this call; (c) nothing else. Unknown names are ignored; if some required name has neither an updated nor a given value, ValueError is raised and obj is not called; any exception of obj becomes RuntimeError; execute never changes what later calls see.",
 "every constructor signature, every sequence of update and execute calls with arbitrary keyword sets, every callable",
 "a claim about all operation histories; tests exercise one or two sequences",
 [U+':ExecWrapper'])
p('C06','CfgParser.pmatch section selection',
 "pmatch(section) returns the content of the first section, in file order with DEFAULT first, whose name is section or begins with section followed by a dot, and raises NoSectionError iff there is none. The reported type is the section name itself on an exact match; otherwise it is the text after the FIRST dot of the found name, which is the text following 'section.' iff section contains no dot: for every dotted section the reported type is wrong (it still contains the tail of the section name).",
 "every ordered list of section names and every requested name",
 "ranges over all strings and section lists; the dotted-name case is exactly what example-based tests miss",
 [U+':CfgParser.pmatch'])
p('C07','CfgParser.parse_list tokenises on blanks and commas',
 "parse_list(text) returns exactly the maximal runs of characters other than whitespace and commas, in order; no returned item is empty or contains a separator; joining any list of non-empty separator-free items with any non-empty separator strings (and any leading or trailing separators) and parsing gives the list back.",
 "every text, every list of items, every choice of separators",
 "a round-trip law over all strings",
 [U+':CfgParser.parse_list'])
p('C08','CfgParser.parse_seq expands ranges',
 "In parse_seq, a single number contributes itself, a part 'a:b' contributes a, a+1, a+2, ... as long as the value is below b+1e-4 (nothing when b+1e-4 <= a), and a part 'a:s:b' with s nonzero contributes a, a+s, ... of length floor((b-a)/s+1e-4)+1, or nothing when (b-a)/s < 0 (step pointing away from the end), and ZeroDivisionError is raised for s = 0; consequently every value lies between a and b up to 1e-4 (1e-4 steps). The results of successive parts are concatenated in order, a part with four or more numbers raises ValueError, and 'a:b' terminates for all a, b (in exact arithmetic).",
 "every start, step and end value (exact rationals), every list of parts",
 "loop counts depend on the data; the bound and termination must hold for all values",
 [U+':CfgParser.parse_seq'])
p('C09','parse_seq never terminates on a large float range',
 "With IEEE binary64 arithmetic, parse_seq('a:b') never terminates and grows its result without bound for every finite start a >= 2^54 (and for a = 2^53) whenever the loop is entered at all (a < b+1e-4), because start += 1 leaves start unchanged; this holds after every number of iterations. Precisely (e being b+1e-4 rounded, 1e-4 the double nearest to it): for |a| <= 2^53 the loop terminates if and only if not 2^53 < e; for a >= 2^53 and for a <= -2^53-4 it terminates if and only if not a < e or not a1 < e, where a1 is a+1 rounded, and otherwise a1 is appended for ever; for b = infinity ('1:inf') it never terminates, whatever the finite start.",
 "every iteration count, every such start, and every end b (including infinity)",
 "non-termination cannot be observed by a finite test run",
 [U+':CfgParser.parse_seq'])
p('C10','get_root_logger keeps one handler per destination',
 "Over any history of get_root_logger calls, the handlers this function has attached to a package's logger are exactly the most recent one for each destination requested so far for that package, each attached once, in the order of their last request; calls for one package never touch another package's handlers. Since the stdout destination is recorded under the name 'console', requesting filename='console' removes the stdout handler (and vice versa).",
 "every history of calls with arbitrary package names, stdout flags and file names",
 "a claim about every call history of shared mutable state",
 [U+':get_root_logger'])
p('C11','Section-splitting rule of CfgParser.parse_seq',
 "A text in which no colon stands next to a blank or comma is split into parts exactly as parse_list splits it. Blanks around the colon of a range 'a:b' are tolerated one at a time: with at most one blank before and at most one after the colon the text is parsed like 'a:b', whereas two or more blanks before or after the colon make parse_seq raise ValueError, for every pair of literals.",
 "every pair of numeric literals and every number of blanks around the colon",
 "quantifies over all blank counts and all literals; regex look-around backtracking makes single-sample reasoning unreliable",
 [U+':CfgParser.parse_seq'])
