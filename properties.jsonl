{"id": "C01", "title": "SortedList iterates in sorted order", "statement": "After any sequence of public operations on a SortedList, iterating it yields its values in non-decreasing order.", "quantifier": "every totally ordered value type, every load factor >= 1, every finite history of public operations with any arguments", "why_tests_cant": "Ordering must survive every interleaving of inserts, splits, merges and bulk updates; tests sample a few histories.", "anchors": ["src/sortedcontainers/sortedlist.py:SortedList", "src/sortedcontainers/sortedlist.py:SortedList.__iter__"]}
{"id": "C02", "title": "SortedList behaves like a reference sorted list", "statement": "For any history of operations, every returned value, every raised exception type and the final contents equal those of a plain reference list that is kept in stable sorted order.", "quantifier": "every totally ordered value type, every load factor >= 1, every finite history of public operations with any arguments", "why_tests_cant": "Refinement must hold for all histories and arguments, including histories that build, invalidate and rebuild the positional index.", "anchors": ["src/sortedcontainers/sortedlist.py:SortedList"]}
{"id": "C03", "title": "add inserts exactly one value after its equals", "statement": "sl.add(v) leaves the list equal to the old values not greater than v, then v, then the old values greater than v; nothing else changes and len grows by one.", "quantifier": "every reachable SortedList and every value", "why_tests_cant": "The insertion point and sublist split depend on sublist sizes; all size combinations cannot be enumerated.", "anchors": ["src/sortedcontainers/sortedlist.py:SortedList.add", "src/sortedcontainers/sortedlist.py:SortedList._expand"]}
{"id": "C04", "title": "update is a stable merge on both code paths", "statement": "sl.update(it) leaves exactly the stable sort of (old contents followed by the iterable's values), whether the bulk rebuild or the one-by-one path is taken.", "quantifier": "every reachable SortedList and every finite iterable", "why_tests_cant": "The path depends on the ratio of sizes; equality of both paths for all sizes, including ties, needs a proof.", "anchors": ["src/sortedcontainers/sortedlist.py:SortedList.update"]}
{"id": "C05", "title": "membership test is exact", "statement": "(v in sl) is True exactly when some value stored in sl is equal to v.", "quantifier": "every reachable SortedList and every value", "why_tests_cant": "Binary search over two levels must be right for every partition into sublists.", "anchors": ["src/sortedcontainers/sortedlist.py:SortedList.__contains__"]}
{"id": "C06", "title": "discard and remove delete exactly one equal value", "statement": "If an equal value is present, sl.discard(v)/sl.remove(v) delete the first such value and nothing else; otherwise discard leaves the list unchanged and remove raises ValueError leaving the list unchanged.", "quantifier": "every reachable SortedList and every value", "why_tests_cant": "Deletion can merge and re-split sublists and patch the index; every shape must be covered.", "anchors": ["src/sortedcontainers/sortedlist.py:SortedList.discard", "src/sortedcontainers/sortedlist.py:SortedList.remove", "src/sortedcontainers/sortedlist.py:SortedList._delete"]}
{"id": "C07", "title": "integer indexing agrees with list indexing", "statement": "sl[i] equals list(sl)[i] for every integer i, with negative indices counting from the end, and raises IndexError exactly when list(sl)[i] would.", "quantifier": "every reachable SortedList (index built, absent or incrementally patched) and every integer", "why_tests_cant": "The implicit-tree descent must be correct for every number of sublists and every size vector.", "anchors": ["src/sortedcontainers/sortedlist.py:SortedList.__getitem__", "src/sortedcontainers/sortedlist.py:SortedList._pos", "src/sortedcontainers/sortedlist.py:SortedList._build_index"]}
{"id": "C08", "title": "slicing agrees with list slicing", "statement": "sl[a:b:c] equals list(sl)[a:b:c] for every start, stop and step (including None, negative and out-of-range), and raises ValueError exactly when the step is zero.", "quantifier": "every reachable SortedList and every slice", "why_tests_cant": "Five fast paths and unbounded slices; only a proof covers all boundary combinations.", "anchors": ["src/sortedcontainers/sortedlist.py:SortedList.__getitem__"]}
{"id": "C09", "title": "deletion by index and slice agrees with list deletion", "statement": "del sl[i] and del sl[a:b:c] leave exactly what the same statement leaves of list(sl), raising IndexError/ValueError in exactly the same cases and then changing nothing.", "quantifier": "every reachable SortedList, every integer and every slice", "why_tests_cant": "Deleting through a live index with merges in between must keep later positions valid for all shapes.", "anchors": ["src/sortedcontainers/sortedlist.py:SortedList.__delitem__"]}
{"id": "C10", "title": "pop returns and removes the indexed value", "statement": "sl.pop(i) returns list(sl)[i] and removes exactly that position; it raises IndexError and changes nothing when i is out of range.", "quantifier": "every reachable SortedList and every integer", "why_tests_cant": "Five position shortcuts plus the index walk, over all shapes.", "anchors": ["src/sortedcontainers/sortedlist.py:SortedList.pop"]}
{"id": "C11", "title": "bisect_left and bisect_right return exact ranks", "statement": "sl.bisect_left(v) is the number of values less than v and sl.bisect_right(v) is the number of values not greater than v.", "quantifier": "every reachable SortedList and every value", "why_tests_cant": "The rank is accumulated through the positional tree, whose shape varies without bound.", "anchors": ["src/sortedcontainers/sortedlist.py:SortedList.bisect_left", "src/sortedcontainers/sortedlist.py:SortedList.bisect_right", "src/sortedcontainers/sortedlist.py:SortedList._loc"]}
{"id": "C12", "title": "count is exact", "statement": "sl.count(v) is the number of stored values equal to v.", "quantifier": "every reachable SortedList and every value", "why_tests_cant": "Runs of equal values may span any number of sublists.", "anchors": ["src/sortedcontainers/sortedlist.py:SortedList.count"]}
{"id": "C13", "title": "index returns the first position in the window", "statement": "sl.index(v, start, stop) returns the least position i within the normalised window [start, stop) with sl[i] equal to v, and raises ValueError exactly when there is none.", "quantifier": "every reachable SortedList, every value and every start/stop (integers or None)", "why_tests_cant": "Window normalisation and duplicates create unbounded cases.", "anchors": ["src/sortedcontainers/sortedlist.py:SortedList.index"]}
{"id": "C14", "title": "irange yields exactly the values in the interval", "statement": "list(sl.irange(lo, hi, inclusive, reverse)) is the subsequence of sl whose values satisfy the given bounds, in order (reversed when asked).", "quantifier": "every reachable SortedList, all optional bounds, all inclusivity flags, both directions", "why_tests_cant": "Empty, inverted and sublist-spanning intervals over all shapes.", "anchors": ["src/sortedcontainers/sortedlist.py:SortedList.irange", "src/sortedcontainers/sortedlist.py:SortedList._islice"]}
{"id": "C15", "title": "islice agrees with slicing", "statement": "list(sl.islice(a, b, reverse)) equals list(sl)[a:b], reversed when asked.", "quantifier": "every reachable SortedList, all optional integer bounds, both directions", "why_tests_cant": "Position pairs come from the tree walk and span any number of sublists.", "anchors": ["src/sortedcontainers/sortedlist.py:SortedList.islice", "src/sortedcontainers/sortedlist.py:SortedList._islice"]}
{"id": "C16", "title": "len, iteration and reversed iteration agree", "statement": "len(sl) is the number of values iteration yields, and reversed(sl) yields the same values backwards.", "quantifier": "every totally ordered value type, every load factor >= 1, every finite history of public operations with any arguments", "why_tests_cant": "The length counter is maintained incrementally over arbitrary histories.", "anchors": ["src/sortedcontainers/sortedlist.py:SortedList.__len__", "src/sortedcontainers/sortedlist.py:SortedList.__iter__", "src/sortedcontainers/sortedlist.py:SortedList.__reversed__"]}
{"id": "C17", "title": "the built-in self check never fails", "statement": "After any history with load factors >= 4, the library's own _check() raises nothing: sublists sorted, sizes within [load/2, 2*load], cached maxima and positional tree consistent.", "quantifier": "every totally ordered value type, every load factor >= 1, every finite history of public operations with any arguments with load factor >= 4", "why_tests_cant": "The check runs only on states tests happen to visit.", "anchors": ["src/sortedcontainers/sortedlist.py:SortedList._check"]}
{"id": "C18", "title": "the load factor is unobservable", "statement": "Two SortedLists that go through the same public operations under different load factors, or with _reset calls inserted anywhere, return the same results and hold the same contents.", "quantifier": "every totally ordered value type, every load factor >= 1, every finite history of public operations with any arguments, and every pair of load factors", "why_tests_cant": "Relates two executions over all histories.", "anchors": ["src/sortedcontainers/sortedlist.py:SortedList._reset", "src/sortedcontainers/sortedlist.py:SortedList.DEFAULT_LOAD_FACTOR"]}
{"id": "C19", "title": "queries never change the contents", "statement": "in, [], slices, index, count, bisect, irange, islice, iteration and len leave the contents unchanged, although some build an internal index lazily.", "quantifier": "every reachable SortedList and every query", "why_tests_cant": "Lazy index construction mutates internal state inside read operations.", "anchors": ["src/sortedcontainers/sortedlist.py:SortedList._loc", "src/sortedcontainers/sortedlist.py:SortedList._pos", "src/sortedcontainers/sortedlist.py:SortedList._build_index"]}
{"id": "C20", "title": "copy, concatenation and repetition", "statement": "sl.copy() has the same contents; sl + other holds the stable sort of the contents followed by other; sl * n the stable sort of n repetitions; += and *= do the same in place; the non in-place forms leave sl unchanged.", "quantifier": "every reachable SortedList, every iterable, every integer n", "why_tests_cant": "Sizes and repetition counts are unbounded.", "anchors": ["src/sortedcontainers/sortedlist.py:SortedList.copy", "src/sortedcontainers/sortedlist.py:SortedList.__add__", "src/sortedcontainers/sortedlist.py:SortedList.__mul__", "src/sortedcontainers/sortedlist.py:SortedList.__iadd__", "src/sortedcontainers/sortedlist.py:SortedList.__imul__"]}
{"id": "C21", "title": "comparisons are lexicographic", "statement": "sl == o, !=, <, >, <=, >= against a sequence o give the lexicographic comparison of list(sl) with o.", "quantifier": "every reachable SortedList and every sequence", "why_tests_cant": "Holds for all pairs of sequences of any length.", "anchors": ["src/sortedcontainers/sortedlist.py:SortedList.__make_cmp"]}
{"id": "C22", "title": "unsupported list mutators change nothing", "statement": "sl[i] = v, append, extend, insert and reverse raise NotImplementedError and leave the list unchanged.", "quantifier": "every reachable SortedList and all arguments", "why_tests_cant": "Universally quantified over states.", "anchors": ["src/sortedcontainers/sortedlist.py:SortedList.__setitem__", "src/sortedcontainers/sortedlist.py:SortedList.append", "src/sortedcontainers/sortedlist.py:SortedList.extend", "src/sortedcontainers/sortedlist.py:SortedList.insert", "src/sortedcontainers/sortedlist.py:SortedList.reverse"]}
{"id": "C23", "title": "a failing comparison leaves add, remove and queries without effect", "statement": "If a comparison raises during sl.add, discard, remove, in, count, bisect, index or irange, the exception propagates and contents, length and self-consistency are unchanged.", "quantifier": "every reachable SortedList, every partial comparison (each comparison may raise), every value", "why_tests_cant": "Every comparison is a potential crash point.", "anchors": ["src/sortedcontainers/sortedlist.py:SortedList.add", "src/sortedcontainers/sortedlist.py:SortedList.remove", "src/sortedcontainers/sortedlist.py:SortedList.discard"]}
{"id": "C24", "title": "a failing comparison during update leaves a consistent list", "statement": "If a comparison raises during sl.update(it), len(sl) still equals the number of values iterated.", "quantifier": "every reachable SortedList and iterable, every partial comparison", "why_tests_cant": "Crash points inside the bulk path; expected to be violated by the code (values are appended before sorting).", "anchors": ["src/sortedcontainers/sortedlist.py:SortedList.update"]}
{"id": "C25", "title": "pickling round-trips", "statement": "Rebuilding a container from its __reduce__ value gives a container with the same contents, in the same order.", "quantifier": "every reachable container", "why_tests_cant": "All states.", "anchors": ["src/sortedcontainers/sortedlist.py:SortedList.__reduce__", "src/sortedcontainers/sortedlist.py:SortedKeyList.__reduce__"]}
{"id": "C26", "title": "SortedKeyList iterates in key order with ties in insertion order", "statement": "After any history, iterating a SortedKeyList yields values in non-decreasing key order, and values with equal keys appear in the order in which they were added.", "quantifier": "every totally ordered value type, every load factor >= 1, every finite history of public operations with any arguments, every key function", "why_tests_cant": "Ties may span any number of sublists and be created by bulk or single inserts.", "anchors": ["src/sortedcontainers/sortedlist.py:SortedKeyList", "src/sortedcontainers/sortedlist.py:SortedKeyList.add", "src/sortedcontainers/sortedlist.py:SortedKeyList.update"]}
{"id": "C27", "title": "SortedKeyList behaves like a reference list sorted by key", "statement": "For any history, every result, exception type and the final contents equal those of a reference list kept stably sorted by key.", "quantifier": "every totally ordered value type, every load factor >= 1, every finite history of public operations with any arguments, every key function compatible with equality", "why_tests_cant": "As for C02, with a second list of cached keys to keep in step.", "anchors": ["src/sortedcontainers/sortedlist.py:SortedKeyList"]}
{"id": "C28", "title": "SortedKeyList lookup works across key ties", "statement": "in, count, index, discard and remove find values by equality among all values sharing the key, even when the run of equal keys spans many sublists.", "quantifier": "every reachable SortedKeyList and every value", "why_tests_cant": "The scan crosses sublist boundaries at arbitrary places.", "anchors": ["src/sortedcontainers/sortedlist.py:SortedKeyList.__contains__", "src/sortedcontainers/sortedlist.py:SortedKeyList.count", "src/sortedcontainers/sortedlist.py:SortedKeyList.index", "src/sortedcontainers/sortedlist.py:SortedKeyList.discard", "src/sortedcontainers/sortedlist.py:SortedKeyList.remove"]}
{"id": "C29", "title": "key-based bisection and ranges are exact", "statement": "bisect_key_left(k)/bisect_key_right(k) count the values whose key is less than / not greater than k, and irange_key yields exactly the values whose key lies in the interval.", "quantifier": "every reachable SortedKeyList, every key, all bounds and flags", "why_tests_cant": "All shapes and intervals.", "anchors": ["src/sortedcontainers/sortedlist.py:SortedKeyList.bisect_key_left", "src/sortedcontainers/sortedlist.py:SortedKeyList.bisect_key_right", "src/sortedcontainers/sortedlist.py:SortedKeyList.irange_key"]}
{"id": "C30", "title": "SortedKeyList copy, + and * keep the key function", "statement": "copy(), skl + other, other + skl, skl * n and n * skl are ordered by the key function of skl.", "quantifier": "every reachable SortedKeyList, iterable and count", "why_tests_cant": "n * skl is inherited from SortedList and is expected to violate this; a witness is needed, and the others need a proof.", "anchors": ["src/sortedcontainers/sortedlist.py:SortedKeyList.copy", "src/sortedcontainers/sortedlist.py:SortedKeyList.__add__", "src/sortedcontainers/sortedlist.py:SortedKeyList.__mul__", "src/sortedcontainers/sortedlist.py:SortedList.__rmul__"]}
{"id": "C31", "title": "the SortedKeyList self check never fails", "statement": "After any history with load factors >= 4, SortedKeyList._check() raises nothing; in particular cached keys always equal key(value).", "quantifier": "every totally ordered value type, every load factor >= 1, every finite history of public operations with any arguments, every key function", "why_tests_cant": "As C17.", "anchors": ["src/sortedcontainers/sortedlist.py:SortedKeyList._check"]}
{"id": "C32", "title": "a failing key function or comparison leaves SortedKeyList.add and remove without effect", "statement": "If the key function or a key comparison raises during add, discard, remove or a query, contents and consistency are unchanged.", "quantifier": "every reachable SortedKeyList, every partial key function, comparison and equality", "why_tests_cant": "Every call is a crash point.", "anchors": ["src/sortedcontainers/sortedlist.py:SortedKeyList.add", "src/sortedcontainers/sortedlist.py:SortedKeyList.remove"]}
{"id": "C33", "title": "SortedSet keeps its set and its sequence in step", "statement": "After any history, iterating a SortedSet yields each member exactly once in sorted order, len is the number of members, and v in ss holds exactly when an equal value is iterated.", "quantifier": "every value type with a total order and compatible equality, every hash iteration order, every history", "why_tests_cant": "Two redundant structures updated along different paths.", "anchors": ["src/sortedcontainers/sortedset.py:SortedSet"]}
{"id": "C34", "title": "SortedSet behaves like a mathematical set", "statement": "For any history, membership after the history is membership in the mathematical set obtained by the same operations, and results and exceptions agree.", "quantifier": "every history and every hash iteration order", "why_tests_cant": "All histories.", "anchors": ["src/sortedcontainers/sortedset.py:SortedSet"]}
{"id": "C35", "title": "SortedSet element operations", "statement": "add inserts exactly when absent; discard removes exactly when present; remove raises KeyError exactly when absent; pop(i) returns and removes the i-th smallest; clear empties.", "quantifier": "every reachable SortedSet and argument", "why_tests_cant": "All states.", "anchors": ["src/sortedcontainers/sortedset.py:SortedSet.add", "src/sortedcontainers/sortedset.py:SortedSet.discard", "src/sortedcontainers/sortedset.py:SortedSet.remove", "src/sortedcontainers/sortedset.py:SortedSet.pop", "src/sortedcontainers/sortedset.py:SortedSet.clear"]}
{"id": "C36", "title": "SortedSet operators compute the mathematical operation", "statement": "union, intersection, difference and symmetric_difference return sorted sets with exactly the right members and leave their operands unchanged.", "quantifier": "every reachable SortedSet and any number of iterables", "why_tests_cant": "All sizes and overlaps.", "anchors": ["src/sortedcontainers/sortedset.py:SortedSet.union", "src/sortedcontainers/sortedset.py:SortedSet.intersection", "src/sortedcontainers/sortedset.py:SortedSet.difference", "src/sortedcontainers/sortedset.py:SortedSet.symmetric_difference"]}
{"id": "C37", "title": "SortedSet in-place operators are path independent", "statement": "update, difference_update, intersection_update and symmetric_difference_update give the same members whether the bulk or the element-wise path is taken.", "quantifier": "every reachable SortedSet and any number of iterables", "why_tests_cant": "Path selected by a size ratio.", "anchors": ["src/sortedcontainers/sortedset.py:SortedSet.update", "src/sortedcontainers/sortedset.py:SortedSet.difference_update", "src/sortedcontainers/sortedset.py:SortedSet.intersection_update", "src/sortedcontainers/sortedset.py:SortedSet.symmetric_difference_update"]}
{"id": "C38", "title": "SortedSet comparisons are subset relations", "statement": "==, !=, <, <=, >, >= , issubset, issuperset and isdisjoint decide the corresponding relations between the member sets.", "quantifier": "every pair of reachable sorted sets", "why_tests_cant": "All pairs.", "anchors": ["src/sortedcontainers/sortedset.py:SortedSet.__make_cmp"]}
{"id": "C39", "title": "SortedSet indexing, slicing and deletion", "statement": "ss[i], ss[a:b:c], del ss[i] and del ss[a:b:c] agree with list(ss), and deletion removes exactly those members from the set too.", "quantifier": "every reachable SortedSet, integer and slice", "why_tests_cant": "All shapes; both structures must agree afterwards.", "anchors": ["src/sortedcontainers/sortedset.py:SortedSet.__getitem__", "src/sortedcontainers/sortedset.py:SortedSet.__delitem__"]}
{"id": "C40", "title": "SortedSet order does not depend on hash order", "statement": "Without a key function, two SortedSets with the same members iterate identically (up to equality), whatever the iteration order of the underlying hash sets.", "quantifier": "every pair of hash iteration orders and histories reaching the same members", "why_tests_cant": "Hash order is not controllable in tests.", "anchors": ["src/sortedcontainers/sortedset.py:SortedSet.__iter__"]}
{"id": "C41", "title": "SortedSet copy and reduce", "statement": "copy() and the __reduce__ reconstruction have the same members as the original, satisfy the same consistency and do not change it.", "quantifier": "every reachable SortedSet", "why_tests_cant": "All states.", "anchors": ["src/sortedcontainers/sortedset.py:SortedSet.copy", "src/sortedcontainers/sortedset.py:SortedSet.__reduce__"]}
{"id": "C42", "title": "a failing comparison leaves SortedSet.add consistent", "statement": "If a comparison raises during ss.add(v), then v is not a member and len(ss) still equals the number of values iterated.", "quantifier": "every reachable SortedSet and value, every partial comparison", "why_tests_cant": "Crash points; expected to be violated (the hash set is changed first).", "anchors": ["src/sortedcontainers/sortedset.py:SortedSet.add"]}
{"id": "C43", "title": "SortedDict keeps its mapping and its key order in step", "statement": "After any history, iterating a SortedDict yields each key exactly once in sorted order, len is the number of keys, and k in sd holds exactly when an equal key is iterated.", "quantifier": "every ordered hashable key type, every history", "why_tests_cant": "Two structures updated by many paths, including view deletions.", "anchors": ["src/sortedcontainers/sorteddict.py:SortedDict"]}
{"id": "C44", "title": "SortedDict behaves like a reference mapping", "statement": "For any history, lookups, results and exceptions equal those of a plain mapping with items listed in key order.", "quantifier": "every history", "why_tests_cant": "All histories.", "anchors": ["src/sortedcontainers/sorteddict.py:SortedDict"]}
{"id": "C45", "title": "SortedDict item operations", "statement": "sd[k]=v stores v under k and changes no other item; del sd[k] removes exactly k or raises KeyError; pop honours its default; setdefault stores only when absent.", "quantifier": "every reachable SortedDict and arguments", "why_tests_cant": "All states.", "anchors": ["src/sortedcontainers/sorteddict.py:SortedDict.__setitem__", "src/sortedcontainers/sorteddict.py:SortedDict.__delitem__", "src/sortedcontainers/sorteddict.py:SortedDict.pop", "src/sortedcontainers/sorteddict.py:SortedDict.setdefault"]}
{"id": "C46", "title": "popitem and peekitem use sorted positions", "statement": "peekitem(i) returns the i-th item in key order and changes nothing; popitem(i) returns it and removes exactly it; empty popitem raises KeyError, other out-of-range accesses IndexError.", "quantifier": "every reachable SortedDict and integer", "why_tests_cant": "All shapes.", "anchors": ["src/sortedcontainers/sorteddict.py:SortedDict.popitem", "src/sortedcontainers/sorteddict.py:SortedDict.peekitem"]}
{"id": "C47", "title": "SortedDict.update is path independent", "statement": "update leaves the mapping in which later pairs win and other items are kept, whichever of the three code paths (empty, bulk, item-wise) is taken.", "quantifier": "every reachable SortedDict and list of pairs", "why_tests_cant": "Path selected by a size ratio.", "anchors": ["src/sortedcontainers/sorteddict.py:SortedDict.update"]}
{"id": "C48", "title": "SortedDict views index, slice and delete like lists", "statement": "keys()/items()/values()[i] and slices equal the corresponding list of keys, items or values in key order; del view[i] and del view[a:b:c] delete exactly those items from the mapping.", "quantifier": "every reachable SortedDict, integer and slice", "why_tests_cant": "All shapes; two structures must agree.", "anchors": ["src/sortedcontainers/sorteddict.py:SortedKeysView", "src/sortedcontainers/sorteddict.py:SortedItemsView", "src/sortedcontainers/sorteddict.py:SortedValuesView", "src/sortedcontainers/sorteddict.py:_view_delitem"]}
{"id": "C49", "title": "SortedDict merge operators, copy and fromkeys", "statement": "sd | o prefers o, o | sd prefers sd, |= updates in place, copy keeps all items, fromkeys maps every key to the value; operands of non in-place forms are unchanged and the key function is kept.", "quantifier": "every reachable SortedDict and mapping", "why_tests_cant": "All overlaps.", "anchors": ["src/sortedcontainers/sorteddict.py:SortedDict.__or__", "src/sortedcontainers/sorteddict.py:SortedDict.__ror__", "src/sortedcontainers/sorteddict.py:SortedDict.__ior__", "src/sortedcontainers/sorteddict.py:SortedDict.copy", "src/sortedcontainers/sorteddict.py:SortedDict.fromkeys"]}
{"id": "C50", "title": "SortedDict key ties follow insertion order and survive pickling", "statement": "With a key function, keys that tie iterate in insertion order after any history; so a pickled and rebuilt SortedDict iterates identically.", "quantifier": "every history and key function", "why_tests_cant": "All histories.", "anchors": ["src/sortedcontainers/sorteddict.py:SortedDict.__reduce__", "src/sortedcontainers/sorteddict.py:SortedDict.update"]}
{"id": "C51", "title": "a failing comparison leaves SortedDict item assignment without effect", "statement": "If a comparison raises during sd[k] = v, neither the mapping nor the key order changes.", "quantifier": "every reachable SortedDict, every partial comparison", "why_tests_cant": "Crash points.", "anchors": ["src/sortedcontainers/sorteddict.py:SortedDict.__setitem__"]}
{"id": "C52", "title": "a failing comparison leaves SortedDict.setdefault and update consistent", "statement": "If a comparison raises during setdefault or update, len(sd) still equals the number of keys iterated.", "quantifier": "every reachable SortedDict, every partial comparison", "why_tests_cant": "Crash points; expected to be violated (the dict is changed first).", "anchors": ["src/sortedcontainers/sorteddict.py:SortedDict.setdefault", "src/sortedcontainers/sorteddict.py:SortedDict.update"]}
{"id": "C53", "title": "lookups and insertions use logarithmically many comparisons", "statement": "v in sl makes at most log2(number of sublists) + log2(longest sublist) + 3 comparisons, and, whatever the load factor, at most log2(len(sl)) + 7; add, discard, remove and bisect stay within the same bound, count and index within twice it.", "quantifier": "every reachable SortedList (SortedKeyList for add and bisect_key) and every value", "why_tests_cant": "A bound for all sizes.", "anchors": ["src/sortedcontainers/sortedlist.py:SortedList.__contains__", "src/sortedcontainers/sortedlist.py:SortedList.bisect_left"]}
{"id": "C54", "title": "only documented exceptions escape", "statement": "With a total order, no operation on any reachable container raises anything but the documented IndexError, ValueError, KeyError or NotImplementedError, and every internal loop terminates.", "quantifier": "every totally ordered value type, every load factor >= 1, every finite history of public operations with any arguments", "why_tests_cant": "Absence of internal index errors and non-termination over all states.", "anchors": ["src/sortedcontainers/sortedlist.py:SortedList", "src/sortedcontainers/sortedset.py:SortedSet", "src/sortedcontainers/sorteddict.py:SortedDict"]}
{"id": "C55", "title": "structural consistency does not depend on the order", "statement": "Whatever the comparisons of the values answer or raise, and even if they change between operations, as long as no update or += was interrupted by an exception: len(sl) is the number of values iterated, indexing, slicing and deletion by position are exact, and every operation adds and removes exactly the values it should, or nothing at all when a comparison raised.", "quantifier": "every value type, every family of comparison and equality functions (partial, inconsistent, changing), every history without an interrupted update, every operation", "why_tests_cant": "Ranges over every possible misbehaviour of user comparisons at every point of every history.", "anchors": ["src/sortedcontainers/sortedlist.py:SortedList", "src/sortedcontainers/sortedlist.py:SortedKeyList"]}
{"id": "C56", "title": "the SortedSet self check never fails", "statement": "After any history with load factors >= 4, SortedSet._check() raises nothing: the list self check passes, the set and the list have the same length and every listed value is in the set.", "quantifier": "every history of SortedSet operations, both list classes, every hash iteration order", "why_tests_cant": "The library tests call _check on particular histories; this is for all of them.", "anchors": ["src/sortedcontainers/sortedset.py:SortedSet._check"]}
{"id": "C57", "title": "SortedDict self check succeeds", "statement": "After any history with load factors of at least 4, SortedDict._check() raises nothing: the key list passes its own check, has as many keys as the mapping, and holds only keys of the mapping.", "quantifier": "every ordered hashable key type, every key function, every history with load factors >= 4", "why_tests_cant": "The stress tests call _check after random histories; only a proof covers every history and key type.", "anchors": ["src/sortedcontainers/sorteddict.py:SortedDict._check"]}
{"id": "C58", "title": "SortedSet structure does not depend on the order", "statement": "Whatever < does (raise, contradict itself, change between operations), as long as hash and == are coherent and no operation was cut short while changing the set: the SortedSet lists each member once, iteration, reversed, len and membership agree, and any further operation has its usual effect up to list positions, or raises exactly what a comparison (or the key function) raised and changes nothing.", "quantifier": "every comparison function per operation, every key function, every history, both list classes, every hash iteration order", "why_tests_cant": "Tests use well-behaved orders; inconsistent or raising comparisons are unbounded in number.", "anchors": ["src/sortedcontainers/sortedset.py:SortedSet"]}
{"id": "C59", "title": "what an interrupted SortedSet operation leaves behind", "statement": "When an exception interrupts a SortedSet operation that has begun to change the set, the exception came from a comparison or key call (or is the ValueError of a search that missed its value), and the contents of hash set and list afterwards are, per operation, exactly characterised: add leaves the value in the hash set only; discard/remove have removed it from the hash set only; the bulk paths of update, difference_update, intersection_update, symmetric_difference_update, slice deletion and _reset leave an empty list beside the full hash set.", "quantifier": "every comparison function, every key function, every history, every operation, every point of failure", "why_tests_cant": "Needs a failure injected at every comparison of every history.", "anchors": ["src/sortedcontainers/sortedset.py:SortedSet.add", "src/sortedcontainers/sortedset.py:SortedSet.discard", "src/sortedcontainers/sortedset.py:SortedSet.update"]}
{"id": "C60", "title": "a failing comparison leaves SortedSet.discard and remove consistent", "statement": "If a comparison raises during SortedSet.discard(v) or remove(v), then afterwards iteration, len and membership still agree.", "quantifier": "every comparison function, every history, every value", "why_tests_cant": "Needs a failure injected at every comparison of every history.", "anchors": ["src/sortedcontainers/sortedset.py:SortedSet.discard", "src/sortedcontainers/sortedset.py:SortedSet.remove"]}
{"id": "C61", "title": "SortedDict structure does not depend on the order", "statement": "Whatever < on keys does, as long as hash and == are coherent and no operation was cut short while changing the dict: the SortedDict lists each key once, iteration, len, membership and lookup agree, and any further operation acts as on a plain dict whose items are listed in the list's order, or raises what a comparison or key call raised (for del and pop possibly the ValueError of a search that missed) and changes nothing.", "quantifier": "every comparison function per operation, every key function, every history, both list classes", "why_tests_cant": "Tests use well-behaved orders; inconsistent or raising comparisons are unbounded in number.", "anchors": ["src/sortedcontainers/sorteddict.py:SortedDict"]}
{"id": "C62", "title": "what an interrupted SortedDict operation leaves behind", "statement": "When an exception interrupts a SortedDict operation that has begun to change the dict, items and key list afterwards are, per operation, exactly characterised: del has removed the item from the dict only; setdefault has stored it in the dict only; bulk update has merged the dict and emptied the key list; item-wise update stops with a consistent prefix merged; slice deletion through a view and _reset empty the key list.", "quantifier": "every comparison function, every key function, every history, every operation, every point of failure", "why_tests_cant": "Needs a failure injected at every comparison of every history.", "anchors": ["src/sortedcontainers/sorteddict.py:SortedDict.__delitem__", "src/sortedcontainers/sorteddict.py:SortedDict.setdefault", "src/sortedcontainers/sorteddict.py:SortedDict.update"]}
{"id": "C63", "title": "a failing comparison leaves del sd[k] consistent", "statement": "If a comparison raises during del sd[k] for a present key, then afterwards iteration, len, lookup and membership still agree.", "quantifier": "every comparison function, every history, every key", "why_tests_cant": "Needs a failure injected at every comparison of every history.", "anchors": ["src/sortedcontainers/sorteddict.py:SortedDict.__delitem__"]}
{"id": "C64", "title": "a SortedList or SortedKeyList accepted by _check behaves as the sorted list it shows", "statement": "If _check() of a SortedList or SortedKeyList raises nothing, in whatever way the object came about, then it shows a sorted list and every later history of operations answers as on that plain sorted list.", "quantifier": "every internal state, every total order, every history", "why_tests_cant": "States are unbounded, and the check itself is what tests rely on to detect broken states.", "anchors": ["src/sortedcontainers/sortedlist.py:SortedList._check", "src/sortedcontainers/sortedlist.py:SortedKeyList._check"]}
{"id": "C65", "title": "a SortedSet or SortedDict accepted by _check is consistent", "statement": "If _check() of a SortedSet or SortedDict raises nothing, then the values listed are exactly the members (keys), and every later history answers as on a plain sorted set (dict).", "quantifier": "every internal state, every total order, every history", "why_tests_cant": "States are unbounded, and the check itself is what tests rely on to detect broken states.", "anchors": ["src/sortedcontainers/sortedset.py:SortedSet._check", "src/sortedcontainers/sorteddict.py:SortedDict._check"]}
{"id": "C66", "title": "positional operations survive an inexact logarithm", "statement": "Whatever logarithm is used each time the internal positional index is built, as long as its integer part never falls short of the true one, indexing, slicing, deletion, bisection and every other operation answer as on the plain sorted list.", "quantifier": "every logarithm function that is large enough (another one at each rebuild), every history, every total order", "why_tests_cant": "The code computes the size of its index with a floating point logarithm; which sizes are hit depends on the history and lists long enough for rounding cannot be tested.", "anchors": ["src/sortedcontainers/sortedlist.py:SortedList._build_index"]}
{"id": "C67", "title": "set operators of the keys view", "statement": "For every SortedDict and every set or iterable, the operators &, |, -, reflected - and ^ of sd.keys() give a new SortedSet with exactly the members the operator stands for, sorted and without duplicates, and leave the dict unchanged; isdisjoint and the six comparisons with a set answer correctly.", "quantifier": "every reachable dict, with or without key function, every other operand, every iteration order of hash sets", "why_tests_cant": "The operators are inherited and built from membership tests and a SortedSet constructed from a generator; tests compare a few small examples.", "anchors": ["src/sortedcontainers/sorteddict.py:SortedKeysView._from_iterable"]}
{"id": "C68", "title": "set operators of the items view", "statement": "For every SortedDict and every set or iterable of pairs, the operators &, |, -, reflected - and ^ of sd.items() give a new SortedSet of pairs with exactly the members the operator stands for, a pair being a member when its key is present with an equal value; isdisjoint and the six comparisons with a set answer correctly.", "quantifier": "every reachable dict, every other operand, every iteration order of hash sets", "why_tests_cant": "As for the keys view; in addition values that differ under the same key must be told apart.", "anchors": ["src/sortedcontainers/sorteddict.py:SortedItemsView._from_iterable"]}
{"id": "C69", "title": "index and count of the views", "statement": "For every view of a SortedDict, view.index(x, start, stop) is the first position in the window that holds a value equal to x, or ValueError when there is none, and view.count(x) is the number of such positions; the dict keeps its items.", "quantifier": "every reachable dict, every value, every window with negative, missing or out of range bounds", "why_tests_cant": "The inherited loop indexes until IndexError and relies on positional lookups for every position; tests try few windows.", "anchors": ["src/sortedcontainers/sorteddict.py:SortedKeysView.__getitem__", "src/sortedcontainers/sorteddict.py:SortedItemsView.__getitem__", "src/sortedcontainers/sorteddict.py:SortedValuesView.__getitem__"]}
{"id": "C70", "title": "set operators keep the order of the key function", "statement": "The SortedSet returned by a set operator on sd.keys(), or by other - ss, is iterated in the order of the container it came from.", "quantifier": "every reachable container, every other operand", "why_tests_cant": "It fails only with a key function whose order is not the natural one.", "anchors": ["src/sortedcontainers/sorteddict.py:SortedKeysView._from_iterable", "src/sortedcontainers/sortedset.py:SortedSet"]}
{"id": "C71", "title": "reflected difference of a SortedSet", "statement": "other - ss, for any set or iterable other without its own difference, is a new SortedSet without key function whose members are exactly those of other that ss lacks, in natural order; ss is unchanged.", "quantifier": "every reachable set, every other operand, every iteration order of hash sets", "why_tests_cant": "SortedSet defines no __rsub__; the inherited one is untested and goes through the constructor.", "anchors": ["src/sortedcontainers/sortedset.py:SortedSet"]}
{"id": "C72", "title": "the internal lists stay balanced", "statement": "In every reachable state of a SortedList or SortedKeyList, whatever the comparisons answered or raised, no internal list is empty or longer than twice the load factor, all but the last are at least half the load factor long, there are as many maxima as lists, and the positional index has at most three entries per internal list.", "quantifier": "every history of operations, each with arbitrary and possibly raising comparisons, except updates cut short by an exception; every load factor", "why_tests_cant": "Sizes are checked by _check only in the states the tests happen to reach, and with well-behaved comparisons.", "anchors": ["src/sortedcontainers/sortedlist.py:SortedList._expand", "src/sortedcontainers/sortedlist.py:SortedList._delete", "src/sortedcontainers/sortedlist.py:SortedList._build_index", "src/sortedcontainers/sortedlist.py:SortedKeyList._expand", "src/sortedcontainers/sortedlist.py:SortedKeyList._delete"]}
{"id": "C73", "title": "positional lookups take logarithmically many steps", "statement": "In every reachable state with at least two internal lists, the loops of _pos, _loc and the index adjustments of _expand and _delete stop after at most one more than log2 of the number of internal lists iterations.", "quantifier": "every history as in C72, every position", "why_tests_cant": "A deeper index than necessary would give the same answers, only slower; no test looks at the number of steps.", "anchors": ["src/sortedcontainers/sortedlist.py:SortedList._pos", "src/sortedcontainers/sortedlist.py:SortedList._loc", "src/sortedcontainers/sortedlist.py:SortedList._expand", "src/sortedcontainers/sortedlist.py:SortedList._delete"]}
{"id": "C74", "title": "bulk operations with arguments that use the container or raise", "statement": "When the iterable given to a bulk operation calls methods of the container being updated while it is iterated, or raises, the outcome is that of the calls followed by the ordinary operation on the yielded values (by nothing if it raised), and the container stays consistent: update, += and + of SortedList and SortedKeyList; update, difference_update, symmetric_difference_update and intersection_update of SortedSet (which keeps the yielded values present when yielded); update of a non-empty SortedDict.", "quantifier": "every reachable state, every finite generator making any public in-place calls depending on their results, every position at which it raises", "why_tests_cant": "Tests pass lists and ranges; the interplay of a generator with the container has unboundedly many forms.", "anchors": ["src/sortedcontainers/sortedlist.py:SortedList.update", "src/sortedcontainers/sortedlist.py:SortedList.__add__", "src/sortedcontainers/sortedlist.py:SortedKeyList.update", "src/sortedcontainers/sortedset.py:SortedSet.update", "src/sortedcontainers/sortedset.py:SortedSet.difference_update", "src/sortedcontainers/sortedset.py:SortedSet.intersection_update", "src/sortedcontainers/sortedset.py:SortedSet.symmetric_difference_update", "src/sortedcontainers/sorteddict.py:SortedDict.update"]}
{"id": "C75", "title": "update of an empty SortedDict with an argument that raises or uses the dict", "statement": "After SortedDict.update on an empty dict, also if the argument raises (iteration error, malformed pair, unhashable key) or uses the dict while being iterated, the keys iterated are exactly the keys of the dict.", "quantifier": "every generator as argument", "why_tests_cant": "Tests never let the argument of update fail midway.", "anchors": ["src/sortedcontainers/sorteddict.py:SortedDict.update"]}
{"id": "C76", "title": "a key function is the same as values that compare by it", "statement": "A SortedKeyList with key function f behaves, in every history of operations that both classes have, exactly like a SortedList of values whose < and == compare f of the values; in particular SortedKeyList with the identity as key behaves like SortedList. The same for SortedDict with and without a key function.", "quantifier": "every key function, every total order of the keys, every history, every load factor", "why_tests_cant": "SortedKeyList repeats nearly all methods of SortedList with its own code; tests compare the two on few inputs.", "anchors": ["src/sortedcontainers/sortedlist.py:SortedKeyList", "src/sortedcontainers/sortedlist.py:SortedList", "src/sortedcontainers/sorteddict.py:SortedDict"]}
{"id": "C77", "title": "SortedLists share no list objects", "statement": "In a program that holds several SortedLists and several lists of its own, passes either as arguments to constructors and methods (a SortedList to itself among them), mutates its own lists at any time, those it passed in and those a slice returned among them, every operation changes only the object it is called on: all results are as if each SortedList were an independent value. No list object is ever part of two SortedLists, twice part of one, or part of a SortedList and known to the program.", "quantifier": "every number of objects, every interleaving of operations, every comparison function (raising and inconsistent ones included), every load factor", "why_tests_cant": "Sharing bugs show only when a particular later operation touches a list that an earlier one leaked; tests look at one object at a time.", "anchors": ["src/sortedcontainers/sortedlist.py:SortedList"]}
{"id": "C78", "title": "Iterators that are kept", "statement": "A program may keep any number of iterators (iter, reversed, islice, irange) over any number of SortedLists and advance them step by step, interleaved with each other, with queries on the same SortedList and with changes of everything else: each yields exactly what the SortedList had to yield when the iterator was made, for as long as that SortedList is not changed, and then ends. An iterator that has ended stays at its end whatever is done to the SortedList, and iter and reversed never raise an exception, whatever is done between the steps.", "quantifier": "every number of SortedLists and iterators, every interleaving, every total order, every load factor; for the last two parts every state whatsoever between the steps", "why_tests_cant": "Tests consume an iterator as soon as it is made; the lazy chain/map/islice stack is never interleaved with queries that build the positional index.", "anchors": ["src/sortedcontainers/sortedlist.py:SortedList.__iter__", "src/sortedcontainers/sortedlist.py:SortedList.__reversed__", "src/sortedcontainers/sortedlist.py:SortedList.islice", "src/sortedcontainers/sortedlist.py:SortedList._islice", "src/sortedcontainers/sortedlist.py:SortedList.irange"]}
{"id": "C79", "title": "Iterators after a change", "statement": "An iterator of a SortedList that is advanced after the SortedList has changed still yields values in order if values were only added, yields only values that the SortedList holds at that moment, and fails, if it fails, with RuntimeError as documented.", "quantifier": "every total order, every history, every load factor", "why_tests_cant": "What happens depends on where the internal lists are split and merged, at sizes of thousands of values.", "anchors": ["src/sortedcontainers/sortedlist.py:SortedList.__iter__", "src/sortedcontainers/sortedlist.py:SortedList.__reversed__", "src/sortedcontainers/sortedlist.py:SortedList.islice", "src/sortedcontainers/sortedlist.py:SortedList._islice", "src/sortedcontainers/sortedlist.py:SortedList.irange"]}
{"id": "C80", "title": "Iterators yield nothing foreign", "statement": "Whatever a program does between the steps of an iterator of a SortedList (adding, removing, bulk updates, slice deletion, clear, reset, changing lists it was built from or got back), the iterator yields only values that this SortedList has held at some time since the iterator was made: never a value of another SortedList or of a list of the program, never a value removed before.", "quantifier": "every number of SortedLists, lists and iterators, every history, every load factor, every comparison function, raising or inconsistent ones included", "why_tests_cant": "An iterator keeps references to internal lists that have been split, merged or dropped; whether such a list is reused for something else depends on long histories.", "anchors": ["src/sortedcontainers/sortedlist.py:SortedList.__iter__", "src/sortedcontainers/sortedlist.py:SortedList.__reversed__", "src/sortedcontainers/sortedlist.py:SortedList.islice", "src/sortedcontainers/sortedlist.py:SortedList._islice", "src/sortedcontainers/sortedlist.py:SortedList.irange", "src/sortedcontainers/sortedlist.py:SortedList._expand", "src/sortedcontainers/sortedlist.py:SortedList._delete", "src/sortedcontainers/sortedlist.py:SortedList.update", "src/sortedcontainers/sortedlist.py:SortedList.__delitem__"]}
{"id": "C81", "title": "Values with a finer equality", "statement": "A SortedList of values that may tie without being equal (for example tasks with __lt__ on a priority and the default ==) behaves as an ordered list in which a search looks at the first tied value only: a value is found, removed or indexed exactly when the first value tied with it equals it, count counts ties, and everything else works as for a total order. So membership is never claimed wrongly, nothing unequal is ever removed, and a value that ties only with equal values is handled exactly.", "quantifier": "every strict weak order and every equality that implies a tie, every load factor, every history; of the comparison operators only == and !=", "why_tests_cant": "The answers differ only when tied, unequal values meet, in positions that depend on the order of insertion.", "anchors": ["src/sortedcontainers/sortedlist.py:SortedList.__contains__", "src/sortedcontainers/sortedlist.py:SortedList.discard", "src/sortedcontainers/sortedlist.py:SortedList.remove", "src/sortedcontainers/sortedlist.py:SortedList.count", "src/sortedcontainers/sortedlist.py:SortedList.index", "src/sortedcontainers/sortedlist.py:SortedList.add", "src/sortedcontainers/sortedlist.py:SortedList.update"]}
{"id": "C82", "title": "Lookup of tied values", "statement": "Whenever values may tie without being equal, `v in sl` holds for every listed value v, remove(v) succeeds for it, count(v) counts the values equal to v, index(v, start) gives the position of a value equal to v; and a SortedSet or SortedDict with such keys stays consistent when one of them is removed.", "quantifier": "every strict weak order, every compatible equality, every history", "why_tests_cant": "The answers differ only when tied, unequal values meet, in positions that depend on the order of insertion.", "anchors": ["src/sortedcontainers/sortedlist.py:SortedList.__contains__", "src/sortedcontainers/sortedlist.py:SortedList.discard", "src/sortedcontainers/sortedlist.py:SortedList.remove", "src/sortedcontainers/sortedlist.py:SortedList.count", "src/sortedcontainers/sortedlist.py:SortedList.index", "src/sortedcontainers/sortedlist.py:SortedList.add", "src/sortedcontainers/sortedlist.py:SortedList.update", "src/sortedcontainers/sortedset.py:SortedSet.discard", "src/sortedcontainers/sorteddict.py:SortedDict.__delitem__"]}
{"id": "C83", "title": "Splits and merges are rare", "statement": "Over any run of single-value operations and queries, splitting or merging internal lists and rebuilding the positional index is rare: all steps but n replace at most one internal list (or make the first, or leave the container empty) and never throw the positional index away, where load * n <= 3 * (additions and removals) + 3 * load * (internal lists at the start); the last term is 0 from an empty container and 3 * load after building one from an iterable.", "quantifier": "SortedList and SortedKeyList in every reachable state, every load factor, every history of single-value operations and queries, every comparison function including inconsistent and raising ones", "why_tests_cant": "An amortised bound speaks about all sequences; an unlucky alternation of adding and removing at a boundary that restructures every time would only show as slowness.", "anchors": ["src/sortedcontainers/sortedlist.py:SortedList.add", "src/sortedcontainers/sortedlist.py:SortedList._expand", "src/sortedcontainers/sortedlist.py:SortedList._delete", "src/sortedcontainers/sortedlist.py:SortedList.pop", "src/sortedcontainers/sortedlist.py:SortedList.__delitem__", "src/sortedcontainers/sortedlist.py:SortedList.discard", "src/sortedcontainers/sortedlist.py:SortedList.remove", "src/sortedcontainers/sortedlist.py:SortedKeyList.add", "src/sortedcontainers/sortedlist.py:SortedKeyList._expand", "src/sortedcontainers/sortedlist.py:SortedKeyList._delete"]}
{"id": "C84", "title": "SortedSets share no objects", "statement": "A program that holds several SortedSets and several sets, hands them to each other and to themselves as arguments, changes its own sets, copies SortedSets, calls __init__ on a SortedSet again, and uses the methods a SortedSet exposes from its _set and _list, sees exactly what it would see were every SortedSet an independent value; no _set or _list object is used in two places, and the exposed methods always belong to the current _set and _list.", "quantifier": "Every program of these operations, every order in which hash sets are iterated, every comparison and key function including inconsistent and raising ones; for a total order additionally that each SortedSet is at all times the sorted list of its mathematical set", "why_tests_cant": "A _set taken over from an argument instead of copied, or an exposed method bound to an outdated list, shows only when a second object is changed later; tests look at one container at a time.", "anchors": ["src/sortedcontainers/sortedset.py:SortedSet.__init__", "src/sortedcontainers/sortedset.py:SortedSet._fromset", "src/sortedcontainers/sortedset.py:SortedSet.copy", "src/sortedcontainers/sortedset.py:SortedSet.union", "src/sortedcontainers/sortedset.py:SortedSet.difference", "src/sortedcontainers/sortedset.py:SortedSet.intersection", "src/sortedcontainers/sortedset.py:SortedSet.symmetric_difference", "src/sortedcontainers/sortedset.py:SortedSet.update", "src/sortedcontainers/sortedset.py:SortedSet.difference_update", "src/sortedcontainers/sortedset.py:SortedSet.intersection_update", "src/sortedcontainers/sortedset.py:SortedSet.symmetric_difference_update", "src/sortedcontainers/sortedset.py:SortedSet.__reduce__", "src/sortedcontainers/sortedset.py:SortedSet.__make_cmp"]}
{"id": "C85", "title": "SortedDicts share no objects", "statement": "A program that holds several SortedDicts, views of them and several dicts, hands them to each other and to themselves as arguments, changes its own dicts, copies SortedDicts, calls __init__ on one again, reads and deletes through views kept from earlier, and uses the methods a SortedDict exposes from its _list, sees exactly what it would see were every SortedDict an independent value; no _list object is used by two SortedDicts, and the cached and exposed bound methods always belong to the current _list.", "quantifier": "Every program of these operations, every comparison and key function including inconsistent and raising ones; for a total order and programs that do not call __init__ again, additionally that each SortedDict is at all times the plain mapping its own operations make", "why_tests_cant": "A method bound to an outdated list, or a view or copy that reaches into another dict's list, shows only when a second object is used later; tests look at one container at a time.", "anchors": ["src/sortedcontainers/sorteddict.py:SortedDict.__init__", "src/sortedcontainers/sorteddict.py:SortedDict.clear", "src/sortedcontainers/sorteddict.py:SortedDict.__delitem__", "src/sortedcontainers/sorteddict.py:SortedDict.__iter__", "src/sortedcontainers/sorteddict.py:SortedDict.__reversed__", "src/sortedcontainers/sorteddict.py:SortedDict.__setitem__", "src/sortedcontainers/sorteddict.py:SortedDict.__or__", "src/sortedcontainers/sorteddict.py:SortedDict.__ror__", "src/sortedcontainers/sorteddict.py:SortedDict.__ior__", "src/sortedcontainers/sorteddict.py:SortedDict.copy", "src/sortedcontainers/sorteddict.py:SortedDict.keys", "src/sortedcontainers/sorteddict.py:SortedDict.items", "src/sortedcontainers/sorteddict.py:SortedDict.values", "src/sortedcontainers/sorteddict.py:SortedDict.pop", "src/sortedcontainers/sorteddict.py:SortedDict.popitem", "src/sortedcontainers/sorteddict.py:SortedDict.peekitem", "src/sortedcontainers/sorteddict.py:SortedDict.setdefault", "src/sortedcontainers/sorteddict.py:SortedDict.update", "src/sortedcontainers/sorteddict.py:SortedDict.__reduce__", "src/sortedcontainers/sorteddict.py:_view_delitem", "src/sortedcontainers/sorteddict.py:SortedKeysView", "src/sortedcontainers/sorteddict.py:SortedItemsView", "src/sortedcontainers/sorteddict.py:SortedValuesView"]}
{"id": "C86", "title": "SortedDict.__init__ called again", "statement": "Calling __init__(a) on a SortedDict that exists already has the effect of update(a), as it has for dict: afterwards the dict lists its old items and those of a, in key order.", "quantifier": "Every reachable SortedDict over a total order, every argument", "why_tests_cant": "Whether it works depends on the number of pairs given in proportion to the number of items there are; a test with a small dict passes.", "anchors": ["src/sortedcontainers/sorteddict.py:SortedDict.__init__", "src/sortedcontainers/sorteddict.py:SortedDict.update"]}
{"id": "C87", "title": "SortedLists and SortedKeyLists share no list objects", "statement": "A program that holds SortedLists, SortedKeyLists with various key functions and lists, hands them to each other and to themselves as arguments, mutates its own lists (those passed to constructors and those that slicing returned included) and calls everything in any order, sees exactly what it would see were every object an independent value; no list object is used in two places, neither within the _lists and _keys of one object nor between objects.", "quantifier": "Every program of these operations, every comparison and key function including inconsistent and raising ones; for a total order, additionally that each object keeps its class and key and is at all times the list of its values in the order of its class", "why_tests_cant": "A list shared between _lists and _keys, with the caller or with another object is visible only after a later mutation elsewhere; with an identity key the two even hold equal values, so nothing looks wrong.", "anchors": ["src/sortedcontainers/sortedlist.py:SortedKeyList.__init__", "src/sortedcontainers/sortedlist.py:SortedKeyList.clear", "src/sortedcontainers/sortedlist.py:SortedKeyList.add", "src/sortedcontainers/sortedlist.py:SortedKeyList._expand", "src/sortedcontainers/sortedlist.py:SortedKeyList.update", "src/sortedcontainers/sortedlist.py:SortedKeyList.discard", "src/sortedcontainers/sortedlist.py:SortedKeyList.remove", "src/sortedcontainers/sortedlist.py:SortedKeyList._delete", "src/sortedcontainers/sortedlist.py:SortedKeyList.irange_key", "src/sortedcontainers/sortedlist.py:SortedKeyList.bisect_key_left", "src/sortedcontainers/sortedlist.py:SortedKeyList.bisect_key_right", "src/sortedcontainers/sortedlist.py:SortedKeyList.count", "src/sortedcontainers/sortedlist.py:SortedKeyList.copy", "src/sortedcontainers/sortedlist.py:SortedKeyList.index", "src/sortedcontainers/sortedlist.py:SortedKeyList.__add__", "src/sortedcontainers/sortedlist.py:SortedKeyList.__radd__", "src/sortedcontainers/sortedlist.py:SortedKeyList.__mul__", "src/sortedcontainers/sortedlist.py:SortedKeyList.__reduce__", "src/sortedcontainers/sortedlist.py:SortedList.__init__", "src/sortedcontainers/sortedlist.py:SortedList.update", "src/sortedcontainers/sortedlist.py:SortedList.add", "src/sortedcontainers/sortedlist.py:SortedList.__add__", "src/sortedcontainers/sortedlist.py:SortedList.__iadd__", "src/sortedcontainers/sortedlist.py:SortedList.__mul__", "src/sortedcontainers/sortedlist.py:SortedList.__rmul__", "src/sortedcontainers/sortedlist.py:SortedList.__imul__", "src/sortedcontainers/sortedlist.py:SortedList.copy", "src/sortedcontainers/sortedlist.py:SortedList.__getitem__", "src/sortedcontainers/sortedlist.py:SortedList._reset", "src/sortedcontainers/sortedlist.py:SortedList.__reduce__"]}
{"id": "C88", "title": "Operators between a SortedList and a SortedKeyList", "statement": "x + y of a SortedList and a SortedKeyList is, in whichever order it is written, a new SortedKeyList with the key of the one, holding all values stably sorted by that key with the SortedKeyList's first; x += y keeps the class and key of x; comparisons of two objects of whichever class compare their elements lexicographically, whichever of the two Python asks.", "quantifier": "Every reachable program state over a total order with any key functions, every two objects in it", "why_tests_cant": "Python's rule that a subclass's reflected method goes first makes the result of a sum not the one the method called __add__ of the left operand would give; tests add objects of one class.", "anchors": ["src/sortedcontainers/sortedlist.py:SortedList.__add__", "src/sortedcontainers/sortedlist.py:SortedKeyList.__add__", "src/sortedcontainers/sortedlist.py:SortedKeyList.__radd__", "src/sortedcontainers/sortedlist.py:SortedList.__iadd__", "src/sortedcontainers/sortedlist.py:SortedList.__make_cmp"]}
{"id": "C89", "title": "Comparison operators between objects of different classes", "statement": "x op y, for operands that are SortedLists, SortedKeyLists, SortedSets, keys and values views of SortedDicts, lists, tuples, sets, frozensets, dict keys or unrelated objects, means: inclusion if both are Sets, lexicographic comparison if one is a SortedList or SortedKeyList and the other a Sequence (or both are lists, or tuples), identity otherwise, with TypeError for the four orderings. The mirrored expression gives the same, != is the opposite of ==, and == is transitive among objects compared pairwise in the same manner.", "quantifier": "Every pair (triple) of objects of these kinds reached by any history over a total order, any key functions, any order of hash-set iteration, every comparison operator", "why_tests_cant": "Which method answers is decided by Python from the two classes and by who returns NotImplemented; there are 121 pairs of kinds times six operators, and each answer must agree with its mirror image.", "anchors": ["src/sortedcontainers/sortedlist.py:SortedList.__make_cmp", "src/sortedcontainers/sortedset.py:SortedSet.__make_cmp", "src/sortedcontainers/sorteddict.py:SortedKeysView", "src/sortedcontainers/sorteddict.py:SortedValuesView"]}
{"id": "C90", "title": "== is transitive between the library's containers", "statement": "If x == y and y == z then x == z, for SortedLists, SortedKeyLists, SortedSets, views and built-in containers.", "quantifier": "All triples of reachable objects", "why_tests_cant": "A failing triple mixes three classes; tests compare objects of one class or of two.", "anchors": ["src/sortedcontainers/sortedlist.py:SortedList.__make_cmp", "src/sortedcontainers/sortedset.py:SortedSet.__make_cmp", "src/sortedcontainers/sorteddict.py:SortedKeysView", "src/sortedcontainers/sorteddict.py:SortedValuesView"]}
{"id": "C91", "title": "Iterators over a SortedDict and its views", "statement": "However many iterators over a SortedDict, its keys, items and values views, forwards or backwards, a program keeps and in whatever order it advances them between other calls: while no key is added or deleted and neither update nor _reset is called, each yields the keys in order with the values stored at that moment, ends after the last, and stays ended. After any changes at all, next leaves the dict as it is, a yielded pair or value is one the dict has now, iterators over the dict and iter of the keys view raise nothing, iter of the items and values views at most KeyError, reversed of a view at most IndexError. An iterator that has ended or raised reports the end for good, whatever is done later.", "quantifier": "Every history of operations, iterators and next calls, over a SortedList or a SortedKeyList inside, every load factor", "why_tests_cant": "An iterator holds references to internal lists that other calls split, merge and rebuild; the outcome depends on where the iterator stands when that happens, for eight kinds of iterator.", "anchors": ["src/sortedcontainers/sorteddict.py:SortedDict.__iter__", "src/sortedcontainers/sorteddict.py:SortedDict.__reversed__", "src/sortedcontainers/sorteddict.py:SortedKeysView", "src/sortedcontainers/sorteddict.py:SortedItemsView", "src/sortedcontainers/sorteddict.py:SortedValuesView", "src/sortedcontainers/sorteddict.py:SortedDict.update"]}
{"id": "C92", "title": "Iterating while values are replaced", "statement": "While the keys of a SortedDict stay the same, whichever methods replace values, an iterator yields every key exactly once; after items were added or deleted it raises nothing but RuntimeError.", "quantifier": "Every history and iterator", "why_tests_cant": "The failing case needs update with existing keys in the middle of an iteration and internal lists that are not cut as a rebuild would cut them.", "anchors": ["src/sortedcontainers/sorteddict.py:SortedDict.__iter__", "src/sortedcontainers/sorteddict.py:SortedDict.__reversed__", "src/sortedcontainers/sorteddict.py:SortedKeysView", "src/sortedcontainers/sorteddict.py:SortedItemsView", "src/sortedcontainers/sorteddict.py:SortedValuesView", "src/sortedcontainers/sorteddict.py:SortedDict.update"]}
{"id": "C93", "title": "Iterators kept over SortedKeyLists, SortedSets and SortedDicts", "statement": "However many iterators over a SortedKeyList, a SortedSet or a SortedDict, made by iter, reversed, islice, irange or irange_key, a program keeps, and in whatever order it advances them between other calls: each yields the values that the method should give for the contents when it was made, in order, then ends, and once ended stays ended whatever happens. Only calls that add or delete something, update, the updating set operations and _reset disturb it; a disturbed iterator yields values or ends, and can raise nothing, except IndexError if it was made by islice, irange or irange_key.", "quantifier": "Every history of operations, iterators and next calls; any total order and key; SortedList or SortedKeyList inside the set or dict; every load factor and hash order", "why_tests_cant": "A lazy iterator holds references into internal lists that other calls split, merge and rebuild; tests consume iterators at once.", "anchors": ["src/sortedcontainers/sortedlist.py:SortedKeyList.irange_key", "src/sortedcontainers/sortedlist.py:SortedKeyList.irange", "src/sortedcontainers/sortedlist.py:SortedList._islice", "src/sortedcontainers/sortedset.py:SortedSet.__iter__", "src/sortedcontainers/sortedset.py:SortedSet.__init__", "src/sortedcontainers/sortedset.py:SortedSet.update", "src/sortedcontainers/sorteddict.py:SortedDict.__init__"]}
{"id": "C94", "title": "Updating a SortedSet with its own members during an iteration", "statement": "While only update is called, with iterables of values that are members already, an iterator over a SortedSet yields every member exactly once and raises nothing.", "quantifier": "Every SortedSet, every iteration, every point at which update is called", "why_tests_cant": "update rebuilds the internal lists only if the arguments are at least a quarter of the set, and this shows only if the internal lists were not cut as a rebuild would cut them.", "anchors": ["src/sortedcontainers/sortedlist.py:SortedKeyList.irange_key", "src/sortedcontainers/sortedlist.py:SortedKeyList.irange", "src/sortedcontainers/sortedlist.py:SortedList._islice", "src/sortedcontainers/sortedset.py:SortedSet.__iter__", "src/sortedcontainers/sortedset.py:SortedSet.__init__", "src/sortedcontainers/sortedset.py:SortedSet.update", "src/sortedcontainers/sorteddict.py:SortedDict.__init__"]}
{"id": "C95", "title": "Class, key function and text of every object a program makes", "statement": "Whatever objects of the four classes, and of subclasses that override nothing, a program makes by constructors, fromkeys, copy, pickling, +, *, |, and the set operations, and whatever it does with them: each object has the class and key function it should have (SortedList(it, key=f) makes a SortedKeyList with key f, a subclass of SortedList raises TypeError for a key; a method gives the class and key of its object; SortedDict takes a first argument that is None or can be called for the key), its contents are right for that order, and type(x), x.key and repr(x) tell class, key and contents. SortedKeyList(it, key=None) raises TypeError unless it is empty.", "quantifier": "All programs over any number of objects; all total orders, key functions, load factors, hash orders and texts of values (repr of a value may raise)", "why_tests_cant": "Tests construct objects in a few ways and seldom look at the class and key of what methods of objects so obtained return; that sets and dicts call methods of a list whose class is decided at run time is nowhere tested for all combinations.", "anchors": ["src/sortedcontainers/sortedlist.py:SortedList.__new__", "src/sortedcontainers/sortedlist.py:SortedList.__init__", "src/sortedcontainers/sortedlist.py:SortedKeyList.__init__", "src/sortedcontainers/sortedlist.py:SortedKeyList.copy", "src/sortedcontainers/sortedlist.py:SortedKeyList.__repr__", "src/sortedcontainers/sortedset.py:SortedSet._fromset", "src/sortedcontainers/sortedset.py:SortedSet.union", "src/sortedcontainers/sorteddict.py:SortedDict.__init__", "src/sortedcontainers/sorteddict.py:SortedDict.copy", "src/sortedcontainers/sorteddict.py:SortedDict.__repr__"]}
{"id": "C96", "title": "Constructors treat every mapping, and key=None, alike", "statement": "SortedDict(m) has the items of m for every mapping m, and every class takes key=None for no key.", "quantifier": "All mappings, all four classes", "why_tests_cant": "No test passes a mapping that can be called, or key=None to SortedKeyList with values.", "anchors": ["src/sortedcontainers/sortedlist.py:SortedList.__new__", "src/sortedcontainers/sortedlist.py:SortedList.__init__", "src/sortedcontainers/sortedlist.py:SortedKeyList.__init__", "src/sortedcontainers/sortedlist.py:SortedKeyList.copy", "src/sortedcontainers/sortedlist.py:SortedKeyList.__repr__", "src/sortedcontainers/sortedset.py:SortedSet._fromset", "src/sortedcontainers/sortedset.py:SortedSet.union", "src/sortedcontainers/sorteddict.py:SortedDict.__init__", "src/sortedcontainers/sorteddict.py:SortedDict.copy", "src/sortedcontainers/sorteddict.py:SortedDict.__repr__"]}
{"id": "C97", "title": "repr of objects that contain one another, and themselves", "statement": "repr of a sorted container ends whatever objects it contains, also in cycles through other containers, key functions, views, lists and dicts; the text is that of class, contents and key, with '...' exactly where an object is met inside itself. It raises only what repr of a value inside raises, and whether it returns or raises, no object stays marked as being shown, so that the next repr is unaffected.", "quantifier": "All heaps of objects with any references between them, any texts and exceptions of values", "why_tests_cant": "Tests show an object directly inside itself; cycles through several classes, repeated objects and exceptions in between are not tested.", "anchors": ["src/sortedcontainers/sortedlist.py:SortedList.__repr__", "src/sortedcontainers/sortedlist.py:SortedKeyList.__repr__", "src/sortedcontainers/sortedset.py:SortedSet.__repr__", "src/sortedcontainers/sorteddict.py:SortedDict.__repr__"]}
{"id": "C98", "title": "Set operators between objects of different classes", "statement": "x & y, x | y, x - y and x ^ y, for operands that are SortedSets (each with its own key function), keys and values views of SortedDicts, SortedLists, SortedKeyLists, lists, tuples, sets, frozensets, dict keys or objects that are not iterable, have the members the operator means. The result is: a SortedSet with x's key function if x is a SortedSet; a SortedSet without key function if x is a keys view; a set if x is dict keys, of x's type if both are built-in sets; otherwise, if y is a SortedSet, one with y's key function, for '-' without; without key function if y is a keys view; a set if y is dict keys; TypeError otherwise and whenever an operand is not iterable. x op= y leaves x naming an object of that class with those members.", "quantifier": "Every pair of objects reached by any history, every pair of key functions, every operator, any iteration order of hash sets", "why_tests_cant": "Tests use one class on each side; which of the two classes answers, and with which key function, depends on all pairs.", "anchors": ["src/sortedcontainers/sortedset.py:SortedSet.difference", "src/sortedcontainers/sortedset.py:SortedSet.intersection", "src/sortedcontainers/sortedset.py:SortedSet.union", "src/sortedcontainers/sortedset.py:SortedSet.symmetric_difference", "src/sortedcontainers/sortedset.py:SortedSet.update", "src/sortedcontainers/sortedset.py:SortedSet.difference_update", "src/sortedcontainers/sortedset.py:SortedSet.intersection_update", "src/sortedcontainers/sortedset.py:SortedSet.symmetric_difference_update", "src/sortedcontainers/sorteddict.py:SortedKeysView._from_iterable"]}
{"id": "C99", "title": "A SortedSet among the operands makes the result a SortedSet with its key function (false)", "statement": "If one operand of &, |, - or ^ is a SortedSet the result is a SortedSet; if the other is a sequence on the left, the result has the SortedSet's key function.", "quantifier": "Every pair of operands one of which is a SortedSet", "why_tests_cant": "Tests do not use operators with operands of other classes on the left of '-', nor dict keys.", "anchors": ["src/sortedcontainers/sortedset.py:SortedSet.difference", "src/sortedcontainers/sortedset.py:SortedSet.intersection", "src/sortedcontainers/sortedset.py:SortedSet.union", "src/sortedcontainers/sortedset.py:SortedSet.symmetric_difference", "src/sortedcontainers/sortedset.py:SortedSet.update", "src/sortedcontainers/sortedset.py:SortedSet.difference_update", "src/sortedcontainers/sortedset.py:SortedSet.intersection_update", "src/sortedcontainers/sortedset.py:SortedSet.symmetric_difference_update", "src/sortedcontainers/sorteddict.py:SortedKeysView._from_iterable"]}
{"id": "C100", "title": "Which values a SortedKeyList applies the key function to", "statement": "An operation applies the key function to the value or bounds it is given (searches only if the list, or for index the window, is not empty), to the values it adds, and to stored values only when it fills a list anew: copy, pickling, + and *, *=, _reset, update and += by at least a quarter of the length, deletion of at least an eighth by a slice of step 1 that is not the whole. What the key function answers for other values makes no difference; if it raises for one of these the operation raises that. So a list whose values' keys change later keeps the order of the keys they had when added as long as no operation asks for the changed ones.", "quantifier": "Every reachable state, operation, pair of key functions; every history with a key function per operation", "why_tests_cant": "Tests use key functions that answer always and always the same.", "anchors": ["src/sortedcontainers/sortedlist.py:SortedKeyList.add", "src/sortedcontainers/sortedlist.py:SortedKeyList.update", "src/sortedcontainers/sortedlist.py:SortedKeyList.discard", "src/sortedcontainers/sortedlist.py:SortedKeyList.remove", "src/sortedcontainers/sortedlist.py:SortedKeyList.__contains__", "src/sortedcontainers/sortedlist.py:SortedKeyList.bisect_left", "src/sortedcontainers/sortedlist.py:SortedKeyList.bisect_right", "src/sortedcontainers/sortedlist.py:SortedKeyList.count", "src/sortedcontainers/sortedlist.py:SortedKeyList.index", "src/sortedcontainers/sortedlist.py:SortedKeyList.irange", "src/sortedcontainers/sortedlist.py:SortedKeyList.copy", "src/sortedcontainers/sortedlist.py:SortedKeyList.__add__", "src/sortedcontainers/sortedlist.py:SortedKeyList.__mul__", "src/sortedcontainers/sortedlist.py:SortedKeyList.__reduce__", "src/sortedcontainers/sortedlist.py:SortedList.__delitem__", "src/sortedcontainers/sortedlist.py:SortedList._reset", "src/sortedcontainers/sortedlist.py:SortedList.__imul__"]}
{"id": "C101", "title": "| and |= between a SortedDict and other mappings", "statement": "If x or y is a SortedDict, x | y has the items of x overwritten by those of y and is: a SortedDict with x's key function if x is one and y is a mapping; a SortedDict with y's key function if x is a dict, a proxy of one, or a mapping without operators; of x's class if x is an OrderedDict, defaultdict or UserDict; TypeError if the other operand is no mapping. x |= y leaves x naming an object with those items: of its own class if it is a SortedDict (y any mapping or iterable of pairs), dict, OrderedDict, defaultdict or UserDict, a SortedDict with y's key function for other mappings, TypeError for proxies and what is not iterable.", "quantifier": "Every SortedDict reached by any history, every pair of key functions, every content of the other operand", "why_tests_cant": "Tests use SortedDict and dict; which method answers depends on every pair of classes.", "anchors": ["src/sortedcontainers/sorteddict.py:SortedDict.__or__", "src/sortedcontainers/sorteddict.py:SortedDict.__ror__", "src/sortedcontainers/sorteddict.py:SortedDict.__ior__", "src/sortedcontainers/sorteddict.py:SortedDict.update"]}
{"id": "C102", "title": "| with a SortedDict gives a SortedDict, and |= agrees with it (false)", "statement": "x | y is a SortedDict whenever x or y is; x |= y can be written exactly where x | y can and names an object of the same class.", "quantifier": "Every pair of operands one of which is a SortedDict", "why_tests_cant": "Tests do not use other mapping classes on the left.", "anchors": ["src/sortedcontainers/sorteddict.py:SortedDict.__or__", "src/sortedcontainers/sorteddict.py:SortedDict.__ror__", "src/sortedcontainers/sorteddict.py:SortedDict.__ior__", "src/sortedcontainers/sorteddict.py:SortedDict.update"]}
{"id": "C103", "title": "SortedDict.iloc", "statement": "sd.iloc is one and the same keys view of sd whenever it is read, whatever happens to sd in between, and different SortedDicts (also copies) have different ones; using it is using sd as it is now. Reading it changes nothing. The DeprecationWarning comes with the first reading of each SortedDict and no other; if warnings raise, every reading raises until one has succeeded.", "quantifier": "Every program with any number of SortedDicts, views and dicts, every order of its steps, every < and ==", "why_tests_cant": "Tests read iloc of one SortedDict a few times.", "anchors": ["src/sortedcontainers/sorteddict.py:SortedDict.iloc", "src/sortedcontainers/sorteddict.py:SortedKeysView", "src/sortedcontainers/sorteddict.py:SortedDict.__init__", "src/sortedcontainers/sorteddict.py:SortedDict.copy"]}
{"id": "C104", "title": "Which of several equal objects a SortedSet or SortedDict holds", "statement": "Where equal values may be different objects (1, 1.0, True): every operation of a SortedSet but an intersection, and every operation of a SortedDict but other | sd, keeps the member and key objects that are there; a new one is the first listed among equal ones. An intersection with one argument consists of the argument's objects, unless the argument is a set with more members than the SortedSet. The hash set (the dict) and the sorted list always hold the same objects.", "quantifier": "Every SortedSet and SortedDict reached by any history, every operation, every equality and order", "why_tests_cant": "Tests use values for which equal means identical.", "anchors": ["src/sortedcontainers/sortedset.py:SortedSet.add", "src/sortedcontainers/sortedset.py:SortedSet.update", "src/sortedcontainers/sortedset.py:SortedSet.union", "src/sortedcontainers/sortedset.py:SortedSet.intersection", "src/sortedcontainers/sortedset.py:SortedSet.intersection_update", "src/sortedcontainers/sortedset.py:SortedSet.symmetric_difference", "src/sortedcontainers/sorteddict.py:SortedDict.__setitem__", "src/sortedcontainers/sorteddict.py:SortedDict.setdefault", "src/sortedcontainers/sorteddict.py:SortedDict.update", "src/sortedcontainers/sorteddict.py:SortedDict.__or__"]}
{"id": "C105", "title": "A SortedSet changed in place keeps its members (false)", "statement": "After an operation that changes a SortedSet in place, a member equal to one that was there before is that very object.", "quantifier": "Every SortedSet and every operation", "why_tests_cant": "Tests use values for which equal means identical.", "anchors": ["src/sortedcontainers/sortedset.py:SortedSet.intersection_update", "src/sortedcontainers/sortedset.py:SortedSet.__iand__"]}
{"id": "C106", "title": "Which operations compare values", "statement": "For each operation and contents it is known whether values (or keys) are compared. Where they are not, the operation does exactly the same whatever < and == answer or raise: indexing, popping, iterating, deleting by index, adding to an empty list, updating with nothing, adding a member to a SortedSet, storing under a key that is in a SortedDict. Where they are, and every comparison raises e, the operation raises e: no comparison's exception is swallowed. (The hash set and dict compare with == on their own; that is aside.)", "quantifier": "Every container reached by any history under a total order, every operation, every behaviour of < and == afterwards", "why_tests_cant": "Tests would have to count comparisons for each operation and each kind of contents.", "anchors": ["src/sortedcontainers/sortedlist.py:SortedList.add", "src/sortedcontainers/sortedlist.py:SortedList.update", "src/sortedcontainers/sortedlist.py:SortedList.__delitem__", "src/sortedcontainers/sortedlist.py:SortedList.index", "src/sortedcontainers/sortedlist.py:SortedList.irange", "src/sortedcontainers/sortedlist.py:SortedList.__make_cmp", "src/sortedcontainers/sortedlist.py:SortedKeyList.add", "src/sortedcontainers/sortedlist.py:SortedKeyList.update", "src/sortedcontainers/sortedset.py:SortedSet.add", "src/sortedcontainers/sortedset.py:SortedSet.update", "src/sortedcontainers/sortedset.py:SortedSet.difference_update", "src/sortedcontainers/sorteddict.py:SortedDict.__setitem__", "src/sortedcontainers/sorteddict.py:SortedDict.update", "src/sortedcontainers/sorteddict.py:SortedDict.pop"]}
{"id": "C107", "title": "Comparisons may read the list", "statement": "If a < b and a == b call the querying methods of the very SortedList that is comparing a and b, and answer as a total order, every operation does what it does with comparisons that read nothing: same outcome, same contents, and again a list that public operations make. update and += of a list at most four times as long as what is added are excepted (C108).", "quantifier": "Every reached SortedList, every operation (but the excepted update), every comparison that makes any queries in any state it meets and answers as a total order", "why_tests_cant": "Needs comparisons that call back into the container at every point where a method compares; tests use plain values.", "anchors": ["src/sortedcontainers/sortedlist.py:SortedList.add", "src/sortedcontainers/sortedlist.py:SortedList.update", "src/sortedcontainers/sortedlist.py:SortedList.discard", "src/sortedcontainers/sortedlist.py:SortedList.remove", "src/sortedcontainers/sortedlist.py:SortedList.__contains__", "src/sortedcontainers/sortedlist.py:SortedList.bisect_left", "src/sortedcontainers/sortedlist.py:SortedList.bisect_right", "src/sortedcontainers/sortedlist.py:SortedList.count", "src/sortedcontainers/sortedlist.py:SortedList.index", "src/sortedcontainers/sortedlist.py:SortedList.irange", "src/sortedcontainers/sortedlist.py:SortedList.__delitem__", "src/sortedcontainers/sortedlist.py:SortedList.__imul__", "src/sortedcontainers/sortedlist.py:SortedList._reset", "src/sortedcontainers/sortedlist.py:SortedList.__make_cmp"]}
{"id": "C108", "title": "update can be watched by comparisons", "statement": "C107 holds for every update: comparisons called by update see a list that public operations make.", "quantifier": "Every reached SortedList, every operation, every comparison that makes queries", "why_tests_cant": "Needs a comparison that inspects the list in the middle of update.", "anchors": ["src/sortedcontainers/sortedlist.py:SortedList.update"]}
{"id": "C109", "title": "Operations that make an object right again", "statement": "Whatever the attributes of a SortedList or SortedKeyList hold (_load being positive), after clear, _reset, *=, *, +, copy or a pickle round trip the object does, from then on, exactly what a sorted list of the values does that iteration showed before. The same holds for a SortedSet and its members after clear, copy, a pickle round trip, difference, intersection, symmetric_difference, intersection_update, symmetric_difference_update, and after update and difference_update with more than a quarter as many values as members; and for a SortedDict and its items after clear and after update and |= of a non-empty dict with more than a tenth as many items.", "quantifier": "Every content of the attributes, every such operation, every further history", "why_tests_cant": "Needs objects in states that no public operation makes with well-behaved values, such as those a failed comparison leaves behind.", "anchors": ["src/sortedcontainers/sortedlist.py:SortedList.clear", "src/sortedcontainers/sortedlist.py:SortedList._reset", "src/sortedcontainers/sortedlist.py:SortedList.__imul__", "src/sortedcontainers/sortedlist.py:SortedList.__mul__", "src/sortedcontainers/sortedlist.py:SortedList.__add__", "src/sortedcontainers/sortedlist.py:SortedList.copy", "src/sortedcontainers/sortedlist.py:SortedList.__reduce__", "src/sortedcontainers/sortedlist.py:SortedKeyList.clear", "src/sortedcontainers/sortedlist.py:SortedKeyList.copy", "src/sortedcontainers/sortedlist.py:SortedKeyList.__add__", "src/sortedcontainers/sortedlist.py:SortedKeyList.__mul__", "src/sortedcontainers/sortedlist.py:SortedKeyList.__reduce__", "src/sortedcontainers/sortedset.py:SortedSet.clear", "src/sortedcontainers/sortedset.py:SortedSet.copy", "src/sortedcontainers/sortedset.py:SortedSet.update", "src/sortedcontainers/sortedset.py:SortedSet.difference_update", "src/sortedcontainers/sortedset.py:SortedSet.intersection_update", "src/sortedcontainers/sortedset.py:SortedSet.symmetric_difference_update", "src/sortedcontainers/sortedset.py:SortedSet.difference", "src/sortedcontainers/sortedset.py:SortedSet.intersection", "src/sortedcontainers/sortedset.py:SortedSet.symmetric_difference", "src/sortedcontainers/sortedset.py:SortedSet.__reduce__", "src/sortedcontainers/sorteddict.py:SortedDict.clear", "src/sortedcontainers/sorteddict.py:SortedDict.update", "src/sortedcontainers/sorteddict.py:SortedDict.__ior__"]}
{"id": "C110", "title": "__init__ called again", "statement": "__init__ called on a SortedList or SortedKeyList again replaces its values, whatever its attributes hold, and the object is as a new one. Called on a SortedSet again it keeps the members, adds those of the iterable as update does, and uses the key function given now.", "quantifier": "Every content of the attributes, every iterable, every key function", "why_tests_cant": "__init__ is not called twice on one object in tests.", "anchors": ["src/sortedcontainers/sortedlist.py:SortedList.__init__", "src/sortedcontainers/sortedlist.py:SortedKeyList.__init__", "src/sortedcontainers/sortedset.py:SortedSet.__init__"]}
{"id": "C111", "title": "Few comparisons in SortedSet and SortedDict", "statement": "SortedSet.add, discard and remove and SortedDict.__setitem__, setdefault, __delitem__ and pop make at most log2(n) + 7 comparisons in the list for n members, and none at all if the hash table tells that there is nothing to do for the list. update and difference_update of a set with k values, where 4 k <= n, make at most k (log2(n + k) + 7), and update of a non-empty dict with k items, where 10 k <= n, makes at most k (log2(n + k) + 6). With a key function, where the comparisons are those of keys, the same holds for the operations that add.", "quantifier": "Every set and dict that public operations make, every argument", "why_tests_cant": "Tests do not count comparisons.", "anchors": ["src/sortedcontainers/sortedset.py:SortedSet.add", "src/sortedcontainers/sortedset.py:SortedSet.discard", "src/sortedcontainers/sortedset.py:SortedSet.remove", "src/sortedcontainers/sortedset.py:SortedSet.update", "src/sortedcontainers/sortedset.py:SortedSet.difference_update", "src/sortedcontainers/sorteddict.py:SortedDict.__setitem__", "src/sortedcontainers/sorteddict.py:SortedDict.setdefault", "src/sortedcontainers/sorteddict.py:SortedDict.__delitem__", "src/sortedcontainers/sorteddict.py:SortedDict.pop", "src/sortedcontainers/sorteddict.py:SortedDict.update"]}
{"id": "C112", "title": "A failing hash or == changes nothing", "statement": "If hash(v), or == of v and a member with the same hash, raises, then SortedSet.add, discard, remove, count and the membership test and SortedDict.__setitem__, __delitem__, pop, setdefault, __getitem__ and the membership test raise that exception and change nothing, whatever the object holds. Where they do not raise, these operations, and update, difference_update, symmetric_difference_update and intersection_update that succeed, do what they do for values whose hash and == never raise.", "quantifier": "Every object, every value, every layout of the hash table", "why_tests_cant": "Needs values that cannot be hashed or compared, in every position of a hash table.", "anchors": ["src/sortedcontainers/sortedset.py:SortedSet.add", "src/sortedcontainers/sortedset.py:SortedSet.discard", "src/sortedcontainers/sortedset.py:SortedSet.remove", "src/sortedcontainers/sortedset.py:SortedSet.count", "src/sortedcontainers/sortedset.py:SortedSet.__contains__", "src/sortedcontainers/sortedset.py:SortedSet.update", "src/sortedcontainers/sortedset.py:SortedSet.difference_update", "src/sortedcontainers/sortedset.py:SortedSet.intersection_update", "src/sortedcontainers/sortedset.py:SortedSet.symmetric_difference_update", "src/sortedcontainers/sorteddict.py:SortedDict.__setitem__", "src/sortedcontainers/sorteddict.py:SortedDict.__delitem__", "src/sortedcontainers/sorteddict.py:SortedDict.pop", "src/sortedcontainers/sorteddict.py:SortedDict.setdefault", "src/sortedcontainers/sorteddict.py:SortedDict.update"]}
{"id": "C113", "title": "Members are always found in the hash table", "statement": "Whatever exceptions hash, == and the list have raised before, looking up a member of a SortedSet or a key of a SortedDict in its own hash table does not raise (== being the same from both sides). So SortedSet.pop and del s[i] and SortedDict.popitem, which take a value from the list before they look it up, cannot be interrupted in between.", "quantifier": "Every history, every value of the list that is a member", "why_tests_cant": "Needs hash collisions between values that cannot be compared.", "anchors": ["src/sortedcontainers/sortedset.py:SortedSet.pop", "src/sortedcontainers/sortedset.py:SortedSet.__delitem__", "src/sortedcontainers/sorteddict.py:SortedDict.popitem", "src/sortedcontainers/sorteddict.py:SortedDict.peekitem"]}
{"id": "C114", "title": "A failing == during bulk operations keeps set and list in step", "statement": "If == raises in the hash table during SortedSet.update, difference_update or symmetric_difference_update or SortedDict.update, the list still holds exactly the members.", "quantifier": "Every argument", "why_tests_cant": "Needs hash collisions between values that cannot be compared.", "anchors": ["src/sortedcontainers/sortedset.py:SortedSet.update", "src/sortedcontainers/sortedset.py:SortedSet.difference_update", "src/sortedcontainers/sortedset.py:SortedSet.symmetric_difference_update", "src/sortedcontainers/sorteddict.py:SortedDict.update"]}
{"id": "C115", "title": "Comparisons and key functions with effects", "statement": "Let <, == and the key function be any code that leaves the list alone: they may answer differently each time they are called, raise at any call, and depend on or change anything else. Then after any history in which no bulk fill (update, +=; for SortedKeyList also *=, _reset, slice deletion) raised, the length, the number of maxes and the sizes of the sublists of a SortedList or SortedKeyList agree with its values, and every further operation behaves up to order: add adds exactly its value or raises and changes nothing; remove and discard remove one value that == may have answered True for or change nothing; pop and deletion by index take exactly that position; queries change nothing and answer within bounds; an exception that escapes comes from the user's code or is IndexError or ValueError where stated. For code without effects the model is that of all other properties.", "quantifier": "Every world of effects, every sorting algorithm that permutes its input, every history, every operation", "why_tests_cant": "Needs every interleaving of answers of comparisons.", "anchors": ["src/sortedcontainers/sortedlist.py:SortedList.add", "src/sortedcontainers/sortedlist.py:SortedList.update", "src/sortedcontainers/sortedlist.py:SortedList.__contains__", "src/sortedcontainers/sortedlist.py:SortedList.discard", "src/sortedcontainers/sortedlist.py:SortedList.remove", "src/sortedcontainers/sortedlist.py:SortedList.__delitem__", "src/sortedcontainers/sortedlist.py:SortedList.bisect_left", "src/sortedcontainers/sortedlist.py:SortedList.bisect_right", "src/sortedcontainers/sortedlist.py:SortedList.count", "src/sortedcontainers/sortedlist.py:SortedList.index", "src/sortedcontainers/sortedlist.py:SortedList.irange", "src/sortedcontainers/sortedlist.py:SortedList.pop", "src/sortedcontainers/sortedlist.py:SortedList._reset", "src/sortedcontainers/sortedlist.py:SortedList.__iadd__", "src/sortedcontainers/sortedlist.py:SortedList.__imul__", "src/sortedcontainers/sortedlist.py:SortedKeyList.add", "src/sortedcontainers/sortedlist.py:SortedKeyList.update", "src/sortedcontainers/sortedlist.py:SortedKeyList.__contains__", "src/sortedcontainers/sortedlist.py:SortedKeyList.discard", "src/sortedcontainers/sortedlist.py:SortedKeyList.remove", "src/sortedcontainers/sortedlist.py:SortedKeyList.__delitem__", "src/sortedcontainers/sortedlist.py:SortedKeyList.bisect_left", "src/sortedcontainers/sortedlist.py:SortedKeyList.bisect_right", "src/sortedcontainers/sortedlist.py:SortedKeyList.count", "src/sortedcontainers/sortedlist.py:SortedKeyList.index", "src/sortedcontainers/sortedlist.py:SortedKeyList.irange", "src/sortedcontainers/sortedlist.py:SortedKeyList.pop", "src/sortedcontainers/sortedlist.py:SortedKeyList._reset", "src/sortedcontainers/sortedlist.py:SortedKeyList.__iadd__", "src/sortedcontainers/sortedlist.py:SortedKeyList.__imul__"]}
{"id": "C116", "title": "A key function that raises while a SortedKeyList is filled", "statement": "If the key function raises while update fills an empty SortedKeyList, the length still is the number of values.", "quantifier": "Every key function, every argument", "why_tests_cant": "Needs a key function that answers the first time it is called with a value and raises the second time.", "anchors": ["src/sortedcontainers/sortedlist.py:SortedKeyList.update"]}
{"id": "C117", "title": "Queries under comparisons that change their answers", "statement": "Whatever < answers from call to call, the membership test of a SortedList does not raise IndexError and count is not negative.", "quantifier": "Every comparison, every list", "why_tests_cant": "Needs comparisons that answer differently during one operation.", "anchors": ["src/sortedcontainers/sortedlist.py:SortedList.__contains__", "src/sortedcontainers/sortedlist.py:SortedList.count"]}
{"id": "C118", "title": "SortedSet and SortedDict over comparisons with effects", "statement": "Let < of the values (or < and == of the keys made by a key function) answer differently each time, raise at any call, and change anything but the container. A SortedSet or SortedDict none of whose operations was cut short while changing it holds each member once: iteration, reversed, len and the membership test agree. Every further operation that is not cut short while changing the container has its usual effect on the members (and values of a dict), only the order is free; or it raises what a comparison raised or the IndexError of a search led astray, and changes nothing.", "quantifier": "Every world of effects, every such comparison and way of sorting at each operation, every history, every operation", "why_tests_cant": "Needs every interleaving of answers of comparisons along every history.", "anchors": ["src/sortedcontainers/sortedset.py:SortedSet.add", "src/sortedcontainers/sortedset.py:SortedSet.discard", "src/sortedcontainers/sortedset.py:SortedSet.remove", "src/sortedcontainers/sortedset.py:SortedSet.pop", "src/sortedcontainers/sortedset.py:SortedSet.update", "src/sortedcontainers/sortedset.py:SortedSet.difference_update", "src/sortedcontainers/sortedset.py:SortedSet.__init__", "src/sortedcontainers/sortedset.py:SortedSet.__contains__", "src/sortedcontainers/sortedset.py:SortedSet.__len__", "src/sortedcontainers/sortedset.py:SortedSet.__iter__", "src/sortedcontainers/sorteddict.py:SortedDict.__setitem__", "src/sortedcontainers/sorteddict.py:SortedDict.__delitem__", "src/sortedcontainers/sorteddict.py:SortedDict.pop", "src/sortedcontainers/sorteddict.py:SortedDict.popitem", "src/sortedcontainers/sorteddict.py:SortedDict.setdefault", "src/sortedcontainers/sorteddict.py:SortedDict.update", "src/sortedcontainers/sorteddict.py:SortedDict.__init__", "src/sortedcontainers/sorteddict.py:SortedDict.__iter__"]}
{"id": "C119", "title": "What a SortedSet or SortedDict holds after a comparison with effects cut an operation short", "statement": "With such comparisons, when an operation raises after it has begun to change the container, the exception came from a comparison or key call, or is the IndexError or ValueError of a search led astray, and the contents afterwards are characterised per operation as in C59 and C62: one value is in the hash table only (add, setdefault) or in the list only (discard, remove, del), the bulk paths leave an empty list beside the finished hash table, and value-by-value updates stop with a consistent prefix done", "quantifier": "Every world of effects, every comparison, every history, every operation that raises", "why_tests_cant": "Needs a comparison that fails at each point of each operation.", "anchors": ["src/sortedcontainers/sortedset.py:SortedSet.add", "src/sortedcontainers/sortedset.py:SortedSet.discard", "src/sortedcontainers/sortedset.py:SortedSet.remove", "src/sortedcontainers/sortedset.py:SortedSet.update", "src/sortedcontainers/sorteddict.py:SortedDict.__delitem__", "src/sortedcontainers/sorteddict.py:SortedDict.pop", "src/sortedcontainers/sorteddict.py:SortedDict.setdefault", "src/sortedcontainers/sorteddict.py:SortedDict.update"]}
{"id": "C120", "title": "Comparisons may add to the list they compare for", "statement": "While a SortedList compares for add, let < itself call add of the same list, to any depth of nesting, read values by index, and read len and the values. Whatever order that leaves, the list holds exactly the values whose add returned, len counts them, there are as many maxima as sublists and no sublist is empty. Each add puts in its value once, or raises and leaves in only what the nested calls added; the exception comes from the code of <, is the recursion limit, or is the IndexError of a bisect whose sublist was split meanwhile.", "quantifier": "Every program of calls of add, indexing, len and iteration inside <, every nesting depth, every history of such adds", "why_tests_cant": "Needs every interleaving of nested adds with splits of sublists.", "anchors": ["src/sortedcontainers/sortedlist.py:SortedList.add", "src/sortedcontainers/sortedlist.py:SortedList._expand"]}
{"id": "C121", "title": "The list stays intact when comparisons change it", "statement": "If < answers true to the order but changes the list while it is asked by add, then (a) when it only adds values the list stays sorted, (b) then every index below len can still be read, (c) when it deletes values, the value of an add that returned is in the list or is not counted by len.", "quantifier": "Every such comparison, every list", "why_tests_cant": "Needs a comparison that changes the list at a certain moment of add.", "anchors": ["src/sortedcontainers/sortedlist.py:SortedList.add", "src/sortedcontainers/sortedlist.py:SortedList._expand", "src/sortedcontainers/sortedlist.py:SortedList._delete"]}
{"id": "C122", "title": "The key function may read the SortedKeyList", "statement": "If the key function, and the comparisons of keys and of values, call the querying methods of the very SortedKeyList they are called for, and the keys are totally ordered, every operation does what it does with functions that answer the same and read nothing: same outcome, same contents, and again a list that public operations make. Excepted are the operations that fill the list itself anew with at least one value: update and += by a quarter of the length or more, _reset, *=, and the deletion of a slice of step 1 that is an eighth or more but not all (C123).", "quantifier": "Every reached SortedKeyList, every operation but the excepted ones, every key function and comparison that makes any queries whenever it is called", "why_tests_cant": "Needs key functions that call back into the container at every point where a method asks for a key.", "anchors": ["src/sortedcontainers/sortedlist.py:SortedKeyList.add", "src/sortedcontainers/sortedlist.py:SortedKeyList.update", "src/sortedcontainers/sortedlist.py:SortedKeyList.discard", "src/sortedcontainers/sortedlist.py:SortedKeyList.remove", "src/sortedcontainers/sortedlist.py:SortedKeyList.__contains__", "src/sortedcontainers/sortedlist.py:SortedKeyList.bisect_key_left", "src/sortedcontainers/sortedlist.py:SortedKeyList.bisect_key_right", "src/sortedcontainers/sortedlist.py:SortedKeyList.count", "src/sortedcontainers/sortedlist.py:SortedKeyList.index", "src/sortedcontainers/sortedlist.py:SortedKeyList.irange_key", "src/sortedcontainers/sortedlist.py:SortedKeyList.irange", "src/sortedcontainers/sortedlist.py:SortedKeyList.copy", "src/sortedcontainers/sortedlist.py:SortedKeyList.__add__", "src/sortedcontainers/sortedlist.py:SortedKeyList.__mul__", "src/sortedcontainers/sortedlist.py:SortedList.__delitem__", "src/sortedcontainers/sortedlist.py:SortedList._reset"]}
{"id": "C123", "title": "Filling can be watched by the key function", "statement": "C122 holds for every operation: the key function always sees a list that public operations make.", "quantifier": "Every reached SortedKeyList, every operation, every key function that makes queries", "why_tests_cant": "Needs a key function that inspects the list in the middle of update.", "anchors": ["src/sortedcontainers/sortedlist.py:SortedKeyList.update"]}
{"id": "C124", "title": "The operations of a list agree with one another", "statement": "irange is the slice between the places bisect gives for its bounds, islice is the slice, the reversed forms are the others backwards; in, count, index and remove agree on whether a value is there; what index finds is equal and lies between bisect_left and bisect_right; add puts the value where bisect_right says, moves bisect_right by one and bisect_left not at all, and deleting at that place undoes it; pop reads and deletes; remove followed by add leaves tied values at every place; update by a concatenation is two updates, update by one value is add, += and + are update; slices that meet make up the list and deleting one leaves the others; * (n+1) is * n and update; for SortedList count is bisect_right minus bisect_left. For SortedKeyList the methods for values are those for their keys and irange_key is the slice between the places of its bounds.", "quantifier": "Every reached SortedList and SortedKeyList, all arguments", "why_tests_cant": "Each law relates two or more methods on every list, argument and load; a table of expected results cannot show that two methods agree everywhere.", "anchors": ["src/sortedcontainers/sortedlist.py:SortedList.add", "src/sortedcontainers/sortedlist.py:SortedList.update", "src/sortedcontainers/sortedlist.py:SortedList.__contains__", "src/sortedcontainers/sortedlist.py:SortedList.count", "src/sortedcontainers/sortedlist.py:SortedList.index", "src/sortedcontainers/sortedlist.py:SortedList.remove", "src/sortedcontainers/sortedlist.py:SortedList.__getitem__", "src/sortedcontainers/sortedlist.py:SortedList.__delitem__", "src/sortedcontainers/sortedlist.py:SortedList.pop", "src/sortedcontainers/sortedlist.py:SortedList.irange", "src/sortedcontainers/sortedlist.py:SortedList.islice", "src/sortedcontainers/sortedlist.py:SortedList.bisect_left", "src/sortedcontainers/sortedlist.py:SortedList.bisect_right", "src/sortedcontainers/sortedlist.py:SortedList.__add__", "src/sortedcontainers/sortedlist.py:SortedList.__mul__", "src/sortedcontainers/sortedlist.py:SortedList.__reversed__", "src/sortedcontainers/sortedlist.py:SortedKeyList.irange_key", "src/sortedcontainers/sortedlist.py:SortedKeyList.bisect_key_left", "src/sortedcontainers/sortedlist.py:SortedKeyList.bisect_key_right", "src/sortedcontainers/sortedlist.py:SortedKeyList.irange", "src/sortedcontainers/sortedlist.py:SortedKeyList.index", "src/sortedcontainers/sortedlist.py:SortedKeyList.count"]}
{"id": "C125", "title": "Boolean algebra of SortedSets", "statement": "In any expression of |, &, -, ^ and |=, &=, -=, ^= over SortedSets, `in` answers for the result the Boolean combination of its answers for the operands. Expressions that are equivalent as formulas give sets that compare ==, if one formula implies the other the sets are <=, and if they exclude one another isdisjoint is true. == holds exactly if `in` answers the same for all values, <= and >= likewise, and !=, <, > follow from these. len satisfies inclusion and exclusion.", "quantifier": "All expressions of any depth, in place or not, operands handed over as sets or as iterables, all reached SortedSets with or without key function, any hash order", "why_tests_cant": "There are infinitely many laws; each relates several operations on all sets.", "anchors": ["src/sortedcontainers/sortedset.py:SortedSet.union", "src/sortedcontainers/sortedset.py:SortedSet.intersection", "src/sortedcontainers/sortedset.py:SortedSet.difference", "src/sortedcontainers/sortedset.py:SortedSet.symmetric_difference", "src/sortedcontainers/sortedset.py:SortedSet.update", "src/sortedcontainers/sortedset.py:SortedSet.intersection_update", "src/sortedcontainers/sortedset.py:SortedSet.difference_update", "src/sortedcontainers/sortedset.py:SortedSet.symmetric_difference_update", "src/sortedcontainers/sortedset.py:SortedSet.__contains__", "src/sortedcontainers/sortedset.py:SortedSet.__len__", "src/sortedcontainers/sortedset.py:SortedSet.copy", "src/sortedcontainers/sortedset.py:SortedSet.__make_cmp"]}
{"id": "C126", "title": "The operations of a SortedDict agree with one another", "statement": "Iteration gives the keys, values() the values and items() the pairs in one order, len their number, the reversed forms the same backwards; peekitem and the items, keys and values views agree at every index and slice, and what is there is stored under its key; [], in, get, pop, setdefault and del agree on whether a key is there and what it holds; after an assignment exactly the assigned key reads differently, assigning twice is assigning once, del undoes the assignment of a new key, assigning what is there changes nothing; pop, popitem, deletion by index and setdefault leave what reading, deleting and assigning leave; update assigns one item after the other, |= is update, | updates a copy; copy changes nothing.", "quantifier": "Every reached SortedDict with or without key function, all arguments", "why_tests_cant": "Each law relates two or more methods on all dicts.", "anchors": ["src/sortedcontainers/sorteddict.py:SortedDict.__setitem__", "src/sortedcontainers/sorteddict.py:SortedDict.__delitem__", "src/sortedcontainers/sorteddict.py:SortedDict.__iter__", "src/sortedcontainers/sorteddict.py:SortedDict.__reversed__", "src/sortedcontainers/sorteddict.py:SortedDict.pop", "src/sortedcontainers/sorteddict.py:SortedDict.popitem", "src/sortedcontainers/sorteddict.py:SortedDict.peekitem", "src/sortedcontainers/sorteddict.py:SortedDict.setdefault", "src/sortedcontainers/sorteddict.py:SortedDict.update", "src/sortedcontainers/sorteddict.py:SortedDict.__or__", "src/sortedcontainers/sorteddict.py:SortedDict.__ior__", "src/sortedcontainers/sorteddict.py:SortedDict.copy", "src/sortedcontainers/sorteddict.py:SortedDict.clear", "src/sortedcontainers/sorteddict.py:SortedDict.items", "src/sortedcontainers/sorteddict.py:SortedDict.keys", "src/sortedcontainers/sorteddict.py:SortedDict.values", "src/sortedcontainers/sorteddict.py:SortedKeysView.__getitem__", "src/sortedcontainers/sorteddict.py:SortedItemsView.__getitem__", "src/sortedcontainers/sorteddict.py:SortedValuesView.__getitem__"]}
{"id": "C127", "title": "Comparisons and key functions that keep records", "statement": "If <, == and the key function always answer (or raise) as certain functions do, whatever else they do (count, print, cache), a SortedList or SortedKeyList answers every history, and ends in the same state, as with these functions themselves. Everything proved about pure comparisons therefore holds for them.", "quantifier": "All histories of operations in which update does not raise, all worlds in which the effects happen, all sorting algorithms that sort stably", "why_tests_cant": "It is about what user code may do beside answering.", "anchors": ["src/sortedcontainers/sortedlist.py:SortedList.add", "src/sortedcontainers/sortedlist.py:SortedList.update", "src/sortedcontainers/sortedlist.py:SortedList.__contains__", "src/sortedcontainers/sortedlist.py:SortedList.discard", "src/sortedcontainers/sortedlist.py:SortedList.remove", "src/sortedcontainers/sortedlist.py:SortedList.bisect_left", "src/sortedcontainers/sortedlist.py:SortedList.bisect_right", "src/sortedcontainers/sortedlist.py:SortedList.count", "src/sortedcontainers/sortedlist.py:SortedList.index", "src/sortedcontainers/sortedlist.py:SortedList.irange", "src/sortedcontainers/sortedlist.py:SortedKeyList.add", "src/sortedcontainers/sortedlist.py:SortedKeyList.update", "src/sortedcontainers/sortedlist.py:SortedKeyList.__contains__", "src/sortedcontainers/sortedlist.py:SortedKeyList.discard", "src/sortedcontainers/sortedlist.py:SortedKeyList.remove", "src/sortedcontainers/sortedlist.py:SortedKeyList.bisect_key_left", "src/sortedcontainers/sortedlist.py:SortedKeyList.bisect_key_right", "src/sortedcontainers/sortedlist.py:SortedKeyList.count", "src/sortedcontainers/sortedlist.py:SortedKeyList.index", "src/sortedcontainers/sortedlist.py:SortedKeyList.irange", "src/sortedcontainers/sortedlist.py:SortedKeyList.irange_key"]}
{"id": "C128", "title": "What a SortedKeyList asks of user code", "statement": "in, discard, remove, count and index of v call the key function at most once, on v, compare keys with < at most log2(len)+6 times, and, if t stored values have the key of v, compare keys with == at most t+1 times and values with == at most t times, only v with stored values of the same key. add, bisect and irange call the key function once for each value given, compare keys with < at most log2(len)+6 times for each place, and never use ==. Reading by index or slice, len, iteration, islice, pop, deletion by index and clear call no user code.", "quantifier": "Every reached SortedKeyList of any size and load factor, all arguments", "why_tests_cant": "Tests see answers, not the calls that led to them; the bounds are over all sizes and shapes.", "anchors": ["src/sortedcontainers/sortedlist.py:SortedKeyList.add", "src/sortedcontainers/sortedlist.py:SortedKeyList.__contains__", "src/sortedcontainers/sortedlist.py:SortedKeyList.discard", "src/sortedcontainers/sortedlist.py:SortedKeyList.remove", "src/sortedcontainers/sortedlist.py:SortedKeyList.bisect_key_left", "src/sortedcontainers/sortedlist.py:SortedKeyList.bisect_key_right", "src/sortedcontainers/sortedlist.py:SortedKeyList.count", "src/sortedcontainers/sortedlist.py:SortedKeyList.index", "src/sortedcontainers/sortedlist.py:SortedKeyList.irange", "src/sortedcontainers/sortedlist.py:SortedKeyList.irange_key", "src/sortedcontainers/sortedlist.py:SortedList.__getitem__", "src/sortedcontainers/sortedlist.py:SortedList.pop", "src/sortedcontainers/sortedlist.py:SortedList.islice", "src/sortedcontainers/sortedlist.py:SortedList.__delitem__"]}
{"id": "C129", "title": "The text of the methods answers like a sorted list", "statement": "The text of the methods of SortedList, parsed and run by an interpreter that knows nothing about sorted lists, answers every history of add, update, clear, discard, remove, in, item access and deletion by index or slice, len, pop, iteration in both directions, bisect_left, bisect_right, count, index, irange, islice, _reset, += and *= on a new SortedList as a sorted Python list does, and self._lists holds the values of that list in order.", "quantifier": "All histories of these calls, all values with a total order, all load factors, all large enough limits on loops", "why_tests_cant": "It is about the program text itself and all histories.", "anchors": ["src/sortedcontainers/sortedlist.py:SortedList._reset", "src/sortedcontainers/sortedlist.py:SortedList.clear", "src/sortedcontainers/sortedlist.py:SortedList.add", "src/sortedcontainers/sortedlist.py:SortedList._expand", "src/sortedcontainers/sortedlist.py:SortedList.update", "src/sortedcontainers/sortedlist.py:SortedList.__contains__", "src/sortedcontainers/sortedlist.py:SortedList.discard", "src/sortedcontainers/sortedlist.py:SortedList.remove", "src/sortedcontainers/sortedlist.py:SortedList._delete", "src/sortedcontainers/sortedlist.py:SortedList._loc", "src/sortedcontainers/sortedlist.py:SortedList._pos", "src/sortedcontainers/sortedlist.py:SortedList._build_index", "src/sortedcontainers/sortedlist.py:SortedList.__len__", "src/sortedcontainers/sortedlist.py:SortedList.bisect_left", "src/sortedcontainers/sortedlist.py:SortedList.bisect_right", "src/sortedcontainers/sortedlist.py:SortedList.count", "src/sortedcontainers/sortedlist.py:SortedList.pop", "src/sortedcontainers/sortedlist.py:SortedList.index", "src/sortedcontainers/sortedlist.py:SortedList.__iadd__", "src/sortedcontainers/sortedlist.py:SortedList.__imul__", "src/sortedcontainers/sortedlist.py:SortedList.__delitem__", "src/sortedcontainers/sortedlist.py:SortedList.__getitem__", "src/sortedcontainers/sortedlist.py:SortedList.__iter__", "src/sortedcontainers/sortedlist.py:SortedList.__reversed__", "src/sortedcontainers/sortedlist.py:SortedList.islice", "src/sortedcontainers/sortedlist.py:SortedList._islice", "src/sortedcontainers/sortedlist.py:SortedList.irange"]}
