{
 "claims": [
  {
   "property": "C01",
   "status": "proved",
   "theorems": [
    "C01_sorted"
   ],
   "note": ""
  },
  {
   "property": "C02",
   "status": "proved",
   "theorems": [
    "C02_refines_reference"
   ],
   "note": ""
  },
  {
   "property": "C03",
   "status": "proved",
   "theorems": [
    "C03_add"
   ],
   "note": ""
  },
  {
   "property": "C04",
   "status": "proved",
   "theorems": [
    "C04_update"
   ],
   "note": ""
  },
  {
   "property": "C05",
   "status": "proved",
   "theorems": [
    "C05_contains"
   ],
   "note": ""
  },
  {
   "property": "C06",
   "status": "proved",
   "theorems": [
    "C06_discard_remove"
   ],
   "note": ""
  },
  {
   "property": "C07",
   "status": "proved",
   "theorems": [
    "C07_getitem"
   ],
   "note": ""
  },
  {
   "property": "C08",
   "status": "proved",
   "theorems": [
    "C08_slice"
   ],
   "note": ""
  },
  {
   "property": "C09",
   "status": "proved",
   "theorems": [
    "C09_delete",
    "C09_delete_slice"
   ],
   "note": ""
  },
  {
   "property": "C10",
   "status": "proved",
   "theorems": [
    "C10_pop"
   ],
   "note": ""
  },
  {
   "property": "C11",
   "status": "proved",
   "theorems": [
    "C11_bisect"
   ],
   "note": ""
  },
  {
   "property": "C12",
   "status": "proved",
   "theorems": [
    "C12_count"
   ],
   "note": ""
  },
  {
   "property": "C13",
   "status": "proved",
   "theorems": [
    "C13_index"
   ],
   "note": ""
  },
  {
   "property": "C14",
   "status": "proved",
   "theorems": [
    "C14_irange"
   ],
   "note": ""
  },
  {
   "property": "C15",
   "status": "proved",
   "theorems": [
    "C15_islice"
   ],
   "note": ""
  },
  {
   "property": "C16",
   "status": "proved",
   "theorems": [
    "C16_len_iter_reversed"
   ],
   "note": ""
  },
  {
   "property": "C17",
   "status": "proved",
   "theorems": [
    "C17_check"
   ],
   "note": ""
  },
  {
   "property": "C18",
   "status": "proved",
   "theorems": [
    "C18_load_unobservable"
   ],
   "note": ""
  },
  {
   "property": "C19",
   "status": "proved",
   "theorems": [
    "C19_queries"
   ],
   "note": ""
  },
  {
   "property": "C20",
   "status": "proved",
   "theorems": [
    "C20_construct",
    "C20_copy_plus_mul"
   ],
   "note": ""
  },
  {
   "property": "C21",
   "status": "proved",
   "theorems": [
    "C21_compare"
   ],
   "note": ""
  },
  {
   "property": "C22",
   "status": "proved",
   "theorems": [
    "C22_unsupported"
   ],
   "note": ""
  },
  {
   "property": "C23",
   "status": "proved",
   "theorems": [
    "C23_failed_operation_no_effect",
    "C23_failed_rebuild"
   ],
   "note": ""
  },
  {
   "property": "C24",
   "status": "partial",
   "theorems": [
    "C24_update_failure_refuted",
    "C24_update_failure_partial",
    "C24_keylist_update_failure_refuted"
   ],
   "note": "The property is false of the code: the bulk path of update appends the new values to the sublists before the sort that may raise. Proved: a witness, and what an interrupted update does guarantee."
  },
  {
   "property": "C25",
   "status": "partial",
   "theorems": [
    "C25_reduce",
    "C25_key_reduce",
    "C25_set_reduce_partial",
    "C25_set_reduce_refuted",
    "C25_dict_reduce"
   ],
   "note": "Proved for SortedList, SortedKeyList, SortedDict and for SortedSet when values that tie are equal. False of a SortedSet whose key function lets different values tie (refuted): the order of ties changes."
  },
  {
   "property": "C26",
   "status": "proved",
   "theorems": [
    "C26_sorted_by_key",
    "C26_ties_in_insertion_order"
   ],
   "note": ""
  },
  {
   "property": "C27",
   "status": "proved",
   "theorems": [
    "C27_refines_reference",
    "C27_getitem",
    "C27_slice",
    "C27_delete",
    "C27_delete_slice",
    "C27_pop",
    "C27_islice",
    "C27_bisect",
    "C27_irange",
    "C27_compare",
    "C27_queries",
    "C27_len_iter_reversed"
   ],
   "note": ""
  },
  {
   "property": "C28",
   "status": "proved",
   "theorems": [
    "C28_contains",
    "C28_count",
    "C28_index",
    "C28_discard_remove"
   ],
   "note": ""
  },
  {
   "property": "C29",
   "status": "proved",
   "theorems": [
    "C29_bisect_key",
    "C29_irange_key"
   ],
   "note": ""
  },
  {
   "property": "C30",
   "status": "partial",
   "theorems": [
    "C30_copy_plus_mul_partial",
    "C30_rmul_refuted",
    "C30_rmul_ignores_key"
   ],
   "note": "False of the code for n * skl (refuted); proved for copy, +, +=, skl * n and *=."
  },
  {
   "property": "C31",
   "status": "proved",
   "theorems": [
    "C31_check"
   ],
   "note": ""
  },
  {
   "property": "C32",
   "status": "proved",
   "theorems": [
    "C32_failed_operation_no_effect"
   ],
   "note": ""
  },
  {
   "property": "C33",
   "status": "proved",
   "theorems": [
    "C33_set_and_list_in_step"
   ],
   "note": ""
  },
  {
   "property": "C34",
   "status": "proved",
   "theorems": [
    "C34_set_history"
   ],
   "note": ""
  },
  {
   "property": "C35",
   "status": "proved",
   "theorems": [
    "C35_add",
    "C35_discard_remove",
    "C35_pop",
    "C35_clear"
   ],
   "note": ""
  },
  {
   "property": "C36",
   "status": "proved",
   "theorems": [
    "C36_operators"
   ],
   "note": ""
  },
  {
   "property": "C37",
   "status": "proved",
   "theorems": [
    "C37_in_place",
    "C37_paths"
   ],
   "note": ""
  },
  {
   "property": "C38",
   "status": "proved",
   "theorems": [
    "C38_compare",
    "C38_compare_set",
    "C38_relations"
   ],
   "note": ""
  },
  {
   "property": "C39",
   "status": "proved",
   "theorems": [
    "C39_indexing",
    "C39_deletion"
   ],
   "note": ""
  },
  {
   "property": "C40",
   "status": "proved",
   "theorems": [
    "C40_hash_order_irrelevant",
    "C40_hash_order_irrelevant_key"
   ],
   "note": ""
  },
  {
   "property": "C41",
   "status": "proved",
   "theorems": [
    "C41_copy",
    "C41_reduce"
   ],
   "note": ""
  },
  {
   "property": "C42",
   "status": "partial",
   "theorems": [
    "C42_add_failure_refuted",
    "C42_add_failure_partial",
    "C42_keyed_add_failure_partial"
   ],
   "note": "The property is false of the code: add changes the hash set before the list. Proved: a witness, and that the list part is unchanged."
  },
  {
   "property": "C43",
   "status": "proved",
   "theorems": [
    "C43_mapping_and_order_in_step"
   ],
   "note": ""
  },
  {
   "property": "C44",
   "status": "proved",
   "theorems": [
    "C44_dict_history"
   ],
   "note": ""
  },
  {
   "property": "C45",
   "status": "proved",
   "theorems": [
    "C45_setitem",
    "C45_delitem",
    "C45_pop",
    "C45_setdefault",
    "C45_lookup"
   ],
   "note": ""
  },
  {
   "property": "C46",
   "status": "proved",
   "theorems": [
    "C46_peekitem_popitem"
   ],
   "note": ""
  },
  {
   "property": "C47",
   "status": "proved",
   "theorems": [
    "C47_update",
    "C47_paths"
   ],
   "note": ""
  },
  {
   "property": "C48",
   "status": "proved",
   "theorems": [
    "C48_index",
    "C48_slice",
    "C48_deletion"
   ],
   "note": ""
  },
  {
   "property": "C49",
   "status": "proved",
   "theorems": [
    "C49_merge_operators",
    "C49_copy",
    "C49_fromkeys"
   ],
   "note": ""
  },
  {
   "property": "C50",
   "status": "proved",
   "theorems": [
    "C50_ties",
    "C50_pickle"
   ],
   "note": ""
  },
  {
   "property": "C51",
   "status": "proved",
   "theorems": [
    "C51_setitem_failure",
    "C51_keyed_setitem_failure"
   ],
   "note": ""
  },
  {
   "property": "C52",
   "status": "partial",
   "theorems": [
    "C52_setdefault_failure_refuted",
    "C52_update_failure_refuted",
    "C52_setdefault_failure_partial",
    "C52_itemwise_update_failure_partial"
   ],
   "note": "The property is false of the code: setdefault stores in the dict before the list, and update stores all pairs and clears the list before it sorts. Proved: witnesses, and what remains true of setdefault and of the item-wise path of update."
  },
  {
   "property": "C53",
   "status": "proved",
   "theorems": [
    "C53_contains",
    "C53_discard_remove",
    "C53_add",
    "C53_bisect",
    "C53_count_index",
    "C53_keylist"
   ],
   "note": "Calls are listed by a copy of the lookups in a logging monad (Calls.v); the theorems also state that without the list it equals the model, and that the model's result depends on the comparison through the listed calls only."
  },
  {
   "property": "C54",
   "status": "proved",
   "theorems": [
    "C54_list_documented_exceptions",
    "C54_keylist_documented_exceptions",
    "C54_set_documented_exceptions",
    "C54_keyed_set_documented_exceptions",
    "C54_dict_documented_exceptions",
    "C54_keyed_dict_documented_exceptions"
   ],
   "note": "bisect_key_left, bisect_key_right and irange_key do not exist on a SortedDict or SortedSet without a key function; the model lets them raise AttributeError."
  },
  {
   "property": "C55",
   "status": "proved",
   "theorems": [
    "C55_structure_needs_no_order",
    "C55_keylist_structure_needs_no_order"
   ],
   "note": ""
  },
  {
   "property": "C56",
   "status": "proved",
   "theorems": [
    "C56_set_check"
   ],
   "note": ""
  },
  {
   "property": "C57",
   "status": "proved",
   "theorems": [
    "C57_dict_check"
   ],
   "note": ""
  },
  {
   "property": "C58",
   "status": "proved",
   "theorems": [
    "C58_plain",
    "C58_keyed"
   ],
   "note": "hash and == are assumed coherent and total; the key function is fixed per object, comparisons may differ per operation."
  },
  {
   "property": "C59",
   "status": "proved",
   "theorems": [
    "C59_plain",
    "C59_keyed"
   ],
   "note": ""
  },
  {
   "property": "C60",
   "status": "partial",
   "theorems": [
    "C60_discard_consistent_refuted",
    "C60_discard_partial"
   ],
   "note": "False of the code: discard removes from the hash set before the list. The partial theorem says what is left behind."
  },
  {
   "property": "C61",
   "status": "proved",
   "theorems": [
    "C61_plain",
    "C61_keyed"
   ],
   "note": ""
  },
  {
   "property": "C62",
   "status": "proved",
   "theorems": [
    "C62_plain",
    "C62_keyed"
   ],
   "note": ""
  },
  {
   "property": "C63",
   "status": "partial",
   "theorems": [
    "C63_delitem_consistent_refuted",
    "C63_delitem_partial"
   ],
   "note": "False of the code: __delitem__ deletes from the dict before the list. The partial theorem says what is left behind."
  },
  {
   "property": "C64",
   "status": "partial",
   "theorems": [
    "C64_list_refuted",
    "C64_keylist_refuted",
    "C64_list_partial",
    "C64_keylist_partial"
   ],
   "note": "False of the code: _check does not test that the leaves of the positional index begin a tree row. The partial theorems assume that (and that equal values are identical)."
  },
  {
   "property": "C65",
   "status": "partial",
   "theorems": [
    "C65_set_refuted",
    "C65_dict_refuted",
    "C65_set_partial",
    "C65_keyset_partial",
    "C65_dict_partial",
    "C65_keydict_partial"
   ],
   "note": "False of the code: _check does not notice a repeated list entry standing in for a missing member. The partial theorems assume a list without repetitions and the provisos of C64; the keyed dict also assumes an injective key function."
  },
  {
   "property": "C66",
   "status": "proved",
   "theorems": [
    "C66_same_log",
    "C66_list",
    "C66_keylist"
   ],
   "note": "The index is built with the other logarithm between operations; an operation that itself has to rebuild the index in its middle uses the exact one."
  },
  {
   "property": "C67",
   "status": "proved",
   "theorems": [
    "C67_keys_view_operators",
    "C67_keys_view_comparisons"
   ],
   "note": "Operands of a type for which the operators return NotImplemented are out of scope."
  },
  {
   "property": "C68",
   "status": "proved",
   "theorems": [
    "C68_items_view_operators",
    "C68_items_view_comparisons"
   ],
   "note": "Values are assumed hashable and pairs totally ordered, as the SortedSet of pairs requires."
  },
  {
   "property": "C69",
   "status": "proved",
   "theorems": [
    "C69_keys_positions",
    "C69_items_positions",
    "C69_values_positions"
   ],
   "note": ""
  },
  {
   "property": "C70",
   "status": "partial",
   "theorems": [
    "C70_view_order_refuted",
    "C70_rsub_order_refuted",
    "C70_view_order_partial"
   ],
   "note": "False of the code: _from_iterable and the inherited __rsub__ drop the key function. Proved: witnesses, and that the claim holds without key function."
  },
  {
   "property": "C71",
   "status": "proved",
   "theorems": [
    "C71_set_rsub"
   ],
   "note": ""
  },
  {
   "property": "C72",
   "status": "proved",
   "theorems": [
    "C72_list_balanced",
    "C72_keylist_balanced"
   ],
   "note": ""
  },
  {
   "property": "C73",
   "status": "proved",
   "theorems": [
    "C73_list_index_steps",
    "C73_keylist_index_steps"
   ],
   "note": "int(log(n, 2)) is taken to be exact here; C66 treats larger values, which would deepen the index."
  },
  {
   "property": "C74",
   "status": "proved",
   "theorems": [
    "C74_list_update",
    "C74_list_plus",
    "C74_keylist_update",
    "C74_keylist_plus",
    "C74_set_update",
    "C74_set_intersection_update",
    "C74_dict_update_nonempty"
   ],
   "note": "Generators are finite trees of in-place calls, yields, an end or an exception."
  },
  {
   "property": "C75",
   "status": "partial",
   "theorems": [
    "C75_update_empty_raises_refuted",
    "C75_update_empty_reentrant_refuted",
    "C75_update_empty_plain_partial"
   ],
   "note": "False as stated: dict.update stores each pair before the list of keys is filled. It holds for arguments that neither raise nor use the dict."
  },
  {
   "property": "C76",
   "status": "proved",
   "theorems": [
    "C76_list",
    "C76_dict"
   ],
   "note": "Results of every operation and the contents agree; internal layout is not compared."
  },
  {
   "property": "C77",
   "status": "proved",
   "theorems": [
    "C77_values",
    "C77_lists"
   ],
   "note": "SortedList on a heap of list objects; _maxes and _index, which no method hands out or replaces by an argument, stay values."
  },
  {
   "property": "C78",
   "status": "proved",
   "theorems": [
    "C78_iterators",
    "C78_end_is_final",
    "C78_iter_never_raises"
   ],
   "note": "Iterators of SortedList as objects on the heap model; the first part excludes advancing an iterator of a SortedList changed since, which C79 is about."
  },
  {
   "property": "C79",
   "status": "partial",
   "theorems": [
    "C79_order_refuted",
    "C79_present_refuted",
    "C79_runtime_error_refuted"
   ],
   "note": "False in all three parts: values repeated and out of order after an add that splits a list; a removed value yielded after a merge; islice raises IndexError."
  },
  {
   "property": "C80",
   "status": "proved",
   "theorems": [
    "C80_once_held"
   ],
   "note": "Iterators of SortedList on the heap model. No assumption on the comparisons."
  },
  {
   "property": "C81",
   "status": "proved",
   "theorems": [
    "C81_weak_history",
    "C81_sound",
    "C81_exact"
   ],
   "note": "The order need only be a strict weak order; == must imply a tie. The four ordering comparisons of SortedLists are not covered."
  },
  {
   "property": "C82",
   "status": "partial",
   "theorems": [
    "C82_contains_refuted",
    "C82_remove_refuted",
    "C82_count_refuted",
    "C82_index_refuted",
    "C82_set_refuted",
    "C82_dict_refuted"
   ],
   "note": "False of the code: each part has a witness with two tied, unequal values. What holds instead is C81."
  },
  {
   "property": "C83",
   "status": "proved",
   "theorems": [
    "C83_list",
    "C83_new",
    "C83_empty",
    "C83_keylist",
    "C83_keynew"
   ],
   "note": "Counts steps, not time. Operations on many values at once (update, slice deletion, +=, *=, _reset, copies) are excluded."
  },
  {
   "property": "C84",
   "status": "proved",
   "theorems": [
    "C84_plain",
    "C84_keyed",
    "C84_sets"
   ],
   "note": "The key function of a SortedSet stays the same when __init__ is called again. Arguments are iterated before the operation changes anything, which is when the code iterates them."
  },
  {
   "property": "C85",
   "status": "proved",
   "theorems": [
    "C85_plain",
    "C85_keyed",
    "C85_dicts"
   ],
   "note": "The key function of a SortedDict stays the same when __init__ is called again. Arguments that are SortedDicts are read before the operation changes anything. C85_dicts excludes a second __init__, for which C86 is false."
  },
  {
   "property": "C86",
   "status": "partial",
   "theorems": [
    "C86_reinit_refuted",
    "C86_reinit_partial",
    "C86_lost"
   ],
   "note": "False of the code: __init__ makes _list a new empty list but leaves the items, and update refills the list only when the argument has more than a tenth as many keys as the dict. The partial theorem covers that case and the empty dict; C86_lost says what happens otherwise."
  },
  {
   "property": "C87",
   "status": "proved",
   "theorems": [
    "C87_values",
    "C87_lists"
   ],
   "note": "Keys and values have one type, as a key function may return the value itself. Operations without iterables, lists or new objects are those of simple_op."
  },
  {
   "property": "C88",
   "status": "proved",
   "theorems": [
    "C88_sum",
    "C88_iadd",
    "C88_compare"
   ],
   "note": "The dispatch of Python's binary operators between the two classes is part of the model (ModelMixed.v, right_first)."
  },
  {
   "property": "C89",
   "status": "proved",
   "theorems": [
    "C89_meaning",
    "C89_symmetric",
    "C89_transitive"
   ],
   "note": "Python's rule of which operand is asked, and the answers of the built-in types, are part of the model (ModelCompare.v)."
  },
  {
   "property": "C90",
   "status": "partial",
   "theorems": [
    "C90_transitive_refuted"
   ],
   "note": "Refuted: SortedSet([1]) == SortedList([1]) and SortedList([1]) == [1], but SortedSet([1]) != [1]."
  },
  {
   "property": "C91",
   "status": "proved",
   "theorems": [
    "C91_view_iterators",
    "C91_after_changes",
    "C91_ended"
   ],
   "note": "Iterators as objects over the heap models of the list inside; generators start when first advanced."
  },
  {
   "property": "C92",
   "status": "partial",
   "theorems": [
    "C92_repeats_refuted",
    "C92_skips_refuted",
    "C92_key_error_refuted",
    "C92_index_error_refuted"
   ],
   "note": "Refuted: update rebuilds the key list even when all its keys are present, so a running iteration repeats or skips keys; after clear, an items iterator raises KeyError and a reversed view IndexError."
  },
  {
   "property": "C93",
   "status": "proved",
   "theorems": [
    "C93_key_list_iterators",
    "C93_set_iterators",
    "C93_dict_iterators"
   ],
   "note": "Iterators as objects over the heap models of the lists; generators start when first advanced. A program has one object and any number of iterators over it."
  },
  {
   "property": "C94",
   "status": "partial",
   "theorems": [
    "C94_repeats_refuted",
    "C94_skips_refuted",
    "C94_index_error_refuted"
   ],
   "note": "Refuted: update rebuilds the list of a SortedSet even if it adds nothing, so that a running iteration repeats members, skips members, or (islice) raises IndexError."
  },
  {
   "property": "C95",
   "status": "proved",
   "theorems": [
    "C95_programs",
    "C95_key_list_key_none"
   ],
   "note": "repr of objects that contain themselves: C97. A subclass is one that overrides nothing."
  },
  {
   "property": "C96",
   "status": "partial",
   "theorems": [
    "C96_callable_mapping_refuted",
    "C96_key_none_refuted"
   ],
   "note": "Refuted: a mapping that can be called is taken for the key function and its items are lost; SortedKeyList(it, key=None) raises TypeError."
  },
  {
   "property": "C97",
   "status": "proved",
   "theorems": [
    "C97_repr",
    "C97_text_unique"
   ],
   "note": "recursive_repr of reprlib and list.__repr__, dict.__repr__, MappingView.__repr__ as documented; one thread; Python's recursion limit is not modelled. The order of the contents is C95."
  },
  {
   "property": "C98",
   "status": "proved",
   "theorems": [
    "C98_operators",
    "C98_in_place"
   ],
   "note": "Operands are not changed by x op y: C36, C67, C71. Subclasses of these classes with operators of their own are not covered. Mixin methods of collections.abc and the operators of set, frozenset and dict keys as in CPython 3.11."
  },
  {
   "property": "C99",
   "status": "partial",
   "theorems": [
    "C99_sorted_set_refuted",
    "C99_key_function_refuted"
   ],
   "note": "False: d.keys() | ss, with d a dict, is a built-in set; list - ss is a SortedSet without ss's key function (__rsub__ is inherited from collections.abc.Set, the other reflected methods are SortedSet's own)."
  },
  {
   "property": "C100",
   "status": "proved",
   "theorems": [
    "C100_values_asked",
    "C100_each_asked",
    "C100_keys_remembered"
   ],
   "note": "touches in KeyUseSpec.v lists the values as a function of the operation and the contents. The lower bound takes comparisons of keys to succeed. How often it is applied to each is not stated."
  },
  {
   "property": "C101",
   "status": "proved",
   "theorems": [
    "C101_or",
    "C101_in_place"
   ],
   "note": "The operators of dict, OrderedDict, defaultdict, UserDict and MappingProxyType are modelled as in CPython 3.11. ChainMap and subclasses with operators of their own are not covered. The order of items is stated for SortedDicts only."
  },
  {
   "property": "C102",
   "status": "partial",
   "theorems": [
    "C102_sorted_dict_refuted",
    "C102_in_place_refuted",
    "C102_succeeds_refuted"
   ],
   "note": "False: OrderedDict | sd is an OrderedDict; dict | sd is a SortedDict but dict |= sd stays a dict; sd |= pairs works, sd | pairs raises TypeError."
  },
  {
   "property": "C103",
   "status": "proved",
   "theorems": [
    "C103_one_view",
    "C103_view",
    "C103_reads_nothing"
   ],
   "note": ""
  },
  {
   "property": "C104",
   "status": "proved",
   "theorems": [
    "C104_set",
    "C104_intersection",
    "C104_set_together",
    "C104_dict",
    "C104_dict_together"
   ],
   "note": "Identity of objects is equality in the logic; eqb is any coarser equality. An intersection with several arguments is the one with each in turn."
  },
  {
   "property": "C105",
   "status": "partial",
   "theorems": [
    "C105_in_place_refuted"
   ],
   "note": "False of the code: intersection_update takes the objects of the argument (as the built-in set does). It holds for every other operation (C104)."
  },
  {
   "property": "C106",
   "status": "proved",
   "theorems": [
    "C106_list",
    "C106_keylist",
    "C106_set",
    "C106_dict"
   ],
   "note": "The containers are reached under a total order; then comparisons change. For SortedSet and SortedDict the comparison of the hash set or dict stays the equality it was."
  },
  {
   "property": "C107",
   "status": "proved",
   "theorems": [
    "C107_list"
   ],
   "note": "Comparisons are state transformers; they may query (the query operations of History.v) but not change the list. [seen] names the contents at which they have to answer."
  },
  {
   "property": "C108",
   "status": "partial",
   "theorems": [
    "C108_update_refuted"
   ],
   "note": "False of the code: update appends to _lists before it sorts all values (sortedlist.py:280-282), so a comparison that counts the list sees a length that is not the number of values."
  },
  {
   "property": "C109",
   "status": "proved",
   "theorems": [
    "C109_list",
    "C109_keylist",
    "C109_set_plain",
    "C109_set_keyed",
    "C109_dict_plain",
    "C109_dict_keyed"
   ],
   "note": "The hash set is assumed to hold no two equal members and the dict no two equal keys, as built-in sets and dicts ensure. union, | and copy of a SortedDict read the list and are not among the operations."
  },
  {
   "property": "C110",
   "status": "proved",
   "theorems": [
    "C110_list",
    "C110_keylist",
    "C110_set"
   ],
   "note": "What a failing __init__ leaves of a SortedSet is not modelled."
  },
  {
   "property": "C111",
   "status": "proved",
   "theorems": [
    "C111_set",
    "C111_set_keyed",
    "C111_dict",
    "C111_dict_keyed"
   ],
   "note": "Comparisons that the hash table makes are not counted. The bounds are for the operations on the list as in C53."
  },
  {
   "property": "C112",
   "status": "proved",
   "theorems": [
    "C112_set",
    "C112_dict",
    "C112_success"
   ],
   "note": "hash and == are functions of their arguments during one operation, and equal values have equal hashes. The list may raise as well: nothing is asked of it."
  },
  {
   "property": "C113",
   "status": "proved",
   "theorems": [
    "C113_set",
    "C113_dict"
   ],
   "note": "Deleting a slice, copies and the set operators are not among the operations of the histories."
  },
  {
   "property": "C114",
   "status": "partial",
   "theorems": [
    "C114_set_refuted",
    "C114_dict_refuted"
   ],
   "note": "False of the code: the hash table is updated value by value before the list is rebuilt (sortedset.py:495-497, 602-604, 650-652, sorteddict.py:511-513)."
  },
  {
   "property": "C115",
   "status": "proved",
   "theorems": [
    "C115_list",
    "C115_keylist",
    "C115_effect_free",
    "C115_effect_free_keylist"
   ],
   "note": "User code does not touch the container itself. Iterators are consumed at once. sorted may make any comparisons, given that it returns a permutation or raises what a comparison raised."
  },
  {
   "property": "C116",
   "status": "partial",
   "theorems": [
    "C116_keylist_refuted"
   ],
   "note": "False of the code: the key function is called a second time for each value after _lists was filled and before _maxes and _len are set (sortedlist.py:1791-1796)."
  },
  {
   "property": "C117",
   "status": "partial",
   "theorems": [
    "C117_list_refuted"
   ],
   "note": "False of the code for a < that answers differently the second time (sortedlist.py:320-328, 1183). Underflow in the model stands for a negative number."
  },
  {
   "property": "C118",
   "status": "proved",
   "theorems": [
    "C118_set",
    "C118_set_keyed",
    "C118_dict",
    "C118_dict_keyed"
   ],
   "note": "The == and hash of the values that the hash table uses have no effects. The key function has no effects but may raise. New objects are made in a fixed but arbitrary world w0. User code does not touch the container itself."
  },
  {
   "property": "C119",
   "status": "proved",
   "theorems": [
    "C119_set",
    "C119_set_keyed",
    "C119_dict",
    "C119_dict_keyed"
   ],
   "note": "As C118."
  },
  {
   "property": "C120",
   "status": "proved",
   "theorems": [
    "C120_list",
    "C120_same"
   ],
   "note": "The outer operation is add; nested calls are add, sl[i], len and iteration. < terminates. Numbers of sublist objects follow the identity of the list objects in _lists. OutOfFuel stands for RecursionError."
  },
  {
   "property": "C121",
   "status": "partial",
   "theorems": [
    "C121_sorted_refuted",
    "C121_index_refuted",
    "C121_lost_refuted"
   ],
   "note": "False of the code. insort takes its position before the nested change (sortedlist.py:219); _expand counts the value at a position that a nested split has moved (sortedlist.py:221, 255); insort inserts into a sublist that a nested deletion has taken out of _lists (sortedlist.py:219, 442)."
  },
  {
   "property": "C122",
   "status": "proved",
   "theorems": [
    "C122_keylist",
    "C122_same"
   ],
   "note": "Functions that read terminate, always give the same answer and change nothing but the positional index."
  },
  {
   "property": "C123",
   "status": "partial",
   "theorems": [
    "C123_refuted"
   ],
   "note": "False of the code. update calls the key function for _keys after it has filled _lists and before it sets _maxes and _len (sortedlist.py:1790-1796), even for the first values of an empty list; len is 0 then, while iteration yields the new values. (With SortedList the comparisons of a first update see an empty list, C107.)"
  },
  {
   "property": "C124",
   "status": "proved",
   "theorems": [
    "C124_list",
    "C124_keylist"
   ],
   "note": "Stated with the answers of operations only; no reference list."
  },
  {
   "property": "C125",
   "status": "proved",
   "theorems": [
    "C125_members",
    "C125_laws",
    "C125_compare",
    "C125_sizes"
   ],
   "note": "Stated with the answers of operations only. In-place operations act on a copy of their left operand."
  },
  {
   "property": "C126",
   "status": "proved",
   "theorems": [
    "C126_laws"
   ],
   "note": "Stated with the answers of operations only; no reference mapping."
  },
  {
   "property": "C127",
   "status": "proved",
   "theorems": [
    "C127_list",
    "C127_keylist"
   ],
   "note": "Stronger than C115_effect_free, where calls have no effects."
  },
  {
   "property": "C128",
   "status": "proved",
   "theorems": [
    "C128_lookup",
    "C128_place",
    "C128_silent",
    "C128_answers"
   ],
   "note": "The methods of ModelEffect.v, with the list of calls as the world. C128_answers ties them to Model.v. update, slice deletion and the constructors sort, which calls are made by list.sort is not modelled."
  },
  {
   "property": "C129",
   "status": "proved",
   "theorems": [
    "C129_read",
    "C129_history"
   ],
   "note": "The text in SourceText.v is copied from the file, docstrings left out. Trusted: that copy, the parser (SourceSyntax.v) and the interpreter (SourceSem.v)."
  }
 ]
}