# Formal model of python-sortedcontainers in Rocq (Coq 8.16.1)

## What is modelled

| source | model file |
|---|---|
| Python primitives used by the code: list indexing, `insert`, `del`, slices, `slice.indices`, `range`, `bisect.bisect_left/right`, `insort`, `sorted`, exceptions | `rocq/theories/PyBase.v` |
| `sortedlist.py`: `SortedList`, `SortedKeyList` | `rocq/theories/Model.v` |
| `sortedset.py`: `SortedSet` | `rocq/theories/ModelSet.v` |
| `sortedset.py`: which list class is used, methods exposed from it | `rocq/theories/ListClass.v` |
| `sorteddict.py`: `SortedDict`, its three views | `rocq/theories/ModelDict.v` |

Style: shallow embedding in a state + exception monad `M S A := S -> res A * S`.
The state after an exception is kept, so exception-atomicity can be stated.
Comparisons, equality and key functions are `... -> res bool` / `... -> res K`,
i.e. each call may raise; "total order" is a hypothesis of the theorems, not part
of the model.

* Positions inside the structure are `nat`; every internal subtraction that could
  go negative in Python is *checked* and yields `Err Underflow` (an exception
  Python does not have); theorems about results show that it never happens.
* User supplied indices, slice bounds and repetition counts are `Z`.
* Loops are structural recursion or fuelled recursion with `Err OutOfFuel` on
  exhaustion; theorems about results show that it never happens.
* `int(log(n, 2))` in `_build_index` is modelled as exact `Nat.log2`; a separate
  theorem shows the index is right for every power of two that is large enough.
* Outside C78-C80 and C91-C94 an iterator is the list it yields when consumed before any further mutation; ModelIter.v has iterators as objects.
* Python's `sorted`/`list.sort` is modelled by a stable insertion sort; under a total
  order the stable sort is unique (proved), so the algorithm does not matter.
* `set` is a duplicate-free list with an arbitrary iteration-order oracle; `dict` is an
  insertion-ordered association list.

## Specification

`rocq/theories/Spec.v` gives the reference semantics on plain lists: filters,
`length (filter ..)`, `nth_error`, Python's list slicing. It does not mention sublists,
maxima, positional index or load factor.

## Proof plan

1. `Shape`: order-free representation invariant (non-empty sublists, maxima are last
   elements, length counter, size bounds, positional tree sums). Preserved by every
   mutator for *arbitrary* comparators, including ones that raise.
2. `Sorted`: with a strict weak order, contents are sorted; two-level bisection returns ranks.
3. Refinement of every operation to `Spec.v`, lifted to every history by induction.
4. `SortedList` mutators are the instance `key = identity` of `SortedKeyList` mutators (simulation lemma).
5. `SortedSet`, `SortedDict` are proved on top of the refinement of both list classes.

Per property:

* C01-C22: refinement of each `SortedList` method to `Spec.v` on every reachable state; C17: a boolean
  transcription of `_check` proved true on every reachable state; C18: corollary of refinement (spec does not mention load).
* C23, C32, C51: exception atomicity, for arbitrary partial comparators, by case analysis of every exit.
* C24, C42, C52: expected false of the code; `_refuted` theorems with witnesses, plus the strongest positive part.
* C25, C41, C50: reconstruction lemma on top of `update` from the empty list.
* C26-C31: as above for `SortedKeyList`; C30 has a refuted part (`n * skl` forgets the key).
* C25 for `SortedSet`: the same order is proved when values that tie are equal, and refuted for key functions with
  ties between different values, because the rebuilt set inserts in hash order.
* C33-C41: `SortedSet` over both list classes (`list_class` in `ClassSpec.v`), arbitrary hash iteration order
  (`any_order`); invariant `SInv` in `SetFacts.v`. C36 does not cover the reversed operators.
* C42: refuted; `add` changes the hash set before the list. What remains true is stated as `_partial`.
* C56: transcription of `SortedSet._check`, true after every history.
* C43-C50: `SortedDict` over both list classes; the reference (`ref_step` in `DictSpec.v`) is a plain mapping in insertion
  order whose items are listed by a stable sort. Views are modelled as operations on the dict they belong to.
* C52: refuted for `setdefault` and for `update` on an empty dict and in bulk; true of the item-wise path (`_partial`).
* C57: transcription of `SortedDict._check`, true after every history.
* C53: `Calls.v` repeats the lookups in a monad that lists the comparisons made. `asks` in `CallSpec.v` demands that dropping
  the list gives the function of `Model.v` and that this function, run with any other comparison that answers the listed calls
  alike (and may raise on all others), does the same; so no call outside the list can go unnoticed. How often the same
  pair is compared again is read off the copy.
* C54: corollary of refinement: all outputs equal the specification's.
* C58-C63: `SortedSet`/`SortedDict` with coherent hash and `==` but arbitrary `<` and key comparisons, which may raise and may
  differ per operation (`wset_reach`, `wdict_reach` in `WildSpec.v`). `WildClass.v` states what both list classes guarantee
  under such comparisons (from `FaultHist.v`); `WildSet.v`, `WildDict.v` go through every operation. C60, C63 are refuted with
  a witness; the `_partial` theorems say what is left behind.
* C64, C65: the converse of the self checks (C17, C31, C56, C57 say that `_check` accepts every reachable state). `CheckConv.v`
  derives the invariants used by all other proofs from a successful `_check`. Refuted as stated, by two hand-made states in
  `ConcreteCheck.v` that `_check` accepts; the `_partial` theorems name the missing tests (`tree_row`: the leaves of the index
  begin a row of the tree; a list without repetitions under a set or dict).
* C66: `build_index_log` (`LogSpec.v`) is `_build_index` with any function in place of `int(log(n, 2))`; the histories of
  `log_reach` may build an absent index with any such function that is large enough. `LogProps.v` reuses
  `build_index_sized_ok`.
* C67-C71: `ModelView.v` transcribes the methods that the view classes and SortedSet inherit from `collections.abc.Set` and
  `collections.abc.Sequence` on top of the few methods each view defines (record `view`). `ViewFacts.v` proves them once for any
  view that stands for a list (`ViewOK`) and `ViewProps.v` instantiates this for the three views and for SortedSet. `ViewSpec.v` states
  what each operator means and what `index` answers. The other operand is a list of values, marked as a set or as a mere iterable.
* C72, C73: `BalanceFacts.v` shows, by going through every operation with arbitrary comparisons, that the offset of the positional
  index stays below twice the number of internal lists (`small`); together with the structural invariant of C55 this gives the size
  bounds (`balanced`) and the depth of the index. The number of iterations of a loop is expressed by the room (fuel) with which the
  model's loop still gives its result (`find_within`, `rank_within`, `walk_within`).
* C74, C75: `ModelGen.v` models an iterable argument as a generator: a finite tree of method calls on the container (the rest of
  the generator depending on the result), yields, an end or an exception. An unhashable value, a malformed pair or a failing
  `__next__` is an exception at that point. `feeds` (GenSpec.v) runs the generator against the reference contents. The bulk
  operations exhaust it first, except `set.intersection_update`, which looks each value up as it comes, and `dict.update` on an empty
  SortedDict, which stores each pair as it comes: there the two witnesses of C75 break the invariant.
* C76: follows from both classes refining the same reference: the reference of SortedKeyList, restricted to the shared operations and
  with values that compare by key, is the reference of SortedList (SameProps.v).
* C77: ModelHeap.v models SortedList again with a heap: `_lists` is a list of references, `sublist.append`, `insort`, slicing,
  `reduce(iadd, self._lists, [])`, `del sublist[half:]` write or allocate heap cells. A simulation (HeapFacts.v: `sim`, `framen`) shows each
  method computes what the value model computes and writes only to its own rows or to lists allocated during the call; the world
  invariant `rel` (HeapProps.v) carries it to any number of objects. The reference world (HeapSpec.v) is a list of independent values.
* C78: ModelIter.v models `iter`, `reversed`, `islice`, `irange` as objects: a chain over list iterators (reference and position), over
  the map of `iter`/`reversed` or of `getitem` over a range of rows. `itval` (IterFacts.v) says what an iterator still has to yield in a
  given state; `next_ok` takes one step; `i_step_ok` (IterProps.v) shows that operations on other objects and queries of the same
  object keep it. The reference world (IterSpec.v) gives each iterator the list it has left, `Lost` once its SortedList has changed.
* C79: refuted by three programs (IterRefute.v) run on the model.
* C80: HeldFacts.v shows that after each method a list that the SortedList used before holds only values it had before or has now
  (`kept`): lists stay in use, or are left alone when dropped, or only values are removed. HeldProps.v follows the references of an
  iterator, which no other object uses (`own`), through a history.
* C81, C82: WeakSpec.v is the reference list for values whose `==` is finer than their order. The operations that do not test equality
  are proved through the case "equal = tied" of the total-order theorems, the other five directly (WeakProps.v). C82, that lookup finds
  every listed value, is refuted for SortedList, SortedSet and SortedDict (WeakRefute.v).
* C83: AmortSpec.v says what a cheap step is and counts the others. AmortFacts.v gives each state a potential (how far the sizes of the
  internal lists are from the load factor, one too many counting 1 and one too few counting 3) and inverts successful runs of
  SortedKeyList `add` and `_delete`; AmortProps.v carries this over to SortedList by simulation and sums it up over histories.
* C84: ModelObj.v is SortedSet once more, on a heap of set objects and sorted list objects, with the receivers of the exposed methods as
  attributes of their own. ObjFacts.v shows operation by operation that it does what ModelSet.v does on values and touches no other object;
  ObjProps.v carries this through programs; ObjSets.v combines it with C34's step lemma for total orders.
* C85: ModelDObj.v is SortedDict on a heap of sorted list objects, with `_list`, the receiver of the cached methods and the receiver of the
  exposed ones as separate attributes; a view is a reference to its SortedDict. DObjFacts.v and DObjProps.v show that it does what ModelDict.v
  does on values; DObjDicts.v combines this with C44's step lemma for total orders.
* C86: ModelReinit.v; the witness deletes nothing and adds nothing, and C86_lost follows the item-wise path of `update` on a list that has
  only the keys from the n-th on.
* C87: ModelKHeap.v is SortedKeyList on the heap of list objects of C77, with the lists in `_lists` and those in `_keys`; ModelMixed.v is a
  program with objects of both classes. KHeapFacts.v, KHeapSim.v and KHeapSim2.v show method by method that it does what Model.v does on
  values, changes no list of others and takes none from outside; MixedFacts.v carries this through programs and MixedProps.v to sorted lists.
* C88: from C87_lists, by one more operation on a reached state.
* C89: ModelCompare.v has the answer of every class to every operand and Python's protocol around them; CompareSpec.v says by the kinds of
  two operands how they are to be compared. CompareProps.v derives the one from the other with C21, C38 and C67.
* C90: the witness mixes a SortedSet, a SortedList and a list.
* C91: ModelViewIter.v puts the SortedDict of ModelDict.v on top of the heap models of SortedList and SortedKeyList and adds the eight kinds
  of iterator as objects. HeapClass.v relates the heap models, as list classes, to the ones of ListClass.v, with what stays still in
  methods that only read; ViewIterFacts.v lifts this to the SortedDict, ViewIterProps.v carries the iterators through histories.
* C92: witnesses with load factors 2 and 3.
* C93: ModelKeep.v: one object (SortedKeyList, SortedSet, SortedDict over a heap list) with iterators made by all five methods; the reference
  world (KeepSpec.v) is a relation, since the members kept by set operations are not determined. KeepSetFacts.v puts the SortedSet on
  the heap lists; KeepProps.v proves the step lemma once for all three classes.
* C94: witnesses with load factors 2 and 3.
* C95: ModelClass.v decides at run time which class is made (`__new__`, `__init__`), keeps class and key function with each object, and calls
  the methods of a set's or dict's list through its class; ClassesFacts.v shows that such a list is one of the two of ListClass.v, where the
  class is decided beforehand. ClassesSpec.v: an object is a class, a key and a value.
* C96: one witness each.
* C97: ModelRepr.v: objects in a heap, the sets repr_running of the four decorated functions; fuel bounds the depth of calls, and the theorem gives
  a bound that always suffices. ReprSpec.v: text relative to the objects around.
* C98, C99: ModelSetOps.v has the answer of every class to every operand, forward, reflected and in place, and Python's protocol around
  them; left and right operands may have different key functions. SetOpsSpec.v: table of result classes by the kinds of the operands.
* C100: KeyUseSpec.v lists for every operation of SortedKeyList the values whose keys it asks for. Two steps with key functions that
  agree there are equal; `drift` runs a history with a key function per operation.
* C101, C102: ModelDictOps.v has Python's protocol for `|` and `|=` with a SortedDict on either side and the answers of the mappings of
  CPython; DictOpsSpec.v: table of result classes, and the items by "the last pair for a key counts".
* C103: ModelIloc.v adds the property `iloc` and the attribute `_iloc` to the programs of C85; statements about positions in the program
  at which it is read.
* C104, C105: statements about the lists of objects before and after each operation (IdentSpec.v); the models of C33-C52 already
  distinguish equal objects.
* C106: `list_compares`, `keylist_compares`, `set_compares`, `dict_compares` (OrderSpec.v) are small functions of the operation and the
  contents; the step function of the model with other comparators is compared with the one under the total order.
* C107, C108: ModelReads.v repeats the comparing methods of SortedList with comparisons that are computations on the list (`V -> V -> M
  (core V V) bool`). ReadsProps.v shows that each method does what the method of Model.v does from a state that differs by queries only
  (`late`), since no method relies on the index across a comparison; `index`, which asks for a position and compares again, is by hand.
* C109, C110: ModelAgain.v has `__init__` called on an existing object (SortedDict: C86). RecoverSpec.v says what it means that an object behaves from now
  on (every further history does what it does to a plain sorted list, set or mapping) and which operations make all of an object anew.
  RecoverProps.v shows that these start from cleared or new attributes, for which the invariants of the other files hold, whatever was
  there before.
* C111: SetCalls.v has the operations of SortedSet and SortedDict with the list of the comparisons made in the list, on top of the logged
  list operations of C53 (for `update` and `difference_update` only the path that goes value by value). SetCallProps.v shows that they
  do what ModelSet.v and ModelDict.v say, depend on these comparisons alone, and are as short as claimed.
* C112 to C114: ModelHash.v has hash tables whose lookups call `hash` and, for entries with the same hash in any order, `==`, both of which
  may raise, and the operations of SortedSet and SortedDict on top of them. RaiseSpec.v relates them to ModelSet.v and ModelDict.v.
  RaiseProps.v shows that a lookup that does not raise answers as there, that all members of a table made by lookups that succeeded
  can be looked up, and gives the witnesses for C114.
* C115 to C117: ModelEffect.v transcribes SortedList and SortedKeyList once more with every call of `<`, `==` and the key function a step of a
  world `W` that the list is no part of (state is `W * core`), and an arbitrary sorting algorithm. EffectSpec.v says what is left of each
  operation (`eff`, `keff`, `framed`). EffectFacts.v has a postcondition for each function of the model, EffectHist.v puts them together for
  histories. EffectPure.v shows that with effect-free functions this model is Model.v, so that both transcriptions check each other.
* C118 and C119: ModelEffectSet.v packs the methods of ModelEffect.v as the list class that the models of SortedSet and SortedDict take
  as parameter. EffectSet.v shows that these classes meet the conditions under which WildSet.v and WildDict.v prove C58-C62. That the hash
  table's `==` and the key function have no effects is a simplification; C112-C114 treat a hash table that raises.
* C120 and C121: ModelReentry.v is `add` once more for comparisons that are programs with calls of the list itself (`code`). Sublists are
  numbered, because `insort(_lists[pos], value)` holds on to the sublist object while it compares. ReentryFacts.v has an invariant that
  survives nested adds, by induction on the nesting depth. C120_same ties the model to Model.v. Only `add` is treated; other methods
  under comparisons that change the list are not modelled.
* C122 and C123: ModelKReads.v is to SortedKeyList what ModelReads.v (C107) is to SortedList: key function and comparisons are computations
  on the list. KReadsFacts.v follows each method through the states that differ from the one before the call in the positional index only
  (`near`). C122_same ties the model to Model.v for every operation, the excepted ones included.
* C124: the laws in LawsSpec.v relate the answers of operations to one another and do not mention `sp_*`. LawsProps.v proves them for
  anything that refines the reference lists and applies this to both classes.
* C125 and C126: as C124, for SortedSet and SortedDict. For sets all laws are stated at once: expressions (SetLawsSpec.v) are evaluated with the
  operations of the model, and formulas decide what holds.
* C127: EffectSame.v relates each method of ModelEffect.v to that of Model.v for calls that answer as functions; the world is free. The sorting
  algorithm is any that gives the stable order when comparisons answer as a function.
* C128: ModelEffect.v with the world "list of calls so far". Bisection is bounded as for C53; the scans among tied keys are followed along
  the flat contents.
* C129: SourceText.v is the text of thirty-two methods and aliases of SortedList, SourceSyntax.v a lexer and parser, SourceSem.v an interpreter with
  lists as objects on a heap. For each method it is proved that running the text on an object that holds a state of Model.v does what the model does
  (SourceFacts.v to SourceDel.v); SourceHist.v puts calls together. `seeded/text.py` runs one-place edits of the text. Of the iterators that `chain`, `map`, `reversed`, `iter` and generator expressions
  make, the interpreter computes the values at once and keeps those not yet taken in a list on the heap; since the histories of C129 use an iterator up
  before the next call, that is the same. `+=` and `*=` must return `self`, and `iter`, `reversed`, `islice` and `irange` an iterator. A slice object and a `range` are values. So for these methods the reading of the source that Model.v rests on is itself
  checked, and what is left to trust is the copy, the parser and the interpreter.

## Trusted base

1. The kernel of Coq 8.16.1 (and, as for every Coq development, its `vm_compute` reduction machine, used in `Example`s and
   witnesses). Only the Coq standard library is imported (`List`, `Arith`, `ZArith`, `Lia`, `Permutation`, `Sorted`, `Bool`, `String`, `Ascii`).
2. `Print Assumptions` stands under every property theorem (files `Prop*.v`) and answers `Closed under the global context`
   for every one of them: no axiom, not even of the standard library, is used. `coqchk -o` and `vcheck` additionally list the
   seven parameters `Coq.ssr.ssrunder.Under_rel.*` (`Over_rel`, `Under_rel_from_rel`, `over_rel`, `over_rel_done`, `Under_rel`,
   `Under_relE`, `under_rel_done`): they belong to a module type of the standard library that gets loaded, and no theorem
   depends on them.
3. The reading of the source. The code was not run; the tie between `/repo` and the model is the citation at each definition. As a check
   of the reading, Doctest.v evaluates every example of the docstrings in the model, RepoTests.v a selection of the assertions in `/repo/tests`.
   For the methods in SourceText.v the reading is proved right (C129); `python3 seeded/same_text.py` compares that text with the file.

### Modelled

* `sortedlist.py`, class `SortedList`: `__init__`, `_reset`, `clear`, `add`, `_expand`, `update`, `__contains__`, `discard`,
  `remove`, `_delete`, `_loc`, `_pos`, `_build_index`, `__delitem__`, `__getitem__`, `__setitem__`, `__iter__`, `__reversed__`,
  `reverse`, `islice`, `_islice`, `irange`, `__len__`, `bisect_left`, `bisect_right`/`bisect`, `count`, `copy`/`__copy__`,
  `append`, `extend`, `insert`, `pop`, `index`, `__add__`/`__radd__`, `__iadd__`, `__mul__`/`__rmul__`, `__imul__`, the six
  comparisons, `__reduce__`, `_check`.
* class `SortedKeyList`: every method it overrides, plus `irange_key`, `bisect_key_left`, `bisect_key_right`/`bisect_key`.
* `sortedset.py`, class `SortedSet`: `__init__`, `_fromset`, every method and operator defined there, and the
  list methods exposed on the object (`bisect*`, `index`, `irange`, `irange_key`, `islice`, `_reset`, `isdisjoint` etc. of the set).
* `sorteddict.py`, class `SortedDict`: every method defined there (the deprecated `iloc` in C103); of what it
  inherits from `dict`: `__getitem__`, `get`, `__contains__`, `__len__`, `__eq__`/`__ne__`. The three view classes:
  iteration, `reversed`, `len`, `in`, indexing, slicing, deletion, and what they inherit from `collections.abc`: the set operators,
  `isdisjoint` and comparisons of the keys and items views, `index` and `count`. Likewise the inherited `SortedSet.__rsub__`.

### Not modelled

* Docstrings, `__slots__`, version data in `__init__.py`.
* Binary operators and comparisons with operands of another type (`NotImplemented`) except C88, C89, C98 and C101, arguments of the wrong type. (An
  unhashable value or a malformed pair inside an iterable argument is an argument that raises at that point: C74, C75.)
* Iterators kept across mutations: modelled in C78-C80 (SortedList), C91, C92 (SortedDict and its views), C93, C94 (the other classes; `islice`, `irange`, `irange_key`); elsewhere an iterator is the list it yields if consumed at once. Iterators as arguments of methods of the same object are not modelled.
* Threads, re-entrancy (a comparison that itself changes the container) except `add` in C120, C121 (functions that only query a SortedList or SortedKeyList are in C107, C108, C122, C123), memory exhaustion, `KeyboardInterrupt` outside user code (raised inside a comparison or key function it is an exception of C115).
* Aliasing outside C74, C75, C77, C84, C85 and C87: an argument is the list of values it yields when iterated, taken before the operation changes the
  container. C74 shows for arguments that use the container that this reading is right, C75 where it is not. That the internal
  lists of a SortedList or SortedKeyList are shared with nothing is proved in C77 and C87, that the `_set` and `_list` of a SortedSet are not in C84, that the
  `_list` of a SortedDict is not in C85.

### Assumed of Python

* Comparisons and key functions are functions of their arguments during one operation (they may raise; in C55, C58-C63 they may
  differ from one operation to the next; in C115-C119 they may be any code that leaves the list alone).
* Hash and `==` of set members and dict keys are total (except in C112 to C114) and coherent (an equivalence `eqb`). A hash set is a duplicate-free
  list; the order in which it is iterated is an arbitrary function `ord` of a counter and the members (`any_order`), so each
  iteration may see another order. A dict is iterated in insertion order. `dict.copy`-like rebuilding in `__reduce__` is modelled for both
  orders CPython may use.
* `bisect`, `insort`, `sorted`, list and slice semantics are as transcribed in `PyBase.v`. `sorted` is stable; the
  comparisons it makes are those of an insertion sort, which matters only where comparisons raise or are no order: there theorems
  speak about whether, not where, a comparison raises.
* `int(log(n, 2))` is exact (`Nat.log2`). Floating point would give the same for all lengths below 2^48 sublists; a separate
  theorem covers any power of two that is large enough.
* `len`, indices and sizes are unbounded integers.
* `bisect_key_*` and `irange_key` on a set or dict without key function do not exist there (`AttributeError`).
