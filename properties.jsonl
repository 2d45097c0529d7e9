{"id": "C01", "title": "UTF-8 code point round trip", "statement": "Every Unicode scalar value is written as exactly the byte sequence RFC 3629 prescribes for it (1-4 bytes), and reading that byte sequence back yields the same scalar value and consumes exactly those bytes. The same encode-then-decode identity holds for the whole 31-bit range the encoder accepts, and the encoder rejects every larger value.", "quantifier": "every 32-bit code unit value", "why_tests_cant": "there are 2^31 encodable values and the interesting ones sit at six length boundaries; a test samples a few", "anchors": ["Source/Strings/Conversion.cpp: UtfConversion<char8_t>::From32, UtfConversion<char8_t>::To32"]}
{"id": "C02", "title": "UTF-16 and UTF-16BE code point round trip", "statement": "Every Unicode scalar value is written as exactly the one or two UTF-16 code units the standard prescribes, reading them back yields the same scalar and consumes exactly those units, surrogates and values above 0x10FFFF are rejected by the encoder; the big-endian variant writes the same units with their bytes swapped and has the same round trip.", "quantifier": "every 32-bit code unit value", "why_tests_cant": "1.1 million scalars, and the surrogate arithmetic fails only at range edges", "anchors": ["Source/Strings/Conversion.cpp: UtfConversion<char16_t>::From32/To32, UtfConversion<char16be_t>::From32/To32"]}
{"id": "C03", "title": "Whole string conversion round trip", "statement": "For any zero-free string of Unicode scalar values, converting it between any two of the UTF encodings (wtou8, u8tow, wtou16, u16tou8, ...) yields exactly the concatenation of the per-code-point encodings, and converting back yields the original string.", "quantifier": "every string of any length, every pair of encodings", "why_tests_cant": "arbitrary length, arbitrary mixtures of 1..4 unit code points; the stateful readers carry a window buffer across code points", "anchors": ["Source/Strings/Conversion.h: UtfFrom32ReaderBase::Read, UtfTo32ReaderBase::Read, UtfToUtfReaderSelector", "Source/Strings/Conversion.cpp: _utftoutf_reader, ConvertStringDirect"]}
{"id": "C04", "title": "Conversion readers stay inside their window buffer on any input", "statement": "Whatever code units are fed in, well formed or not, the window buffer of a reader never holds more than its declared length, no element outside the input string plus its terminator is read, and reading reaches the end after at most as many returned units as a code point of the target can have for every input unit.", "quantifier": "every input sequence of code units, well formed or malformed, every number of reads", "why_tests_cant": "malformed inputs are combinatorially many and an out-of-bounds window access need not crash", "anchors": ["Source/Strings/Conversion.h: UtfTo32ReaderBase::Read, UtfFrom32ReaderBase::Read"]}
{"id": "C05", "title": "Sizing pass and writing pass agree", "statement": "The length computed by converting into a null destination is exactly the number of units (terminator included) the writing pass produces, so the result string is full, zero terminated, and no unit is written past the allocated buffer; with a shorter destination the writer stops at its capacity.", "quantifier": "every source string, every destination capacity", "why_tests_cant": "off-by-one in a two-pass protocol appears only for particular length/capacity relations", "anchors": ["Source/Strings/Conversion.cpp: _utftoutf_reader, ConvertStringDirect"]}
{"id": "C06", "title": "Source cluster bookkeeping of converting readers", "statement": "After each successful read the reported source cluster (index,size) is the exact interval of source units that produced the unit just returned, the clusters of successive code points tile the source with no gap or overlap, and the reading index counts returned units.", "quantifier": "every source string, well formed or not, and every position in it up to the first read that returns zero", "why_tests_cant": "needs every mixture of unit counts on both sides of the conversion", "anchors": ["Source/Strings/Conversion.h: SourceCluster, ReadingIndex, UtfToUtfReaderSelector"]}
{"id": "C07", "title": "Malformed input is rejected", "statement": "Decoding succeeds only on well formed sequences: an unpaired surrogate makes the UTF-16 reader stop, and an ill formed UTF-8 sequence (bad continuation byte, overlong form, encoded surrogate, stray continuation byte) makes the UTF-8 reader stop. Whatever the units are, the result of a conversion is a definite function of them.", "quantifier": "every sequence of code units", "why_tests_cant": "the claim is about all ill formed sequences", "anchors": ["Source/Strings/Conversion.cpp: UtfConversion<char8_t>::To32, UtfConversion<char16_t>::To32"]}
{"id": "C08", "title": "String operations compute the mathematical string operation", "statement": "Construction, +, Left, Right, Sub, Remove, Insert, IndexOf, operator[] and Length return exactly the list-of-characters result, for strings that are themselves windows into shared buffers.", "quantifier": "every string value (any sharing) and every in-range argument", "why_tests_cant": "substring-of-substring windows and argument combinations are unbounded", "anchors": ["Source/Strings/String.h: ObjectString<T>::SubUnsafe, ReplaceUnsafe, Left, Right, Sub, Remove, Insert, IndexOf, operator+"]}
{"id": "C09", "title": "String range checks", "statement": "Left, Right, Sub, Remove, Insert and operator[] succeed exactly for arguments that denote a range inside the string and raise an error for all others, in particular for negative counts.", "quantifier": "every string and every pair of integer arguments", "why_tests_cant": "the claim is an iff over two unbounded integers", "anchors": ["Source/Strings/String.h: Left, Right, Sub, Remove, Insert"]}
{"id": "C10", "title": "Strings are immutable values under sharing", "statement": "Over any history of creating, copying, moving, assigning, slicing, concatenating, asking for Buffer() of and destroying string variables, every variable that is not the target of an operation keeps its characters, and the target gets the value the operation specifies; no operation touches a buffer after it was freed and no buffer is freed twice.", "quantifier": "every finite history of operations over any number of string variables", "why_tests_cant": "aliasing bugs depend on long interleavings of copies, slices and destructions", "anchors": ["Source/Strings/String.h: Inc, Dec, copy/move constructors, operator=, Buffer, SubUnsafe, ReplaceUnsafe"]}
{"id": "C11", "title": "String buffers are reclaimed exactly when the last string goes away", "statement": "At every point of any history a heap buffer is allocated exactly while some live string variable refers to it, and its reference count equals the number of such variables; after all variables are destroyed no buffer is left.", "quantifier": "every finite history of operations over any number of string variables", "why_tests_cant": "a leak or early free shows only after particular histories", "anchors": ["Source/Strings/String.h: Inc, Dec"]}
{"id": "C12", "title": "String comparison is the lexicographic total order", "statement": "<=> on strings is the lexicographic order of their characters with a proper prefix smaller, it is a strict total order, and == holds exactly when the characters are the same, independent of buffer sharing.", "quantifier": "all pairs and triples of strings", "why_tests_cant": "transitivity and antisymmetry are statements over all triples", "anchors": ["Source/Strings/String.h: operator<=>, operator=="]}
{"id": "C13", "title": "Buffer() is the zero terminated content", "statement": "Buffer() of any string returns a pointer to exactly Length() characters of the string followed by a zero, even when the string is a window into a longer shared buffer, and leaves the value unchanged. The pointer stays good, and shows the same characters, while the string is neither assigned, moved from nor destroyed, whatever happens to other strings; copies and moves of the string return the same pointer and keep it good.", "quantifier": "every string value, every window", "why_tests_cant": "all windows of all buffers", "anchors": ["Source/Strings/String.h: Buffer"]}
{"id": "C14", "title": "Integer to text and back", "statement": "itoa/i64toa/utoa/u64toa of any representable value, parsed back with the matching function, gives the same value with success; and parsing reports success exactly for canonical decimal numerals in the accepted range (optional minus, no leading zeros, no plus, no blanks), returning zero and failure otherwise.", "quantifier": "every representable integer; every string", "why_tests_cant": "2^64 values and all strings", "anchors": ["Source/Strings/String.cpp: atoi_test, atoi64_test, atou_test, atou64_test, itoa, i64toa, utoa, u64toa"]}
{"id": "C15", "title": "List and Array behave as mathematical sequences", "statement": "Over any history of Add, Insert, RemoveAt, RemoveRange, Remove, Clear, Set, Resize, copy and move, Count, Get, IndexOf and Contains answer exactly as a plain sequence subjected to the same operations would.", "quantifier": "every finite history of operations with any arguments", "why_tests_cant": "reallocation, in-place shifting and shrinking interact over long histories", "anchors": ["Source/Collections/List.h: ListBase, List, Array, memory_management::InsertUninitializedItems, ReleaseUnnecessaryBuffer"]}
{"id": "C16", "title": "Element lifetimes in List and Array buffers", "statement": "At every point of any history exactly the slots below Count() of the buffer hold constructed elements and all other slots are raw; no operation constructs over a live element, destroys or reads a raw slot, touches a slot outside the buffer, and after destruction every constructed element has been destroyed exactly once.", "quantifier": "every finite history of operations", "why_tests_cant": "a lifetime error is silent for most element types", "anchors": ["Source/Collections/List.h: memory_management::*"]}
{"id": "C17", "title": "List capacity growth is bounded and amortised", "statement": "The buffer of a list never is smaller than its count, grows by at least a quarter each time it is reallocated, and a sequence of n appends to an empty list moves O(n) elements in total.", "quantifier": "every n and every history", "why_tests_cant": "asymptotic claim", "anchors": ["Source/Collections/List.h: InsertUninitializedItems, ReleaseUnnecessaryBuffer"]}
{"id": "C18", "title": "Container range checks", "statement": "Get, Set, Insert, RemoveAt, RemoveRange of List and Array raise an error exactly for arguments denoting positions or ranges outside the container and then leave it unchanged.", "quantifier": "every container and all integer arguments", "why_tests_cant": "an iff over unbounded integers, including negative counts", "anchors": ["Source/Collections/List.h: Get, Set, Insert, RemoveAt, RemoveRange"]}
{"id": "C19", "title": "SortedList stays sorted and keeps its multiset", "statement": "Over any history of Add, Remove, RemoveAt, RemoveRange and Clear the elements are in non-decreasing order, the multiset of elements is what the operations say, Contains/IndexOf find a value iff it is present and the index returned holds an equal value.", "quantifier": "every finite history, every total preorder on the elements", "why_tests_cant": "binary search correctness for every size, every duplicate pattern", "anchors": ["Source/Collections/List.h: SortedList"]}
{"id": "C20", "title": "Copying a SortedList leaves the source unchanged", "statement": "Constructing a SortedList as a copy of another gives an equal list and leaves the original with all its elements.", "quantifier": "every sorted list", "why_tests_cant": "a claim over all states; the existing tests never look at the source afterwards", "anchors": ["Source/Collections/List.h: SortedList copy constructor"]}
{"id": "C21", "title": "Dictionary is a finite map", "statement": "Over any history of Add, Set, Remove and Clear, Get/Contains/Count/Keys/Values answer as a finite map would; Add of an existing key and Get of a missing key raise an error and change nothing; Keys stay sorted, duplicate free and aligned with Values.", "quantifier": "every finite history of operations, any keys with a total order", "why_tests_cant": "two parallel containers must stay aligned over every history", "anchors": ["Source/Collections/Dictionary.h: Dictionary"]}
{"id": "C22", "title": "Group is a finite map from keys to non-empty sequences", "statement": "Over any history of Add, Remove(key), Remove(key,value) and Clear, Group answers as a map from keys to non-empty sequences in insertion order; a key whose last value is removed disappears.", "quantifier": "every finite history of operations", "why_tests_cant": "two parallel containers plus owned inner lists over every history", "anchors": ["Source/Collections/Dictionary.h: Group"]}
{"id": "C23", "title": "Group::Remove(key,value) reports whether it removed something", "statement": "Remove(key,value) returns true exactly when an occurrence of value was removed under key.", "quantifier": "every group, key and value", "why_tests_cant": "an iff over all states", "anchors": ["Source/Collections/Dictionary.h: Group::Remove(const KI&, const VI&)"]}
{"id": "C24", "title": "Enumerating a Dictionary or Group visits everything once in key order", "statement": "Driving the enumerator of a Dictionary (Group) to exhaustion yields each (key,value) pair exactly once, keys ascending and values of one key in insertion order, and Index() is the 0-based position of the pair.", "quantifier": "every dictionary and group contents", "why_tests_cant": "nested index bookkeeping over every shape", "anchors": ["Source/Collections/Dictionary.h: Dictionary::Enumerator, Group::Enumerator"]}
{"id": "C25", "title": "Reset restarts an enumerator", "statement": "After Reset() on any enumerator, driving it yields the same sequence again from the start.", "quantifier": "every enumerable, every point at which Reset is called", "why_tests_cant": "Reset is called only through Repeat in practice; all enumerators and positions", "anchors": ["Source/Collections/Dictionary.h: Dictionary::Enumerator::Reset, Group::Enumerator::Reset", "Source/Collections/OperationSequence.h"]}
{"id": "C26", "title": "Group inner join", "statement": "GroupInnerJoin yields exactly the keys present in both groups, in ascending order, each with the two value sequences of that key.", "quantifier": "every pair of groups", "why_tests_cant": "merge-join index logic over all shapes", "anchors": ["Source/Collections/Dictionary.h: GroupInnerJoinIterator, GroupInnerJoin"]}
{"id": "C27", "title": "Sort permutes and orders", "statement": "Sort(items,length,comparator) terminates, leaves the items a permutation of the input, sorted with respect to any comparator that is a total preorder, touching nothing outside the range; even if the comparator answers inconsistently, changes its answers from call to call or throws, it terminates in bounds and leaves a permutation.", "quantifier": "every array length and contents, every comparator, with or without state, throwing or not", "why_tests_cant": "hand written three-phase quicksort with alternating pivot; all permutations and duplicate patterns", "anchors": ["Source/Collections/Operation.h: SortLambda, Sort"]}
{"id": "C28", "title": "Partial ordering components are the strongly connected components in dependency order", "statement": "PartialOrderingProcessor::Sort terminates and produces components that partition the nodes, two nodes share a component iff each depends on the other through some chain, and every component precedes the components that depend on it.", "quantifier": "every finite directed graph", "why_tests_cant": "Kosaraju on every graph; tests use a handful of small graphs", "anchors": ["Source/Collections/PartialOrdering.cpp: InitNodes, VisitUnvisitedNode, AssignUnassignedNode, Sort"]}
{"id": "C29", "title": "Dependency graph construction", "statement": "InitWithGroup / InitWithFunc build for each item exactly the in-edges and out-edges given by the dependency relation restricted to the items; InitWithSubClass lifts dependencies of items to their sub classes with no self edges and no duplicates.", "quantifier": "every item list and dependency relation", "why_tests_cant": "all relations", "anchors": ["Source/Collections/PartialOrdering.h: InitWithGroup, InitWithFunc, InitWithSubClass"]}
{"id": "C30", "title": "Lazy list pipelines equal list pipelines", "statement": "Enumerating any composition of Select, Where, Concat, Take, Skip, Repeat, Distinct, Reverse, Pairwise, Intersect, Except, Union over containers and ranges yields exactly the sequence obtained by applying the corresponding list functions.", "quantifier": "every pipeline expression of any depth over any data", "why_tests_cant": "operators interact through Index(), Reset() and the stop protocol; compositions are unbounded", "anchors": ["Source/Collections/Operation.h: LazyList", "Source/Collections/OperationSequence.h", "Source/Collections/OperationConcat.h", "Source/Collections/OperationSelect.h", "Source/Collections/OperationWhere.h", "Source/Collections/OperationPair.h", "Source/Collections/OperationSet.h", "Source/Collections/OperationEnumerable.h"]}
{"id": "C31", "title": "Take(n) yields at most n values", "statement": "Take(n) on any lazy list yields the first min(n, length) values and never more than n.", "quantifier": "every lazy list and every n", "why_tests_cant": "Take consults Index() of the wrapped enumerator, whose starting value differs per operator", "anchors": ["Source/Collections/OperationSequence.h: TakeEnumerator::Next, SkipEnumerator::Index"]}
{"id": "C32", "title": "Set operators of LazyList", "statement": "Distinct keeps the first occurrence of each value in order; Intersect, Except and Union contain exactly the values their names say, without duplicates for Intersect and Union, in source order.", "quantifier": "every pair of sequences over a totally ordered type", "why_tests_cant": "all duplicate patterns", "anchors": ["Source/Collections/OperationSet.h", "Source/Collections/OperationSequence.h: DistinctEnumerator", "Source/Collections/Operation.h: Intersect, Except, Union, Distinct"]}
{"id": "C33", "title": "Aggregations of LazyList", "statement": "Aggregate, All, Any, Max, Min, First, Last, Count and IsEmpty compute the fold they name, with an error for the ones needing a non-empty source on an empty one.", "quantifier": "every sequence", "why_tests_cant": "all sequences including empty", "anchors": ["Source/Collections/Operation.h: Aggregate, All, Any, Max, Min, First, Last, Count, IsEmpty"]}
{"id": "C34", "title": "OrderBy", "statement": "OrderBy yields a permutation of the source ordered by the comparator and leaves the source unchanged.", "quantifier": "every sequence and total preorder", "why_tests_cant": "all permutations", "anchors": ["Source/Collections/Operation.h: LazyList::OrderBy, OrderByKey, OrderBySelf"]}
{"id": "C35", "title": "GroupBy and SelectMany", "statement": "GroupBy partitions the source by key: the keys are distinct and come in the order of their first appearance, each group is the sub sequence of values with that key in source order, and every value is in exactly one group; SelectMany concatenates the images in order.", "quantifier": "every sequence and key function, for keys whose == agrees with <=>; without that agreement each group holds the values whose key is == to the group's key", "why_tests_cant": "all sequences", "anchors": ["Source/Collections/Operation.h: LazyList::GroupBy, SelectMany"]}
{"id": "C36", "title": "CompareEnumerable is the lexicographic order", "statement": "CompareEnumerable compares two enumerables lexicographically with a proper prefix smaller, is antisymmetric and transitive and is equal exactly for element-wise equal sequences.", "quantifier": "all pairs and triples of enumerables", "why_tests_cant": "laws over all triples", "anchors": ["Source/Collections/OperationEnumerable.h: CompareEnumerable"]}
{"id": "C37", "title": "CopyFrom replaces or appends", "statement": "CopyFrom(ds, ss, append) leaves in ds the old content (when appending) followed by the content of ss, for each of the four container kinds, and leaves ss unchanged when it is a different object. A dictionary given pairs holds for every key the last value given for it, else its old one; a group holds its old values of the key and then those given for it, in order.", "quantifier": "every source and destination contents", "why_tests_cant": "all sizes and kinds; four algorithms chosen by type", "anchors": ["Source/Collections/OperationCopyFrom.h: CopyFromAlgorithm", "Source/Collections/Dictionary.h: RandomAccess<Dictionary>"]}
{"id": "C38", "title": "Ptr deletes its object exactly once, when the last pointer goes", "statement": "Over any history of creating, copying, moving, assigning, casting and destroying Ptr variables, an object is alive exactly while some Ptr variable refers to it, is deleted exactly once, its counter equals the number of variables, and the counter storage is released together with it.", "quantifier": "every finite history over any number of Ptr variables and objects", "why_tests_cant": "depends on long histories; a double free need not crash", "anchors": ["Source/Primitives/Pointer.h: Ptr<T>"]}
{"id": "C39", "title": "Ptr::Detach hands over ownership", "statement": "After Detach() the Ptr is empty, the returned object is not deleted by any remaining Ptr, and no counter storage is lost.", "quantifier": "every history in which Detach occurs", "why_tests_cant": "tests detach only a unique pointer", "anchors": ["Source/Primitives/Pointer.h: Ptr<T>::Detach, Dec"]}
{"id": "C40", "title": "Ptr copies may be taken and dropped from several threads", "statement": "For any number of threads that each own some Ptr copies of one object and each repeatedly copy and destroy their own copies, under every interleaving of the atomic counter operations the object is deleted exactly once, by the thread that drops the last copy, and never while another thread still holds a copy.", "quantifier": "every number of threads, every program of copies and drops, every schedule", "why_tests_cant": "schedules cannot be enumerated", "anchors": ["Source/Primitives/Pointer.h: Ptr<T>::Inc, Dec", "Source/Basic.h: INCRC, DECRC"]}
{"id": "C41", "title": "ComPtr balances AddRef-less ownership and Release", "statement": "Over any history of ComPtr operations each COM object is released exactly once, when the last ComPtr to it goes away.", "quantifier": "every finite history", "why_tests_cant": "histories", "anchors": ["Source/Primitives/Pointer.h: ComPtr<T>"]}
{"id": "C42", "title": "ByteObjectMap is a map from bytes", "statement": "Set then Get of the same byte returns the value, other bytes are unaffected, unset bytes read as null, and no two bytes share a slot.", "quantifier": "every sequence of sets, every pair of the 256 keys", "why_tests_cant": "all sequences; key-path aliasing among 256 keys", "anchors": ["Source/Collections/List.h: ByteObjectMap, bom_helper::Accessor"]}
{"id": "C43", "title": "PushOnlyAllocator hands out distinct stable objects", "statement": "Each Create returns an object at a fresh address, Get(i) returns the object of the i-th Create for ever after regardless of later Creates, and Get out of range raises an error.", "quantifier": "every number of creates and every block size", "why_tests_cant": "all block boundaries", "anchors": ["Source/Collections/List.h: PushOnlyAllocator"]}
{"id": "C44", "title": "Nullable is an optional value with exact lifetimes", "statement": "Over any history of assignments, moves and resets a Nullable holds exactly the value the operations specify, Value() raises an error iff it is null, the contained object is constructed and destroyed in strict alternation, and comparison orders null below every value.", "quantifier": "every finite history over any number of Nullable variables", "why_tests_cant": "lifetime errors are silent", "anchors": ["Source/Primitives/Nullable.h"]}
{"id": "C45", "title": "Variant holds exactly one alternative", "statement": "Over any history of assignments, copies and moves a Variant holds exactly one live alternative, Index() tells which, Get of it returns the value, Get of any other alternative raises an error, TryGet returns null, and Apply/TryApply call exactly the callback of that alternative; every constructed alternative is destroyed exactly once.", "quantifier": "every finite history and every list of alternatives", "why_tests_cant": "lifetime errors are silent", "anchors": ["Source/Primitives/Variant.h"]}
{"id": "C46", "title": "Tuple and Pair compare lexicographically", "statement": "<=> on Tuple and Pair is the lexicographic combination of the element comparisons; if the element comparisons are total orders so is the result, and == holds iff all elements are equal.", "quantifier": "all tuples of all widths", "why_tests_cant": "laws over all triples and widths", "anchors": ["Source/Primitives/Tuple.h: TupleElementComparison, Compare, AreEqual", "Source/Collections/Pair.h: operator<=>"]}
{"id": "C47", "title": "OrderingOf picks the common ordering category", "statement": "OrderingOf of a list of comparison categories is the strongest category all of them convert to: strong if all are strong, weak if all are strong or weak, partial otherwise.", "quantifier": "every list of categories", "why_tests_cant": "unbounded lists at compile time", "anchors": ["Source/Basic.h: OrderingOf, OrderingSelection, OrderingDecision"]}
{"id": "C48", "title": "DateTime arithmetic and order", "statement": "Backward undoes Forward and vice versa; moving forward by a positive amount gives a later time; comparing two values compares the instants; FromOSInternal of a value's internal representation reproduces it; a value built from an instant shows the local date and time of that instant, and one built from a date of the calendar shows that date.", "quantifier": "every instant and every amount of milliseconds", "why_tests_cant": "2^64 amounts, overflow wraps", "anchors": ["Source/Primitives/DateTime.h", "Source/Primitives/DateTime.cpp", "Source/Primitives/DateTime.Linux.cpp"]}
{"id": "C49", "title": "Global storage initialises and finalises in alternation", "statement": "Over any history of accesses and finalisations each registered storage runs its initialiser and finaliser in strict alternation starting with the initialiser, FinalizeGlobalStorage visits every registered storage in registration order and afterwards none is initialised, and running it twice has no further effect. An exception of an initialiser or a finaliser passes through; an initialiser that threw is run again by the next access, and the storages that a throwing finaliser left initialised are finalised by the next FinalizeGlobalStorage.", "quantifier": "every number of storages and every history", "why_tests_cant": "all histories", "anchors": ["Source/GlobalStorage.cpp", "Source/GlobalStorage.h"]}
{"id": "C50", "title": "Event calls each attached handler exactly once", "statement": "Over any history of Add and Remove, raising the event calls exactly the attached handlers, each once; Remove of an attached handler detaches exactly it and reports true, of a detached one reports false and changes nothing; handlers run in the order they were added.", "quantifier": "every finite history of Add/Remove/raise", "why_tests_cant": "all histories and handler address orders", "anchors": ["Source/Primitives/Event.h"]}
{"id": "C51", "title": "LoremIpsum length and bounds", "statement": "LoremIpsum(n, casing) terminates for every n, never writes outside its buffer, and returns words from its list in cyclic order separated by single blanks whose total length is the closest reachable to n; the next call continues with the next unused word; LoremIpsumParagraph terminates whatever the random numbers are; titles capitalise every word, sentences the first one and end with a full stop.", "quantifier": "every requested length, every state of the word index, every random sequence", "why_tests_cant": "hidden static state and random numbers", "anchors": ["Source/Strings/LoremIpsum.cpp"]}
{"id": "C52", "title": "Unit test runner accounting", "statement": "With failures suppressed the runner executes every registered file that passes the filter in registration order, counts each test case once, marks a case failed iff it raised, marks a file failed iff something in it raised, and returns 0 iff no executed file failed; without suppression nothing runs after the first uncaught failure, which reaches the caller; a suppressed failure in one case never prevents a later case, category or file from running.", "quantifier": "every tree of files, categories and cases and every pattern of failures", "why_tests_cant": "it is the test runner itself; all trees and failure patterns", "anchors": ["Source/UnitTest/UnitTest.cpp"]}
{"id": "C53", "title": "Case conversion changes only letters", "statement": "alower/aupper/wlower/wupper return a string of the same length in which ASCII letters have the requested case and every other character is unchanged.", "quantifier": "every string", "why_tests_cant": "all strings over all characters", "anchors": ["Source/Strings/String.cpp: alower, aupper, wlower, wupper, _strlwr_s, _strupr_s, _wcslwr_s, _wcsupr_s"]}
{"id": "C54", "title": "A collection notifies its associated reference exactly once", "statement": "A collection accepts at most one associated reference (a second association raises an error and changes nothing) and calls its OnDisposed exactly once, when the collection is destroyed.", "quantifier": "every history of a collection", "why_tests_cant": "all histories", "anchors": ["Source/Collections/Interfaces.h: EnumerableBase"]}
{"id": "C55", "title": "Func equality and emptiness", "statement": "A Func made from another Func is empty iff the source is, copies of a Func compare equal and call the same target, and Funcs created separately compare different even for the same target.", "quantifier": "every history of copies and assignments", "why_tests_cant": "histories", "anchors": ["Source/Primitives/Function.h"]}
{"id": "C56", "title": "Range-based for loops over collections", "statement": "A range-based for loop over any collection or lazy list runs the body for exactly the elements of the collection in order, up to the first one at which the body leaves or throws; with indexed() the body also gets the numbers 0, 1, 2, ... The enumerator created for the loop is deleted exactly once on every way out of the loop.", "quantifier": "every collection or pipeline, every loop body (any state, leaving or throwing at any element)", "why_tests_cant": "bodies and pipelines are arbitrary; the clean-up concerns every way out of the loop", "anchors": ["Source/Collections/OperationForEach.h", "Source/Collections/Operation.h: indexed"]}
{"id": "C57", "title": "Lazy lists behave as values", "statement": "Lazy lists and enumerators share and clone enumerator objects, but every program that declares, copies, moves, assigns, destroys, transforms and enumerates them in any interleaving sees what it would see if every variable held its own independent value: two enumerators never disturb each other, destroying or reassigning a source never affects a list made from it, enumerating a list yields what its pipeline denotes, no deleted object is touched and nothing leaks when the last variable is gone.", "quantifier": "every history of operations on any number of lazy list and enumerator variables, including selectors that throw", "why_tests_cant": "histories and sharing patterns are unbounded", "anchors": ["Source/Collections/Operation.h: LazyList", "Source/Collections/OperationWhere.h", "Source/Collections/OperationSelect.h", "Source/Collections/OperationSequence.h", "Source/Collections/OperationSet.h", "Source/Collections/OperationConcat.h", "Source/Collections/OperationPair.h"]}
{"id": "C58", "title": "Wide and multi-byte conversion", "statement": "wtoa and atow return the translation of the text before the first zero in a correctly terminated string of exactly that length, an empty string if some character cannot be translated, and never touch memory outside their buffers, whatever encoding the C library uses; text the encoding can represent survives wtoa followed by atow. On Linux _wtoa and _atow with a caller's buffer write whole characters within the capacity given minus one (and, contrary to expectation, no terminator when the text just fits).", "quantifier": "every text, every translation done by the C library, every destination capacity", "why_tests_cant": "the encoding is chosen by the environment and texts are unbounded", "anchors": ["Source/Strings/Conversion.Linux.cpp: _wtoa, _atow", "Source/Strings/Conversion.Windows.cpp: _wtoa, _atow", "Source/Strings/Conversion.cpp: ConvertStringDirect, wtoa, atow"]}
{"id": "C59", "title": "Floating point text", "statement": "On Linux ftoa never overruns its buffer and returns the shortest decimal form of the multiple of one millionth closest to the number (so the error is at most half a millionth), inf and nan included; equal texts mean numbers at most a millionth apart with the same sign; the texts are ordered like the numbers and integral numbers print like itoa. If strtod reads decimals to the closest double, atof(ftoa(x)) == x for every number that is the closest double to some six digit decimal (all multiples of a millionth and everything from 2^33 on) and for no other, and ftoa(atof(t)) == t for shortest decimal forms below 2^33. atof_test succeeds exactly if the whole text is consumed (so also on an empty text) and atof returns 0 otherwise; ftow agrees with ftoa.", "quantifier": "every double, every text, every correct strtod, every content of the uninitialised buffer", "why_tests_cant": "2^64 doubles and unbounded texts; rounding at the boundaries", "anchors": ["Source/Strings/String.cpp: _gcvt_s, ftoa, ftow, atof_test, wtof_test, atof, wtof"]}
{"id": "C60", "title": "Strings in several threads", "statement": "Several threads create, copy, move, assign, take substrings of, insert into, remove from, index, compare, read through Buffer() and hand over to each other strings that share buffers, and read string variables that all of them can see. Under every interleaving of the atomic counter updates and memory accesses no deleted or uninitialised memory is touched, nothing is deleted twice, the results of all operations are those of the same operations executed one after another as a whole on plain values (each at the moment it finishes), and once the threads hold no strings exactly the buffers of the shared variables are left, unchanged. Buffer() on a shared variable must be restricted to strings that end where their buffer ends: although const, it replaces the buffer of any other.", "quantifier": "every number of threads, every program of every thread, every schedule, all texts", "why_tests_cant": "the interleavings of counter updates and reads cannot be enumerated or forced by tests", "anchors": ["Source/Strings/String.h: ObjectString Inc Dec SubUnsafe ReplaceUnsafe Compare Buffer operator=", "Source/Basic.h: INCRC DECRC atomic_vint"]}
{"id": "C61", "title": "Conversions between string types agree along every path", "statement": "In programs that mix string operations with wtou8, u8tow, wtou16, u16tow, wtou32, u32tow, u8tou16, u16tou8, u8tou32, u32tou8, u16tou32 and u32tou16, in both configurations of wchar_t, each conversion is a function of the characters of its argument, leaves every other string as it is, keeps the sharing counters exact (also where a conversion shares the buffer between two types), and for text of scalar values without zeros the result depends only on the last type, so every path of conversions gives the same text and every round trip is the identity.", "quantifier": "every well-typed program of string operations and conversions, every text, every path of types, both configurations", "why_tests_cant": "texts, paths and sharing patterns are unbounded, and one build has only one configuration of wchar_t", "anchors": ["Source/Strings/Conversion.cpp: ConvertStringDirect, wtou8, u8tow, wtou16, u16tow, wtou32, u32tow, u8tou16, u16tou8, u8tou32, u32tou8, u16tou32, u32tou16", "Source/Strings/String.h: ObjectString::UnsafeCastFrom, Buffer, TakeOver"]}
{"id": "C62", "title": "How many comparisons searching and sorting cost", "statement": "Sort of n elements calls the comparator at most n(n-1) times, and exactly that often on input that is already strictly ascending (so there is no n log n bound), and nests at most log2(n+1) calls. IndexOf and Contains of a SortedList of n elements compare at most floor(log2 n)+1 times (never for n = 0), a bound that is reached; Add compares once more; adding or setting a key in a Dictionary costs at most one lookup and one Add. If a comparison throws, a SortedList or the keys of a Dictionary are unchanged.", "quantifier": "every length, contents, key and comparison, including stateful and throwing ones", "why_tests_cant": "worst case bounds over all inputs and all answers of a comparator", "anchors": ["Source/Collections/Operation.h: SortLambda", "Source/Collections/List.h: SortedList::IndexOfInternal, AddInternal", "Source/Collections/Dictionary.h: AddInternal, SetInternal"]}
{"id": "C63", "title": "Ptr conversions and casts keep the object's class", "statement": "In every well typed program that follows the rules of C38, a Ptr<C> that is not empty points to a C inside an existing object; whatever conversions to base classes and Cast calls happened in between, an object is deleted at most once, through the very pointer and class with which it was first given to a Ptr, when the last Ptr of whatever class lets go of it (so a Ptr<Derived> may end as a Ptr<Base> even if Base has no virtual destructor). Converting in one step, in several steps or with Cast gives equal Ptrs, and casting a converted Ptr back gives an equal Ptr that shares the object.", "quantifier": "every class hierarchy (multiple and virtual inheritance), program, and order of releases", "why_tests_cant": "all hierarchies and all histories of conversions; a wrong deleter is undefined behaviour that usually goes unnoticed", "anchors": ["Source/Primitives/Pointer.h: Ptr, ReferenceCounterOperator, Ptr::Cast"]}
{"id": "C64", "title": "Enumerators and references while the container changes", "statement": "An enumerator of a List or Array is a position: whatever is done to the list meanwhile, Next tells whether the list as it is now has an element at the next position, Current is that element or raises an error, and neither is ever undefined. A reference obtained from Current, Get or operator[] stays the same as Get(i) and Set(i) as long as nothing is inserted, removed or cleared; it is undefined exactly when the elements have moved to other storage or there is no element at its position, and enough additions always make it so. A loop over a list whose body only reads sees every element once; one that replaces the current element transforms the list; one that appends is a work list that visits exactly what is in the list at the end, in order, and ends if and only if there is a finite list closed under the body; one that removes the current element passes over the next one. An enumerator of a Dictionary or Group is a position together with references taken when it was moved there; moving it is always defined. The value a Group enumerator stands on can be read as long as only other keys are changed.", "quantifier": "every history of list, dictionary or group operations interleaved with any number of enumerators and references; every loop body", "why_tests_cant": "all interleavings of changes and enumeration, all sizes; a dangling reference usually still reads the old value", "anchors": ["Source/Collections/List.h: ArrayBase::Enumerator, ArrayBase::Get, List::Insert, List::RemoveAt, ReleaseUnnecessaryBuffer, InsertUninitializedItems", "Source/Collections/Dictionary.h: Dictionary::Enumerator, Group::Enumerator"]}
{"id": "C65", "title": "Exceptions thrown by the elements", "statement": "When a copy, a default construction or an assignment of an element throws in the middle of an operation, the exception passes through. A failed assignment (Set of List, Array or of an existing key of a Dictionary, assignment of a Nullable that has a value or of a Variant of the same alternative) leaves the container in order, with what the assignment left in that element. A failed construction of a Nullable's value leaves null; no history of Nullables with failing elements is undefined, and constructions and destructions alternate. A failed Resize of an Array leaves as many elements, all moved from, and an Array whose construction fails does not exist. A value that cannot be copied into a Group leaves all other keys with their values, and the values that its key had; a key that is there is not copied again. (A user would also expect that a failed Insert, Add or change of alternative leaves an object that can be used or at least destroyed, and that nothing is lost: these are refuted.)", "quantifier": "every history of operations, each of which may throw at any construction or assignment of an element; every continuation of the program after the exception", "why_tests_cant": "all points at which an element can throw in all histories, and all continuations; a slot that holds no element usually destructs without a visible effect", "anchors": ["Source/Collections/List.h: InsertUninitializedItems, CallDefaultCtors, CallCopyCtors, Array::Resize, List::Insert, List::Set, SortedList::Add", "Source/Collections/Dictionary.h: Dictionary::AddInternal, Dictionary::SetInternal, Group::AddInternal", "Source/Primitives/Nullable.h: Nullable::operator=", "Source/Primitives/Variant.h: Variant::operator=, Variant::Set"]}
{"id": "C66", "title": "Elements of a container as arguments of its own operations", "statement": "Set, Remove, IndexOf and Contains of a List, Set and Remove of existing keys of a Dictionary, and Remove of a Group may be given elements of the container itself; they act as with a copy. Group::Add(k, g[k2][j]) for another key k adds a copy. Elsewhere the argument is read after the elements have moved: x.Add(x[j]) adds a copy exactly if there is room without reallocation, x.Insert(i, x[j]) then inserts x[j] if j < i and x[j-1] if j > i; d.Add(k, d[k2]) and d.Set(k, d[k2]) for a new key k then use the value of k2 if k2 < k and otherwise the value of the last key between k and k2; everything else is undefined. A SortedList without equal elements can never be given one of its elements to add. (A user would expect that each of these adds a copy: refuted.)", "quantifier": "every history of operations of one List, Dictionary or Group, with any arguments that are elements of it; every SortedList with any total order", "why_tests_cant": "whether the argument dangles depends on the capacity left by the whole history, and a test that happens to have room, or an element type that survives being read after its destruction, passes", "anchors": ["Source/Collections/List.h: List::Add, List::Insert, List::InsertUninitialized, SortedList::Add", "Source/Collections/Dictionary.h: Dictionary::Add, Dictionary::Set, Dictionary::Remove, Group::Add, Group::Remove"]}
{"id": "C67", "title": "Moves of sorted lists, dictionaries and groups", "statement": "In a program over several SortedList, Dictionary or Group variables, moving (move construction or move assignment) hands the whole contents over, destroys what the target held and leaves the source empty and usable; no operation on one variable affects another. Keys and values stay together. The value lists that groups allocate belong to exactly one key of one group at every moment: none is freed twice, none is lost, and when all groups are gone none is left. Assigning a variable to itself by move empties it. (A user would expect x = std::move(x) to keep the contents: refuted.)", "quantifier": "every number of variables and every program of constructions, moves, self moves, destructions and operations that constructs variables before use and does not use them after destruction; any total order on the keys, any equality on values", "why_tests_cant": "double frees and leaks depend on which variable took over which buffers in the whole history; a test covers one shape of moves", "anchors": ["Source/Collections/List.h: ListBase move constructor and move assignment, SortedList", "Source/Collections/Dictionary.h: Dictionary, Group move constructors, move assignments, Group::~Group, Group::Clear"]}
{"id": "C68", "title": "Console output and input", "statement": "What a program writes with Console::Write and WriteLine arrives completely and in order, nothing else arrives, and WriteLine ends its text with CR LF. Successive calls of Console::Read return the successive lines of the input without their terminators. Different colours can be told apart.", "quantifier": "every sequence of calls, every text (with any characters and any length), every input; Linux streams with any locale, Windows consoles, Windows files and pipes with any code page", "why_tests_cant": "the output is not checked by any test, and depends on the locale, on redirection, on the characters and on what was written before", "anchors": ["Source/Console.h: Console", "Source/Console.cpp", "Source/Console.Linux.cpp", "Source/Console.Windows.cpp"]}
{"id": "C69", "title": "Destructors that use Ptr", "statement": "The destructor of an object may itself copy, move, assign, empty, construct and destroy Ptr variables, among them the members of its object and variables outside it, and destroy further objects that way. As long as no code touches a Ptr variable whose own assignment or destruction is still in progress, or destroys the variable on the right of an assignment in progress, nothing is deleted twice or used after deletion; each object is destroyed exactly once, when its last owner lets go; its members exist while its destructor runs and are destroyed afterwards, the last one first; at every moment, also in the middle of nested destructors, an object exists exactly while it has an owner and its counter is the number of owners; and with finite destructors that create no objects every program ends.", "quantifier": "every program, every number of variables, objects and members, every destructor (which may look at the whole state to decide what to do next), every depth of nesting", "why_tests_cant": "what a destructor finds depends on which operation released the object and on all operations still in progress around it; the nesting depth is unbounded", "anchors": ["Source/Primitives/Pointer.h: Ptr, Ptr::Inc, Ptr::Dec, destructor and assignments"]}
{"id": "C70", "title": "Tuple elements are objects or references", "statement": "get<i>() of an element of type T always denotes the same object, shared with no other element of any tuple; an element of type T& denotes the variable it was bound to, and nothing is copied. Constructing a tuple from values or from another tuple gives every element of type T the value of its source and leaves every source that was not moved, and every other object, as it was; moving leaves moved-from objects behind, exactly where an element of type T was filled. Assigning gives every element of type T the value of its source unless the source refers into the assigned tuple, and makes every element of type T& refer to what the source denotes. Every statement on live tuples whose sources have values is defined.", "quantifier": "every program over any number of tuples and variables, every number of elements, every mixture of T and T& on both sides, every aliasing between tuples and variables, every element type with any moved-from value", "why_tests_cant": "the possible aliasing between references, their targets and the elements of other tuples is unbounded, and so are the histories that create it", "anchors": ["Source/Primitives/Tuple.h: TupleElement, TupleBase, Tuple constructors, assignments and get"]}
{"id": "C71", "title": "Lists of Ptr, on the stack and inside objects", "statement": "Adding, inserting, setting, removing, clearing, moving and destroying List<Ptr<T>>, where the objects have Ptr members and List<Ptr<T>> members themselves (trees, graphs), never uses anything deleted, deletes nothing twice and leaks no counter and no buffer, although destroying an element may delete objects and their lists in the middle of a list operation. Insert keeps all objects; every other operation changes the named list or variable as its name says, and afterwards exactly the objects that have lost their last reference are gone, with their members and lists. An index out of range is an error. The client has to keep an object alive whose list or member is being changed.", "quantifier": "every history of operations over any number of variables, objects and lists, every graph of objects, every length, growing and shrinking buffers, copies and moves of variables and of items of other lists", "why_tests_cant": "which objects die in the middle of which list operation depends on the whole graph; the graphs and histories are unbounded", "anchors": ["Source/Collections/List.h: List, ListBase, memory_management", "Source/Primitives/Pointer.h: Ptr"]}
{"id": "C72", "title": "Lists of strings", "statement": "Strings in lists behave as plain values: adding, inserting, setting, removing, searching, clearing, moving and destroying List<WString>, mixed with any statements on string variables, copying or moving variables and items of other lists into a list, gives every variable and every list exactly the values the same program gives on sequences of character sequences, with the same results and errors and no undefined behaviour; changing or destroying one string never changes another, whether they share a buffer or not. Every shared character buffer counts exactly the variables and elements using it, whatever moves inside growing and shrinking lists happened, and when all variables and lists are gone no counted buffer is left. Adding or inserting an element of the same list is excluded (see the property on own elements).", "quantifier": "every program over any number of string variables and lists, every statement on strings and every list operation, all indices including bad ones, every length and capacity", "why_tests_cant": "which strings share a buffer, and which moves inside a list buffer happen, depends on the whole history; histories are unbounded", "anchors": ["Source/Collections/List.h: List, ListBase, memory_management", "Source/Strings/String.h: ObjectString"]}
{"id": "C73", "title": "Dictionaries of strings", "statement": "A Dictionary<WString, WString> behaves as a finite map between character sequences: Add, Set, Remove, Clear, operator[], Keys(), Values(), Contains, Count, move construction, move assignment and destruction, mixed with any statements on string variables, with keys and values copied or moved from variables or taken from keys and values of dictionaries, give every variable and every map exactly the values, results and errors of the same program on finite maps, without undefined behaviour, and the keys stay in ascending lexicographic order. A key argument that is moved is emptied when the key is new and kept when it exists; when key and value name the same variable the key is taken first. Every shared character buffer counts exactly the variables, keys and values using it, and when everything is gone no buffer is left. Adding an entry from an element of the same dictionary is excluded (see the property on own elements).", "quantifier": "every program over any number of string variables and dictionaries, all keys, values, argument forms (copied, moved, elements of this or other dictionaries) and indices including bad ones", "why_tests_cant": "the order of keys, the sharing of buffers and the moves inside two growing and shrinking lists depend on the whole history; histories are unbounded", "anchors": ["Source/Collections/Dictionary.h: Dictionary", "Source/Collections/List.h: SortedList, List", "Source/Strings/String.h: ObjectString"]}
{"id": "C74", "title": "Strings when memory runs out", "statement": "When an allocation fails during a statement on strings, the statement ends with std::bad_alloc and changes nothing: every string variable keeps its value, a constructed variable does not come into being, an assigned one keeps its old value, and any later statement behaves as if the failed one had not been written. The counters of shared buffers stay exact, destroying all strings afterwards is safe and no memory is lost.", "quantifier": "every program over string variables, every statement, every choice of failing allocations (first or second of a statement), every history before and after", "why_tests_cant": "failing allocations cannot be provoked at every point of every history, and the damage shows only in later statements or as lost memory", "anchors": ["Source/Strings/String.h: ObjectString", "Source/Strings/String.h: ReplaceUnsafe", "Source/Strings/String.h: Buffer"]}
{"id": "C75", "title": "Lists and arrays when memory runs out", "statement": "When memory cannot be obtained during an operation of List or Array, including a requested size whose number of bytes does not fit size_t, the failure is reported and the container keeps its elements; an operation that reports no failure has the same results and leaves the same elements as with unlimited memory, and removing elements always succeeds. Every index that passes the range check of an Array refers to memory the array owns.", "quantifier": "every program over List variables, every choice of the statements during which memory cannot be obtained, every element type, all sizes and indices", "why_tests_cant": "whether a statement allocates depends on the capacity, that is on the whole history; sizes near 2^64 bytes cannot be tried", "anchors": ["Source/Collections/List.h: AllocateBuffer", "Source/Collections/List.h: ReleaseUnnecessaryBuffer", "Source/Collections/List.h: InsertUninitializedItems", "Source/Collections/List.h: Array"]}
{"id": "C76", "title": "Lists and arrays whose element moves throw", "statement": "When the move of an element throws during Add, Insert, RemoveAt or RemoveRange of a List, or when a move or a default construction throws during Resize of an Array, the list or array stays usable: no later statement is undefined, the number of its elements and their values are determined, it has its old elements and every element and buffer that is no longer reachable has been destroyed exactly once. When no move throws nothing is lost and the list or array is the plain sequence.", "quantifier": "every program over List variables, every history of an Array, every choice of the throwing move in every statement, every element type, whatever a move leaves in its source and a throwing assignment in its target", "why_tests_cant": "how many moves a statement makes depends on the capacity, that is on the history; each of them can be the one that throws, again and again", "anchors": ["Source/Collections/List.h: ReleaseUnnecessaryBuffer", "Source/Collections/List.h: InsertUninitializedItems", "Source/Collections/List.h: List::Insert", "Source/Collections/List.h: ListBase::RemoveAt", "Source/Collections/List.h: ListBase::RemoveRange", "Source/Collections/List.h: Array::Resize"]}
{"id": "C77", "title": "Functions that change function variables while they run", "statement": "While a Func runs its body may copy, assign, clear, destroy and call any Func variables, including the one it was called through, and what the function captured by value stays usable until the call returns; it is destroyed when no Func refers to the function any more.", "quantifier": "every program over Func variables and functions that capture Func variables, every body, every depth of nested calls, every interleaving of statements, calls, uses of captured values and returns", "why_tests_cant": "whether captured values survive depends on all copies of the Func that exist at that moment, that is on the whole history and the call stack; a read of freed memory often goes unnoticed", "anchors": ["Source/Primitives/Function.h: Func::operator()", "Source/Primitives/Function.h: ObjectInvoker", "Source/Primitives/Pointer.h: Ptr::operator=", "Source/Primitives/Event.h: Event::operator()"]}
{"id": "C78", "title": "The report of the unit test runner", "statement": "With failures suppressed the printed report is the tree of what ran: one line for every file, category and case, in order, indented by its depth, and below it an error line for every exception that left it. The totals at the end are the numbers of files and cases in the report, the passed ones are those with no error line below, and the process result is 0 exactly if the report has no error line.", "quantifier": "every set of files, every tree of categories and cases, every test code including caught exceptions and messages, every pattern of failures", "why_tests_cant": "the runner is what reports tests; the claim is about all trees and failure patterns", "anchors": ["Source/UnitTest/UnitTest.cpp: UnitTest::RunAndDisposeTests", "Source/UnitTest/UnitTest.cpp: UnitTest::RunCategoryOrCase", "Source/UnitTest/UnitTest.cpp: UnitTest::PrintMessage", "Source/UnitTest/UnitTest.cpp: RecordFailure"]}
{"id": "C79", "title": "Shared pointers when memory runs out", "statement": "If there is no memory for a reference counter, constructing a Ptr or ComPtr from a raw pointer, or assigning a raw pointer to a ComPtr, throws and leaves every other shared pointer as it was; nothing is released twice, used after it was released, or lost.", "quantifier": "every history of Ptr and ComPtr operations, with memory running out at any of the allocations", "why_tests_cant": "allocation failures cannot be provoked at every allocation of every history", "anchors": ["Source/Primitives/Pointer.h: Ptr::Ptr(T*)", "Source/Primitives/Pointer.h: ComPtr::ComPtr(T*)", "Source/Primitives/Pointer.h: ComPtr::operator=(T*)", "Source/Primitives/Pointer.h: ReferenceCounterOperator::CreateCounter"]}
{"id": "C80", "title": "Sort with elements whose copies throw", "statement": "If copying an element throws during Sort, the exception reaches the caller, nothing outside the sorted range has changed and the range still holds the same elements.", "quantifier": "every range, every comparison (with state, inconsistent or throwing) and every pattern of throwing copies, whatever a failed assignment leaves behind", "why_tests_cant": "a test throws at a few chosen copies of a few chosen arrays", "anchors": ["Source/Collections/Operation.h: SortLambda"]}
{"id": "C81", "title": "When and how often lazy lists call their functions", "statement": "A selector or predicate of a lazy list is called when the next value is wanted, in the order of the elements, once for each element that is needed and not at all for those that are not; Reverse, Intersect, Except and Evaluate read their argument when they are built. With functions that have effects, or that throw, a loop over the list runs the functions and its body in exactly this order, a break stops all calls, and an exception leaves the loop at once. First and IsEmpty stop at the first value; All and Any ask every element. Copying a lazy list to a container calls each function once for each element, and an enumerator can be used further after an exception passed through it.", "quantifier": "every pipeline of the lazy list operations, every selector, predicate and loop body that reads and writes a state, leaves the loop or throws, every initial state", "why_tests_cant": "a test counts the calls of a few functions in a few pipelines; the order in which effects happen matters for every combination of operations and every function", "anchors": ["Source/Collections/Operation.h: LazyList", "Source/Collections/OperationSelect.h: SelectEnumerator", "Source/Collections/OperationWhere.h: WhereEnumerator", "Source/Collections/OperationSequence.h: TakeEnumerator, SkipEnumerator, RepeatEnumerator, DistinctEnumerator, ReverseEnumerator", "Source/Collections/OperationConcat.h: ConcatEnumerator", "Source/Collections/OperationPair.h: PairwiseEnumerator", "Source/Collections/OperationSet.h: IntersectExceptEnumerator", "Source/Collections/OperationCopyFrom.h: CopyFromAlgorithm"]}
{"id": "C82", "title": "Graphs of shared objects in several threads", "statement": "Threads that each have their own Ptr variables may create, copy, move, reset and follow pointers to shared objects at the same time, and read their Ptr members. As long as no two operations on one and the same Ptr overlap with one of them changing it, nothing is undefined: whatever a Ptr refers to exists, an object is destroyed only when no Ptr refers to it and at most once, every statement has the effect it has in a single thread, and between statements the counter of an object is the number of Ptrs that refer to it. If members only refer to objects made earlier, exactly the objects the variables lead to are kept, and when all variables are empty every object has been deleted exactly once. No thread ever waits for another one.", "quantifier": "every graph of objects, any number of threads, every program of pointer statements in each of them, every schedule of their single accesses to counters and members", "why_tests_cant": "a race on a counter shows in one schedule of very many, and deletion of one object sets off deletions of others that interleave with everything else", "anchors": ["Source/Primitives/Pointer.h: Ptr, ReferenceCounterOperator", "Source/Basic.h: INCRC, DECRC"]}
{"id": "C83", "title": "Sorted lists, dictionaries and groups when memory runs out", "statement": "When memory cannot be obtained during an operation of SortedList, Dictionary or Group, the failure is reported and the container keeps its contents; an operation that reports no failure has the same result and leaves the same contents as with unlimited memory, and removing always succeeds and leaves a usable container.", "quantifier": "every program over a SortedList, a Dictionary or a Group, every total order of the elements or keys, every choice of the single allocations that fail within every statement", "why_tests_cant": "which of the up to four buffers of one statement grows depends on the whole history, and every combination of failures is possible", "anchors": ["Source/Collections/List.h: SortedList::Add, SortedList::Remove", "Source/Collections/Dictionary.h: Dictionary::Add, Dictionary::Set, Dictionary::Remove", "Source/Collections/Dictionary.h: Group::Add, Group::Remove"]}
{"id": "C84", "title": "How much memory strings and lists need", "statement": "Appending to a list costs a constant number of element moves on average and inserting or removing costs the elements behind the place; the buffer of a list is never larger than 5/4 of the largest number of elements it ever had; a string operation allocates no more than its result, copies, moves and parts of a string allocate nothing; and memory that is no longer needed is given back.", "quantifier": "every program of list statements on a list of any element type, every program over any number of strings, every text", "why_tests_cant": "the bounds are about all histories and sizes; a test sees single capacities", "anchors": ["Source/Collections/List.h: memory_management::InsertUninitializedItems, memory_management::ReleaseUnnecessaryBuffer, List::Add, List::Insert, List::RemoveAt, List::RemoveRange, List::Clear", "Source/Strings/String.h: ObjectString::ReplaceUnsafe, ObjectString::SubUnsafe, ObjectString::Buffer, ObjectString::Left, ObjectString::Right"]}
{"id": "C85", "title": "SelectMany, GroupBy and Aggregate with functions that have effects", "statement": "For functions that read and write a state and may throw: SelectMany hands out the lists that its function makes, one after the other, and calls the function once for each element, when the list is wanted; GroupBy hands out each key once, in the order of its first element, and under it every element with that key, and calls the key function once for each element; Aggregate calls its function once for each element, in order, between the code that makes the elements; First and Last take the first and the last value or the default; an exception of a function reaches the caller.", "quantifier": "every pipeline of lazy list operations including SelectMany at any place, every function with effects, every state, every loop body", "why_tests_cant": "the order and the number of calls depends on the whole pipeline and on what the functions do; tests use functions without effects", "anchors": ["Source/Collections/Operation.h: LazyList::SelectMany, LazyList::GroupBy, LazyList::Aggregate, LazyList::First, LazyList::Last", "Source/Collections/OperationConcat.h: ConcatEnumerator", "Source/Collections/OperationSequence.h: DistinctEnumerator", "Source/Collections/OperationWhere.h: WhereEnumerator"]}
{"id": "C86", "title": "Keys of the library's own types, and NaN", "statement": "Integers, strings, dates, smart pointers, and nullable values, pairs and tuples of them nested to any depth can be elements of a SortedList, keys of a Dictionary, Group and GroupInnerJoin, and elements of Sort: their comparison is a total order that agrees with ==, and every history on such a collection gives the answers of the sorted sequence or of the finite map. With floating point keys a NaN that would have to be compared raises an error and changes nothing, and whatever was stored under a key can be read and removed by that key.", "quantifier": "every nesting of these types, every history of operations, every array; for floating point every total order of the numbers and any positions of NaN", "why_tests_cant": "tests use a few integer and string keys; the nesting of types and the histories are unbounded", "anchors": ["Source/Strings/String.h: ObjectString::operator<=>", "Source/Primitives/DateTime.h: DateTime::operator<=>", "Source/Primitives/Pointer.h: Ptr::operator<=>, ComPtr::operator<=>", "Source/Primitives/Nullable.h: Nullable::operator<=>", "Source/Collections/Pair.h: Pair::operator<=>", "Source/Primitives/Tuple.h: Tuple::operator<=>", "Source/Collections/List.h: SortedList::IndexOfInternal", "Source/Collections/Dictionary.h: Dictionary, Group, GroupInnerJoin", "Source/Collections/Operation.h: Sort"]}
{"id": "C87", "title": "Dictionaries of Ptr", "statement": "Dictionaries of Ptr, on the stack and as members of objects that dictionaries keep, behave as finite maps from keys to references: Add, Set, Remove, Clear, operator[], Keys().Contains and moving a dictionary do to the map what their names say and answer accordingly, an Add of a key that exists or an operator[] of one that does not raises an error and changes nothing, an object exists exactly while a variable or a value refers to it, and removing or replacing the last reference deletes the object with its own dictionaries at once.", "quantifier": "every history of operations on any number of variables, objects and dictionaries, every key type with a total order, every graph of objects and dictionaries, as long as the object that a dictionary is a member of can be reached without the places the operation changes and a value of a dictionary is not stored under a new key of the same dictionary", "why_tests_cant": "deletions run inside dictionary operations and reach other dictionaries; the shapes of such graphs and the histories are unbounded", "anchors": ["Source/Collections/Dictionary.h: Dictionary", "Source/Collections/List.h: List, SortedList", "Source/Primitives/Pointer.h: Ptr"]}
{"id": "C88", "title": "What sorted lists and dictionaries cost", "statement": "Over any history a SortedList, and each of the two lists inside a Dictionary, moves the elements behind the places where elements are inserted and removed, and at most eleven more per operation; its buffer never exceeds five quarters of the largest number of elements it ever had, plus one. So filling a Dictionary in ascending key order costs a constant number of moves per key and in descending order about n*n/2 in all. Adding elements to a SortedList in their order costs a constant number of moves per element.", "quantifier": "every history of SortedList and Dictionary operations, every element, key and value type, every total order", "why_tests_cant": "the bound is amortised over unbounded histories with growing and shrinking buffers, for every order of insertion", "anchors": ["Source/Collections/List.h: SortedList, ListBase, ArrayBase", "Source/Collections/Dictionary.h: Dictionary"]}
{"id": "C89", "title": "Destructors that look at the collection they were kept in", "statement": "When an operation of a collection of Ptr gives up the last reference to an object, the destructor of the object runs in the middle of the operation. It can look at the collection: it sees the elements as they were before the operation or as they are after it, except that its own element cannot be read. This is for removing by index, by range and by value, replacing, Clear, Resize, moving another collection in and destroying the collection, for lists, arrays, dictionaries and groups. Exactly the objects without another reference, in the collection or outside, die, each once and in order.", "quantifier": "every collection of null and non-null references with any sharing among them and with the outside, every operation and argument, every destructor that runs", "why_tests_cant": "what is seen depends on where the elements lie, on which of them are shared and on the order of the moves inside the operation; a test that reads a destroyed element may still pass", "anchors": ["Source/Collections/List.h: ListBase::RemoveAt, RemoveRange, Clear, ~ListBase, operator=; List::Remove, Set; Array::Resize", "Source/Collections/Dictionary.h: Dictionary::Remove, Set, Clear; Group::Remove, Clear", "Source/Primitives/Pointer.h: Ptr::Dec, operator="]}
{"id": "C90", "title": "Destructors that add to the list they were kept in", "statement": "When an operation of a List of Ptr gives up the last reference to an object whose destructor adds pointers to the same list, the list afterwards has what the operation leaves, followed by the added pointers, and every added pointer is in the list or has been released. This holds of Set if the list has room for the added pointers, and whenever the released objects add nothing. Elsewhere it is false: without room every such operation is undefined; Clear is undefined with any room; RemoveAt leaves a null pointer and loses one of the added pointers, or the list counts elements that were never constructed; destroying the list loses all added pointers.", "quantifier": "every program of Add, Set, RemoveAt, Clear, Get and Count over one list, every function that says what the destructor of each object adds, every capacity", "why_tests_cant": "what happens depends on the capacity, that is on the history, on the position of the element and on how many pointers which destructors add", "anchors": ["Source/Collections/List.h: ListBase::RemoveAt", "Source/Collections/List.h: ListBase::Clear", "Source/Collections/List.h: ListBase::~ListBase", "Source/Collections/List.h: List::Set", "Source/Collections/List.h: ReleaseUnnecessaryBuffer", "Source/Collections/List.h: InsertUninitializedItems", "Source/Primitives/Pointer.h: Ptr::Dec"]}
{"id": "C91", "title": "Callbacks of events that throw", "statement": "A callback that throws ends the raise it is called in: the handlers before it and itself have been called once each, the later ones not; the exception reaches whoever raised the event, through nested raises, is caught once or leaves the program, and no callback runs between throw and catch. The events keep the handlers they have and can be raised, changed and destroyed as before. A raise that returns has called every handler once, also when exceptions were caught meanwhile.", "quantifier": "every number of events, every program and all callbacks, which may add, remove and drop handlers, raise events, throw and catch in any nesting, every exception", "why_tests_cant": "which handlers are skipped depends on addresses, on the point at which which callback throws and on how raises are nested", "anchors": ["Source/Primitives/Event.h: Event::operator()", "Source/Primitives/Event.h: Event::Add", "Source/Primitives/Event.h: Event::Remove"]}
{"id": "C92", "title": "Sorted lists and dictionaries with any comparison", "statement": "Whatever the comparison of the elements does (answers that contradict each other, that change from call to call, unordered answers, exceptions), sorted lists and dictionaries stay whole: every operation ends, touches only its own elements, and either takes full effect or, when comparing failed, leaves the container as it was. Add inserts exactly one element; Remove takes away exactly one, which the comparison called equal, or none; every other element stays in order. In a dictionary each key keeps a value: the one given with it, or with a key it was called equal to; keys and values never get out of step.", "quantifier": "every element, key and value type, every comparison with any state (consistent or not, throwing at any call) and every history of operations", "why_tests_cant": "the set of inconsistent comparisons is unbounded, and what a binary search does with them depends on every answer", "anchors": ["Source/Collections/List.h: SortedList::IndexOfInternal", "Source/Collections/List.h: SortedList::Add", "Source/Collections/List.h: SortedList::Remove", "Source/Collections/Dictionary.h: Dictionary::Add", "Source/Collections/Dictionary.h: Dictionary::Set", "Source/Collections/Dictionary.h: Dictionary::Remove"]}
{"id": "C93", "title": "Groups with any comparison of keys and any equality of values", "statement": "Whatever the comparison of the keys and the equality of the values of a group do (contradictory or changing answers, unordered answers, exceptions), every operation is defined and ends; the values of a key stay together in the order they were added; a failed comparison leaves keys and values as they were; Remove of a key takes away exactly one key, which the comparison called equal, or none; Remove of a value takes away the first value of that key that was called equal, or none, and leaves everything as it was if the equality throws. Every value list the group allocates is released when its key is removed, by Clear or by the destructor.", "quantifier": "every key and value type, every comparison of keys and equality of values with any state (consistent or not, throwing at any call) and every history of operations", "why_tests_cant": "the set of inconsistent comparisons is unbounded, and an exception can come from any single comparison of any operation", "anchors": ["Source/Collections/Dictionary.h: Group::Add", "Source/Collections/Dictionary.h: Group::Remove", "Source/Collections/Dictionary.h: Group::Clear", "Source/Collections/Dictionary.h: Group::~Group"]}
{"id": "C94", "title": "Searching lists and arrays with any equality", "statement": "Whatever == does (changing or contradictory answers, exceptions), IndexOf, Contains and Remove of a list and IndexOf of an array compare the elements with the item once each, from the front, and stop at the first one that is called equal; IndexOf gives its position or -1, Remove takes away exactly that element and keeps the others in order; when a comparison throws the exception leaves the operation and the list is unchanged.", "quantifier": "every element and item type, every equality with any state (consistent or not, throwing at any call) and every history of list operations", "why_tests_cant": "an exception or a changed answer can come at any single comparison of any operation of an unbounded history", "anchors": ["Source/Collections/List.h: Array::IndexOf", "Source/Collections/List.h: List::IndexOf", "Source/Collections/List.h: List::Contains", "Source/Collections/List.h: List::Remove"]}
{"id": "C95", "title": "Distinct, Union, Intersect and Except with any comparison", "statement": "Whatever the comparison of the elements does (contradictory or changing answers, unordered answers, exceptions), looping over Distinct, Union, Intersect or Except is defined and ends; it yields elements of the sources in their order; an element is passed over only if it was called equal to one already yielded or if the operation excludes it because of the second sequence; what Intersect yields was called equal to an element of the second sequence, and what Except excludes as well; an exception of a comparison leaves the loop. For a consistent comparison the result is exactly the set operation, keeping first occurrences.", "quantifier": "every element type, every comparison with any state (consistent or not, throwing at any call) and all sequences", "why_tests_cant": "the result depends on every answer of every comparison made by binary searches in lists of unbounded length, and comparisons can be inconsistent in unboundedly many ways", "anchors": ["Source/Collections/OperationSequence.h: DistinctEnumerator", "Source/Collections/OperationSet.h: IntersectExceptEnumerator", "Source/Collections/Operation.h: LazyList::Distinct", "Source/Collections/Operation.h: LazyList::Union"]}
{"id": "C96", "title": "Distinct, Union, Intersect and Except enumerators used on after an exception", "statement": "Whatever the comparison answers and whenever it throws, making an enumerator of Distinct, Union, Intersect or Except either succeeds or is left by an exception of a comparison of two elements of the second sequence, and every history of Next, Current, Index and Reset on it is defined: Next passes over elements called equal to one yielded since the last Reset or excluded because of the second sequence, yields the next other element, gives false only at the end of the source, or is left by an exception of a comparison, after which enumeration goes on with the following element; what Intersect yields was called equal to an element of the second sequence; Index is the number of elements yielded since Reset minus one; Reset starts over; a clone is at the same place, shows the same Current and passes over the same elements, or cloning is left by an exception of a comparison; no exception is swallowed; a Next that is left by an exception does not change Current. With a consistent comparison every history is the one of an enumerator of the exact set operation, keeping first occurrences.", "quantifier": "every element type, every comparison with any state (consistent or not, throwing at any call), all sequences and every history of calls", "why_tests_cant": "exceptions can come at any comparison of any binary search, and histories are unbounded", "anchors": ["Source/Collections/OperationSequence.h: DistinctEnumerator", "Source/Collections/OperationSet.h: IntersectExceptEnumerator"]}
