# Formal model of vczh-libraries/Vlpp in Rocq (Coq 8.16.1)

The model is in `rocq/theories/`. Each area `X` has

* `XModel.v` - total, computable Gallina functions; every definition cites the
  file and lines of `/repo` it models and says where it simplifies;
* `XSpec.v` (where a separate specification is needed) - short definitions
  that do not mention the model;
* `XProofs.v`, `XFacts.v` - lemmas;
* `XProps.v` - only `Theorem ... exact lemma. Print Assumptions ...` and the
  `Example`s showing that the hypotheses are met by concrete cases.

`Base.v` has the outcome type `res` and the checked array primitives shared by
all models, `BaseFacts.v` lemmas about them.

## Conventions

* `vint` is `Z` (unbounded); values that wrap in C++ carry an explicit
  `mod 2^64` (or a range test that yields `UB` for signed overflow) where the
  property is about wrapping.
* `CHECK_ERROR` throwing `Error` is the outcome `Err`; undefined behaviour
  (out-of-bounds access, use of freed or uninitialised memory, construction over
  a live object, signed overflow, ...) is the outcome `UB`; loops use structural
  recursion or fuel whose exhaustion is the outcome `NoFuel`. A theorem that says
  a run equals `Ok ...` therefore excludes all three.
* Histories: stateful classes are modelled by a `step` function over operations
  on numbered variables; theorems quantify over every list of operations from the
  initial state. An operation that is itself a caller's error (for example the use
  of a variable that does not exist) is excluded by a hypothesis on the list.
* External calls (C library, Windows, `rand`, allocator addresses, user callbacks)
  are parameters: section variables that become universally quantified arguments,
  or inputs of the operation.
* A property that the faithful model violates gets a theorem `..._refuted` with a
  concrete witness, listed in "Findings"; the strongest true version is stated
  next to it, with the suffix `_partial` if it covers only part of the claim.

## Plan per property

| id | files | what is modelled | proof shape |
|----|-------|------------------|-------------|
| C01-C07 | `Utf` | From32/To32 of the five encodings on code units, the reader classes as state machines over a source in memory with one sentinel, cluster bookkeeping, the two-pass converter | arithmetic case analysis against the RFC bit layout; induction over the source; window invariant |
| C08-C13 | `Str` | heap of counted buffers (raw, freed and live blocks), string variables as windows, every constructor and operator | invariant over histories; refinement to lists of characters |
| C14 | `Num` | decimal printing into a buffer, strtol-style parsing, the round-trip test | induction on digits |
| C15-C18 | `Lst` | buffers of slots (raw, live, moved), memory_management primitives, List, Array | refinement to lists over histories |
| C19, C20 | `Srt` | binary search, insertion, copy constructor | sortedness invariant, permutation |
| C21-C26 | `Dct` | Dictionary, Group with heap-allocated value lists, enumerators, join | refinement to association lists |
| C27, C34 | `Qs`, `Qst`, `Ord` | in-place quicksort on arrays with bounds checking, recursion depth, OrderBy, OrderBy over any pipeline of lazy lists | loop invariants, fuel bounds |
| C28, C29 | `Gph` | Kosaraju with visited/component arrays, the three Init functions | DFS finishing-order argument |
| C25, C30-C33, C35, C36 | `Lzy` | every enumerator class as a constructor of one inductive family; Next, Current, Index, Reset | simulation by lists |
| C37 | `Cpy`, `Cpd` | the four CopyFrom algorithms and the string overload; dictionaries and groups as source and destination | loops against lists and maps |
| C38, C39 | `Rc` | Ptr with counters, objects, members, deletion cascade | invariant over histories |
| C40 | `Par` | interleaving of atomic fetch_add/fetch_sub; whole object graphs are C82 | invariant over every schedule |
| C41 | `Com` | ComPtr | invariant over histories |
| C42, C43 | `Bom`, `Poa` | allocator blocks, quaternary tree | induction, path injectivity |
| C44, C45 | `Nul`, `Var` | slot lifetimes | invariant over histories |
| C46, C47 | `Tup` | comparison folds, OrderingOf | induction over widths |
| C48 | `Date` | conversions over C library / Windows oracles | modular arithmetic |
| C49 | `Glob` | storages with arbitrary initialisers and finalisers | induction over executions |
| C50 | `Evt`, `Evr` | handler lists sorted by address; callbacks as programs that add, remove, drop and raise | refinement to sets; traces |
| C51 | `Lorem` | the buffer loop and the word list of the source | loop invariant |
| C52 | `Ut` | tree of files/categories/cases with failures, options, filters | structural induction |
| C53 | `Case` | case conversion loops | map; wide variant refuted |
| C54 | `Cref` | collection references | induction over histories |
| C55 | `Fun` | invokers and Func variables | refinement to values |
| C56 | `For` | the loop iterator on top of `Lzy`, with enumerators made and freed | loop induction |
| C57 | `Lzh`, `LzhRead` | lazy lists and enumerators as heap objects; every method as a small program over the heap | refinement to trees (values) over histories, then simulation by the enumerators of `Lzy` |
| C58 | `Mb` | both passes of `wtoa`/`atow` over `wcstombs`, `mbstowcs` and their Windows counterparts; the translation is an oracle | induction over the characters written |
| C59 | `Flt` | doubles as integers in units of 2^-1074, `%f` exactly, the buffer of `ftoa`; `strtod` is an oracle | integer arithmetic on distances; spacing of doubles |
| C60 | `Spar` | String.h with every counter update, allocation and memory access a step of its own; threads interleave | ownership of chunks of the heap (`SparHeap`, `SparSafe`, `SparOps`); simulation of whole operations on values |
| C61 | `Uc` | the named conversion functions on string objects, `UnsafeCastFrom`, `ConvertStringDirect`, both configurations of `wchar_t` | each conversion is a `Str` statement after `Buffer()`; exact conversion of any units (`C07_any_units_exact`); induction over programs and paths |
| C62 | `Qst` | quicksort, binary search and insertion with a comparison that has a state and may throw | calls are measured by any function of the state that grows by at most one per call; recurrence for the worst case; agreement with `Qs` and `Srt` |
| C63 | `Pty` | Ptr with pointers as (object, sub-object), classes of variables, conversions, dynamic_cast and delete through a class; the hierarchy is a parameter with the rules of C++ | simulation by `Rc`; invariant on classes, deleters and a log of wraps and deletes |
| C64 | `Enu`, `Eng` | histories mixing list, dictionary or group operations with enumerators and references; a reference is a buffer number and a slot (for values of a group: container, buffer number, slot); loops whose body is a list of operations | simulation by positions in a plain sequence with its room; work-list, removal and endless loops by induction on the specification |
| C65 | `Exc`, `Exg`, `Exn`, `Exv` | each operation of List, Array, SortedList, Dictionary, Group, Nullable and Variant that constructs or assigns an element, cut off at the throwing construction or assignment; abandoned buffers are kept in the state | simulation by plain sequences for what stays in order; an invariant (fewer elements in the buffer than counted; a variant without object) that every later defined step preserves for what does not |
| C66 | `Own`, `Eng` | the operations of `Lst`, `Srt`, `Dct` with an argument that is a slot of the container's own buffer, read when the code reads it; the slot is gone if the buffer was replaced | every such call amounts to a call with a copy of some element or is undefined: one lemma about Insert, lifted to histories of lists, dictionaries and groups; sorted lists per call |
| C67 | `Mov` | several variables of one of the three types; moves on the member lists as in `List.h`; all groups share one heap | refinement to variables holding contents, move = hand over and leave nothing; for groups a frame lemma: an operation that works with the other groups' cells hidden does the same with them present |
| C68 | `Con` | Console on Linux (std::wcout with its badbit, std::getline), Windows consoles, Windows files and pipes; the operating system is the text still to be read and the text written | induction over the calls |
| C69 | `Dtr` | `Ptr::Dec`, its callers and the destruction of an object cut into tasks on a stack; the destructor body of an object is any function from the number of operations done so far and the state to the next operation | invariant over the tasks still to do, relating them to the counters; lexicographic order for termination |
| C70 | `Tpl` | construction, copy, move, assignment and access of `Tuple` over an explicit memory of objects; elements are objects or pointers | invariant (own objects are distinct and alive) over all programs; induction over the elements for each statement |
| C71 | `Lp` | element operations of `List` on addresses of the counter model `RcModel`, with buffers, capacities and the life time of elements; lists on the stack and in objects | each list operation is a plan of element operations; tracking of a world without deletions through the plan, then refinement to lists of references; induction over histories |
| C72 | `Sl` | element operations of `List` as string statements of `StrModel` on addresses: every constructor, assignment and destructor call on an element changes reference counters; buffers are ranges of addresses | each list operation is a plan of string statements, simulated on plain values at addresses; layout invariant (variables and buffers are disjoint, spare room holds no object); counters from the counting invariant of `StrModel` restricted to the named objects |
| C73 | `Sd` | `Dictionary<WString, WString>` as its two lists of strings in the world of `Sl`; searches compare string objects at addresses, arguments are addresses that may be moved from | binary search on addresses equals `SrtModel` on plain keys; the two insertions of an entry are two steps of `Sl`, with the address of the value argument unchanged by the first; maps of `DctSpec` |
| C74 | `Om` | `ObjectString` with character buffers and counters as separate allocations; every statement comes with the number of its allocation that throws; constructors abandoned half way, assignments that never happen | simulation with the blocks of `StrModel` for what succeeds, invariant "counters count the variables plus the lost ones" over all histories |
| C75 | `Lm` | the allocating functions of `List` with `malloc` returning null (buffer `[]`), the byte count of `AllocateBuffer` in 64 bits | each operation is undefined, equal to the one of `LstModel`, or leaves an empty list without buffer; simulation with sequences over all programs and all failure patterns |
| C76 | `Tm`, `Ta` | `List` whose element moves (constructions and assignments from rvalues, or copies) throw: each statement carries the number of the throwing move; `Insert`, `RemoveAt`, `RemoveRange`, `ReleaseUnnecessaryBuffer`, `InsertUninitializedItems` move by move, a ledger of constructed elements and buffers; in `Ta` one `Array`, with its constructors and `Resize` construction by construction | segment lemmas for the moving loops, exact description of the list after each failing move, simulation over all programs; refutations of the strong and of the leak guarantee are universal |
| C77 | `Fr` | `Func` variables as the `Ptr` variables of `Rc`, invokers as objects whose members are the captured `Func`s; a stack of running invokers; `Call`, `Use` of captures and `Return` interleaved with any statements | invariants of `Rc` (C38) plus: every running invoker exists exactly when some variable refers to it; frame lemma for an untouched local copy |
| C78 | `Rp` | the output of the test runner with failures suppressed: `PrintMessage`, `RecordFailure`, `RunCategoryOrCase`, `RunAndDisposeTests` with the chain of contexts and their indentation; lines as kind, indentation and text | printing the tree without contexts; additivity of counting lines by their indentation; induction over test code |
| C79 | `Pm` | `Ptr(T*)`, `ComPtr(T*)` and `ComPtr::operator=(T*)` when the counter cannot be allocated, on top of `Rc` and `Com` | the history without the failures (a failed assignment to an unshared ComPtr is `= nullptr`); frame lemma for the variable that is no longer counted |
| C80 | `Qc` | `SortLambda` with elements whose copy constructor and copy assignment throw, on top of `Qst` | lemma for one swap of two positions, then the invariant of C27 with the damage of at most one swap; agreement with `Qst` when nothing throws |
| C81 | `Lze` | the enumerators and loops of `Lzy` once more with functions that read and write a state and throw; `CopyFrom` to an array | a pipeline means a process (a tree of values and calls); simulation of every enumerator by its process, induction on the order "later value of a process"; link to C30 for functions whose results do not depend on the state |
| C82 | `Pgr` | objects with `Ptr` members, threads with `Ptr` variables, statements cut into the single accesses to counters and members, any schedule; overlapping operations on one member are a data race of the client | invariant over every schedule: counter = number of pointers + pointers on their way; a measure for termination; per-statement effect by following one statement through the steps of the others; order of creation for completeness of deletion |
| C83 | `Dm` | the functions of SortedList, Dictionary and Group that change something, on the lists of `Lm`; each statement says which of its up to four allocations fail | simulation by the containers of `Srt` and `Dct` that have memory: a container without memory is the same or an empty one with a wrong capacity |
| C84 | `Mem` | no new model: the capacities and the number of element moves of `Lst`, the blocks of `Str` | potential max(0, 5 count - 4 capacity) for the moves of a list; every owned block belongs to a string, strings that are not parts fill their block |
| C85 | `Lzg` (and `PMany` in `Lze`) | `SelectMany` as one more pipeline constructor of `Lze`, whose function makes a pipeline; `GroupBy` as the loop over keys with the loop over each group inside; `Aggregate`, `First`, `Last` | the simulation of C81 extended by the loop that builds the chain of `Concat` enumerators; nested induction over pipelines; counting the calls |
| C86 | `Key` (on `Tup`, `Date`, `Srt`, `Dct`, `Qs`) | a grammar of key types whose `<=>` and `==` are built from each other; floating point values as `option A` with `None` for NaN | the comparison equals a structural order (nested induction over the grammar); two comparisons that agree on what is in a container give the same steps, so C19, C21, C22, C26, C27 carry over; NaN: the first comparison of the search already fails |
| C87 | `Pd` (on `Lp`, `Srt`, `Dct`) | the values of every dictionary are a list of `Lp`, so buffers, counters and deletions are those of C71; the keys are a sorted list beside it; arguments are variables or `d[k]` | every operation is at most one operation of C71 that keeps to the rules of C71; the keys and values together are a finite map (lemmas of C21), and `acollect` of C71 says what goes away |
| C88 | `Cst` (on `Srt`, `Dct`, `Mem`) | nothing new: the counter of moved elements and the capacity are in the buffers of `Lst`; the specification counts the elements greater than, or not less than, the argument | each operation is compared with the elements behind its place from both sides; growing is paid by the potential of C84; ascending and descending histories are summed by induction; equal elements by where the search stops |
| C89 | `Ren` | the cells of a buffer of `Ptr` (destroyed, null, referring, just deleting its object) and the number of elements; every operation gives the state at each destructor that runs; dictionaries with their keys, groups with their lists. Destructors only look | the moves of `RemoveRange` and the loop of destructors by induction over the cells, giving for every dying object exactly what `Get` and `operator[]` answer; which objects die is a list computed from the elements |
| C90 | `Rea` | one list of `Ptr` with its buffer (numbered, so that a freed one is recognised), places without a Ptr, with one, or with one whose object is just being deleted; what each destructor adds is any function of the object; `RemoveAt`, `Set`, `Clear`, `~List` move by move | additions within the room and beyond it, then every operation against a sequence with room and a multiset of lost pointers; programs by induction; refutations are universal |
| C91 | `Evx` | the events of C50 with code that also throws and catches (`XThrow`, `XTry`); `operator()` catches nothing, so an exception leaves its loop | simulation as for C50, with a trace that records throws, raises left by an exception and catches; the trace grammar gives who was called; programs that do not throw are those of C50 |
| C92 | `Any` | `SortedList` (search, Add, Remove, IndexOf, Contains and the positional operations) and `Dictionary` with `<=>` and `<` as functions of a state that may answer anything or fail | the relations `any_step` and `pair_step` on plain lists say what each operation may do; induction over the search for termination and bounds, over the history for the rest; for comparisons that are functions the models of C19 and C21 (`C92_list_agrees`, `C92_dictionary_agrees`) |
| C93 | `Ang` | `Group` over the searches of `Any` for keys and of `Leq` for values, with value containers on the heap as in `Dct`; `new ValueContainer` happens before `keys.Add` | the relation `gr_step` on a list of keys with their values; an invariant that names every live container: those of the keys and those lost so far; for comparisons and equalities that are functions the model of C22 (`C93_agrees`) |
| C94 | `Leq` | `IndexOf`, `Contains` and `Remove` of `List` and `IndexOf` of `Array` with `==` as a function of a state that may answer anything or throw, between elements and items of different types; the other list operations from `Lst` | the relation `searched` on a plain sequence says which comparisons are made and what is found, and leaves no choice (`C94_determined`); induction over the elements, then over the history |
| C95 | `Ans` | a whole loop over `Distinct`, `Union`, `Intersect` or `Except` of plain sequences, with the sorted lists of `Any` (real buffers, binary search) and comparisons that may answer anything or throw; an exception ends the loop; the comparisons that cloning an enumerator makes when it copies its sorted list are left out | the relation `yields` says why each element is given or passed over; induction over the sequence; for a total preorder equality with the set operations on plain lists (`C95_exact`), which also justifies the plain lists that `Lzy` keeps in place of these sorted lists |
| C96 | `Dxn` | one enumerator of `Distinct`, `Union`, `Intersect` or `Except` over plain sequences as a state machine (`Next`, `Current`, `Index`, `Reset`) with the sorted lists of `Any`; a `Next` left by an exception leaves a state that is used on; cloning copies the sorted lists element by element, with comparisons that may throw (who owns the enumerators is not modelled here) | `dx_step` says what each call may do; induction over histories; looping is the loop of C95 (`C96_loop`); for total preorders every history equals that of an enumerator of the exact result (`C96_exact`) |

## What is not modelled

* Floating point text on Windows (`_gcvt_s` with 30 digits).
* MSVC structured exceptions, the memory leak detector.
* The configuration where `wchar_t` is UTF-16 (Windows), except DateTime (C48), multi-byte text (C58), the conversion
  functions (C61) and the character readers, whose `wchar_t` instance there is the `char16_t` code of C01 to C06 (Conversion.cpp:26-45).
* Failing allocation outside of strings (C74), lists and arrays of plain elements (C75), reference counters (C79), and sorted lists, dictionaries and groups (C83); exceptions thrown by element moves outside of `Add`, `Insert`, `RemoveAt` and `RemoveRange` of List and `Resize` of Array (C76), or by destructors; exceptions of elements outside of List, Array, SortedList,
  Dictionary, Group, Nullable and Variant (C65) and of `Sort` (C80).
* Compile-time machinery: overload resolution, CTAD, concepts, `KeyType`, `TypeTuple`. Where a run-time result
  depends on it (`TryApply`), it is a parameter.
* Memory orders weaker than sequential consistency (the code does not use them); data races on anything but reference
  counters and strings (`Par`, `Spar`); `Spar` loads the five fields of a shared string variable in one step.

Per-file simplifications are stated at the head of each `XModel.v`.

## Trusted base

* Coq's kernel (8.16.1) including `vm_compute`; `coqchk` accepts all files.
* `Print Assumptions` under every theorem prints "Closed under the global context". No axiom of the standard library
  is used by any theorem. (The only library axioms visible to `coqchk -o` come from `Coq.ssr.ssrunder`, which is loaded
  but not used.)
* The reading of the C++ source; nothing in `/repo` is executed.
* The specifications `XSpec.v` and the definitions used in the statements of `XProps.v`.
* The oracles: `isspace`-like classification and `strtol` saturation as described in `Num`; `mktime`, `localtime`,
  `gmtime`, `SystemTimeToFileTime`, `FileTimeToSystemTime` with the hypotheses stated in `Date`; `tolower` and its
  relatives with the hypotheses stated in `Case`; `rand` in `Lorem`; the translation of characters by `wcstombs`,
  `mbstowcs`, `WideCharToMultiByte`, `MultiByteToWideChar` in `Mb`; `strtod` as a correctly
  rounded reader of decimals and `sprintf("%f")` as a correctly rounded writer in `Flt`; allocator addresses in `Evt`.

## Seeding

`seeded/LOG.jsonl` has one line per wrong program tried: the definition edited, the edit, the claim it breaks, the
theorems that failed and, if any, the theorems that were tightened because of it.

## Findings

Behaviour of the code that contradicts a claim in `properties.jsonl` or is surprising; each item with a theorem name is
machine checked.

Strings and text
* Malformed UTF-8 is accepted: continuation bytes are not checked, overlong forms and surrogates decode
  (`C07_utf8_malformed_refuted`); an overlong zero ends a string early (`C07_utf8_overlong_zero_refuted`), and reading on after it goes on with the text behind it (`C07_stop_is_final_refuted`); the range
  reader drops an embedded zero (`C07_range_zero_dropped_refuted`). The final `IsInvalid` test of
  `UtfConversion<char8_t>::To32` is unreachable.
* A string with a zero or a lone surrogate inside is kept whole by conversions that are casts and cut by the others, so
  the result depends on the platform and on the path of conversions (`C61_zero_inside_refuted`,
  `C61_lone_surrogate_refuted`).
* C63: `Ptr<Base>(new Derived)` without a virtual destructor is undefined behaviour when the last Ptr goes
  (`C63_no_virtual_destructor_refuted`), while `Ptr<Derived>` converted to `Ptr<Base>` is fine.
* C64: a reference to an element dangles after other elements are removed, because the list gives room away
  (`C64_reference_after_remove_refuted`); removing the current element in a loop skips the next one
  (`C64_loop_removes_all_refuted`); the pair a dictionary enumerator stands on dangles after other keys are added
  (`C64_dictionary_current_refuted`), and so does the key a group enumerator stands on (`C64_group_key_refuted`), but
  not the value (`C64_group_value`).
* C65: when the copy of an element throws in Insert or Add, the list counts a slot without an element, and no defined
  program gets rid of it, so its destructor is undefined (`C65_insert`, `C65_insert_destroy_refuted`); the same for a key or value
  added to a Dictionary (`C65_dictionary_add_refuted`) or Group (`C65_group_add_refuted`, where a new key that was not copied also leaks a
  container: `C65_group_leak_refuted`), an element of a SortedList (`C65_sorted_add_refuted`) and a Variant that changes its alternative
  (`C65_variant_refuted`).
  A failed construction or Resize of an Array loses its elements without destroying them (`C65_array_new_refuted`,
  `C65_array_from_refuted`, `C65_array_resize_refuted`). A Nullable never gets out of order, but does not keep its value
  (`C65_nullable_strong_refuted`).
* C66: `x.Add(x[j])` reads freed memory when the list has to grow (`C66_add_refuted`), `x.Insert(i, x[j])` inserts the wrong
  element for j > i and reads a destroyed one for j = i (`C66_insert`, `C66_insert_copy_refuted`); the same for
  `d.Add(k, d[k2])` and `d.Set(k, d[k2])` with a new key k (`C66_dictionary_add_refuted`, `C66_dictionary_copy_refuted`).
  `s.Add(s[j])` of a SortedList without equal elements is always undefined (`C66_sorted_distinct`).
* C67: `x = std::move(x)` empties a SortedList, Dictionary or Group (`C67_self_move_refuted`).
* C62: `Sort` needs n(n-1) comparisons for every list that is already sorted and has no equal
  elements (`C62_sort_worst_case`), so no n log n bound holds (`C62_sort_n_log_n_refuted`).
* C34: `OrderBy` is not stable: equal elements may change places (`C34_stable_refuted`).
* A code point that the target encoding cannot represent ends the converted string (`C03_convert_prefix`).
* `Remove` and `Sub` accept some negative counts (`C09_remove_negative_refuted`, `C09_sub_negative_refuted`),
  `Remove(Length(), 0)` raises (`C09_remove_at_end_refuted`), and the range check itself can overflow
  (`C09_range_check_overflow_refuted`).
* `atoi(itoa(n))` fails for 64-bit `n` outside the 32-bit range (`C14_vint_round_trip_refuted`).
* `wlower`/`wupper` truncate to `char` (`C53_wide_refuted`), and all four functions stop at an embedded zero
  (`C53_zero_refuted`). `tolower` is called with negative values for non-ASCII `char`.
* LoremIpsum: a paragraph may end in a comma or blank (`C51_paragraph_ends_refuted`); for tiny lengths the empty text
  would be closer (`C51_closest_refuted`).

Containers
* `list.Insert(i, list[j])` may read a moved or freed element (`C15_insert_own_element_refuted`); self move assignment
  empties a list (part of the specification of C15).
* `RemoveRange` with a negative length is undefined (`C18_remove_range_negative_refuted`).
* `SortedList::IndexOf` need not return the first of equal elements (`C19_first_index_refuted`); its copy constructor
  steals the source (`C20_copy_refuted`).
* `Group::Remove(key, value)` returns true when the value is absent (`C23_remove_value_refuted`).
* `Reset` of the enumerators of Dictionary and Group always raises (`C25_dictionary_reset_refuted`,
  `C25_group_reset_refuted`), hence `Repeat` over them raises (`C30_repeat_dictionary_refuted`).
* `InitWithSubClass` keeps self edges (`C29_no_self_edges_refuted`) and raises for a sub class of an unknown item
  (`C29_sub_class_unknown_refuted`). `InitWith...` and `Sort` may be called twice on an empty graph.
* `Range` ending at the largest `vint` overflows (`C30_range_overflow_refuted`); `Skip(n).Take(0)` yields one element
  (`C31_take_zero_refuted`); `Skip(-1).Take(1)` yields nothing (`C31_skip_negative_refuted`).
  What every `Skip`/`Take` combination yields is `C31_exact`, `C30_exact`; when `Reset` and `Repeat` raise is
  `C25_reset_raises`, `C30_repeat_raises`.
* `CopyFrom(a, a)` empties `a`, appending a list to itself may read freed memory, a negative count drops elements
  (`C37_self_refuted`, `C37_self_append_refuted`, `C37_negative_count_refuted`). `CopyFrom(g, g, true)` on a group that is
  not empty never ends (`C37_group_self_append_refuted`).
* `PushOnlyAllocator::Get` beyond the end returns null, a negative index is undefined or raises; block size 0 divides by
  zero (`C43_get_range_refuted`, `C43_block_size`).
* Not stated as theorems: `memcpy(nullptr, nullptr, 0)` on the first insertion; elements of an Array of a trivially
  constructible type are uninitialised; `Sort` with a negative length.

* A range-based for loop whose first `Next` raises leaks the enumerator (`C56_leak_refuted`). Not a theorem: the loop
  iterator deletes in its destructor and is copyable.
* `Intersect` and `Except` leak an enumerator if reading the argument throws (`C57_intersect_leak_refuted`);
  `x = std::move(x)` empties a lazy list (`C57_self_move_refuted`).
* `_wtoa` and `_atow` on Linux: no terminator if the text just fits (`C58_terminator_refuted`), and a capacity of 0 is
  unlimited (`C58_capacity_zero_refuted`).
* `ftoa` on Linux prints six digits after the point: numbers below 2^33 may not survive (`C59_round_trip_refuted`),
  1e-7 prints as `0` and -1e-7 as `-0` (`C59_small_refuted`); in a locale with a decimal comma zeros are not removed
  (`C59_comma_refuted`). `atof_test` accepts the empty text (`C59_empty_refuted`).
* `Buffer()` of a string is a const member but replaces the fields of the string: on a substring seen by several threads
  it races with everything (`C60_shared_buffer_refuted`).

Running out of memory
* Joining strings (`+`, `Insert`, `Remove`) when the counter is allocated but not the buffer: the local string already
  owns the counter while its buffer is still the static terminator, and its destructor deletes it
  (`C74_join_refuted`). `Buffer()` whose second allocation fails leaves a string with the new buffer and the old counter
  (`C74_buffer_refuted`).
* A literal or character constructor whose second allocation fails loses the counter, `CopyFrom` loses the buffer
  (`C74_no_leak_refuted`).
* `malloc` is never checked: `Add` and `Insert` into a full list write through a null pointer (`C75_insertion_refuted`).
  Removing elements allocates, so `RemoveAt` can crash for lack of memory, or leave an empty list whose capacity is not backed by a
  buffer, which crashes at the next `Add` when memory is available again (`C75_removal_refuted`).
* `Array(size)` multiplies in 64 bits unchecked: with 2^61 elements of eight bytes it owns no bytes, reports `Count()` 2^61
  and `Set` passes its range check and writes outside of the buffer (`C75_array_size_refuted`).

Elements whose moves throw
* `Add`/`Insert` into a full list when the move of an element throws: the new buffer and the elements already moved into it
  are never destroyed or freed (`C76_growth_leak_refuted`), and with real moves the list is left with moved-from elements
  although it is the insertion that failed (`C76_growth_moved_refuted`).
* `Insert` in place: the last element has left the list, is never destroyed, and another element is there twice
  (`C76_in_place_refuted`). `RemoveAt`: the count is the old one, the element is gone and another is there twice
  (`C76_removal_refuted`); `RemoveRange` leaves some of the elements to remove and has others twice (`C76_range_refuted`); when the exception comes from the change to a smaller buffer, the element is removed although
  `RemoveAt` threw, and the smaller buffer is lost (`C76_shrinking_refuted`).
* `Array::Resize` whose construction number k throws leaves k moved-from elements in the array (none when moves are copies,
  `C76_array_copies`), and loses k objects and the new block (`C76_array_resize_refuted`).
* The list or array stays usable in all these cases: nothing is undefined in any history (`C76_history_partial`, `C76_array_history`).

Pointers and values
* A function that assigns to the `Func` it runs in destroys its own captures while it runs, when no other `Func` refers to it
  (`C77_replaced_refuted`); `f = next` with `next` captured by value in `f` reads freed memory (`C77_successor_refuted`).
  The same happens to an event handler that is removed, and whose handle is dropped, while it runs (`C77_event_ex`). Calling
  through a local copy avoids it (`C77_local_copy`).
* `p = p->next` with `p` the sole owner reads freed memory (`C38_assign_from_member_refuted`).
* `Detach` leaks the counter (`C39_counter_lost_refuted`) and with other owners leads to a double decrement
  (`C39_shared_refuted`). `p = p.Obj()` for ComPtr releases twice (`C41_self_assign_refuted`).
* Nullable: `x = x.Value()` is undefined when T is not copy assignable (`C44_own_value_refuted`).
* Variant: assigning a non-copyable alternative over another one leaves no object (`C45_noncopyable_refuted`); assigning
  a part of the held object is undefined (`C45_own_part_refuted`). `i_MoveAssign` tests move constructibility.
* `OrderingOf` of strong orderings only (or of nothing) is `partial_ordering` (`C47_all_strong_refuted`).
* Func made from a null function pointer is not empty and calling it is undefined (`C55_null_pointer_refuted`);
  move assignment takes `const Func&&`, so the source keeps its invoker (part of the specification of C55).

System
* DateTime on Linux wraps before 1970 and past 2^64 ms (`C48_before_1970_refuted`, `C48_later_refuted`); on Windows
  `Backward` before 1601 reads an uninitialised SYSTEMTIME (`C48_windows_backward_refuted`).
* Global storages: a finaliser that uses an earlier or its own storage leaves it initialised
  (`C49_finalize_earlier_refuted`, `C49_finalize_own_refuted`); at exit it may use a destroyed one
  (`C49_exit_later_refuted`); a throwing initialiser is never rerun (`C49_throwing_initialiser_refuted`).
* Event: handlers are called in the order of their addresses (`C50_order_refuted`); an rvalue argument is moved away by
  the first handler (`C50_rvalue_refuted`); a handler that removes itself hides the next one
  (`C50_self_removal_refuted`); adding a handler during a call may call the current one twice (`C50_adding_refuted`);
  a callback that removes its own handler and drops the last pointer to it destroys the function object it is running
  in (`C50_self_destruction_refuted`).
  `IsAttached` stays true after the event is destroyed.
* Unit tests with `/D`: a failure caught by the test itself leaves a dangling context (`C52_debug_catch_refuted`).
* `Ptr::Dec` deletes counter and object before it empties the variable, and assignments read their source after that. A
  destructor that copies or empties the variable being released uses a deleted counter (`C69_reads_busy_refuted`,
  `C69_writes_busy_refuted`), and in `v = w` one that destroys `w` makes the assignment read a destroyed variable
  (`C69_kills_source_refuted`).
* Moving a `Tuple<T&>` into a `Tuple<T>` takes the values away from the variables referred to (`C70_move_through_refuted`).
  Assigning to a `Tuple<T&>` makes it refer to the source instead of writing to its target, unlike `std::tuple`
  (`C70_assign_through_refuted`), so `t = std::move(u)` dangles once `u` is gone (`C70_dangling_refuted`). Default
  constructed elements of type int have no value (`C70_default_refuted`). Not expressible in the model: a `Tuple` with one
  element cannot be copied from a non-const variable, since the element constructor is the better match.
* `list = std::move(list[0]->children)` is undefined when the list holds the only reference (`C71_lift_refuted`), and so are `Clear` and
  `RemoveAt` of a list that holds the only reference to the object it is a member of (`C71_own_list_refuted`): the list is used
  after it was destroyed. `list.Add(list[0])` is undefined when the buffer is full (`C71_own_item_refuted`).
* Console on Linux writes a zero character after every `Write`, two with `WriteLine` (`C68_linux_output_refuted`), and the
  first character the locale cannot represent silences `std::wcout` for the rest of the program (`C68_linux_output_lost`);
  `light` selects the sequence without the bold attribute and `!light` the one with it. On Windows, redirected output
  ignores the length and writes up to the terminator (`C68_file_output_refuted`), reading drops whatever follows a carriage
  return and does not notice the end of the input (`C68_windows_input_refuted`). A text of 2^32 units or more written to a
  Windows console loses at least 2^32 of them (`C68_window_length_refuted`).
* `ComPtr::operator=(T*)` decrements the counter before it allocates the new one. If that allocation fails on a variable that
  shares its reference, the variable keeps the object without being counted: the object is released under it and destroying
  it uses the deleted counter (`C79_com_shared_refuted`). `Ptr(new T)` loses the object when the counter cannot be allocated
  (`C79_ptr_leak_refuted`).
* `Sort` swaps by copying: an exception of the last copy of a swap leaves one element twice and the other nowhere, even if
  assignments have the strong guarantee (`C80_lost_refuted`).
* Copying a lazy list to an `Array` enumerates it twice, so every selector and predicate is called twice for each element
  (`C81_array_calls_once_refuted`); a predicate that depends on a state makes it fail, although copying to a `List` works
  (`C81_array_works_refuted`). `All` and `Any` ask every element, also when the answer is known
  (`C81_all_any_ask_every_element`). After an exception of a selector passed through `Next`, `Skip` has forgotten what it has
  to skip, `Pairwise` takes the wrong partner and `Current` of `Select` is the value before
  (`C81_skip_after_exception_refuted`, `C81_pairwise_after_exception_refuted`, `C81_current_after_exception_refuted`).
* In several threads too, `p = p->f` with `p` the only pointer to its object reads a destroyed object
  (`C82_self_load_refuted`), and objects that refer to each other are never deleted (`C82_ring_refuted`). With other programs
  there is no undefined behaviour under any schedule as long as operations on one and the same `Ptr` do not overlap
  (`C82_safe`).
* Dictionary and Group never notice that `malloc` failed: `Add` is undefined exactly when a full buffer has to grow
  (`C83_dictionary_add_refuted`, `C83_group_add_refuted`; only the `new` of a group's container throws, before anything is
  changed). `Remove` of the last key can succeed and leave a dictionary whose next `Add` is undefined (`C83_remove_refuted`).
* A list gives memory back only with at most eight elements left: emptied by `RemoveAt` it keeps a fixed fraction of its
  largest buffer (`C84_shrink_refuted`, `C84_emptied_refuted`; `Clear` frees it). One character taken with `Left`, `Right`
  or `Sub` keeps the memory of the whole text alive (`C84_left_refuted`); `Buffer()` lets it go, but not for a part that
  ends where the text ends (`C84_right_refuted`).
- C85: `SelectMany` is not lazy: it calls its function for every element when it is called, also if only the first value is
  read (`C85_select_many_lazy_refuted`), and the enumerator it makes is as deeply nested as the list is long, so `Next`,
  `Clone` and the destructor recurse once per element (`C85_select_many_depth_refuted`). `GroupBy` calls the key function
  once for each element and once more for each element and each group (`C85_group_by_calls_once_refuted`); an element
  whose key changes between the calls is in no group (`C85_group_by_complete_refuted`).
- C86: a `Dictionary<double, V>` that is empty accepts NaN as a key. From then on every operation with any key raises an error,
  `Remove` included, so only `Clear` makes the dictionary usable again (`C86_nan_stored_refuted`). `GroupInnerJoin` does not
  check for unordered keys: it joins NaN with any number (`C86_nan_join_refuted`).
- C87: `d.Add(k, d[k2])` and `d.Set(k, d[k2])` for a new key `k` read the value after the insertion has moved it away, when the
  buffer is full and when `k` comes before `k2` (`C87_own_value_refuted`). `Remove` and `Clear` on a dictionary that only one of
  its own values keeps delete the dictionary while it is being used (`C87_own_dictionary_refuted`).
- C88: `SortedList::Add` of an element equal to present ones inserts in the middle of them, where the binary search happens to stop, so
  adding n equal elements moves about n*n/4 elements although every one could go to the end (`C88_equal_elements`,
  `C88_in_order_refuted`). A `Dictionary` filled in descending order moves n(n-1)/2 keys and values (`C88_descending`).
- C89: a destructor that looks at the collection that gives up its object can see a state that is neither the one before nor the one
  after. During `Dictionary::Remove` the key is gone already but the value is not: the next key reads the dying object and every later
  key reads the value of its predecessor (`C89_dictionary_remove`, `C89_dictionary_remove_refuted`). During `Array::Resize` to a smaller
  size all kept elements read as destroyed, they are in the new buffer already (`C89_resize`, `C89_resize_refuted`). During
  `RemoveRange` null pointers appear between the elements (`C89_remove_range_refuted`). While a list is destroyed or another one is
  moved in, `Count()` is unchanged and the elements before are destroyed (`C89_destroy`, `C89_move`), although `Clear` sets it to 0
  first. After the keys of another dictionary are moved in they read the old values (`C89_dictionary_move`). `Group::Remove(key, value)`
  of the only value shows the key with no value (`C89_group_remove_value`); `Group::Clear` shows keys with deleted lists
  (`C89_group_clear`).
- C90: a destructor that adds to the list that gives up its object: `Clear` sets the capacity to 0 before it destroys the elements, so
  the first `Add` frees the buffer under the loop (`C90_clear_refuted`). `RemoveAt` counts down from the new number of elements: the
  list has a null and the last added pointer is neither in the list nor released (`C90_remove_refuted`). For the last element the
  added pointer is constructed in the place that is being destroyed; if the buffer then shrinks, elements are counted that were never
  constructed (`C90_remove_last_refuted`). `~List` and move assignment lose everything that is added (`C90_destroy_refuted`), and `Set`
  works only without reallocation (`C90_set_partial`).
- C91: one throwing callback keeps every handler with a higher address from being called in that raise (`C91_cut`); which handlers these are
  depends on the allocator, because handlers are sorted by address (C50).
- C92: with a comparison that contradicts itself a dictionary can hold one key twice, and what was added may not be found again (`C92_dictionary_case`); memory and pairing are not affected
- C93: `Group::Add` of a new key allocates the value container before it places the key; a comparison that throws while placing it leaves the
  empty container allocated for good (`C93_released_refuted`). Each failing `Add` loses at most one; without failing comparisons nothing is
  lost (`C93_released_partial`).
- C35: `GroupBy` finds its keys with `<=>` and its values with `==`; when `<=>` calls keys equal that `==` tells apart, values whose key was passed over
  are in no group (`C35_group_by_disagreeing_refuted`)
- C96: `Next` of a `Distinct` enumerator (also used by `Union`, `Intersect` and `Except`) assigns `lastValue` before `distinct.Add`; an exception of a comparison there leaves `Current` showing an
  element that was not yielded, with `Index` unchanged, and the loop that goes on never yields that element (`C96_current_refuted`).
  Cloning compares again and may throw too (`C96_clone`); from reading only: the copy constructor then loses the source enumerator it has just cloned
