# Formal model of bytefacets/collections in Rocq (Coq 8.16.1)

The properties are in `properties.jsonl`; claims and theorem names in `MANIFEST.json`;
mutation experiments in `seeded/LOG.jsonl`.

## 1. Shape of the development (`rocq/theories`)

* `JBase.v` - Java semantics used everywhere: 32/64-bit two's-complement wrap, arrays as
  `list`s with `Z` indexes and an explicit IndexOutOfBounds outcome, and the monad
  `M S A = S -> res A * S` with `res A = Ok a | Exn e | Loop`.  The state is returned
  *also* when an exception is thrown, so half-done mutations stay visible.  `Loop` is the
  outcome of a Java loop that does not finish within its fuel; theorems exclude it.
* `X_Model.v` - model of one component, function by function, each definition citing
  file and lines.  No proofs in there.
* `X_Spec.v` - small independent specification (ordinary lists, finite maps, relations).
* `X_Proofs.v` - invariants and lemmas.
* `X_Props.v` - only the property theorems (`Theorem ... exact lemma.`), the non-vacuity
  examples and `Print Assumptions`.

## 2. Modelling rules

* Java `int`/`long` are `Z` with the wrap written explicitly (`i32`, `i64`) wherever the
  value can leave the range within the property's scope: hash masking, capacity
  doubling, `entry + 1`, `row * numFields`, `offset + len`, comparator subtraction,
  modification counts, shifts.  Counters that are bounded by an array length
  (`size++`, `head`, `tail`) are plain `Z`.
* Templates are modelled generically: element types are type parameters, the equality,
  hash and comparator functions are parameters with explicit hypotheses (equivalence
  consistent with hash; total preorder), then instantiated at concrete key types.
* `double loadFactor` is a dyadic rational (every finite double is one) or NaN/infinity;
  `(int)(capacity * loadFactor)` is exact because capacities are powers of two.
  `Math.ceil((double)a/(double)b)` with `b` a power of two is exact ceiling division.
* Not modelled: memory exhaustion, garbage collection, `ArrayStoreException`/casts of
  generic arrays, string formatting of messages, running time (except the number of elements that
  growing copies, C97, and comparator calls, C77, C98).

## 3. Per-property plan

| id | model | proof method |
|----|-------|--------------|
| C01-C03 | `nextPowerOf2`, `calculateNewCapacity`, `grow`, `ensureSize`, `ensureEntry` over wrapped ints | arithmetic with `Z.log2`; doubling loop on fuel, induction; overflow cases as `_refuted` |
| C04-C07 | byte stores/loads in the exact Java order over a byte array; `Pack` | bit/base-256 arithmetic; symbolic execution of the stores |
| C08-C09 | comparators as functions on wrapped ints | arithmetic; refutation with `vm_compute` for int subtraction / MIN_VALUE |
| C10 | integer formulas; the calendar once more, month by month (`on_calendar` in `Calendar_Props`) | arithmetic |
| C11-C13 | `nextId` as an atomic state transformer over a clock, and a small-step multi-thread machine with the monitor | invariant over reachable configurations of the small-step machine; refutation for regressing clocks |
| C14 | Vector | refinement to `list` |
| C15-C16 | chunked arrays, mask/shift exactly as coded | refinement to a total function; the mask defect as an iff / refutation |
| C17-C18 | circular buffer | refinement to `list` over arbitrary op lists; capacity limit explicit |
| C19-C21 | linked lists in arrays with shared free list | refinement to `Z -> list V`, doubly-linked segment predicate |
| C22-C29 | tree/inverse/keys/values arrays | permutation + heap-order invariant, refinement to `gmap entry (key * value)` |
| C30-C43 | heads/nexts/keys/values, free list, rehash, iterator, copyFrom | chain segments indexed by the abstract map; simulation of a nondeterministic abstract machine |
| C44-C48 | `Side` lists on top of the index model | refinement to a set of pairs; defects as refutations |
| C49-C51 | quicksort/insertion sort on two arrays with fuel | permutation invariant for any comparator; partition invariant and strong induction for sortedness |
| C52-C53, C69 | predicates, string comparators, casts of the integer and boolean types | case analysis, lexicographic order by induction |
| C54-C55 | `hasBit/setBit/...`, node id from a host name | `Z.testbit` extensionality |
| C56-C58 | the heap at concrete comparators, `findFirstEntry`, the full heap | corollaries of C22-C29; counting |
| C59 | `Side.forEachEntry` with removals in the callback | simulation of the iteration over the abstract set |
| C60 | every prefix of a sort (the comparator throws) | permutation invariant over the state returned with the exception |
| C61, C67 | sort and heap at the library's comparators | corollaries of C50/C22 through C08 |
| C62-C66, C68 | floats and doubles as Flocq `binary32`/`binary64`; raw bits, casts, `EqEpsilon` | Flocq's real-number semantics |
| C70-C71, C10_sql_date | `Integer.parseInt` and friends over digit lists, `convert` over a small universe of boxed objects | induction over the digits; case analysis |
| C72 | the finite map `gmap` keyed by value that the calls describe | instance of C30/C34: the default functions decide equality |
| C73-C74 | relations between keys (`gset` of pairs) and what the calls must print, from the history alone | invariant linking the two indexed collections and the associations (`App_Link.linked`) |
| C75-C76 | multisets of items added, acknowledged, reported, waiting; order of the reports | invariant from the heap theorems C22-C24; induction over the reports |
| C77 | the sort under an arbitrary comparator with a call counter (`Sort_Any`) | tracking of the pivot's position by self-equality; induction on the range; counting of calls |
| C78 | rows by key (`gmap`), from the calls and their results alone | invariant relating the abstract set (C30-C34) and the two store maps (C15-C16) through the row numbers |
| C79 | the iterator's position and the entries delivered, from the calls and their results alone | the entries still to come as an invariant over any order of iterator and collection calls |
| C80 | index by index: copies, resized, filled (`Array_Spec`) | induction over the fill loop; `grow_terminates` (C03) |
| C81 | the most entries in use over the whole history (`busiest`, `fullest`), the table size as a function of it | the calls that keep the capacity, along their structure (`Keep`); the threshold invariant of C33 |
| C82-C84 | the heap with a comparator that is arbitrary stateful code, and the list of its calls; entries, keys and values from the history (`Heap_Spec`) | the invariant of C22-C29 without its order, at every step of the filters; counting with `log2`; simulation for comparators that are functions |
| C85-C87 | each call of the collection as a relation between the calls of the two functions with their answers, the result, and the entries with the code last answered for each (`HashC_Spec.effect`); the entries from the history alone (`tracked`) | the invariant of C30-C34 on keys paired with their entry number, so that every key is different and the codes are a function of the entry (`HashC_Ghost`); simulation for functions without effects |
| C88 | where in its list each live iterator stands, from the calls and their results alone (`HydraI_Spec.lspec`) | the entry each iterator holds is the one at its place in the list's chain of entries, through every call |
| C89 | what C79 tracks, for each iterator; only modifications concern the others (`Iters_Spec.mspec`) | each iterator satisfies the invariant of C79 with the one collection, or is stale with a count that is behind by the number of removals |
| C90 | the consumer's calls and the deliveries in order, the content and the delivered entries after each (`Each_Spec.tally`) | along the walk the chains lose only entries already delivered; induction over the consumer's program and the chains |
| C91 | the contents and the position of the next delivery after each event (`Loops_Spec.vnext`, `dnext`) | the array position of the next delivery stays put while front and back move; induction over the consumer's program and the fuel |
| C92 | the pairs, the entries newest first, each Mapping's key and what each iterator has still to deliver, `None` once it has lost its place (`MapI_Spec.mspec`, `manswer`) | the chain of a key is the entries filtered by key; an iterator stands on a suffix of a chain; the collection part is the invariant of C44-C48 |
| C93 | the same, with the events of a loop (`MapI_Spec.enext`, `considerate`, `missed`) | every event of the loop is a call of C92; induction over the consumer's program and the fuel |
| C94 | the entries with their keys and the entry number the loop goes on from, after each event (`HeapE_Spec.hnext`) | between deliveries nothing changes, so the entries passed over are not in the heap; induction over the consumer's program and the fuel |
| C95 | the pairs by entry and the entries delivered, after each event (`BiE_Spec.bnext`); what the consumer may do given an entry (`polite`) | every call moves the chains of the set as one or two calls of C90 do; induction over the consumer's program, a chain and the heads |
| C96 | the elements of the abstract lists (`Held_Spec.only`); the key and value in every slot of a heap from the calls and their results (`HeldH_Spec.slot_step`); the calls after which slots of a set or map are reset (`HeldM_Spec`) | the unused cells of vectors, deques and hydra deques hold the default; heap slots simulated exactly; a call of a set or map changes a cell only to the default, except that of the entry it adds |
| C97 | the lengths of the arrays copied, added up over a history (`Amort_Spec.copied`), and the most elements there were | the array doubles at least, and only when it is needed: copied + first length <= length, and the length is below twice the most elements; capacities from C81 |
| C98 | the sort, the keys equal to one of a list of keys (`Sort_Few.among`), counting of calls | every partition sets the keys equal to the pivot aside, so each half has fewer of the listed keys |
| C99 | the sort over a state with one array; `copyFrom` whose reads of the source are reads of the object being changed (`Same_Model`) | simulation by the sort of two equal arrays (`Same_Proofs.like`); the self copy computed and compared with the copy from an equal object; then C50, C37 |
| C100 | the pairs of the range equal to a key, in order (`Sort_Spec.ties`); peek() before and after an insertion | swapping unequal neighbours keeps every such list; filterUp writes the root only when the key is smaller than that at the root |
| C101 | the Code and Equal events of a call (`HashC_Spec`), the keys forEach delivers, congruence modulo `capacity()` | a call compares along one chain (C85), whose keys all have the same remainder; keys of an interval no longer than the capacity have different ones |
| C102 | equality of all fields before and after (`Look_Props.looks`), histories without the queries | case analysis of every query; induction over its loop, and over the history |
| C103 | a list of typed values with their endianness, the base-256 digits of each (`Record_Spec.encode`), `splice` | one write replaces a window (C05); adjacent windows join to one; induction over the fields |
| C104 | two histories of the same calls on differently configured objects; which calls are compared (`Config_Hash.told`, `Config_Props.vtold`, `Config_Heap.asks`) | the answers are determined by the abstract state (C14-C17, C19, C30-C33), which is the same in both; induction over the calls; for heaps, which the abstract state does not determine among equal keys, a third heap that both extend by unused room |
| C105 | the heap model (C22-C29) without any condition on the comparator; a heap filled with 2^30 + 1 equal keys, described by a predicate | the heap invariant; refutation beyond 2^30 entries by induction over the inserts |
| C106 | the ideal contents of C30 (`Hash_Spec.content`), the keys in a heap (C22-C29), the pairs of a range (C49/C50) | both objects agree with the same ideal map, and their live entries correspond one to one; two sorted rearrangements of the same keys are equal position by position, by induction |
| C107 | one call with a bad argument in any reachable state; the bounds are those capacity() reports | the lengths of the arrays from the invariants of C22-C29 and C30-C42; evaluation of the call; refutations by computed witnesses |
| C108 | the two constructors and a history of schedule, cancel, poll, priorityOf; spec: a finite map from jobs to priorities (`Sched_Spec`) | the map and the heap refined to finite maps (`Sched_Hash`, `Sched_Heap`, from C22-C29 and C30-C36); invariant: the map's value of a job is the heap entry whose value is that job; induction over calls and over polls |
| C109 | the two constructors and a history of push, poll, size, list; spec: a finite map from keys to lists (`Keyq_Spec`) | the set refined to an injective finite map from keys to entries (`Keyq_Set`, from C30-C36), the deque to a finite map from ids to lists (`Keyq_Deque`, from C19-C21); invariant: a key's list is the deque's list of its entry, all other lists are empty; induction over calls |
| C110 | the two constructors and one search over the caller's successor function; spec: paths and shortest paths of the graph (`Bfs_Spec`) | the map refined to a finite map (`Sched_Hash`, `Bfs_Hash`, from C30), the deque to a list (`Bfs_Deque`, from C17); invariant of the loop: the list is sorted by distance within two levels, keys that have left it have their successors in the map; fuel bounded by the number of keys within reach |
| C111 | the three constructors and one search over the caller's edges; spec: walks and their costs (`Dij_Spec`) | the queue of C108 refined to a finite map of priorities, the distances to a finite map; invariant of the loop: no settled key is farther than a waiting one, the edges of settled keys have been followed, distances are at most the number of settled keys times the greatest cost (so that long sums do not overflow); fuel bounded by the number of keys within reach |
| C112 | the three constructors, adding any items to the runs, one merge; spec: the items of a run and sorted lists (`Merge_Spec`) | the deque refined to the lists of `Hydra_Spec` (from C19), the heap to a finite map (`Sched_Heap`), the vector to a list; invariant of the loop: the heap has one entry for each run with items left and holds the run's next item; the written items are before all others; fuel bounded by the number of items |
| C113 | a new heap, any stream of items, one drain; spec: the best k items of a list (`best` in `Topk_Props`) | the heap refined to a finite map (`Sched_Heap`); invariant: the items of the map and those left out are the items given, none left out has a greater priority than one held |
| C114 | every history of the calls of `Bi_Model` but `BEntriesRemove`, with any results; spec: the pairs after a call, from what the caller saw of it (`after`, `becomes` in `Half_Props`) | only the part of the invariant of C44 about the underlying set is kept (`minv`): the sides never touch the set, and never throw the exception of the full set |
| C115 | as C101, for keys that are packed pairs (`Spread_Props`) | the codes of pairs with a common key differ as the other keys do; a search that finds nothing has tried every entry of its chain (C85); the pairs (i, i xor j) of a grid all have code j |

Everything above can be expressed; nothing is declared not applicable.

## 4. Trusted base

### 4.1 The checker

* Coq 8.16.1's kernel and its `vm_compute` reduction (used by Examples and refutation
  witnesses); the compiler, runtime and hardware under it.  No `native_compute`, no
  plugin, no switched-off check, no axiom, admitted proof, module type or functor here.
* Libraries: the standard library, std++ (finite maps, lists) and Flocq (IEEE formats).

### 4.2 Print Assumptions

Every `_Props` file ends with `Print Assumptions` for each of its theorems.  The result
is one of:

* **Closed under the global context** - every theorem not listed below.
* **Standard-library axioms that come with Coq's real numbers and Flocq** -
  `ClassicalDedekindReals.sig_forall_dec`, `ClassicalDedekindReals.sig_not_dec`,
  `FunctionalExtensionality.functional_extensionality_dep`, `Classical_Prop.classic`:
  C08_float_order, C08_double_order_partial, C08_double_refuted, C43_* (all five),
  C62_* (all five), C63_predicates, C64_round_trip, C64_read_write, C65_double_exact,
  C65_float_nearest, C66_epsilon, C66_tolerance, C67_* (all six), C68_* (all three),
  C77_library_floats, C71_box_partial, C71_null, C71_floating, C71_integral_to_floating,
  C71_booleans, C71_strings, C71_unbox_number, C71_refused, C103_round_trip, C103_replace, C103_any_bytes.
* `ClassicalDedekindReals.sig_forall_dec` and
  `FunctionalExtensionality.functional_extensionality_dep` only: C65_cast_to_int,
  C65_cast_monotone, C71_floating_narrow.

No other axiom is used anywhere.

### 4.3 What is modelled

All line references are in the definitions' comments.  The model is a reading of the Java
and FreeMarker text by hand; that reading, and the readings of JDK functions marked `(JDK)`
in the comments, are trusted.

| model file | code |
|---|---|
| `JBase` | Java `int`/`long`/`short`/`byte`/`char` arithmetic, arrays, `System.arraycopy`, exceptions |
| `Num_Model` | `NumUtils`, `CapacityCalculator`, `arrays/KeyArray.ftl` (create, grow, ensureSize, ensureEntry, fill, copy) |
| `Codec_Model` | the read/write methods of the `*Type` classes, `Pack` |
| `Types_Model` | comparators, predicates, hashes, casts, bit flags, date/time integers of the integer, boolean, string and generic types |
| `Float_Model` | the same for `FloatType`, `DoubleType`; raw bits |
| `Convert_Model` | `parse*`, `toString`, `convert`, boxing of all types |
| `Snowflake_Model` | `id/Snowflake.java`: constructor, `nextId` (sequential, and small-step with threads), parsing, node ids |
| `Vector_Model`, `Deque_Model`, `Hydra_Model`, `Store_Model` | `KeyVector.ftl`, `KeyDeque.ftl`, `KeyHydraDeque.ftl`, `KeyChunkStore.ftl`, `KeyChunkMatrixStore.ftl` |
| `Heap_Model` | `BaseHeap`, `BaseKeyHeap.ftl`, `KeyValueHeap.ftl` |
| `HeapC_Model` | the same methods with `comp.compare` as arbitrary user code that may keep state, throw or loop, but not call the heap |
| `Hash_Model` | `BaseHash`, `BaseKeyIndex.ftl`, `KeyIndexedSet.ftl`, `KeyValueIndexedMap.ftl` |
| `HashC_Model` | the methods of `Hash_Model` that use `hashFunc` or `equalFunc`, with these as arbitrary user code that may keep state, throw or loop, but not call the collection |
| `Bi_Model` | `Side`, `CompactOneToMany`, `CompactManyToMany`, `Mapping` |
| `Sort_Model` | `KeyValueCompanionSort.ftl` |
| `Keys_Model` | the default `HashImpl`/`EqImpl` of every key type but float and double |
| `App_Model` | the example programs: `InvertedIndexExample.InvertedIndex`, `ManyToManyExample.School`, `TimeoutExample.TimeoutManager` |
| `Table_Model` | the use README.md:22-34, 54-61 recommends: an indexed set whose entries index a ChunkStore and a ChunkMatrixStore |
| `Sched_Model` | the use README.md:41-44 recommends: an indexed map that holds each job's entry in a heap; the Java client code is in the file's header |
| `Keyq_Model` | an indexed set whose entries (README.md:22-34) are the compact list ids of a HydraDeque (KeyHydraDeque.ftl:18-22); the Java client code is in the file's header |
| `Bfs_Model` | a breadth-first search with a deque as work list and an indexed map of distances (KeyDeque.ftl, BaseKeyIndex.ftl, KeyValueIndexedMap.ftl); the Java client code is in the file's header |
| `Dij_Model` | a search for cheapest paths with the queue of `Sched_Model` and an indexed map of distances; the Java client code is in the file's header |
| `Merge_Model` | a merge of sorted runs with a HydraDeque, a heap and a vector; the Java client code is in the file's header |
| `Topk_Model` | the best k items of a stream with a heap; the Java client code is in the file's header |
| `HydraI_Model` | the iterators of `KeyHydraDeque.ftl` (198-227, 243-283) in use while the deque is called |
| `Session_Model` | one collection and one entry iterator called in any order (BaseHash.java:127-139, 163-268); two collections and an iterator of one of them |
| `Iters_Model` | one collection and any number of entry iterators called in any order (BaseHash.java:127-139, 163-268), and a caller's nested loop over two of them |
| `Each_Model` | `forEachEntry`, `forEach`, `forEachValue` with a consumer that is a program with calls of the collection in it (the iterator and forEach calls it may make are those of `Hash_Model`, whose own consumers are fixed) |
| `Loops_Model` | `forEach` of `KeyVector.ftl` and `KeyDeque.ftl` with a consumer that is a program with calls of the collection in it |
| `MapI_Model` | `bi/Mapping.java` and the iterators of `bi/Side.java` as the shared objects they are, on top of `Bi_Model` (where a call through a Mapping leaves nothing behind) |
| `HeapE_Model` | `BaseHeap.forEachEntry` with a consumer that is a program with calls of the heap in it |
| `BiE_Model` | `CompactOneToMany.forEachEntry` (with the loop of `BaseHash.forEachEntry`) with a consumer that is a program with calls of the bidirectional collection in it |
| `Same_Model` | `KeyValueCompanionSort.ftl` with one array passed as both arrays; `copyFrom(this)` of `BaseHash.java`, `BaseKeyIndex.ftl`, `KeyValueIndexedMap.ftl` |

### 4.4 What is not modelled

* The FreeMarker engine and the Gradle plugin: a template is taken to expand to the class
  one reads off it, the type parameter becoming a Coq type.
* `main` methods, the thread pools and latches of the examples, tests, printing, exception messages, `toString` of collections,
  `module-info`, packaging, the functional interfaces (they are Coq functions).
* Memory exhaustion, stack overflow, garbage collection, reference identity of boxed
  values, `ArrayStoreException` of generic arrays.  Two arguments of one call are taken to be
  different objects, except in `Same_Model` (C99).
* Data races: the collections are not synchronised and are modelled as sequential; only
  `Snowflake` is modelled with threads, and there the monitor is taken to give mutual
  exclusion and visibility, as the Java memory model says.
* Callbacks are Coq functions: those passed to `forEach` may change the collection only
  where a definition says so (C41, C59, C90, C91, C93-C95); comparators may throw only in C60 and C82-C84, hash and equality functions only in C85-C87.
* JDK: `Float.parseFloat`, `Double.parseDouble` and the decimal text of floats;
  `String.compareToIgnoreCase` is modelled over an arbitrary case-folding function;
  `Character.digit` is any function right on ASCII; `String.hashCode` is the documented
  polynomial; `LocalDate` validity is the proleptic Gregorian calendar.

## 5. Reading a theorem

* `_partial` marks a theorem that covers a stated part of the property; the MANIFEST note
  says what is missing.  Beside it there is nearly always a `_refuted` theorem with the
  witness that makes the rest false of the code.
* Fuel: loops of unknown length take a fuel argument and yield `Loop` when it runs out.
  Every theorem that says a call returns gives the fuel explicitly or quantifies over all
  fuels above a bound; a theorem that says "whenever it returns" cannot be met by `Loop`.

## 6. Findings: where the code does not do what one would rely on

Each is a theorem (`_refuted`) or a note beside one.

* **Comparators** - int ascending/descending subtract and wrap (C08, C56, C61);
  `Math.abs(MIN_VALUE)` (C09); `DoubleType` ascending treats NaN as equal to everything
  (C08, C62, C67); string comparators throw on a null second argument (C53).
* **EqEpsilon** is not transitive, infinity is not equal to itself, and it disagrees with
  the hash (C68).  NaN keys are never found again and each add takes a new entry (C43).
* **Arrays** - `ensureSize` loops forever above 2^30; `ensureEntry(MAX_INT)` wraps (C03);
  `create(n, -0.0f)` is filled with 0.0f (C80); `Vector.append` never returns at 2^30 elements (C14).
* **Codec** - big-endian writes past the end and little-endian writes before the start are
  torn (C06).
* **Snowflake** - a clock that steps back while a call waits out an exhausted sequence can
  repeat ids (C12).
* **Stores** - the mask is computed from the requested, not the rounded, chunk size (C15,
  C16); `row * numFields` wraps (C16); the array of chunks is grown to exactly the chunks needed, so
  filling m chunks one after another copies m(m+1)/2 references (C97).
* **Deque** - a failed add leaves the deque iterating as empty (C18); the constructor
  rejects capacities that round up past the int range (C17). A forEach
  whose consumer makes the deque grow may skip elements; one whose consumer removes what is still
  to come, or clears, delivers values that are not there (C91).
* **HydraDeque** - negative ids throw (C20); `clear` never gives storage back (C21).
* **Heap** - `removeAt`/`isValidEntry` accept entries never handed out (C26, C27);
  `forEachEntry` misses entries (C27), and stops early if its consumer removes entries (C94); an exception of the comparator during insert, removeAt,
  resetKey or setComparator corrupts it until `clear()` - a String heap holding null is
  spoilt by the next insert (C84); stale values after `clear` (C28), which with removed
  entries pending leaves keys and values in the arrays (C96); capacity 0 accepts no key (C58);
  beyond 2^30 entries `resetKey` can throw, the child's node number wraps (C105);
  four entries with one key do not come out in the order they went in (C100);
  `setDefaultValue` on a heap with entries throws RuntimeException, not the documented
  UnsupportedOperationException (C107).
* **Hash** - tiny load factors lose free entries on rebuild (C33); `clear` resets the
  modification count, so an iterator across a `clear` may not fail fast (C36); `copyFrom`
  does not copy the functions (C37); a hash code that throws during a rebuild loses entries that
  `size()` still counts (C87); freeing an entry whose removal did not find its key puts a live
  entry on the free list (C86); a failed add consumes an entry number; `Iterator.remove`
  before `next` removes the first entry (C79); `iterator(it)` with an iterator of another
  collection goes on iterating over that other one (C79); a NaN load factor is
  accepted, and then every new key doubles the capacity (C81); a consumer of `forEach` that adds
  a key makes it miss entries, one that removes an entry still to come is given freed entries (C90); `remove` of an entry
  iterator does not reset the key, and `clear` with no live entry resets nothing, so removed keys and
  reserved entries stay referenced (C96); Int keys that differ by multiples of `capacity()` share one
  chain, and Long keys whose two halves are equal all have hash code 0 (C101); pairs packed into Long
  keys have hash code left xor right, so an n x n grid of pairs makes chains of n (C115);
  `removeAt` of a negative entry returns silently, against its Javadoc (C107).
* **Bidirectional** - `nexts`/`prevs` are not grown for a sole association, so with the
  default constructor the 17th left key can be put but not iterated or removed (C47); a put
  can throw half done, a negative key throws after it was added (C47); iterating an unknown
  key throws (C45); `removeAt` of an inactive entry corrupts counts (C48); one-to-many is
  not enforced; `withLeft` hands out one shared Mapping with shared iterators, so that nested
  loops over the same side end early (C93), and removing the entry an iterator would deliver next
  makes it deliver that entry and end early (C92); `Mapping.count()` without counts throws
  IllegalStateException, its Javadoc says IllegalArgumentException (C107).
* **CompanionSort** - not stable from seven elements on, even on sorted input (C100);
  `offset + len` overflow is accepted silently (C51); a comparator that
  does not find an element equal to itself can recurse without end (C77).
* **Convert** - `CharType.convert` rejects a `Character` (C71); `BoolType.convert(Number)`
  uses `intValue`, so 0.5 and 2^32 are false.
* **Examples** - `ManyToManyExample.School` cannot list the students of the 17th class, nor a
  first student after 16 enrolments (C74); `InvertedIndex` cannot iterate a new term after
  128 links (C73); in `TimeoutExample` an acknowledgement that comes after the report removes
  whatever item took over the heap entry (C76).
