{"id": "C01", "title": "nextPowerOf2 is the least power of two", "statement": "For every int v with 1 <= v <= 2^30, NumUtils.nextPowerOf2(v) is a power of two, is >= v, and no smaller power of two is >= v. Outside that range the exact result is: 1 for every v from Integer.MIN_VALUE+1 to 0, and Integer.MIN_VALUE for every v above 2^30 and for Integer.MIN_VALUE.", "quantifier": "every 32-bit int v", "why_tests_cant": "the input space is 2^32 values; tests sample 8", "anchors": ["collections/src/main/java/com/bytefacets/collections/NumUtils.java:nextPowerOf2"]}
{"id": "C02", "title": "Capacity growth policy always makes progress", "statement": "For every capacity in 1..2^29, CapacityCalculator.calculateNewCapacity returns a capacity that is strictly larger and at most 2^29 (exactly min(2*capacity, 2^29)), except at capacity 2^29, where it returns 2^29 when the threshold is not yet 2^29 and throws ResizeException otherwise; it never returns a smaller capacity.", "quantifier": "every capacity and threshold int", "why_tests_cant": "the limit cases need arrays of 2^29 elements, which tests do not allocate", "anchors": ["collections/src/main/java/com/bytefacets/collections/CapacityCalculator.java:calculateNewCapacity"]}
{"id": "C03", "title": "ensureSize / ensureEntry accommodate the index and keep the contents", "statement": "For every array and every requested size (resp. index) the call terminates and returns an array that is at least that long, that has the old contents unchanged at the old indexes and the initial value (or type default) at every new index; when the array was already long enough the same array is returned.", "quantifier": "every array, every requested int size or index, every fill value", "why_tests_cant": "sizes near 2^31 make the doubling overflow; tests use small arrays", "anchors": ["collections/src/main/templates/com/bytefacets/collections/arrays/KeyArray.ftl:ensureSize", "collections/src/main/templates/com/bytefacets/collections/arrays/KeyArray.ftl:ensureEntry", "collections/src/main/templates/com/bytefacets/collections/arrays/KeyArray.ftl:grow", "collections/src/main/templates/com/bytefacets/collections/arrays/KeyArray.ftl:copyOf"]}
{"id": "C04", "title": "Binary codec round-trip", "statement": "For every value of byte, short, char, int, long and boolean, every byte array, every position where the value fits, and both endiannesses: reading at that position after writing there returns the written value, the write returns position + width, and every byte of the array outside the written window is unchanged.", "quantifier": "every value of each type, every array content and length, every position", "why_tests_cant": "2^64 long values times positions cannot be enumerated", "anchors": ["collections/src/main/java/com/bytefacets/collections/types/ByteType.java:writeLE/writeBE/readLE/readBE", "collections/src/main/java/com/bytefacets/collections/types/ShortType.java:writeLE/writeBE/readLE/readBE", "collections/src/main/java/com/bytefacets/collections/types/CharType.java:writeLE/writeBE/readLE/readBE", "collections/src/main/java/com/bytefacets/collections/types/IntType.java:writeLE/writeBE/readLE/readBE", "collections/src/main/java/com/bytefacets/collections/types/LongType.java:writeLE/writeBE/readLE/readBE", "collections/src/main/java/com/bytefacets/collections/types/BoolType.java:writeLE/writeBE/readLE/readBE"]}
{"id": "C05", "title": "Binary codec byte layout", "statement": "For byte, short, char, int and long: the bytes written by writeLE (resp. writeBE) are exactly the two's-complement base-256 digits of the value, least (resp. most) significant first; reading any window and writing it back reproduces the same bytes; the LE and BE windows are mirror images.", "quantifier": "every value, window and position", "why_tests_cant": "the digit relation must hold for all 2^64 values", "anchors": ["collections/src/main/java/com/bytefacets/collections/types/ShortType.java:writeLE/writeBE/readLE/readBE", "collections/src/main/java/com/bytefacets/collections/types/CharType.java:writeLE/writeBE/readLE/readBE", "collections/src/main/java/com/bytefacets/collections/types/IntType.java:writeLE/writeBE/readLE/readBE", "collections/src/main/java/com/bytefacets/collections/types/LongType.java:writeLE/writeBE/readLE/readBE"]}
{"id": "C06", "title": "A write that does not fit fails without changing the array", "statement": "writeLE/writeBE at a position where the value does not fit throws IndexOutOfBoundsException and leaves the array exactly as it was.", "quantifier": "every value, array and position (the exception point inside the write varies)", "why_tests_cant": "the failure can strike after any prefix of the byte stores", "anchors": ["collections/src/main/java/com/bytefacets/collections/types/ShortType.java:writeLE/writeBE", "collections/src/main/java/com/bytefacets/collections/types/CharType.java:writeLE/writeBE", "collections/src/main/java/com/bytefacets/collections/types/IntType.java:writeLE/writeBE", "collections/src/main/java/com/bytefacets/collections/types/LongType.java:writeLE/writeBE"]}
{"id": "C07", "title": "Pack/unpack are mutually inverse", "statement": "For every pair of ints (resp. shorts, bytes) packing then unpacking returns the same hi and lo; packing is injective; unpacking then repacking any long (resp. int, short) returns it; four bytes packed to an int are recovered by unpacking twice.", "quantifier": "every int/short/byte pair and every long/int/short", "why_tests_cant": "2^64 pairs; sign extension errors show only for particular sign combinations", "anchors": ["collections/src/main/java/com/bytefacets/collections/types/Pack.java"]}
{"id": "C08", "title": "Ascending/Descending comparators are consistent total orders", "statement": "For every numeric/boolean key type, Asc.compare is antisymmetric, transitive, and agrees in sign with the natural order of the type (true before false for boolean); Desc is its reverse.", "quantifier": "every triple of values of the type", "why_tests_cant": "overflow in a subtraction-based comparator needs values far apart; all triples cannot be enumerated", "anchors": ["collections/src/main/java/com/bytefacets/collections/types/ByteType.java:Asc/Desc", "collections/src/main/java/com/bytefacets/collections/types/ShortType.java:Asc/Desc", "collections/src/main/java/com/bytefacets/collections/types/CharType.java:Asc/Desc", "collections/src/main/java/com/bytefacets/collections/types/IntType.java:Asc/Desc", "collections/src/main/java/com/bytefacets/collections/types/LongType.java:Asc/Desc", "collections/src/main/java/com/bytefacets/collections/types/BoolType.java:Asc/Desc"]}
{"id": "C09", "title": "Absolute comparators order by magnitude", "statement": "AbsAsc.compare(a,b) has the sign of |a|-|b| and AbsDesc the reverse, for every pair of values of byte, short, char, int and long.", "quantifier": "every pair of values of the type", "why_tests_cant": "the MIN_VALUE corner has no positive counterpart", "anchors": ["collections/src/main/java/com/bytefacets/collections/types/ByteType.java:AbsAsc/AbsDesc", "collections/src/main/java/com/bytefacets/collections/types/ShortType.java:AbsAsc/AbsDesc", "collections/src/main/java/com/bytefacets/collections/types/CharType.java:AbsAsc/AbsDesc", "collections/src/main/java/com/bytefacets/collections/types/IntType.java:AbsAsc/AbsDesc", "collections/src/main/java/com/bytefacets/collections/types/LongType.java:AbsAsc/AbsDesc"]}
{"id": "C10", "title": "Date and time integers round-trip", "statement": "toLocalDate(fromLocalDate(d)) = d for every date with year 0..9999, and toLocalTime(fromLocalTime(t)) is t truncated to whole seconds for every time; the encoding is strictly monotone in calendar order. Conversely toLocalDate accepts exactly the ints whose decimal digits are a year, a month and a day of the Gregorian calendar (leap years included), toLocalTime exactly those whose digits are a time of day; they return that date or time and refuse every other int with an exception, and fromSqlDate agrees with fromLocalDate.", "quantifier": "every valid (year, month, day) and (hour, minute, second)", "why_tests_cant": "3.6 million dates and all orderings of pairs of them", "anchors": ["collections/src/main/java/com/bytefacets/collections/types/IntType.java:toYYYMMDD/toLocalDate/toHHMMSS/toLocalTime"]}
{"id": "C11", "title": "Snowflake ids are unique and increasing under every schedule", "statement": "For one Snowflake shared by any number of threads, under every interleaving, and for every clock that never goes backwards (readings between the custom epoch and 2^41 ms after it), the ids returned by nextId are strictly increasing in the order in which the calls are serialised, hence pairwise distinct; no call throws.", "quantifier": "every number of threads, every interleaving of their steps, every non-decreasing clock", "why_tests_cant": "uniqueness is over all schedules and all clock histories, including exhaustion of the 4096 sequence numbers within a millisecond", "anchors": ["collections/src/main/java/com/bytefacets/collections/id/Snowflake.java:nextId", "collections/src/main/java/com/bytefacets/collections/id/Snowflake.java:waitNextMillis"]}
{"id": "C12", "title": "Snowflake never repeats an id even if the clock steps back", "statement": "For every clock, including one that goes backwards, nextId either throws or returns an id it has not returned before. A call throws exactly when its first clock reading is before the time of an id already returned.", "quantifier": "every clock reading sequence", "why_tests_cant": "requires a clock regression exactly while the sequence is exhausted", "anchors": ["collections/src/main/java/com/bytefacets/collections/id/Snowflake.java:nextId", "collections/src/main/java/com/bytefacets/collections/id/Snowflake.java:waitNextMillis"]}
{"id": "C13", "title": "Snowflake ids parse back", "statement": "parse(nextId()) returns the clock reading (in epoch ms) at which the id was issued, the node id given to the constructor and the sequence number; ids are non-negative; generators with different node ids never produce the same id.", "quantifier": "every node id 0..1023, every timestamp within 41 bits, every sequence number", "why_tests_cant": "2^63 ids", "anchors": ["collections/src/main/java/com/bytefacets/collections/id/Snowflake.java:parse", "collections/src/main/java/com/bytefacets/collections/id/Snowflake.java:nextId"]}
{"id": "C14", "title": "Vector behaves as a growable list", "statement": "For every sequence of append/ensureSize/clear calls on a Vector of any initial capacity, size() is the number of appends since the last clear, valueAt(i) for i < size is the i-th appended value, and forEach delivers exactly the appended values in order.", "quantifier": "every initial capacity >= 1 and every operation sequence", "why_tests_cant": "unbounded histories", "anchors": ["collections/src/main/templates/com/bytefacets/collections/vector/KeyVector.ftl"]}
{"id": "C15", "title": "ChunkStore behaves as a total map from index to value", "statement": "For every initial size, every chunk size >= 1 and every sequence of sets, get(i) returns the value most recently set at index i, and the type default if index i was never set.", "quantifier": "every constructor argument, every sequence of set/get", "why_tests_cant": "aliasing between two indexes shows only for particular chunk sizes and index pairs", "anchors": ["collections/src/main/templates/com/bytefacets/collections/store/KeyChunkStore.ftl"]}
{"id": "C16", "title": "ChunkMatrixStore cells are independent", "statement": "For every initial size, chunk size >= 2, number of fields >= 1 and every sequence of sets, get(row, field) returns the value most recently set at exactly that (row, field), and the default if never set; a field outside 0..numFields-1 throws RangeCheckException and changes nothing.", "quantifier": "every constructor argument, every sequence of set/get over all int rows and fields", "why_tests_cant": "aliasing between cells needs particular chunk sizes or row*numFields overflow", "anchors": ["collections/src/main/templates/com/bytefacets/collections/store/KeyChunkMatrixStore.ftl"]}
{"id": "C17", "title": "Deque behaves as a double-ended list", "statement": "For every initial capacity >= 1 and every sequence of addFirst/addLast/removeFirst/removeLast/peekFirst/peekLast/clear/size/forEach, results, thrown NoSuchElementExceptions and iteration order are those of an ordinary list, through wrap-around and any number of growths; an operation that throws NoSuchElementException changes nothing.", "quantifier": "every capacity and every operation history", "why_tests_cant": "wrap-around position, growth moment and history length are unbounded", "anchors": ["collections/src/main/templates/com/bytefacets/collections/queue/KeyDeque.ftl"]}
{"id": "C18", "title": "A deque add that fails for lack of capacity does not change the contents", "statement": "If addFirst or addLast throws ResizeException the deque still holds the same elements as before the call (size, iteration, removals).", "quantifier": "every history that reaches the capacity limit", "why_tests_cant": "needs 2^29 elements", "anchors": ["collections/src/main/templates/com/bytefacets/collections/queue/KeyDeque.ftl:grow", "collections/src/main/java/com/bytefacets/collections/CapacityCalculator.java"]}
{"id": "C19", "title": "HydraDeque lists are independent double-ended lists", "statement": "For every constructor argument and operation history over all list ids, each list id behaves as its own double-ended list: addFirst/addLast/removeFirst/removeLast on one id return what a list would return and do not affect any other id; size(id) and size() are the list length and the sum of lengths.", "quantifier": "every history over every set of list ids", "why_tests_cant": "entry reuse across lists couples all lists through one free list; histories are unbounded", "anchors": ["collections/src/main/templates/com/bytefacets/collections/queue/KeyHydraDeque.ftl"]}
{"id": "C20", "title": "HydraDeque iterators traverse their list in order", "statement": "iterator(id) delivers exactly the elements of list id from head to tail, reverseIterator(id) from tail to head, then hasNext() is false and next() throws; an id never used iterates nothing.", "quantifier": "every reachable state and list id", "why_tests_cant": "link consistency in both directions after arbitrary removals and entry reuse", "anchors": ["collections/src/main/templates/com/bytefacets/collections/queue/KeyHydraDeque.ftl:ForwardIterator", "collections/src/main/templates/com/bytefacets/collections/queue/KeyHydraDeque.ftl:ReverseIterator"]}
{"id": "C21", "title": "HydraDeque reuses storage", "statement": "The storage entry returned by an add is always smaller than the largest number of elements the structure has held at one time (including the new one); removing elements or clearing makes their entries available again.", "quantifier": "every history of adds, removes and clears", "why_tests_cant": "the peak is over unbounded histories", "anchors": ["collections/src/main/templates/com/bytefacets/collections/queue/KeyHydraDeque.ftl:allocateEntry", "collections/src/main/templates/com/bytefacets/collections/queue/KeyHydraDeque.ftl:clear"]}
{"id": "C22", "title": "Heap peek returns a minimum", "statement": "For every comparator that is a total preorder and every history of inserts, removeAt and resetKey on entries in the heap, and clear, whenever the heap is not empty peek() returns an entry in the heap whose key compares <= the key of every other entry.", "quantifier": "every comparator, every history (capacity >= 1, at most 2^29 entries at once, the class's MAX_CAPACITY; removeAt/resetKey/setValueAt only on entries in the heap, or rejected)", "why_tests_cant": "heap order after arbitrary interleavings of removal and re-keying", "anchors": ["collections/src/main/java/com/bytefacets/collections/heap/BaseHeap.java:peek", "collections/src/main/templates/com/bytefacets/collections/heap/BaseKeyHeap.ftl:insert/removeAt/resetKey/filterUp/filterDown"]}
{"id": "C23", "title": "Heap entries are stable handles", "statement": "insert returns an entry not currently in use; from then until that entry is removed or the heap cleared, getKeyAt(entry) is the inserted (or last reset) key and getValueAt(entry) the inserted (or last set) value, whatever other operations happen, including growth; getValueAtOrDefault(entry, d) is getValueAt(entry) for entries within the capacity and d otherwise; getSize() is the number of entries in use.", "quantifier": "every history (capacity >= 1, at most 2^29 entries at once, the class's MAX_CAPACITY; removeAt/resetKey/setValueAt only on entries in the heap, or rejected)", "why_tests_cant": "the tree is permuted by every operation; handles must survive all permutations", "anchors": ["collections/src/main/templates/com/bytefacets/collections/heap/BaseKeyHeap.ftl", "collections/src/main/templates/com/bytefacets/collections/heap/KeyValueHeap.ftl", "collections/src/main/java/com/bytefacets/collections/heap/BaseHeap.java"]}
{"id": "C24", "title": "Heap drain is a sort", "statement": "Repeatedly removing peek() until the heap is empty yields the keys in non-decreasing comparator order, each live entry exactly once.", "quantifier": "every reachable heap and comparator (capacity >= 1, at most 2^29 entries at once, the class's MAX_CAPACITY; removeAt/resetKey/setValueAt only on entries in the heap, or rejected)", "why_tests_cant": "all permutations of all sizes", "anchors": ["collections/src/main/templates/com/bytefacets/collections/heap/BaseKeyHeap.ftl:removeAt", "collections/src/main/java/com/bytefacets/collections/heap/BaseHeap.java:peek"]}
{"id": "C25", "title": "setComparator reorders the heap", "statement": "After setComparator(c) with any total preorder c the set of entries, keys and values is unchanged and peek() is a minimum with respect to c.", "quantifier": "every reachable heap, every pair of comparators (capacity >= 1, at most 2^29 entries at once, the class's MAX_CAPACITY; removeAt/resetKey/setValueAt only on entries in the heap, or rejected)", "why_tests_cant": "every arrangement of the old order", "anchors": ["collections/src/main/templates/com/bytefacets/collections/heap/BaseKeyHeap.ftl:setComparator"]}
{"id": "C26", "title": "Removing an entry that is not in the heap is rejected", "statement": "removeAt(entry) for an entry that is not currently in the heap throws and leaves the heap unchanged.", "quantifier": "every reachable heap and every int entry", "why_tests_cant": "depends on stale internal data for entries never allocated", "anchors": ["collections/src/main/templates/com/bytefacets/collections/heap/BaseKeyHeap.ftl:removeAt"]}
{"id": "C27", "title": "isValidEntry and forEachEntry report exactly the live entries", "statement": "isValidEntry(e) is true iff e is currently in the heap, for every int e, and forEachEntry visits every entry currently in the heap exactly once.", "quantifier": "every reachable heap, every int entry", "why_tests_cant": "depends on which entries were removed before", "anchors": ["collections/src/main/java/com/bytefacets/collections/heap/BaseHeap.java:isValidEntry", "collections/src/main/java/com/bytefacets/collections/heap/BaseHeap.java:forEachEntry"]}
{"id": "C28", "title": "A key inserted without a value gets the default value", "statement": "insert(key) (without a value) yields an entry whose value is the heap's default value, in every history.", "quantifier": "every history including removals and clears", "why_tests_cant": "stale values survive only for particular histories of removal followed by clear", "anchors": ["collections/src/main/templates/com/bytefacets/collections/heap/BaseKeyHeap.ftl:insert", "collections/src/main/templates/com/bytefacets/collections/heap/BaseKeyHeap.ftl:clear", "collections/src/main/templates/com/bytefacets/collections/heap/KeyValueHeap.ftl:clearValues"]}
{"id": "C29", "title": "Heap entries are dense and reused last-in first-out", "statement": "The entry returned by insert is the most recently removed entry not yet reused, or, if there is none, the number of entries in the heap; so entries are always below the peak number of simultaneous entries since the last clear.", "quantifier": "every history (capacity >= 1, at most 2^29 entries at once, the class's MAX_CAPACITY; removeAt/resetKey/setValueAt only on entries in the heap, or rejected)", "why_tests_cant": "unbounded histories of removals", "anchors": ["collections/src/main/templates/com/bytefacets/collections/heap/BaseKeyHeap.ftl:allocateEntry/removeAt"]}
{"id": "C30", "title": "IndexedMap is a last-write-wins map", "statement": "For every initial capacity, load factor, key type whose equality is an equivalence consistent with its hash, and every history of put/add/remove/removeAt/putValueAt/clear, get/getOrDefault/containsKey return what an ideal finite map would: the value most recently associated with an equal key, the caller's default or KeyNotFoundException when absent.", "quantifier": "every history, capacity, load factor, hash and equality function", "why_tests_cant": "collision patterns, growth moments and histories are unbounded", "anchors": ["collections/src/main/templates/com/bytefacets/collections/hash/BaseKeyIndex.ftl", "collections/src/main/templates/com/bytefacets/collections/hash/KeyValueIndexedMap.ftl", "collections/src/main/java/com/bytefacets/collections/hash/BaseHash.java"]}
{"id": "C31", "title": "IndexedSet membership", "statement": "containsKey(k) and lookupEntry(k) >= 0 hold iff k was added and not removed since (by key, by entry, by iterator or by clear); remove(k) returns the freed entry or -1 exactly when k was absent.", "quantifier": "every history, capacity, load factor, hash and equality function", "why_tests_cant": "unbounded histories and collision patterns", "anchors": ["collections/src/main/templates/com/bytefacets/collections/hash/BaseKeyIndex.ftl", "collections/src/main/templates/com/bytefacets/collections/hash/KeyIndexedSet.ftl", "collections/src/main/java/com/bytefacets/collections/hash/BaseHash.java"]}
{"id": "C32", "title": "Entries are stable across growth", "statement": "From the moment add(k) returns entry e until k is removed (or the collection cleared), lookupEntry(k) = e, getKeyAt(e) equals k and repeated add(k)/put(k,_) return e, no matter how many other keys are added or removed or how often the table is rebuilt; two different live keys never share an entry.", "quantifier": "every history containing any number of rehashes", "why_tests_cant": "every growth moment must preserve every entry", "anchors": ["collections/src/main/templates/com/bytefacets/collections/hash/BaseKeyIndex.ftl:add/rehash", "README.md"]}
{"id": "C33", "title": "Entries are dense and reused", "statement": "An entry handed out by add is the most recently freed entry, or, when none is free, the next never-used one; hence every live entry is below the peak number of live plus reserved entries since the last clear.", "quantifier": "every history of additions and removals, every load factor", "why_tests_cant": "unbounded histories; the free list must survive table rebuilds", "anchors": ["collections/src/main/templates/com/bytefacets/collections/hash/BaseKeyIndex.ftl:allocateNewEntry/rehash", "README.md"]}
{"id": "C34", "title": "Size and iteration agree with the contents", "statement": "size() is the number of live keys, isEmpty() iff it is 0, and forEach, forEachEntry and forEachValue visit each live key / entry / value exactly once.", "quantifier": "every reachable state", "why_tests_cant": "iteration stops early based on a hit counter, for every distribution of keys over buckets", "anchors": ["collections/src/main/java/com/bytefacets/collections/hash/BaseHash.java:forEachEntry", "collections/src/main/templates/com/bytefacets/collections/hash/BaseKeyIndex.ftl:forEach", "collections/src/main/templates/com/bytefacets/collections/hash/KeyValueIndexedMap.ftl:forEachValue"]}
{"id": "C35", "title": "The entry iterator visits each entry once and removes exactly the current one", "statement": "Starting from iterator(), and for every choice of which visited entries to remove() through it, next() delivers every entry live at the start exactly once and then returns false; afterwards exactly the removed ones are gone and everything else is untouched.", "quantifier": "every reachable state and every subset of removals", "why_tests_cant": "2^n subsets of removals times bucket layouts", "anchors": ["collections/src/main/java/com/bytefacets/collections/hash/BaseHash.java:IteratorImpl"]}
{"id": "C36", "title": "The entry iterator fails fast", "statement": "If keys are added or removed other than through the iterator after the iterator was (re)set, the next next() or remove() on it throws ConcurrentModificationException.", "quantifier": "every history between two iterator calls", "why_tests_cant": "needs a modification history that restores the modification count", "anchors": ["collections/src/main/java/com/bytefacets/collections/hash/BaseHash.java:IteratorImpl.next/remove", "collections/src/main/java/com/bytefacets/collections/hash/BaseHash.java:clear"]}
{"id": "C37", "title": "copyFrom makes an equal, independent copy", "statement": "After target.copyFrom(source) the target answers every query exactly as the source does (same keys, values, entries, size, future entry allocation), whatever the target held before and however the two capacities compare; later changes to one do not affect the other.", "quantifier": "every pair of reachable collections", "why_tests_cant": "all combinations of capacities, load factors and prior contents", "anchors": ["collections/src/main/java/com/bytefacets/collections/hash/BaseHash.java:copyFrom", "collections/src/main/templates/com/bytefacets/collections/hash/BaseKeyIndex.ftl:copyFrom", "collections/src/main/templates/com/bytefacets/collections/hash/KeyValueIndexedMap.ftl:copyFrom"]}
{"id": "C38", "title": "clear empties the collection completely", "statement": "After clear() the collection is empty, no key is found, and it behaves from then on like a fresh collection: entries are handed out again from 0 and values of newly added keys are the default.", "quantifier": "every reachable state (including ones with reserved or freed entries)", "why_tests_cant": "clear wipes only a prefix of the table, tracked incrementally", "anchors": ["collections/src/main/java/com/bytefacets/collections/hash/BaseHash.java:clear"]}
{"id": "C39", "title": "Reserved entries are not reallocated until freed", "statement": "After removeAtAndReserve(e) on a live entry its key is no longer found, but getKeyAt(e)/getValueAt(e) still return the old key and value and add never returns e until freeReservedEntry(e); after that e is the next entry handed out.", "quantifier": "every history", "why_tests_cant": "any number of additions and rebuilds between reserve and free", "anchors": ["collections/src/main/templates/com/bytefacets/collections/hash/BaseKeyIndex.ftl:removeAtAndReserve/freeReservedEntry"]}
{"id": "C40", "title": "New keys start with the default value", "statement": "add(k) on a map gives value DEFAULT to a key that was absent and leaves the value of a key that was present.", "quantifier": "every history including reuse of freed entries, reserved entries and putValueAt on unused entries", "why_tests_cant": "stale values can survive in reused slots", "anchors": ["collections/src/main/templates/com/bytefacets/collections/hash/KeyValueIndexedMap.ftl:add"]}
{"id": "C41", "title": "forEach tolerates removal of the visited entry", "statement": "forEachEntry with a consumer that removes the entry it is given (for any subset of entries) still visits every entry live at the start exactly once.", "quantifier": "every reachable state and every subset", "why_tests_cant": "2^n subsets times bucket layouts", "anchors": ["collections/src/main/java/com/bytefacets/collections/hash/BaseHash.java:forEachEntry"]}
{"id": "C42", "title": "add on a full table fails cleanly", "statement": "If add throws ResizeException, every key, value and entry is as before the call.", "quantifier": "every reachable state at the capacity limit", "why_tests_cant": "needs 2^29 entries", "anchors": ["collections/src/main/templates/com/bytefacets/collections/hash/BaseKeyIndex.ftl:add", "collections/src/main/java/com/bytefacets/collections/hash/BaseHash.java:calculateNewCapacity"]}
{"id": "C43", "title": "Floating-point keys follow set semantics", "statement": "In a Double/Float-keyed set or map, for every double/float k, containsKey(k) is true after add(k), a second add(k) returns the same entry, and 0.0 and -0.0 are the same key.", "quantifier": "every floating-point key", "why_tests_cant": "special values (NaN, signed zero)", "anchors": ["collections/src/main/java/com/bytefacets/collections/types/DoubleType.java", "collections/src/main/java/com/bytefacets/collections/types/FloatType.java", "collections/src/main/templates/com/bytefacets/collections/hash/BaseKeyIndex.ftl"]}
{"id": "C44", "title": "CompactOneToMany / CompactManyToMany hold a set of pairs", "statement": "contains(l,r), lookupEntry and size() are those of a plain set of pairs that put adds to and remove removes from; put returns the existing entry for a known pair and an unused one otherwise; getLeftAt/getRightAt of a live or reserved entry return its pair.", "quantifier": "every history of put/remove/removeAt/removeAtAndReserve/freeReservedEntry and queries in which no modifying call threw (C47 is about throwing), removeAt and removeAtAndReserve only on entries that hold a pair, freeReservedEntry only on reserved ones; every constructor argument, every int key", "why_tests_cant": "unbounded histories", "anchors": ["collections/src/main/java/com/bytefacets/collections/bi/CompactOneToMany.java", "collections/src/main/java/com/bytefacets/collections/bi/CompactManyToMany.java"]}
{"id": "C45", "title": "withLeft / withRight iterate exactly the associated keys", "statement": "withLeft(l).forEachValue (and withRight(r) on many-to-many) deliver exactly the right keys associated with l (left keys with r), each once; forEachEntry exactly the entries of that key; the two directions and contains describe the same relation; every iteration ends.", "quantifier": "every history of put/remove/removeAt/removeAtAndReserve/freeReservedEntry and queries in which no modifying call threw (C47 is about throwing), removeAt and removeAtAndReserve only on entries that hold a pair, freeReservedEntry only on reserved ones; every constructor argument, every int key", "why_tests_cant": "doubly linked lists threaded through reused entries", "anchors": ["collections/src/main/java/com/bytefacets/collections/bi/Side.java", "collections/src/main/java/com/bytefacets/collections/bi/Mapping.java", "collections/src/main/java/com/bytefacets/collections/bi/CompactOneToMany.java", "collections/src/main/java/com/bytefacets/collections/bi/CompactManyToMany.java"]}
{"id": "C46", "title": "Counts equal the number of associations", "statement": "With counts enabled, withLeft(l).count() and withRight(r).count() of a non-negative key equal the number of associations of that key.", "quantifier": "every history of put/remove/removeAt/removeAtAndReserve/freeReservedEntry and queries in which no modifying call threw (C47 is about throwing), removeAt and removeAtAndReserve only on entries that hold a pair, freeReservedEntry only on reserved ones; every constructor argument, every int key", "why_tests_cant": "counts are maintained incrementally", "anchors": ["collections/src/main/java/com/bytefacets/collections/bi/Side.java:count", "collections/src/main/java/com/bytefacets/collections/bi/Mapping.java:count"]}
{"id": "C47", "title": "Bidirectional operations never fail internally", "statement": "put, remove, removeAt and iteration with non-negative keys never throw IndexOutOfBoundsException, and a put that throws leaves no half-registered association.", "quantifier": "every history and constructor argument", "why_tests_cant": "depends on which entries were first in their list when storage was exceeded", "anchors": ["collections/src/main/java/com/bytefacets/collections/bi/Side.java:insertEntry/removeEntry"]}
{"id": "C48", "title": "Removing an inactive association entry is harmless", "statement": "removeAt(entry) for an entry that holds no association changes neither the pairs, nor what the two directions iterate over, nor any count.", "quantifier": "every reachable state and entry", "why_tests_cant": "depends on stale keys of freed entries", "anchors": ["collections/src/main/java/com/bytefacets/collections/bi/CompactOneToMany.java:removeAt"]}
{"id": "C49", "title": "CompanionSort permutes the two arrays together", "statement": "For every comparator (even an inconsistent one) for which the call returns, the pairs (primary[i], companion[i]) in the sorted range are a permutation of the original pairs, and everything outside the range is unchanged.", "quantifier": "every array, range and comparator", "why_tests_cant": "n! arrangements for every n", "anchors": ["collections/src/main/templates/com/bytefacets/collections/sort/KeyValueCompanionSort.ftl"]}
{"id": "C50", "title": "CompanionSort sorts", "statement": "For every total-preorder comparator and every valid range the call terminates, with the primary array non-decreasing over the range.", "quantifier": "every array, range and total-preorder comparator", "why_tests_cant": "n! arrangements for every n, three pivot regimes", "anchors": ["collections/src/main/templates/com/bytefacets/collections/sort/KeyValueCompanionSort.ftl"]}
{"id": "C51", "title": "CompanionSort validates its range", "statement": "Every call with a negative offset or length, or with a range extending beyond either array, throws IllegalArgumentException and changes nothing.", "quantifier": "every array pair and int offset/length", "why_tests_cant": "offset+length overflow", "anchors": ["collections/src/main/templates/com/bytefacets/collections/sort/KeyValueCompanionSort.ftl:sort"]}
{"id": "C52", "title": "Predicates mean what they say", "statement": "predicateFor(EQ/NEQ/LT/LTE/GT/GTE) of byte, short, char, int and long types is true exactly when the mathematical relation holds; the boolean type supports EQ/NEQ only and throws IllegalStateException otherwise. The string predicates are the relations of the lexicographic order on non-null strings; EQ and NEQ also accept null.", "quantifier": "all pairs of values, all predicate methods", "why_tests_cant": "2^64 pairs per predicate", "anchors": ["collections/src/main/java/com/bytefacets/collections/types/IntType.java:43-60", "collections/src/main/java/com/bytefacets/collections/types/BoolType.java:35-44", "collections/src/main/java/com/bytefacets/collections/types/StringType.java:60-77"]}
{"id": "C53", "title": "String comparators totally order strings", "statement": "StringType.Asc is a consistent total order on all strings including null: lexicographic by code unit, null after everything; Desc is its reverse; the case-insensitive pair is a consistent total preorder. GenericType.Asc and Desc do the same for objects through their own compareTo.", "quantifier": "all pairs and triples of nullable strings, every case folding", "why_tests_cant": "unboundedly many strings; transitivity over triples", "anchors": ["collections/src/main/java/com/bytefacets/collections/types/StringType.java:24-44", "collections/src/main/java/com/bytefacets/collections/types/GenericType.java:23-38"]}
{"id": "C54", "title": "Flag helpers set and clear exactly the given bits", "statement": "enableBits(flag, bits) has exactly the bits of flag or bits, disableBits(flag, bits) exactly the bits of flag not in bits, for byte, short, int and long, with no change to any other bit (in particular through the sign-extending casts).", "quantifier": "all flags, bits and bit positions", "why_tests_cant": "2^128 combinations for long", "anchors": ["collections/src/main/java/com/bytefacets/collections/types/ByteType.java:84-90", "collections/src/main/java/com/bytefacets/collections/types/ShortType.java:84-90", "collections/src/main/java/com/bytefacets/collections/types/IntType.java:84-90", "collections/src/main/java/com/bytefacets/collections/types/LongType.java:84-90"]}
{"id": "C55", "title": "Every node name gives a valid node id", "statement": "Building a Snowflake from any host name succeeds: the node id derived from the name is always in 0..1023; the constructor taking a node id accepts exactly 0..1023 and throws IllegalArgumentException otherwise.", "quantifier": "every string, every int node id", "why_tests_cant": "unboundedly many names; negative hash codes", "anchors": ["collections/src/main/java/com/bytefacets/collections/id/Snowflake.java:createNodeId", "collections/src/main/java/com/bytefacets/collections/id/Snowflake.java:Snowflake"]}
{"id": "C56", "title": "An int heap with the default comparator yields the numerically smallest key", "statement": "With the default (ascending) comparator, peek() on an IntHeap or IntXHeap returns an entry whose key is numerically smallest, for all int keys.", "quantifier": "all int keys, every history", "why_tests_cant": "wrap-around of the comparator shows only for keys more than 2^31 apart", "anchors": ["collections/src/main/templates/com/bytefacets/collections/heap/BaseKeyHeap.ftl:insert", "collections/src/main/java/com/bytefacets/collections/types/IntType.java:20-23"]}
{"id": "C57", "title": "Key search in a heap is exact", "statement": "getFirstEntry(key) returns an entry in the heap whose key compares equal to key, or -1 when there is none; containsKey(key) says which.", "quantifier": "every reachable heap (capacity >= 1, at most 2^29 entries at once, the class's MAX_CAPACITY; removeAt/resetKey/setValueAt only on entries in the heap, or rejected)", "why_tests_cant": "removed entries keep their keys in the arrays; a search must ignore them in every arrangement", "anchors": ["collections/src/main/templates/com/bytefacets/collections/heap/BaseKeyHeap.ftl:getFirstEntry/containsKey"]}
{"id": "C58", "title": "Inserting into a heap that cannot grow fails cleanly", "statement": "insert into a heap that cannot grow any further throws ResizeException and leaves the heap unchanged; a heap of any capacity accepts inserts until 2^29 entries.", "quantifier": "every reachable heap, every initial capacity", "why_tests_cant": "needs 2^29 entries", "anchors": ["collections/src/main/templates/com/bytefacets/collections/heap/BaseKeyHeap.ftl:allocateEntry", "collections/src/main/java/com/bytefacets/collections/heap/BaseHeap.java:59-74"]}
{"id": "C59", "title": "Associations can be removed while iterating over a key", "statement": "A consumer given to withLeft(l).forEachEntry or withRight(r).forEachEntry may call removeAt on the entry it was just given, for any choice of entries: every association of the key is still delivered exactly once, and afterwards exactly the chosen ones are gone.", "quantifier": "every history of put/remove/removeAt/removeAtAndReserve/freeReservedEntry and queries in which no modifying call threw (C47 is about throwing), removeAt and removeAtAndReserve only on entries that hold a pair, freeReservedEntry only on reserved ones; every constructor argument, every int key", "why_tests_cant": "the iteration and the removal work on the same linked list; unbounded lists and choices", "anchors": ["collections/src/main/java/com/bytefacets/collections/bi/Side.java:EntryIterator", "collections/src/main/java/com/bytefacets/collections/bi/Mapping.java:forEachEntry", "collections/src/main/java/com/bytefacets/collections/bi/CompactOneToMany.java:removeAt"]}
{"id": "C60", "title": "CompanionSort loses nothing when it is interrupted", "statement": "On a range inside both arrays the sort throws nothing of its own: whatever it throws was thrown by the comparator, and the pairs of the range are then still a permutation of the original pairs, with everything outside the range unchanged. This holds for every comparator: inconsistent, stateful or throwing at any call.", "quantifier": "every pair of arrays, every range inside them, every comparator including stateful and throwing ones", "why_tests_cant": "an inconsistent comparator drives the partition indices past each other only for particular answer sequences", "anchors": ["collections/src/main/templates/com/bytefacets/collections/sort/KeyValueCompanionSort.ftl:sort"]}
{"id": "C61", "title": "CompanionSort with the library's comparators sorts numerically", "statement": "With the ascending (descending) comparator of the key's type, a call on a valid range leaves the range numerically ascending (descending), for byte, short, char, int and long keys.", "quantifier": "every array, range, and key value of the type", "why_tests_cant": "the int comparator wraps around only for keys more than 2^31 apart", "anchors": ["collections/src/main/templates/com/bytefacets/collections/sort/KeyValueCompanionSort.ftl:sort", "collections/src/main/java/com/bytefacets/collections/types/IntType.java"]}
{"id": "C62", "title": "Absolute comparators of float and double order by magnitude", "statement": "FloatType/DoubleType AbsAsc.compare(a,b) has the sign of |a| compared with |b| (NaN larger than every number), AbsDesc the reverse.", "quantifier": "every pair of floats and every pair of doubles, infinities, subnormals, zeros and NaN included", "why_tests_cant": "2^64 pairs of floats, 2^128 of doubles; rounding of a difference and NaN are the risk", "anchors": ["collections/src/main/java/com/bytefacets/collections/types/FloatType.java:AbsAsc, AbsDesc", "collections/src/main/java/com/bytefacets/collections/types/DoubleType.java:AbsAsc, AbsDesc"]}
{"id": "C63", "title": "Float and double predicates are the IEEE relations", "statement": "predicateFor(EQ/NEQ/LT/LTE/GT/GTE) of FloatType and DoubleType is the corresponding relation of the values: numeric on numbers (0.0 equals -0.0), and with a NaN on either side only NEQ holds.", "quantifier": "every method and pair of values", "why_tests_cant": "2^64 pairs of floats, 2^128 of doubles", "anchors": ["collections/src/main/java/com/bytefacets/collections/types/FloatType.java:IS_EQ ... predicateFor", "collections/src/main/java/com/bytefacets/collections/types/DoubleType.java:IS_EQ ... predicateFor"]}
{"id": "C64", "title": "Float and double codecs are bit-exact", "statement": "Writing any float or double (NaN payloads and -0.0 included) and reading it back at the same position and byte order yields the same bits; the bytes are the base-256 digits of its IEEE 754 encoding; bytes outside the window are unchanged; reading any window and writing it back reproduces it.", "quantifier": "every value, array and position, both byte orders", "why_tests_cant": "2^64 doubles at every position of every array", "anchors": ["collections/src/main/java/com/bytefacets/collections/types/FloatType.java:writeLE writeBE readLE readBE", "collections/src/main/java/com/bytefacets/collections/types/DoubleType.java:writeLE writeBE readLE readBE"]}
{"id": "C65", "title": "Casts between int and float or double", "statement": "castToInt of a float or double truncates toward zero, clamps to the int range, maps NaN to 0 and is monotone; castToDouble of an int is exact and castToInt gives the int back; castToFloat of an int is a nearest float, exact up to 2^24.", "quantifier": "every int, float and double", "why_tests_cant": "2^32 ints and 2^64 doubles; rounding and clamping boundaries", "anchors": ["collections/src/main/java/com/bytefacets/collections/types/FloatType.java:castToInt, castToFloat", "collections/src/main/java/com/bytefacets/collections/types/DoubleType.java:castToInt, castToDouble"]}
{"id": "C66", "title": "EqEpsilon relates doubles closer than 1e-10", "statement": "DoubleType.EqEpsilon is symmetric; it is true of every finite double with itself; when true, both doubles are finite and differ by less than the double nearest to 1e-10; two finite doubles whose difference is at most any smaller double are related.", "quantifier": "every pair of doubles", "why_tests_cant": "2^128 pairs; the rounding of the difference near the threshold", "anchors": ["collections/src/main/java/com/bytefacets/collections/types/DoubleType.java:EqEpsilon"]}
{"id": "C67", "title": "Float and double keys are sorted and heaped numerically", "statement": "CompanionSort with FloatType.Asc/DoubleType.Asc orders any range of keys numerically, and a float or double heap with its default comparator peeks at a numerically least key, for every content of the arrays and every history of the heap.", "quantifier": "every array content and range, every heap history", "why_tests_cant": "every array and history; NaN, zeros of both signs, infinities and subnormals mixed arbitrarily", "anchors": ["collections/src/main/java/com/bytefacets/collections/types/DoubleType.java:Asc", "collections/src/main/java/com/bytefacets/collections/types/FloatType.java:Asc", "collections/src/main/templates/com/bytefacets/collections/sort/KeyValueCompanionSort.ftl", "collections/src/main/templates/com/bytefacets/collections/heap/BaseKeyHeap.ftl"]}
{"id": "C68", "title": "EqEpsilon as the equality of a double set or map", "statement": "With setEqualityFunction(DoubleType.EqEpsilon) a double-keyed set or map treats keys within the tolerance as the same key: after add(k), containsKey is true and add returns the same entry for every key within 1e-10 of k.", "quantifier": "every key pair and history", "why_tests_cant": "every pair of close keys and every table state", "anchors": ["collections/src/main/java/com/bytefacets/collections/types/DoubleType.java:EqEpsilon, HashImpl", "collections/src/main/templates/com/bytefacets/collections/hash/BaseKeyIndex.ftl:lookupEntry"]}
{"id": "C69", "title": "Integer casts keep the low bits", "statement": "castToByte, castToShort, castToChar and LongType.castToInt return the value of their type congruent to the argument, hence the argument itself when it fits; castToBool is 'not zero' and undoes castToInt of a boolean.", "quantifier": "every int (every long)", "why_tests_cant": "2^32 arguments per cast; a wrong mask or a missing sign extension only shows on some", "anchors": ["collections/src/main/java/com/bytefacets/collections/types/ByteType.java:64-70", "collections/src/main/java/com/bytefacets/collections/types/ShortType.java:64-70", "collections/src/main/java/com/bytefacets/collections/types/CharType.java:66-72", "collections/src/main/java/com/bytefacets/collections/types/LongType.java:64-70", "collections/src/main/java/com/bytefacets/collections/types/BoolType.java:52-58"]}
{"id": "C70", "title": "Decimal strings parse exactly and round-trip", "statement": "parseString of byte, short, int and long (and StringType.castToInt) accepts exactly an optional sign followed by one or more decimal digits whose value is in range, returns that value, and throws NumberFormatException for anything else including null. castToInt(castToString(n)) = n for every int. BoolType.parseString is true exactly for 'true' in any case.", "quantifier": "every string of any length, every int", "why_tests_cant": "unboundedly many strings; overflow is detected digit by digit", "anchors": ["collections/src/main/java/com/bytefacets/collections/types/IntType.java:80-82", "collections/src/main/java/com/bytefacets/collections/types/StringType.java:85-91", "collections/src/main/java/com/bytefacets/collections/types/ByteType.java:80-82", "collections/src/main/java/com/bytefacets/collections/types/BoolType.java:68-70"]}
{"id": "C71", "title": "Boxing and convert keep values", "statement": "unbox(box(v)) = v and convert(box(v)) = v for every type; convert(null) is the type's default; convert of a Number keeps the low bits of an integral value and rounds a floating one toward zero with clamping; float to double is exact; convert of a LocalDate or LocalTime is its int encoding; convert of a String parses it; other classes are refused with IllegalArgumentException (unbox: ClassCastException).", "quantifier": "every value of every type and every class of argument", "why_tests_cant": "value spaces of 2^64 per type and unbounded strings", "anchors": ["collections/src/main/java/com/bytefacets/collections/types/IntType.java:72-146", "collections/src/main/java/com/bytefacets/collections/types/CharType.java:74-102", "collections/src/main/java/com/bytefacets/collections/types/BoolType.java:60-106", "collections/src/main/java/com/bytefacets/collections/types/DoubleType.java:73-117", "collections/src/main/java/com/bytefacets/collections/types/StringType.java:93-107"]}
{"id": "C72", "title": "Sets and maps compare keys by value for every key type", "statement": "With the default hash and equality functions, an indexed set or map with byte, short, char, int, long, boolean or String keys answers size, containsKey, get and getOrDefault like the finite map, keyed by value, that the calls of put, add, remove and clear describe; a null String is a key like any other, and keys with equal hash codes are not confused. Object keys are compared by equals, provided equals and hashCode keep their contract.", "quantifier": "every key type other than float and double, every capacity and load factor the constructor accepts, every history of calls that name keys", "why_tests_cant": "unbounded histories; key spaces of 2^64 and all strings; colliding hash codes", "anchors": ["collections/src/main/java/com/bytefacets/collections/types/IntType.java:18,66", "collections/src/main/java/com/bytefacets/collections/types/LongType.java:14,62", "collections/src/main/java/com/bytefacets/collections/types/BoolType.java:14,50", "collections/src/main/java/com/bytefacets/collections/types/StringType.java:18,83", "collections/src/main/java/com/bytefacets/collections/types/GenericType.java:17,60", "collections/src/main/templates/com/bytefacets/collections/hash/BaseKeyIndex.ftl:18-19,150-200"]}
{"id": "C73", "title": "The inverted index example finds exactly the orders of a term", "statement": "After any calls of add, count(term) is the number of distinct orders added with the term as symbol or strategy, and iterate(term) delivers each of them once and no others. Every call returns.", "quantifier": "every history of calls in which every add returned, all long order ids and all terms including null", "why_tests_cant": "unbounded histories over three composed collections", "anchors": ["examples/src/main/java/com/bytefacets/collections/bi/InvertedIndexExample.java:31-73"]}
{"id": "C74", "title": "The school example lists exactly the enrolled", "statement": "printStudentsInClass prints the current teacher, the number and each once the students enrolled in the class; printClassesForStudent the number and each once the classes with their current teachers; enroll tells whether the class exists. Every call returns.", "quantifier": "every history of calls, all names including null", "why_tests_cant": "unbounded histories over three composed collections", "anchors": ["examples/src/main/java/com/bytefacets/collections/bi/ManyToManyExample.java:70-128"]}
{"id": "C75", "title": "The timeout example reports every expired item, once and in order", "statement": "process reports items that wait, each once, earliest expiry first, only after their expiry; with a still clock exactly those that expired, with a clock that goes on at least those expired at its first reading; it returns the time until the next expiry, or 100. Every item added is acknowledged once, reported once or still waits.", "quantifier": "every history of add, acknowledge and process calls in which only waiting items are acknowledged, any clock readings, fewer than 2^29 items waiting", "why_tests_cant": "unbounded histories, arbitrary clock readings", "anchors": ["examples/src/main/java/com/bytefacets/collections/heap/TimeoutExample.java:106-175"]}
{"id": "C76", "title": "Acknowledging an item of the timeout example affects no other item", "statement": "An acknowledged item is not reported any more, and no other item is lost by an acknowledgement.", "quantifier": "every history of calls", "why_tests_cant": "unbounded histories; the failing one needs the reuse of a heap entry between threads", "anchors": ["examples/src/main/java/com/bytefacets/collections/heap/TimeoutExample.java:115-119", "examples/src/main/java/com/bytefacets/collections/heap/TimeoutExample.java:142-174"]}
{"id": "C77", "title": "CompanionSort ends even with an inconsistent comparator", "statement": "sort(...) on a range inside both arrays ends for every comparator that ends and finds each key equal to itself: the comparator may be inconsistent, intransitive, have a state or throw. At most 3*len^2 comparator calls are made and the recursion is at most len+1 deep; the call returns or throws what the comparator threw. All library comparators of byte, short, char, int, long, float and double qualify, NaN and overflowing differences included. A comparator that does not find a key equal to itself can make the call recurse without end.", "quantifier": "every comparator (stateful, partial), every range, all keys and lengths", "why_tests_cant": "Termination for all inputs and all comparators is not observable in finitely many runs; the inputs that make an inconsistent comparator recurse are adversarial.", "anchors": ["collections/src/main/templates/com/bytefacets/collections/sort/KeyValueCompanionSort.ftl:18-85"]}
{"id": "C78", "title": "Entries of an indexed set index a ChunkStore and a ChunkMatrixStore as the rows of a table", "statement": "When the entry a set returns for a key is used as index into a ChunkStore (a column) and as row of a ChunkMatrixStore (fields), the three together are a table by key: through any history of add, set of the column or of a field under the entry, remove, clear and reads, a key's cells read as last written since the key was added; keys never share a row; a key keeps its row number until removed; row numbers stay below the largest number of keys held at a time; no call fails except with RangeCheckException for a field number out of range (the key is added even then); forEachEntry visits each key once with its column. A cell not written since its key was added reads as the default as long as no row was ever removed; after a removal the next new key is given the row of the removed one with everything written to it still there.", "quantifier": "every history of calls, every key type with equality (all integral types, String), all hash functions, capacities, load factors (dense), chunk sizes that are powers of two and numbers of fields, up to 2^29 keys", "why_tests_cant": "the property spans three growing structures over unbounded histories; aliasing of two keys' cells needs a coincidence of entry reuse, rehash and chunk growth that a test must hit by chance", "anchors": ["README.md:22-34", "README.md:54-61", "collections/src/main/templates/com/bytefacets/collections/store/KeyChunkStore.ftl:18-79", "collections/src/main/templates/com/bytefacets/collections/store/KeyChunkMatrixStore.ftl:20-112", "collections/src/main/java/com/bytefacets/collections/hash/BaseHash.java:14-268"]}
{"id": "C79", "title": "The entry iterator answers correctly in every order of next, remove, currentEntry, reset and collection calls", "statement": "With one collection and one entry iterator over it, used in any order: after a reset (or iterator(it)) next() delivers each live entry once and then keeps returning false; after n deliveries it delivers another one exactly if n is less than the number of keys; remove() removes the entry delivered last; a second remove() without next() in between throws IllegalStateException and changes nothing; remove() past the end throws ArrayIndexOutOfBoundsException and changes nothing; remove() before the first next() removes the entry that next() would have delivered, and next() then goes on after it; currentEntry() is -1 before the first next(), the entry delivered last (also after its removal), negative past the end. Calls that do not modify the collection do not disturb the iteration, and every collection call in between answers as if the removals had been made by removeAt (except for the key left in the freed entry). iterator(it) with an iterator of the same collection, in whatever state, is a fresh iterator; with an iterator of another collection it iterates over, and removes from, that other collection and leaves the one it was called on alone.", "quantifier": "every sequence of calls, every reachable state of the collection, every state of the iterator object, every key and value type and pair of functions", "why_tests_cant": "the calls can be interleaved in infinitely many orders; a link left wrong by one removal shows only in a later step or after the next reset", "anchors": ["collections/src/main/java/com/bytefacets/collections/hash/BaseHash.java:127-139", "collections/src/main/java/com/bytefacets/collections/hash/BaseHash.java:163-268"]}
{"id": "C80", "title": "Array helpers create, fill, resize and grow exactly as documented", "statement": "create(size, value) returns an array of exactly that many copies of the value (of the type's default without a value) and rejects a negative size; fill changes exactly the given section, and when the section leaves the array it throws after filling the part inside; resize and copyOf keep the leading elements and pad with the default or the given value; ensureSize grows to the old length doubled as often as necessary, not once more.", "quantifier": "every array, every size, offset and length, every fill value", "why_tests_cant": "the outcome for every combination of offset, length and size, at and beyond the bounds, cannot be enumerated; values equal to but different from the default (-0.0) are easily missed", "anchors": ["collections/src/main/templates/com/bytefacets/collections/arrays/KeyArray.ftl"]}
{"id": "C81", "title": "capacity() depends only on the initial capacity, the load factor and the most entries ever in use at once", "statement": "The capacity of an indexed set or map is the least power of two that is at least the initial capacity, doubled exactly as often as it takes for the most entries that were ever in use at once (holding a key or reserved) to be at most loadFactor times the capacity, up to 2^29; so no amount of removing and adding, reserving and freeing, or clearing and refilling makes it grow, and a collection created with initialCapacity * loadFactor at least the number of entries it will hold is never rebuilt. The capacity of a heap is the initial capacity, doubled (up to 2^29) only when the heap was full: it is at least the most keys it ever held and, once grown, less than twice that number.", "quantifier": "every sequence of calls on a new set or map (without copyFrom), every initial capacity accepted, every load factor of at least 1/(2 * initialCapacity) - with a NaN load factor, which the constructor accepts, every new key doubles the capacity; every legal sequence of calls on a heap created with capacity at least 1", "why_tests_cant": "a leak of entry numbers on one rarely taken path shows only as slow growth over an unbounded number of rounds", "anchors": ["collections/src/main/java/com/bytefacets/collections/hash/BaseHash.java:30-72", "collections/src/main/java/com/bytefacets/collections/CapacityCalculator.java:12-30", "collections/src/main/templates/com/bytefacets/collections/hash/BaseKeyIndex.ftl:188-279", "collections/src/main/java/com/bytefacets/collections/heap/BaseHeap.java:54-74", "collections/src/main/templates/com/bytefacets/collections/heap/BaseKeyHeap.ftl:168-189"]}
{"id": "C82", "title": "A heap calls its comparator few times, and only on keys of its entries", "statement": "With n entries in the heap, insert calls the comparator at most log2(n+1) times, removeAt at most 3*log2(n-1) times, resetKey at most 3*log2(n) times, setComparator at most n*log2(n) times, getFirstEntry and containsKey at most n times (logarithms rounded down), and every other method never; this also holds for a call that the comparator ends by throwing. insert, getFirstEntry and containsKey pass the given key first and the key of an entry in the heap second; the others pass the keys of two different entries in the heap (with the new key for resetKey, without the removed one for removeAt): never a default key, a stale key or a removed one.", "quantifier": "every comparator - stateful, inconsistent, with side effects, throwing or never returning, but not calling the heap - every sequence of calls with entries the caller was given, on a heap that was new or just cleared", "why_tests_cant": "comparators with side effects or partial comparators are unboundedly many; the bound is over all heap sizes and shapes", "anchors": ["collections/src/main/templates/com/bytefacets/collections/heap/BaseKeyHeap.ftl:35-51", "collections/src/main/templates/com/bytefacets/collections/heap/BaseKeyHeap.ftl:88-142", "collections/src/main/templates/com/bytefacets/collections/heap/BaseKeyHeap.ftl:158-239"]}
{"id": "C83", "title": "A heap keeps its entries under any comparator", "statement": "Whatever the comparator answers, as long as it does not throw: getSize, isEmpty, getKeyAt, getValueAt and isValidEntry agree with the calls made; insert returns an entry not in the heap, namely the one removed last and not handed out again, else the number of entries; calls that reorder the heap return, or end with what the comparator threw; taking peek() and removeAt until the heap is empty ends, and brings out every entry exactly once. If the answers are those of a function, side effects of the comparator change no result.", "quantifier": "every comparator that does not call the heap, every sequence of calls with entries the caller was given, on a heap that was new or just cleared, in which no reordering call was cut short by the comparator", "why_tests_cant": "inconsistent and stateful comparators are unboundedly many", "anchors": ["collections/src/main/templates/com/bytefacets/collections/heap/BaseKeyHeap.ftl:35-51", "collections/src/main/templates/com/bytefacets/collections/heap/BaseKeyHeap.ftl:88-142", "collections/src/main/templates/com/bytefacets/collections/heap/BaseKeyHeap.ftl:158-239", "collections/src/main/templates/com/bytefacets/collections/heap/KeyValueHeap.ftl:49-95"]}
{"id": "C84", "title": "A comparator that throws leaves a usable heap", "statement": "If the comparator throws out of a call on a heap, the heap can still be used: it drains into its entries, each once.", "quantifier": "every comparator, every sequence of calls, every call that the comparator ends", "why_tests_cant": "a comparator may throw at any of unboundedly many calls and shapes of the heap", "anchors": ["collections/src/main/templates/com/bytefacets/collections/heap/BaseKeyHeap.ftl:35-51", "collections/src/main/templates/com/bytefacets/collections/heap/BaseKeyHeap.ftl:88-142", "collections/src/main/templates/com/bytefacets/collections/heap/BaseKeyHeap.ftl:158-239", "collections/src/main/java/com/bytefacets/collections/types/StringType.java:24-44"]}
{"id": "C85", "title": "Which calls an indexed set or map makes to its hash and equality functions", "statement": "lookupEntry, containsKey, get, getOrDefault and remove ask for the hash code of their key once, and then compare their key - as the first argument - with keys of entries in the collection whose last hash code falls in the same slot, each entry at most once, until a comparison is not answered false; add and put do the same and, if the table has to be rebuilt, ask once for the hash code of every key in the collection and again for that of the new key: at most 2*size()+2 calls. Every other method calls neither function. The functions never see a key that was not an argument (no default key); the second argument of areEqual was given to add or put. If the functions behave as mathematical functions, the results are those of C30-C42.", "quantifier": "every pair of functions - stateful, inconsistent, throwing or never returning, but not calling the collection - every capacity and load factor, every sequence of calls of the public methods but removeAtAndReserve and freeReservedEntry", "why_tests_cant": "hash and equality functions with side effects are unboundedly many, as are tables and chains", "anchors": ["collections/src/main/templates/com/bytefacets/collections/hash/BaseKeyIndex.ftl:60-69", "collections/src/main/templates/com/bytefacets/collections/hash/BaseKeyIndex.ftl:132-182", "collections/src/main/templates/com/bytefacets/collections/hash/BaseKeyIndex.ftl:188-214", "collections/src/main/templates/com/bytefacets/collections/hash/BaseKeyIndex.ftl:246-279", "collections/src/main/templates/com/bytefacets/collections/hash/KeyValueIndexedMap.ftl:32-40", "collections/src/main/templates/com/bytefacets/collections/hash/KeyValueIndexedMap.ftl:60-66", "collections/src/main/templates/com/bytefacets/collections/hash/KeyValueIndexedMap.ftl:93-97", "collections/src/main/templates/com/bytefacets/collections/hash/KeyValueIndexedMap.ftl:129-135"]}
{"id": "C86", "title": "A collection holds what the calls say, whatever its hash and equality functions answer", "statement": "Whatever hashCode and equals answer - also when they contradict themselves, or keys are changed while in the collection - as long as no add or put failed since the collection was new or cleared: size(), isEmpty(), iteration, getKeyAt and getValueAt agree with the results of the calls made; a key is found only if the last thing that happened was areEqual answering true for the key of the returned entry, and not found only if every comparison was answered false; add and put return an entry that matched so, or one that was free.", "quantifier": "every pair of functions not calling the collection, every capacity and load factor, every sequence of calls of the public methods but removeAtAndReserve and freeReservedEntry (with those two the statement fails: C86_reserve_limit)", "why_tests_cant": "inconsistent functions and mutated keys are unboundedly many", "anchors": ["collections/src/main/templates/com/bytefacets/collections/hash/BaseKeyIndex.ftl:60-69", "collections/src/main/templates/com/bytefacets/collections/hash/BaseKeyIndex.ftl:132-182", "collections/src/main/templates/com/bytefacets/collections/hash/BaseKeyIndex.ftl:188-214", "collections/src/main/templates/com/bytefacets/collections/hash/BaseKeyIndex.ftl:246-279", "collections/src/main/templates/com/bytefacets/collections/hash/KeyValueIndexedMap.ftl:32-40", "collections/src/main/templates/com/bytefacets/collections/hash/KeyValueIndexedMap.ftl:60-66", "collections/src/main/templates/com/bytefacets/collections/hash/KeyValueIndexedMap.ftl:93-97", "collections/src/main/templates/com/bytefacets/collections/hash/KeyValueIndexedMap.ftl:129-135"]}
{"id": "C87", "title": "What is left when a hash or equality function throws", "statement": "A call fails only with what the last call of a function threw, or for one of its documented reasons (no such key, index out of range, functions set on a non-empty collection, table of 2^30 slots full). After any failure of lookupEntry, containsKey, get, getOrDefault or remove the collection is unchanged. After a failure of add or put it is unchanged too, unless the table was full or being rebuilt and a hash code asked for later than the first failed; even then size() answers the same and the entries are among those before, with their keys and values. clear() never fails, and afterwards C86 holds again.", "quantifier": "every pair of functions not calling the collection, every capacity and load factor, every sequence of calls of the public methods but removeAtAndReserve and freeReservedEntry, with any number of failures; what a cut rebuild costs is shown by C87_rebuild_limit", "why_tests_cant": "a function may fail at any of unboundedly many calls, in tables of any shape", "anchors": ["collections/src/main/templates/com/bytefacets/collections/hash/BaseKeyIndex.ftl:60-69", "collections/src/main/templates/com/bytefacets/collections/hash/BaseKeyIndex.ftl:132-182", "collections/src/main/templates/com/bytefacets/collections/hash/BaseKeyIndex.ftl:188-214", "collections/src/main/templates/com/bytefacets/collections/hash/BaseKeyIndex.ftl:246-279", "collections/src/main/templates/com/bytefacets/collections/hash/KeyValueIndexedMap.ftl:32-40", "collections/src/main/templates/com/bytefacets/collections/hash/KeyValueIndexedMap.ftl:60-66", "collections/src/main/templates/com/bytefacets/collections/hash/KeyValueIndexedMap.ftl:93-97", "collections/src/main/templates/com/bytefacets/collections/hash/KeyValueIndexedMap.ftl:129-135"]}
{"id": "C88", "title": "Hydra deque iterators keep their place while the deque changes", "statement": "Any number of iterators and reverse iterators of a hydra deque may be in use while elements are added to and removed from the deque. Each next() delivers the element that stands, at that moment, at the iterator's place in its list: calls on other lists do not affect it; elements added to its own list ahead of it are delivered, those added behind it are not; removing elements it has already delivered does not disturb it, so a loop may remove each element as it is delivered. An iterator that has reached the end stays there: hasNext() answers false and next() throws, also after later adds. This holds until a call removes the element the iterator was to deliver next (or clear() is called). Iterator calls never change the deque.", "quantifier": "every element type, every initial size, every sequence of deque calls and iterator calls in any order, any number of iterators; after the next element is removed nothing is promised (C88_removed_under_iterator shows it may then deliver another list's element)", "why_tests_cant": "the interleavings of iterator steps with changes of shared storage are unbounded", "anchors": ["collections/src/main/templates/com/bytefacets/collections/queue/KeyHydraDeque.ftl:76-114", "collections/src/main/templates/com/bytefacets/collections/queue/KeyHydraDeque.ftl:134-178", "collections/src/main/templates/com/bytefacets/collections/queue/KeyHydraDeque.ftl:198-227", "collections/src/main/templates/com/bytefacets/collections/queue/KeyHydraDeque.ftl:243-283"]}
{"id": "C89", "title": "Several entry iterators over one collection do not disturb each other", "statement": "Any number of entry iterators may be in use over one hash set or map, with their calls and the collection's calls in any order. Each iterator answers exactly as it would if it were the only one: next() delivers entries not yet delivered since its own reset until all were, currentEntry() and remove() refer to its own place. Moving one iterator leaves the others and the collection alone. Two iterators in nested loops deliver every pair of entries exactly once. When an entry is removed through one iterator, the others fail with ConcurrentModificationException at their next next() or remove(), changing nothing, until they are reset.", "quantifier": "every key and value type, hash and equality; every reachable collection; every number of iterators and every interleaving of their calls with calls of the collection (after a modification an iterator is used again only after reset, or fails fast as stated while fewer than 2^32 entries were removed through other iterators)", "why_tests_cant": "the interleavings of several iterators' steps and removals are unbounded", "anchors": ["collections/src/main/java/com/bytefacets/collections/hash/BaseHash.java:127-139", "collections/src/main/java/com/bytefacets/collections/hash/BaseHash.java:163-268"]}
{"id": "C90", "title": "A consumer may use the collection it is called from", "statement": "The consumer given to forEachEntry, forEach or forEachValue of an indexed set or map may itself call the collection: any query, put or putValueAt on keys and entries that are present, removing or reserving what it has already been given (by key or by entry), and freeing reserved entries. Each such call answers as it would outside the loop. The consumer is given every entry that was there when the loop began exactly once (with the key or value it has at that moment), the loop ends, it throws only if the consumer does, and what is left in the collection is what the consumer's calls amount to. A consumer that throws has been given each entry at most once, and the collection stays usable.", "quantifier": "every key type, value type, equality and hash function that fit together, every reachable collection, every consumer with state of its own whose calls depend on earlier results; not promised for consumers that add new keys (an entry may then be missed) or remove what is still to come (it may then be given entries that were removed): C90_adding_limit, C90_ahead_limit", "why_tests_cant": "what the consumer does can change the chain the loop is walking at every step, in unboundedly many combinations", "anchors": ["collections/src/main/java/com/bytefacets/collections/hash/BaseHash.java:95-109", "collections/src/main/templates/com/bytefacets/collections/hash/BaseKeyIndex.ftl:44-58", "collections/src/main/templates/com/bytefacets/collections/hash/KeyValueIndexedMap.ftl:109-123"]}
{"id": "C91", "title": "Work lists: a consumer of a vector or deque may add to it", "statement": "The consumer given to forEach of a vector may itself call the vector: each delivery is the element at the next index at that moment, so (unless it clears the vector) it is given all the elements in order and then everything it appended. The consumer given to forEach of a deque may add at either end as long as the deque does not grow (there is room for as many elements as it ever held, and for one less than the capacity it was made with), remove at the front what it was given, and remove at the back what it was not: each delivery is the next element at that moment, and (unless it removes at the back) it is given all the elements in order and then everything it added at the back. Either way the consumer runs once for each delivery and keeps its own variables, every call it makes answers as it would outside the loop, the number of deliveries is at most the number of elements plus the number added at the back, the loop throws only if the consumer does, and the collection is then as the consumer's calls leave it, also if the consumer threw.", "quantifier": "every element type, every history of calls before, every consumer with state of its own whose calls depend on earlier results; outside the conditions a deque's loop may skip elements (growth), deliver values that were never there (removing ahead, clear) or go around again (removing behind): C91_growth_limit, C91_ahead_limit, C91_behind_limit, C91_clear_limit", "why_tests_cant": "the position of the loop relative to the ring's front and back changes with each of the consumer's calls, in unboundedly many combinations", "anchors": ["collections/src/main/templates/com/bytefacets/collections/vector/KeyVector.ftl:53-57", "collections/src/main/templates/com/bytefacets/collections/queue/KeyDeque.ftl:36-42", "collections/src/main/templates/com/bytefacets/collections/queue/KeyDeque.ftl:157-176"]}
{"id": "C92", "title": "Mappings and their iterators keep their place while the collection changes", "statement": "The Mapping that withLeft (withRight) returns is always the same object, and so are its entry iterator and its value iterator. Taken as such: an iterator starts with the entries of its key, newest pair first, each once; next() delivers them in that order (or the partners they had), hasNext() says whether one is left, reset() starts again with the entries the key has by then, and count(), when it answers (C45), is their number. Pairs put meanwhile are not delivered, pairs removed before their turn are not delivered either, the iterators of the two sides and of entries and values do not disturb each other, giving the Mapping another key does not disturb an iterator already obtained, and the collection is as if it had only been asked. next() at the end throws IndexOutOfBoundsException and changes nothing. Only an iterator whose very next entry is removed loses its place.", "quantifier": "every sequence of calls on a CompactOneToMany or CompactManyToMany, its Mappings and their iterators in which calls that change the collection complete and hasNext and next are not called on an iterator that has lost its place (C92_removed_limit: it delivers the removed entry and ends early); next and forEach may also throw once more entries were in use than the constructor was told (C47), and valueIterator throws for a key without pairs that no array covers (C45)", "why_tests_cant": "four iterators and the collection share the linked lists; which calls may come in between, in which order, is unbounded", "anchors": ["collections/src/main/java/com/bytefacets/collections/bi/Mapping.java:17-64", "collections/src/main/java/com/bytefacets/collections/bi/Side.java:87-148", "collections/src/main/java/com/bytefacets/collections/bi/CompactOneToMany.java:106-109", "collections/src/main/java/com/bytefacets/collections/bi/CompactManyToMany.java:45-48"]}
{"id": "C93", "title": "Consumers of a Mapping may call the collection", "statement": "The consumer given to forEachEntry or forEachValue of a Mapping may call the collection, the Mappings and their iterators: it is given the entries the key had at the start (or their partners), newest first, except those it removed before their turn, provided it leaves the iterator of the loop alone and does not remove the very entry that is next. Every call it makes answers as it would outside the loop, the number of deliveries is at most the number of entries at the start, the loop throws only if the consumer does (or as in C92), and the collection is then as the consumer's calls leave it, also if the consumer threw. In particular it may remove the entry it was given.", "quantifier": "every sequence of calls before, every consumer with state of its own whose calls depend on earlier results; a consumer that runs a loop of the same kind over the same side moves the iterator of the outer loop, which then ends after one delivery (C93_nested_limit)", "why_tests_cant": "the consumer's calls change the lists the loop walks and may use the other iterators, in unboundedly many combinations", "anchors": ["collections/src/main/java/com/bytefacets/collections/bi/Mapping.java:44-63", "collections/src/main/java/com/bytefacets/collections/bi/Side.java:87-148", "collections/src/main/templates/com/bytefacets/collections/functional/KeyIterator.ftl:14-19"]}
{"id": "C94", "title": "Consumers of a heap's forEachEntry may call the heap", "statement": "The consumer given to forEachEntry of a heap may call the heap - insert, remove, reset keys, change values, the comparator, clear. Every call it makes has the result and the effect it would have outside the loop; entries are delivered in increasing order, each at most once, and are in the heap when they are delivered; the consumer runs once for each and keeps its own variables; an entry that is in the heap throughout is delivered; the loop ends, and throws only if the consumer does.", "quantifier": "every history of permitted calls before the loop, every consumer with state of its own whose calls depend on earlier results and are permitted. Proved but for one thing: an entry that is in the heap throughout is delivered if it is below the size of the heap when the loop ends. That covers every entry if none was ever removed (then also those the consumer inserts are delivered), but forEachEntry(heap::removeAt) leaves half of the entries (C94_remove_refuted)", "why_tests_cant": "the consumer's calls move entries in the tree and change the bound of the loop, in unboundedly many combinations", "anchors": ["collections/src/main/java/com/bytefacets/collections/heap/BaseHeap.java:42-52"]}
{"id": "C95", "title": "Consumers of a bidirectional collection's forEachEntry may call the collection", "statement": "The consumer given to forEachEntry of a CompactOneToMany or CompactManyToMany may look anything up, put pairs that are there already, remove or reserve entries that it has been given, and free reserved ones. Every entry that held a pair at the start is delivered exactly once, and holds its pair when it is delivered; every call the consumer makes has the result and the effect it would have outside the loop; the loop ends, and throws only if the consumer does. In particular forEachEntry(e -> if (test(getLeftAt(e), getRightAt(e))) removeAt(e)) leaves exactly the pairs that do not pass the test, in their entries.", "quantifier": "every history of calls before the loop, every consumer with state of its own whose calls depend on earlier results, are of this kind and complete (C47 says when calls do not)", "why_tests_cant": "the consumer's removals relink the chains of the set, the lists of both sides and the free list while the set is being walked, in unboundedly many combinations", "anchors": ["collections/src/main/java/com/bytefacets/collections/bi/CompactOneToMany.java:171-173", "collections/src/main/java/com/bytefacets/collections/hash/BaseHash.java:95-109"]}
{"id": "C96", "title": "What is removed or cleared is let go of", "statement": "A collection of objects keeps no reference to what is no longer in it, so that it can be garbage collected. After any history, the array behind a vector, a deque or a hydra deque of objects holds exactly the elements, each as often as it is there, and null elsewhere. In heaps and in indexed sets and maps, getKeyAt and getValueAt of an entry below the capacity that is not in use (nor reserved) return the default key and value.", "quantifier": "every history of calls on every collection, however often it has grown, wrapped, been cleared or been copied", "why_tests_cant": "a forgotten reference is invisible to assertions on results, and arises only for particular interleavings of removals, clears, growth and reuse", "anchors": ["collections/src/main/templates/com/bytefacets/collections/vector/KeyVector.ftl:74-80", "collections/src/main/templates/com/bytefacets/collections/queue/KeyDeque.ftl:72-140", "collections/src/main/templates/com/bytefacets/collections/queue/KeyHydraDeque.ftl:134-200", "collections/src/main/templates/com/bytefacets/collections/heap/BaseKeyHeap.ftl:74-120", "collections/src/main/templates/com/bytefacets/collections/heap/KeyValueHeap.ftl:88-95", "collections/src/main/java/com/bytefacets/collections/hash/BaseHash.java:74-92", "collections/src/main/java/com/bytefacets/collections/hash/BaseHash.java:235-266"]}
{"id": "C97", "title": "Growing is cheap over the whole life of a collection", "statement": "Add up, over all the calls ever made on a collection, the lengths of the arrays that growing copied. For a vector and a deque that is at most twice the most elements it ever held (or a vector was asked to have room for); for a heap at most twice the most keys it ever held; for each entry array of a hydra deque at most twice the most elements it held at once, or, if it was cleared, twice the number of adds, and for each list array at most twice the number of list ids up to the highest used; for a set or map at most twice the most entries ever in use divided by the load factor. No order of adds, removals and clears makes a collection grow again and again. Chunk stores are the exception: filling one chunk after another copies m(m+1)/2 chunk references for m chunks.", "quantifier": "every history of calls on every collection, every initial capacity and load factor", "why_tests_cant": "a test sees single growths; that alternating calls never make a collection grow repeatedly, and that the total stays linear, are statements about all histories", "anchors": ["collections/src/main/templates/com/bytefacets/collections/arrays/KeyArray.ftl:96-115", "collections/src/main/templates/com/bytefacets/collections/queue/KeyDeque.ftl:158-176", "collections/src/main/templates/com/bytefacets/collections/queue/KeyHydraDeque.ftl:50-73", "collections/src/main/templates/com/bytefacets/collections/heap/BaseKeyHeap.ftl:168-182", "collections/src/main/templates/com/bytefacets/collections/hash/BaseKeyIndex.ftl:251-275", "collections/src/main/templates/com/bytefacets/collections/store/KeyChunkStore.ftl:71-79"]}
{"id": "C98", "title": "Sorting few distinct keys is fast", "statement": "When a companion sort is given a range in which every key is equal, for the comparator, to one of d keys, and the comparator is consistent, the call makes at most 4 * len * d comparator calls and recurses at most d deep (at least once), and still sorts: a range of equal keys takes a linear number of calls, and no input of few distinct keys is quadratic or deep.", "quantifier": "every array, range, consistent comparator and list of d keys", "why_tests_cant": "a test tries a few inputs; that no arrangement of the keys provokes deep recursion or quadratic time is a statement about all of them", "anchors": ["collections/src/main/templates/com/bytefacets/collections/sort/KeyValueCompanionSort.ftl:18-85", "collections/src/main/templates/com/bytefacets/collections/sort/KeyValueCompanionSort.ftl:101-117"]}
{"id": "C99", "title": "Passing the same object twice is like passing a copy", "statement": "A companion sort with one array as primary and secondary does to it, for any comparator and range, what it does with the array and a copy of it: with a consistent comparator it sorts the range, permuting its elements and leaving the others alone. Calling copyFrom of a set or map with the collection itself returns, changes no answer, and leaves later calls with the results they would have had, under the conditions of C37.", "quantifier": "every array, range and comparator; every reachable set or map", "why_tests_cant": "aliased arguments are hardly ever tested, and swapping elements of two arrays that are one can lose elements for some orders of the assignments only", "anchors": ["collections/src/main/templates/com/bytefacets/collections/sort/KeyValueCompanionSort.ftl:18-117", "collections/src/main/java/com/bytefacets/collections/hash/BaseHash.java:140-161", "collections/src/main/templates/com/bytefacets/collections/hash/BaseKeyIndex.ftl:27-41", "collections/src/main/templates/com/bytefacets/collections/hash/KeyValueIndexedMap.ftl:43-53"]}
{"id": "C100", "title": "Ties: pairs with equal keys keep their order", "statement": "The companion sort is stable: pairs whose keys are equal for the comparator keep their order, so sorting what is sorted already changes nothing. In a heap, entries with equal keys come out in the order of their insertion; in particular an insertion changes what peek() returns only if the new key is smaller.", "quantifier": "every array, range and consistent comparator; every heap history", "why_tests_cant": "stability shows only in the companion values of equal keys, and only in some arrangements of seven or more; a test with distinct keys or short arrays passes", "anchors": ["collections/src/main/templates/com/bytefacets/collections/sort/KeyValueCompanionSort.ftl:18-85", "collections/src/main/templates/com/bytefacets/collections/heap/BaseKeyHeap.ftl:88-94", "collections/src/main/templates/com/bytefacets/collections/heap/BaseKeyHeap.ftl:191-239"]}
{"id": "C101", "title": "How many comparisons a call of a hash makes", "statement": "A call given a key compares it with at most as many keys as there are in the collection with a hash code congruent to its own modulo capacity(). So in an Int-keyed collection whose keys lie within an interval no longer than capacity() - consecutive keys in particular - a call makes at most one comparison, and none for an absent key of the interval; in a Long-keyed one at most two, and at most one if the keys agree in their upper halves. Limits: keys a multiple of capacity() apart are all compared with each other, and every long whose two halves are equal has hash code 0.", "quantifier": "every history, key, capacity and interval; every hash and equality function for the first sentence", "why_tests_cant": "the number of comparisons is not an answer of the API: a lookup that scans a chain of n keys returns the same as one that compares once, and a test sees only the keys it chose", "anchors": ["collections/src/main/templates/com/bytefacets/collections/hash/BaseKeyIndex.ftl:61-82", "collections/src/main/templates/com/bytefacets/collections/hash/BaseKeyIndex.ftl:148-215", "collections/src/main/templates/com/bytefacets/collections/hash/BaseKeyIndex.ftl:246-250", "collections/src/main/java/com/bytefacets/collections/hash/BaseHash.java:48-50"]}
{"id": "C102", "title": "Asking changes nothing", "statement": "The queries of vectors, deques, hydra deques, heaps, sets and maps, bidirectional collections, stores and the table built on them change no field of the collection, whether they return or throw; so leaving them out of a history changes neither any other answer nor the outcome. The exception is withLeft/withRight, which store their key in a shared Mapping.", "quantifier": "every query, argument and state, reachable or not; every history and every choice of the queries left out", "why_tests_cant": "a query that caches, compacts or resets a cursor gives right answers in a test that asks once; the damage shows in a later call of a history nobody wrote", "anchors": ["collections/src/main/templates/com/bytefacets/collections/vector/KeyVector.ftl:1-120", "collections/src/main/templates/com/bytefacets/collections/hash/BaseKeyIndex.ftl:61-90", "collections/src/main/java/com/bytefacets/collections/bi/CompactOneToMany.java:1-120"]}
{"id": "C103", "title": "Records of several types in one byte array", "statement": "Values of the eight primitive types, each in either endianness, written one after another into a byte array, each at the position the write before it returned, occupy exactly the sum of their widths, read back in order as written, and leave every other byte as it was; the bytes are those of the fields one after another. Writing one field again at its position changes that field only. Any bytes can be read as a record of any shape that fits. A record that does not fit throws, and nothing outside its place changes.", "quantifier": "every sequence of values, endiannesses, array, position and field replaced", "why_tests_cant": "mixed sequences are unbounded; a width or returned position off by one shows only when another field follows", "anchors": ["collections/src/main/java/com/bytefacets/collections/types/ByteType.java:writeLE/writeBE/readLE/readBE", "collections/src/main/java/com/bytefacets/collections/types/ShortType.java:writeLE/writeBE/readLE/readBE", "collections/src/main/java/com/bytefacets/collections/types/CharType.java:writeLE/writeBE/readLE/readBE", "collections/src/main/java/com/bytefacets/collections/types/IntType.java:writeLE/writeBE/readLE/readBE", "collections/src/main/java/com/bytefacets/collections/types/LongType.java:writeLE/writeBE/readLE/readBE", "collections/src/main/java/com/bytefacets/collections/types/BoolType.java:writeLE/writeBE/readLE/readBE", "collections/src/main/java/com/bytefacets/collections/types/FloatType.java:writeLE/writeBE/readLE/readBE", "collections/src/main/java/com/bytefacets/collections/types/DoubleType.java:writeLE/writeBE/readLE/readBE"]}
{"id": "C104", "title": "Sizing and hashing choices cannot be told from the answers", "statement": "Two collections of the same kind that differ only in how they were configured give the same answers to the same calls: vectors, deques, hydra deques and heaps with different initial capacities (for heaps including which of several equal keys comes first, whatever the comparator does), stores and matrix stores with different power-of-two chunk sizes and initial sizes, indexed sets and maps with different initial capacities, load factors (neither tiny) and hash functions - entry numbers included. Not among those calls: forEach and the iterators of sets and maps, whose order does depend on the hash function and the capacity, capacity() itself, and reads of entries not in use.", "quantifier": "every pair of configurations and every sequence of calls (short of the capacity limits)", "why_tests_cant": "a property of two runs: a test compares one configuration with an expected value, not every configuration with every other, and a growth path that is wrong only from one particular initial size goes unseen", "anchors": ["collections/src/main/templates/com/bytefacets/collections/vector/KeyVector.ftl:1-80", "collections/src/main/templates/com/bytefacets/collections/queue/KeyDeque.ftl:1-186", "collections/src/main/templates/com/bytefacets/collections/queue/KeyHydraDeque.ftl:1-284", "collections/src/main/templates/com/bytefacets/collections/store/KeyChunkStore.ftl:1-80", "collections/src/main/templates/com/bytefacets/collections/store/KeyChunkMatrixStore.ftl:1-113", "collections/src/main/templates/com/bytefacets/collections/hash/BaseKeyIndex.ftl:1-304", "collections/src/main/templates/com/bytefacets/collections/heap/BaseKeyHeap.ftl:1-250", "collections/src/main/templates/com/bytefacets/collections/heap/KeyValueHeap.ftl:1-96"]}
{"id": "C105", "title": "Every entry of a heap can be re-keyed and removed", "statement": "Whatever was inserted, every entry in a heap accepts resetKey with any key, after which getKeyAt reports that key, and can then be removed, which makes the heap one entry smaller; neither call throws, whatever the comparator answers.", "quantifier": "every reachable heap, every entry in it, every key, every comparator", "why_tests_cant": "the node arithmetic depends on the position of the entry in a tree of arbitrary size", "anchors": ["collections/src/main/templates/com/bytefacets/collections/heap/BaseKeyHeap.ftl:102-142", "collections/src/main/templates/com/bytefacets/collections/heap/BaseKeyHeap.ftl:191-239"]}
{"id": "C106", "title": "Contents decide, history does not", "statement": "The answers of an indexed set or map to questions by key depend on the keys and values it now holds, not on the calls that led to them: two sets or maps whose histories of add, put, remove and clear end in the same key-to-value contents, whatever their capacities, load factors and hash functions, agree on contains, get, getOrDefault, size and isEmpty. When equal keys are identical, forEach delivers the same keys, and forEachValue the same values, up to order. In particular the pairs put into a map, with different keys, may be put in any order. Likewise two heaps holding the same keys, however they were inserted, reset and removed, are drained with equal keys position by position, and two ranges with the same keys in different orders have, after sorting, equal keys at corresponding positions; when the pairs are the same and no two keys are equal, the sorted ranges are the same.", "quantifier": "for all key and value types; all equalities that are equivalences with matching hash functions; all capacities and load factors; all pairs of histories by key with the same final contents; all pairs of heap histories with the same keys and a consistent comparator; all pairs of ranges of any length whose keys are rearrangements of one another", "why_tests_cant": "A test compares a few chosen orders; the number of histories ending in the same contents is unbounded, and each puts different keys into different buckets, entries and tree positions.", "anchors": ["collections/src/main/templates/com/bytefacets/collections/hash/BaseKeyIndex.ftl:1-304", "collections/src/main/templates/com/bytefacets/collections/hash/KeyValueIndexedMap.ftl", "collections/src/main/templates/com/bytefacets/collections/heap/BaseKeyHeap.ftl:1-250", "collections/src/main/templates/com/bytefacets/collections/sort/KeyValueCompanionSort.ftl"]}
{"id": "C107", "title": "Calls that break a documented rule throw the documented exception and change nothing", "statement": "Wherever a method's Javadoc promises an exception, the method throws that exception in every case the Javadoc describes, and the object is left exactly as it was: on indexed sets and maps IndexOutOfBoundsException from getKeyAt, getValueAt and removeAt for entries outside 0..capacity()-1 (and from putValueAt, removeAtAndReserve and freeReservedEntry), KeyNotFoundException from get exactly for absent keys; on bidirectional collections IndexOutOfBoundsException from getLeftAt, getRightAt, removeAt, removeAtAndReserve and freeReservedEntry, IllegalArgumentException from count() without counts; on heaps IndexOutOfBoundsException from getKeyAt, getValueAt and setValueAt, RangeCheckException from removeAt, NullPointerException from setComparator(null), UnsupportedOperationException from setDefaultKey and setDefaultValue while the heap has entries.", "quantifier": "for all key and value types, all reachable states of sets, maps and heaps, all states of the bidirectional collections, all ints as entries", "why_tests_cant": "The promised exception must come in every reachable state and for every one of 2^32 entry arguments, and leave every field unchanged; a test tries a few arguments on a few states.", "anchors": ["collections/src/main/templates/com/bytefacets/collections/hash/BaseKeyIndex.ftl:71-150", "collections/src/main/templates/com/bytefacets/collections/hash/KeyValueIndexedMap.ftl:55-102", "collections/src/main/java/com/bytefacets/collections/bi/CompactOneToMany.java:74-156", "collections/src/main/java/com/bytefacets/collections/bi/Mapping.java:33-41", "collections/src/main/java/com/bytefacets/collections/bi/Side.java:29-34", "collections/src/main/templates/com/bytefacets/collections/heap/BaseKeyHeap.ftl:30-105", "collections/src/main/templates/com/bytefacets/collections/heap/KeyValueHeap.ftl:33-85"]}
{"id": "C108", "title": "A heap whose entries are kept in a map is a queue whose jobs can be moved and cancelled", "statement": "Keep each job's heap entry in an indexed map (README: store an element's entry in the heap for direct access). Then schedule (insert, or resetKey if the job waits already), cancel (removeAt), poll (peek and removeAt) and priorityOf answer as a finite map from jobs to priorities does: poll gives a waiting job of least priority with the priority it was last given, cancel says whether the job waited, and no call throws. Polling until empty gives every waiting job exactly once, in order of priority.", "quantifier": "For all job types whose equality function is equality and all hash functions, all priority types with a consistent comparator, all constructor sizes, and all sequences of calls with fewer than 2^29 jobs at a time.", "why_tests_cant": "The entry kept in the map must keep naming the same job through every later insertion, removal, sift and array growth of the heap, and every rehash of the map; tests cannot try all interleavings.", "anchors": ["README.md:41-44", "collections/src/main/templates/com/bytefacets/collections/heap/KeyValueHeap.ftl", "collections/src/main/templates/com/bytefacets/collections/hash/KeyValueIndexedMap.ftl"]}
{"id": "C109", "title": "An indexed set and a HydraDeque are first-in-first-out queues by key", "statement": "Number the keys by an indexed set, keep each key's items in the HydraDeque list of that number, and drop a key from the set with its last item. Then push, poll, size and list under a key answer as a separate first-in-first-out queue per key does, whatever happens under other keys and whichever key had the number before: a poll gives the oldest item still waiting for the key or null, the items pushed under a key are those its polls gave followed by those still listed, getSize of the deque and of the set count the items and the keys that wait, and no call throws or hangs.", "quantifier": "For all key types whose equality function is equality, all hash functions, item types and constructor sizes, and all sequences of calls with at most 2^29 keys and fewer than 2^30 items at a time.", "why_tests_cant": "Numbers are recycled between keys while the lists share one storage; a mix-up needs a particular interleaving of emptied keys, reused numbers and array growth that no finite test suite covers.", "anchors": ["README.md:22-34", "collections/src/main/templates/com/bytefacets/collections/queue/KeyHydraDeque.ftl:18-22", "collections/src/main/java/com/bytefacets/collections/hash/BaseHash.java:14-268"]}
{"id": "C110", "title": "A breadth-first search with an indexed map and a deque finds the shortest paths", "statement": "The textbook search - a deque as the list of keys still to look at, an indexed map from each key met to its distance from the start - ends without an exception on every graph in which fewer than 2^29 - 1 keys are within reach of the start; afterwards getOrDefault(key, -1) of the map is the length of a shortest path to the key, -1 exactly for the keys out of reach, and the size of the map is the number of keys within reach.", "quantifier": "for all graphs, start keys, key types, hash functions, initial capacities and load factors", "why_tests_cant": "It needs the deque and the map to be right together over arbitrarily many growths of both, for every graph; a test runs a few small graphs in which neither grows far.", "anchors": ["collections/src/main/templates/com/bytefacets/collections/queue/KeyDeque.ftl", "collections/src/main/templates/com/bytefacets/collections/hash/BaseKeyIndex.ftl", "collections/src/main/templates/com/bytefacets/collections/hash/KeyValueIndexedMap.ftl"]}
{"id": "C111", "title": "A search with a heap whose entries are kept in a map finds the cheapest paths", "statement": "The textbook search for cheapest paths - a LongHeap of the keys still to settle, with their heap entries kept in an indexed map so that a key can be moved with resetKey when a cheaper way is found, and an indexed map of the settled distances - ends without an exception on every graph with fewer than 2^29 keys within reach and costs from 0 to W that cannot add up to more than a long; afterwards getOrDefault(key, -1) of the distances is the cost of a cheapest path to the key, -1 exactly for the keys to which no path leads.", "quantifier": "for all graphs, costs, start keys, key types, hash functions, initial capacities and load factors", "why_tests_cant": "It needs entries that stay valid while the heap reorders and reuses them, resetKey that restores the order, and two maps that are right throughout, for every graph; tests run a few small graphs.", "anchors": ["README.md:41-44", "collections/src/main/templates/com/bytefacets/collections/heap/BaseKeyHeap.ftl", "collections/src/main/templates/com/bytefacets/collections/hash/BaseKeyIndex.ftl", "collections/src/main/templates/com/bytefacets/collections/hash/KeyValueIndexedMap.ftl"]}
{"id": "C112", "title": "Runs kept in a HydraDeque are merged in order with a heap of their first items", "statement": "Merging runs that are kept as the queues of one HydraDeque, with a heap that holds the first item of each run with the run's number as value, and a vector for the result, ends without an exception after at most one round for each item and leaves the deque and the heap empty. The vector then gives every item as often as it was added to a run; if the items of each run were added in order of the comparator, the vector is in order.", "quantifier": "for all numbers of runs up to 2^29, fewer than 2^30 items, comparators that order the items consistently, and initial capacities", "why_tests_cant": "It combines queues that share one storage, a heap whose first entry is overwritten in place with resetKey or removed, and values that must stay with their entries, over any number of items; tests merge a few short runs.", "anchors": ["README.md:41-44", "collections/src/main/templates/com/bytefacets/collections/queue/KeyHydraDeque.ftl", "collections/src/main/templates/com/bytefacets/collections/heap/BaseKeyHeap.ftl", "collections/src/main/templates/com/bytefacets/collections/heap/KeyValueHeap.ftl", "collections/src/main/templates/com/bytefacets/collections/vector/KeyVector.ftl"]}
{"id": "C113", "title": "A heap keeps the best k items of a stream", "statement": "A client that inserts items into a KeyValueHeap until it has k of them, and from then on overwrites the entry at peek() with resetKey and setValueAt when the new item has a greater priority, holds at every moment the best k items given so far: k of them (or all, if fewer were given), none with a smaller priority than an item left out. Draining the heap with peek, getKeyAt, getValueAt and removeAt gives them in order of priority, each with its own value, without an exception.", "quantifier": "for all k up to 2^29, streams of items, comparators that order the priorities consistently, and initial capacities", "why_tests_cant": "The entry at peek is overwritten in place any number of times, so the order of the heap and the pairing of keys and values must survive every resetKey; tests run short streams.", "anchors": ["README.md:41-44", "collections/src/main/templates/com/bytefacets/collections/heap/BaseKeyHeap.ftl", "collections/src/main/templates/com/bytefacets/collections/heap/KeyValueHeap.ftl"]}
{"id": "C114", "title": "What the bidirectional collections contain stays exact after calls that threw", "statement": "Whatever calls on a CompactOneToMany or CompactManyToMany have thrown (C47 shows that put, remove, removeAt and iterating can), contains, lookupEntry, size(), forEachEntry, getLeftAt and getRightAt keep returning, and they describe one set of pairs: a put has added its pair even if it threw, unless it threw the ResizeException of the full set; a remove or removeAt that threw has removed nothing; a removeAtAndReserve has removed its pair and keeps the entry back even if it threw. A later put or remove that returns answers as for that set.", "quantifier": "every constructor argument; every history of calls with any results, all int keys, negative ones too; removeAt and removeAtAndReserve on entries that hold a pair, freeReservedEntry on reserved ones; without consumers that remove (C59)", "why_tests_cant": "A test would have to make calls fail at every point of put and remove, in any order, and go on using the collection afterwards.", "anchors": ["collections/src/main/java/com/bytefacets/collections/bi/CompactOneToMany.java", "collections/src/main/java/com/bytefacets/collections/bi/CompactManyToMany.java", "collections/src/main/java/com/bytefacets/collections/bi/Side.java"]}
{"id": "C115", "title": "How the pairs of a bidirectional collection spread over its table", "statement": "CompactOneToMany and CompactManyToMany keep a LongIndexedSet of packed pairs. The hash code of a pair is its left key xor its right key, so a pair and its mirror image share a slot, and all pairs (i, i) do. While all pairs in such a set have one common key, left or right, and their other keys lie within an interval no longer than capacity(), a call makes at most one comparison. containsKey of a key that is absent compares it with every key in its slot. Hence, when the set has every pair of keys below n = 2^p, contains of an absent pair whose keys' xor is below n makes at least n comparisons, however large the capacity.", "quantifier": "every history of the underlying set, every capacity, load factor, key, p and n; every hash and equality function for the sentence about absent keys", "why_tests_cant": "The number of comparisons is not an answer of the API, and a test sees only the pairs it chose.", "anchors": ["collections/src/main/java/com/bytefacets/collections/bi/CompactOneToMany.java:19-98", "collections/src/main/java/com/bytefacets/collections/types/Pack.java:8-13", "collections/src/main/templates/com/bytefacets/collections/hash/BaseKeyIndex.ftl:61-82"]}
