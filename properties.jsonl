{"id": "C01", "title": "Ranking order is a strict total order and the ranking is unique", "statement": "Ranking compares score (higher first), then tie breaker (higher first), then update time (earlier first), then element ID (lower first). Over elements with distinct IDs this is a strict total order, so any set of such elements has exactly one ranking; the value and pointer comparison functions agree.", "quantifier": "every pair/triple of elements and every finite set of elements with pairwise distinct IDs", "why_tests_cant": "unit tests compare a handful of literal elements; totality, transitivity and uniqueness range over all 64-bit scores, ties, times and IDs", "anchors": ["element.go: Element.Above, Element.aboveP", "elements.go: Elements.Sorter"]}
{"id": "C02", "title": "Deduplication keeps exactly one element per ID, the latest updated one", "statement": "After Deduplicate (and NewElements) the slice is ranked, has exactly one entry for each ID present in the input, every kept entry occurs in the input, and no input entry with the same ID has a later update time. The reported 'changed' flag is true exactly when the input had a repeated ID. HasDuplicates reports an error exactly when an ID is repeated. Among entries with equal ID and equal update time the lowest score is kept, whatever order the unstable sort leaves them in (the documentation promises the highest score; that promise is refuted).", "quantifier": "every slice of elements and every outcome of the unstable sort by ID", "why_tests_cant": "tests use fixed slices and one sort implementation's tie order; the property ranges over all slices and all tie orders", "anchors": ["elements.go: Elements.Deduplicate, NewElements, Elements.HasDuplicates"]}
{"id": "C03", "title": "Sorting yields the ranking of the same elements, and when it terminates", "statement": "Elements.Sort returns a ranked permutation of its input and reports a change exactly when the input was not ranked, for inputs below the parallel threshold and for larger inputs (parallel split/merge path) whose runs of equal score and tie breaker are at most 22500 elements long. A large unsorted input in which all elements tie on score and tie breaker makes Sort recurse forever.", "quantifier": "every slice of elements of any length", "why_tests_cant": "the large-input path needs 25000 elements and the failing shape is never generated by tests; correctness is for all lengths", "anchors": ["elements.go: Elements.Sort, Elements.SplitSize, Elements.Merge"]}
{"id": "C04", "title": "Slice merge and slice edits keep the ranking", "statement": "Merging two ranked slices gives the ranking of all their elements, and both implementations (copying and in-place) give the same slice. Insert puts an element at its rank and returns that rank; Update/Add/Delete change only the named ID and keep the slice ranked; Delete and Update of an absent ID report not-found and change nothing. MergeDeduplicate lets inserted elements win.", "quantifier": "every pair of ranked slices, every element, every ID", "why_tests_cant": "the code path depends on slice capacity and sizes; tests fix both", "anchors": ["elements.go: Elements.Merge, MergeDeduplicate, Insert, Add, Update, Delete, idxRank"]}
{"id": "C05", "title": "Splitting a slice loses nothing and never separates tied elements", "statement": "SplitSize(n) with n>0 returns slices whose concatenation is the input, none of them empty unless the input is empty, and consecutive slices never share score and tie breaker at the cut. Halving a segment ((len+1)/2) yields at most two parts.", "quantifier": "every slice and every positive target size", "why_tests_cant": "boundary arithmetic with rounding and tie extension must hold for all lengths and tie patterns", "anchors": ["elements.go: Elements.SplitSize", "segments.go: Segments.splitIdx"]}
{"id": "C06", "title": "List contents equal the last-writer-wins map for every history", "statement": "After any sequence of populate, bulk update, insert of new IDs, delete, force-split/merge passes, reindex and repair calls, the elements of a list are exactly those obtained by applying the same operations to a plain map from ID to element: update overwrites, delete removes, the maintenance operations change nothing.", "quantifier": "every finite history of operations, every element batch with distinct IDs, every clock value, every map-iteration and goroutine completion order, every split/merge size", "why_tests_cant": "the number of histories and schedules is unbounded; segment boundaries move with history", "anchors": ["list.go: List.UpdateElements, DeleteElements, Insert, Populate, split, Reindex, Repair", "segments.go: Segments"]}
{"id": "C07", "title": "Looking up elements returns each one once with its true rank", "statement": "GetElements returns exactly the requested elements that are in the list, each once, with the stored score/tie/time/payload; FromTop is the number of list elements ranked above it and FromBottom the number ranked below. Missing and repeated requested IDs produce nothing extra. (The documented order by rank is refuted: results come in the order in which segment readers finish.)", "quantifier": "every reachable list, every list of requested IDs (with repeats and unknown IDs), every completion order of the per-segment workers", "why_tests_cant": "rank is a global property over all segments; tests check a few lists", "anchors": ["list.go: List.GetElements, getElements, getIndexElements", "segments.go: FindElements, findRanked, getFirstWithScore, splitScores, splitElementsID", "elements.go: FirstElementsWithScore"]}
{"id": "C08", "title": "Neighbours are the true neighbours", "statement": "With radius r, the Below list of a looked-up element is exactly the next min(r, FromBottom) elements in ranking order and the Above list contains exactly the previous min(r, FromTop) elements, crossing segment boundaries and empty segments. Above is ordered nearest first (the documentation says it ends with the nearest; refuted).", "quantifier": "every reachable list, every element in it, every radius", "why_tests_cant": "needs arbitrary segment layouts including empty segments in between", "anchors": ["segments.go: Segments.findRanked", "rankedelement.go: RankedElement"]}
{"id": "C09", "title": "GetRankTop returns exactly the requested window", "statement": "For offset < list length GetRankTop(offset, n) returns elements number offset .. offset+n-1 of the ranking (fewer at the end); for offset >= length it returns ErrOffsetOutOfBounds.", "quantifier": "every reachable list, every offset and count", "why_tests_cant": "windows straddle arbitrary segment layouts", "anchors": ["list.go: List.GetRankTop", "segments.go: segIdxTop, getElementsOffset"]}
{"id": "C10", "title": "GetRankBottom returns exactly the requested window from the bottom", "statement": "For offset < length GetRankBottom(offset, n) returns, in ranking order, the elements starting at position length-1-offset and going down, at most n; otherwise ErrOffsetOutOfBounds.", "quantifier": "every reachable list, every offset and count", "why_tests_cant": "windows straddle arbitrary segment layouts", "anchors": ["list.go: List.GetRankBottom", "segments.go: segIdxBottom, getElementsOffset"]}
{"id": "C11", "title": "Score range query starts at the right element with right ranks", "statement": "GetRankScoreDesc(score, n) returns the first n elements of the ranking whose score is <= score, in ranking order, each with its true FromTop and FromBottom; if none are at or below the score the result is empty.", "quantifier": "every reachable list, every 64-bit score, every count", "why_tests_cant": "needs all boundary positions of the score relative to segment ranges, including equal scores spanning segments", "anchors": ["list.go: List.GetRankScoreDesc", "segments.go: segIdxScore, getElementsFromScore", "rankedelement.go: CalculateFromBottom, Offset"]}
{"id": "C12", "title": "Percentile query returns the element at that percentile", "statement": "For a non-empty list GetPercentile(p) with 0<=p<1 returns the element at position floor(p*length) (with the product rounded to 64 significant bits as the code does), with its true rank; p>=1 returns the last element provided the last segment is not empty. On an empty list, and at p=1 with an empty last segment, the call panics.", "quantifier": "every reachable list, every float64 percentile", "why_tests_cant": "floating point percentiles, empty trailing segments and clamping interact; tests try a few percentiles", "anchors": ["list.go: List.GetPercentile", "segments.go: topOffsets, getElementIndex"]}
{"id": "C13", "title": "Length equals the number of distinct IDs", "statement": "Len returns the number of elements in the ranking after every history, and the index holds the same number of entries.", "quantifier": "every finite history", "why_tests_cant": "counter drift is only visible after unboundedly long histories", "anchors": ["list.go: List.Len", "segments.go: Segments.Elements, replaceSegment"]}
{"id": "C14", "title": "Automatic split and merge are invisible", "statement": "A split/merge pass (with or without merging) terminates, never loses, duplicates or reorders an element, and leaves every query answer unchanged.", "quantifier": "every list satisfying the structural invariant, every split and merge size", "why_tests_cant": "index rewriting during a pass depends on layouts that tests do not enumerate", "anchors": ["list.go: List.split, ForceSplit", "segments.go: splitIdx, mergeWithNext, updateIndexElements, splitIndexUpdates"]}
{"id": "C15", "title": "Splitting makes progress", "statement": "A split pass without merging cuts every score segment at or above the split size in two at the first change of score or tie breaker at or after its middle, and changes no other segment; as many passes as there are elements leave no segment that can be cut. The passes that the background splitter makes merge as well; they too come to rest: after at most four passes per element and one per segment no score segment can be cut, every index segment is below the split size, no two neighbours can be merged, and the list holds the same elements. A segment whose only changes lie in its first half is never split, however large (so 'every oversized segment that is not one tied group is split' is refuted).", "quantifier": "every list and every split size >= 2", "why_tests_cant": "termination measure over arbitrary layouts", "anchors": ["list.go: List.split", "segments.go: splitIdx"]}
{"id": "C16", "title": "Every reachable list passes full verification", "statement": "After any history of operations Verify and VerifyElements report no error (elements carry a non-zero update time below 2^32-1).", "quantifier": "every finite history with every schedule", "why_tests_cant": "verification in tests is run on a few hundred random histories only", "anchors": ["list.go: List.Verify, VerifyElements", "segments.go: Segments.Verify, VerifyElements"]}
{"id": "C17", "title": "Verification is sound: a list that verifies answers queries correctly", "statement": "If Verify and VerifyElements report no error on a possibly corrupted list whose segment bounds are the right way round, where only the last segment reaches (0,0), whose index entries are filed under their own ID and whose in-memory segment map is fresh, then its score segments hold a ranking with distinct IDs, the index maps exactly those IDs to the segments holding them, and every query answers correctly. Each of the first three conditions is needed: corrupted lists that violate one of them pass both checks and answer wrongly.", "quantifier": "every in-memory/stored list state, reachable or not", "why_tests_cant": "needs quantification over all corruptions", "anchors": ["list.go: verify, verifyElements", "segments.go: Verify, VerifyElements, FilterIdx"]}
{"id": "C18", "title": "Reindex rebuilds a correct index from scores alone", "statement": "Whatever the index contained, Reindex yields an index that maps every element ID in the scores to its segment and nothing else, and leaves scores untouched; element lookups are right afterwards.", "quantifier": "every list with valid scores, every index content", "why_tests_cant": "all possible corrupted indexes", "anchors": ["list.go: List.Reindex, reindex", "segments.go: ElementIndexAll, NewSegmentsElements, AlignIndex"]}
{"id": "C19", "title": "Repair rebuilds a valid list from any loadable data", "statement": "From arbitrary segment contents (wrong order, out-of-range elements, duplicates within or across segments, wrong counters, unreadable segments) Repair produces a list that verifies and contains, for every ID in a readable segment, exactly one element, one of the stored ones with the latest update time. A Verify request with repair on a server that holds such a damaged list leaves the repaired list in its place, with set and metadata unchanged, and touches no other list; the cross-list Verify does the same for each list (without `elements`, only the segment check is guaranteed).", "quantifier": "every list state, every set of unreadable segments", "why_tests_cant": "all possible corruptions", "anchors": ["list.go: List.Repair, populate", "elements.go: Deduplicate"]}
{"id": "C20", "title": "Delete removes exactly the named elements", "statement": "DeleteElements removes exactly the requested IDs that exist, leaves every other element (and its payload) unchanged, keeps the index consistent, and unknown or repeated IDs are no-ops.", "quantifier": "every valid list, every list of IDs, every worker order", "why_tests_cant": "all ID sets against all layouts", "anchors": ["list.go: List.DeleteElements", "segments.go: DeleteElementsIdx, DeleteElements"]}
{"id": "C21", "title": "Insert adds exactly the given new elements and terminates", "statement": "Insert of elements with new distinct IDs adds exactly those (in chunks) and keeps the list valid when SplitSize >= 4; with SplitSize < 4, which list creation accepts, the call never returns for any non-empty input.", "quantifier": "every valid list, every batch of fresh elements, every accepted split/merge size", "why_tests_cant": "non-termination cannot be established by running; chunking depends on the number of index segments", "anchors": ["list.go: List.Insert, insert, MergeSplitSize"]}
{"id": "C22", "title": "Creating, populating and cloning lists give exactly the given elements", "statement": "Populate (and NewList with elements) replaces the content with exactly the given elements; cloning copies exactly the elements of the original and leaves the original unchanged; both give a list that verifies, for sizes with (merge+split)/2 >= 1. With merge 0 and split 1, which list creation accepts, populating any non-empty batch panics with a division by zero.", "quantifier": "every batch with distinct IDs (any length, incl. above the deferred-insert limit), every original list, every size setting", "why_tests_cant": "the shuffled/deferred path needs >100000 elements", "anchors": ["list.go: NewList, Populate, populate, cloneElements, initEmptyList", "segments.go: NewSegmentsElements"]}
{"id": "C23", "title": "Stored records decode to what was encoded", "statement": "Encoding then decoding an element, element slice, segment, segment collection or list descriptor with the MessagePack codec returns the same value and leaves exactly the bytes that followed, for all field values; every encoding cut short is refused, encodings are prefix-free and streams of records parse uniquely. Whatever the input bytes, a decoded number lies in the range of its field, and an element, segment or list descriptor with another number of fields than its type has is refused. The named fields of a segment collection are read in any order; a field or metadata key that occurs twice takes its last value, a missing field its zero value. The one exception to the round trip is a nil metadata map, which comes back as an empty map.", "quantifier": "every record value (all 64-bit scores, IDs, payloads up to 2^32-1 bytes, strings, maps) and every trailing byte string", "why_tests_cant": "integer width classes and lengths multiply out beyond testing", "anchors": ["element_gen.go", "elements_gen.go", "segment_gen.go", "segments_gen.go", "list_gen.go", "msgppool.go: SetVersion, MsgpGetVersion"]}
{"id": "C24", "title": "Distinct records never share a storage or cache key", "statement": "For segment collections named by the server's random-ID generator, the storage keys of different (collection, segment) pairs, of the collections themselves and of the master list blobs are pairwise different, and so are cache keys.", "quantifier": "every pair of generated collection names and 32-bit segment numbers", "why_tests_cant": "key collisions depend on number formatting widths; all pairs are needed", "anchors": ["segment.go: StorageKey, cacheID", "segments.go: Save", "tools.go: RandString", "manager.go: listStorageKey"]}
{"id": "C25", "title": "Crash during a bulk update cannot lose untouched elements", "statement": "UpdateElements, Insert and DeleteElements stopped at any point, with any subset of their key writes applied in any order: after a restart the list loads and Repair gives a list as good as any reachable one. Update: every element not in the batch is present and unchanged, and every element is an old one or one of the batch. Insert: nothing is lost, and only batch elements are added. Delete: only asked-for elements are gone. Other lists in the store are read as before (for any stopped call). All-or-nothing is refuted: an element that moves between segments is lost if the stop comes between the writes of the two segments.", "quantifier": "every valid list, every batch, every write order, every crash point", "why_tests_cant": "crash points times write orders times layouts", "anchors": ["list.go: UpdateElements, Repair", "segments.go: replaceSegment"]}
{"id": "C26", "title": "Crash during a merge is recoverable; crash during a split can lose elements", "statement": "If the process stops after any prefix of the writes of a split/merge pass that has no score segment to split, the stored list loads and every Repair restores exactly the old contents. If the pass splits but does not merge, every element of a score segment shorter than SplitSize is restored unchanged and nothing foreign appears. There are crash points after which elements of a segment being split are not recoverable by Repair, and, when one pass both splits and merges, even elements of a short segment are not.", "quantifier": "every valid list, every merged pair, every crash point", "why_tests_cant": "crash points cannot be enumerated by unit tests", "anchors": ["list.go: split", "segments.go: mergeWithNext, splitIdx, replaceSegment, Save"]}
{"id": "C27", "title": "Acknowledged operations survive restart", "statement": "When an operation that saves its segments returns success, dropping all memory (prune, eviction or restart) and loading the list again from storage gives the same elements and index, for every operation and every later history of calls on any number of lists sharing the store and cache. A descriptor saved before the call is good enough for the restart, except for Reindex, Repair and Populate: after a Repair the list cannot be loaded with the old descriptor (C62 has the details).", "quantifier": "every history of operations interleaved with memory drops at operation boundaries", "why_tests_cant": "needs all interleavings of prune/restart with updates", "anchors": ["list.go: loadSegments, saveSegments, ReleaseSegments", "segments.go: Save, Load, elementFullIdx", "segment.go: loadElements, saveElements"]}
{"id": "C28", "title": "Lists do not interfere", "statement": "A call on one list (or creating, cloning or removing one) leaves every other list in the same store and cache exactly as it was, read through memory or loaded again, and leaves every stored key that does not belong to the called list's old or new collections alone; no two collections ever share a name.", "quantifier": "every two lists with different generated collection names, every operation", "why_tests_cant": "all pairs of lists and operations", "anchors": ["segment.go: StorageKey, cacheID", "segments.go: replaceSegment, Delete"]}
{"id": "C29", "title": "Forward paging over lists is exact for every iteration order", "statement": "SortedIDsAfter(from, n) returns the n smallest list IDs greater than from, in order, with Before = number of IDs <= from and After = number of remaining larger IDs, whatever order the concurrent map enumerates; lists deleted meanwhile are left out. A client following the pages from the empty ID sees every list with a non-empty ID exactly once, in order, and reaches the end.", "quantifier": "every set of list IDs, every enumeration order, every from and n", "why_tests_cant": "map enumeration order is not controllable in tests", "anchors": ["lists.go: Lists.SortedIDsAfter"]}
{"id": "C30", "title": "Backward paging over lists", "statement": "SortedIDsBefore(to, n) for n >= 2 counts exactly and returns the n largest IDs before 'to' in order, except that if more than n precede 'to' and the map enumerates exactly these n first, the smallest of them is replaced by the next smaller one. For n = 1 and two or more preceding IDs it returns the second or third closest, never the closest, and After is one too large. The documented behaviour (the last entry precedes the given ID, independent of map order) is therefore refuted.", "quantifier": "every set of list IDs, every enumeration order", "why_tests_cant": "map enumeration order is not controllable in tests", "anchors": ["lists.go: Lists.SortedIDsBefore"]}
{"id": "C31", "title": "Metadata and set matching", "statement": "MatchAll returns exactly the lists that are in one of the given sets or (with a non-empty query and metadata present) whose metadata equals the query on every queried key, where a missing key counts as the empty string; nothing is returned for an empty query without sets; each list at most once.", "quantifier": "every collection of lists, query map, set list, enumeration order", "why_tests_cant": "all metadata maps and iteration orders", "anchors": ["lists.go: Lists.MatchAll"]}
{"id": "C32", "title": "The master list file round-trips and load replaces everything", "statement": "Loading what Save wrote gives the same lists (ID, set, metadata, sizes, segment names), each ID once, and drops lists not in the file, whatever was in memory. Files of the older format, compressed with deflate, load the same way. A file cut short is reported as an error unless the decompressor could still deliver every byte; memory then holds the old lists or the first lists of the file (an error does not keep the old lists: refuted).", "quantifier": "every collection of lists, enumeration order and truncation point", "why_tests_cant": "all values and truncation points", "anchors": ["lists.go: Lists.Save, Lists.Load", "list_gen.go"]}
{"id": "C33", "title": "Start-up falls back to the backup list file exactly when needed", "statement": "LoadLists succeeds exactly if the primary blob can be read and decodes, or else a backup store is configured whose blob can be read and decodes, and gives the lists of that blob. The server starts with lists it read, or with none if the last file it asked for does not exist. After one save stopped anywhere, of whose writes at most one spoils its blob, one of the two blobs is good; if no write spoils its blob the primary stays good through every history. The interval saver writes backups at ticks N+1, 2N+1, ... Refuted: a single failed read before the first backup makes the server start empty and overwrite a good file; two crashes can spoil both blobs.", "quantifier": "every store content, every error combination, every crash point of SaveLists", "why_tests_cant": "all error combinations and crash points", "anchors": ["manager.go: LoadLists, SaveLists, StartIntervalSaver"]}
{"id": "C34", "title": "Size-limited store behaves like a plain store", "statement": "Through the size-limiting wrapper, with any number of threads interleaved at every base-store operation, Get/Set/Delete return what a plain map returns, up to the first base-store failure or crash: Get after a successful Set returns the same bytes, Delete makes the key not found, a value is refused (before anything is read or written) exactly when it needs 65535 parts or more. With failures and crashes (wrapper restarted over the same store) the results are those of a map in which only a key whose own write or delete failed or was cut short is in doubt. No stored part ever exceeds the limit and nothing but parts of the keys used is ever written. Keys must not be another key followed by '+' and a number. Without failures and crashes a key has exactly the parts its value needs, so nothing is left behind by shorter values and deletes; after a restart a shorter value leaves the old parts behind for good (refuted).", "quantifier": "every blob length, every size limit >= 1024, every set of non-clashing keys, every interleaving, failure and crash point", "why_tests_cant": "length/limit boundary arithmetic (varint prefix) for all sizes, all interleavings and crash points", "anchors": ["blobstore/maxsize.go: MaxSizeStore.Get, Set, Delete, runningOp"]}
{"id": "C35", "title": "Size-limited store: crash and key-clash behaviour", "statement": "The first write of a key, cut short by a crash or failed, leaves a key whose next read finds all of the value or nothing (or fails because the base store fails). An overwrite is not atomic: after a crash a read can succeed with a mixture of new and old bytes. Keys k and k+'+0' clash without any failure. Delete reports success if its own read fails, leaving the value in place.", "quantifier": "every interleaving, failure and crash point; witnesses for the refutations", "why_tests_cant": "crash points", "anchors": ["blobstore/maxsize.go: Set, Delete, extKey"]}
{"id": "C36", "title": "Delayed-write store: reads see the latest write", "statement": "Through the delayed-write wrapper with a single saver and no failing saves, at every point of every schedule of Set, Delete, Get and background steps: a Get answered from the queue returns the latest Set/Delete of that key; a Get answered from the backing store returns a value that was the latest one at some time during the call; whenever the queue is empty the backing store holds the latest value of every key. Set names must not contain '/'.", "quantifier": "every schedule of operations and background saver steps, every initial store content", "why_tests_cant": "unbounded interleavings", "anchors": ["blobstore/lazysaver.go: get, set, delete, add, saveFront, startSaver"]}
{"id": "C37", "title": "Delayed-write store: what several savers, failures and ambiguous keys break", "statement": "With any number of savers and failing saves, a Get answered from the queue still returns the latest write, and the backing store holds only values that were there before or were written to that key. If two (set,key) pairs have the same joined name, a Get is answered from the queue only for a pair that was itself written, with a value written to a pair of that name, and likewise for the store. But with two savers an older pending write can overwrite a newer one in the backing store; a failed background save loses an acknowledged write; two (set,key) pairs with the same joined name overwrite each other.", "quantifier": "every schedule, every number of savers, every failure; witnesses for the refutations", "why_tests_cant": "unbounded interleavings", "anchors": ["blobstore/lazysaver.go: get, set, delete, startSaver, lazyKey"]}
{"id": "C38", "title": "Retrying store never retries permanent errors and never invents results", "statement": "A retried operation returns success only if one attempt succeeded (and Get then returns that attempt's bytes), stops at the first permanent error, makes at most one attempt after cancellation, and returns the last error otherwise. Errors registered through the PermanentErr option do not become permanent for that store (but do for stores created later).", "quantifier": "every sequence of attempt outcomes and back-off decisions", "why_tests_cant": "all outcome sequences", "anchors": ["blobstore/retry.go: Get, Set, Delete, opErr, PermanentErr"]}
{"id": "C39", "title": "Token bucket bounds concurrency", "statement": "At every point of every schedule at most n tokens of a bucket of n are held, a Get is possible exactly when fewer than n are held, and a Release never blocks.", "quantifier": "every schedule of Get/Release by any number of goroutines", "why_tests_cant": "unbounded interleavings", "anchors": ["bucket.go"]}
{"id": "C40", "title": "Float keys sort like floats and convert back", "statement": "SortableFloat64 maps every float64 to a 64-bit key such that for non-NaN values key order equals float order (equal keys iff equal values), NaN sorts below everything, and ReverseFloat64 returns the numerically equal value (-0 becomes +0, NaN becomes the canonical NaN).", "quantifier": "every one of the 2^64 bit patterns, every pair", "why_tests_cant": "2^128 pairs", "anchors": ["sortfloat/float.go"]}
{"id": "C41", "title": "Fan-out error collection never hangs and never hides an error", "statement": "When all workers terminate, the collector returns, having received every error sent on the unbuffered channel; it returns nil iff no worker reported an error and the context was not seen as cancelled; workers are never left blocked on the error channel.", "quantifier": "every number of workers, every number of errors each, every interleaving and cancellation point", "why_tests_cant": "unbounded interleavings", "anchors": ["tools.go: waitErr"]}
{"id": "C42", "title": "Lock order between lookups with neighbours and updates", "statement": "Concurrent calls on one list: windows, lookups without radius, modifications, populates and releases never block each other for ever (until all have returned some call can go on, and if the operations themselves return all calls can finish); readers of any kind never block each other for ever. Three pairs can: GetElements with a radius and UpdateElements (segment locks taken in opposite order), GetRankScoreDesc and UpdateElements (the same read lock taken twice with a writer waiting in between), Stats with elements and an exclusive modification such as a split pass (loadSegments re-entered while the other call holds the loading lock).", "quantifier": "every schedule of the lock operations of the calls involved", "why_tests_cant": "deadlock freedom/possibility needs all schedules", "anchors": ["segments.go: findRanked, getElementsFromScore, getElementsOffset, elementFullIdx", "list.go: UpdateElements"]}
{"id": "C43", "title": "Bulk update reports previous rank", "statement": "With results requested, UpdateElements returns for each batch element its new true rank and neighbours, and for each element that existed before, the previous score/tie/payload. The reported previous FromTop is relative to the segment it was in and previous FromBottom is always 0 (so the reported previous rank is not the list rank; refuted for lists with more than one segment).", "quantifier": "every valid list, every batch", "why_tests_cant": "global rank versus segment-local rank differs only on multi-segment lists", "anchors": ["list.go: UpdateElements"]}
{"id": "C44", "title": "Ranks shown next to neighbours in API responses", "statement": "Range responses, from the top or the bottom, show every element with its true ranks. In the full element response neighbours below carry their true ranks; of the neighbours above only the middle one of an odd number does (the ranks are assigned in reverse): refuted for two or more.", "quantifier": "every valid list, element and radius", "why_tests_cant": "depends on the neighbour order for all radii", "anchors": ["api/morph/elements.go: RankedElement.Full, Elements.ToRanked", "api/lists.go: GetRange"]}
{"id": "C45", "title": "Access restrictions are enforced exactly", "statement": "A token restricted to lists (or elements) grants access to a request iff every requested ID is named in the comma separated restriction (after trimming blanks; element IDs compared as numbers); tokens without the restriction (or whose restriction claim is not a string) and requests without token are not restricted.", "quantifier": "every claim string and every list of IDs", "why_tests_cant": "all claim strings", "anchors": ["api/jwt.go: HasAccessToList, HasAccessToElement"]}
{"id": "C46", "title": "Backup then restore reproduces the list", "statement": "Writing a list with Backup and reading it with RestoreList (same or new ID) gives a list with the same settings and exactly the same elements in the same order, whose index is valid, and consumes exactly the bytes written; every proper prefix of the bytes is refused. A whole backup job restored on any server brings back every list of the job under its prefixed/suffixed ID (except existing ones that are not to be replaced) and leaves every other list alone; a job stream cut short is reported as an error after a first part of the job. A damaged list inside an intact stream makes the restore panic (nil map) instead of being reported as failed, after the list it was to replace has been deleted.", "quantifier": "every valid list, every trailing stream content", "why_tests_cant": "all lists and codec values", "anchors": ["list.go: Backup, RestoreList", "backup/job.go", "backup/restore.go"]}
{"id": "C47", "title": "Generated names use only letters and digits", "statement": "RandString(n) has length n+8, consists only of 0-9A-Za-z, and two generated names are equal exactly if their random bytes agree modulo 62 and their clocks show the same 100us tick modulo 62^8.", "quantifier": "every random byte string, every clock value", "why_tests_cant": "all byte strings and clock values", "anchors": ["tools.go: RandString"]}
{"id": "C48", "title": "Segment ranges always tile the whole score space", "statement": "In every reachable list the score (and index) segments cover each (score, tie breaker) pair exactly once, so every element has exactly one segment it belongs to.", "quantifier": "every finite history; every (score, tie) pair", "why_tests_cant": "all pairs times all histories", "anchors": ["segments.go: Verify, splitIdx, mergeWithNext, NewSegmentsElements, AlignIndex", "element.go: PrevMax, AboveThis"]}
{"id": "C49", "title": "Elements with the maximal update time can be dropped silently", "statement": "An element whose update time is 2^32-1 and whose score and tie equal the lower bound of its segment (e.g. 0,0) is silently not stored by update or insert; for update times below 2^32-1 every element is stored.", "quantifier": "every element and layout", "why_tests_cant": "boundary of a 32-bit field", "anchors": ["segment.go: FilterIdx", "list.go: UpdateElements, Insert"]}
{"id": "C50", "title": "Updates to one list are serialised", "statement": "In every interleaving of concurrent calls on one list, whenever nobody uses the segments (in particular when all calls have returned) the list is the result of running the modifying calls one after the other, each exactly once, in an order that agrees with real time; so it again stands for the map these calls make of the old one. Every segment that a reader reads is that segment before or after the modification in progress, never one in the middle of a change, and a rewrite pass never overlaps a reader that holds segments. A window over several segments is not a single moment: it can show an element twice.", "quantifier": "every number of concurrent callers and every schedule", "why_tests_cant": "unbounded interleavings", "anchors": ["list.go: loadSegments, UpdateElements, DeleteElements, split"]}
{"id": "C51", "title": "Responses about several elements", "statement": "A multi-element lookup shows exactly the requested elements of the list, in rank order and with true ranks, and reports exactly the requested IDs that are absent, each once, ascending. A lookup around an element within a chosen set shows the element, the nearest chosen elements above and below (in rank order) and its local ranks among the chosen ones present.", "quantifier": "every reachable list, every request, every goroutine completion order", "why_tests_cant": "all list layouts and completion orders", "anchors": ["api/elements.go: GetMulti, GetAround", "rankedelement.go: Sort", "elements.go: NotIn, Deduplicate"]}
{"id": "C52", "title": "Restricted tokens and endpoints", "statement": "Element requests, multi-list element requests and list reading requests are carried out only on lists and elements that the token names (and are carried out if it names them). List management requests (create/replace, delete, repair, reindex, verify, clone, backup) do not look at the restriction: refuted.", "quantifier": "every token, every request", "why_tests_cant": "all restriction strings", "anchors": ["api/elements.go", "api/multilist.go", "api/lists.go", "api/jwt.go"]}
{"id": "C53", "title": "The collection of lists is a map", "statement": "ByID returns the list that the last Add or Delete for this ID left there; every ID occurs once in All; ByIDs answers position by position; Exists keeps the known IDs in order. ListToListID does not ignore nil entries (documented behaviour refuted).", "quantifier": "every sequence of additions and deletions, every ID", "why_tests_cant": "all histories", "anchors": ["lists.go: ByID, ByIDs, Add, Delete, Exists, All, ListToListID"]}
{"id": "C54", "title": "The HTTP API is a map of maps", "statement": "Take any sequence of list, element and cross-list requests, interleaved with background split passes and with lists being dropped from memory and loaded again, starting from a server without lists. Every answer (status, elements with their rank, neighbours and previous value, found and missing IDs, per-list results) is the one given by a plain map from list IDs to a description and a map from element IDs to elements, and after the run the stored lists are exactly these maps. A Put that is accepted is read back by the next Get with the same rank and neighbours. Exceptions, which are part of the meaning: of several elements with one ID in a request the lowest score is kept; a percentile request on an empty list is answered by a recovered panic (refuted: requests never crash).", "quantifier": "All finite sequences of well-formed requests (goa's limits: sizes of at least 10, tie breakers below 2^32) with any token, all clocks, names, orders of goroutines and maps, carrying fewer than 2^32-1 elements in total.", "why_tests_cant": "Tests send a few requests to a few small lists; they cannot cover all interleavings of requests with split passes, reloads, restricted tokens and selections.", "anchors": ["api/elements.go:30", "api/lists.go:28", "api/multilist.go:44", "api/morph/elements.go:193", "list.go:1246"]}
{"id": "C55", "title": "Which lists a cross-list request works on", "statement": "A cross-list Get or Delete works on the lists that are named (after trimming blanks, ignoring empty names) together with the stored lists that match all given metadata or are in one of the given sets (as in C31); Create and Put do the same but ignore the sets if no metadata is given; Verify, Reindex and Backup do as Create, except that without names and metadata they work on every list. Each list is worked on once. Refuted: Create/Put include all lists in the given sets; Verify/Reindex given only sets are limited to them (documented as \"Include all lists in these sets\").", "quantifier": "All reachable servers, all selections, all orders in which the map of lists is enumerated.", "why_tests_cant": "Tests select by name or metadata in one or two handlers; the set-only cases are not exercised.", "anchors": ["api/multilist.go:53", "api/multilist.go:108", "api/multilist.go:243", "api/design/multilist.go:235", "api/morph/lists.go:74"]}
{"id": "C57", "title": "The payload after an update", "statement": "After an accepted Put the element has exactly the payload that was sent, whatever the payload before. Refuted: an update with payload null (or without payload) leaves the stored payload as it is, as the API documents (\"On updates null means do not update\").", "quantifier": "All reachable servers, lists, elements and payloads.", "why_tests_cant": "Tests always send payloads with updates.", "anchors": ["api/design/elements.go:228", "api/morph/elements.go:193", "list.go:1246", "elements.go:362"]}
{"id": "C56", "title": "Parallel work of one cross-list request", "statement": "A cross-list request (Create, Delete, Get, Put, Verify, Reindex) works on its lists in parallel goroutines bounded by a token channel. For every set of distinct list IDs, every limit and every order of the steps of the caller and the goroutines: at most `limit` goroutines work at a time; until the call has returned and all goroutines have ended some step is possible, and the number of steps is bounded, so the call always returns; when it returns a result, the function was applied exactly once to every list that exists and to no other list, each list has exactly one entry, in success if the function succeeded, else in errors (not found, the error, or the recovered panic), no goroutine is left, and lists and answers are those of taking one list after the other. It returns nothing only if the context was cancelled. A cancelled request may have changed some lists, its goroutines may change more lists after the return, and with errors_only the handler dereferences nil.", "quantifier": "all list IDs, limits, functions (including failing and panicking ones), list contents, schedules and moments of cancellation", "why_tests_cant": "A test runs a handful of interleavings of a few goroutines; lost entries, a token that is not returned or a missed wait show up only in some of them.", "anchors": ["api/multilist.go:468-521", "api/multilist.go:70-97", "api/multilist.go:258-297"]}
{"id": "C58", "title": "Shutting down the delayed-write store", "statement": "Let Shutdown of the delayed-write store (LazySaver) be called at any moment at which no Set or Delete is between its check of the shutdown flag and its locked section; calls may be waiting for room. Then, for every schedule of the calls, the request handler, the savers and Shutdown, with any limits, any number of savers and any store failures: only finitely many steps follow; until Shutdown and all waiting calls have returned, some goroutine can move without the timer; when Shutdown returns nothing is queued and the store is not written again; with one saver and a store that does not fail it then holds the latest write of every key. Before Shutdown a Set that waits for room can always be finished without the timer, and the items not yet written never exceed the limit plus the waiting calls. Refuted without the condition: a Set that has passed the check while Shutdown starts is told that it succeeded, its write is lost, and Shutdown never returns; or Shutdown returns and the Set never does.", "quantifier": "All limits allowed by the options, all keys and values, all schedules and outcomes of store calls, of any length.", "why_tests_cant": "Shutdown is a race between five kinds of goroutines connected by four channels; a test sees one schedule, and a lost wake-up or a token that is not returned shows up only in some.", "anchors": ["blobstore/lazysaver.go:107-145", "blobstore/lazysaver.go:236-326", "blobstore/lazysaver.go:329-451", "blobstore/lazysaver.go:453-518", "blobstore/lazysaver.go:522-558", "blobstore/lazysaver.go:602-636"]}
{"id": "C59", "title": "The Badger store is a map while nothing fails, and loses a bounded part when the process dies", "statement": "For the Badger store (set names without slashes): while no database operation fails, with Sets and Gets overlapping freely and Deletes not overlapping calls on the same key, every Get returns a value the key had during the call (the latest if nothing overlaps), no call reports an error, and a Close and new start change nothing. If the process dies at any moment, also within a Set or a flush, every key then holds a value it had earlier (or the one being set) and at most 99 keys do not hold the latest. Whatever fails, dies or overlaps, a value read was there at the start or was handed to a Set of the same joined name, and a blob of the start is found unless it was deleted. It is not true that: success of all calls and of Close means the blobs are stored (the commit error of a too big transaction and the flush error in Close are dropped); a failing Set affects only its own blob; a Get during a Delete returns a recent value; a failed Delete leaves the latest value; keys with slashes in set names are kept apart.", "quantifier": "all sequences and overlaps of Set, Get, Delete, Close, all map orders and transaction sizes, all crash points, all failures of the database", "why_tests_cant": "The losses need a commit failing in the middle of a flush, a crash at a particular queue length or a particular overlap; tests run with a database that works.", "anchors": ["blobstore/badgerstore/badger.go:17-133"]}
{"id": "C60", "title": "A backup job and its status", "statement": "For a backup job over any lists, while the lists change, the destination fails or the job is cancelled: what the destination has received is always a first part of the stream of the lists read (each as it was when read) and the end mark. Restoring it either succeeds, and then every list in Success is back as it was read, or reports an error and has brought back a first part of the lists read. If the job is Done, not Cancelled and its destination opened and did not fail, restoring succeeds and brings back exactly Success. ListsDone is the length of Success; a Done, not Cancelled job whose destination opened has every requested list in Success or Errors, and with no Errors Success is the request. Success, Errors and the received bytes only grow and are final when Done. Until Done the job can go on, and it needs at most three steps per list and six more. After Cancel, or a shutdown while Start runs, at most one more list is read. It is not true that: Done with no Errors and everything in Success means anything arrived (errors of Flush and Close are dropped); a list in Success of a cancelled job is in the stream; shutdown stops a job whose Start has returned.", "quantifier": "all lists of list IDs without repetitions, all changes of the lists during the job, all failures of the destination, all moments of cancel and shutdown, all orders of steps", "why_tests_cant": "The dropped errors need a destination failing in its last write; the cancel case needs a buffer not yet flushed at that moment; tests back up to working destinations.", "anchors": ["backup/job.go:48-57", "backup/job.go:124-248", "backup/job.go:252-282", "backup/restore.go:41-108"]}
{"id": "C61", "title": "Calls on a list while writes of the store fail", "statement": "Let any of the writes and deletes a call makes fail (refused, or done but answered with an error). Insert, Split, Reindex, Repair and Populate that return no error have stored their whole result: it is read with the cache and after a restart. A delete that returns no error has removed the elements for good: Repair does not bring them back. Whatever an update, insert or delete returns, a restart and Repair give a list with every element the call was not to change and none that is neither old nor new; a split pass loses at most elements of segments of SplitSize or more (when it splits without merging, or merges without splitting), a Reindex nothing; other lists are not affected. If nothing fails no error is returned. Not so: an update can return no error although an element is lost, old and new; after a delete without error a later update that brings the element back can store nothing; a failed split loses elements; a Repair of a sound list with one refused write leaves nothing of the list.", "quantifier": "all executions over one store and cache, all calls, all sets of failing writes and deletes (refused or answered with an error after being done), all orders of goroutines and map iterations", "why_tests_cant": "Tests use stores that never fail; the losses depend on which single write fails.", "anchors": ["list.go:470-486", "list.go:733-781", "list.go:903-974", "list.go:1134-1166", "list.go:1465-1497", "list.go:1501-1543", "list.go:1580-1617", "list.go:2069-2288", "segments.go:375-379", "segments.go:446", "segments.go:536-542", "segments.go:883-902"]}
{"id": "C62", "title": "What a server keeps when it stops at any time", "statement": "A server saves its list file now and then, while calls go on, and may stop at any moment between calls. After every execution with any number of saves (finished or failed), stops, starts, loads and releases: a list that is in the list file under the name of its present scores loses nothing at a stop, also nothing it was given after the save; every other list is lost, and nothing is loaded in its place. A list that is not lost is in memory and answers every query from its whole history, or is loaded by the next call that takes the update lock and then does; a call without that lock loads it unless its index is missing. A save that ends well writes every list that was there throughout the save, none twice, with a descriptor it had during the save or an empty one. So if no list is made, populated, repaired or deleted between the beginning of a save that ends well and the stop, nothing is lost. Not so: a list made and filled since the last save is gone; a list repaired since is there but does not load, as is one that was visited by the save in the middle of its Repair; a deleted one is back and does not load; a reindexed one cannot be read before a call with the update lock.", "quantifier": "every store, every execution of list operations, loads, releases, saves (list by list, interleaved with the operations), failed saves and stops, with or without a cache, for any number of lists", "why_tests_cant": "What is lost depends on how calls, the saver and the stop fall together; tests stop servers in an orderly way, if at all.", "anchors": ["lists.go:88-226", "lists.go:241-265", "list.go:307-402", "list.go:733-781", "list.go:1057-1166", "list.go:1789-1830", "manager.go:64-98", "manager.go:186-210"]}
{"id": "C63", "title": "Splitting in the background", "statement": "Calls that leave a list with a segment above the split size, or two neighbours below the merge size, ask a background worker for a pass over the list through a queue of 1000. In every execution of calls and passes: the passes change no list's elements, and every list stays one that the calls alone can produce; a list that is out of shape waits in the queue, or was not used since the server started, or was last worked on by something that does not ask (a pass, reindexing, loading, creation, cloning), or asked when 1000 were waiting; a request in place k has its turn within k+1 passes, and the worker can always go on until segment IDs run out; enough passes over a list leave only segments that cannot be split. The process ends exactly if a list is deleted while it waits and its turn comes. Refuted: that deleting a list is safe at all times (the worker then dereferences nil and nobody recovers, which ends the whole server); that a list out of shape which could be split is waiting (one pass may not suffice and does not ask again); that every request is heard (a list that asks at every call fills the queue and others are dropped).", "quantifier": "every set of lists and every interleaving of creations, clones, calls, verifications, deletions and passes, from any loaded lists", "why_tests_cant": "The order of calls, deletions and passes is up to the scheduler; tests delete no list that waits, and never fill the queue.", "anchors": ["list.go:2016-2064", "list.go:577-670", "list.go:1495", "list.go:1541", "list.go:1559", "manager.go:24-37", "manager.go:133-160", "manager.go:203-210", "list.go:1120-1166", "list.go:2069-2105"]}
{"id": "C64", "title": "Limit on updates and orderly shutdown", "statement": "With MaxUpdates set, the update handlers at work plus the tokens left always make MaxUpdates: none is lost on any path (success, failure, client gone, shutdown). Once a shutdown was begun, requests that arrive do nothing and can only be told that the server restarts; the server makes finitely many further steps of its own, and when it can make no more the store is closed and every request was answered. A client is told success of exactly what took effect of its request; what took effect belongs to a request that was not refused; and if no stage of the shutdown runs out of time, then no handler is at work when the last save of the list file begins, and everything reported as done was there when it began. What fails: a request on several lists whose client goes away returns while its goroutines go on, so that more work than MaxUpdates may be going on, and effects may come after the last save and after the store was closed; and after a stage that ran out of time even reported effects may come too late.", "quantifier": "every limit, every number of requests, and every interleaving of arrivals, cancellations, task steps, failures, split passes, shutdown stages and timeouts", "why_tests_cant": "Shutdown races every request in flight; tests stop idle servers, and cannot show that no interleaving deadlocks or loses a token.", "anchors": ["api/shutdown.go:25-81", "bucket.go:10-19", "api/services.go:33-35", "api/rankdb.go:131-137", "api/rankdb.go:227-229", "api/rankdb.go:262-272", "manager.go:67-98", "manager.go:133-160", "api/multilist.go:468-521"]}
{"id": "C65", "title": "Queries while reads of the store fail", "statement": "Let any of the reads that a query makes fail (GetRankTop, GetRankBottom, GetRankScoreDesc, GetElements, GetPercentile on a list that calls produced). The query then returns the read error or an answer, and every answer is right for the ranking of the stored elements: exact windows, for lookups every requested stored element once with its true ranks. It returns the error exactly because of segments it needs: a window query fails if a segment with an element of the window cannot be read, and only if such a segment or an empty one cannot be read; a lookup fails if and only if an index segment responsible for a requested ID or a score segment that holds a requested element cannot be read; a percentile if and only if the segment of its element cannot. Failed reads of neighbouring segments are the exception: they are not reported, and the Above/Below lists of that answer end early (what is there is right and nearest first); if none of those reads fails they are complete.", "quantifier": "all lists reachable by any history of calls, all queries and parameters, every combination of failing reads, all orders of concurrent readers", "why_tests_cant": "tests have no store whose reads fail, least of all one of several concurrent reads", "anchors": ["segments.go:186-258", "segments.go:918-1124", "segments.go:1185-1223", "list.go:1170-1240", "list.go:1633-1771", "tools.go:73-108"]}
{"id": "C66", "title": "Updates while reads of the store fail", "statement": "Let any of the reads of UpdateElements fail. The call returns an error if and only if an index segment responsible for one of the given IDs cannot be read, and then nothing changed. Otherwise it returns no error, and the batch is divided into applied and skipped elements: elements are skipped only if the score segment responsible for them cannot be read, the list holds what it held with the applied elements put in, in rank order, plus possibly old versions of applied elements whose old segment could not be read. If every score segment either can or cannot be read during the call, then exactly the elements whose segment can be read are stored, and an old version stays exactly if its own segment or that of its new version cannot be read. If afterwards no ID is stored twice, every query gives the right answers for the new contents, and the results of the call are an error or the true ranks of the stored elements, with the old version in Before if it was read. Failures of score segments are never reported: without an error, nothing of the batch may be stored, or an element may be stored twice (lookups then find the new version), and with results asked for an error may be returned although everything was stored.", "quantifier": "all lists reachable by any history of calls, all batches, all combinations of failing reads of index segments, old segments, destination segments and of the final lookup, all orders of concurrent readers", "why_tests_cant": "tests have no store whose reads fail; a failed read in the middle of a batch leaves no error to look at", "anchors": ["list.go:1246-1497", "list.go:1289-1321", "segments.go:186-258", "tools.go:73-108"]}
{"id": "C67", "title": "Deletes and inserts while reads of the store fail", "statement": "Let any of the reads of DeleteElements or Insert fail. DeleteElements returns an error if and only if an index segment responsible for one of the IDs, or a score segment holding one of the elements, or an index segment responsible for one of the stored elements, cannot be read; without an error it did what it does when all reads succeed. After any number of DeleteElements, failed, partly failed or repeated, the list holds, in rank order, exactly the elements no call took, where a call takes an element it is given the ID of if all index segments needed and the score segment of the element can be read; and every query gives the right answers for these contents. Insert likewise either succeeds completely, or it stops in one of the chunks it works in: the elements of the earlier chunks are stored, and of this chunk those whose score segment can be read. Ranking queries, Len and rank lookups are right for these contents; lookups by ID find everything except elements of that chunk, of which they find those whose index segment could be read, provided all score segments could. In all these cases a later Reindex with working reads keeps the elements, makes every query right and lets Verify pass. Without it, two things go wrong: an element whose deletion failed halfway is lost without an error when it is put back, and an element inserted halfway is stored twice when it is updated.", "quantifier": "all lists reachable by any history of calls, all ID lists and batches, all combinations of failing reads of the index lookup, of score segments and of index segments, any number of deletes after each other, all orders of concurrent readers", "why_tests_cant": "tests have no store whose reads fail; the damage shows only in a later successful call", "anchors": ["list.go:1501-1543", "list.go:1548-1618", "segments.go:322-466", "segments.go:471-571", "list.go:733-781"]}
{"id": "C68", "title": "Split passes and Reindex while reads of the store fail", "statement": "Let any of the reads of a split/merge pass fail, and take the list in memory as it is afterwards. The pass holds the same elements as before, in the same order, and ranking queries, Len and the ranks of lookups are right for them, whether or not it failed; without failing reads there is no error, and without an error the pass did what it does when all reads succeed. A pass that stops while it splits and merges score segments leaves the index as it was: lookups by ID find every element that stayed in its segment (also one whose segment was merged away into the first one), not those that moved. If it stops while it brings the index in line, they also find every element whose index segment could be read; if it stops later, they find everything. A Reindex with a failing read changes nothing. After any sequence of passes and Reindex calls, each with any failing reads, the elements are the same and the next Reindex with working reads makes every query right and lets Verify pass; if the last pass that lost index entries was followed by a successful Reindex this holds already. Nothing else brings the entries back: an element not found by ID after a failed pass is not found after a successful pass either, and an update of it then stores it twice. The pass can run out of segment IDs only if the list has used 2^32 of them.", "quantifier": "all lists reachable by any history of calls, merging or not, all combinations of failing reads of score segments, index segments and the index update, any number of passes and Reindex calls after each other", "why_tests_cant": "tests have no store whose reads fail; the lost index entries show only in later lookups and updates", "anchors": ["list.go:2069-2288", "list.go:733-781", "segments.go:1128-1180", "segments.go:186-258"]}
{"id": "C69", "title": "Locks when accesses to the store fail", "statement": "Whichever reads, writes and deletes of the store fail, and whatever the list holds, a call on a list gives back every lock it took, whether it returns or panics, with five exceptions, which are the only ones. (1) If populate (Populate, Repair) cannot write a segment of the new index, it returns the error and the RWMutex of the list stays write locked; of the other calls only Len, Stats and a DeleteAll whose error is dropped can succeed after that. (2) If the first of the two halves of a segment that a split pass splits cannot be written, the pass returns the error and the other half, which is in the list, stays write locked: a query that comes to it waits for ever. (3) If the metadata of the scores cannot be written to the writer of a backup, Backup returns the error and the collection stays read locked: queries go on, the next call that saves a score segment waits for ever and with it all updates. (4) If Reindex, or an update, delete, insert, VerifyElements or Backup that found the metadata of the index unreadable, cannot save the metadata of the new index, it unlocks twice and the process dies. (5) Repair panics with the RWMutex of the list and the lock of the scores held if metadata could not be read when it asked for Stats but could be loaded, or made again, right after; this happens whenever the metadata of the index is not in memory, cannot be read, and can be made again. In any sequence of calls without these failures no call waits for ever, the process lives, and no lock is held in the end; failing reads of segments, and failing writes of segments and metadata at all other places, do no harm to the locks.", "quantifier": "all calls of List on one list (cloning one list into another excepted), all states between calls, all data, all combinations of failing accesses, any number of calls after each other", "why_tests_cant": "tests have no store that fails and no writer that fails; a lost lock shows only when a later call hangs", "anchors": ["list.go:305-407", "list.go:733-781", "list.go:885-974", "list.go:1789-1845", "list.go:1851-1917", "list.go:2105-2279", "segments.go:186-320"]}
{"id": "C70", "title": "What is shown and stored after a failed write of a cached segment", "statement": "Updates, deletes and inserts change the elements of a segment in the array that the segment cache holds too, and only then save the segment. If the save fails, later readers of the cached segment get as many elements as before the call, out of the changed array: after a delete the elements that stay, moved to the front, and behind them what is left of the old ones, so that an element can show twice; after an insert of at most 10 elements into a segment with room in its array and at most 1000 elements, the front of the new elements, so that the lowest ranked ones are hidden, otherwise the old elements; after an update a mixture of old elements and elements of the batch. The count and time of the segment in memory are those of the complete call. Without a cache readers get the old or the new elements. Segments whose write succeeds are those of the complete call, in memory and in the store, and a failed write stores nothing or the segment of the complete call. A delete with a failed score segment returns the error and leaves the index; an insert returns the error with all chunks before the failed one complete. A call that returns no error has saved the metadata of scores and index after everything else, and an update returns an error only if that save fails, never because of a segment. Nothing foreign is ever shown, and a failed delete hides nothing that is to stay. If no write fails, sharing arrays with the cache makes no difference. What readers are shown is what the next call saves: after one refused delete and one successful update an element that neither of them names is stored twice; and after a delete, an update of which one write is refused, and another update, none of which returns an error, an element that none of them names is gone from memory and from the store.", "quantifier": "all lists reachable by any history of calls, all batches, all combinations of failing writes, with and without a cache for scores and index, all capacities of the arrays", "why_tests_cant": "tests use a store that does not fail or have no cache; the result depends on the capacity of arrays", "anchors": ["segments.go:235-257", "segments.go:270-300", "segments.go:322-571", "elements.go:205-386", "list.go:1246-1618"]}
{"id": "C71", "title": "A split or merge pass while writes of the store fail", "statement": "A split pass (with or without merging) whose writes all succeed is the complete pass. If only the metadata cannot be saved, memory is as after the complete pass and an error is returned. A failed write in the index part (the update of entries, a split or a merge of index segments) returns an error and keeps every stored element in order; elements may then not be found by ID, and an update of one can store it twice, but Reindex makes all queries right again. A failed write in the score part ends the pass there with an error: the index is not touched, Len still counts all elements, and the elements that were being moved are either all still readable or all missing, nothing else changes. They are missing after a merge whose write is refused (or was done, with the replaced segment still cached), after a split whose second write is refused, and after a split whose first write was done but reported as failed, without a cache. A merge takes the second segment out of the list before it writes the merged one, so what it hides is brought back by no later sequence of calls, Repair included, unless it is given to them again: no sequence of calls on any list, however damaged, stores an element that was not stored and not given to it.", "quantifier": "all lists reachable by any history of calls, all combinations of failing writes of a pass, with and without a cache for scores and index; for nothing new: all lists and all sequences of calls", "why_tests_cant": "tests use a store that fails at one call number and look only at the error", "anchors": ["list.go:2069-2288", "segments.go:270-300", "segments.go:1128-1180", "segments.go:1365-1450"]}
{"id": "C72", "title": "The stores at the bottom: memory, Bolt and the test store", "statement": "The memory store joins set and key to one string with a slash. Get, Set, Delete, Usage and Dir answer as a map from set and key to the last value written would, with the number of reads, writes and deletes of every blob, as long as no set or key has a slash; Get, Set and Delete do so as long as no two pairs in use are joined to the same string, which needs a slash in a set and in a key. Keys made by the server have none, so the server sees a map whatever sets its lists are given. Values above the size limit and keys that are too short are refused without effect. Usage also counts blobs of sets that begin with the set and a slash. Dir panics exactly if some blob in the store, of any set, has a second slash in its joined key; the store is then left locked and every later call waits for ever. The Bolt store answers as a map for all sets and keys, and its Create refuses a key that has a value. The test store passes a call on exactly if all its checks let it, asks the newest first and does not ask those behind one that fails. TestFailAfterN fails the call with that number only, the calls after it succeed; TestFailPct fails a call if its random number modulo 100 is below the percentage.", "quantifier": "all sequences of calls with all sets, keys and values; all lists of checks and all random numbers", "why_tests_cant": "tests store a few keys without slashes", "anchors": ["blobstore/memstore/memstore.go:19-117", "blobstore/boltstore/boltstore.go:43-95", "blobstore/teststorage.go:26-137", "blobstore/blobstore.go:44-75"]}
{"id": "C73", "title": "Scopes of the endpoints and the tokens that the server makes", "statement": "With a path for keys configured, every request that is let in to an endpoint other than the documentation carries a token that the client holds, that has not expired and that has the scope asked for there; that scope is enough for everything the handler does (reading: any; inserting and updating: update or manage; deleting elements: delete or manage; lists, indexes, repair, backup and restore: manage), and the handler sees the restrictions of that token. A client without a live token for manage comes to no other tokens, whatever it sends. A started program never makes tokens, as the variable that allows it is only set by tests; it exits at its start if a path without public keys is configured. Without a path every request is let in without restrictions. Where tokens are made, the token has the scopes, lists and elements that were asked for (read if no scope was given) and ends the given number of minutes after now (24 hours if not given), for up to 153722867 minutes; for up to twice that the product overflows and the token has ended before it is handed out. A token made with names of lists joined by commas grants exactly these lists; a list with a comma in its name is out of reach of every token with a list of lists. Restrictions are not handed on: any live token for manage, however restricted, gets an unrestricted one.", "quantifier": "all sequences of requests with all times, parameters and tokens held; all settings", "why_tests_cant": "tests make a few tokens and send one request with each", "anchors": ["api/jwt.go:27-58", "api/jwt.go:142-205", "api/services.go:32-72", "api/app/controllers.go:43-903", "api/app/contexts.go:932-971", "api/app/security.go:25-58"]}
{"id": "C74", "title": "The list of hosts of the Aerospike store", "statement": "parseHosts gives one host for each piece between commas, so as many as commas and one more. Its name is what is before the first colon without blanks around it; its port is what is up to the next colon if that is a positive number, and else the default port; numbers above the largest int are that int. Every port is the default or positive. So there is always a host and the check for none in New never fails: an empty string is one host without a name. A blank before the port silently gives the default port, text behind a number that does not fit in 64 bits is not looked at, and an IPv6 address is cut at its first colon.", "quantifier": "all strings and default ports", "why_tests_cant": "tests give a handful of strings", "anchors": ["blobstore/aerostore/aerostore.go:31-42", "blobstore/aerostore/aerostore.go:114-140"]}
{"id": "C75", "title": "What a server is put together from its configuration", "statement": "StartServer gets its stores if and only if: the main store is one of Memory, Badger, BoltDB (which can be opened) or Aerospike (reachable, with a write block of at least 2048 bytes, 1 MiB if none is given); if a backup store and a positive number of saves are given, there is a backup set, and the backup store is the main one (\"Master\") or is usable in the same way; an enabled lazy saver has 0 < FlushAtItems <= LimitItems and positive savers, time and timeout; a positive number of cache entries has a known cache type; the master set has a name. Then the stores are those that were named: values are cut into parts for Aerospike only, a retry covers all parts of a value, values wait above that, and backups never wait. At shutdown the waiting values are written first, then every file that is open is closed, exactly once, the main one last. Store and backup of the same kind of file never start, as there is one path in the configuration. A value can be stored if and only if: with Memory it has at most 1 MiB and its key two characters; with Aerospike and blocks up to 1 MiB + 1024 its length + 3 is at most 65534 * (block - 1024), and with larger blocks it is less than 1 MiB; a refused value leaves nothing behind, a stored one is written as parts that together are up to three bytes and the value. With the lazy saver every value is accepted, also those that the store below will refuse: such a value is never written. Badger writes are made durable if and only if NoSync is set. A lazy saver that is only enabled keeps the server from starting although it has defaults.", "quantifier": "all configurations, outcomes of opening databases, keys and values, and states of the map of parts", "why_tests_cant": "tests start with one configuration file and memory stores", "anchors": ["api/rankdb.go:47-112", "api/rankdb.go:165-273", "api/rankdb.go:278-332", "blobstore/lazysaver.go:106-155", "blobstore/maxsize.go:30-45", "blobstore/memstore/memstore.go:63-80", "blobstore/aerostore/aerostore.go:100-111"]}
{"id": "C76", "title": "Recycled buffers of the delayed-write store", "statement": "Whatever slices the pools give out, and whatever callers of Get do to the slices they were given, the delayed-write store behaves as if it kept values: every run is a run of the machine of C36 and C37 with the same calls, answers and writes to the store. At any time a buffer has one owner: one of the pools (once), a Set that has copied its argument and waits for the lock, the caller of a Get, a waiting value (or one that is being saved), or another user of the pools. What a Get returned is changed by nobody but its caller. A buffer from getDataBufferChunk holds the bytes asked for up to 1 MiB, has at least 1 KiB, and for 1 to 512 KiB is less than twice as large; above 1 MiB it does not hold them although documented so, and above 512 KiB it can be arbitrarily large as the last pool keeps all larger buffers.", "quantifier": "all interleavings of calls, savers, failures of the store and garbage collections, all choices of the pools and of append's growth", "why_tests_cant": "a recycled buffer that is still in use shows only with the right choice of sync.Pool and timing; the race detector sees single runs", "anchors": ["blobstore/lazysaver.go:208-221", "blobstore/lazysaver.go:236-264", "blobstore/lazysaver.go:266-294", "blobstore/lazysaver.go:463-518", "blobstore/lazysaver.go:642-686"]}
{"id": "C77", "title": "The way of a backup to S3, to a download, to another server", "statement": "For a backup to S3, to the client of a download or to another server, whatever fails: the far end has a first part of the stream of the lists read, and restoring it brings back these lists as they were read or reports an error after a first part of them. A far end that was told that it has all (upload done, end of response, end of request body) can restore all of Success, except when the job was cancelled; then restoring reports an error. A backup to S3 whose status is Done, with no errors and not Cancelled, is complete. A job can always become Done without further failures, and unless the transfer failed the far end then has all. It is not true that: a backup to another server whose status is Done with no errors and every list in Success has arrived, even when neither network nor servers fail and nobody cancels (the end of the job cancels the request that still carries the last bytes); that a download whose response ended as it should is a complete backup (the job may have been cancelled). A restore from the path of a backup reads the same place; its body is read exactly when neither src nor src_file is given, and src_file wins over src. A backup to S3 takes paths without s3://, from which a restore goes to HTTP.", "quantifier": "all lists of list IDs without repetitions, all changes of the lists, all failures, cancellations and orders of steps of job and transfer; all destinations and sources", "why_tests_cant": "The lost transfer is a race between the end of the job and the transport's last write; the loss is invisible in the status.", "anchors": ["api/multilist.go:335-407", "api/multilist.go:409-465", "backup/s3/s3.go:35-59", "backup/reader/reader.go:19-33", "backup/server/rankdb.go:20-93", "backup/job.go:124-248"]}
{"id": "C78", "title": "Asking for the status of a backup job while it runs", "statement": "Whatever requests for the status of a backup job come while it runs: every answer has the status the job had at one moment, except that its errors may include some that came later (the answer is written from the job's own map of errors, after its lock is released). An answer with Done is the final status, with all errors. Requests can end the server's process only when the job notes an error while an answer is being written; a job in which every list exists and nothing fails is safe. It is not true that asking is always safe: with one list of the job missing, a request can end the process, and the lists that exist are then not backed up.", "quantifier": "all lists of list IDs, all failures, cancellations and orders of steps of the job and of any number of requests", "why_tests_cant": "Go's runtime notices a write to a map during an iteration only sometimes, in a window of a few instructions; tests with the race detector never ask for the status of a job with errors while it runs.", "anchors": ["backup/job.go:32-44", "backup/job.go:124-248", "api/backup.go:41-52", "api/morph/backup.go:30-47"]}
{"id": "C79", "title": "Copying a list while other calls run on it", "statement": "Backup and VerifyElements read one moment of the list, whatever calls run meanwhile: all segments they read are those of the list after some first part of the operations. A clone of a list is, if no update, insert or delete of its elements runs meanwhile, a list that verifies and has exactly the elements the list had at one moment; queries, split passes, reindexing, populating and releasing do no harm. It is not true that a clone is correct while the list is updated (cloning does not take the update lock): it can have an element twice, and then fails VerifyElements but not Verify; or it can lack an element that was in the list all the time, and then no verification shows it.", "quantifier": "all lists, all sets of concurrent calls, all interleavings of their steps at the locks", "why_tests_cant": "The wrong clone needs an element that moves between segments while the clone is between these segments; tests clone lists nobody updates.", "anchors": ["list.go:490-555", "list.go:1850-1913", "list.go:672-684", "list.go:307-402", "api/lists.go:315-361"]}
{"id": "C80", "title": "Making, replacing, restoring and deleting lists while they are used", "statement": "Whatever requests that create (with or without replace), restore, delete and use lists run at the same time, there is one order of their effects that explains every answer and what is found in the end: each list made has its own history of calls, each call was carried out on the list that had its ID at that place of the order, Conflict, NotFound and Skipped are answered when the list was or was not there, and a request answered before another came has all its effects before those of the other. A list that can be found has its data, unless a create is about to put another list in its place; when no request is being worked on, every list that can be found has its data. If requests that make or delete lists with one ID do not overlap and the store does not fail, then no data stays behind without a list, and a list takes the place of another only if the request was to replace it and has deleted the other. Refuted without that condition: that of two creates without replace for one ID at most one is answered OK (both can be, the first list is lost and its data stays for ever); that a deletion deletes the data of the list it takes away (with a replacing create it can take away the new list and delete the data of the old). Refuted even with it: that a list can be used while it is replaced (a create that replaces makes calls fail, a restore makes them NotFound).", "quantifier": "all sets of requests, all interleavings of their steps at the map of the lists and at the list objects, all failures of the store", "why_tests_cant": "The orders that matter are between two accesses to the map in two requests; tests send one such request at a time.", "anchors": ["api/lists.go:28-98", "api/lists.go:315-361", "backup/restore.go:83-103", "manager.go:203-210", "lists.go:38-48", "lists.go:268-274", "lists.go:319-321", "list.go:1120-1166"]}
{"id": "C81", "title": "Several calls get the elements of one segment at the same time", "statement": "Calls that read or replace the elements of one segment take its lock, look in the cache, and load the elements from the store; a call that finds another one loading waits for it and gets its result. In every interleaving of such calls, with failures of the store and with a cache that can forget at any time, as long as no call panics: the elements that a call has got are those in the store for as long as it has them, and a call that ends well ends with those in the store then; the cache has what the store has, but for the time in which a call that alone has the lock has stored new elements and not yet cached them; and no call waits for ever - at any time all calls can run to their ends, each step bringing one nearer to it. Whatever fails or panics, at most one call reads the segment from the store at a time, and only readers share what one of them has loaded (so that the test of the wrong variable in Gimme, which copies for a loading writer and not for a waiting one, does no harm). If the store does not fail, no call does. Refuted: that a read fails only if its own access to the store would (it fails with the one it waits for, whose client may have gone away); and, if a load panics, that a call without an error has the elements in the store (one that waited has none, and puts that in the cache for those that come later) and that calls end (the lock is never released: calls that would replace the elements wait for ever, which is proved for all continuations).", "quantifier": "all numbers of readers and writers, all interleavings of their steps at the lock, the cache, the loader and the store, all failures, panics and evictions, with and without a cache", "why_tests_cant": "The results depend on which call finds the other one loading and on what happens in the store at that time; tests run calls one after another on a store that does not fail.", "anchors": ["segments.go:185-259", "segments.go:269-298", "segment.go:45-50", "segment.go:171-222"]}
{"id": "C82", "title": "The segments of a list are released from memory while the list is used, and the release gives up after a minute", "statement": "ReleaseSegments takes loadingLock and the write lock of the segments in a goroutine and forgets what the list has in memory; if that has taken a minute its caller gives up, gives back what the goroutine has got, and returns. In every interleaving of such releases with calls that read, write and set up the segments of the list, wherever the minute ends: no lock is unlocked that is not locked (which would end the process); a call works on the segments that the list has in memory, so they are not released or loaded a second time under it; a release that is done has emptied the memory at a moment at which no call worked on it and its caller was still there, and one whose caller has gone changes nothing any more; the caller of a release can always return by itself; and if the calls get on with what they do, everything ends with all locks free, in a bounded number of steps, with or without timeouts. But as long as one reader goes on, a release that has announced itself as a writer keeps waiting whatever minute is over, and no other call gets to work. Refuted: that other calls can go on once the release has timed out (a second read, which the first would not keep waiting, waits for as long as the first one goes on); that the goroutines of timed out releases are bounded (for every number of releases there is an execution in which all have timed out and all still wait); and that a read works on the list's segments if Repair sets the list up anew after a failed load (it does not take loadingLock, so it can replace them while a reader that has loaded them changes its write lock for a read lock).", "quantifier": "all numbers of calls and releases, all interleavings of their steps at the three locks, all moments at which minutes are over, all failures of loads", "why_tests_cant": "The outcome depends on which of the goroutine, its caller and other calls gets to the locks first around the end of a minute; a test would have to stop each of them at each point.", "anchors": ["list.go:1055-1118", "list.go:305-407", "list.go:414-453", "list.go:1797-1808", "lists.go:239-265"]}
{"id": "C83", "title": "Nothing is left behind in the store by lists that are changed, replaced and removed", "statement": "Any number of lists are made, cloned, updated, split, merged, reindexed, repaired under new names, replaced and removed by calls that run to their end on a store that does what it is told, with restarts between the calls, whatever is in the element cache. Then every key that has a blob and had none at the start is the key of one of the two segment lists of a list that still exists, or of a segment that such a list has; no key belongs to two lists; from an empty store, the keys that have a blob are exactly these; and when the last list is removed, everything that lists ever wrote is gone. Refuted without that premise: a delete that the store refuses is only logged, so a merge then returns no error and leaves the blob of a segment that no list has any more and that removing the list does not remove; and a process that stops in the middle of a split pass leaves the blob of the new segment, which the list as loaded after the restart does not have, and which removing it does not remove.", "quantifier": "all histories of whole calls on any number of lists, all contents, sizes, settings and stores to begin with, all states of the cache, all points of restarts between calls", "why_tests_cant": "A leaked blob is seen in no answer; a test that looks at the store after some calls sees only the ways of splitting, merging and replacing that its data happens to cause.", "anchors": ["segments.go:883-902", "segment.go:225-227", "list.go:733-781", "list.go:1134-1166", "list.go:2105-2182"]}
{"id": "C84", "title": "Encoders are recycled between calls that save segments, segment lists and the list file", "statement": "Saves of segments, of segment lists and of the list file take encoders with a buffer from a shared pool, encode, pass a slice of the buffer to the store, and give the encoder back. Whatever encoder the pool gives out, however saves overlap, wherever encoding fails with bytes still held back, whenever the encoder hands on what it holds and whenever a buffer outgrows its array: what the store takes in the Set of a call, however often, is exactly what this call encoded; a list file gets what its call encoded, in order, all of it if the call ends well, and nothing of any blob; an encoder has one user or is in the pool once; none writes to the nil writer that Close leaves; and a save gets to its end by its own steps, waiting for no other. Refuted without the premises: a store that keeps the slice and reads it after Set has returned writes bytes of another call; and if Close is called twice, two calls get one encoder, one stores the bytes of the other, and one then writes to a nil writer, which panics.", "quantifier": "all numbers of saves, contents, pieces in which they are encoded, interleavings, failures, choices of the pool and of buffer growth", "why_tests_cant": "A recycled buffer that is still in use shows only for some choices of sync.Pool, some sizes and some timing.", "anchors": ["msgppool.go:16-80", "segment.go:233-249", "segments.go:837-852", "lists.go:88-144"]}
{"id": "C85", "title": "Paging forward over lists that are made and deleted meanwhile", "statement": "A client asks for pages of lists after an ID, each time after the last ID it got. Whatever lists are made and deleted between its requests and while a page is put together, in whatever order the collection enumerates them: it gets IDs in ascending order, none twice, all after the one it started from; each list it gets was there at the time of one of its pages; and if it goes on until a page says that no lists follow (lists_after = 0), it gets every list that was there all along. Refuted: that an empty page means the end (all lists of the page may have been deleted between being chosen and being fetched, while later ones exist all along; the client then has no ID to go on from); and that the number of pages is bounded by the number of lists (with a list made ahead for each one read, never more than two at a time, a client goes on for any number of pages).", "quantifier": "all collections at each request, all orders of enumeration, all page sizes, all changes between and during requests, all numbers of pages", "why_tests_cant": "The answers depend on when lists come and go between and during the requests and on Go's random map order.", "anchors": ["lists.go:325-392", "api/lists.go:209-227"]}
{"id": "C86", "title": "A backup to a file: what was in the file before, and jobs that share a path", "statement": "Backup jobs with a file as destination, any number of them, on any paths, whatever fails or is cancelled. A file that no job manages to create stays as it was. From the moment a job has created its file, and as long as no other job creates the same file or writes to it, the file holds what this job has written and nothing else; restoring it (src_file) brings back the lists as they were read, or reports an error after a first part of them; and if the job is Done, not Cancelled and the disk did not fail, restoring brings back exactly Success. When jobs share a path, each byte of the file is a zero or the byte that one of these jobs has for this position; jobs that write the same stream do not harm each other if the one that created the file last gets to its end. Refuted: that a path which holds a complete backup goes on to hold a usable one (the next job to this path empties the file when it begins; if it is then cancelled nothing can be restored); and that the file of a job that is Done without errors, not Cancelled and with every list in Success can be restored, on a disk that never failed (a second job to the same path which is cancelled right after it began leaves a hole at the start of the file).", "quantifier": "all numbers of jobs, all paths, all lists and their changes, all interleavings, failures and cancellations, all compressors that only add to what they wrote", "why_tests_cant": "The outcome depends on how jobs and failures interleave; tests write one backup to a fresh file.", "anchors": ["backup/file/file.go:13-27", "backup/job.go:124-248", "api/multilist.go:357-361", "api/multilist.go:447-458", "backup/restore.go:41-108"]}
{"id": "C87", "title": "The list pruner: which lists it releases, its rounds and its end", "statement": "The list pruner beside calls that make, replace, delete and load lists, in any interleaving. It never takes the segments of a list with LoadIndex out of memory. In one round it visits every list at most once, and exactly once every list that is there from the beginning of the round to its end; a list without LoadIndex that nobody replaces, deletes or loads meanwhile is out of memory after the round, unless its release gave up waiting. With interval 0 it does nothing but stop on shutdown. It stops only after it was asked to and between rounds (every round it began is complete), and does nothing afterwards; once asked it can stop from every reachable state without beginning another round. It begins no more rounds than there were ticks (one may have been waiting). Refuted: that after it was asked only a bounded number of rounds can begin (if the next tick is there when a round ends, select may take it every time).", "quantifier": "all lists, all intervals between ticks, all interleavings with other calls and with shutdown, all outcomes of releases", "why_tests_cant": "Whether a list is visited depends on what is added and deleted during the round, and the end on which case select takes; tests do not start the pruner.", "anchors": ["manager.go:98-130", "lists.go:239-265", "api/rankdb.go:262-264"]}
{"id": "C88", "title": "Decoders are recycled between calls", "statement": "Any number of loads of the list file and restores of backups, each with a decoder that the pool gives out, in any interleaving; calls may end early (errors), and may leave their decoder to the garbage collector, as the restore of a list does. Each call reads exactly the first bytes of what it was given, as many as it asked for, whichever decoder it got, whatever that decoder held before and whatever others read; it can always read on to the end of its own source; no decoder has two users; nobody reads from a decoder that was closed (which would panic). Refuted, if a decoder were closed twice (which msgppool.go forbids and no call does): that a call reads its own bytes, and that nothing panics.", "quantifier": "all calls, sources, interleavings, choices of the pool, amounts read ahead and early ends", "why_tests_cant": "Which decoder the pool gives out and how far it has read ahead cannot be controlled by tests.", "anchors": ["msgppool.go:82-135", "lists.go:146-225", "backup/restore.go:54-56", "backup/restore.go:97"]}
