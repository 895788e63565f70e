# Formal model of rankdb in Coq 8.16.1

The Go sources in /repo are read as text and modelled function by function as total Gallina
functions and, for code with goroutines, as transition systems.  Nothing of /repo is built or
run.  Every model definition cites the file and lines it models and says where it simplifies.
Properties are in `properties.jsonl`; `MANIFEST.json` maps each one to its theorems;
`seeded/LOG.jsonl` records the wrong programs the theorems were tried on.

## Layout (`rocq/theories`)

* `Lib/`    lists, sorting, permutations, bytes (no model content)
* `Model/`  the model, definitions only
* `Spec/`   small specifications that do not use the helpers of the model (ranking, maps,
            windows, histories of events, crash recovery, ...)
* `Proof/`  lemmas
* `Thm/`    `Cxx.v`: the theorems of property Cxx, `Print Assumptions` under each, and examples
            that meet the hypotheses; `Sample*.v`: the data of the examples

Theorem names: `Cxx_name` is a positive statement for all inputs; `Cxx_name_refuted` is an
existence statement, proved by a witness, saying that a plausible or documented claim is false
of the code.  The `statement` of a property is the boundary between the two.  No theorem has
the suffix `_partial`.

## Trusted base

* Coq 8.16.1's kernel (including its virtual machine, used by `vm_compute` in examples and
  witnesses).
* `Print Assumptions` prints "Closed under the global context" for every theorem: no axioms,
  neither of the standard library nor of our own.
* That the model says what the code says.  The model is written by hand from the text of
  /repo; the citations are there so that it can be compared.
* Behaviour taken from documentation because the code is not in /repo: Go itself (maps visited
  in any order, unstable sort, channels, sync.Mutex/RWMutex with writer preference, sync.Map,
  integer wrap-around), `github.com/tinylib/msgp` (Model/Msgp.v), `cenkalti/backoff`
  (Model/Small.v), zstd/flate (any functions with the two properties in
  Spec/ManagerSpec.v), goa's generated request checks (hypotheses on requests), Badger's
  transactions (Model/Badger.v).

## Conventions

* Scores, IDs, ties, times are `N` with explicit range predicates where the range matters;
  lengths, offsets and segment numbers are `nat`; ranks shown to clients are `Z`.
* Map iteration order, completion order of goroutines that only fill disjoint slots, and tie
  order of unstable sorts are explicit schedule arguments: a list of naturals decoded into a
  permutation (every code is a permutation and every permutation has a code, `Lib/Perm.v`), so
  theorems quantify over all orders.
* Goroutines that share state are transition systems with one step per lock region, channel
  operation or store call; theorems quantify over all interleavings.
* The clock, random numbers and failures are arguments of the operation that meets them.
* Errors and panics are values; Go loops that may not end take fuel, and theorems say when
  some fuel suffices and when none does.
* A crash is a cut between two writes of the event list (or a step of the transition system).

## What is modelled

| Model file | Code | Simplifications |
|---|---|---|
| Element, Elements | element.go, elements.go | slices edited in place are lists returned |
| Segment | segment.go, segments.go (in memory) | elements attached to their segment; no storage errors; locks in Locks |
| List | list.go: all operations on loaded segments | sizes natural; split passes at any time between operations (the queue is in Splitter) |
| Storage | segment.go, segments.go, list.go: every read and write of the store and cache; crash, reload, restore | one set of one store; writes succeed and are atomic per blob |
| Fails | the same writes, with fates: which errors end a call and which are only logged | reads succeed |
| ListFile | lists.go, list.go loadSegments and ReleaseSegments, manager.go: lists in memory and not, the saver between and within calls, stops at any time | the file is the descriptors last saved; calls are whole and succeed; sets, metadata, LoadIndex left out |
| Splitter | list.go checkSplit, requestSplit, the test in verify; manager.go StartListSplitter, DeleteList: the queue of split requests, the worker, deleted lists | calls, passes and deletions are whole and do not fail; calls on deleted lists and shutdown of the worker left out |
| Locks | list.go, segments.go: order of taking and releasing locks | goroutines of one call in sequence in any order; the two SegmentsLocks are one; l.RWMutex (leaf lock) left out; no errors, cancellation or release timeout |
| Keys | tools.go, key functions | |
| Msgp, Codec | *_gen.go, msgppool.go | EncodeMsg = MarshalMsg; decoding into fresh values |
| Lists, Manager | lists.go, manager.go (load, save, start-up) | compressors are parameters; background verification left out |
| Backup | list.go Backup/RestoreList, backup/job.go, backup/restore.go | bytes given to the compressor; providers left out |
| Drain | api/shutdown.go, bucket.go, the shutdown hooks of services.go, rankdb.go and manager.go: tokens, locks, stages | shutdown2 as documented; a task is one step; saving and closing are steps |
| Job | backup/job.go: the goroutine of a backup job, its status, cancel, shutdown | a step is what happens between two visible changes of the status; zstd hands on what it is given and writes nothing after an error |
| KV, MaxSize, Lazy, LazyStop, Small, Badger | blobstore/*.go, badgerstore | statistics and logging left out, buffer pools in LazyBuf; LazyStop: the timer fires at any time, one Shutdown call |
| LazyBuf | lazysaver.go with its buffers: pools, slices that share memory, what callers do to slices | Shutdown and statistics left out |
| Encoder | msgppool.go (encoders) with Segments.Save, saveElements, Lists.Save: encoders, buffers as pieces of arrays, the pool | msgp.Writer holds bytes back and hands them on in order; compression left out |
| PlainStore | memstore.go, boltstore.go, teststorage.go | calls are atomic; what Bolt refuses is a parameter |
| Hosts | aerostore.go: parsing of the host list | the Aerospike client is not modelled |
| Wiring | api/rankdb.go StartServer, newBlobstore, wrapRetry; a Set through the stores on top of each other | loading of lists in Manager, stages of a shutdown in Drain; New Relic and AWS left out |
| ReadFail | list.go, segments.go: every call with reads of element blobs that fail | writes succeed; a read the cache answers does not fail |
| PassFail | the split pass with writes that fail | reads succeed |
| Alias | element slices as arrays that the cache shares; in-place edits; updates, inserts and deletes with writes that fail | reads succeed |
| Unlock | which locks every path of a call on a list still holds at its end, with failing reads and writes | one call alone; data is left open; local mutexes, ReleaseSegments' timeout left out |
| Copy | cloneElements and Backup during other calls | on top of Locks |
| MakeDrop | lists.go, NewList, DeleteAll, api/lists.go Create and Delete, one list of a restore, at the same time | an access to the map and a call on a list object are one step each |
| Loader | segments.go elementFullIdx, replaceSegment, segment.go loadElements: concurrent loads of one segment | its elements are one number |
| Release | list.go ReleaseSegments with its timeout, loadSegments, newSegments after a failed load | a call works on its segments in one step |
| Tokens | api/app/controllers.go (scopes), api/jwt.go, api/services.go: who may call what, tokens that the server makes | goa's check of a token is assumed |
| Ship, Asking | backup/s3, backup/reader, backup/server, api/multilist.go (choice of destination), api/backup.go, api/morph/backup.go | io.Pipe, net/http and the S3 uploader as documented |
| Prune | manager.go StartListPruner, lists.go Prune | a release is one step that succeeds or gives up; Range and Ticker as documented |
| Decoder | msgppool.go readers and their users | msgp.Reader reads ahead as it likes; values are pieces of bytes |
| FileDest | backup/file/file.go, jobs that share a path | os.Create and writes to a handle as documented; the compressor is a parameter |
| SortFloat | sortfloat/float.go | |
| Access, Api, Server, Fanout | api/jwt.go, api/elements.go, api/lists.go, api/multilist.go, api/morph | no HTTP/JSON parsing; Server: one request at a time; Fanout: one list operation is one step; shutdown check and Stats counts of segments left out |

## What is not modelled

cache.go (an interface; the cache in Storage is any cache that returns what was
put or nothing); rankdb.go (constants only); api: health, services other than their
shutdown hooks and start of JWT, newrelic, aws, static, HTTP and JSON; backup/provider (a
destination takes bytes or fails); the calls of aerostore; dynamo and nullstore (no configuration uses
them); statistics of the delayed-write store; String methods; VerifyUnlocked (called by tests
only); log/; cmd/; tests.  Failing reads and writes are modelled for the store
wrappers (C34-C38, C58, C59), the list file (C33), crash points (C25-C27, C35), writes of list
operations (C61, C70, C71), reads of segments (C65-C68; Repair in C19) and locks (C69).  Except for
locks, reads and writes do not fail in the same call.

## How each property is treated

| Id | Property | Model | Method | Theorems |
|---|---|---|---|---|
| C01 | Ranking order is a strict total order and the ranking is unique | Element | `above` is a strict total order; uniqueness of sorted permutations | order_strict_total, ranking_unique |
| C02 | Deduplication keeps exactly one element per ID, the latest updated one | Elements | scan over an ID sort with any tie order; invariant on the kept prefix | dedup_keeps_latest, has_duplicates, highest_score_refuted |
| C03 | Sorting yields the ranking of the same elements, and when it terminates | Elements | sortedness and permutation per round; measure for ending; divergence for all fuel | sort_correct, sort_terminates, sort_diverges, sort_termination_refuted |
| C04 | Slice merge and slice edits keep the ranking | Elements | induction; both merge loops equal one specification merge | merge, insert, delete, update, add, merge_dedup |
| C05 | Splitting a slice loses nothing and never separates tied elements | Elements | loop invariant of the index arithmetic | split_size, halves, part_sizes, zero_panics |
| C06 | List contents equal the last-writer-wins map for every history | Segment, List | representation invariant kept by every operation (InvDef); refinement to a map by induction over histories | step, history, contents |
| C07 | Looking up elements returns each one once with its true rank | List | query results equal functions of the ranking of the invariant state | lookup, sorted_by_rank_refuted |
| C08 | Neighbours are the true neighbours | List | query results equal functions of the ranking of the invariant state | neighbours, above_order_refuted |
| C09 | GetRankTop returns exactly the requested window | List | query results equal functions of the ranking of the invariant state | rank_top |
| C10 | GetRankBottom returns exactly the requested window from the bottom | List | query results equal functions of the ranking of the invariant state | rank_bottom |
| C11 | Score range query starts at the right element with right ranks | List | query results equal functions of the ranking of the invariant state | rank_score |
| C12 | Percentile query returns the element at that percentile | List | query results equal functions of the ranking of the invariant state | percentile, percentile_one, empty_panics, one_refuted |
| C13 | Length equals the number of distinct IDs | Segment, List | representation invariant kept by every operation (InvDef); refinement to a map by induction over histories | len |
| C14 | Automatic split and merge are invisible | List | loop invariant of the split pass; size measure | split_invisible |
| C15 | Splitting makes progress | List | loop invariant of the split pass; size measure that cuts and merges both decrease | pass, converges, two_groups_refuted, rests |
| C16 | Every reachable list passes full verification | Segment, List | representation invariant kept by every operation (InvDef); refinement to a map by induction over histories | verify |
| C17 | Verification is sound: a list that verifies answers queries correctly | List | the verify functions imply the invariant; one witness per condition they omit | sound, bounds_refuted, zero_refuted, filed_refuted |
| C18 | Reindex rebuilds a correct index from scores alone | List, Server | reindex and repair from arbitrary states; requests on damaged lists | reindex |
| C19 | Repair rebuilds a valid list from any loadable data | List, Server | reindex and repair from arbitrary states; requests on damaged lists | repair, healthy, verify_request, multi_verify |
| C20 | Delete removes exactly the named elements | List | refinement; divergence and panic witnesses | delete |
| C21 | Insert adds exactly the given new elements and terminates | List | refinement; divergence and panic witnesses | insert, small_split_diverges |
| C22 | Creating, populating and cloning lists give exactly the given elements | List | refinement; divergence and panic witnesses | new, populate, clone, sizes_0_1_panic |
| C23 | Stored records decode to what was encoded | Msgp, Codec | decode (encode x ++ rest) = (x, rest); exact acceptance by ranges | element, elements, segment, segments, list, list_any, version, in_range, repeated_key, fields, any_fields, nil_map_refuted |
| C24 | Distinct records never share a storage or cache key | Keys | injectivity of the key formats; arithmetic of the character choice | storage, segments, cache, any_name_refuted |
| C25 | Crash during a bulk update cannot lose untouched elements | Storage | every operation as a list of writes; every cut or subset; load and Repair from the store; invariant between memory, cache and store | update, insert, delete, others, moved_refuted |
| C26 | Crash during a merge is recoverable; crash during a split can lose elements | Storage | every operation as a list of writes; every cut or subset; load and Repair from the store; invariant between memory, cache and store | stop, merge, split_refuted, short_refuted |
| C27 | Acknowledged operations survive restart | Storage | every operation as a list of writes; every cut or subset; load and Repair from the store; invariant between memory, cache and store | current, restart, progress, descriptor, descriptor_refuted |
| C28 | Lists do not interfere | Storage | frame argument: every write carries the own prefix | others, keys, names |
| C29 | Forward paging over lists is exact for every iteration order | Lists | fold invariants for every enumeration order | exact, changing, none, walk, walk_ends |
| C30 | Backward paging over lists | Lists | fold invariants for every enumeration order | page, one, none, preceding_refuted |
| C31 | Metadata and set matching | Lists | fold invariants for every enumeration order | exact, nothing, missing_refuted |
| C32 | The master list file round-trips and load replaces everything | Manager | codec stream; case analysis over store outcomes and crash prefixes | round_trip, old_file, each_once, cut_short, cut_short_plain, error_keeps_lists_refuted |
| C33 | Start-up falls back to the backup list file exactly when needed | Manager | codec stream; case analysis over store outcomes and crash prefixes | load, start, intact, crash, atomic, interval, start_refuted, two_crashes_refuted |
| C34 | Size-limited store behaves like a plain store | MaxSize | programs of base-store calls on any number of threads; invariant; witnesses | refines_map, plain_map, too_big, no_leak, only_parts, leak_refuted |
| C35 | Size-limited store: crash and key-clash behaviour | MaxSize | programs of base-store calls on any number of threads; invariant; witnesses | first_write_crash, first_write_failed, overwrite_refuted, clash_refuted, delete_refuted |
| C36 | Delayed-write store: reads see the latest write | Lazy | invariant over all interleavings; witnesses | pending_read, store_read, drained |
| C37 | Delayed-write store: what several savers, failures and ambiguous keys break | Lazy | invariant over all interleavings; witnesses | pending_read, store_values, store_read, two_savers_refuted, failed_save_refuted, joined_names_refuted, any_keys_hit, any_keys_store |
| C38 | Retrying store never retries permanent errors and never invents results | Small | induction over outcome sequences; transition systems with counting invariants | result, get, get_order_refuted, permanent_own, permanent_shared, permanent_refuted |
| C39 | Token bucket bounds concurrency | Small | induction over outcome sequences; transition systems with counting invariants | bound, get, release |
| C40 | Float keys sort like floats and convert back | SortFloat | bit-level case analysis against SpecFloat comparison | order, value, nan, back, back_zero, back_nan, exact_refuted |
| C41 | Fan-out error collection never hangs and never hides an error | Small | induction over outcome sequences; transition systems with counting invariants | result, progress, terminates |
| C42 | Lock order between lookups with neighbours and updates | Locks | lock transition system of one list; deadlock freedom from a lock order, reachable stuck states; linearisation invariant | progress, completes, readers, radius_refuted, score_refuted, stats_refuted |
| C43 | Bulk update reports previous rank | List | exact ranks; witness | results, before_rank_refuted |
| C44 | Ranks shown next to neighbours in API responses | Api | equality with ranks in the ranking; witnesses | range_top, range_bottom, range_not_found, neighbours, above_refuted |
| C45 | Access restrictions are enforced exactly | Access | exactness of split/trim/parse; table of endpoints | lists, elements, other |
| C46 | Backup then restore reproduces the list | Backup | stream round trip; restore from damaged streams | restore, truncated, job, cut, failed_refuted |
| C47 | Generated names use only letters and digits | Keys | injectivity of the key formats; arithmetic of the character choice | shape, same, unique_refuted |
| C48 | Segment ranges always tile the whole score space | Segment, List | representation invariant kept by every operation (InvDef); refinement to a map by induction over histories | tile |
| C49 | Elements with the maximal update time can be dropped silently | Elements | witness and converse | dropped, others_stored |
| C50 | Updates to one list are serialised | Locks | lock transition system of one list; deadlock freedom from a lock order, reachable stuck states; linearisation invariant | serial, unused, order, history, reads, exclusive, get, window_refuted |
| C51 | Responses about several elements | Api | equality with ranks in the ranking; witnesses | multi, around |
| C52 | Restricted tokens and endpoints | Access | exactness of split/trim/parse; table of endpoints | checked, allowed, manage_refuted |
| C53 | The collection of lists is a map | Lists | refinement to a map | latest, distinct, many, nil_refuted |
| C54 | The HTTP API is a map of maps | Server | refinement of all handlers to a map of maps, by induction over request sequences | refines, read_back, no_crash_refuted |
| C55 | Which lists a cross-list request works on | Server | refinement of all handlers to a map of maps, by induction over request sequences | selection, put_sets_refuted, reindex_sets_refuted |
| C57 | The payload after an update | Server | refinement of all handlers to a map of maps, by induction over request sequences | payload, null_refuted |
| C56 | Parallel work of one cross-list request | Fanout | invariant over all reachable states; measure; link to the handlers of C54 | result, limit, progress, ends, nil, sequential, cancel_refuted |
| C58 | Shutting down the delayed-write store | LazyStop | token counting invariant; measure; case analysis for progress; projection to Lazy | ends, moves, nothing_left, stored, still, not_stuck, backlog, late, lost_refuted, hangs_refuted |
| C59 | The Badger store is a map while nothing fails, and loses a bounded part when the process dies | Badger | invariant over all interleavings; crash step; witnesses | queued, database, alone, map, no_errors, crash, nothing_invented, not_missing, too_big_refuted, close_refuted, flush_refuted, delete_refuted, failed_delete_refuted, names_refuted |
| C60 | A backup job and its status | Job, Backup | invariant over all interleavings; measure; restore through C46; witnesses | stream, restore, complete, status, grows, moves, ends, cancel, silent_refuted, cancelled_refuted, shutdown_refuted |
| C61 | Calls on a list while writes of the store fail | Fails, Storage | writes in groups with reported or swallowed errors; the writes that reach the store are a subset or the list without deletes; crash theorems; witnesses | done, recovers, deleted, split, reindex, others, clean, unsure, update_refuted, delete_refuted, split_refuted, repair_refuted |
| C62 | What a server keeps when it stops at any time | ListFile, Storage | invariant: every descriptor in memory, file or running save is that of a reachable list, of a list whose index is gone, or dead; induction over the save; witnesses | current, read, gone, restart, unknown, save, orderly, created_refuted, repaired_refuted, repairing_refuted, deleted_refuted, reindexed_refuted |
| C63 | Splitting in the background | Splitter, List | invariant over executions (objects agree with a map of contents); induction over traces for the queue; C15 for rest; witnesses | contents, asked, needed, bound, served, goes_on, alive, falls, settles, deleted_refuted, once_refuted, full_refuted |
| C64 | Limit on updates and orderly shutdown | Drain | transition system; invariants over executions (token count, what requests did, no lock after the first stage); a weight that every own step lowers and progress by cases; witnesses | limit, refused, truth, owned, quiet, kept, drains, limit_refuted, late_refuted, timeout_refuted |
| C65 | Queries while reads of the store fail | Model/ReadFail.v (queries with an oracle for every read) | cut relation between failing and failure-free lookups; exact characterisation of the segments read (Proof/ReadFailP.v) | right, when, complete, silent_refuted |
| C66 | Updates while reads of the store fail | Model/ReadFail.v (update_elements_r: an oracle for every read, the set of loaded segments is kept) | simulation: the run with failures against a failure-free run of the applied elements, differing in the versions left behind (Proof/UpdateReadP.v) | update, exact, results, skipped_refuted, twice_refuted, error_refuted |
| C67 | Deletes and inserts while reads of the store fail | Model/ReadFail.v (delete_elements_r, insert_r: an oracle for every read of every stage and chunk) | invariant of lists whose index trails the scores (Proof/SkewP.v), preserved by every stage with failures (Proof/DeleteReadP.v, InsertReadP.v, DelInsThm.v) | delete, deletes, insert, heals_delete, heals_insert, lost_refuted, unfound_refuted |
| C68 | Split passes and Reindex while reads of the store fail | Model/ReadFail.v (split_r, reindex_r: an oracle for every read of both loops and of updateIndexElements) | invariant of lists whose index trails the scores (Proof/SkewP.v), preserved by passes cut short anywhere; induction over sequences (Proof/SplitReadP.v) | split, upkeep, unfound_refuted |
| C69 | Locks when accesses to the store fail | Model/Unlock.v (every lock and unlock of the calls of List, defer, panics, closures in the unlock field; data and outcomes of accesses are oracles) | weakest preconditions with an invariant on held locks up to permutation (Proof/UnlockP.v to UnlockP7.v); induction over sequences of calls; a second invariant for lists left locked (Proof/UnlockP8.v) | leaves, calls, shut, open, populate_refuted, split_refuted, backup_refuted, dies_refuted, repair_refuted |
| C70 | What is shown and stored after a failed write of a cached segment | Model/Alias.v (Go slices as arrays with length and capacity, in-place edits of elements.go on them, calls with failing writes and a cache that shares the arrays) | simulation between the edits on slices and the functional model, with the exact contents of the array behind (Proof/AliasP.v, AliasP2.v); per-segment description of what a save shows and writes (AliasP3.v, AliasP4.v); whole calls, induction over the chunks of an insert (AliasP5.v, AliasP6.v) | update, delete, insert, clean, written, shown, reported, twice_refuted, lost_refuted |
| C71 | A split or merge pass while writes of the store fail | Model/PassFail.v (the split pass with a fate for every write; what readers see of the segments at hand when it stops) | the loop up to the failed write is the loop of Model/ReadFail.v that stops there, plus one stopped step (Proof/PassFailP.v); induction over all operations for elements that come from nowhere (NewP.v) | pass, nothing_new, gone, merge_refuted, split_refuted, index_refuted |
| C72 | The stores at the bottom: memory, Bolt and the test store | Model/PlainStore.v (memstore with its joined keys and counters, boltstore over nested buckets, the checks of teststorage) | refinement to the list of earlier calls (Spec/PlainSpec.v: last write, counts) by induction over the calls (Proof/PlainP.v) | memory, joined, clash, server, dir, stuck, bolt, checks, after, pct, clash_refuted, usage_refuted, dir_refuted, after_refuted |
| C73 | Scopes of the endpoints and the tokens that the server makes | Model/Tokens.v (the scope of every route, start of the server, the token endpoint, and a client that keeps the tokens it is given) | induction over the requests of a client; case analysis over the endpoints; int64 arithmetic of the expiry | calls, closed, never, start, open, manage, expiry, dead, params, lists, unnamed, restrictions_refuted, expiry_refuted |
| C74 | The list of hosts of the Aerospike store | Model/Hosts.v (Split, TrimSpace, Atoi and parseHosts) | a relational specification of the pieces and of a host (Spec/HostSpec.v) that is shown to have exactly one solution, the parsed one (Proof/HostP.v) | hosts, count, never_none, port, blank_refuted, empty_refuted, range_refuted, ipv6_refuted |
| C75 | What a server is put together from its configuration | Model/Wiring.v (StartServer's stores, newBlobstore, wrapRetry, the checks of the options, and a Set through the stack with the size limiting store of Model/MaxSize.v) | an inductive description of every outcome shown equivalent to the code; induction over the parts that are written | starts, stores, layers, close, twice, aerospike, memory, file, lazy, badger_sync, sync_refuted, accepted_refuted, block_refuted, lazy_default_refuted |
| C76 | Recycled buffers of the delayed-write store | Model/LazyBuf.v (the machine of Model/Lazy.v over a memory of backing arrays with capacities, eleven pools and append) | refinement: an abstraction function to Model/Lazy.v and an invariant of exclusive ownership by counting (Proof/BufP.v, Proof/BufInv.v); C36 and C37 carry over | values, read, drained, owners, out, capacity, hold_refuted, large_refuted |
| C77 | The way of a backup to S3, to a download, to another server | Model/Ship.v (the job of Model/Job.v, a pipe and a transfer with its context; choice of destination and source) | invariant over all interleavings on top of C60's; measure for progress; C46 for what restoring brings back; witness runs | far, restore, end, s3, ends, server_refuted, download_refuted, back, src, url_refuted |
| C78 | Asking for the status of a backup job while it runs | Model/Asking.v (the job of Model/Job.v and any number of requests: copy under the lock, iteration without it) | invariant over all interleavings: each copy is the status of a prefix of the run; witness runs | answer, final, dies, writes, quiet, dies_refuted |
| C79 | Copying a list while other calls run on it | Model/Locks.v (CLocked, CRead), Model/Copy.v (the clone made from the segments read) | invariant over all interleavings: while the copying call is in, nobody who could change the list gets in; witness schedules for the torn clones | backup, all, clone, twice_refuted, lost_refuted |
| C80 | Making, replacing, restoring and deleting lists while they are used | Model/MakeDrop.v (requests as programs over the map of lists and the objects) | linearizability by an invariant with the effects so far: calls on an object that has left the map are put in just before the effect that took it out; two more invariants for data and for requests that do not overlap; witness runs | order, whole, rest, no_waste, no_clobber, both_refuted, delete_refuted, gap_refuted |
| C81 | Several calls get the elements of one segment at the same time | Model/Loader.v (calls as programs over lock, cache, loader and store) | invariant over all interleavings, whose parts about values are under the condition that nothing has panicked; a measure for termination; an invariant of the lock for calls blocked for ever; witness runs | value, answer, cache, once, shared, ends, nearer, no_error, blocked, own_refuted, panic_refuted, ends_refuted |
| C82 | The segments of a list are released from memory while the list is used, and the release gives up after a minute | Model/Release.v (calls, release goroutines and their callers as programs over the three locks) | invariant that counts who has which lock; a second one for the copy that calls point to; a measure and an argument about what can block for termination; an invariant of the states in which a release waits for a reader; induction over the number of releases; witness runs | no_fault, current, current_upd, emptied, late, returns, bounded, ends, waits, piles, timeout_refuted, current_refuted |
| C83 | Nothing is left behind in the store by lists that are changed, replaced and removed | Model/Storage.v (the writes and deletes of each call), Model/Fails.v | invariant: each call's events cover what its old and new segment lists differ in; events as functions on which keys are present; uniqueness of segment numbers and of names; induction over executions; witness runs for the refutations | tidy, exact, one, empty, delete_refuted, stop_refuted |
| C84 | Encoders are recycled between calls that save segments, segment lists and the list file | Model/Encoder.v (arrays, buffers as pieces of arrays, encoders, pool, calls as programs) | invariant: each call's encoder has what the call has encoded so far, in its array or held back; one user per encoder, one encoder per array; frame lemma for what others do; witness runs | blob, file, one, no_panic, ends, late_refuted, again_refuted |
| C85 | Paging forward over lists that are made and deleted meanwhile | Model/Lists.v (SortedIDsAfter) | one page as a sorted part of the enumeration (C29), induction over the pages; induction over the number of pages and a witness for the refutations | once, kept, real, bounded_refuted, empty_refuted |
| C86 | A backup to a file: what was in the file before, and jobs that share a path | Model/FileDest.v, Model/Job.v, Model/Backup.v | invariants over runs of any number of jobs: contents of the file against what the jobs have written; C60 and C46 for restoring; witnesses for the refutations, for every compressor | kept, alone, restore, bytes, same, lost_refuted, done_refuted |
| C87 | The list pruner: which lists it releases, its rounds and its end | Model/Prune.v | invariants over all runs: keys met and keys owed within a round, ticks against rounds; a family of runs for the refutation | spares, off, round, frees, stop, stops, rounds, prompt_refuted |
| C88 | Decoders are recycled between calls | Model/Decoder.v | invariant over all runs: each decoder is in the pool or has one user, and what the user read, what the decoder holds and what is left make up the source | bytes, all, one, no_panic, again_refuted |

Restrictions that belong to a property (hypotheses of its theorems and parts of the code left out):

* C02: C02_highest_score_refuted shows the documented tie rule is false; the true rule (lowest score) is proved.
* C03: Termination is proved up to tied runs of 22500; non-termination for one large unsorted tied group.
* C06: For calls within op_ok (distinct IDs per batch, update times below 2^32-1, insert of new IDs only).
* C07: Documented result order refuted by C07_sorted_by_rank_refuted.
* C08: Documented order of Above refuted.
* C12: Panic cases proved as such; C12_one_refuted is the non-empty list with an empty last segment.
* C15: Exact behaviour of a pass without merging, convergence of such passes and of the passes of the splitter, which merge, and a refutation of the stronger claim.
* C17: Soundness with the conditions Verify does not check, and one refutation for each omitted condition.
* C23: Lengths below 2^32, map keys distinct; unknown fields of Segments are not skipped in the model. The msgp library itself is modelled from its format.
* C24: Names are taken as generated by RandString(8); collisions of two generated names are characterised by C47_same.
* C25: Key writes are atomic (bstore contract); the writes of a call that reached the store are an arbitrary list drawn from the call's writes, which covers every prefix of every order. Recovery is load + Repair from the store only.
* C26: The three boundary cases are settled: merge-only (C26_merge) and split-only (C26_stop) passes for every crash point, and two witnesses of loss (C26_split_refuted, C26_short_refuted). Writes are atomic per blob and reach the store in program order.
* C27: Whole calls on loaded lists over one set of one store; store operations succeed (failures: C25, C26, C35). Segment locks and concurrent calls are in C42, C50.
* C28: New collection names are fresh letters and digits, as C47 gives them; see Spec/StorageSpec.v fresh.
* C29: One call sees a snapshot of the keys; deletions before the lists are fetched are covered by C29_changing.
* C30: Exact description of what is returned; the documented behaviour is refuted.
* C31: C31_missing_refuted: a missing field counts as the empty string.
* C32: zstd is any compressor with the two properties in Spec/ManagerSpec.v.
* C33: Store faults are represented by four outcomes of a Set and three of a Get.
* C34: Base-store operations are atomic; the mutex table of runningOp is modelled as one lock per key name; logging omitted.
* C35: Atomicity of overwrite, independence of k and k+0, and Delete's success report are refuted by witnesses.
* C36: Timer, flush limit, tokens and Shutdown are over-approximated or not modelled; store calls are atomic.
* C37: Loss and reordering with several savers or failures, and key ambiguity, proved as witnesses.
* C38: backoff.Retry is outside /repo and modelled from its documentation. C38_get needs the result variable to be read after the call, which Go leaves open (C38_get_order_refuted). PermanentErr registering with the wrong map is C38_permanent_own/shared/refuted.
* C39: Each Token is released at most once (a copied Token could be released twice).
* C40: Floats are the standard library's SpecFloat, decoded from the 64 bits; -0 is the one value not converted back exactly (C40_exact_refuted).
* C41: Workers send some errors and then call Done, as at every call site.
* C42: Transition system of the locks of one list; invariants over all schedules; three deadlocks by witness. Errors, cancellation and the release timeout are not modelled.
* C43: New ranks exact; reported previous rank refuted.
* C44: Ranks above an element shown in reverse: C44_above_refuted, exact condition in C44_neighbours.
* C45: Token signature checking (goa middleware) is not modelled.
* C46: Stated over the bytes given to the compressor; zstd, the S3/file/server providers and the store writes of a restore are not modelled. A list whose backup is 4 GiB or more does not fit its record (hypothesis short (backup d l)).
* C47: C47_same is for clocks after 1970.
* C50: Transition system with in-place changes visible in memory (Dirty) until they are finished (Put); linearisation invariant. Goroutines inside one call run in sequence in any order.
* C51: Request parsing and HTTP are not modelled.
* C52: Handlers reduced to their access checks and the IDs they pass on; scopes (checked by middleware) not modelled. C52_manage_refuted is the uncovered part.
* C54: Refinement of Model/Server.v (handlers on top of the list model) to Spec/ServerSpec.v. One request at a time; overlapping calls are C50, the goroutines of one request C56.
* C55: Truth boundary: positive theorem plus two refutations of the documented set selection.
* C57: The documented null rule is false; proved what holds instead.
* C56: The goroutines are a transition system (one step per channel operation, lock region or list operation; cancellation at any time); invariant over all reachable states, bounded measure for termination. C56_sequential links it to the handlers of C54. C56_cancel_refuted: what a cancelled request leaves behind.
* C58: Model/LazyStop.v adds the calls, handler, savers, Shutdown and their channels to Model/Lazy.v; every run projects to a run of Model/Lazy.v, so C36/C37 apply. Termination by a decreasing measure, deadlock freedom from a token-counting invariant.
* C59: Model/Badger.v; flush is one step of Set or Close (the mutex is held), a crash may come within it
* C60: Bytes are those before compression: zstd is taken to hand on what it is given, in order, and to write nothing after an error. zstd.NewWriter's error, sizes and times are left out. opened: Errors has no key "saver". C60_silent_refuted, C60_cancelled_refuted and C60_shutdown_refuted are the witnesses of the negative part.
* C61: Reads succeed and contexts are not cancelled; the list in memory after a failed call is described for Reindex only. sure: Insert, Split, Reindex, Repair, Populate. C61_update_refuted, C61_delete_refuted, C61_split_refuted and C61_repair_refuted are the witnesses of the negative part.
* C62: The file is the descriptors that the last finished save encoded: its bytes, backup and start-up errors are C32 and C33. Calls are whole and succeed; the saver visits lists between calls and in the middle of those that leave a list without names (Repair, Populate, DeleteAll). New names and IDs are ones not in use. The C62_*_refuted theorems are the witnesses of the negative part.
* C63: A call, a pass and a deletion are one step each, as they hold the update lock (C50). Calls that reach a list object after it was deleted panic and are recovered in the request: not modelled. Storage does not fail. A list object replaced by another under the same ID without being deleted is not modelled. The C63_*_refuted theorems are the witnesses of the negative part.
* C64: shutdown2 is an outside library that is not in the source tree; what its documentation says of Lock and of the order of the stages is taken as given. A task (the work on one list) takes effect in one step or fails; goroutines per request (C56) and interval saves (C33, C62) are left out. The C64_*_refuted theorems are the witnesses of the negative part.
* C65: C65_silent_refuted: a lookup returns too few neighbours without an error.
* C66: C66_skipped_refuted, C66_twice_refuted and C66_error_refuted are witnesses of the unreported failures. Writes succeed here (see C35, C51).
* C67: C67_lost_refuted and C67_unfound_refuted are witnesses of the two late effects. Writes succeed here (see C35, C51).
* C68: C68_unfound_refuted is the witness of the lost entries. Writes succeed here; a restart before the next save is a crash in the middle of the pass (C26).
* C69: One call at a time (C42, C60 for concurrent calls). The _refuted theorems are the witnesses of the five exceptions and of the calls that hang afterwards.
* C70: Reads succeed; one call at a time. Split passes and Reindex work on copies and are not part of this property.
* C71: Reads succeed; one call at a time; a failing delete of a merged segment is only logged by the code and has no effect here. Which segments stay locked is C69.
* C72: Which sets, keys and values the Bolt library itself refuses is a parameter of the model. Calls are atomic (mutex, transactions). The slice that Get of the memory store returns is the stored one, not a copy; callers that write to it are not modelled.
* C73: That goa checks signature, expiry and scopes is assumed (what a scopes string grants is a parameter of the model); only the tokens that a client was given are sent by it, i.e. signatures are not forged. Which calls a handler makes is written down from the handlers; the access checks inside are C45.
* C74: int is taken to have 64 bits. The Aerospike client itself is not modelled.
* C75: What Bolt and Badger take is a parameter (Badger's own queue is the subject of C59 and left out here); no write fails. That an open file cannot be opened again is a hypothesis (`exclusive`) where it is used. The stages of a shutdown are C64, loading the lists C33 and C62.
* C76: The store below is assumed not to keep the slice of a Set after it has returned (memstore and badgerstore copy, Bolt's transaction is over); the slice that it returns from Get is its own affair. A store call reads the buffer in one step: C76_owners shows that nobody else has the buffer meanwhile.
* C77: io.Pipe, net/http and the S3 uploader are outside libraries: bytes arrive in order, the far end is told that it has all only if it has and the pipe was closed, and a transfer whose context is cancelled may be given up until it has ended. That the answer of the other server to a complete body is only logged (server/rankdb.go:78-90) is not part of a theorem: the status has no field for it.
* C78: Trusted about Go: an iteration over a map meets every key that was there from its beginning and some of the later ones, and a write during it either goes unnoticed or ends the process. Success is shared too, but the job only writes behind the length the copy has.
* C79: A clone is the calls' reads of all score segments (CRead) and then the sequential model of cloneElements on what was read; the number of segments cannot change meanwhile (C50_exclusive). Errors of the store are in C61 and C65 to C70.
* C80: A call on a list object is one step, which C50 justifies for calls that take the locks of the list; a clone is a query (C79) and a create without replace. A call that fails is taken to change nothing here; what it can leave is in C61 and C65 to C70.
* C81: The elements are one number. The mutex grants whatever is compatible with who has it; its fairness is left out. A replacement that fails changes nothing here; what it leaves in a cached slice is in C70. Panics come from the store, the decoder, or makeslice with a stored N that is negative.
* C82: A call works on its segments in one step. A read-write mutex lets no reader in once a writer has announced itself; that readers which already wait go before the next writer is left out, so it is not said which of those that wait comes first.
* C83: Over the histories of C25 to C28 (calls one at a time, no writes that fail), whose model of the written and deleted keys is Model/Storage.v; the two refutations use Model/Fails.v and a prefix of the writes. Keys are those of one set; the list of lists itself (C32) is not a list's key.
* C84: The msgp.Writer (not in /repo) is any writer that holds bytes back and hands them on in order; compression of the list file and its first byte, which does not go through the encoder, are left out; the pool of decoders (msgppool.go:82-135) is not modelled. That no store here keeps the slice: memstore.go:73-74 and badger.go:111-112 copy it, the delayed-write store copies it (C76), Bolt's transaction is over when Set returns.
* C85: Uses Model/Lists.v. What sync.Map.Range gives while the map changes: a list that is there all the time, and none twice. Backward paging is not exact even without changes (C30).
* C86: On top of the job of C60. The compressor is a parameter (only adds to its output, the decompressor gives back what was compressed; for the last refutation also: what begins with a zero byte is not a compressed stream, as with zstd). Two paths are two files; nothing else writes to them.
* C87: ReleaseSegments (Model/Release.v) is one step that succeeds or gives up; sync.Map.Range and time.Ticker as documented; the context of the pruner is not cancelled, as in api/rankdb.go.
* C88: msgp.Reader is modelled by what it holds and what is left of its source; sync.Pool may give any decoder it has, or a new one. What the bytes mean is C23 and C46.

## Findings

Places where code and documentation (or plausible expectation) disagree; each is a `_refuted`
theorem or an exact description in a positive theorem.

* C02: `C02_highest_score_refuted`
* C03: `C03_sort_termination_refuted`
* C07: `C07_sorted_by_rank_refuted`
* C08: `C08_above_order_refuted`
* C12: `C12_one_refuted`
* C15: `C15_two_groups_refuted`
* C17: `C17_bounds_refuted`, `C17_zero_refuted`, `C17_filed_refuted`
* C23: `C23_nil_map_refuted`
* C24: `C24_any_name_refuted`
* C25: `C25_moved_refuted`
* C26: `C26_split_refuted`, `C26_short_refuted`
* C27: `C27_descriptor_refuted`
* C30: `C30_preceding_refuted`
* C31: `C31_missing_refuted`
* C32: `C32_error_keeps_lists_refuted`
* C33: `C33_start_refuted`, `C33_two_crashes_refuted`
* C34: `C34_leak_refuted`
* C35: `C35_overwrite_refuted`, `C35_clash_refuted`, `C35_delete_refuted`
* C37: `C37_two_savers_refuted`, `C37_failed_save_refuted`, `C37_joined_names_refuted`
* C38: `C38_get_order_refuted`, `C38_permanent_refuted`
* C40: `C40_exact_refuted`
* C42: `C42_radius_refuted`, `C42_score_refuted`, `C42_stats_refuted`
* C43: `C43_before_rank_refuted`
* C44: `C44_above_refuted`
* C46: `C46_failed_refuted`
* C47: `C47_unique_refuted`
* C50: `C50_window_refuted`
* C52: `C52_manage_refuted`
* C53: `C53_nil_refuted`
* C54: `C54_no_crash_refuted`
* C55: `C55_put_sets_refuted`, `C55_reindex_sets_refuted`
* C57: `C57_null_refuted`
* C56: `C56_cancel_refuted`
* C58: `C58_lost_refuted`, `C58_hangs_refuted`
* C59: `C59_too_big_refuted`, `C59_close_refuted`, `C59_flush_refuted`, `C59_delete_refuted`, `C59_failed_delete_refuted`, `C59_names_refuted`
* C60: `C60_silent_refuted`, `C60_cancelled_refuted`, `C60_shutdown_refuted`
* C61: `C61_update_refuted`, `C61_delete_refuted`, `C61_split_refuted`, `C61_repair_refuted`
* C62: `C62_created_refuted`, `C62_repaired_refuted`, `C62_repairing_refuted`, `C62_deleted_refuted`, `C62_reindexed_refuted`
* C63: `C63_deleted_refuted`, `C63_once_refuted`, `C63_full_refuted`
* C64: `C64_limit_refuted`, `C64_late_refuted`, `C64_timeout_refuted`
* C65: `C65_silent_refuted`
* C66: `C66_skipped_refuted`, `C66_twice_refuted`, `C66_error_refuted`
* C67: `C67_lost_refuted`, `C67_unfound_refuted`
* C68: `C68_unfound_refuted`
* C69: `C69_populate_refuted`, `C69_split_refuted`, `C69_backup_refuted`, `C69_dies_refuted`, `C69_repair_refuted`
* C70: `C70_twice_refuted`, `C70_lost_refuted`
* C71: `C71_merge_refuted`, `C71_split_refuted`, `C71_index_refuted`
* C72: `C72_clash_refuted`, `C72_usage_refuted`, `C72_dir_refuted`, `C72_after_refuted`
* C73: `C73_restrictions_refuted`, `C73_expiry_refuted`
* C74: `C74_blank_refuted`, `C74_empty_refuted`, `C74_range_refuted`, `C74_ipv6_refuted`
* C75: `C75_sync_refuted`, `C75_accepted_refuted`, `C75_block_refuted`, `C75_lazy_default_refuted`
* C76: `C76_hold_refuted`, `C76_large_refuted`
* C77: `C77_server_refuted`, `C77_download_refuted`, `C77_url_refuted`
* C78: `C78_dies_refuted`
* C79: `C79_twice_refuted`, `C79_lost_refuted`
* C80: `C80_both_refuted`, `C80_delete_refuted`, `C80_gap_refuted`
* C81: `C81_own_refuted`, `C81_panic_refuted`, `C81_ends_refuted`
* C82: `C82_timeout_refuted`, `C82_current_refuted`
* C83: `C83_delete_refuted`, `C83_stop_refuted`
* C84: `C84_late_refuted`, `C84_again_refuted`
* C85: `C85_bounded_refuted`, `C85_empty_refuted`
* C86: `C86_lost_refuted`, `C86_done_refuted`
* C87: `C87_prompt_refuted`
* C88: `C88_again_refuted`

## Mutation tests

`seeded/LOG.jsonl` has one line per wrong program: definition, edit, the claim it breaks, the
theorems that no longer build and the first proof that fails, and the theorems added or
strengthened because the edit was not caught at first.  Edits that change nothing observable
are recorded as such.
