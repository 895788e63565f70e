{
 "claims": [
  {
   "property": "C01",
   "status": "proved",
   "theorems": [
    "C01_order_strict_total",
    "C01_ranking_unique"
   ],
   "note": ""
  },
  {
   "property": "C02",
   "status": "proved",
   "theorems": [
    "C02_dedup_keeps_latest",
    "C02_has_duplicates",
    "C02_highest_score_refuted"
   ],
   "note": "C02_highest_score_refuted shows the documented tie rule is false; the true rule (lowest score) is proved."
  },
  {
   "property": "C03",
   "status": "proved",
   "theorems": [
    "C03_sort_correct",
    "C03_sort_terminates",
    "C03_sort_diverges",
    "C03_sort_termination_refuted"
   ],
   "note": "Termination is proved up to tied runs of 22500; non-termination for one large unsorted tied group."
  },
  {
   "property": "C04",
   "status": "proved",
   "theorems": [
    "C04_merge",
    "C04_insert",
    "C04_delete",
    "C04_update",
    "C04_add",
    "C04_merge_dedup"
   ],
   "note": ""
  },
  {
   "property": "C05",
   "status": "proved",
   "theorems": [
    "C05_split_size",
    "C05_halves",
    "C05_part_sizes",
    "C05_zero_panics"
   ],
   "note": ""
  },
  {
   "property": "C06",
   "status": "proved",
   "theorems": [
    "C06_step",
    "C06_history",
    "C06_contents"
   ],
   "note": "For calls within op_ok (distinct IDs per batch, update times below 2^32-1, insert of new IDs only)."
  },
  {
   "property": "C07",
   "status": "proved",
   "theorems": [
    "C07_lookup",
    "C07_sorted_by_rank_refuted"
   ],
   "note": "Documented result order refuted by C07_sorted_by_rank_refuted."
  },
  {
   "property": "C08",
   "status": "proved",
   "theorems": [
    "C08_neighbours",
    "C08_above_order_refuted"
   ],
   "note": "Documented order of Above refuted."
  },
  {
   "property": "C09",
   "status": "proved",
   "theorems": [
    "C09_rank_top"
   ],
   "note": ""
  },
  {
   "property": "C10",
   "status": "proved",
   "theorems": [
    "C10_rank_bottom"
   ],
   "note": ""
  },
  {
   "property": "C11",
   "status": "proved",
   "theorems": [
    "C11_rank_score"
   ],
   "note": ""
  },
  {
   "property": "C12",
   "status": "proved",
   "theorems": [
    "C12_percentile",
    "C12_percentile_one",
    "C12_empty_panics",
    "C12_one_refuted"
   ],
   "note": "Panic cases proved as such; C12_one_refuted is the non-empty list with an empty last segment."
  },
  {
   "property": "C13",
   "status": "proved",
   "theorems": [
    "C13_len"
   ],
   "note": ""
  },
  {
   "property": "C14",
   "status": "proved",
   "theorems": [
    "C14_split_invisible"
   ],
   "note": ""
  },
  {
   "property": "C15",
   "status": "proved",
   "theorems": [
    "C15_pass",
    "C15_converges",
    "C15_two_groups_refuted",
    "C15_rests"
   ],
   "note": "Exact behaviour of a pass without merging, convergence of such passes and of the passes of the splitter, which merge, and a refutation of the stronger claim."
  },
  {
   "property": "C16",
   "status": "proved",
   "theorems": [
    "C16_verify"
   ],
   "note": ""
  },
  {
   "property": "C17",
   "status": "proved",
   "theorems": [
    "C17_sound",
    "C17_bounds_refuted",
    "C17_zero_refuted",
    "C17_filed_refuted"
   ],
   "note": "Soundness with the conditions Verify does not check, and one refutation for each omitted condition."
  },
  {
   "property": "C18",
   "status": "proved",
   "theorems": [
    "C18_reindex"
   ],
   "note": ""
  },
  {
   "property": "C19",
   "status": "proved",
   "theorems": [
    "C19_repair",
    "C19_healthy",
    "C19_verify_request",
    "C19_multi_verify"
   ],
   "note": ""
  },
  {
   "property": "C20",
   "status": "proved",
   "theorems": [
    "C20_delete"
   ],
   "note": ""
  },
  {
   "property": "C21",
   "status": "proved",
   "theorems": [
    "C21_insert",
    "C21_small_split_diverges"
   ],
   "note": ""
  },
  {
   "property": "C22",
   "status": "proved",
   "theorems": [
    "C22_new",
    "C22_populate",
    "C22_clone",
    "C22_sizes_0_1_panic"
   ],
   "note": ""
  },
  {
   "property": "C23",
   "status": "proved",
   "theorems": [
    "C23_element",
    "C23_elements",
    "C23_segment",
    "C23_segments",
    "C23_list",
    "C23_list_any",
    "C23_version",
    "C23_in_range",
    "C23_repeated_key",
    "C23_fields",
    "C23_any_fields",
    "C23_nil_map_refuted"
   ],
   "note": "Lengths below 2^32, map keys distinct; unknown fields of Segments are not skipped in the model. The msgp library itself is modelled from its format."
  },
  {
   "property": "C24",
   "status": "proved",
   "theorems": [
    "C24_storage",
    "C24_segments",
    "C24_cache",
    "C24_any_name_refuted"
   ],
   "note": "Names are taken as generated by RandString(8); collisions of two generated names are characterised by C47_same."
  },
  {
   "property": "C25",
   "status": "proved",
   "theorems": [
    "C25_update",
    "C25_insert",
    "C25_delete",
    "C25_others",
    "C25_moved_refuted"
   ],
   "note": "Key writes are atomic (bstore contract); the writes of a call that reached the store are an arbitrary list drawn from the call's writes, which covers every prefix of every order. Recovery is load + Repair from the store only."
  },
  {
   "property": "C26",
   "status": "proved",
   "theorems": [
    "C26_stop",
    "C26_merge",
    "C26_split_refuted",
    "C26_short_refuted"
   ],
   "note": "The three boundary cases are settled: merge-only (C26_merge) and split-only (C26_stop) passes for every crash point, and two witnesses of loss (C26_split_refuted, C26_short_refuted). Writes are atomic per blob and reach the store in program order."
  },
  {
   "property": "C27",
   "status": "proved",
   "theorems": [
    "C27_current",
    "C27_restart",
    "C27_progress",
    "C27_descriptor",
    "C27_descriptor_refuted"
   ],
   "note": "Whole calls on loaded lists over one set of one store; store operations succeed (failures: C25, C26, C35). Segment locks and concurrent calls are in C42, C50."
  },
  {
   "property": "C28",
   "status": "proved",
   "theorems": [
    "C28_others",
    "C28_keys",
    "C28_names"
   ],
   "note": "New collection names are fresh letters and digits, as C47 gives them; see Spec/StorageSpec.v fresh."
  },
  {
   "property": "C29",
   "status": "proved",
   "theorems": [
    "C29_exact",
    "C29_changing",
    "C29_none",
    "C29_walk",
    "C29_walk_ends"
   ],
   "note": "One call sees a snapshot of the keys; deletions before the lists are fetched are covered by C29_changing."
  },
  {
   "property": "C30",
   "status": "proved",
   "theorems": [
    "C30_page",
    "C30_one",
    "C30_none",
    "C30_preceding_refuted"
   ],
   "note": "Exact description of what is returned; the documented behaviour is refuted."
  },
  {
   "property": "C31",
   "status": "proved",
   "theorems": [
    "C31_exact",
    "C31_nothing",
    "C31_missing_refuted"
   ],
   "note": "C31_missing_refuted: a missing field counts as the empty string."
  },
  {
   "property": "C32",
   "status": "proved",
   "theorems": [
    "C32_round_trip",
    "C32_old_file",
    "C32_each_once",
    "C32_cut_short",
    "C32_cut_short_plain",
    "C32_error_keeps_lists_refuted"
   ],
   "note": "zstd is any compressor with the two properties in Spec/ManagerSpec.v."
  },
  {
   "property": "C33",
   "status": "proved",
   "theorems": [
    "C33_load",
    "C33_start",
    "C33_intact",
    "C33_crash",
    "C33_atomic",
    "C33_interval",
    "C33_start_refuted",
    "C33_two_crashes_refuted"
   ],
   "note": "Store faults are represented by four outcomes of a Set and three of a Get."
  },
  {
   "property": "C34",
   "status": "proved",
   "theorems": [
    "C34_refines_map",
    "C34_plain_map",
    "C34_too_big",
    "C34_no_leak",
    "C34_only_parts",
    "C34_leak_refuted"
   ],
   "note": "Base-store operations are atomic; the mutex table of runningOp is modelled as one lock per key name; logging omitted."
  },
  {
   "property": "C35",
   "status": "proved",
   "theorems": [
    "C35_first_write_crash",
    "C35_first_write_failed",
    "C35_overwrite_refuted",
    "C35_clash_refuted",
    "C35_delete_refuted"
   ],
   "note": "Atomicity of overwrite, independence of k and k+0, and Delete's success report are refuted by witnesses."
  },
  {
   "property": "C36",
   "status": "proved",
   "theorems": [
    "C36_pending_read",
    "C36_store_read",
    "C36_drained"
   ],
   "note": "Timer, flush limit, tokens and Shutdown are over-approximated or not modelled; store calls are atomic."
  },
  {
   "property": "C37",
   "status": "proved",
   "theorems": [
    "C37_pending_read",
    "C37_store_values",
    "C37_store_read",
    "C37_two_savers_refuted",
    "C37_failed_save_refuted",
    "C37_joined_names_refuted",
    "C37_any_keys_hit",
    "C37_any_keys_store"
   ],
   "note": "Loss and reordering with several savers or failures, and key ambiguity, proved as witnesses."
  },
  {
   "property": "C38",
   "status": "proved",
   "theorems": [
    "C38_result",
    "C38_get",
    "C38_get_order_refuted",
    "C38_permanent_own",
    "C38_permanent_shared",
    "C38_permanent_refuted"
   ],
   "note": "backoff.Retry is outside /repo and modelled from its documentation. C38_get needs the result variable to be read after the call, which Go leaves open (C38_get_order_refuted). PermanentErr registering with the wrong map is C38_permanent_own/shared/refuted."
  },
  {
   "property": "C39",
   "status": "proved",
   "theorems": [
    "C39_bound",
    "C39_get",
    "C39_release"
   ],
   "note": "Each Token is released at most once (a copied Token could be released twice)."
  },
  {
   "property": "C40",
   "status": "proved",
   "theorems": [
    "C40_order",
    "C40_value",
    "C40_nan",
    "C40_back",
    "C40_back_zero",
    "C40_back_nan",
    "C40_exact_refuted"
   ],
   "note": "Floats are the standard library's SpecFloat, decoded from the 64 bits; -0 is the one value not converted back exactly (C40_exact_refuted)."
  },
  {
   "property": "C41",
   "status": "proved",
   "theorems": [
    "C41_result",
    "C41_progress",
    "C41_terminates"
   ],
   "note": "Workers send some errors and then call Done, as at every call site."
  },
  {
   "property": "C42",
   "status": "proved",
   "theorems": [
    "C42_progress",
    "C42_completes",
    "C42_readers",
    "C42_radius_refuted",
    "C42_score_refuted",
    "C42_stats_refuted"
   ],
   "note": "Transition system of the locks of one list; invariants over all schedules; three deadlocks by witness. Errors, cancellation and the release timeout are not modelled."
  },
  {
   "property": "C43",
   "status": "proved",
   "theorems": [
    "C43_results",
    "C43_before_rank_refuted"
   ],
   "note": "New ranks exact; reported previous rank refuted."
  },
  {
   "property": "C44",
   "status": "proved",
   "theorems": [
    "C44_range_top",
    "C44_range_bottom",
    "C44_range_not_found",
    "C44_neighbours",
    "C44_above_refuted"
   ],
   "note": "Ranks above an element shown in reverse: C44_above_refuted, exact condition in C44_neighbours."
  },
  {
   "property": "C45",
   "status": "proved",
   "theorems": [
    "C45_lists",
    "C45_elements",
    "C45_other"
   ],
   "note": "Token signature checking (goa middleware) is not modelled."
  },
  {
   "property": "C46",
   "status": "proved",
   "theorems": [
    "C46_restore",
    "C46_truncated",
    "C46_job",
    "C46_cut",
    "C46_failed_refuted"
   ],
   "note": "Stated over the bytes given to the compressor; zstd, the S3/file/server providers and the store writes of a restore are not modelled. A list whose backup is 4 GiB or more does not fit its record (hypothesis short (backup d l))."
  },
  {
   "property": "C47",
   "status": "proved",
   "theorems": [
    "C47_shape",
    "C47_same",
    "C47_unique_refuted"
   ],
   "note": "C47_same is for clocks after 1970."
  },
  {
   "property": "C48",
   "status": "proved",
   "theorems": [
    "C48_tile"
   ],
   "note": ""
  },
  {
   "property": "C49",
   "status": "proved",
   "theorems": [
    "C49_dropped",
    "C49_others_stored"
   ],
   "note": ""
  },
  {
   "property": "C50",
   "status": "proved",
   "theorems": [
    "C50_serial",
    "C50_unused",
    "C50_order",
    "C50_history",
    "C50_reads",
    "C50_exclusive",
    "C50_get",
    "C50_window_refuted"
   ],
   "note": "Transition system with in-place changes visible in memory (Dirty) until they are finished (Put); linearisation invariant. Goroutines inside one call run in sequence in any order."
  },
  {
   "property": "C51",
   "status": "proved",
   "theorems": [
    "C51_multi",
    "C51_around"
   ],
   "note": "Request parsing and HTTP are not modelled."
  },
  {
   "property": "C52",
   "status": "proved",
   "theorems": [
    "C52_checked",
    "C52_allowed",
    "C52_manage_refuted"
   ],
   "note": "Handlers reduced to their access checks and the IDs they pass on; scopes (checked by middleware) not modelled. C52_manage_refuted is the uncovered part."
  },
  {
   "property": "C53",
   "status": "proved",
   "theorems": [
    "C53_latest",
    "C53_distinct",
    "C53_many",
    "C53_nil_refuted"
   ],
   "note": ""
  },
  {
   "property": "C54",
   "status": "proved",
   "theorems": [
    "C54_refines",
    "C54_read_back",
    "C54_no_crash_refuted"
   ],
   "note": "Refinement of Model/Server.v (handlers on top of the list model) to Spec/ServerSpec.v. One request at a time; overlapping calls are C50, the goroutines of one request C56."
  },
  {
   "property": "C55",
   "status": "proved",
   "theorems": [
    "C55_selection",
    "C55_put_sets_refuted",
    "C55_reindex_sets_refuted"
   ],
   "note": "Truth boundary: positive theorem plus two refutations of the documented set selection."
  },
  {
   "property": "C57",
   "status": "proved",
   "theorems": [
    "C57_payload",
    "C57_null_refuted"
   ],
   "note": "The documented null rule is false; proved what holds instead."
  },
  {
   "property": "C56",
   "status": "proved",
   "theorems": [
    "C56_result",
    "C56_limit",
    "C56_progress",
    "C56_ends",
    "C56_nil",
    "C56_sequential",
    "C56_cancel_refuted"
   ],
   "note": "The goroutines are a transition system (one step per channel operation, lock region or list operation; cancellation at any time); invariant over all reachable states, bounded measure for termination. C56_sequential links it to the handlers of C54. C56_cancel_refuted: what a cancelled request leaves behind."
  },
  {
   "property": "C58",
   "status": "proved",
   "theorems": [
    "C58_ends",
    "C58_moves",
    "C58_nothing_left",
    "C58_stored",
    "C58_still",
    "C58_not_stuck",
    "C58_backlog",
    "C58_late",
    "C58_lost_refuted",
    "C58_hangs_refuted"
   ],
   "note": "Model/LazyStop.v adds the calls, handler, savers, Shutdown and their channels to Model/Lazy.v; every run projects to a run of Model/Lazy.v, so C36/C37 apply. Termination by a decreasing measure, deadlock freedom from a token-counting invariant."
  },
  {
   "property": "C59",
   "status": "proved",
   "theorems": [
    "C59_queued",
    "C59_database",
    "C59_alone",
    "C59_map",
    "C59_no_errors",
    "C59_crash",
    "C59_nothing_invented",
    "C59_not_missing",
    "C59_too_big_refuted",
    "C59_close_refuted",
    "C59_flush_refuted",
    "C59_delete_refuted",
    "C59_failed_delete_refuted",
    "C59_names_refuted"
   ],
   "note": "Model/Badger.v; flush is one step of Set or Close (the mutex is held), a crash may come within it"
  },
  {
   "property": "C60",
   "status": "proved",
   "theorems": [
    "C60_stream",
    "C60_restore",
    "C60_complete",
    "C60_status",
    "C60_grows",
    "C60_moves",
    "C60_ends",
    "C60_cancel",
    "C60_silent_refuted",
    "C60_cancelled_refuted",
    "C60_shutdown_refuted"
   ],
   "note": "Bytes are those before compression: zstd is taken to hand on what it is given, in order, and to write nothing after an error. zstd.NewWriter's error, sizes and times are left out. opened: Errors has no key \"saver\". C60_silent_refuted, C60_cancelled_refuted and C60_shutdown_refuted are the witnesses of the negative part."
  },
  {
   "property": "C61",
   "status": "proved",
   "theorems": [
    "C61_done",
    "C61_recovers",
    "C61_deleted",
    "C61_split",
    "C61_reindex",
    "C61_others",
    "C61_clean",
    "C61_unsure",
    "C61_update_refuted",
    "C61_delete_refuted",
    "C61_split_refuted",
    "C61_repair_refuted"
   ],
   "note": "Reads succeed and contexts are not cancelled; the list in memory after a failed call is described for Reindex only. sure: Insert, Split, Reindex, Repair, Populate. C61_update_refuted, C61_delete_refuted, C61_split_refuted and C61_repair_refuted are the witnesses of the negative part."
  },
  {
   "property": "C62",
   "status": "proved",
   "theorems": [
    "C62_current",
    "C62_read",
    "C62_gone",
    "C62_restart",
    "C62_unknown",
    "C62_save",
    "C62_orderly",
    "C62_created_refuted",
    "C62_repaired_refuted",
    "C62_repairing_refuted",
    "C62_deleted_refuted",
    "C62_reindexed_refuted"
   ],
   "note": "The file is the descriptors that the last finished save encoded: its bytes, backup and start-up errors are C32 and C33. Calls are whole and succeed; the saver visits lists between calls and in the middle of those that leave a list without names (Repair, Populate, DeleteAll). New names and IDs are ones not in use. The C62_*_refuted theorems are the witnesses of the negative part."
  },
  {
   "property": "C63",
   "status": "proved",
   "theorems": [
    "C63_contents",
    "C63_asked",
    "C63_needed",
    "C63_bound",
    "C63_served",
    "C63_goes_on",
    "C63_alive",
    "C63_falls",
    "C63_settles",
    "C63_deleted_refuted",
    "C63_once_refuted",
    "C63_full_refuted"
   ],
   "note": "A call, a pass and a deletion are one step each, as they hold the update lock (C50). Calls that reach a list object after it was deleted panic and are recovered in the request: not modelled. Storage does not fail. A list object replaced by another under the same ID without being deleted is not modelled. The C63_*_refuted theorems are the witnesses of the negative part."
  },
  {
   "property": "C64",
   "status": "proved",
   "theorems": [
    "C64_limit",
    "C64_refused",
    "C64_truth",
    "C64_owned",
    "C64_quiet",
    "C64_kept",
    "C64_drains",
    "C64_limit_refuted",
    "C64_late_refuted",
    "C64_timeout_refuted"
   ],
   "note": "shutdown2 is an outside library that is not in the source tree; what its documentation says of Lock and of the order of the stages is taken as given. A task (the work on one list) takes effect in one step or fails; goroutines per request (C56) and interval saves (C33, C62) are left out. The C64_*_refuted theorems are the witnesses of the negative part."
  },
  {
   "property": "C65",
   "status": "proved",
   "theorems": [
    "C65_right",
    "C65_when",
    "C65_complete",
    "C65_silent_refuted"
   ],
   "note": "C65_silent_refuted: a lookup returns too few neighbours without an error."
  },
  {
   "property": "C66",
   "status": "proved",
   "theorems": [
    "C66_update",
    "C66_exact",
    "C66_results",
    "C66_skipped_refuted",
    "C66_twice_refuted",
    "C66_error_refuted"
   ],
   "note": "C66_skipped_refuted, C66_twice_refuted and C66_error_refuted are witnesses of the unreported failures. Writes succeed here (see C35, C51)."
  },
  {
   "property": "C67",
   "status": "proved",
   "theorems": [
    "C67_delete",
    "C67_deletes",
    "C67_insert",
    "C67_heals_delete",
    "C67_heals_insert",
    "C67_lost_refuted",
    "C67_unfound_refuted"
   ],
   "note": "C67_lost_refuted and C67_unfound_refuted are witnesses of the two late effects. Writes succeed here (see C35, C51)."
  },
  {
   "property": "C68",
   "status": "proved",
   "theorems": [
    "C68_split",
    "C68_upkeep",
    "C68_unfound_refuted"
   ],
   "note": "C68_unfound_refuted is the witness of the lost entries. Writes succeed here; a restart before the next save is a crash in the middle of the pass (C26)."
  },
  {
   "property": "C69",
   "status": "proved",
   "theorems": [
    "C69_leaves",
    "C69_calls",
    "C69_shut",
    "C69_open",
    "C69_populate_refuted",
    "C69_split_refuted",
    "C69_backup_refuted",
    "C69_dies_refuted",
    "C69_repair_refuted"
   ],
   "note": "One call at a time (C42, C60 for concurrent calls). The _refuted theorems are the witnesses of the five exceptions and of the calls that hang afterwards."
  },
  {
   "property": "C70",
   "status": "proved",
   "theorems": [
    "C70_update",
    "C70_delete",
    "C70_insert",
    "C70_clean",
    "C70_written",
    "C70_shown",
    "C70_reported",
    "C70_twice_refuted",
    "C70_lost_refuted"
   ],
   "note": "Reads succeed; one call at a time. Split passes and Reindex work on copies and are not part of this property."
  },
  {
   "property": "C71",
   "status": "proved",
   "theorems": [
    "C71_pass",
    "C71_nothing_new",
    "C71_gone",
    "C71_merge_refuted",
    "C71_split_refuted",
    "C71_index_refuted"
   ],
   "note": "Reads succeed; one call at a time; a failing delete of a merged segment is only logged by the code and has no effect here. Which segments stay locked is C69."
  },
  {
   "property": "C72",
   "status": "proved",
   "theorems": [
    "C72_memory",
    "C72_joined",
    "C72_clash",
    "C72_server",
    "C72_dir",
    "C72_stuck",
    "C72_bolt",
    "C72_checks",
    "C72_after",
    "C72_pct",
    "C72_clash_refuted",
    "C72_usage_refuted",
    "C72_dir_refuted",
    "C72_after_refuted"
   ],
   "note": "Which sets, keys and values the Bolt library itself refuses is a parameter of the model. Calls are atomic (mutex, transactions). The slice that Get of the memory store returns is the stored one, not a copy; callers that write to it are not modelled."
  },
  {
   "property": "C73",
   "status": "proved",
   "theorems": [
    "C73_calls",
    "C73_closed",
    "C73_never",
    "C73_start",
    "C73_open",
    "C73_manage",
    "C73_expiry",
    "C73_dead",
    "C73_params",
    "C73_lists",
    "C73_unnamed",
    "C73_restrictions_refuted",
    "C73_expiry_refuted"
   ],
   "note": "That goa checks signature, expiry and scopes is assumed (what a scopes string grants is a parameter of the model); only the tokens that a client was given are sent by it, i.e. signatures are not forged. Which calls a handler makes is written down from the handlers; the access checks inside are C45."
  },
  {
   "property": "C74",
   "status": "proved",
   "theorems": [
    "C74_hosts",
    "C74_count",
    "C74_never_none",
    "C74_port",
    "C74_blank_refuted",
    "C74_empty_refuted",
    "C74_range_refuted",
    "C74_ipv6_refuted"
   ],
   "note": "int is taken to have 64 bits. The Aerospike client itself is not modelled."
  },
  {
   "property": "C75",
   "status": "proved",
   "theorems": [
    "C75_starts",
    "C75_stores",
    "C75_layers",
    "C75_close",
    "C75_twice",
    "C75_aerospike",
    "C75_memory",
    "C75_file",
    "C75_lazy",
    "C75_badger_sync",
    "C75_sync_refuted",
    "C75_accepted_refuted",
    "C75_block_refuted",
    "C75_lazy_default_refuted"
   ],
   "note": "What Bolt and Badger take is a parameter (Badger's own queue is the subject of C59 and left out here); no write fails. That an open file cannot be opened again is a hypothesis (`exclusive`) where it is used. The stages of a shutdown are C64, loading the lists C33 and C62."
  },
  {
   "property": "C76",
   "status": "proved",
   "theorems": [
    "C76_values",
    "C76_read",
    "C76_drained",
    "C76_owners",
    "C76_out",
    "C76_capacity",
    "C76_hold_refuted",
    "C76_large_refuted"
   ],
   "note": "The store below is assumed not to keep the slice of a Set after it has returned (memstore and badgerstore copy, Bolt's transaction is over); the slice that it returns from Get is its own affair. A store call reads the buffer in one step: C76_owners shows that nobody else has the buffer meanwhile."
  },
  {
   "property": "C77",
   "status": "proved",
   "theorems": [
    "C77_far",
    "C77_restore",
    "C77_end",
    "C77_s3",
    "C77_ends",
    "C77_server_refuted",
    "C77_download_refuted",
    "C77_back",
    "C77_src",
    "C77_url_refuted"
   ],
   "note": "io.Pipe, net/http and the S3 uploader are outside libraries: bytes arrive in order, the far end is told that it has all only if it has and the pipe was closed, and a transfer whose context is cancelled may be given up until it has ended. That the answer of the other server to a complete body is only logged (server/rankdb.go:78-90) is not part of a theorem: the status has no field for it."
  },
  {
   "property": "C78",
   "status": "proved",
   "theorems": [
    "C78_answer",
    "C78_final",
    "C78_dies",
    "C78_writes",
    "C78_quiet",
    "C78_dies_refuted"
   ],
   "note": "Trusted about Go: an iteration over a map meets every key that was there from its beginning and some of the later ones, and a write during it either goes unnoticed or ends the process. Success is shared too, but the job only writes behind the length the copy has."
  },
  {
   "property": "C79",
   "status": "proved",
   "theorems": [
    "C79_backup",
    "C79_all",
    "C79_clone",
    "C79_twice_refuted",
    "C79_lost_refuted"
   ],
   "note": "A clone is the calls' reads of all score segments (CRead) and then the sequential model of cloneElements on what was read; the number of segments cannot change meanwhile (C50_exclusive). Errors of the store are in C61 and C65 to C70."
  },
  {
   "property": "C80",
   "status": "proved",
   "theorems": [
    "C80_order",
    "C80_whole",
    "C80_rest",
    "C80_no_waste",
    "C80_no_clobber",
    "C80_both_refuted",
    "C80_delete_refuted",
    "C80_gap_refuted"
   ],
   "note": "A call on a list object is one step, which C50 justifies for calls that take the locks of the list; a clone is a query (C79) and a create without replace. A call that fails is taken to change nothing here; what it can leave is in C61 and C65 to C70."
  },
  {
   "property": "C81",
   "status": "proved",
   "theorems": [
    "C81_value",
    "C81_answer",
    "C81_cache",
    "C81_once",
    "C81_shared",
    "C81_ends",
    "C81_nearer",
    "C81_no_error",
    "C81_blocked",
    "C81_own_refuted",
    "C81_panic_refuted",
    "C81_ends_refuted"
   ],
   "note": "The elements are one number. The mutex grants whatever is compatible with who has it; its fairness is left out. A replacement that fails changes nothing here; what it leaves in a cached slice is in C70. Panics come from the store, the decoder, or makeslice with a stored N that is negative."
  },
  {
   "property": "C82",
   "status": "proved",
   "theorems": [
    "C82_no_fault",
    "C82_current",
    "C82_current_upd",
    "C82_emptied",
    "C82_late",
    "C82_returns",
    "C82_bounded",
    "C82_ends",
    "C82_waits",
    "C82_piles",
    "C82_timeout_refuted",
    "C82_current_refuted"
   ],
   "note": "A call works on its segments in one step. A read-write mutex lets no reader in once a writer has announced itself; that readers which already wait go before the next writer is left out, so it is not said which of those that wait comes first."
  },
  {
   "property": "C83",
   "status": "proved",
   "theorems": [
    "C83_tidy",
    "C83_exact",
    "C83_one",
    "C83_empty",
    "C83_delete_refuted",
    "C83_stop_refuted"
   ],
   "note": "Over the histories of C25 to C28 (calls one at a time, no writes that fail), whose model of the written and deleted keys is Model/Storage.v; the two refutations use Model/Fails.v and a prefix of the writes. Keys are those of one set; the list of lists itself (C32) is not a list's key."
  },
  {
   "property": "C84",
   "status": "proved",
   "theorems": [
    "C84_blob",
    "C84_file",
    "C84_one",
    "C84_no_panic",
    "C84_ends",
    "C84_late_refuted",
    "C84_again_refuted"
   ],
   "note": "The msgp.Writer (not in /repo) is any writer that holds bytes back and hands them on in order; compression of the list file and its first byte, which does not go through the encoder, are left out; the pool of decoders (msgppool.go:82-135) is not modelled. That no store here keeps the slice: memstore.go:73-74 and badger.go:111-112 copy it, the delayed-write store copies it (C76), Bolt's transaction is over when Set returns."
  },
  {
   "property": "C85",
   "status": "proved",
   "theorems": [
    "C85_once",
    "C85_kept",
    "C85_real",
    "C85_bounded_refuted",
    "C85_empty_refuted"
   ],
   "note": "Uses Model/Lists.v. What sync.Map.Range gives while the map changes: a list that is there all the time, and none twice. Backward paging is not exact even without changes (C30)."
  },
  {
   "property": "C86",
   "status": "proved",
   "theorems": [
    "C86_kept",
    "C86_alone",
    "C86_restore",
    "C86_bytes",
    "C86_same",
    "C86_lost_refuted",
    "C86_done_refuted"
   ],
   "note": "On top of the job of C60. The compressor is a parameter (only adds to its output, the decompressor gives back what was compressed; for the last refutation also: what begins with a zero byte is not a compressed stream, as with zstd). Two paths are two files; nothing else writes to them."
  },
  {
   "property": "C87",
   "status": "proved",
   "theorems": [
    "C87_spares",
    "C87_off",
    "C87_round",
    "C87_frees",
    "C87_stop",
    "C87_stops",
    "C87_rounds",
    "C87_prompt_refuted"
   ],
   "note": "ReleaseSegments (Model/Release.v) is one step that succeeds or gives up; sync.Map.Range and time.Ticker as documented; the context of the pruner is not cancelled, as in api/rankdb.go."
  },
  {
   "property": "C88",
   "status": "proved",
   "theorems": [
    "C88_bytes",
    "C88_all",
    "C88_one",
    "C88_no_panic",
    "C88_again_refuted"
   ],
   "note": "msgp.Reader is modelled by what it holds and what is left of its source; sync.Pool may give any decoder it has, or a new one. What the bytes mean is C23 and C46."
  }
 ]
}