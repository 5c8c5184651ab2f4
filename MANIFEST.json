{
 "claims": [
  {
   "property": "C01",
   "status": "proved",
   "theorems": [
    "C01_reads_latest_write",
    "C01_operations_complete"
   ],
   "note": "Sequential histories of reads/writes (all modes, normal and fast submit path), discards, cleaning, eviction, metadata flush, clean restart; every order inside parallel I/O groups; any line size and line count. Concurrent requests are the subject of C52."
  },
  {
   "property": "C02",
   "status": "proved",
   "theorems": [
    "C02_non_lazy_modes_update_core"
   ],
   "note": "Normal submit path, every reachable prior state. The fast submit path (use_submit_io_fast) violates it: see C53."
  },
  {
   "property": "C03",
   "status": "proved",
   "theorems": [
    "C03_dirty_data_never_dropped",
    "C03_dirty_lines_not_reused"
   ],
   "note": "Every operation of the data path, victims chosen arbitrarily by the environment."
  },
  {
   "property": "C04",
   "status": "partial",
   "theorems": [
    "C04_failed_writes_partial",
    "C04_old_or_new_partial",
    "C04_faultfree_runs_included",
    "C04_wt_refuted",
    "C04_wb_refuted"
   ],
   "note": "REFUTED as stated: a write over sectors that are dirty in the cache can fail in a way that destroys the older dirty data. Write-through: core write error -> ocf_engine_invalidate purges the range with the dirty data, reads return the even older core contents (C04_wt_refuted); the same for write-back with a cache error (C04_wb_refuted); both with one failing I/O. Proved for every history with any number of failures in reads, writes, cleaning and metadata writes, provided that a write in which an I/O fails bypasses the cache (WI/PT) or its range is not dirty: a read that completes without error returns the last acknowledged data or that of a write that failed since. Missing: discards, concurrency of requests, atomic volumes."
  },
  {
   "property": "C05",
   "status": "proved",
   "theorems": [
    "C05_crash_recovery_succeeds",
    "C05_crash_consistency"
   ],
   "note": "Crash at any point of any operation, any subset/order of the I/O group in flight (metadata entries individually), repeated crashes and clean restarts; write-ordering devices without volatile cache (volatile caches: C51)."
  },
  {
   "property": "C06",
   "status": "partial",
   "theorems": [
    "C06_recovery_after_hidden_error_partial",
    "C06_acknowledged_data_survives_partial",
    "C06_refuted",
    "C06_retry_refuted"
   ],
   "note": "REFUTED as stated: a write-through write over dirty sectors whose cache write fails is acknowledged, but the invalidation is only in memory; after a crash recovery brings the old dirty data back (C06_refuted). Also: after a write-back write that failed because of a metadata write error, a successful retry does not write the metadata, so the acknowledged data is lost by a crash (C06_retry_refuted). Proved: for every history of acknowledged operations with tolerated errors and crashes between operations, recovery succeeds and reads return the last acknowledged data, provided that no tolerated cache error meets a WT/WA write whose range is dirty. Missing: crashes inside an operation that also sees an error, histories with reported failures."
  },
  {
   "property": "C07",
   "status": "proved",
   "theorems": [
    "C07_mark_exact",
    "C07_unmark_exact",
    "C07_test_exact",
    "C07_test_and_modify_exact",
    "C07_changed_exact",
    "C07_valid_dirty_exact"
   ],
   "note": "All bitmap operations of metadata_bit.h and the 'changed' wrappers, every width, bitmap and range."
  },
  {
   "property": "C08",
   "status": "proved",
   "theorems": [
    "C08_lines_cover_exactly"
   ],
   "note": "Request line range and per-line sector ranges with 64-bit wrap explicit; byte level (unaligned requests too)."
  },
  {
   "property": "C09",
   "status": "proved",
   "theorems": [
    "C09_lookup_refines_map",
    "C09_injective",
    "C09_other_unchanged"
   ],
   "note": "Any hash table size > 0, any number of lines, any sequence of allowed map/unmap operations (callers map only unmapped core lines to unused lines). The failure in the statement is modelled as: a line index out of range, ENV_BUG_ON, or a walk longer than the number of lines; none occurs. Bucket operations are atomic (bucket lock)."
  },
  {
   "property": "C10",
   "status": "proved",
   "theorems": [
    "lru_refines_lists",
    "C10_exactly_one_list"
   ],
   "note": "Any number of lines, any start order (new cache or recovery), any sequence of hit, move, free, dirty, clean, allocate and evict operations; each operation atomic (LRU list lock plus hash bucket lock). No ENV_BUG_ON or bad pointer occurs. Reported core occupancy (cached_clines) is a separate counter: C33."
  },
  {
   "property": "C11",
   "status": "proved",
   "theorems": [
    "C11_hot_prefix",
    "C11_order",
    "lru_refines_lists"
   ],
   "note": "Half is rounded down; the free list has no hot marks (track_hot false). Lines whose lock is not available are skipped by eviction."
  },
  {
   "property": "C12",
   "status": "proved",
   "theorems": [
    "C12_exclusion",
    "C12_owner_holds_all"
   ],
   "note": "Transition system of utils_alock.c + ocf_cache_line_concurrency.c, any number of requests, lines, waiters lists and any interleaving, allocation failures included; also: no internal assertion fails. Side condition: fewer than 2^30 lines requested in total (lock counters are ints). One step = one atomic instruction or one critical section of a waiters list."
  },
  {
   "property": "C13",
   "status": "proved",
   "theorems": [
    "C13_resumed_once",
    "C13_no_waiter_forgotten",
    "C13_first_come_first_served",
    "C13_runs_are_finite",
    "C13_no_deadlock",
    "C13_liveness_oom_refuted"
   ],
   "note": "Same model. Safety parts hold with allocation failures too. Liveness (no deadlock, every run finite) is proved without allocation failures; with one, a lock can stay behind for ever (finding, C13_liveness_oom_refuted: waitlist_remove_entry matches the request only)."
  },
  {
   "property": "C14",
   "status": "proved",
   "theorems": [
    "C14_no_bug",
    "C14_exclusion",
    "C14_is_locked",
    "C14_success_owns",
    "C14_keeps_until_unlock",
    "C14_arrival_order",
    "C14_no_overtaking",
    "C14_completed_once",
    "C14_no_waiter_forgotten",
    "C14_no_deadlock",
    "C14_references_partial",
    "C14_reference_leak_refuted",
    "C14_unlock_after_deinit_refuted"
   ],
   "note": "Proved for every sequence of lock, trylock, unlock, completion and destroy steps. Two findings beside the property: a trylock refused because the cache is stopping keeps its cache reference, and the lock holder that stops the cache unlocks after the spinlock was destroyed."
  },
  {
   "property": "C15",
   "status": "partial",
   "theorems": [
    "C15_no_grant_when_frozen",
    "C15_exactly_once",
    "C15_never_early_refuted",
    "C15_never_early_partial",
    "C15_early_meaning"
   ],
   "note": "REFUTED as stated: a thread interrupted between its decrement to zero and its compare-and-swap runs a callback registered later, while another thread holds a reference. Proved: no grant while frozen, exactly once per registration, never lost, and never early if the registration does not meet such a thread."
  },
  {
   "property": "C16",
   "status": "proved",
   "theorems": [
    "C16_buckets_ascending_exact",
    "C16_in_range_exact",
    "C16_no_deadlock",
    "C16_terminates"
   ],
   "note": "Macros of ocf_metadata_concurrency.c with 32/64-bit wrap; side condition: entries+count < 2^32 and no 64-bit overflow of core line numbers. Deadlock freedom for any number of requests with read, write and upgrade phases."
  },
  {
   "property": "C17",
   "status": "proved",
   "theorems": [
    "C17_cache_io_exact",
    "C17_places_disjoint"
   ],
   "note": "Both branches (sequential shortcut and merge loop); the sequential flag is the one computed by lookup and eviction patching. Side condition: addresses below 2^64."
  },
  {
   "property": "C18",
   "status": "proved",
   "theorems": [
    "C18_in_order",
    "C18_finish_once",
    "C18_stops",
    "C18_can_go_on",
    "C18_bounded"
   ],
   "note": "Any list of steps (single, conditional, iterating, terminator) and any sequence of continuations by the handlers. A predicate is a function of the step index: each conditional step is reached at most once, so this covers predicates that depend on changing state. Assumes each handler continues the pipeline exactly once (all call sites do)."
  },
  {
   "property": "C19",
   "status": "proved",
   "theorems": [
    "C19_finish",
    "C19_nobody_left",
    "C19_called",
    "C19_steps_end"
   ],
   "note": "All interleavings of single atomic operations, any number of shards. C19_nobody_left: when finish is called no other thread will touch the job."
  },
  {
   "property": "C20",
   "status": "proved",
   "theorems": [
    "C20_contig32",
    "C20_contig64",
    "C20_stride",
    "C20_populate",
    "C20_shards_positive",
    "C20_own_list",
    "C20_accepted",
    "C20_limit_refuted"
   ],
   "note": "All parallel passes; for every accepted cache device (lines computed by the sizing code) and up to 500 queues every entry is processed exactly once. C20_limit_refuted shows the bound on the number of entries, guaranteed by the sizing code, is needed."
  },
  {
   "property": "C21",
   "status": "partial",
   "theorems": [
    "C21_exact_concatenation",
    "C21_out_of_range_bug",
    "C21_simple",
    "C21_completes_once",
    "C21_parts_counted",
    "C21_error_iff_partial",
    "C21_error_iff_refuted",
    "home_unique"
   ],
   "note": "REFUTED as stated (error part only): address mapping and exactly-once completion proved for any number and lengths of members; the error of a member can be erased by the overlapping forward_end(token,0) of the composite volume itself (C21_error_iff_refuted); error iff some member failed is proved for non-overlapping forward_ends."
  },
  {
   "property": "C22",
   "status": "proved",
   "theorems": [
    "C22_pages_exact",
    "C22_marked_lines_flushed",
    "merge_gaps"
   ],
   "note": "Any correct env_sort; any map, marks and entries per page. Submission of the writes succeeds (when metadata_io_write_i_asynch fails the loop stops)."
  },
  {
   "property": "C23",
   "status": "partial",
   "theorems": [
    "C23_at_most_once",
    "C23_not_early",
    "C23_error_reported",
    "C23_success",
    "C23_buffer_fits",
    "C23_freed_last",
    "C23_called_without_errors",
    "C23_steps_end",
    "C23_completion_lost_refuted",
    "C23_lock_error_refuted",
    "C23_zero_no_memory_refuted",
    "C23_empty_refuted"
   ],
   "note": "REFUTED as stated: with an error the completion may never be called. metadata_io_req_complete drops a worker that took a chunk before another one failed (C23_completion_lost_refuted); metadata_io_restart_req drops it when the page lock fails (C23_lock_error_refuted); raw_ram_zero ignores a failed start. Proved for all schedules and errors: at most once, never before all I/O is over, error iff a chunk failed, success means every page exactly once, I/O fits the buffer, request freed exactly once and last, and exactly one completion if nothing fails."
  },
  {
   "property": "C24",
   "status": "partial",
   "theorems": [
    "C24_crash_atomic_partial",
    "C24_saved_partial",
    "C24_segment_error_refuted",
    "C24_superblock_error_refuted"
   ],
   "note": "REFUTED as stated: proved for all histories whose only failures are superblock writes refused without effect, any segment sizes, any checksum, any crash step and any part of the volatile cache written; false after any other failed save, since the finish handler moves flapping_idx back whether or not it was moved forward or the superblock was written (metadata_superblock.c:469-488)."
  },
  {
   "property": "C25",
   "status": "partial",
   "theorems": [
    "C25_fits",
    "C25_data_after_metadata_partial",
    "C25_data_overlaps_refuted",
    "C25_posix_refuted",
    "C25_line_range"
   ],
   "note": "REFUTED as stated: the number of lines is computed without failure for every accepted device, metadata and data fit, less than 1 MiB unused (proved); but with a 32-bit PAGE_SIZE (POSIX environment) metadata_offset wraps once metadata reaches 4 GiB, e.g. a 400 GiB device with 4 KiB lines, and the data area then starts inside the metadata. Proved to follow the metadata when PAGE_SIZE is 64 bits wide or metadata is below 4 GiB."
  },
  {
   "property": "C26",
   "status": "proved",
   "theorems": [
    "C26_disjoint",
    "C26_entries"
   ],
   "note": "All sections and both copies of double-buffered ones, for every accepted device size, line size and fixed section sizes up to 36 MiB in total; every section has room for its entries. Sections of volatile and atomic metadata types are not modelled."
  },
  {
   "property": "C27",
   "status": "proved",
   "theorems": [
    "C27_generator_is_permutation",
    "C27_init_succeeds",
    "C27_undefined_limits"
   ],
   "note": "For every limit from 2 to 2^30 and every generator state (hence every offset). Limits 0, 1 and above 2^30 are undefined behaviour in the C code (clz of 0, signed shift) and shown to be so."
  },
  {
   "property": "C28",
   "status": "partial",
   "theorems": [
    "C28_promotion_loses_stream_refuted",
    "C28_decision_lost_refuted",
    "C28_longest_stream_refuted",
    "C28_tracker_alone_partial",
    "C28_core_tracker_partial"
   ],
   "note": "REFUTED as stated: promoting a stream to the core clears its valid flag, part of the search key, while it stays in the search tree; other tracked streams become unreachable and requests that should be cut off are not. Also the search skips the head of a ring of equal streams. What does hold is proved for every history: the tracker of a core, and any tracker from which no stream is promoted, finds exactly the streams it tracks (requests within the 64-bit address space)."
  },
  {
   "property": "C29",
   "status": "partial",
   "theorems": [
    "C29_fifo",
    "C29_admitted_only_partial",
    "C29_exact_while_remembered",
    "C29_partial_hit_refuted",
    "C29_concurrent_refuted"
   ],
   "note": "REFUTED as stated: a request with at least one mapped line is admitted whatever the counters say (deliberate in the code), and two overlapping first requests are counted once. Proved: the ring buffer with hash chains refines a first-in first-out memory of counters for every history; admission of requests without mapped lines implies the threshold, and is exact while no line had to be forgotten."
  },
  {
   "property": "C30",
   "status": "partial",
   "theorems": [
    "C30_refuted",
    "C30_error_refuted",
    "C30_populate_refuted",
    "C30_error_never_again",
    "C30_populate_ineligible",
    "C30_counters_partial",
    "C30_eligible_partial",
    "C30_candidate_partial"
   ],
   "note": "REFUTED as stated: (1) the backoff test in _acp_can_clean_chunk is inverted, so after a cleaning error a chunk is eligible only during the backoff time and never again afterwards; (2) populating puts a chunk with less than 10% dirty lines into bucket 0, from which nothing is ever cleaned. Proved: exact dirty counters, and eligibility and choice of a dirty chunk for error-free histories from a clean start."
  },
  {
   "property": "C31",
   "status": "partial",
   "theorems": [
    "C31_refuted",
    "C31_sound_partial",
    "C31_exact_partial"
   ],
   "note": "REFUTED as stated: info.dirty * 100 wraps in 32 bits, so a fully dirty cache of 42949673 lines (164 GiB with 4 KiB lines) does not trigger cleaning. Proved: the trigger never fires below the ratio, and is exact up to 42949672 dirty lines ('exceeds' read as 'reaches': the code compares with >=)."
  },
  {
   "property": "C32",
   "status": "partial",
   "theorems": [
    "C32_minimum",
    "C32_minimum_reached",
    "C32_maximum",
    "C32_own_class",
    "C32_order_partial",
    "C32_refused_partial",
    "C32_no_bug",
    "C32_load_refused_refuted",
    "C32_load_order_refuted",
    "C32_own_class_none"
   ],
   "note": "REFUTED as stated: after a cache is loaded the list of I/O classes is not sorted, so lines are taken from a class although a less important class has evictable lines (C32_load_order_refuted), and requests are refused although less important classes have lines (C32_load_refused_refuted). Proved for every history: minimum, maximum, own class when over the maximum, no ENV_BUG. Proved for histories without a load: free lines first, then surplus, then classes by priority (C32_order_partial); refusal only when nothing can be taken (C32_refused_partial)."
  },
  {
   "property": "C33",
   "status": "partial",
   "theorems": [
    "C33_dirty",
    "C33_cached_partial",
    "C33_waiters_refuted",
    "C33_negative_refuted"
   ],
   "note": "REFUTED as stated: __set_cache_line_invalid returns before decrementing the cached counters when requests wait for the line (utils_cache_line.c:31-32), so a counter can exceed the number of mapped lines or, in the other order, go negative. Proved: dirty counters in all histories; cached counters in histories in which no request waits for a line that becomes invalid."
  },
  {
   "property": "C34",
   "status": "partial",
   "theorems": [
    "C34_restart_partial",
    "C34_stuck",
    "C34_restart_refuted"
   ],
   "note": "REFUTED as stated: an attempt that finds no dirty line it can lock returns without clearing cleaner_running (ocf_lru.c:645-648), and no later attempt ever starts cleaning for the class. Proved: restartable in histories without such an attempt."
  },
  {
   "property": "C35",
   "status": "partial",
   "theorems": [
    "C35_range_partial",
    "C35_lines",
    "C35_wrap_refuted"
   ],
   "note": "REFUTED as stated: the range check adds offset and length in 64 bits (ocf_core.c:186) and the sum wraps, so 8 KiB at 2^64-4096 are accepted (C35_wrap_refuted). Proved where the sum does not wrap: exactly the requests inside the volume are accepted and their lines are exact."
  },
  {
   "property": "C36",
   "status": "partial",
   "theorems": [
    "C36_precedence",
    "C36_lazy_only_if_configured_partial",
    "C36_lazy_only_if_configured_refuted",
    "C36_blocked_dirty_refuted"
   ],
   "note": "REFUTED as stated in its last clauses when the cache is started with use_submit_io_fast: a write-through write over mapped lines is acknowledged dirty, even while new dirty data is blocked by a flush. Precedence is proved for all inputs; the last clause is proved with the option off."
  },
  {
   "property": "C37",
   "status": "partial",
   "theorems": [
    "wo_complete_once",
    "wo_error_refuted",
    "wo_error_partial"
   ],
   "note": "REFUTED as stated: every fragment re-initialises the error field (ocf_engine_forward_cache_io calls ocf_req_forward_cache_init), so a failure of an earlier fragment that completed before the next one is submitted is lost; partial: errors arriving after the last submission are reported, completion is signalled exactly once."
  },
  {
   "property": "C38",
   "status": "proved",
   "theorems": [
    "C38_fifo",
    "C38_once",
    "C38_pending",
    "C38_priority",
    "C38_awake",
    "C38_drained"
   ],
   "note": "Over every interleaving of pushes and pops; the lists are modelled as sequences."
  },
  {
   "property": "C39",
   "status": "proved",
   "theorems": [
    "C39_pick",
    "C39_unique",
    "C39_succeeds"
   ],
   "note": "For every bitmap, and after every history of operations; success supposes a new name and UUID and no failing step."
  },
  {
   "property": "C40",
   "status": "proved",
   "theorems": [
    "C40_cache_flush_cleans_all",
    "C40_core_flush_cleans_core",
    "C40_no_bug"
   ],
   "note": "Flush of core and of cache, any interleaving of containers, cleaning requests and environment steps (other cleaners, evictions; no user writes meanwhile), any error placement; also: no BUG assertion of the collecting/portioning code fires."
  },
  {
   "property": "C41",
   "status": "partial",
   "theorems": [
    "C41_refuted",
    "C41_writes_dirty_runs_partial",
    "C41_writes_dirty_and_only_valid",
    "C41_range_address"
   ],
   "note": "REFUTED as stated: a line that is completely valid and partly dirty is written as a whole, clean sectors included (utils_cleaner.c:456-463). Proved: exactly the maximal dirty runs otherwise; always all dirty and only valid sectors; addresses."
  },
  {
   "property": "C42",
   "status": "proved",
   "theorems": [
    "C42_recovery_accepts_exactly",
    "C42_recovery_keeps_exactly_dirty"
   ],
   "note": "Every on-disk content."
  },
  {
   "property": "C43",
   "status": "partial",
   "theorems": [
    "C43_refuted",
    "C43_data_errors_reported_partial"
   ],
   "note": "REFUTED as stated: errors of the metadata flush of a non-first request and of the cache flush are dropped. Proved: cache read, core write and core flush errors are always reported."
  },
  {
   "property": "C44",
   "status": "proved",
   "theorems": [
    "C44_discard_hides_and_touches_nothing_else",
    "C44_outside_reads_as_before",
    "C44_core_discarded_exactly_once"
   ],
   "note": "Every range, step size and reachable state. The core discard is one I/O over the range; per sector it occurs exactly once in every execution trace."
  },
  {
   "property": "C45",
   "status": "proved",
   "theorems": [
    "C45_sorted",
    "C45_operations",
    "sort_rep",
    "add_rep",
    "add_tail_rep",
    "add_before_rep",
    "add_after_rep",
    "del_rep",
    "init_rep",
    "visit_rep"
   ],
   "note": "ocf_lst_sort and all list operations of utils_list.h/.c on the linked list in memory, for every list, size and total preorder; sort is the stable insertion order. The array sort used by the cleaner (env_sort) is the C library's qsort or the kernel's sort, not OCF code, and not modelled."
  },
  {
   "property": "C46",
   "status": "partial",
   "theorems": [
    "callback_exactly_once",
    "callback_happens",
    "callback_error_real",
    "callback_error_serial",
    "wt_complete_once",
    "wt_completes",
    "wt_error_real",
    "wt_error_serial",
    "wt_cache_error_tolerated",
    "callback_error_refuted",
    "callback_error_fragments_refuted",
    "wt_error_refuted"
   ],
   "note": "REFUTED as stated (error part): ocf_forward_end updates the error field with a plain read and write, so a successful forward_end overlapping a failing one erases the error and the user is told success (callback_error_refuted, wt_error_refuted). Proved for every interleaving: exactly once, after all device I/Os, reported errors are real, termination; proved for non-overlapping forward_ends: error reported iff one occurred (core or metadata flush for WT, cache errors tolerated)."
  },
  {
   "property": "C47",
   "status": "partial",
   "theorems": [
    "C47_block",
    "C47_uuids_partial",
    "C47_failed_add_refuted",
    "C47_empty_refuted"
   ],
   "note": "REFUTED as stated: after adding a core failed because of its UUID (or succeeded with an empty one) an all-zero UUID page is allocated, counted in the stored checksum and not counted when loading, so a cleanly stopped cache is refused (witness evaluated with the real CRC-32). Proved: block segments load back byte for byte with equal checksum for every history of entry writes; UUID pages do for every history of adds, failed adds, removes, changes and restarts whose UUIDs have 1 to 4092 bytes, for any checksum function. Missing: allocation failures."
  },
  {
   "property": "C48",
   "status": "partial",
   "theorems": [
    "C48_fallback_exact_partial",
    "C48_no_bug",
    "C48_all_errors_refuted",
    "C48_write_back_hits_use_fast"
   ],
   "note": "REFUTED as stated: only errors of three engine sites are counted; read-hit errors on the fast path (all read hits in write-back and write-only mode) and write-back write errors never count. Proved: exact trigger condition over every history for the counted errors."
  },
  {
   "property": "C49",
   "status": "partial",
   "theorems": [
    "C49_report_partial",
    "C49_exact_partial",
    "C49_once_partial",
    "C49_fraction",
    "C49_reset_refuted",
    "C49_once_refuted"
   ],
   "note": "REFUTED as stated: statistics reset while a request is between its two increments leaves a miss without a request, and the hits reported are 2^64-1 for good (C49_reset_refuted); a read hit that the cache device fails is counted twice (C49_once_refuted). Proved: without resets, for every interleaving of requests and readers, every report is conserved; counters are exact at rest; without device errors each request is counted once in every mode. Supposes fewer than 2^64 requests in total."
  },
  {
   "property": "C50",
   "status": "partial",
   "theorems": [
    "C50_exact_partial",
    "C50_mirror_partial",
    "C50_offset_refuted",
    "C50_empty_refuted",
    "C50_unaligned_refuted",
    "C50_last_page_refuted",
    "C50_refcount_refuted"
   ],
   "note": "REFUTED as stated for writes with an offset into the data, empty writes at address 0, and unaligned writes (witnesses on the model; the last goes unreported when it starts inside the last metadata page). Proved for every sequence of reads, writes outside the metadata and non-empty whole-page writes up to 32 MiB: the in-memory superblock and collision segments mirror the device after each. Missing: concurrent writes (page locks), device errors."
  },
  {
   "property": "C51",
   "status": "partial",
   "theorems": [
    "C51_protected_cache_partial",
    "C51_no_lazy_writes_partial",
    "C51_right_after_flush_partial",
    "C51_write_through_refuted",
    "C51_write_back_refuted"
   ],
   "note": "REFUTED as stated: no flush separates data from metadata. C51_write_through_refuted: write-back, flush, then a write-through write over the dirty sector whose metadata reaches the medium but whose core write does not (even with a cache device that protects its writes). C51_write_back_refuted: write-back over data held by the core, metadata on the medium, cached data not. Proved for all histories and power failures: holds with a protected cache device if no write-through write overlaps dirty data; holds with two volatile devices if no write is write-back/write-only; in all modes holds right after the flush. Missing: discards, concurrent requests, I/O errors, FUA flags."
  },
  {
   "property": "C52",
   "status": "partial",
   "theorems": [
    "conc_latest_partial",
    "conc_reads_partial",
    "conc_serial_partial",
    "conc_cached",
    "conc_latest_refuted",
    "conc_overlap_refuted"
   ],
   "note": "REFUTED as stated: the cleaner writes completely valid lines as a whole and so overwrites an acknowledged bypassing write that ran without lock (conc_latest_refuted, code as it is); independently of that, the second pass of a bypassing write drops newer dirty data of an overlapping acknowledged write-back write (conc_overlap_refuted, for both cleaner variants). Proved for every interleaving: without bypassing writes the claim holds for the code as it is, for any overlap of requests (conc_cached); with bypassing writes if they do not overlap other writes to their sectors and, unless the cleaner wrote dirty sectors only, no cleaning chooses its sectors while one is under way without lock (conc_latest_partial, conc_reads_partial, conc_serial_partial). Missing: I/O errors, discards, crashes, requests over several lines."
  },
  {
   "property": "C53",
   "status": "partial",
   "theorems": [
    "C53_option_off_partial",
    "C53_fast_path_refuted"
   ],
   "note": "REFUTED as stated: with use_submit_io_fast a completed write-through write over mapped lines is not on the core. Proved with the option off."
  },
  {
   "property": "C54",
   "status": "partial",
   "theorems": [
    "C54_same_setting_partial",
    "C54_double_free_refuted",
    "C54_missing_section_refuted",
    "C54_failed_attach_refuted",
    "C54_claim_refuted"
   ],
   "note": "REFUTED as stated: section pointers are not cleared on detach and the disabled flag of the cleaning section is never reset, so changing disable_cleaner between attachments, or a failed attachment after a detach, releases a section twice or leaves the cleaning section missing; proved for any number of attachments with one setting and no failure."
  },
  {
   "property": "C55",
   "status": "proved",
   "theorems": [
    "C55_lists_exact",
    "C55_collects_stale",
    "C55_collects_all"
   ],
   "note": "Sequential histories of the list operations (each runs under its lock). C55_collects_stale assumes a clock that does not go back; C55_collects_all (everything dirty is collected when the age limit is open) does not."
  },
  {
   "property": "C56",
   "status": "proved",
   "theorems": [
    "C56_take",
    "C56_clean"
   ],
   "note": "All list contents, lock sets, starts and counts."
  },
  {
   "property": "C57",
   "status": "partial",
   "theorems": [
    "C57_books",
    "C57_front_partial",
    "C57_failed_partial",
    "C57_try_add_refuted",
    "C57_leak_refuted"
   ],
   "note": "REFUTED as stated: re-adding a core that fails at its front volume reports an error but leaves the core active and counted so (C57_try_add_refuted); a core inactive at load gets its front volume initialised twice, or never closed (C57_leak_refuted). Proved: the books agree after every history (C57_books); front volumes and undoing of failed operations outside these cases."
  },
  {
   "property": "C58",
   "status": "proved",
   "theorems": [
    "C58_discard"
   ],
   "note": "For every offset, length and line size within the 64-bit range."
  },
  {
   "property": "C59",
   "status": "proved",
   "theorems": [
    "C59_search_tree",
    "C59_balanced",
    "C59_trackers_never_fail",
    "C59_trackers_balanced",
    "C59_update"
   ],
   "note": "The tree theorems hold for any key order, any memory contents and any legal sequence of operations; the tracker theorems for any settings and requests, promotions included."
  },
  {
   "property": "C60",
   "status": "partial",
   "theorems": [
    "C60_life_exact",
    "C60_life_standby",
    "C60_failed_op",
    "C60_test_buffer_refuted",
    "C60_atomic_refuted",
    "C60_populate_refuted",
    "C60_set_policy_refuted",
    "C60_policy_detached_refuted",
    "C60_load_cleaning_refuted",
    "C60_load_cores_refuted",
    "C60_inactive_refuted",
    "C60_standby_stop_refuted",
    "C60_activate_refuted",
    "C60_load_attached_refuted",
    "C60_start_refuted"
   ],
   "note": "REFUTED as stated, in twelve ways (see the findings). Proved for every history outside these (ok_op): everything is released exactly once, all operations complete, a failing operation leaves the cache as it was; with standby instances only the device, its volume and the front volume can be left."
  },
  {
   "property": "C61",
   "status": "partial",
   "theorems": [
    "C61_discard_exact",
    "C61_zeros_exact",
    "C61_one_io_each",
    "C61_once",
    "C61_error_real",
    "C61_error_told",
    "C61_ends",
    "C61_attach_discard",
    "C61_zeros_never_completes",
    "C61_zeros_refuted",
    "C61_discard_pages_refuted"
   ],
   "note": "REFUTED as stated for writing zeros: ocf_submit_cache_write_zeros never sets the callback of the forward nor req->priv, so every execution that reaches its end calls a NULL pointer (C61_zeros_never_completes, C61_zeros_refuted through the attach step); and discards of more than 4 GiB do not keep page alignment (C61_discard_pages_refuted; sectors are kept). Everything else is proved: exact cover for any length, told exactly once, everything released exactly once, in every interleaving and with any failures (an error code can be lost only when two I/Os of the request end at the same moment, C46)."
  },
  {
   "property": "C62",
   "status": "partial",
   "theorems": [
    "C62_adds_up",
    "C62_core_of_classes",
    "C62_cache_of_cores",
    "C62_cache_errors",
    "C62_cache_blocks",
    "C62_class_of_cores",
    "C62_cache_usage",
    "C62_core_usage",
    "C62_usage_of_cores",
    "C62_inactive_refuted",
    "C62_class_free_refuted",
    "C62_detached_refuted",
    "C62_torn_refuted",
    "C62_no_class_refuted"
   ],
   "note": "REFUTED as stated in five places: requests and errors of a core that is not opened (detached, counters kept) are left out of the cache's report while its lines are counted; the free line of an io class is always 0; free wraps for a cache without device whose cores still count lines; clean wraps (and exceeds 100 %) when a line becomes dirty between reading occupancy and dirty; a class that does not exist is reported when no core is opened. Everything else is proved for all caches and counters within the bounds, with the sum over opened cores."
  },
  {
   "property": "C63",
   "status": "partial",
   "theorems": [
    "C63_no_bug",
    "C63_success",
    "C63_accepted",
    "C63_restored",
    "C63_once",
    "C63_reasons",
    "C63_uuid_refuted",
    "C63_core_count_refuted"
   ],
   "note": "REFUTED as stated for the cores' UUIDs (not saved, so a failed load leaves the device's UUIDs in memory, C63_uuid_refuted) and for the core count (not compared with the number of cores, stop then leaves a core behind, C63_core_count_refuted). Everything else is proved for every device content, layout, checksum function and failure: success iff the stored configuration is good, all other segments restored on failure, told once, copies freed once, no assertion fails."
  },
  {
   "property": "C64",
   "status": "partial",
   "theorems": [
    "C64_balanced",
    "C64_nothing_left",
    "C64_alternate",
    "C64_pool",
    "C64_refused",
    "C64_taken",
    "C64_lookup",
    "C64_set_uuid_refuted",
    "C64_dangling_refuted",
    "C64_prefix_refuted",
    "C64_frozen_refuted",
    "C64_hooks_refuted",
    "C64_open_device"
   ],
   "note": "REFUTED as stated: changing the uuid of a core taken from the pool makes its removal free the caller's memory (C64_set_uuid_refuted); the uuid handed to ocf_mngt_core_set_uuid is kept by pointer and read later (C64_dangling_refuted); a uuid that is a prefix of another counts as equal (C64_prefix_refuted); a volume taken from the pool is open but its counter stays frozen (C64_frozen_refuted); on_init and on_deinit are not paired (C64_hooks_refuted). Proved without ocf_volume_set_uuid on copied uuids: all the rest of the statement."
  },
  {
   "property": "C65",
   "status": "partial",
   "theorems": [
    "C65_balanced",
    "C65_after_unlock",
    "C65_when",
    "C65_alru_chosen",
    "C65_alru_complete",
    "C65_alru_rest",
    "C65_alru_pause",
    "C65_acp_round",
    "C65_acp_flush",
    "C65_end_before_put",
    "C65_params",
    "C65_limits",
    "C65_stale_refuted",
    "C65_end_last_refuted",
    "C65_acp_full"
   ],
   "note": "REFUTED as stated in two points: while the tick count is below stale_buffer_time compute_timestamp wraps and lines used this second are flushed (C65_stale_refuted; needs an environment whose tick count starts at 0, env/posix counts from 1970); alru_clean gives back the metadata lock, and ocf_cleaning_perform_cleaning the reference, only after the completion may have released the cache lock and called end (C65_end_last_refuted; without a flush the reference is always given back after end, C65_end_before_put). Everything else is proved; the staleness with the clock past stale_buffer_time and below its wrap (C65_alru_rest)."
  },
  {
   "property": "C66",
   "status": "partial",
   "theorems": [
    "C66_invalidate_exact",
    "C66_purge",
    "C66_purge_balanced",
    "C66_purge_detached_refuted",
    "C66_remove_all",
    "C66_remove_others",
    "C66_remove_ends",
    "C66_remove_not_quiet_refuted",
    "C66_remove_core",
    "C66_detach_core",
    "C66_remove_failed_refuted",
    "C66_callback_refuted",
    "C66_callback"
   ],
   "note": "REFUTED as stated in four points: purging a detached cache dereferences a null pointer, where flush refuses (C66_purge_detached_refuted); when the removal cannot write the collision section the core stays without lines but with its count of dirty lines, and the next flush with a dirty line stops at ENV_BUG (C66_remove_failed_refuted); refused removals and detachments call back with the cache instead of the caller's context (C66_callback_refuted); the removal loop relies on the caller to stop requests of the core, otherwise lines stay behind (C66_remove_not_quiet_refuted). Everything else is proved, the removal for a caller that has stopped the core's requests. Memory for the flush containers is assumed available."
  },
  {
   "property": "C67",
   "status": "partial",
   "theorems": [
    "C67_metadata_locks",
    "C67_attached_locks",
    "C67_attached_locks_refuted",
    "C67_alock",
    "C67_page_locks",
    "C67_mio_locks",
    "C67_mio_locks_refuted",
    "C67_raw_ram",
    "C67_raw_dynamic",
    "C67_nhit",
    "C67_nhit_refuted",
    "C67_mpool",
    "C67_ctx_create",
    "C67_ctx_create_refuted",
    "C67_ctx_life",
    "C67_queue",
    "C67_queue_refuted",
    "C67_req_put",
    "C67_req_new_mngt",
    "C67_req_new_cache",
    "C67_req_new",
    "C67_req_new_refuted",
    "C67_req_new_cleaner",
    "C67_io_life",
    "C67_discard_life",
    "C67_discard_life_refuted",
    "C67_cleaner_req",
    "C67_cleaner_free"
   ],
   "note": "REFUTED as stated in seven points: ocf_metadata_concurrency_attached_init leaks the hash semaphores when a collision page semaphore fails; ocf_mio_concurrency_init frees vmalloc memory with env_free; nhit_hash_init leaks the ring buffer when its lock fails; ocf_ctx_create never destroys its mutex on failure and leaks the core or cache volume type; ocf_queue_create leaks the queue lock when the trackers fail; ocf_req_new leaks the d2c reference and hits ENV_BUG if both counters are frozen; ocf_core_volume_submit_discard never frees a request whose map cannot be allocated. Everything else holds for every pattern of refusals; where a leak is known the theorem says exactly what may be left."
  },
  {
   "property": "C68",
   "status": "proved",
   "theorems": [
    "C68_mio_entries",
    "C68_pio_entries",
    "C68_exclusive",
    "C68_no_older_copy",
    "C68_flushed",
    "C68_all_end",
    "C68_failed_clean",
    "C68_flush_spread",
    "C68_mio_refuses",
    "C68_error_ends"
   ],
   "note": "Lock entries of page ranges (active and standby), exclusion, no older copy on the device, completed flush is on the device, no flush is stuck, a failed one leaves nothing. Pieces of one metadata I/O are separate requests; a page reaches the device in one moment; C68_all_end assumes waiter allocations succeed."
  },
  {
   "property": "C69",
   "status": "partial",
   "theorems": [
    "C69_discard_exact",
    "C69_discard_once",
    "C69_entry",
    "C69_entry_at",
    "C69_entry_metadata",
    "C69_entry_unmapped_refuted",
    "C69_entry_end_refuted",
    "C69_invalid_before",
    "C69_invalid_after",
    "C69_recovery",
    "C69_recovery_refuted",
    "C69_zero_refuted",
    "C69_numbers",
    "C69_numbers_used_up",
    "C69_recovery_outside"
   ],
   "note": "REFUTED as stated in four points: recovery reads all steps but the first at the wrong address (C69_recovery_refuted; restored if the address is that of the sectors, C69_recovery); zeroing a line completes twice (C69_zero_refuted; its entry point has no caller); the entry of a sector of an unmapped line follows a null pointer; the address just behind the device is accepted. Proved otherwise: discards, entries of mapped lines, invalid neighbours, sequence numbers. Errors of the reads and wrap of 64-bit addresses not modelled."
  },
  {
   "property": "C70",
   "status": "partial",
   "theorems": [
    "C70_limits",
    "C70_effective",
    "C70_set_get",
    "C70_detached",
    "C70_all",
    "C70_detach_keeps",
    "C70_attach_values",
    "C70_attach_refuted",
    "C70_mode_detached_refuted",
    "C70_promotion_detached_refuted",
    "C70_promotion_type_refuted",
    "C70_add_core_refuted",
    "C70_all_refuted",
    "C70_unset_refuted"
   ],
   "note": "REFUTED as stated in six points: setting the promotion policy without device follows a null pointer and the mode of a detached cache is changed (missing return); promotion parameters of a wrong type hit ENV_BUG_ON; the configuration of a new core is not checked; setting all cores leaves out cores not opened, and accepts any value if there is no opened one; attaching resets the parameters of the policies; parameters of a cache without device are zeros outside the limits. Proved otherwise for all operation sequences. Values are naturals; loading a configuration from a device and standby are not in the model."
  },
  {
   "property": "C71",
   "status": "partial",
   "theorems": [
    "C71_failover",
    "C71_guard",
    "C71_stuck",
    "C71_retry_refuted",
    "C71_unnoticed_refuted"
   ],
   "note": "REFUTED as stated in two points: an activation that fails while the shutdown status is written (C71_stuck: a failed write of the configuration sections or a failed flush behind the superblock, for all geometries and histories) leaves a flapping index in memory that differs from the device, and every later activation fails with a superblock mismatch although the device is intact; a write into the collision segment that is not of whole pages reaches the device and not the memory, and activation succeeds with a mapping that does not know the dirty data. Proved: the rest, for page aligned writes (up to 32 MiB) one after the other and failures before the shutdown status is written. A failed write of the superblock itself, discards on the standby volume (not applied to the memory) and a device changed outside of the superblock while detached are not covered."
  },
  {
   "property": "C72",
   "status": "partial",
   "theorems": [
    "C72_safe",
    "C72_no_leak",
    "C72_find",
    "C72_calm",
    "C72_visit",
    "C72_core",
    "C72_lock",
    "C72_progress",
    "C72_order",
    "C72_prefix_refuted",
    "C72_twins_refuted",
    "C72_unterminated_refuted"
   ],
   "note": "REFUTED as stated in the part about names: a cache being removed is frozen before it leaves the list, and until then a search for its name ends there, so that a second cache of that name can be started, is not found, and a third one can be started (C72_twins_refuted); a name of 32 bytes without terminator is accepted, cut when stored and can be used again (C72_unterminated_refuted); with the length of the name instead of the terminator a longer name is found (C72_prefix_refuted). Proved: references, visits, the lock, the order of the list and absence of deadlock without restriction; names when they are terminated and none is used while a cache of that name is being removed. Counter operations are atomic steps (their interleaving is C15's model), the management lock is C14's; a stop that fails is not modelled."
  },
  {
   "property": "C73",
   "status": "partial",
   "theorems": [
    "C73_clean",
    "C73_running",
    "C73_load",
    "C73_stop",
    "C73_stop_load",
    "C73_kept",
    "C73_attach",
    "C73_probe",
    "C73_presence",
    "C73_probe_refuted",
    "C73_force_refuted",
    "C73_detach_refuted",
    "C73_dirty_refuted"
   ],
   "note": "REFUTED as stated: a detach reports success although the zeroing of the superblock failed, or although the zeros are still volatile, so the cache can still be (or reappear) on the device; a forced attach over a cleanly stopped cache can leave, after a power cut, the old clean mark over new pages (zeros not flushed before the pages are written; only the checksums notice); the dirty-data mark is written by stop only, so probe says 'no dirty data' of a cache that lost power with dirty data; probe accepts a superblock whose checksum is wrong. Proved for all runs otherwise: clean mark fits the pages, running caches are never marked clean, successful stop is exact and loaded back, presence kept without force/detach, load accepts implies probe reports the same values."
  },
  {
   "property": "C74",
   "status": "partial",
   "theorems": [
    "C74_released",
    "C74_balance",
    "C74_progress",
    "C74_in_use",
    "C74_no_bug",
    "C74_alone",
    "C74_reads",
    "C74_detached",
    "C74_bug_refuted",
    "C74_direct_refuted",
    "C74_detach_refuted"
   ],
   "note": "REFUTED as stated (C74_bug_refuted, C74_direct_refuted, C74_detach_refuted): a request that found metadata frozen and comes to refcnt.d2c when attach has just frozen that one hits ENV_BUG; coming later, it is a direct request on a running write-back cache and reads stale data; a request allocated before a detach and submitted after a direct write reads the old copy. Proved in all executions: no released device is touched (C74_released); the counters balance, so that ENV_BUG of ocf_req_new is the only one (C74_balance); attach and detach can go on once no request holds a reference (C74_progress); after an attach nothing is frozen and pass-through is off (C74_in_use). Proved when attach meets no request between the two counters: no ENV_BUG at all (C74_no_bug), no direct request beside a running cache (C74_alone); when, moreover, no direct write overtakes a request allocated before the detach: all reads are right (C74_reads) and the core is complete after a detach (C74_detached). Submission and completion are one step in the model."
  },
  {
   "property": "C75",
   "status": "proved",
   "theorems": [
    "C75_one_block",
    "C75_call",
    "C75_contents",
    "C75_store",
    "C75_bug",
    "C75_alru",
    "C75_overflow_refuted"
   ],
   "note": "For amounts that fit a size_t, as stated. C75_overflow_refuted: a product of size and count that does not fit is not noticed and reported as success with less memory than asked for (no caller in the source can do that)."
  }
 ]
}