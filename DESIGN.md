# Formal model of OCF (Open-CAS/ocf) in Rocq/Coq

## Layout

- `properties.jsonl` - the properties in English.
- `rocq/theories/<Topic>Model.v` - definitions only. Each definition cites the C source it models.
- `rocq/theories/<Topic>Proofs.v` (also `...Inv.v`, `...Eng*.v`, `...Live.v`) - lemmas.
- `rocq/theories/<Topic>Props.v` - small independent spec definitions, the property theorems, non-vacuity
  examples and `Print Assumptions`.
- `MANIFEST.json` - property -> theorem names and status.
- `seeded/LOG.jsonl` - mutation testing log. "killed" means that some proof on the way to the listed theorems no longer
  compiles for the edited model (`failed` names where it stopped). It does not prove that the theorems are false of it.

Conventions: total computable functions; `ENV_BUG_ON`/undefined behaviour is a distinct outcome (`None` or an
error constructor), never silently totalised. Machine integers are `N`/`Z`; wrap-around is written explicitly
where the property depends on it and otherwise an explicit side condition is stated.
A theorem ending in `_refuted` proves that the property as stated is false of the faithful model, with a concrete
witness; a theorem ending in `_partial` proves less than the property, and says what is missing.

## Properties

| id | topic | what is modelled and how it is proved | result |
|---|---|---|---|
| C01 | Data path | DpModel: per-sector core data, cached data, mapping, valid and dirty bits in memory and on the device; one program per engine (WT, WB, WA, WI, WO, PT, read, backfill, fast path, discard, cleaning, eviction), each a tree of I/O groups (any order inside a group) and in-memory updates. Refinement to a plain array of sectors: invariant `Inv`, a Hoare-style `wp` lemma per engine (DpEng*.v), induction over histories. | proved: Sequential histories of reads/writes (all modes, normal and fast submit path), discards, cleaning, eviction, metadata flush, clean restart; every order inside parallel I/O groups; any line size and line count. Concurrent requests are the subject of C52. Theorems: `C01_reads_latest_write`, `C01_operations_complete` |
| C02 | Data path | Same model; post-condition per engine from the invariant. | proved: Normal submit path, every reachable prior state. The fast submit path (use_submit_io_fast) violates it: see C53. Theorems: `C02_non_lazy_modes_update_core` |
| C03 | Data path | Same model; every operation keeps the abstract contents and no mapped dirty line is given up, victims being an arbitrary argument. | proved: Every operation of the data path, victims chosen arbitrarily by the environment. Theorems: `C03_dirty_data_never_dropped`, `C03_dirty_lines_not_reused` |
| C04 | Data path, errors | ErrModel: the engines with their error branches, any I/O of any group may fail (and may or may not have been executed). Invariant with a set of possible values per sector; induction over histories with failures. | partial: REFUTED as stated: a write over sectors that are dirty in the cache can fail in a way that destroys the older dirty data. Write-through: core write error -> ocf_engine_invalidate purges the range with the dirty data, reads return the even older core contents (C04_wt_refuted); the same for write-back with a cache error (C04_wb_refuted); both with one failing I/O. Proved for every history with any number of failures in reads, writes, cleaning and metadata writes, provided that a write in which an I/O fails bypasses the cache (WI/PT) or its range is not dirty: a read that completes without error returns the last acknowledged data or that of a write that failed since. Missing: discards, concurrency of requests, atomic volumes. Theorems: `C04_failed_writes_partial`, `C04_old_or_new_partial`, `C04_faultfree_runs_included`, `C04_wt_refuted`, `C04_wb_refuted` |
| C05 | Crash | DpModel, with a crash in any I/O group after any subset of it; recovery as in C42. Invariant `Mix` over half-executed groups. | proved: Crash at any point of any operation, any subset/order of the I/O group in flight (metadata entries individually), repeated crashes and clean restarts; write-ordering devices without volatile cache (volatile caches: C51). Theorems: `C05_crash_recovery_succeeds`, `C05_crash_consistency` |
| C06 | Crash, errors | ErrModel with crashes between operations. | partial: REFUTED as stated: a write-through write over dirty sectors whose cache write fails is acknowledged, but the invalidation is only in memory; after a crash recovery brings the old dirty data back (C06_refuted). Also: after a write-back write that failed because of a metadata write error, a successful retry does not write the metadata, so the acknowledged data is lost by a crash (C06_retry_refuted). Proved: for every history of acknowledged operations with tolerated errors and crashes between operations, recovery succeeds and reads return the last acknowledged data, provided that no tolerated cache error meets a WT/WA write whose range is dirty. Missing: crashes inside an operation that also sees an error, histories with reported failures. Theorems: `C06_recovery_after_hidden_error_partial`, `C06_acknowledged_data_survives_partial`, `C06_refuted`, `C06_retry_refuted` |
| C07 | Bitmaps | BitsModel: bitmaps as `N` of explicit width, masks as written; `N.testbit` extensionality against a set of sectors. | proved: All bitmap operations of metadata_bit.h and the 'changed' wrappers, every width, bitmap and range. Theorems: `C07_mark_exact`, `C07_unmark_exact`, `C07_test_exact`, `C07_test_and_modify_exact`, `C07_changed_exact`, `C07_valid_dirty_exact` |
| C08 | Line geometry | GeoModel: integer functions as written with 64-bit wrap; spec: the set of bytes of the request. | proved: Request line range and per-line sector ranges with 64-bit wrap explicit; byte level (unaligned requests too). Theorems: `C08_lines_cover_exactly` |
| C09 | Collision table | CollisionModel: hash heads and doubly linked chains in arrays as written; chain invariant, refinement to a finite map, induction over histories. | proved: Any hash table size > 0, any number of lines, any sequence of allowed map/unmap operations (callers map only unmapped core lines to unused lines). The failure in the statement is modelled as: a line index out of range, ENV_BUG_ON, or a walk longer than the number of lines; none occurs. Bucket operations are atomic (bucket lock). Theorems: `C09_lookup_refines_map`, `C09_injective`, `C09_other_unchanged` |
| C10 | LRU lists | LruModel: prev/next/hot arrays and list headers as written; refinement to Coq lists. | proved: Any number of lines, any start order (new cache or recovery), any sequence of hit, move, free, dirty, clean, allocate and evict operations; each operation atomic (LRU list lock plus hash bucket lock). No ENV_BUG_ON or bad pointer occurs. Reported core occupancy (cached_clines) is a separate counter: C33. Theorems: `lru_refines_lists`, `C10_exactly_one_list` |
| C11 | LRU lists | Same; invariant on the hot prefix and its length. | proved: Half is rounded down; the free list has no hot marks (track_hot false). Lines whose lock is not available are skipped by eviction. Theorems: `C11_hot_prefix`, `C11_order`, `lru_refines_lists` |
| C12 | Cache line lock | AlockModel: transition system, one step per atomic instruction or critical section, any number of requests; inductive invariant over all runs. | proved: Transition system of utils_alock.c + ocf_cache_line_concurrency.c, any number of requests, lines, waiters lists and any interleaving, allocation failures included; also: no internal assertion fails. Side condition: fewer than 2^30 lines requested in total (lock counters are ints). One step = one atomic instruction or one critical section of a waiters list. Theorems: `C12_exclusion`, `C12_owner_holds_all` |
| C13 | Cache line lock | Same model; invariants on waiter lists, a decreasing measure for termination (AlockLive.v). | proved: Same model. Safety parts hold with allocation failures too. Liveness (no deadlock, every run finite) is proved without allocation failures; with one, a lock can stay behind for ever (finding, C13_liveness_oom_refuted: waitlist_remove_entry matches the request only). Theorems: `C13_resumed_once`, `C13_no_waiter_forgotten`, `C13_first_come_first_served`, `C13_runs_are_finite`, `C13_no_deadlock`, `C13_liveness_oom_refuted` |
| C14 | Management lock | AsyncLockModel: lock state, waiter list, callbacks as separate steps; invariant over all runs. | proved: Proved for every sequence of lock, trylock, unlock, completion and destroy steps. Two findings beside the property: a trylock refused because the cache is stopping keeps its cache reference, and the lock holder that stops the cache unlocks after the spinlock was destroyed. Theorems: `C14_no_bug`, `C14_exclusion`, `C14_is_locked`, `C14_success_owns`, `C14_keeps_until_unlock`, `C14_arrival_order`, `C14_no_overtaking`, `C14_completed_once`, `C14_no_waiter_forgotten`, `C14_no_deadlock`, `C14_references_partial`, `C14_reference_leak_refuted`, `C14_unlock_after_deinit_refuted` |
| C15 | Reference counter | RefcntModel: program counters of any number of threads, one step per atomic instruction; invariant over all runs. | partial: REFUTED as stated: a thread interrupted between its decrement to zero and its compare-and-swap runs a callback registered later, while another thread holds a reference. Proved: no grant while frozen, exactly once per registration, never lost, and never early if the registration does not meet such a thread. Theorems: `C15_no_grant_when_frozen`, `C15_exactly_once`, `C15_never_early_refuted`, `C15_never_early_partial`, `C15_early_meaning` |
| C16 | Hash buckets | HashModel: the iteration macros and lock/unlock/upgrade loops as written; equality with the sorted set of buckets, deadlock freedom by the order of buckets. | proved: Macros of ocf_metadata_concurrency.c with 32/64-bit wrap; side condition: entries+count < 2^32 and no 64-bit overflow of core line numbers. Deadlock freedom for any number of requests with read, write and upgrade phases. Theorems: `C16_buckets_ascending_exact`, `C16_in_range_exact`, `C16_no_deadlock`, `C16_terminates` |
| C17 | Engine I/O split | GeoModel: both branches of ocf_submit_cache_reqs; spec by bytes. | proved: Both branches (sequential shortcut and merge loop); the sequential flag is the one computed by lookup and eviction patching. Side condition: addresses below 2^64. Theorems: `C17_cache_io_exact`, `C17_places_disjoint` |
| C18 | Pipelines | PipelineModel: step interpreter as written; invariant over traces. | proved: Any list of steps (single, conditional, iterating, terminator) and any sequence of continuations by the handlers. A predicate is a function of the step index: each conditional step is reached at most once, so this covers predicates that depend on changing state. Assumes each handler continues the pipeline exactly once (all call sites do). Theorems: `C18_in_order`, `C18_finish_once`, `C18_stops`, `C18_can_go_on`, `C18_bounded` |
| C19 | Parallel jobs | ParallelModel: one step per atomic operation, any number of shards; invariant over all runs and a decreasing measure. | proved: All interleavings of single atomic operations, any number of shards. C19_nobody_left: when finish is called no other thread will touch the job. Theorems: `C19_finish`, `C19_nobody_left`, `C19_called`, `C19_steps_end` |
| C20 | Shards | ShardModel: loop bounds as written (32/64-bit); partition of the entries, using the bounds proved in SizeProofs. | proved: All parallel passes; for every accepted cache device (lines computed by the sizing code) and up to 500 queues every entry is processed exactly once. C20_limit_refuted shows the bound on the number of entries, guaranteed by the sizing code, is needed. Theorems: `C20_contig32`, `C20_contig64`, `C20_stride`, `C20_populate`, `C20_shards_positive`, `C20_own_list`, `C20_accepted`, `C20_limit_refuted` |
| C21 | Composite volume | CompModel (splitting loop) and FwdModel (completion); spec: concatenation of the members. | partial: REFUTED as stated (error part only): address mapping and exactly-once completion proved for any number and lengths of members; the error of a member can be erased by the overlapping forward_end(token,0) of the composite volume itself (C21_error_iff_refuted); error iff some member failed is proved for non-overlapping forward_ends. Theorems: `C21_exact_concatenation`, `C21_out_of_range_bug`, `C21_simple`, `C21_completes_once`, `C21_parts_counted`, `C21_error_iff_partial`, `C21_error_iff_refuted`, `home_unique` |
| C22 | Metadata page flush | CompModel: sort, dedup and merge loop as written; spec: the set of pages of marked lines. | proved: Any correct env_sort; any map, marks and entries per page. Submission of the writes succeeds (when metadata_io_write_i_asynch fails the loop stops). Theorems: `C22_pages_exact`, `C22_marked_lines_flushed`, `merge_gaps` |
| C23 | Metadata I/O | MioModel: workers at single-atomic-operation level; invariants over all runs with errors. | partial: REFUTED as stated: with an error the completion may never be called. metadata_io_req_complete drops a worker that took a chunk before another one failed (C23_completion_lost_refuted); metadata_io_restart_req drops it when the page lock fails (C23_lock_error_refuted); raw_ram_zero ignores a failed start. Proved for all schedules and errors: at most once, never before all I/O is over, error iff a chunk failed, success means every page exactly once, I/O fits the buffer, request freed exactly once and last, and exactly one completion if nothing fails. Theorems: `C23_at_most_once`, `C23_not_early`, `C23_error_reported`, `C23_success`, `C23_buffer_fits`, `C23_freed_last`, `C23_called_without_errors`, `C23_steps_end`, `C23_completion_lost_refuted`, `C23_lock_error_refuted`, `C23_zero_no_memory_refuted`, `C23_empty_refuted` |
| C24 | Superblock | SbModel: flapping save protocol, volatile device cache, crash at any step; invariant over histories of saves. | partial: REFUTED as stated: proved for all histories whose only failures are superblock writes refused without effect, any segment sizes, any checksum, any crash step and any part of the volatile cache written; false after any other failed save, since the finish handler moves flapping_idx back whether or not it was moved forward or the superblock was written (metadata_superblock.c:469-488). Theorems: `C24_crash_atomic_partial`, `C24_saved_partial`, `C24_segment_error_refuted`, `C24_superblock_error_refuted` |
| C25 | Sizing | SizeModel: the 1000-iteration loop as written; convergence and bounds by real arithmetic on Z. | partial: REFUTED as stated: the number of lines is computed without failure for every accepted device, metadata and data fit, less than 1 MiB unused (proved); but with a 32-bit PAGE_SIZE (POSIX environment) metadata_offset wraps once metadata reaches 4 GiB, e.g. a 400 GiB device with 4 KiB lines, and the data area then starts inside the metadata. Proved to follow the metadata when PAGE_SIZE is 64 bits wide or metadata is below 4 GiB. Theorems: `C25_fits`, `C25_data_after_metadata_partial`, `C25_data_overlaps_refuted`, `C25_posix_refuted`, `C25_line_range` |
| C26 | Layout | SizeModel: offsets as written; disjointness for all sizes. | proved: All sections and both copies of double-buffered ones, for every accepted device size, line size and fixed section sizes up to 36 MiB in total; every section has room for its entries. Sections of volatile and atomic metadata types are not modelled. Theorems: `C26_disjoint`, `C26_entries` |
| C27 | Generator | GenModel: bit reversal on N; permutation theorem by the inverse function. | proved: For every limit from 2 to 2^30 and every generator state (hence every offset). Limits 0, 1 and above 2^30 are undefined behaviour in the C code (clz of 0, signed shift) and shown to be so. Theorems: `C27_generator_is_permutation`, `C27_init_succeeds`, `C27_undefined_limits` |
| C28 | Sequential streams | RbModel (red-black tree with rings on a heap of nodes, as written) and SeqModel (ocf_seq_cutoff.c). SeqProofs carries the structure and key invariants of C59 through updates and promotions; the key invariant is lost only in the tracker a stream is promoted from. | partial: REFUTED as stated: promoting a stream to the core clears its valid flag, part of the search key, while it stays in the search tree; other tracked streams become unreachable and requests that should be cut off are not. Also the search skips the head of a ring of equal streams. What does hold is proved for every history: the tracker of a core, and any tracker from which no stream is promoted, finds exactly the streams it tracks (requests within the 64-bit address space). Theorems: `C28_promotion_loses_stream_refuted`, `C28_decision_lost_refuted`, `C28_longest_stream_refuted`, `C28_tracker_alone_partial`, `C28_core_tracker_partial` |
| C29 | N-hit promotion | NhitModel: ring buffer and hash chains as written; refinement to a FIFO of counters. | partial: REFUTED as stated: a request with at least one mapped line is admitted whatever the counters say (deliberate in the code), and two overlapping first requests are counted once. Proved: the ring buffer with hash chains refines a first-in first-out memory of counters for every history; admission of requests without mapped lines implies the threshold, and is exact while no line had to be forgotten. Theorems: `C29_fifo`, `C29_admitted_only_partial`, `C29_exact_while_remembered`, `C29_partial_hit_refuted`, `C29_concurrent_refuted` |
| C30 | ACP cleaning | AcpModel: chunk and bucket functions as written; invariant over histories. | partial: REFUTED as stated: (1) the backoff test in _acp_can_clean_chunk is inverted, so after a cleaning error a chunk is eligible only during the backoff time and never again afterwards; (2) populating puts a chunk with less than 10% dirty lines into bucket 0, from which nothing is ever cleaned. Proved: exact dirty counters, and eligibility and choice of a dirty chunk for error-free histories from a clean start. Theorems: `C30_refuted`, `C30_error_refuted`, `C30_populate_refuted`, `C30_error_never_again`, `C30_populate_ineligible`, `C30_counters_partial`, `C30_eligible_partial`, `C30_candidate_partial` |
| C31 | ALRU trigger | AlruModel: uint32 arithmetic as written. | partial: REFUTED as stated: info.dirty * 100 wraps in 32 bits, so a fully dirty cache of 42949673 lines (164 GiB with 4 KiB lines) does not trigger cleaning. Proved: the trigger never fires below the ratio, and is exact up to 42949672 dirty lines ('exceeds' read as 'reaches': the code compares with >=). Theorems: `C31_refuted`, `C31_sound_partial`, `C31_exact_partial` |
| C32 | I/O classes | PartModel: eviction loops, class list and its sort as written, histories of requests and configuration changes. | partial: REFUTED as stated: after a cache is loaded the list of I/O classes is not sorted, so lines are taken from a class although a less important class has evictable lines (C32_load_order_refuted), and requests are refused although less important classes have lines (C32_load_refused_refuted). Proved for every history: minimum, maximum, own class when over the maximum, no ENV_BUG. Proved for histories without a load: free lines first, then surplus, then classes by priority (C32_order_partial); refusal only when nothing can be taken (C32_refused_partial). Theorems: `C32_minimum`, `C32_minimum_reached`, `C32_maximum`, `C32_own_class`, `C32_order_partial`, `C32_refused_partial`, `C32_no_bug`, `C32_load_refused_refuted`, `C32_load_order_refuted`, `C32_own_class_none` |
| C33 | Occupancy counters | OccModel: all places that change the counters, on the bitmaps of BitsModel; invariant over histories. | partial: REFUTED as stated: __set_cache_line_invalid returns before decrementing the cached counters when requests wait for the line (utils_cache_line.c:31-32), so a counter can exceed the number of mapped lines or, in the other order, go negative. Proved: dirty counters in all histories; cached counters in histories in which no request waits for a line that becomes invalid. Theorems: `C33_dirty`, `C33_cached_partial`, `C33_waiters_refuted`, `C33_negative_refuted` |
| C34 | Eviction cleaner | LruIterModel: the cleaner_running flag protocol and the walk. | partial: REFUTED as stated: an attempt that finds no dirty line it can lock returns without clearing cleaner_running (ocf_lru.c:645-648), and no later attempt ever starts cleaning for the class. Proved: restartable in histories without such an attempt. Theorems: `C34_restart_partial`, `C34_stuck`, `C34_restart_refuted` |
| C35 | I/O validation | ReqModel: range checks and request set-up with 64/32-bit wrap. | partial: REFUTED as stated: the range check adds offset and length in 64 bits (ocf_core.c:186) and the sum wraps, so 8 KiB at 2^64-4096 are accepted (C35_wrap_refuted). Proved where the sum does not wrap: exactly the requests inside the volume are accepted and their lines are exact. Theorems: `C35_range_partial`, `C35_lines`, `C35_wrap_refuted` |
| C36 | Mode resolution | ModeModel: decision functions as written, case analysis over all inputs. | partial: REFUTED as stated in its last clauses when the cache is started with use_submit_io_fast: a write-through write over mapped lines is acknowledged dirty, even while new dirty data is blocked by a flush. Precedence is proved for all inputs; the last clause is proved with the option off. Theorems: `C36_precedence`, `C36_lazy_only_if_configured_partial`, `C36_lazy_only_if_configured_refuted`, `C36_blocked_dirty_refuted` |
| C37 | Write-only read | FwdModel: fragment loop with completion interleavings. | partial: REFUTED as stated: every fragment re-initialises the error field (ocf_engine_forward_cache_io calls ocf_req_forward_cache_init), so a failure of an earlier fragment that completed before the next one is submitted is lost; partial: errors arriving after the last submission are reported, completion is signalled exactly once. Theorems: `wo_complete_once`, `wo_error_refuted`, `wo_error_partial` |
| C38 | I/O queues | QueueModel: two lists, pushes and pops by any number of threads; invariant over runs. | proved: Over every interleaving of pushes and pops; the lists are modelled as sequences. Theorems: `C38_fifo`, `C38_once`, `C38_pending`, `C38_priority`, `C38_awake`, `C38_drained` |
| C39 | Core ids | CoreModel: bitmap search as written. | proved: For every bitmap, and after every history of operations; success supposes a new name and UUID and no failing step. Theorems: `C39_pick`, `C39_unique`, `C39_succeeds` |
| C40 | Flush | CleanModel: collection of dirty lines, portions, containers, cleaning requests; transition system with other cleaners; invariant over runs (CleanInv). | proved: Flush of core and of cache, any interleaving of containers, cleaning requests and environment steps (other cleaners, evictions; no user writes meanwhile), any error placement; also: no BUG assertion of the collecting/portioning code fires. Theorems: `C40_cache_flush_cleans_all`, `C40_core_flush_cleans_core`, `C40_no_bug` |
| C41 | Cleaner writes | CleanModel: run loop of _ocf_cleaner_core_submit_io as written; spec: maximal dirty runs. | partial: REFUTED as stated: a line that is completely valid and partly dirty is written as a whole, clean sectors included (utils_cleaner.c:456-463). Proved: exactly the maximal dirty runs otherwise; always all dirty and only valid sectors; addresses. Theorems: `C41_refuted`, `C41_writes_dirty_runs_partial`, `C41_writes_dirty_and_only_valid`, `C41_range_address` |
| C42 | Recovery | DpModel: per-line recovery as written. | proved: Every on-disk content. Theorems: `C42_recovery_accepts_exactly`, `C42_recovery_keeps_exactly_dirty` |
| C43 | Cleaner errors | CleanModel: error propagation between master and slave requests, all runs. | partial: REFUTED as stated: errors of the metadata flush of a non-first request and of the cache flush are dropped. Proved: cache read, core write and core flush errors are always reported. Theorems: `C43_refuted`, `C43_data_errors_reported_partial` |
| C44 | Discard | DpModel: step loop as written; traces of core discards. | proved: Every range, step size and reachable state. The core discard is one I/O over the range; per sector it occurs exactly once in every execution trace. Theorems: `C44_discard_hides_and_touches_nothing_else`, `C44_outside_reads_as_before`, `C44_core_discarded_exactly_once` |
| C45 | Lists | ListModel: index based linked list in memory; refinement to Coq lists. | proved: ocf_lst_sort and all list operations of utils_list.h/.c on the linked list in memory, for every list, size and total preorder; sort is the stable insertion order. The array sort used by the cleaner (env_sort) is the C library's qsort or the kernel's sort, not OCF code, and not modelled. Theorems: `C45_sorted`, `C45_operations`, `sort_rep`, `add_rep`, `add_tail_rep`, `add_before_rep`, `add_after_rep`, `del_rep`, `init_rep`, `visit_rep` |
| C46 | Forward completion | FwdModel: error field read, write and counter decrement as separate steps; invariant over all runs. | partial: REFUTED as stated (error part): ocf_forward_end updates the error field with a plain read and write, so a successful forward_end overlapping a failing one erases the error and the user is told success (callback_error_refuted, wt_error_refuted). Proved for every interleaving: exactly once, after all device I/Os, reported errors are real, termination; proved for non-overlapping forward_ends: error reported iff one occurred (core or metadata flush for WT, cache errors tolerated). Theorems: `callback_exactly_once`, `callback_happens`, `callback_error_real`, `callback_error_serial`, `wt_complete_once`, `wt_completes`, `wt_error_real`, `wt_error_serial`, `wt_cache_error_tolerated`, `callback_error_refuted`, `callback_error_fragments_refuted`, `wt_error_refuted` |
| C47 | Metadata checksums | SaveModel: block and dynamic segments, CRC; histories of updates, save and load. | partial: REFUTED as stated: after adding a core failed because of its UUID (or succeeded with an empty one) an all-zero UUID page is allocated, counted in the stored checksum and not counted when loading, so a cleanly stopped cache is refused (witness evaluated with the real CRC-32). Proved: block segments load back byte for byte with equal checksum for every history of entry writes; UUID pages do for every history of adds, failed adds, removes, changes and restarts whose UUIDs have 1 to 4092 bytes, for any checksum function. Missing: allocation failures. Theorems: `C47_block`, `C47_uuids_partial`, `C47_failed_add_refuted`, `C47_empty_refuted` |
| C48 | Fallback pass-through | ModeModel: error counter over histories. | partial: REFUTED as stated: only errors of three engine sites are counted; read-hit errors on the fast path (all read hits in write-back and write-only mode) and write-back write errors never count. Proved: exact trigger condition over every history for the counted errors. Theorems: `C48_fallback_exact_partial`, `C48_no_bug`, `C48_all_errors_refuted`, `C48_write_back_hits_use_fast` |
| C49 | Request statistics | StatsModel: counters, non-atomic reading and reset interleaved with requests; the report arithmetic; one counter update per engine run. | partial: REFUTED as stated: statistics reset while a request is between its two increments leaves a miss without a request, and the hits reported are 2^64-1 for good (C49_reset_refuted); a read hit that the cache device fails is counted twice (C49_once_refuted). Proved: without resets, for every interleaving of requests and readers, every report is conserved; counters are exact at rest; without device errors each request is counted once in every mode. Supposes fewer than 2^64 requests in total. Theorems: `C49_report_partial`, `C49_exact_partial`, `C49_once_partial`, `C49_fraction`, `C49_reset_refuted`, `C49_once_refuted` |
| C50 | Standby updates | PassiveModel: page and segment arithmetic as written; mirror invariant over sequences of I/Os. | partial: REFUTED as stated for writes with an offset into the data, empty writes at address 0, and unaligned writes (witnesses on the model; the last goes unreported when it starts inside the last metadata page). Proved for every sequence of reads, writes outside the metadata and non-empty whole-page writes up to 32 MiB: the in-memory superblock and collision segments mirror the device after each. Missing: concurrent writes (page locks), device errors. Theorems: `C50_exact_partial`, `C50_mirror_partial`, `C50_offset_refuted`, `C50_empty_refuted`, `C50_unaligned_refuted`, `C50_last_page_refuted`, `C50_refcount_refuted` |
| C51 | Power failure | VolModel: DpModel's engines with the flushes they submit; every device write is pending until a flush, a power failure keeps any part of the pending writes. Simulation to DpModel plus an invariant on pending writes (VolProofs, VolProofs2). | partial: REFUTED as stated: no flush separates data from metadata. C51_write_through_refuted: write-back, flush, then a write-through write over the dirty sector whose metadata reaches the medium but whose core write does not (even with a cache device that protects its writes). C51_write_back_refuted: write-back over data held by the core, metadata on the medium, cached data not. Proved for all histories and power failures: holds with a protected cache device if no write-through write overlaps dirty data; holds with two volatile devices if no write is write-back/write-only; in all modes holds right after the flush. Missing: discards, concurrent requests, I/O errors, FUA flags. Theorems: `C51_protected_cache_partial`, `C51_no_lazy_writes_partial`, `C51_right_after_flush_partial`, `C51_write_through_refuted`, `C51_write_back_refuted` |
| C52 | Concurrency on one line | ConcModel: requests of all modes and cleaning on one core line as a transition system; every sector of a device I/O and every metadata section is a step. Invariant over all interleavings (ConcProofs, ConcSteps): which write each sector of cache and core holds. Without bypassing writes the claim holds for the code as it is (`conc_cached`); with them if they do not overlap other writes of their sectors and no cleaning chooses its sectors while one is under way without lock (`conc_latest_partial`, `conc_reads_partial`, `conc_serial_partial`); both conditions are needed (`conc_latest_refuted`, `conc_overlap_refuted`). No errors, discards or crashes, one line. | partial: REFUTED as stated: the cleaner writes completely valid lines as a whole and so overwrites an acknowledged bypassing write that ran without lock (conc_latest_refuted, code as it is); independently of that, the second pass of a bypassing write drops newer dirty data of an overlapping acknowledged write-back write (conc_overlap_refuted, for both cleaner variants). Proved for every interleaving: without bypassing writes the claim holds for the code as it is, for any overlap of requests (conc_cached); with bypassing writes if they do not overlap other writes to their sectors and, unless the cleaner wrote dirty sectors only, no cleaning chooses its sectors while one is under way without lock (conc_latest_partial, conc_reads_partial, conc_serial_partial). Missing: I/O errors, discards, crashes, requests over several lines. Theorems: `conc_latest_partial`, `conc_reads_partial`, `conc_serial_partial`, `conc_cached`, `conc_latest_refuted`, `conc_overlap_refuted` |
| C53 | Fast submission | ModeModel and DpModel. | partial: REFUTED as stated: with use_submit_io_fast a completed write-through write over mapped lines is not on the core. Proved with the option off. Theorems: `C53_option_off_partial`, `C53_fast_path_refuted` |
| C54 | Section life cycle | SegLifeModel: section pointers, sticky disabled flag and allocated objects over histories of attach and detach. | partial: REFUTED as stated: section pointers are not cleared on detach and the disabled flag of the cleaning section is never reset, so changing disable_cleaner between attachments, or a failed attachment after a detach, releases a section twice or leaves the cleaning section missing; proved for any number of attachments with one setting and no failure. Theorems: `C54_same_setting_partial`, `C54_double_free_refuted`, `C54_missing_section_refuted`, `C54_failed_attach_refuted`, `C54_claim_refuted` |
| C55 | ALRU lists | AlruModel: pointer level lists per class, populate in shards, histories of events; refinement to lists of lines with their last write time; the collection loop equals a filter of the list by age. | proved: Sequential histories of the list operations (each runs under its lock). C55_collects_stale assumes a clock that does not go back; C55_collects_all (everything dirty is collected when the age limit is open) does not. Theorems: `C55_lists_exact`, `C55_collects_stale`, `C55_collects_all` |
| C56 | LRU walk | LruIterModel: the rotating mask, the walk, taking and selecting lines. Invariant relating the bits to the lists, for all lists. | proved: All list contents, lock sets, starts and counts. Theorems: `C56_take`, `C56_clean` |
| C57 | Core management | CoreModel: invariant over all histories of add, try-add, detach, remove with a failure at any step. | partial: REFUTED as stated: re-adding a core that fails at its front volume reports an error but leaves the core active and counted so (C57_try_add_refuted); a core inactive at load gets its front volume initialised twice, or never closed (C57_leak_refuted). Proved: the books agree after every history (C57_books); front volumes and undoing of failed operations outside these cases. Theorems: `C57_books`, `C57_front_partial`, `C57_failed_partial`, `C57_try_add_refuted`, `C57_leak_refuted` |
| C58 | Discard set-up | ReqModel: induction over the steps. | proved: For every offset, length and line size within the 64-bit range. Theorems: `C58_discard` |
| C59 | Balanced search tree | RbModel is the pointer program as written. RbTree relates its heap to coloured trees with holes; RbRot proves rotations and the exchange of nodes, RbIns and RbDel the two repair loops, RbRing the rings, RbKeys the order of keys. RbProps states the theorems against the list of present nodes. | proved: The tree theorems hold for any key order, any memory contents and any legal sequence of operations; the tracker theorems for any settings and requests, promotions included. Theorems: `C59_search_tree`, `C59_balanced`, `C59_trackers_never_fail`, `C59_trackers_balanced`, `C59_update` |
| C60 | Life of a cache | LifeModel: the pipelines of start, attach, load, standby, activate, detach, stop and set_policy as lists of steps with a failure at each, writing every acquisition and release to a log. LifeInv: for each operation, from each of the three conditions of a cache (no device, attached, standby), what every place holds after each possible end. LifeProps: induction over histories; refutations by computed witnesses. | partial: REFUTED as stated, in twelve ways (see the findings). Proved for every history outside these (ok_op): everything is released exactly once, all operations complete, a failing operation leaves the cache as it was; with standby instances only the device, its volume and the front volume can be left. Theorems: `C60_life_exact`, `C60_life_standby`, `C60_failed_op`, `C60_test_buffer_refuted`, `C60_atomic_refuted`, `C60_populate_refuted`, `C60_set_policy_refuted`, `C60_policy_detached_refuted`, `C60_load_cleaning_refuted`, `C60_load_cores_refuted`, `C60_inactive_refuted`, `C60_standby_stop_refuted`, `C60_activate_refuted`, `C60_load_attached_refuted`, `C60_start_refuted` |
| C61 | Management I/O | SubIoModel: the five functions over the forward counter of FwdModel, the splitting loop with 64/32-bit arithmetic, allocations as events. SubIoProps: induction over the loop for the pieces; exactly-once of C46 lifted to allocations and completions; refutations. | partial: REFUTED as stated for writing zeros: ocf_submit_cache_write_zeros never sets the callback of the forward nor req->priv, so every execution that reaches its end calls a NULL pointer (C61_zeros_never_completes, C61_zeros_refuted through the attach step); and discards of more than 4 GiB do not keep page alignment (C61_discard_pages_refuted; sectors are kept). Everything else is proved: exact cover for any length, told exactly once, everything released exactly once, in every interleaving and with any failures (an error code can be lost only when two I/Os of the request end at the same moment, C46). Theorems: `C61_discard_exact`, `C61_zeros_exact`, `C61_one_io_each`, `C61_once`, `C61_error_real`, `C61_error_told`, `C61_ends`, `C61_attach_discard`, `C61_zeros_never_completes`, `C61_zeros_refuted`, `C61_discard_pages_refuted` |
| C62 | Statistics reports | RepModel: counters as a function of class and kind, the accumulation loops with their 32/64-bit widths, each line of each report. RepProps: modular folds equal plain sums under bounds, lines are linear in the counters, so sums of reports are reports of sums; usage from the lines of the cores; refutations by computed witnesses. | partial: REFUTED as stated in five places: requests and errors of a core that is not opened (detached, counters kept) are left out of the cache's report while its lines are counted; the free line of an io class is always 0; free wraps for a cache without device whose cores still count lines; clean wraps (and exceeds 100 %) when a line becomes dirty between reading occupancy and dirty; a class that does not exist is reported when no core is opened. Everything else is proved for all caches and counters within the bounds, with the sum over opened cores. Theorems: `C62_adds_up`, `C62_core_of_classes`, `C62_cache_of_cores`, `C62_cache_errors`, `C62_cache_blocks`, `C62_class_of_cores`, `C62_cache_usage`, `C62_core_usage`, `C62_usage_of_cores`, `C62_inactive_refuted`, `C62_class_free_refuted`, `C62_detached_refuted`, `C62_torn_refuted`, `C62_no_class_refuted` |
| C63 | Superblock load | SbLoadModel: segments as bytes, the layout and the checksum as parameters, each step of both pipelines, the restore and the release of the copies as written. SbLoadProps: invariants over the steps (copies hold the old content, flapping index checked before use), acceptance characterised in both directions by a separate record of good stored configurations; refutations by computed witnesses. | partial: REFUTED as stated for the cores' UUIDs (not saved, so a failed load leaves the device's UUIDs in memory, C63_uuid_refuted) and for the core count (not compared with the number of cores, stop then leaves a core behind, C63_core_count_refuted). Everything else is proved for every device content, layout, checksum function and failure: success iff the stored configuration is good, all other segments restored on failure, told once, copies freed once, no assertion fails. Theorems: `C63_no_bug`, `C63_success`, `C63_accepted`, `C63_restored`, `C63_once`, `C63_reasons`, `C63_uuid_refuted`, `C63_core_count_refuted` |
| C64 | volumes | transition system of the volume calls; invariant: live blocks = blocks held, each once; pool on top; witnesses by computation | partial: REFUTED as stated: changing the uuid of a core taken from the pool makes its removal free the caller's memory (C64_set_uuid_refuted); the uuid handed to ocf_mngt_core_set_uuid is kept by pointer and read later (C64_dangling_refuted); a uuid that is a prefix of another counts as equal (C64_prefix_refuted); a volume taken from the pool is open but its counter stays frozen (C64_frozen_refuted); on_init and on_deinit are not paired (C64_hooks_refuted). Proved without ocf_volume_set_uuid on copied uuids: all the rest of the statement. Theorems: `C64_balanced`, `C64_nothing_left`, `C64_alternate`, `C64_pool`, `C64_refused`, `C64_taken`, `C64_lookup`, `C64_set_uuid_refuted`, `C64_dangling_refuted`, `C64_prefix_refuted`, `C64_frozen_refuted`, `C64_hooks_refuted`, `C64_open_device` |
| C65 | cleaner run | CrunModel.v gives a run of the cleaner as the events of the thread and of the flush completion; a trace is any interleaving. Balance by counting before and after the start of the flush; the ALRU choice equals a prefix of the filtered lists by induction; the ACP rounds by induction over runs; parameters by induction over settings | partial: REFUTED as stated in two points: while the tick count is below stale_buffer_time compute_timestamp wraps and lines used this second are flushed (C65_stale_refuted; needs an environment whose tick count starts at 0, env/posix counts from 1970); alru_clean gives back the metadata lock, and ocf_cleaning_perform_cleaning the reference, only after the completion may have released the cache lock and called end (C65_end_last_refuted; without a flush the reference is always given back after end, C65_end_before_put). Everything else is proved; the staleness with the clock past stale_buffer_time and below its wrap (C65_alru_rest). Theorems: `C65_balanced`, `C65_after_unlock`, `C65_when`, `C65_alru_chosen`, `C65_alru_complete`, `C65_alru_rest`, `C65_alru_pause`, `C65_acp_round`, `C65_acp_flush`, `C65_end_before_put`, `C65_params`, `C65_limits`, `C65_stale_refuted`, `C65_end_last_refuted`, `C65_acp_full` |
| C66 | purge, core removal | PurgeModel.v adds the invalidation and the purge pipeline to the flush of CleanModel; the state after the flush comes from the invariant of C40, the loop of ocf_metadata_actor is handled by induction. The loop that removes a core's lines is a transition system with other requests acting between its steps as the list lock allows; invariant: lists before the current one and the part of the current list before the cursor hold no line of the core | partial: REFUTED as stated in four points: purging a detached cache dereferences a null pointer, where flush refuses (C66_purge_detached_refuted); when the removal cannot write the collision section the core stays without lines but with its count of dirty lines, and the next flush with a dirty line stops at ENV_BUG (C66_remove_failed_refuted); refused removals and detachments call back with the cache instead of the caller's context (C66_callback_refuted); the removal loop relies on the caller to stop requests of the core, otherwise lines stay behind (C66_remove_not_quiet_refuted). Everything else is proved, the removal for a caller that has stopped the core's requests. Memory for the flush containers is assumed available. Theorems: `C66_invalidate_exact`, `C66_purge`, `C66_purge_balanced`, `C66_purge_detached_refuted`, `C66_remove_all`, `C66_remove_others`, `C66_remove_ends`, `C66_remove_not_quiet_refuted`, `C66_remove_core`, `C66_detach_core`, `C66_remove_failed_refuted`, `C66_callback_refuted`, `C66_callback` |
| C67 | constructors and destructors | CtorModel: each function as a program emitting taken / refused / given back events under an arbitrary oracle; CtorProps: events are played against a bag of resources (giving back what is not held has no meaning), proved with a weakest-precondition calculus | partial: REFUTED as stated in seven points: ocf_metadata_concurrency_attached_init leaks the hash semaphores when a collision page semaphore fails; ocf_mio_concurrency_init frees vmalloc memory with env_free; nhit_hash_init leaks the ring buffer when its lock fails; ocf_ctx_create never destroys its mutex on failure and leaks the core or cache volume type; ocf_queue_create leaks the queue lock when the trackers fail; ocf_req_new leaks the d2c reference and hits ENV_BUG if both counters are frozen; ocf_core_volume_submit_discard never frees a request whose map cannot be allocated. Everything else holds for every pattern of refusals; where a leak is known the theorem says exactly what may be left. Theorems: `C67_metadata_locks`, `C67_attached_locks`, `C67_attached_locks_refuted`, `C67_alock`, `C67_page_locks`, `C67_mio_locks`, `C67_mio_locks_refuted`, `C67_raw_ram`, `C67_raw_dynamic`, `C67_nhit`, `C67_nhit_refuted`, `C67_mpool`, `C67_ctx_create`, `C67_ctx_create_refuted`, `C67_ctx_life`, `C67_queue`, `C67_queue_refuted`, `C67_req_put`, `C67_req_new_mngt`, `C67_req_new_cache`, `C67_req_new`, `C67_req_new_refuted`, `C67_req_new_cleaner`, `C67_io_life`, `C67_discard_life`, `C67_discard_life_refuted`, `C67_cleaner_req`, `C67_cleaner_free` |
| C68 | metadata page locks | `PlModel.v` models the page-to-entry functions of both page locks and, on top of the lock model of C12, a system of requests that lock, copy page by page, write in any order, end and unlock while memory keeps changing; the content of a page is the number of changes made to it. Theorems by an invariant over all runs; `C68_failed_clean` is the positive counterpart of `C13_liveness_oom_refuted` for page ranges | proved: Lock entries of page ranges (active and standby), exclusion, no older copy on the device, completed flush is on the device, no flush is stuck, a failed one leaves nothing. Pieces of one metadata I/O are separate requests; a page reaches the device in one moment; C68_all_end assumes waiter allocations succeed. Theorems: `C68_mio_entries`, `C68_pio_entries`, `C68_exclusive`, `C68_no_older_copy`, `C68_flushed`, `C68_all_end`, `C68_failed_clean`, `C68_flush_spread`, `C68_mio_refuses`, `C68_error_ends` |
| C69 | atomic metadata | `AtomModel.v` models the functions one by one. `C69_discard_exact` counts, for every byte of the device, how many discards cover it and compares with the request and its map (induction over the map, permutation by sorting, runs). `C69_recovery` is an invariant over the sectors drained so far, for reads at the address of the sectors; `C69_recovery_refuted` uses the address the code computes (`PAGES_TO_BYTES` of a sector count). `C69_zero_refuted`, `C69_entry_unmapped_refuted`, `C69_entry_end_refuted` are findings. | partial: REFUTED as stated in four points: recovery reads all steps but the first at the wrong address (C69_recovery_refuted; restored if the address is that of the sectors, C69_recovery); zeroing a line completes twice (C69_zero_refuted; its entry point has no caller); the entry of a sector of an unmapped line follows a null pointer; the address just behind the device is accepted. Proved otherwise: discards, entries of mapped lines, invalid neighbours, sequence numbers. Errors of the reads and wrap of 64-bit addresses not modelled. Theorems: `C69_discard_exact`, `C69_discard_once`, `C69_entry`, `C69_entry_at`, `C69_entry_metadata`, `C69_entry_unmapped_refuted`, `C69_entry_end_refuted`, `C69_invalid_before`, `C69_invalid_after`, `C69_recovery`, `C69_recovery_refuted`, `C69_zero_refuted`, `C69_numbers`, `C69_numbers_used_up`, `C69_recovery_outside` |
| C70 | tunable parameters | `TuneModel.v` models the setters and getters on a record of all parameters, the policy object with its pointers, attach and detach. `C70_limits` is an invariant over all operation sequences of callers that observe `caller_ok`; `C70_set_get` relates each setter to the table of limits; `C70_all` is an induction over the visited cores. What goes wrong otherwise is in the `_refuted` theorems. | partial: REFUTED as stated in six points: setting the promotion policy without device follows a null pointer and the mode of a detached cache is changed (missing return); promotion parameters of a wrong type hit ENV_BUG_ON; the configuration of a new core is not checked; setting all cores leaves out cores not opened, and accepts any value if there is no opened one; attaching resets the parameters of the policies; parameters of a cache without device are zeros outside the limits. Proved otherwise for all operation sequences. Values are naturals; loading a configuration from a device and standby are not in the model. Theorems: `C70_limits`, `C70_effective`, `C70_set_get`, `C70_detached`, `C70_all`, `C70_detach_keeps`, `C70_attach_values`, `C70_attach_refuted`, `C70_mode_detached_refuted`, `C70_promotion_detached_refuted`, `C70_promotion_type_refuted`, `C70_add_core_refuted`, `C70_all_refuted`, `C70_unset_refuted` |
| C71 | failover | FailoverModel.v: start of a standby instance by attaching or loading, writes through its volume (PassiveModel.v), detaching, and the stages of activation on bytes of superblock and collision segment, with the shard by shard rebuilding of the mapping. Invariant: the superblock in memory mirrors the device and every entry in memory agrees with the one on the device up to clean sectors; rebuilding is characterised per line and shown to keep it. The configuration checks, checksums and what the other sections write are parameters. | partial: REFUTED as stated in two points: an activation that fails while the shutdown status is written (C71_stuck: a failed write of the configuration sections or a failed flush behind the superblock, for all geometries and histories) leaves a flapping index in memory that differs from the device, and every later activation fails with a superblock mismatch although the device is intact; a write into the collision segment that is not of whole pages reaches the device and not the memory, and activation succeeds with a mapping that does not know the dirty data. Proved: the rest, for page aligned writes (up to 32 MiB) one after the other and failures before the shutdown status is written. A failed write of the superblock itself, discards on the standby volume (not applied to the memory) and a device changed outside of the superblock while detached are not covered. Theorems: `C71_failover`, `C71_guard`, `C71_stuck`, `C71_retry_refuted`, `C71_unnoticed_refuted` |
| C72 | caches of a context | RegModel.v: transition system of any number of threads over the list of caches, their names as bytes, reference counters and ctx->lock; the copy of the list, the visits and the puts are separate steps. Invariant: the counter is the number of references plus one while listed, the lock belongs to whoever starts or copies. Names by induction over strncmp and strncpy; a visit by an invariant along the run of all other threads. | partial: REFUTED as stated in the part about names: a cache being removed is frozen before it leaves the list, and until then a search for its name ends there, so that a second cache of that name can be started, is not found, and a third one can be started (C72_twins_refuted); a name of 32 bytes without terminator is accepted, cut when stored and can be used again (C72_unterminated_refuted); with the length of the name instead of the terminator a longer name is found (C72_prefix_refuted). Proved: references, visits, the lock, the order of the list and absence of deadlock without restriction; names when they are terminated and none is used while a cache of that name is being removed. Counter operations are atomic steps (their interleaving is C15's model), the management lock is C14's; a stop that fails is not modelled. Theorems: `C72_safe`, `C72_no_leak`, `C72_find`, `C72_calm`, `C72_visit`, `C72_core`, `C72_lock`, `C72_progress`, `C72_order`, `C72_prefix_refuted`, `C72_twins_refuted`, `C72_unterminated_refuted` |
| C73 | marks on the cache device | MarkModel: device with durable state and volatile writes, the metadata steps of the attach, load, stop, detach and save pipelines as a machine, a failure or power cut at every step; probe on SbLoadModel's superblock. Invariant: either no clean mark anywhere, or no page volatile and every clean mark fits the durable pages; induction over all runs, the checksum any function (identity included). | partial: REFUTED as stated: a detach reports success although the zeroing of the superblock failed, or although the zeros are still volatile, so the cache can still be (or reappear) on the device; a forced attach over a cleanly stopped cache can leave, after a power cut, the old clean mark over new pages (zeros not flushed before the pages are written; only the checksums notice); the dirty-data mark is written by stop only, so probe says 'no dirty data' of a cache that lost power with dirty data; probe accepts a superblock whose checksum is wrong. Proved for all runs otherwise: clean mark fits the pages, running caches are never marked clean, successful stop is exact and loaded back, presence kept without force/detach, load accepts implies probe reports the same values. Theorems: `C73_clean`, `C73_running`, `C73_load`, `C73_stop`, `C73_stop_load`, `C73_kept`, `C73_attach`, `C73_probe`, `C73_presence`, `C73_probe_refuted`, `C73_force_refuted`, `C73_detach_refuted`, `C73_dirty_refuted` |
| C74 | handover between direct and cached requests | HandModel.v: allocation step by step (two counters, freeze read twice), attach and detach as a program counter, data in core and cache; invariants by induction over executions | partial: REFUTED as stated (C74_bug_refuted, C74_direct_refuted, C74_detach_refuted): a request that found metadata frozen and comes to refcnt.d2c when attach has just frozen that one hits ENV_BUG; coming later, it is a direct request on a running write-back cache and reads stale data; a request allocated before a detach and submitted after a direct write reads the old copy. Proved in all executions: no released device is touched (C74_released); the counters balance, so that ENV_BUG of ocf_req_new is the only one (C74_balance); attach and detach can go on once no request holds a reference (C74_progress); after an attach nothing is frozen and pass-through is off (C74_in_use). Proved when attach meets no request between the two counters: no ENV_BUG at all (C74_no_bug), no direct request beside a running cache (C74_alone); when, moreover, no direct write overtakes a request allocated before the detach: all reads are right (C74_reads) and the core is complete after a detach (C74_detached). Submission and completion are one step in the model. Theorems: `C74_released`, `C74_balance`, `C74_progress`, `C74_in_use`, `C74_no_bug`, `C74_alone`, `C74_reads`, `C74_detached`, `C74_bug_refuted`, `C74_direct_refuted`, `C74_detach_refuted` |
| C75 | growing memory | ReallocModel.v: heap of blocks that know their allocator, undefined behaviour an outcome; invariant over histories of calls and writes, exact outcome and contents of a call; ALRU's run as a client. | proved: For amounts that fit a size_t, as stated. C75_overflow_refuted: a product of size and count that does not fit is not noticed and reported as success with less memory than asked for (no caller in the source can do that). Theorems: `C75_one_block`, `C75_call`, `C75_contents`, `C75_store`, `C75_bug`, `C75_alru`, `C75_overflow_refuted` |

## Findings

Behaviour of the code that breaks a property (a theorem shows it on the model), with the place in the source.

| # | property | finding | theorem |
|---|---|---|---|
| 1 | C33 | `__set_cache_line_invalid` (utils_cache_line.c:31-32) returns before the cached counters are decremented when requests wait for the line: reported occupancy drifts | `C33_waiters_refuted`, `C33_negative_refuted` |
| 2 | C34 | `ocf_lru_clean` (ocf_lru.c:645-648) leaves `cleaner_running` set when no line could be selected; cleaning for eviction never starts again for that class | `C34_restart_refuted`, `C34_stuck` |
| 3 | C37 | every fragment of a write-only read resets the error field: an earlier error is lost and stale data returned | `wo_error_refuted` |
| 4 | C13 | `ocf_alock_waitlist_remove_entry` matches the request only, so after a failed allocation a lock can stay behind | `C13_liveness_oom_refuted` |
| 5 | C04, C06 | a write-through write over dirty sectors that fails on the core throws away the older dirty data; if the cache write fails it is acknowledged, and after a crash the old data comes back; a retry after a failed metadata write does not write the metadata | `C04_wt_refuted`, `C04_wb_refuted`, `C06_refuted`, `C06_retry_refuted` |
| 6 | C43 | errors of the metadata flush (non-first request) and of the cache flush are dropped by the cleaner | `C43_refuted` |
| 7 | C35 | `ocf_core_validate_io` adds address and length without regard to wrap | `C35_wrap_refuted` |
| 8 | C53, C36 | with `use_submit_io_fast` write-through writes over mapped lines are acknowledged before they reach the core, also while dirty data is blocked | `C53_fast_path_refuted`, `C36_lazy_only_if_configured_refuted`, `C36_blocked_dirty_refuted` |
| 9 | C28 | promoting a stream changes its key inside the search tree; other streams become unreachable | `C28_promotion_loses_stream_refuted`, `C28_decision_lost_refuted`, `C28_longest_stream_refuted` |
| 10 | C30 | ACP's backoff test is inverted; chunks populated below the threshold are never cleaned | `C30_error_refuted`, `C30_populate_refuted` |
| 11 | C31 | ALRU's dirty ratio wraps in 32 bits | `C31_refuted` |
| 12 | C23 | metadata I/O: with an error the completion may never be called (three places); an empty range never completes | `C23_completion_lost_refuted`, `C23_lock_error_refuted`, `C23_zero_no_memory_refuted`, `C23_empty_refuted` |
| 13 | C24 | a failed save moves `flapping_idx` back although it was not moved forward, or although the superblock was written; the next save overwrites the live copy | `C24_segment_error_refuted`, `C24_superblock_error_refuted` |
| 14 | C50 | standby updates: offset ignored, empty write updates everything, unaligned writes change the device and fail, or are missed | `C50_offset_refuted`, `C50_empty_refuted`, `C50_unaligned_refuted`, `C50_last_page_refuted` |
| 15 | C50 | I/O to the cache volume outside standby keeps a metadata reference for ever | `C50_refcount_refuted` |
| 16 | C47 | a core refused because of its UUID leaves a zero page that is part of the stored checksum only: the next load fails | `C47_failed_add_refuted`, `C47_empty_refuted` |
| 17 | C14 | `trylock` refused while stopping keeps a cache reference; unlock after the lock was destroyed on stop | `C14_reference_leak_refuted`, `C14_unlock_after_deinit_refuted` |
| 18 | C15 | a stale zero of the reference counter fires a callback registered later while references are held | `C15_never_early_refuted` |
| 19 | C46, C21 | `ocf_forward_end` updates the error field non-atomically: a success overlapping a failure erases it | `callback_error_refuted`, `wt_error_refuted`, `C21_error_iff_refuted` |
| 20 | C48 | only three of nine error sites count for fallback pass-through | `C48_all_errors_refuted` |
| 21 | C54 | section pointers are not cleared and the disabled flag is never reset on detach: double free or missing section | `C54_double_free_refuted`, `C54_missing_section_refuted`, `C54_failed_attach_refuted` |
| 22 | C25 | with a 32-bit `PAGE_SIZE` the data offset wraps at 4 GiB of metadata | `C25_data_overlaps_refuted`, `C25_posix_refuted` |
| 23 | C32 | I/O classes are not sorted after a load: priority inversion, requests refused | `C32_load_order_refuted`, `C32_load_refused_refuted` |
| 24 | C57 | failed re-adding leaves the core active; the front volume of an inactive core is initialised twice or never closed | `C57_try_add_refuted`, `C57_leak_refuted` |
| 25 | C49 | reset of statistics during a request, and read hits with a cache error, break the conservation of counters | `C49_reset_refuted`, `C49_once_refuted` |
| 26 | C29 | admission of requests with one mapped line regardless of counters; concurrent first hits counted once | `C29_partial_hit_refuted`, `C29_concurrent_refuted` |
| 27 | C41 | completely valid, partly dirty lines are written as a whole by the cleaner | `C41_refuted` |
| 28 | C51 | no flush separates data from metadata: durable data lost by write-through over dirty data, or write-back over core data, and a power failure. I/O to the cache never carries the request's flags (ocf_request.c:605-610), so FUA is not honoured in write-back | `C51_write_through_refuted`, `C51_write_back_refuted` |
| 29 | C52 | a write bypassing the cache without lock loses its data to the cleaner's whole-line write (the only write to its sector, acknowledged); and the second pass of a bypassing write purges newer acknowledged write-back data without cleaning it | `conc_latest_refuted`, `conc_overlap_refuted` |
| 30 | C60 | stopping a standby instance never releases the device and its volume (frozen tested after freezing); the front volume is never closed, also after activation | `C60_standby_stop_refuted` |
| 31 | C60 | attaching an atomic volume never completes | `C60_atomic_refuted` |
| 32 | C60 | changing the cleaning policy of a detached cache dereferences NULL | `C60_policy_detached_refuted` |
| 33 | C60 | load and standby attach/load do not check that a device is attached already: the running cache loses it | `C60_load_attached_refuted` |
| 34 | C60 | failing loads: cores' volumes, cleaner counter and policy context lost; the next load frees the sequential cut-off trackers twice or hits ENV_BUG_ON | `C60_load_cores_refuted`, `C60_load_cleaning_refuted` |
| 35 | C60 | further error paths: volume test buffer, populate, set_policy, activate, start, inactive cores | `C60_test_buffer_refuted`, `C60_populate_refuted`, `C60_set_policy_refuted`, `C60_activate_refuted`, `C60_start_refuted`, `C60_inactive_refuted` |
| 36 | C61 | writing zeros over the cache device (atomic device, discard_on_start) never sets the completion callback: a NULL pointer is called when the I/O ends | `C61_zeros_refuted`, `C61_zeros_never_completes` |
| 37 | C61 | discards of more than 4 GiB are cut at 4 GiB - 512: later pieces begin in the middle of a page | `C61_discard_pages_refuted` |
| 38 | C62 | statistics: detached cores' requests missing from the cache's report, free of a detached cache wraps, clean wraps on an unsynchronised read, free of a class always 0 | `C62_inactive_refuted`, `C62_detached_refuted`, `C62_torn_refuted`, `C62_class_free_refuted`, `C62_no_class_refuted` |
| 39 | C63 | a failed load leaves the device's core UUIDs in memory; the stored core count is not compared with the stored cores, so stopping may leave cores behind | `C63_uuid_refuted`, `C63_core_count_refuted` |
| 40 | C64 | `ocf_volume_set_uuid` keeps `uuid_copy`: a core taken from the pool whose uuid is changed frees the caller's memory on removal; `ocf_mngt_core_set_uuid` keeps the caller's pointer | `C64_set_uuid_refuted`, `C64_dangling_refuted` |
| 41 | C64 | a uuid that is a prefix of another counts as equal: wrong device from the pool, uuid change dropped; moved volume stays frozen; hooks not paired | `C64_prefix_refuted`, `C64_frozen_refuted`, `C64_hooks_refuted` |
| 42 | C65 | if the tick count starts at 0 (not with env/posix), up to stale_buffer_time after that `compute_timestamp` wraps and ALRU flushes lines just used; metadata lock and cleaner reference are given back after the cache lock was released and end was called | `C65_stale_refuted`, `C65_end_last_refuted` |
| 43 | C66 | purge of a detached cache dereferences a null pointer; a core removal that cannot write the collision section leaves a stale count of dirty lines and a later flush hits ENV_BUG; refused removals call back with the cache as context; removal leaves lines behind if the core's requests are not stopped | `C66_purge_detached_refuted`, `C66_remove_failed_refuted`, `C66_callback_refuted`, `C66_remove_not_quiet_refuted` |
| 44 | C67 | error paths that leak: request (with its references on queue and metadata, so detach waits for ever) of a discard without map, d2c reference, hash semaphores, ring buffer of nhit, mutex and volume types of a context, lock of a queue; vmalloc memory freed with env_free | `C67_discard_life_refuted`, `C67_req_new_refuted`, `C67_attached_locks_refuted`, `C67_nhit_refuted`, `C67_ctx_create_refuted`, `C67_queue_refuted`, `C67_mio_locks_refuted` |
| 45 | C69 | atomic devices: recovery reads every step but the first at an address 8 times too far, so dirty lines are lost; zeroing a line completes the request twice (no caller); the entry of a sector of an unmapped line follows a null pointer, the address behind the last sector reads a line that does not exist | `C69_recovery_refuted`, `C69_zero_refuted`, `C69_entry_unmapped_refuted`, `C69_entry_end_refuted` |
| 46 | C70 | `ocf_mngt_cache_promotion_set_policy` and `ocf_mngt_cache_set_mode` assign the error for a detached cache instead of returning it: null pointer followed, mode changed; promotion parameters of a wrong type hit ENV_BUG_ON; sequential cut-off values of a new core unchecked; `_all` setters leave out cores not opened; attaching resets policy parameters | `C70_promotion_detached_refuted`, `C70_mode_detached_refuted`, `C70_promotion_type_refuted`, `C70_add_core_refuted`, `C70_all_refuted`, `C70_attach_refuted` |
| 47 | C71 | a standby activation that fails in the last flush or in a configuration section can never be tried again: the flapping index in memory was set back and the superblock comparison fails for ever; a write of less than a page into the collision segment is missing in memory and activation does not notice | `C71_stuck`, `C71_retry_refuted`, `C71_unnoticed_refuted` |
| 48 | C72 | while a cache is being removed (counter frozen, still on the list) its name can be given to a second cache, which cannot be found by name, and then to a third one: two running caches of one name; a name of 32 bytes without terminator is accepted, cut when stored and never found, so it can be used twice (caches and cores); a lookup with the length of the name, as the headers say, returns the first cache or core whose name begins with it | `C72_twins_refuted`, `C72_unterminated_refuted`, `C72_prefix_refuted` |
| 49 | C73 | detach reports success although zeroing the superblock failed (only logged) or is not yet durable (no flush after it): the cache is still on the device or reappears after a power cut; a forced attach over a cleanly stopped cache writes its pages before the zeroed superblock is flushed, so a power cut can leave the old 'clean' mark over new pages (only checksums notice); `dirty_flushed` is only written by stop, so probe's `cache_dirty` is false for a cache that lost power with dirty data, against its documentation; probe checks no checksum, so it reports superblocks load refuses |
| 50 | C74 | `ocf_req_new` tries two counters one after the other: a request that found metadata frozen and reaches `refcnt.d2c` just after attach froze it hits ENV_BUG; one that reaches it after attach has finished goes to the core beside a write-back cache and reads stale data; a request allocated before a detach and submitted after a direct write reads the old copy from the cache | `C74_bug_refuted`, `C74_direct_refuted`, `C74_detach_refuted` |
| 51 | C75 | `ocf_realloc` multiplies size and count without a check: if the product wraps it reports success with less memory than asked for (not reachable from its one user, ALRU) | `C75_overflow_refuted` |

Seen while reading, not modelled: the functions of ocf_metadata.c do not check for a detached device;
`ocf_mngt_core_clear_uuid_metadata` never clears (NULL data is refused);
`ocf_engine_prepare_clines` leaves freshly mapped invalid lines behind when locking fails after remapping;
`OCF_ERR_STANDBY_ATTACHED` is returned without a minus sign (ocf_mngt_cache.c:3073);
`_ocf_mngt_test_volume` leaks its first buffer when the second cannot be allocated;
discards on the standby volume are not applied to the metadata in memory.

## Modelled code

Source files cited by each model file (every definition there cites its lines):

- `AcpModel.v`: `src/cleaning/acp.c`, `src/cleaning/acp_structs.h`, `env/posix/ocf_env_list.h`
- `AlockModel.v`: `tests/unit/tests/engine/engine_common.c`, `tests/unit/tests/concurrency/ocf_cache_line_concurrency.c/ocf_cache_line_concurrency.c`, `src/utils/utils_alock.c`
- `AlruModel.v`: `src/cleaning/alru.c`, `src/cleaning/alru_structs.h`, `tests/unit/tests/engine/engine_common.c`, `inc/ocf_cache.h`, `src/utils/utils_cache_line.c`, `src/utils/utils_cache_line.h`, `src/utils/utils_user_part.c`
- `AsyncLockModel.v`: `src/mngt/ocf_mngt_common.c`, `src/utils/utils_async_lock.c`, `src/utils/utils_async_lock.h`
- `AtomModel.v`: `src/engine/engine_zero.c`, `src/metadata/metadata.c`, `src/metadata/metadata_io.c`, `src/metadata/metadata_raw.c`, `src/metadata/metadata_raw_atomic.c`, `env/posix/ocf_env.h`, `src/ocf_metadata.c`, `inc/ocf_metadata.h`, `tests/unit/tests/mngt/ocf_mngt_cache.c`, `src/mngt/ocf_mngt_common.c`, `src/mngt/ocf_mngt_core.c`, `src/ocf_request.h`
- `BitsModel.v`: `src/metadata/metadata_bit.h`, `src/metadata/metadata_status.h`
- `CleanModel.v`: `src/metadata/metadata_status.h`, `src/mngt/ocf_mngt_flush.c`, `src/utils/utils_cache_line.c`, `src/utils/utils_cleaner.c`
- `CollisionModel.v`: `tests/unit/tests/engine/engine_common.c`, `src/metadata/metadata.c`, `tests/unit/tests/metadata/metadata_collision.c/metadata_collision.c`, `src/metadata/metadata_collision.h`, `src/metadata/metadata_core.c`, `src/metadata/metadata_raw.c`, `inc/ocf_def.h`, `tests/unit/tests/mngt/ocf_mngt_cache.c`
- `CompModel.v`: `src/metadata/metadata_raw.c`, `src/ocf_composite_volume.c`, `src/ocf_request.h`
- `ConcModel.v`: `src/engine/engine_bf.c`, `tests/unit/tests/engine/engine_common.c`, `src/engine/engine_pt.c`, `src/engine/engine_rd.c`, `src/engine/engine_wb.c`, `src/engine/engine_wi.c`, `src/engine/engine_wt.c`, `src/utils/utils_cache_line.c`, `src/utils/utils_cache_line.h`, `src/utils/utils_cleaner.c`
- `CoreModel.v`: `inc/ocf_cfg.h`, `src/ocf_core.c`, `tests/unit/tests/mngt/ocf_mngt_cache.c`, `src/mngt/ocf_mngt_common.c`, `src/mngt/ocf_mngt_core.c`
- `CrunModel.v`: `src/cleaning/acp.c`, `inc/cleaning/acp.h`, `src/cleaning/alru.c`, `inc/cleaning/alru.h`, `src/cleaning/alru_structs.h`, `tests/unit/tests/cleaning/cleaning.c`, `src/cleaning/cleaning.h`, `src/cleaning/cleaning_ops.h`, `src/cleaning/cleaning_priv.h`, `src/cleaning/nop.c`, `inc/ocf_def.h`
- `CtorModel.v`: `src/metadata/metadata_raw.c`, `src/metadata/metadata_raw_dynamic.c`, `src/promotion/nhit/nhit.c`, `src/promotion/nhit/nhit_hash.c`, `src/ocf_core.c`, `src/ocf_ctx.c`, `src/ocf_ctx_priv.h`, `src/ocf_io.c`, `tests/unit/tests/concurrency/ocf_metadata_concurrency.c/ocf_metadata_concurrency.c`, `src/concurrency/ocf_mio_concurrency.c`, `src/concurrency/ocf_pio_concurrency.c`, `src/ocf_queue.c`, `src/ocf_request.c`, `src/ocf_seq_cutoff.c`, `src/ocf_volume.c`, `src/utils/utils_alock.c`, `src/utils/utils_cleaner.c`, `env/posix/utils_mpool.c`
- `DpModel.v`: `src/engine/cache_engine.c`, `src/engine/engine_bf.c`, `tests/unit/tests/engine/engine_common.c`, `src/engine/engine_common.h`, `src/engine/engine_discard.c`, `src/engine/engine_fast.c`, `src/engine/engine_inv.c`, `src/engine/engine_pt.c`, `src/engine/engine_rd.c`, `src/engine/engine_wa.c`, `src/engine/engine_wb.c`, `src/engine/engine_wi.c`, `src/engine/engine_wo.c`, `src/engine/engine_wt.c`, `src/metadata/metadata.c`, `src/metadata/metadata_raw.c`, `tests/unit/tests/ocf_lru.c`, `tests/unit/tests/mngt/ocf_mngt_cache.c`, `src/ocf_request.h`, `src/utils/utils_cache_line.c`, `src/utils/utils_cache_line.h`, `src/utils/utils_cleaner.c`
- `ErrModel.v`: `src/engine/engine_bf.c`, `tests/unit/tests/engine/engine_common.c`, `src/engine/engine_fast.c`, `src/engine/engine_inv.c`, `src/engine/engine_pt.c`, `src/engine/engine_rd.c`, `src/engine/engine_wb.c`, `src/engine/engine_wi.c`, `src/engine/engine_wo.c`, `src/engine/engine_wt.c`, `src/utils/utils_cleaner.c`
- `FailoverModel.v`: `src/metadata/metadata.c`, `src/metadata/metadata_bit.h`, `src/metadata/metadata_collision.h`, `src/metadata/metadata_superblock.c`, `src/ocf_cache.c`, `inc/ocf_def.h`, `tests/unit/tests/mngt/ocf_mngt_cache.c`
- `FwdModel.v`: `src/engine/engine_io.c`, `src/engine/engine_wo.c`, `src/engine/engine_wt.c`, `src/ocf_composite_volume.c`, `src/ocf_request.c`, `src/ocf_request.h`, `src/ocf_volume.c`
- `GenModel.v`: `tests/unit/tests/utils/utils_generator.c`
- `GeoModel.v`: `tests/unit/tests/engine/engine_common.c`, `src/engine/engine_common.h`, `src/engine/engine_io.c`, `src/ocf_def_priv.h`, `tests/unit/tests/ocf_lru.c`, `src/ocf_request.c`, `src/utils/utils_cache_line.h`
- `HandModel.v`: `src/engine/cache_engine.c`, `src/engine/engine_d2c.c`, `src/ocf_core.c`, `env/posix/ocf_env_refcnt.c`, `tests/unit/tests/mngt/ocf_mngt_cache.c`, `src/ocf_request.c`, `src/utils/utils_cleaner.c`
- `HashModel.v`: `src/metadata/metadata_misc.h`, `tests/unit/tests/concurrency/ocf_metadata_concurrency.c/ocf_metadata_concurrency.c`, `src/ocf_request.c`, `src/ocf_request.h`
- `LifeModel.v`: `src/cleaning/acp.c`, `src/cleaning/alru.c`, `src/cleaning/cleaning_ops.h`, `src/metadata/metadata_superblock.c`, `src/ocf_cache_priv.h`, `src/concurrency/ocf_concurrency.c`, `src/ocf_core_priv.h`, `env/posix/ocf_env_refcnt.c`, `tests/unit/tests/mngt/ocf_mngt_cache.c`, `src/mngt/ocf_mngt_common.c`, `src/mngt/ocf_mngt_core.c`, `src/mngt/ocf_mngt_flush.c`, `src/ocf_seq_cutoff.c`, `src/ocf_volume.c`, `src/promotion/promotion.c`, `src/utils/utils_pipeline.c`
- `ListModel.v`: `src/utils/utils_list.c`, `src/utils/utils_list.h`, `src/utils/utils_user_part.c`
- `LruIterModel.v`: `tests/unit/tests/engine/engine_common.c`, `src/ocf_def_priv.h`, `tests/unit/tests/ocf_lru.c`, `tests/unit/tests/mngt/ocf_mngt_cache.c`, `src/ocf_part.h`, `src/ocf_space.h`
- `LruModel.v`: `src/metadata/metadata_partition.h`, `inc/ocf_cfg.h`, `tests/unit/tests/ocf_lru.c`, `src/ocf_lru_structs.h`, `tests/unit/tests/mngt/ocf_mngt_cache.c`, `src/ocf_space.h`, `src/utils/utils_cache_line.c`
- `MarkModel.v`: `src/metadata/metadata.c`, `src/metadata/metadata_raw.c`, `src/metadata/metadata_segment.c`, `src/metadata/metadata_superblock.c`, `src/metadata/metadata_superblock.h`, `tests/unit/tests/mngt/ocf_mngt_cache.c`, `src/mngt/ocf_mngt_core.c`, `src/mngt/ocf_mngt_flush.c`
- `MioModel.v`: `src/metadata/metadata_io.c`, `src/metadata/metadata_raw.c`, `src/concurrency/ocf_mio_concurrency.c`
- `ModeModel.v`: `src/engine/cache_engine.c`, `src/engine/engine_bf.c`, `tests/unit/tests/engine/engine_common.c`, `src/engine/engine_fast.c`, `src/engine/engine_inv.c`, `src/engine/engine_rd.c`, `src/engine/engine_wb.c`, `src/engine/engine_wi.c`, `src/engine/engine_wo.c`, `src/engine/engine_wt.c`, `src/engine/engine_zero.c`, `src/ocf_core.c`, `env/posix/ocf_env_refcnt.c`, `inc/ocf_mngt.h`, `tests/unit/tests/mngt/ocf_mngt_cache.c`, `src/ocf_request.h`, `src/ocf_seq_cutoff.c`
- `NhitModel.v`: `src/promotion/nhit/nhit.c`, `src/promotion/nhit/nhit_hash.c`
- `OccModel.v`: `tests/unit/tests/engine/engine_common.c`, `src/engine/engine_wb.c`, `src/metadata/metadata_misc.c`, `tests/unit/tests/ocf_lru.c`, `tests/unit/tests/mngt/ocf_mngt_cache.c`, `src/utils/utils_cache_line.c`, `src/utils/utils_cache_line.h`, `src/utils/utils_user_part.c`
- `ParallelModel.v`: `src/utils/utils_parallelize.c`
- `PartModel.v`: `tests/unit/tests/engine/engine_common.c`, `src/metadata/metadata.c`, `src/metadata/metadata_superblock.c`, `inc/ocf_cfg.h`, `tests/unit/tests/ocf_lru.c`, `tests/unit/tests/mngt/ocf_mngt_cache.c`, `tests/unit/tests/mngt/ocf_mngt_io_class.c/ocf_mngt_io_class.c`, `src/ocf_part.h`, `tests/unit/tests/ocf_space.c/ocf_space.c`, `src/utils/utils_user_part.c`, `src/utils/utils_user_part.h`
- `PassiveModel.v`: `src/metadata/metadata_passive_update.c`, `src/metadata/metadata_raw.c`, `src/ocf_cache.c`, `src/ocf_def_priv.h`
- `PipelineModel.v`: `src/utils/utils_pipeline.c`, `src/utils/utils_pipeline.h`
- `PlModel.v`: `src/metadata/metadata_io.c`, `src/metadata/metadata_io.h`, `src/concurrency/ocf_mio_concurrency.c`, `src/concurrency/ocf_pio_concurrency.c`
- `PurgeModel.v`: `src/metadata/metadata_misc.c`, `tests/unit/tests/ocf_lru.c`, `src/mngt/ocf_mngt_common.c`, `src/mngt/ocf_mngt_core.c`, `src/mngt/ocf_mngt_flush.c`, `src/utils/utils_alock.c`, `src/utils/utils_cache_line.c`, `src/utils/utils_cache_line.h`
- `QueueModel.v`: `src/ocf_queue.c`, `src/ocf_queue_priv.h`
- `RbModel.v`: `env/posix/ocf_env_list.h`, `tests/unit/tests/utils/utils_rbtree.c/utils_rbtree.c`, `src/utils/utils_rbtree.h`
- `ReallocModel.v`: `src/cleaning/alru.c`, `env/posix/ocf_env.h`, `src/utils/utils_realloc.c`
- `RefcntModel.v`: `env/posix/ocf_env_refcnt.c`, `env/posix/ocf_env_refcnt.h`
- `RegModel.v`: `src/ocf_cache.c`, `src/ocf_core.c`, `inc/ocf_def.h`, `env/posix/ocf_env.h`, `env/posix/ocf_env_refcnt.c`, `tests/unit/tests/mngt/ocf_mngt_cache.c`, `src/mngt/ocf_mngt_common.c`, `src/mngt/ocf_mngt_core.c`
- `RepModel.v`: `src/ocf_cache.c`, `inc/ocf_cache.h`, `src/ocf_cache_priv.h`, `inc/ocf_cfg.h`, `src/ocf_core.c`, `src/ocf_core_priv.h`, `src/ocf_stats.c`, `inc/ocf_stats.h`, `src/ocf_stats_builder.c`, `src/ocf_stats_priv.h`, `src/utils/utils_stats.h`
- `ReqModel.v`: `src/engine/engine_discard.c`, `inc/ocf_cfg.h`, `src/ocf_core.c`, `inc/ocf_def.h`, `src/ocf_io.c`, `src/ocf_request.c`
- `SaveModel.v`: `src/metadata/metadata_core.c`, `src/metadata/metadata_raw.c`, `src/metadata/metadata_raw_dynamic.c`, `src/metadata/metadata_segment.c`, `src/ocf_core_priv.h`, `env/posix/ocf_env.c`, `tests/unit/tests/mngt/ocf_mngt_cache.c`, `src/mngt/ocf_mngt_common.c`, `src/mngt/ocf_mngt_core.c`
- `SbLoadModel.v`: `src/metadata/metadata.c`, `src/metadata/metadata_raw.c`, `src/metadata/metadata_raw_dynamic.c`, `src/metadata/metadata_segment.c`, `src/metadata/metadata_segment_id.h`, `src/metadata/metadata_structs.h`, `src/metadata/metadata_superblock.c`, `src/metadata/metadata_superblock.h`, `src/ocf_cache_priv.h`, `inc/ocf_cfg.h`, `inc/ocf_def.h`, `src/ocf_def_priv.h`, `env/posix/ocf_env.h`, `env/posix/ocf_env_headers.h`, `inc/ocf_err.h`, `tests/unit/tests/mngt/ocf_mngt_cache.c`, `src/utils/utils_cache_line.h`, `src/utils/utils_pipeline.c`
- `SbModel.v`: `src/metadata/metadata.c`, `src/metadata/metadata_segment.c`, `src/metadata/metadata_superblock.c`
- `SegLifeModel.v`: `src/metadata/metadata.c`, `src/metadata/metadata_internal.h`, `src/metadata/metadata_segment.c`, `tests/unit/tests/mngt/ocf_mngt_cache.c`
- `SeqModel.v`: `src/engine/cache_engine.c`, `src/ocf_core.c`, `inc/ocf_def.h`, `env/posix/ocf_env_list.h`, `src/ocf_seq_cutoff.c`, `src/ocf_seq_cutoff.h`
- `ShardModel.v`: `src/cleaning/acp.c`, `src/cleaning/alru.c`, `src/metadata/metadata.c`, `src/ocf_def_priv.h`, `tests/unit/tests/ocf_lru.c`, `tests/unit/tests/mngt/ocf_mngt_cache.c`, `src/utils/utils_parallelize.c`
- `SizeModel.v`: `src/metadata/metadata.c`, `src/metadata/metadata_raw.c`, `src/metadata/metadata_raw.h`, `src/metadata/metadata_raw_dynamic.c`, `inc/ocf_def.h`, `src/ocf_def_priv.h`, `env/posix/ocf_env.h`, `tests/unit/tests/mngt/ocf_mngt_cache.c`
- `StatsModel.v`: `src/engine/cache_engine.c`, `tests/unit/tests/engine/engine_common.c`, `src/engine/engine_d2c.c`, `src/engine/engine_fast.c`, `src/engine/engine_pt.c`, `src/engine/engine_rd.c`, `src/engine/engine_wa.c`, `src/engine/engine_wb.c`, `src/engine/engine_wi.c`, `src/engine/engine_wo.c`, `src/engine/engine_wt.c`, `inc/ocf_cfg.h`, `src/ocf_core.c`, `src/ocf_stats.c`, `src/ocf_stats_builder.c`, `src/ocf_stats_priv.h`, `src/utils/utils_stats.h`
- `SubIoModel.v`: `src/metadata/metadata_superblock.c`, `env/posix/ocf_env.h`, `tests/unit/tests/mngt/ocf_mngt_cache.c`, `src/ocf_request.c`, `src/utils/utils_io.c`
- `TuneModel.v`: `src/cleaning/acp.c`, `inc/cleaning/acp.h`, `src/cleaning/alru.c`, `inc/cleaning/alru.h`, `src/cleaning/cleaning_ops.h`, `src/cleaning/cleaning_priv.h`, `src/promotion/nhit/nhit.c`, `inc/promotion/nhit.h`, `src/ocf_cache.c`, `src/ocf_core.c`, `tests/unit/tests/mngt/ocf_mngt_cache.c`, `src/mngt/ocf_mngt_core.c`, `src/mngt/ocf_mngt_flush.c`, `src/promotion/ops.h`, `src/promotion/promotion.c`
- `VobModel.v`: `env/posix/ocf_env.h`, `src/ocf_io.c`, `tests/unit/tests/mngt/ocf_mngt_cache.c`, `src/mngt/ocf_mngt_common.c`, `src/mngt/ocf_mngt_core.c`, `src/mngt/ocf_mngt_core_pool.c`, `src/ocf_volume.c`, `inc/ocf_volume.h`, `src/ocf_volume_priv.h`
- `VolModel.v`: `src/engine/cache_engine.c`, `src/engine/engine_bf.c`, `tests/unit/tests/engine/engine_common.c`, `src/engine/engine_fast.c`, `src/engine/engine_flush.c`, `src/engine/engine_pt.c`, `src/engine/engine_rd.c`, `src/engine/engine_wa.c`, `src/engine/engine_wb.c`, `src/engine/engine_wi.c`, `src/engine/engine_wo.c`, `src/engine/engine_wt.c`, `src/ocf_request.c`, `src/ocf_request.h`, `src/utils/utils_cleaner.c`

Source files (.c) of which nothing is modelled: `src/metadata/metadata_cleaning_policy.c`, `src/metadata/metadata_eviction_policy.c`, `src/metadata/metadata_partition.c`, `src/metadata/metadata_raw_volatile.c`, `src/mngt/ocf_mngt_misc.c`, `src/ocf_io_class.c`, `src/ocf_logger.c`, `src/utils/utils_request.c`.

## Trusted base

- Coq 8.16.1's kernel, including its virtual machine (`vm_compute` is used for concrete witnesses and examples and
  for a few closed arithmetic facts). No native compilation, no plugin, no axiom, no admitted proof.
- No theorem depends on an axiom (list below). Loading the standard library's tactics brings in the seven
  parameters of the module type `Coq.ssr.ssrunder.UNDER_REL` (`Coq.ssr.ssrunder.Under_rel.*`, through `lia`); they
  belong to the standard library, and no theorem uses them.
- The hand translation from C to Gallina at the cited lines. The C compiler and the hardware are not modelled;
  atomic operations are sequentially consistent; a data race is modelled only where a model says so (FwdModel,
  RefcntModel, StatsModel).
- Not modelled anywhere: logging, tracing, the environment layer (`env/`) apart from `ocf_env_refcnt.c` and
  `ocf_env_list.h`, memory allocation failure except where a model says so (AlockModel, MioModel, CoreModel,
  SegLifeModel).
- The data path models (DpModel, ErrModel, VolModel) run one request at a time; concurrency of requests on
  one line is ConcModel.

## What the mutation log shows, and what it does not

A line of `seeded/LOG.jsonl` with `"result": "killed"` says that the development no longer built after the edit, and
`failed` names the first statement whose proof broke. In 156 of the 879 lines that is a theorem or example of a
property; in the other 723 it is a helper lemma before it (an invariant's step, or a lemma listing the outcomes of one
function). Such a lemma can break on an edit that leaves the property true, so these lines are weaker evidence: they
show that the proof depends on the edited code, not that the property's statement excludes the edit.
`blocked_downstream` lists theorems that were expected to be affected; they were not tried one by one.

For C72 to C75 this was checked separately: every mutant was run on pseudo-random executions (80 to 120 of 250 to 400
steps each for C72 to C74) against executable versions of the statements; the four mutants of `probe` (C73) are left out, their proofs
break at the theorem itself. The models as they are violate nothing. Found:

- C74, 48 mutants: two violate nothing ("flush leaves data dirty in the cache", "missing device reported as ENV_BUG");
  five violated nothing that was stated then and led to `C74_progress` and `C74_in_use`.
- C72, 44 mutants: one violates nothing ("last match": names are unique in the runs in question); three violated
  nothing that was stated then and led to `C72_lock`, `C72_progress` and `C72_order`.
- C75, 24 mutants (400 executions of 14 calls and writes, and 400 runs of ALRU): all violate a statement.
- C73, 40 mutants: one violates nothing ("all volatile writes survive" restricts the environment, not the code).

The red-black tree (22 mutants of `RbModel`) was run in the same way (80 executions of 200 insertions and removals, two
ascending and descending fills): 19 violate C59; three edit `can_update` and `reach`, about which C59 said nothing, and
led to `C59_update`. That they violate it was found by reading, not by running.

For C25, C26, C32, C33, C64, C65, C66, C68, C69, C70 and C71 the lines whose `failed` is a helper lemma were compared with the statements by
reading only; a slip there is possible.

- C68: one violates nothing ("written without the lock": a request that has copied all its pages has the lock). One
  violated nothing that was stated then and led to `C68_error_ends`; one was described wrongly, and the edit it described
  led to `C68_mio_refuses`.
- C69: two violate nothing ("last line compared with the number of sectors": the same sectors are discarded by the other
  branch; "missed lines discarded": such lines are never marked). One led to `C69_recovery_outside`.
- C64 and C65: one each violated nothing that was stated then; they led to `C64_open_device` and `C65_acp_full`.
- C32: one violated nothing that was stated then ("own class evicted partly"), and a comment claimed it; it led to
  `C32_own_class_none`.
- C25, C26, C33, C66, C70, C71: all violate a statement.

The seven that violate nothing were first logged as killed and have been removed; those that led to new theorems have
them in `tightened`. Apart from these, every mutant of the properties named here violates a statement. This is a test of
the statements, not part of a proof. For the other properties it was not done, and their lines may include edits of
either kind.

`Print Assumptions` prints "Closed under the global context" for every theorem of the manifest (469 theorems); no axiom is used:

`C01_reads_latest_write`, `C01_operations_complete`, `C02_non_lazy_modes_update_core`, `C03_dirty_data_never_dropped`, `C03_dirty_lines_not_reused`, `C04_failed_writes_partial`, `C04_old_or_new_partial`, `C04_faultfree_runs_included`, `C04_wt_refuted`, `C04_wb_refuted`, `C05_crash_recovery_succeeds`, `C05_crash_consistency`, `C06_recovery_after_hidden_error_partial`, `C06_acknowledged_data_survives_partial`, `C06_refuted`, `C06_retry_refuted`, `C07_mark_exact`, `C07_unmark_exact`, `C07_test_exact`, `C07_test_and_modify_exact`, `C07_changed_exact`, `C07_valid_dirty_exact`, `C08_lines_cover_exactly`, `C09_lookup_refines_map`, `C09_injective`, `C09_other_unchanged`, `lru_refines_lists`, `C10_exactly_one_list`, `C11_hot_prefix`, `C11_order`, `lru_refines_lists`, `C12_exclusion`, `C12_owner_holds_all`, `C13_resumed_once`, `C13_no_waiter_forgotten`, `C13_first_come_first_served`, `C13_runs_are_finite`, `C13_no_deadlock`, `C13_liveness_oom_refuted`, `C14_no_bug`, `C14_exclusion`, `C14_is_locked`, `C14_success_owns`, `C14_keeps_until_unlock`, `C14_arrival_order`, `C14_no_overtaking`, `C14_completed_once`, `C14_no_waiter_forgotten`, `C14_no_deadlock`, `C14_references_partial`, `C14_reference_leak_refuted`, `C14_unlock_after_deinit_refuted`, `C15_no_grant_when_frozen`, `C15_exactly_once`, `C15_never_early_refuted`, `C15_never_early_partial`, `C15_early_meaning`, `C16_buckets_ascending_exact`, `C16_in_range_exact`, `C16_no_deadlock`, `C16_terminates`, `C17_cache_io_exact`, `C17_places_disjoint`, `C18_in_order`, `C18_finish_once`, `C18_stops`, `C18_can_go_on`, `C18_bounded`, `C19_finish`, `C19_nobody_left`, `C19_called`, `C19_steps_end`, `C20_contig32`, `C20_contig64`, `C20_stride`, `C20_populate`, `C20_shards_positive`, `C20_own_list`, `C20_accepted`, `C20_limit_refuted`, `C21_exact_concatenation`, `C21_out_of_range_bug`, `C21_simple`, `C21_completes_once`, `C21_parts_counted`, `C21_error_iff_partial`, `C21_error_iff_refuted`, `home_unique`, `C22_pages_exact`, `C22_marked_lines_flushed`, `merge_gaps`, `C23_at_most_once`, `C23_not_early`, `C23_error_reported`, `C23_success`, `C23_buffer_fits`, `C23_freed_last`, `C23_called_without_errors`, `C23_steps_end`, `C23_completion_lost_refuted`, `C23_lock_error_refuted`, `C23_zero_no_memory_refuted`, `C23_empty_refuted`, `C24_crash_atomic_partial`, `C24_saved_partial`, `C24_segment_error_refuted`, `C24_superblock_error_refuted`, `C25_fits`, `C25_data_after_metadata_partial`, `C25_data_overlaps_refuted`, `C25_posix_refuted`, `C25_line_range`, `C26_disjoint`, `C26_entries`, `C27_generator_is_permutation`, `C27_init_succeeds`, `C27_undefined_limits`, `C28_promotion_loses_stream_refuted`, `C28_decision_lost_refuted`, `C28_longest_stream_refuted`, `C28_tracker_alone_partial`, `C28_core_tracker_partial`, `C29_fifo`, `C29_admitted_only_partial`, `C29_exact_while_remembered`, `C29_partial_hit_refuted`, `C29_concurrent_refuted`, `C30_refuted`, `C30_error_refuted`, `C30_populate_refuted`, `C30_error_never_again`, `C30_populate_ineligible`, `C30_counters_partial`, `C30_eligible_partial`, `C30_candidate_partial`, `C31_refuted`, `C31_sound_partial`, `C31_exact_partial`, `C32_minimum`, `C32_minimum_reached`, `C32_maximum`, `C32_own_class`, `C32_order_partial`, `C32_refused_partial`, `C32_no_bug`, `C32_load_refused_refuted`, `C32_load_order_refuted`, `C32_own_class_none`, `C33_dirty`, `C33_cached_partial`, `C33_waiters_refuted`, `C33_negative_refuted`, `C34_restart_partial`, `C34_stuck`, `C34_restart_refuted`, `C35_range_partial`, `C35_lines`, `C35_wrap_refuted`, `C36_precedence`, `C36_lazy_only_if_configured_partial`, `C36_lazy_only_if_configured_refuted`, `C36_blocked_dirty_refuted`, `wo_complete_once`, `wo_error_refuted`, `wo_error_partial`, `C38_fifo`, `C38_once`, `C38_pending`, `C38_priority`, `C38_awake`, `C38_drained`, `C39_pick`, `C39_unique`, `C39_succeeds`, `C40_cache_flush_cleans_all`, `C40_core_flush_cleans_core`, `C40_no_bug`, `C41_refuted`, `C41_writes_dirty_runs_partial`, `C41_writes_dirty_and_only_valid`, `C41_range_address`, `C42_recovery_accepts_exactly`, `C42_recovery_keeps_exactly_dirty`, `C43_refuted`, `C43_data_errors_reported_partial`, `C44_discard_hides_and_touches_nothing_else`, `C44_outside_reads_as_before`, `C44_core_discarded_exactly_once`, `C45_sorted`, `C45_operations`, `sort_rep`, `add_rep`, `add_tail_rep`, `add_before_rep`, `add_after_rep`, `del_rep`, `init_rep`, `visit_rep`, `callback_exactly_once`, `callback_happens`, `callback_error_real`, `callback_error_serial`, `wt_complete_once`, `wt_completes`, `wt_error_real`, `wt_error_serial`, `wt_cache_error_tolerated`, `callback_error_refuted`, `callback_error_fragments_refuted`, `wt_error_refuted`, `C47_block`, `C47_uuids_partial`, `C47_failed_add_refuted`, `C47_empty_refuted`, `C48_fallback_exact_partial`, `C48_no_bug`, `C48_all_errors_refuted`, `C48_write_back_hits_use_fast`, `C49_report_partial`, `C49_exact_partial`, `C49_once_partial`, `C49_fraction`, `C49_reset_refuted`, `C49_once_refuted`, `C50_exact_partial`, `C50_mirror_partial`, `C50_offset_refuted`, `C50_empty_refuted`, `C50_unaligned_refuted`, `C50_last_page_refuted`, `C50_refcount_refuted`, `C51_protected_cache_partial`, `C51_no_lazy_writes_partial`, `C51_right_after_flush_partial`, `C51_write_through_refuted`, `C51_write_back_refuted`, `conc_latest_partial`, `conc_reads_partial`, `conc_serial_partial`, `conc_cached`, `conc_latest_refuted`, `conc_overlap_refuted`, `C53_option_off_partial`, `C53_fast_path_refuted`, `C54_same_setting_partial`, `C54_double_free_refuted`, `C54_missing_section_refuted`, `C54_failed_attach_refuted`, `C54_claim_refuted`, `C55_lists_exact`, `C55_collects_stale`, `C55_collects_all`, `C56_take`, `C56_clean`, `C57_books`, `C57_front_partial`, `C57_failed_partial`, `C57_try_add_refuted`, `C57_leak_refuted`, `C58_discard`, `C59_search_tree`, `C59_balanced`, `C59_trackers_never_fail`, `C59_trackers_balanced`, `C59_update`, `C60_life_exact`, `C60_life_standby`, `C60_failed_op`, `C60_test_buffer_refuted`, `C60_atomic_refuted`, `C60_populate_refuted`, `C60_set_policy_refuted`, `C60_policy_detached_refuted`, `C60_load_cleaning_refuted`, `C60_load_cores_refuted`, `C60_inactive_refuted`, `C60_standby_stop_refuted`, `C60_activate_refuted`, `C60_load_attached_refuted`, `C60_start_refuted`, `C61_discard_exact`, `C61_zeros_exact`, `C61_one_io_each`, `C61_once`, `C61_error_real`, `C61_error_told`, `C61_ends`, `C61_attach_discard`, `C61_zeros_never_completes`, `C61_zeros_refuted`, `C61_discard_pages_refuted`, `C62_adds_up`, `C62_core_of_classes`, `C62_cache_of_cores`, `C62_cache_errors`, `C62_cache_blocks`, `C62_class_of_cores`, `C62_cache_usage`, `C62_core_usage`, `C62_usage_of_cores`, `C62_inactive_refuted`, `C62_class_free_refuted`, `C62_detached_refuted`, `C62_torn_refuted`, `C62_no_class_refuted`, `C63_no_bug`, `C63_success`, `C63_accepted`, `C63_restored`, `C63_once`, `C63_reasons`, `C63_uuid_refuted`, `C63_core_count_refuted`, `C64_balanced`, `C64_nothing_left`, `C64_alternate`, `C64_pool`, `C64_refused`, `C64_taken`, `C64_lookup`, `C64_set_uuid_refuted`, `C64_dangling_refuted`, `C64_prefix_refuted`, `C64_frozen_refuted`, `C64_hooks_refuted`, `C64_open_device`, `C65_balanced`, `C65_after_unlock`, `C65_when`, `C65_alru_chosen`, `C65_alru_complete`, `C65_alru_rest`, `C65_alru_pause`, `C65_acp_round`, `C65_acp_flush`, `C65_end_before_put`, `C65_params`, `C65_limits`, `C65_stale_refuted`, `C65_end_last_refuted`, `C65_acp_full`, `C66_invalidate_exact`, `C66_purge`, `C66_purge_balanced`, `C66_purge_detached_refuted`, `C66_remove_all`, `C66_remove_others`, `C66_remove_ends`, `C66_remove_not_quiet_refuted`, `C66_remove_core`, `C66_detach_core`, `C66_remove_failed_refuted`, `C66_callback_refuted`, `C66_callback`, `C67_metadata_locks`, `C67_attached_locks`, `C67_attached_locks_refuted`, `C67_alock`, `C67_page_locks`, `C67_mio_locks`, `C67_mio_locks_refuted`, `C67_raw_ram`, `C67_raw_dynamic`, `C67_nhit`, `C67_nhit_refuted`, `C67_mpool`, `C67_ctx_create`, `C67_ctx_create_refuted`, `C67_ctx_life`, `C67_queue`, `C67_queue_refuted`, `C67_req_put`, `C67_req_new_mngt`, `C67_req_new_cache`, `C67_req_new`, `C67_req_new_refuted`, `C67_req_new_cleaner`, `C67_io_life`, `C67_discard_life`, `C67_discard_life_refuted`, `C67_cleaner_req`, `C67_cleaner_free`, `C68_mio_entries`, `C68_pio_entries`, `C68_exclusive`, `C68_no_older_copy`, `C68_flushed`, `C68_all_end`, `C68_failed_clean`, `C68_flush_spread`, `C68_mio_refuses`, `C68_error_ends`, `C69_discard_exact`, `C69_discard_once`, `C69_entry`, `C69_entry_at`, `C69_entry_metadata`, `C69_entry_unmapped_refuted`, `C69_entry_end_refuted`, `C69_invalid_before`, `C69_invalid_after`, `C69_recovery`, `C69_recovery_refuted`, `C69_zero_refuted`, `C69_numbers`, `C69_numbers_used_up`, `C69_recovery_outside`, `C70_limits`, `C70_effective`, `C70_set_get`, `C70_detached`, `C70_all`, `C70_detach_keeps`, `C70_attach_values`, `C70_attach_refuted`, `C70_mode_detached_refuted`, `C70_promotion_detached_refuted`, `C70_promotion_type_refuted`, `C70_add_core_refuted`, `C70_all_refuted`, `C70_unset_refuted`, `C71_failover`, `C71_guard`, `C71_stuck`, `C71_retry_refuted`, `C71_unnoticed_refuted`, `C72_safe`, `C72_no_leak`, `C72_find`, `C72_calm`, `C72_visit`, `C72_core`, `C72_lock`, `C72_progress`, `C72_order`, `C72_prefix_refuted`, `C72_twins_refuted`, `C72_unterminated_refuted`, `C73_clean`, `C73_running`, `C73_load`, `C73_stop`, `C73_stop_load`, `C73_kept`, `C73_attach`, `C73_probe`, `C73_presence`, `C73_probe_refuted`, `C73_force_refuted`, `C73_detach_refuted`, `C73_dirty_refuted`, `C74_released`, `C74_balance`, `C74_progress`, `C74_in_use`, `C74_no_bug`, `C74_alone`, `C74_reads`, `C74_detached`, `C74_bug_refuted`, `C74_direct_refuted`, `C74_detach_refuted`, `C75_one_block`, `C75_call`, `C75_contents`, `C75_store`, `C75_bug`, `C75_alru`, `C75_overflow_refuted`.
