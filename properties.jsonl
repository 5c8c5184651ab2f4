{"id": "C01", "title": "Reads return the last completed write, in every mix of cache modes", "statement": "On a cache with fault-free devices, a read of any sector of a core returns exactly the data of the latest completed write to that sector (or the core's initial data if there was none), no matter in which cache mode (write-through, write-back, write-around, write-invalidate, write-only, pass-through) each individual request was executed and which cache lines were promoted, evicted, cleaned or purged in between.", "quantifier": "every core, every finite history of reads, writes, discards, evictions, cleanings, purges and per-request mode choices, every sector range of every request, every cache line size", "why_tests_cant": "tests can run a few histories with a few mode changes; the claim is about every history and every alignment of requests to cache lines, including stale-dirty overlaps that need several mode switches", "anchors": ["src/engine/engine_wt.c:ocf_write_wt", "src/engine/engine_wb.c:ocf_write_wb", "src/engine/engine_wa.c", "src/engine/engine_wi.c:ocf_write_wi", "src/engine/engine_wo.c:ocf_read_wo", "src/engine/engine_pt.c:ocf_read_pt", "src/engine/engine_rd.c:ocf_read_generic", "src/engine/engine_discard.c"]}
{"id": "C02", "title": "Non-lazy modes leave the core device up to date", "statement": "When a write executed in write-through, write-around, write-invalidate or pass-through mode completes successfully on fault-free devices, the core device itself already holds the written data for the whole range, and no sector of the range is reported dirty.", "quantifier": "every prior state of the cache (including lines left dirty by earlier write-back mode), every request range", "why_tests_cant": "depends on arbitrary prior dirty/valid sector patterns per cache line; a test fixes one pattern", "anchors": ["src/engine/engine_wt.c:_ocf_write_wt_do", "src/engine/engine_wi.c", "src/engine/engine_wa.c", "src/engine/engine_pt.c", "src/utils/utils_cache_line.c"]}
{"id": "C03", "title": "Dirty data is never dropped by space management", "statement": "Evicting, remapping, invalidating-if-clean or re-classifying cache lines never changes what a read of any core sector returns: a cache line with a dirty sector is never reused for other data before that sector was written to the core device.", "quantifier": "every cache content and every sequence of space-management steps interleaved with user I/O", "why_tests_cant": "needs every combination of free-space pressure, dirty pattern and ordering", "anchors": ["src/ocf_space.c", "src/ocf_lru.c:ocf_lru_req_clines", "src/utils/utils_cache_line.c:set_cache_line_clean", "src/engine/engine_common.c:ocf_engine_remap"]}
{"id": "C04", "title": "A failed write leaves either the old or the new data", "statement": "If a write request completes with an error because a device failed one I/O, a later fault-free read of each sector of that request returns either the data from before that write or the data of that write, never something older.", "quantifier": "every prior state, every placement of a single device error inside the request", "why_tests_cant": "error injection at each I/O of each request in each prior state is unbounded", "anchors": ["src/engine/engine_wt.c:_ocf_write_wt_req_complete", "src/engine/engine_wb.c", "src/engine/engine_inv.c:ocf_engine_invalidate"]}
{"id": "C05", "title": "Crash consistency of acknowledged data", "statement": "On fault-free devices, after a crash at an arbitrary point followed by dirty-shutdown recovery (cache load without clean shutdown), reading a sector returns the data of the last acknowledged write to it or of a write that was in progress at the moment of the crash.", "quantifier": "every crash point inside every request/cleaning/eviction step, every history before it, every subset of pending metadata page writes reaching the cache device", "why_tests_cant": "crash points are inside asynchronous I/O chains and all interleavings of data and metadata writes matter", "anchors": ["src/engine/engine_wb.c:ocf_write_wb_do_flush_metadata", "src/metadata/metadata_raw.c:_raw_ram_flush_do_asynch", "src/mngt/ocf_mngt_cache.c:ocf_mngt_rebuild_metadata_handle", "src/utils/utils_cleaner.c"]}
{"id": "C06", "title": "Crash consistency survives a cache device error that was hidden from the user", "statement": "If a write was acknowledged as successful (even though the cache device failed an I/O that the engine tolerated), a crash after the acknowledgement and a recovery do not bring back older data for that range.", "quantifier": "every prior state and every tolerated cache error", "why_tests_cant": "combines an injected error, an invalidation that is only in memory and a crash", "anchors": ["src/engine/engine_wt.c:_ocf_write_wt_cache_complete", "src/engine/engine_inv.c:_ocf_invalidate_do", "src/metadata/metadata_raw.c:_raw_ram_flush_mark"]}
{"id": "C07", "title": "Sector bitmap operations are exact", "statement": "For every cache line size (8 to 128 sectors) and every sector range, marking a range valid/dirty/clean/invalid changes exactly the sectors of the range; the query functions report 'all', 'any', and 'was anything changed / is the whole line now clear' exactly as the set of sectors would.", "quantifier": "every bitmap content, every start <= stop inside the line, every bitmap width used", "why_tests_cant": "2^128 bitmaps x 128^2 ranges", "anchors": ["src/metadata/metadata_bit.h", "src/metadata/metadata_status.h"]}
{"id": "C08", "title": "Requests are split into cache lines without gaps or overlaps", "statement": "For a request at byte address A of length L>0, the cache lines computed for it cover exactly the sectors of [A,A+L): each sector belongs to exactly one line slot at exactly one sector offset and no other sector is touched.", "quantifier": "every address, every length, every line size; all 64-bit values that pass the range check", "why_tests_cant": "alignment corner cases over 64-bit addresses", "anchors": ["src/utils/utils_cache_line.h:ocf_map_line_start_sector", "src/ocf_request.c:ocf_req_new", "src/utils/utils_cache_line.h:ocf_bytes_2_lines"]}
{"id": "C09", "title": "Core line to cache line mapping is a partial injective map", "statement": "Looking up a core line returns the cache line that was last mapped to it and not unmapped since, or 'miss'; mapping or unmapping one core line never changes the result for another one, and the look-up never hits the internal 'broken collision chain' failure.", "quantifier": "every sequence of map and unmap operations, every hash function value collision pattern", "why_tests_cant": "needs every collision chain shape and removal position", "anchors": ["src/metadata/metadata_collision.c:ocf_metadata_add_to_collision", "src/metadata/metadata_collision.c:ocf_metadata_remove_from_collision", "src/engine/engine_common.c:ocf_engine_lookup_map_entry"]}
{"id": "C10", "title": "No cache line is ever lost or doubly owned", "statement": "At all times every cache line is on exactly one list: the free list or one I/O class's clean or dirty list; the list sizes reported (and the reported free space/occupancy derived from them) equal the number of lines on them.", "quantifier": "every sequence of allocate, free, hit (promote), clean, dirty and class-move operations on lists of any length", "why_tests_cant": "history-dependent pointer surgery on doubly linked lists; tests see few shapes", "anchors": ["src/ocf_lru.c:add_lru_head", "src/ocf_lru.c:remove_update_ptrs", "src/ocf_lru.c:ocf_lru_set_hot", "src/ocf_lru.c:balance_lru_list", "src/ocf_lru.c:ocf_lru_repart"]}
{"id": "C11", "title": "Hot/cold balance of the LRU list", "statement": "After every list operation exactly the hot prefix of the list (half of the elements) is marked hot and eviction takes the lockable element nearest the tail, so an element is only evicted when every element behind it has been or cannot be locked at that moment; a hit on a cold element moves it to the head, a hit on a hot element changes nothing.", "quantifier": "every sequence of operations on lists of any length", "why_tests_cant": "parity-dependent maintenance of an internal pointer over unbounded histories", "anchors": ["src/ocf_lru.c:balance_lru_list", "src/ocf_lru.c:ocf_lru_hot_cline"]}
{"id": "C12", "title": "Cache line locks exclude conflicting requests", "statement": "At no time do two requests hold the same cache line when one of them locked it for writing.", "quantifier": "every number of requests, every set of lines per request, every interleaving of lock attempts, releases and wake-ups", "why_tests_cant": "scheduling nondeterminism of unbounded concurrent requests", "anchors": ["src/utils/utils_alock.c", "src/concurrency/ocf_cache_line_concurrency.c"]}
{"id": "C13", "title": "Every lock waiter is granted exactly once and in order", "statement": "A request that had to wait for a cache line is resumed exactly once after it obtained all of its lines; when all holders of a line release it, the longest waiting compatible request gets it; no waiter is forgotten while the line is free.", "quantifier": "every interleaving of waiting, releasing and granting", "why_tests_cant": "lost wake-ups only show in particular interleavings", "anchors": ["src/utils/utils_alock.c:ocf_alock_unlock_one_rd", "src/utils/utils_alock.c:ocf_alock_unlock_one_wr", "src/utils/utils_alock.c:ocf_alock_entry_locked"]}
{"id": "C14", "title": "Management lock: exclusion, FIFO order and no lost waiter", "statement": "The asynchronous management lock is never held by a writer together with any other holder; waiters are served in arrival order; each waiter's completion is called exactly once, with success when it owns the lock or with an error if the lock was destroyed first.", "quantifier": "every sequence of lock, trylock, unlock and destroy calls by any number of callers", "why_tests_cant": "history of arbitrary length over a queue of mixed readers and writers", "anchors": ["src/utils/utils_async_lock.c", "src/mngt/ocf_mngt_common.c"]}
{"id": "C15", "title": "Freezing reference counter reports zero exactly once and never early", "statement": "After freeze, no new reference is granted; the registered zero callback runs exactly once, only when every granted reference was released, under every interleaving of inc, dec, freeze and registration on any number of threads.", "quantifier": "any number of threads and every interleaving of the individual atomic operations", "why_tests_cant": "multi-threaded interleavings of single atomic instructions", "anchors": ["env/posix/ocf_env_refcnt.c:env_refcnt_inc", "env/posix/ocf_env_refcnt.c:env_refcnt_dec", "env/posix/ocf_env_refcnt.c:env_refcnt_register_zero_cb"]}
{"id": "C16", "title": "Hash bucket locks are taken once each in ascending order", "statement": "For a request of any number of consecutive core lines, the bucket locks taken are exactly the buckets of its core lines, each exactly once, in strictly ascending order; therefore concurrent requests cannot deadlock on bucket locks.", "quantifier": "every table size, every first core line, every core, every request length (shorter or longer than the table, wrapping or not)", "why_tests_cant": "modular arithmetic over unbounded table sizes and addresses", "anchors": ["src/concurrency/ocf_metadata_concurrency.c:for_each_req_hash_asc", "src/concurrency/ocf_metadata_concurrency.c:ocf_req_hash_in_range", "src/metadata/metadata_misc.h:ocf_metadata_hash_func"]}
{"id": "C17", "title": "Cache I/O of a request covers every byte once, at the right place", "statement": "When a request is executed on the cache device, the I/Os issued are pairwise disjoint, together cover each byte of the request exactly once, and each byte goes to the device offset of the cache line to which its core line is mapped, whatever the physical placement of the lines.", "quantifier": "every request address/length, every mapping of its lines to cache lines", "why_tests_cant": "every pattern of physically contiguous and scattered lines", "anchors": ["src/engine/engine_io.c:ocf_engine_forward_cache_io_req", "src/engine/engine_common.c:ocf_engine_traverse", "src/utils/utils_cache_line.h"]}
{"id": "C18", "title": "Management pipelines run their steps in order and finish once", "statement": "A management operation executed as a pipeline runs its steps in order, stops at the first reported error, and calls the finish handler exactly once with that error (or success), regardless of whether steps continue synchronously or later.", "quantifier": "every pipeline shape (including argument and predicate/iterating steps) and every continuation pattern", "why_tests_cant": "unbounded shapes", "anchors": ["src/utils/utils_pipeline.c"]}
{"id": "C19", "title": "Parallel jobs complete exactly once after all shards", "statement": "A parallel job calls its finish callback exactly once, after every shard's handler returned, and reports an error if some shard failed.", "quantifier": "every number of shards and every schedule of shard completion", "why_tests_cant": "thread interleavings", "anchors": ["src/utils/utils_parallelize.c"]}
{"id": "C20", "title": "Parallel metadata scans visit every cache line exactly once", "statement": "In the parallel passes over the cache (initialisation, population of free list, rebuild after crash, cleaning policy population) the shards partition the cache lines: every line is processed by exactly one shard.", "quantifier": "every cache size and every shard count used", "why_tests_cant": "remainder arithmetic over all sizes", "anchors": ["src/ocf_lru.c:ocf_lru_populate", "src/mngt/ocf_mngt_cache.c:ocf_mngt_rebuild_metadata_handle", "src/cleaning/alru.c:ocf_alru_populate_handle", "src/cleaning/acp.c:ocf_acp_populate_handle"]}
{"id": "C21", "title": "Composite volume maps addresses like concatenation", "statement": "A read, write or discard on a composite volume touches each byte of its range exactly once, on the member volume and offset given by concatenating the members, and completes once with an error iff some member failed.", "quantifier": "every number and size of members, every range within the total length", "why_tests_cant": "every boundary crossing pattern", "anchors": ["src/ocf_composite_volume.c"]}
{"id": "C22", "title": "Metadata flush writes exactly the affected pages", "statement": "A metadata flush of a request writes every metadata page that holds an entry of one of the request's marked cache lines, writes no page twice, and writes no other page.", "quantifier": "every set of marked lines and any number of entries per page", "why_tests_cant": "sorting/merging of arbitrary page multisets", "anchors": ["src/metadata/metadata_raw.c:_raw_ram_flush_do_asynch", "src/metadata/metadata_raw.c:__raw_ram_flush_do_asynch_add_pages"]}
{"id": "C23", "title": "Metadata I/O completion is reported exactly once", "statement": "A metadata read/write operation calls its completion exactly once, after all its chunks were finished, with an error iff some chunk failed, under any interleaving of its concurrent workers.", "quantifier": "every operation size, every worker interleaving, every error placement", "why_tests_cant": "worker races", "anchors": ["src/metadata/metadata_io.c:metadata_io_req_complete", "src/metadata/metadata_io.c:metadata_io_req_advance", "src/metadata/metadata_io.c:metadata_io_i_asynch"]}
{"id": "C24", "title": "Configuration update is crash-atomic", "statement": "Saving the cache configuration is atomic with respect to a crash: after a crash at any point of any sequence of saves (some of which may have failed with an I/O error), loading finds the complete configuration of the last successful save or of the one in progress.", "quantifier": "every history of saves with any error placement and every crash point", "why_tests_cant": "crash points and error histories are unbounded", "anchors": ["src/metadata/metadata_superblock.c:ocf_metadata_flush_superblock", "src/metadata/metadata_superblock.c:ocf_metadata_flush_superblock_finish", "src/metadata/metadata_segment.c"]}
{"id": "C25", "title": "Metadata sizing terminates and fits the device", "statement": "For every cache device size that is accepted, the computed number of cache lines together with the metadata describing them fits on the device, metadata and data areas do not overlap, and the computation never reports the internal 'no convergence' failure; the space left unused is less than a small bound.", "quantifier": "every device size and every line size", "why_tests_cant": "fixpoint iteration over all 64-bit sizes", "anchors": ["src/metadata/metadata.c:ocf_metadata_calculate_metadata_size", "src/metadata/metadata.c:ocf_metadata_init_variable_size"]}
{"id": "C26", "title": "Metadata sections never overlap", "statement": "The on-disk locations of all metadata sections, including both copies of double-buffered ones, are pairwise disjoint and contained in the metadata area, for every cache size.", "quantifier": "every number of cache lines", "why_tests_cant": "layout arithmetic for all sizes", "anchors": ["src/metadata/metadata.c:ocf_metadata_init_fixed_size", "src/metadata/metadata.c:ocf_metadata_init_variable_size", "src/metadata/metadata_raw.c"]}
{"id": "C27", "title": "Bisect generator is a permutation", "statement": "The index generator used to spread work returns, within any period of as many calls as the limit, every value in [0,limit) exactly once, from whatever offset it was started.", "quantifier": "every limit in the supported range and every starting offset", "why_tests_cant": "2^31 limits x offsets", "anchors": ["src/utils/utils_generator.c"]}
{"id": "C28", "title": "Sequential streams stay tracked", "statement": "A sequential stream that is tracked for sequential cutoff is found again when its next consecutive request arrives, until its slot is reused for another stream.", "quantifier": "every history of requests and stream promotions between per-queue and per-core trackers", "why_tests_cant": "search tree shape depends on whole history", "anchors": ["src/ocf_seq_cutoff.c", "src/utils/utils_rbtree.c"]}
{"id": "C29", "title": "N-hit promotion threshold is respected", "statement": "With the n-hit policy a core line is admitted into the cache only if it was requested at least the configured number of times since it was last forgotten by the policy, unless the cache occupancy is below the configured trigger; and a line requested that often while remembered is admitted.", "quantifier": "every request history, every threshold", "why_tests_cant": "unbounded history with hash collisions and ring-buffer eviction of counters", "anchors": ["src/promotion/nhit/nhit.c", "src/promotion/nhit/nhit_hash.c"]}
{"id": "C30", "title": "Aggressive cleaning keeps every dirty chunk eligible", "statement": "With the ACP cleaning policy, a chunk of a core that has dirty cache lines stays eligible for background cleaning: as long as it is dirty it is eventually chosen when time passes and no further errors occur.", "quantifier": "every history of dirtying, cleaning, errors and reloads", "why_tests_cant": "temporal property over histories with timers", "anchors": ["src/cleaning/acp.c:_acp_can_clean_chunk", "src/cleaning/acp.c:ocf_acp_populate_chunk", "src/cleaning/acp.c:_acp_update_bucket"]}
{"id": "C31", "title": "ALRU dirty-ratio trigger is exact", "statement": "The ALRU cleaner starts cleaning because of the dirty ratio exactly when the percentage of dirty data exceeds the configured maximum.", "quantifier": "every cache size and dirty count", "why_tests_cant": "overflow only at sizes no test allocates", "anchors": ["src/cleaning/alru.c:check_for_dirty_ratio"]}
{"id": "C32", "title": "I/O class size limits", "statement": "Eviction on behalf of one request never shrinks an I/O class below its configured minimum and never takes lines from a class when enough free or overflown space exists elsewhere of lower priority; a class's allocation request that would exceed its maximum evicts from that class first.", "quantifier": "every configuration of classes, sizes, priorities and every request size", "why_tests_cant": "combinatorial over configurations", "anchors": ["src/ocf_space.c:ocf_evict_calculate", "src/ocf_space.c:ocf_evict_user_partitions", "src/utils/utils_user_part.c"]}
{"id": "C33", "title": "Occupancy statistics match the cache content", "statement": "The reported number of cached (and dirty) lines of a core equals the number of cache lines currently mapped (dirty) for that core.", "quantifier": "every history of requests, invalidations, discards, evictions and concurrent waiters on cache lines", "why_tests_cant": "the drift needs an invalidation racing with a waiter", "anchors": ["src/utils/utils_cache_line.c:__set_cache_line_invalid", "src/engine/engine_common.c:ocf_engine_map_hndl_error"]}
{"id": "C34", "title": "Eviction-triggered cleaning is always restartable", "statement": "When an I/O class has no clean line to evict but has dirty ones, requesting space triggers cleaning of that class; this works again after any earlier attempt that found nothing to clean.", "quantifier": "every history of eviction-cleaning attempts", "why_tests_cant": "the failure needs a race between list emptiness and the attempt and is only visible later", "anchors": ["src/ocf_lru.c:ocf_lru_clean", "src/ocf_lru.c:ocf_lru_clean_end"]}
{"id": "C35", "title": "Out-of-range user I/O is rejected", "statement": "A user I/O on a core is accepted only if its whole byte range lies inside the core.", "quantifier": "all 64-bit addresses and 32-bit lengths", "why_tests_cant": "wrap-around corner values", "anchors": ["src/ocf_core.c:ocf_core_validate_io"]}
{"id": "C36", "title": "Request cache mode resolution", "statement": "The mode in which a request is executed follows the documented precedence: a pass-through/sequential-cutoff/detached/fallback condition overrides the class mode, a write-back or write-only class never accepts lazy writes while flushing blocks new dirty data, and the chosen mode never makes a write lazy unless the configured mode is a lazy one.", "quantifier": "every combination of class mode, cache mode, cutoff decision, fallback state and freeze state", "why_tests_cant": "product of all inputs, plus the fast path that bypasses the check", "anchors": ["src/engine/cache_engine.c:ocf_resolve_effective_cache_mode", "src/ocf_core.c:_ocf_core_req_resolve_fast_mode", "src/engine/engine_fast.c:ocf_write_fast"]}
{"id": "C37", "title": "Write-only reads report cache errors", "statement": "A read in write-only mode that has to fetch a dirty sector from the cache device completes with an error if that fetch failed; it never completes successfully with stale core data for a dirty sector.", "quantifier": "every number of dirty fragments and every placement of errors, synchronous or asynchronous", "why_tests_cant": "needs several fragments and synchronous failure of a particular one", "anchors": ["src/engine/engine_wo.c", "src/engine/engine_io.c:ocf_engine_forward_cache_io", "src/ocf_request.c:ocf_req_forward_cache_init"]}
{"id": "C38", "title": "I/O queues run each request exactly once, high priority first, FIFO within a priority", "statement": "Each request pushed to a queue is handed out exactly once; among waiting requests, high priority ones come first and equal priority ones in push order (unless pushed to the front); the reported number of pending requests is exact.", "quantifier": "every sequence of pushes and pops", "why_tests_cant": "unbounded histories", "anchors": ["src/ocf_queue.c"]}
{"id": "C39", "title": "Core identifiers are unique and reuse is bounded", "statement": "Adding a core without explicit id picks an id that is not in use, and succeeds whenever fewer than the maximum number of cores exist.", "quantifier": "every set of used ids", "why_tests_cant": "2^4096 bitmaps", "anchors": ["src/mngt/ocf_mngt_core.c:ocf_mngt_find_free_core"]}
{"id": "C40", "title": "Flush cleans everything", "statement": "When a flush of a core or cache completes successfully with new dirty data blocked, every sector that was dirty is written to the core exactly with its cached data and no dirty line remains.", "quantifier": "every dirty set, every flush portion size, every interleaving of portions across cores", "why_tests_cant": "portioning arithmetic over arbitrary dirty sets", "anchors": ["src/mngt/ocf_mngt_flush.c:_ocf_mngt_get_sectors", "src/mngt/ocf_mngt_flush.c:_ocf_mngt_get_flush_containers", "src/mngt/ocf_mngt_flush.c:_ocf_mngt_flush_container"]}
{"id": "C41", "title": "Cleaner writes exactly the dirty sectors", "statement": "Cleaning a cache line issues core writes for exactly the maximal runs of dirty sectors of that line (no clean or invalid sector is written, no dirty one skipped), each to the right core address.", "quantifier": "every dirty bitmap, every line size", "why_tests_cant": "2^128 bitmaps", "anchors": ["src/utils/utils_cleaner.c:_ocf_cleaner_core_submit_io", "src/utils/utils_cleaner.c:_ocf_cleaner_core_io_for_dirty_range"]}
{"id": "C42", "title": "Recovery keeps all dirty data and nothing else", "statement": "Recovery after a dirty shutdown keeps mapped exactly the cache lines that hold dirty sectors on disk, with exactly the dirty sectors valid, puts all other lines on the free list, and refuses to start if a line is inconsistent or belongs to no core.", "quantifier": "every on-disk collision metadata content", "why_tests_cant": "arbitrary on-disk states left by a crash", "anchors": ["src/mngt/ocf_mngt_cache.c:ocf_mngt_rebuild_metadata_handle", "src/mngt/ocf_mngt_cache.c:ocf_mngt_rebuild_metadata_handle"]}
{"id": "C43", "title": "Cleaning failures are reported", "statement": "A flush/cleaning operation completes with success only if every metadata update and device flush it issued succeeded.", "quantifier": "every batch of lines and every error placement", "why_tests_cant": "error placement in a batch of slave requests", "anchors": ["src/utils/utils_cleaner.c:_ocf_cleaner_metadata_io_end", "src/utils/utils_cleaner.c:_ocf_cleaner_flush_cache_end"]}
{"id": "C44", "title": "Discard hides cached data and touches nothing else", "statement": "After a successful discard of a range no cached copy of a sector of the range remains, the discard is forwarded to the core for the range exactly once in consecutive pieces, and every sector outside of the range reads as before.", "quantifier": "every range length (longer or shorter than the maximum trim step), every cache state", "why_tests_cant": "step splitting over all lengths", "anchors": ["src/engine/engine_discard.c"]}
{"id": "C45", "title": "Sorting used by the cleaner and flush is correct", "statement": "The in-place sorts used to order cache lines by core address return a sorted permutation of their input.", "quantifier": "every array/list", "why_tests_cant": "unbounded inputs", "anchors": ["src/utils/utils_list.c:ocf_lst_sort"]}
{"id": "C46", "title": "Request completion is signalled exactly once", "statement": "The user's completion callback of an I/O that the engine splits into several device I/Os runs exactly once, after all of them finished, and reports an error iff the engine saw one that is not tolerated.", "quantifier": "every number of device I/Os and every completion order, synchronous or asynchronous", "why_tests_cant": "interleavings", "anchors": ["src/ocf_request.c:ocf_req_forward_core_init", "src/ocf_request.h", "src/engine/engine_wt.c"]}
{"id": "C47", "title": "Metadata saved at shutdown loads back", "statement": "If the cache was stopped cleanly, the next load accepts the stored metadata: checksums computed when storing equal the ones computed when loading.", "quantifier": "every history of core add/remove operations before shutdown", "why_tests_cant": "depends on which lazily allocated pages exist", "anchors": ["src/metadata/metadata_raw_dynamic.c:raw_dynamic_checksum", "src/metadata/metadata_core.c", "src/metadata/metadata_segment.c"]}
{"id": "C48", "title": "Fallback pass-through engages at the threshold", "statement": "When the number of cache errors reaches the configured threshold all later requests are served from the core in pass-through mode until the counter is reset; below the threshold they are not; a disabled threshold never triggers.", "quantifier": "every error history and threshold", "why_tests_cant": "histories with resets and threshold changes", "anchors": ["src/engine/cache_engine.c:ocf_fallback_pt_is_on", "src/ocf_cache_priv.h"]}
{"id": "C49", "title": "Request statistics are conserved", "statement": "For each core and class, the number of requests reported equals full hits plus partial misses plus full misses plus pass-through requests, separately for reads and writes, for every history.", "quantifier": "every history of requests", "why_tests_cant": "conservation over histories", "anchors": ["src/ocf_stats.c", "src/engine/engine_common.c:ocf_engine_update_request_stats"]}
{"id": "C50", "title": "Standby metadata update applies exactly the written pages", "statement": "In standby, a write to the cache volume updates in memory exactly the cache-line metadata entries stored on the written pages; writes outside of the metadata area change nothing.", "quantifier": "every write range", "why_tests_cant": "page/segment overlap arithmetic", "anchors": ["src/metadata/metadata_passive_update.c"]}
{"id": "C51", "title": "Durable data is not lost by a write-through overwrite and a power failure", "statement": "Data that the user has written and flushed (flush completed) is, after a power failure in which each device may lose any of its un-flushed volatile writes, still readable unless replaced by data of a later write to the same sectors.", "quantifier": "every history, every power failure point, every subset of unflushed writes persisted on each device", "why_tests_cant": "subset of volatile writes on two devices", "anchors": ["src/engine/engine_wt.c:_ocf_write_wt_update_bits", "src/engine/engine_flush.c", "src/utils/utils_cleaner.c:_ocf_cleaner_fire_flush_core"]}
{"id": "C52", "title": "Acknowledged writes survive concurrent requests and cleaning", "statement": "When a write that bypasses the cache runs concurrently with reads, write-back writes and background cleaning of the same cache line, then after all of them completed every sector holds the data of an acknowledged write that no other acknowledged write followed.", "quantifier": "every interleaving of the device I/Os and metadata sections of the concurrent requests on a line", "why_tests_cant": "needs a specific order of four I/Os of three requests", "anchors": ["src/utils/utils_cleaner.c:_ocf_cleaner_core_submit_io", "src/engine/engine_wi.c", "src/engine/engine_bf.c", "src/engine/engine_rd.c"]}
{"id": "C53", "title": "Non-lazy modes stay non-lazy with fast submission", "statement": "A write acknowledged in write-through, write-around, write-invalidate or pass-through mode is on the core device, whether or not the cache was started with the fast submission option.", "quantifier": "every history, every configuration flag", "why_tests_cant": "depends on the line being mapped when the write arrives", "anchors": ["src/ocf_core.c:_ocf_core_req_resolve_fast_mode", "src/engine/engine_fast.c:ocf_write_fast"]}
{"id": "C54", "title": "A cache can be attached and detached repeatedly", "statement": "A cache instance can be attached to a device, detached and attached again any number of times with any settings, also after an attachment that failed: no memory is released twice, and when background cleaning is enabled its metadata exists.", "quantifier": "every history of attachments, detachments, settings and allocation failures", "why_tests_cant": "needs sequences of attachments with different settings or an allocation failure at a particular place", "anchors": ["src/metadata/metadata.c:ocf_metadata_init_variable_size", "src/metadata/metadata.c:ocf_metadata_deinit_variable_size", "src/metadata/metadata_segment.c:ocf_metadata_segment_destroy"]}
{"id": "C55", "title": "ALRU lists hold exactly the dirty cache lines", "statement": "With the ALRU cleaning policy, after populating from any metadata and any history of mapping, writing, cleaning, unmapping and moving lines between I/O classes, the list of each class contains exactly the dirty lines of that class, each once, most recently written first, with correct links, ends and size, and no internal assertion fails; a cleaning pass collects exactly the oldest stale dirty lines that are not busy, up to the requested number.", "quantifier": "every metadata content, every history, every number of lines and classes", "why_tests_cant": "pointer manipulation over unbounded histories, populating by 32 parallel shards", "anchors": ["src/cleaning/alru.c:remove_alru_list", "src/cleaning/alru.c:add_alru_head", "src/cleaning/alru.c:ocf_alru_populate_handle", "src/cleaning/alru.c:get_data_to_flush"]}
{"id": "C56", "title": "LRU scan finds every available line", "statement": "A request for n lines of an I/O class gets n distinct unlocked lines, or all the unlocked lines of the class's 32 LRU lists when there are fewer, the least recently used of each list first; eviction cleaning selects min(count, 32) distinct dirty unlocked lines, or all of them.", "quantifier": "all contents of the 32 lists, sets of locked lines, starting lists and counts", "why_tests_cant": "the rotating bit mask over 32 lists makes skipping a list depend on which lists ran empty in which round", "anchors": ["src/ocf_lru.c:_lru_next_lru", "src/ocf_lru.c:lru_iter_eviction_next", "src/ocf_lru.c:lru_iter_free_next", "src/ocf_lru.c:lru_iter_cleaning_next", "src/ocf_lru.c:ocf_lru_req_clines", "src/ocf_lru.c:ocf_lru_clean"]}
{"id": "C57", "title": "The books about cores stay consistent", "statement": "After any sequence of adding, re-adding, detaching and removing cores, including operations failing at any step, the bitmap of valid cores, the flags of each core, the counters of cores and inactive cores, the incomplete state and the resources held agree; names and UUIDs are unique; a failed operation changes nothing.", "quantifier": "every set of saved cores and every sequence of operations with every point of failure", "why_tests_cant": "Combinations of failure points and later operations are unbounded", "anchors": ["src/mngt/ocf_mngt_core.c:_ocf_mngt_cache_add_core_handle_error", "src/mngt/ocf_mngt_common.c:cache_mngt_core_deinit", "src/mngt/ocf_mngt_core.c:ocf_mngt_cache_try_add_core_insert"]}
{"id": "C58", "title": "A discard covers exactly its range", "statement": "An accepted discard is processed in steps of at most 512 KiB that together cover exactly its byte range in order; the lines of each step are exact and fit the allocated map; the core volume gets a discard of exactly the range.", "quantifier": "every offset, length and line size", "why_tests_cant": "Ranges and step boundaries over 64-bit offsets", "anchors": ["src/engine/engine_discard.c:_ocf_discard_step", "src/ocf_request.c:ocf_req_alloc_map_discard", "src/ocf_core.c:ocf_core_volume_submit_discard"]}
{"id": "C59", "title": "Balanced search tree", "statement": "The red-black tree with rings of equal nodes works as a balanced search tree: every sequence of insertions and removals completes without dereferencing a null pointer, a look-up finds a present node with the searched key exactly when there is one, and no path has more than 2*log2(n+1) nodes; a node for which ocf_rb_tree_can_update allows a new key, not smaller than the old one, keeps the look-up right when it gets the key in place; the sequential cut-off trackers built on it never fail and stay balanced.", "quantifier": "every sequence of insertions of absent and removals of present nodes, every key order, every initial node memory; every history of requests for the trackers", "why_tests_cant": "tree shapes depend on the whole history; a wrong colour or pointer shows up only many operations later", "anchors": ["src/utils/utils_rbtree.c", "src/ocf_seq_cutoff.c"]}
{"id": "C60", "title": "Life of a cache: nothing lost, nothing freed twice", "statement": "Over the whole life of a cache instance - start, any sequence of attach, load, standby attach/load/detach, activate, detach and change of cleaning policy, then stop - everything acquired (memory, locks, reference counters, pipelines, open volumes, policy contexts, core objects) is released exactly once, no handle is overwritten, every operation completes and nothing is dereferenced that is NULL; an operation that fails leaves the cache as it was and holding exactly what it held.", "quantifier": "every sequence of operations, every combination of failing allocations, I/O and checks in each of them, any number of cores and I/O classes", "why_tests_cant": "there are some sixty points of failure in ten pipelines whose clean-up depends on flags; leaks and double frees need a failure at one point followed by a particular later operation", "anchors": ["src/mngt/ocf_mngt_cache.c", "src/mngt/ocf_mngt_flush.c", "src/cleaning/cleaning_ops.h", "src/mngt/ocf_mngt_common.c"]}
{"id": "C61", "title": "Management I/O to the cache device is exact and completes once", "statement": "ocf_submit_cache_flush/discard/write_zeros/page and ocf_metadata_read_sb: whatever the length of the range, the I/Os handed to the device touch each of its bytes exactly once and no other byte, none is empty or longer than 32 bits, alignment is kept; whichever allocations fail and whatever the device does, in every interleaving, the caller is told exactly once (callback or return value), with an error iff something failed, and context, request, queue reference and buffer are each released exactly once, not before the last I/O has ended. The attach step that clears the data area touches exactly the data area.", "quantifier": "all addresses and lengths with addr+len <= 2^64, all volumes (plain, closed, composite, nested), all allocation failures, all interleavings and results of device I/Os", "why_tests_cant": "Tests use small volumes in one piece, synchronous devices and no allocation failures; the zero-writing path needs an atomic device whose discards do not zero.", "anchors": ["src/utils/utils_io.c:20-199", "src/metadata/metadata_superblock.c:654-721", "src/mngt/ocf_mngt_cache.c:1904-1925", "src/ocf_request.c:101-116"]}
{"id": "C62", "title": "Statistics reports add up", "statement": "Every report of ocf_stats_collect_cache/core/part_cache/part_core is consistent: hits + partial + full misses = total per direction, totals + pass-through = all, reads + writes = total for every device and for errors, the overall number of errors is the sum; occupancy + free = device, clean + dirty = occupancy; every percentage is the exact ratio rounded down and never above 100.00; a core is the sum of its io classes, a class of the cache the sum over its cores, the cache the sum of its cores (blocks up to rounding).", "quantifier": "all caches with any number of cores and any counter values below the stated bounds (2^50 requests, 2^62 bytes per device, 2^32 errors and lines, 2^60 bytes of cache)", "why_tests_cant": "Tests compare a few lines of reports after small workloads; overflow, inactive cores, detached caches and consistency of every line with every other are not covered.", "anchors": ["src/ocf_stats_builder.c:16-494", "src/utils/utils_stats.h:17-48", "src/ocf_stats.c:234-381", "src/ocf_cache.c:111-230", "src/ocf_core.c:121-148"]}
{"id": "C63", "title": "Loading the superblock is all or nothing", "statement": "Loading the configuration from the cache device either succeeds - then every segment in memory is the stored one, taken from the copy the superblock names, with matching checksum, every field later used as an index, count or selector is in range, and the cores marked valid agree - or fails, and then the configuration in memory is what it was, the caller is told the reason exactly once and the temporary copies are released exactly once.", "quantifier": "every content of the device, every pattern of read errors and failed allocations, clean and recovery load", "why_tests_cant": "a corrupt device has arbitrary bytes; tests flip single fields and cannot fail each allocation and read in every combination", "anchors": ["src/metadata/metadata_superblock.c:67-435", "src/metadata/metadata_segment.c:74-142"]}
{"id": "C64", "title": "Volume objects neither leak nor free what they do not own", "statement": "Over any sequence of initialising, creating, moving, opening, closing and destroying volumes, whichever allocations, hooks and opens fail, no memory is used after it is freed, freed twice or freed though it belongs to the caller; the allocated blocks are exactly those the volumes hold and nothing remains when all are given up; an open volume has a type and a device whose open hook was called; the open and close hooks of a device alternate; the core pool's count is the number of volumes in it, and a core of a loaded cache that finds its device there takes it over open.", "quantifier": "every sequence of calls on any number of volumes, every failure of an allocation, hook or open, every uuid", "why_tests_cant": "leaks and foreign frees need particular sequences of failures, moves and uuid changes; tests run single well-behaved sequences", "anchors": ["src/ocf_volume.c:90-272", "src/ocf_volume.c:446-490", "src/mngt/ocf_mngt_core_pool.c:30-130", "src/mngt/ocf_mngt_core.c:907-942"]}
{"id": "C65", "title": "A run of the cleaner takes and gives back, flushes only what rests, and makes progress", "statement": "In every run of the cleaner, whatever state it finds and however its flush completes, end is called exactly once and the cache lock, queue, cleaner reference, metadata lock, memory and cache line locks are given back exactly as often as taken and never before; lines are flushed only while the cache runs and is not locked; ALRU flushes, oldest first and at most flush_max_buffers, lines of open cores that nobody uses and that were not used for stale_buffer_time, while the user's I/O rests; ACP tries every core line of a chunk once, in order, before it turns to another, and a run leaves off within a chunk only when it has as many dirty lines as it may flush; parameters stay within their limits; and when end is called nothing of the run is held any more.", "quantifier": "every configuration, clock, contents of the lists, outcome of every lock and allocation, interleaving of the flush completion with the thread, any number of ACP runs, any sequence of parameter changes", "why_tests_cant": "the completion's interleaving with the cleaner thread, clock wrap-around and limits that meet busy lines are not under a test's control", "anchors": ["src/cleaning/cleaning.c:57-121", "src/cleaning/cleaning_ops.h:273-295", "src/cleaning/alru.c:680-957", "src/cleaning/acp.c:539-737"]}
{"id": "C66", "title": "Dropping cache contents loses no data and leaves nothing behind", "statement": "A purge of a cache or core, however it interleaves with other requests and whatever errors occur, changes no core's content; if it reports success no cache line of what is purged is left and the core devices hold all the data; it empties exactly the lines of the target that nobody uses and reports -EAGAIN exactly when one of them is in use; it takes and gives back the flush mutex and the freeze of dirty requests in pairs and invalidates only inside them after a flush without error. Removing a core ends with no cache line of the core mapped, on a collision list or in the cleaning policy, however often line locks fail, without touching lines of others; the counts of cores and inactive cores and the incomplete flag stay right; a failed purge or removal leaves a usable cache, and the callback gets the caller's context.", "quantifier": "every coherent cache state, any interleaving of the flush and the removal loop with requests of others, every pattern of used lines and failed locks, every device error, every configuration state", "why_tests_cant": "purge and removal race with requests on the same lists; the outcome depends on which lines are locked at the moment and on failing metadata writes", "anchors": ["src/mngt/ocf_mngt_flush.c:814-932", "src/ocf_lru.c:950-1016", "src/metadata/metadata_misc.c:22-46", "src/mngt/ocf_mngt_common.c:50-140", "src/mngt/ocf_mngt_core.c:633-905"]}
{"id": "C67", "title": "A constructor builds its object or leaves nothing behind", "statement": "Whatever subset of the allocations, lock initialisations and references is refused, at whatever moment, each constructor of locks (metadata locks, line and page locks), metadata containers, the nhit policy, memory pools, the context, queues, requests and cleaner requests either succeeds or has given back everything it took and reports an error, and it fails only if something was refused or an argument was invalid; the destructor gives back exactly what the constructor (and what was added later, such as pages of a dynamic container or the map of a request) took, nothing twice and nothing that was not there. After the life of an I/O, in either order of completion and put, nothing of it is left.", "quantifier": "every pattern of refusals depending on the whole history, every size (number of hash buckets, collision pages, wait lists, size classes, pages, lines), every order of the two puts of an I/O", "why_tests_cant": "allocation failures in the middle of a loop and failing lock initialisations do not occur in tests; the number of failure points grows with the size of the cache", "anchors": ["src/concurrency/ocf_metadata_concurrency.c:10-139", "src/utils/utils_alock.c:94-203", "src/concurrency/ocf_mio_concurrency.c:145-183", "src/concurrency/ocf_pio_concurrency.c:192-247", "src/metadata/metadata_raw.c:96-147", "src/metadata/metadata_raw_dynamic.c:130-198", "src/promotion/nhit/nhit_hash.c:130-214", "src/promotion/nhit/nhit.c:41-92", "src/ocf_ctx.c:180-291", "src/ocf_queue.c:17-161", "src/ocf_request.c:101-408", "src/ocf_io.c:76-139", "src/ocf_core.c:259-404", "src/utils/utils_cleaner.c:41-156", "env/posix/utils_mpool.c:29-85"]}
{"id": "C68", "title": "Metadata pages are written under their page locks", "statement": "Two flushes of metadata pages that are under way at the same time have no page in common: the lock entries of a request are those of its pages, inside the table of the lock, and two requests lock a common entry exactly if they have a page in common; in standby the same holds for the pages of the segments that are locked, and the number of entries announced is the number locked. So an older copy of a page never replaces a newer one on the device, a flush that ends without error has put on the device everything that was in memory before it copied its first page, every flush ends, an error of the device ends it with that error, a page outside the segment has no lock entry, and a flush refused for lack of memory keeps no lock and no place in a waiters list.", "quantifier": "for all segments and segment layouts, page ranges, numbers of requests, and interleavings of locking, changes of memory, copying, device writes in any order, errors and ends of I/O", "why_tests_cant": "the order of two flushes of one page depends on scheduling and on the order in which the device completes; a lost update shows only after a crash", "anchors": ["src/concurrency/ocf_mio_concurrency.c:20-32", "src/concurrency/ocf_mio_concurrency.c:34-95", "src/concurrency/ocf_mio_concurrency.c:114-139", "src/concurrency/ocf_pio_concurrency.c:47-61", "src/concurrency/ocf_pio_concurrency.c:141-155", "src/metadata/metadata_io.c:242-298"]}
{"id": "C69", "title": "Metadata of an atomic cache device", "statement": "On a cache device that stores an entry with every sector: discarding cached lines of a request discards exactly the sectors of the request that are cached, each as often as its cache line occurs in the request (once when the lines differ); the entry handed out for a sector names the core line, the core's sequence number and the state of that sector; the number of invalid sectors around an address is all of them or 0; recovery from the entries restores the state of every sector and the mapping of every line with a valid sector, and changes no line beyond the last one; zeroing a line completes exactly once; sequence numbers of the cores are distinct and not 0.", "quantifier": "all line sizes, requests, mappings, metadata states, numbers of lines and orders of attaching, adding and removing cores", "why_tests_cant": "Atomic devices do not exist in the test environment, and recovery differs only beyond the first 512 sectors or for particular combinations of valid sectors.", "anchors": ["src/metadata/metadata_raw_atomic.c:82-98", "src/metadata/metadata_raw_atomic.c:100-205", "src/ocf_metadata.c:26-56", "src/ocf_metadata.c:58-109", "src/metadata/metadata.c:1335-1350", "src/metadata/metadata.c:1360-1404", "src/metadata/metadata_io.c:102-122", "src/metadata/metadata_io.c:127-174", "src/engine/engine_zero.c:54-93", "src/engine/engine_zero.c:95-117", "src/mngt/ocf_mngt_core.c:19-25"]}
{"id": "C70", "title": "Parameters of a running cache", "statement": "Cache mode, cleaning and promotion policy and their parameters, and the sequential cut-off of the cores: every parameter stays within its documented limits; a setter accepts exactly the values within them, the value is read back and no other parameter changes, and a refused value changes nothing; setting a parameter of all cores reaches all of them; the promotion policy at work is the configured one and decides by the thresholds that are set; parameters survive detaching and attaching; callers get errors, not crashes, for what a detached cache or a wrong type does not allow.", "quantifier": "all sequences of setters, core additions, removals and detachments, attachments and detachments of the device, with all values and all failures of policy initialisation", "why_tests_cant": "Limits and pointers go wrong only after particular orders of policy switches, failed initialisations and attachments; tests check single setters.", "anchors": ["src/mngt/ocf_mngt_core.c:982-1008", "src/mngt/ocf_mngt_core.c:1072-1098", "src/mngt/ocf_mngt_core.c:1148-1176", "src/mngt/ocf_mngt_core.c:1227-1248", "src/ocf_core.c:121-148", "src/mngt/ocf_mngt_cache.c:3576-3605", "src/mngt/ocf_mngt_cache.c:3607-3636", "src/mngt/ocf_mngt_cache.c:3638-3655", "src/promotion/promotion.c:75-116", "src/promotion/nhit/nhit.c:94-140", "src/cleaning/alru.c:586-648", "src/cleaning/acp.c:481-514", "src/mngt/ocf_mngt_flush.c:1111-1134"]}
{"id": "C71", "title": "Failover to a standby instance", "statement": "After failover a standby instance works with exactly what the cache device holds: whatever pages of metadata the peer wrote through the instance, and whatever attempts to activate failed before, activation succeeds exactly if the configuration on the device is valid and every entry of the mapping is consistent and belongs to an existing core; then for every cache line the dirty sectors and the core line are those of the entry on the device and nothing else is mapped, every line is handed over once to the free list or to its place in the hash table, the entries on the device are unchanged and the device says that the cache is in use. An activation that fails leaves the device and the instance as they were and can be tried again. A superblock changed on the device behind the instance is noticed.", "quantifier": "all geometries, numbers of lines, bitmap widths, initial contents (attached or loaded), sequences of writes, sequences of failed activations, and failures in every stage", "why_tests_cant": "Failover tests use a few writes and one activation without errors; a stale mapping shows only as wrong data much later, a failure inside the last write needs an injected error at that place.", "anchors": ["src/mngt/ocf_mngt_cache.c:516-702", "src/mngt/ocf_mngt_cache.c:2462-2584", "src/mngt/ocf_mngt_cache.c:2603-2792", "src/mngt/ocf_mngt_cache.c:3005-3095", "src/ocf_cache.c:319-350", "src/metadata/metadata_bit.h:225-282", "src/metadata/metadata_superblock.c:38-65", "src/metadata/metadata_superblock.c:437-565"]}
{"id": "C72", "title": "Caches of a context: names, visits, references", "statement": "A cache that is on the list of its context or to which anybody has a reference is not freed, and it is freed exactly when it is removed and the last reference is put; no reference is put twice and none is lost by finding, visiting, starting or stopping. A name given with its terminator finds the running cache of that name if there is one and no other, and a second cache of the same name is not started; the same holds for the cores of a cache. A visit calls the visitor once for each cache in the order of the list, or backwards, for all that are not being stopped, stops at the first error and gives all references back. The list, hence a visit, is in the order in which the caches were started; visitors run without the lock of the context, which is free when nobody starts a cache or copies the list; and while an operation has not ended, some operation can go on.", "quantifier": "all numbers of threads, names, interleavings of starting, finding, visiting, getting, putting and stopping caches, and failures of allocations", "why_tests_cant": "Tests start and stop a few caches one after another with well-formed names; the interleavings between freezing a counter and unlinking the cache, and names that fill their buffer or begin with each other, are not tried.", "anchors": ["src/mngt/ocf_mngt_common.c:141-192", "src/mngt/ocf_mngt_common.c:390-517", "src/mngt/ocf_mngt_cache.c:1019-1053", "src/mngt/ocf_mngt_cache.c:1570-1650", "src/mngt/ocf_mngt_cache.c:2321-2411", "src/mngt/ocf_mngt_cache.c:3097-3100", "src/ocf_cache.c:42-54", "src/ocf_core.c:53-72", "env/posix/ocf_env.h:104-109"]}
{"id": "C73", "title": "Marks on the cache device: presence, clean shutdown, dirty data, probe", "statement": "Whatever survives a power cut, a device whose superblock says 'clean shutdown' holds exactly the run-time metadata saved with that mark, and a running cache never leaves such a mark; after a stop that reported success the device says cache present, clean, dirty data exactly if there was some, and a load takes the stopped cache's metadata; without force no attach, failed load, stop or save loses a cache on the device, and a detach that reported success leaves none; probe reports what load accepts.", "quantifier": "all sequences of attach, load, stop, detach, saves of the configuration and metadata writes, all failures of single writes and flushes, all power cuts keeping any subset of the volatile writes, any checksum function, all superblock contents", "why_tests_cant": "needs power cuts at every point with every subset of volatile writes; the test volumes are memory without a volatile cache", "anchors": ["src/metadata/metadata.c:1023-1135", "src/metadata/metadata.c:1725-1822", "src/metadata/metadata_superblock.c:37-65", "src/metadata/metadata_superblock.c:437-565", "src/metadata/metadata_superblock.c:723-729", "src/mngt/ocf_mngt_cache.c:1257-1331", "src/mngt/ocf_mngt_cache.c:1949-1971", "src/mngt/ocf_mngt_cache.c:2065-2169", "src/mngt/ocf_mngt_cache.c:2215-2259", "src/mngt/ocf_mngt_cache.c:2415-2430", "src/mngt/ocf_mngt_cache.c:3839-3897"]}
{"id": "C74", "title": "Attaching and detaching the cache device under I/O", "statement": "While the cache device is attached and detached, any number of times and with any number of requests being allocated, submitted and completed, allocating a request never stops the machine (ENV_BUG), no request touches a device that was released, every read returns what was last written, after a detach the core device holds all data, attach and detach go on once no request holds a reference, and after an attach the cache is in use.", "quantifier": "all interleavings of any number of requests (each access to the reference counters a step), management steps, cleaning and eviction; all contents", "why_tests_cant": "The windows are between single atomic accesses of one thread in ocf_req_new and a handful of statements of the management pipeline; functional tests allocate and submit requests in one thread.", "anchors": ["src/ocf_request.c:168-258", "src/ocf_request.c:384-414", "src/mngt/ocf_mngt_cache.c:1973-2001", "src/mngt/ocf_mngt_cache.c:3780-3934", "src/ocf_core.c:259-330", "src/engine/cache_engine.c:154-198", "env/posix/ocf_env_refcnt.c:24-71"]}
{"id": "C75", "title": "Memory that grows on demand", "statement": "Whatever sequence of requests is made with ocf_realloc and ocf_realloc_cp, each for an amount that fits a size_t or for nothing at all, and whichever allocations fail: no call frees, copies or sets memory it must not or stops the machine; at any time there is nothing or exactly one block, of the recorded size and given back to the allocator it came from; a call fails only for want of memory and then changes nothing; after a success at least the amount asked for may be written; the copying variant keeps the contents as far as asked for with zeros behind them; and a request for nothing gives everything back. The ALRU cleaner stays within what it gets and leaves nothing behind.", "quantifier": "all sizes and counts, sequences of requests and writes, outcomes of allocations, heaps of others", "why_tests_cant": "Two allocators that are one in the test environment (env/posix maps both to malloc), a threshold of 128 KiB reached only with large settings, and failing allocations.", "anchors": ["src/utils/utils_realloc.c:9-117", "src/cleaning/alru.c:875-957"]}
