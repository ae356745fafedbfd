{"id": "C01", "title": "A block id survives conversion to and from its 64-bit form", "statement": "Converting a valid block id (chunk, start block, count, single/multi flag) to its 64-bit integer and back gives the same id, converting any 64-bit integer to an id and back gives the same integer, and two ids have the same integer only if they name the same extent. Start blocks of 2^31 or more do not fit and are silently changed, so they must never be passed in.", "quantifier": "every chunk number, start block, block count and flag in their declared widths; every 64-bit integer", "why_tests_cant": "2^64 identifiers; a wrong bit width or shift affects only ids with high bits set, which small test devices never produce.", "anchors": ["src/include/homestore/blk.h: BlkId, BlkId::serialized_bits", "src/lib/blkalloc/blk.cpp: BlkId::to_integer, BlkId::BlkId(uint64_t)"]}
{"id": "C02", "title": "A scattered block id survives serialization", "statement": "For every list of pieces of one chunk that can be put into a multi-piece block id, serializing the id and deserializing the bytes yields an id whose pieces are exactly the same extents in the same order; the number of bytes written is the advertised serialized size.", "quantifier": "every multi-piece id that can be built (1 to 6 pieces, every start block and count)", "why_tests_cant": "the piece list, counts and the special single-piece encoding form a huge product space; journals written by one process are read back by another.", "anchors": ["src/include/homestore/blk.h: MultiBlkId", "src/lib/blkalloc/blk.cpp: MultiBlkId::serialize, deserialize, serialized_size, expected_serialized_size"]}
{"id": "C03", "title": "Walking a scattered block id yields exactly what was put in it", "statement": "After any sequence of successful add() calls on an empty multi-piece id, iterating it yields the added extents in order, once each; num_pieces is their number and blk_count is the sum of their counts as long as that sum is below 65536.", "quantifier": "every sequence of add() calls that the container accepts", "why_tests_cant": "needs all lengths and all sums, including sums over the 16-bit limit, where the reported count is wrong.", "anchors": ["src/include/homestore/blk.h: MultiBlkId::iterator", "src/lib/blkalloc/blk.cpp: MultiBlkId::add, blk_count, num_pieces, iterate"]}
{"id": "C04", "title": "Ordering of block ids is a total order", "statement": "BlkId::compare is antisymmetric, transitive and total, and returns 0 exactly for ids naming the same extent, so ordered containers keyed by block ids lose no entry.", "quantifier": "every pair and triple of block ids", "why_tests_cant": "order axioms quantify over triples of ids; a sampled test cannot exclude a cyclic comparison.", "anchors": ["src/lib/blkalloc/blk.cpp: BlkId::compare", "src/include/homestore/blk.h: BlkId operators"]}
{"id": "C05", "title": "Returning an extent to the free-block cache neither loses nor duplicates blocks", "statement": "When an extent of n blocks (n below twice the largest slab, n below 65535) is returned, the pieces put on the slab queues are pairwise disjoint, each is a power-of-two size with a slab of exactly that size, and together they cover exactly the extent.", "quantifier": "every start block and every extent size up to the stated limit", "why_tests_cant": "the split is driven by a lookup table and a loop over the remainder; an off-by-one loses blocks only for some sizes. Extents of 512 blocks or more index past the slab array (undefined behaviour).", "anchors": ["src/lib/blkalloc/blk_cache_queue.cpp: FreeBlkCacheQueue::try_free_blks, push_slab", "src/lib/blkalloc/blk_cache.h: SlabCacheConfig, nblks_to_round_down_slab_tbl"]}
{"id": "C06", "title": "The slab cache never hands out a block twice", "statement": "For requests of at most the largest slab whose minimum piece is not above the request (see C51): in every sequence of cache allocations and frees starting from a cache holding disjoint extents, the blocks handed out and not returned, the blocks still cached and the blocks reported as excess are pairwise disjoint, none is lost, and every allocation gives the requested number of blocks (or, when a partial allocation was asked for, no more).", "quantifier": "every sequence of alloc/free calls, every cache content, every slab configuration of powers of two", "why_tests_cant": "break-up of larger slabs and merge-down of smaller ones interact; double allocation corrupts user data only under particular fragmentation histories.", "anchors": ["src/lib/blkalloc/blk_cache_queue.cpp: try_alloc_blks, try_alloc_in_slab, break_up, merge_down, try_free_blks", "src/lib/blkalloc/blk_cache.h: blk_cache_alloc_resp"]}
{"id": "C07", "title": "Append allocator: extents are disjoint, contiguous and within capacity", "statement": "Sequentially, every successful allocation returns an extent that starts where the previous one ended and never passes the end of the chunk. With concurrent callers the capacity check and the offset bump are separate steps, so two callers can both pass the check and one is given blocks beyond the end of the chunk.", "quantifier": "every sequence of requests; every interleaving of concurrent requests", "why_tests_cant": "the race needs two threads between two adjacent instructions when the chunk is almost full.", "anchors": ["src/lib/blkalloc/append_blk_allocator.cpp: AppendBlkAllocator::alloc, alloc_contiguous, available_blks"]}
{"id": "C08", "title": "Append allocator: recovery does not depend on replay order", "statement": "Re-reserving committed extents after a restart, in any order and any number of times, leaves the append point at the maximum of the persisted point and the ends of the extents; no later allocation overlaps a re-reserved extent.", "quantifier": "every persisted state and every multiset and order of re-reserved extents", "why_tests_cant": "replay order depends on which stores are recovered first; all permutations matter.", "anchors": ["src/lib/blkalloc/append_blk_allocator.cpp: reserve_on_disk, reserve_on_cache, cp_flush, recover constructor"]}
{"id": "C09", "title": "Fixed-size allocator conserves blocks", "statement": "Starting from the persisted bitmap, in every sequence of single-block allocations and frees of blocks previously allocated, no block is handed to two owners at once, and free blocks plus owned blocks is always the initial set; recovery may re-reserve committed blocks in any order. Freeing a block that is not owned, or freeing during recovery a block re-reserved in the same recovery, breaks this.", "quantifier": "every sequence of alloc/free operations, every initial bitmap", "why_tests_cant": "double hand-out appears only after particular histories; the allocator keeps no per-block state to detect it.", "anchors": ["src/lib/blkalloc/fixed_blk_allocator.cpp: FixedBlkAllocator::load, alloc, free, reserve_on_cache, recovery_completed"]}
{"id": "C10", "title": "Committed and freed blocks are in the persisted allocation map after the next checkpoint", "statement": "When a checkpoint of an allocator completes, the stored bitmap marks every block that was committed and not freed when it began; and exactly those if anything was committed since the previous checkpoint began. Blocks may be committed and freed while the bitmap is written, as long as a block committed during a write is not freed during the same write and block ids are committed one piece at a time.", "quantifier": "every sequence of commit, free and checkpoint steps, with commits and frees falling inside or outside the write window", "why_tests_cant": "the outcome depends on the interleaving of commits/frees with the checkpoint write.", "anchors": ["src/lib/blkalloc/bitmap_blk_allocator.cpp: reserve_on_disk, free_on_disk, acquire_underlying_buffer, release_underlying_buffer, cp_flush"]}
{"id": "C11", "title": "A block freed in a checkpoint is not reused before that checkpoint is durable", "statement": "When a block is freed under checkpoint n, no allocation returns it until the flush of checkpoint n has written the allocation bitmap; so a crash before then leaves the old owner's data intact.", "quantifier": "every history of allocations, frees, checkpoint switches and checkpoint flushes", "why_tests_cant": "requires a crash between reuse and flush; the window depends on scheduling.", "anchors": ["src/lib/device/virtual_dev.cpp: VirtualDev::free_blk, VirtualDev::cp_flush, VDevCPContext", "src/lib/blkdata_svc/blkdata_service.cpp: BlkDataService::async_free_blk"]}
{"id": "C12", "title": "Varsize allocator never double-allocates and accounts exactly", "statement": "For every sequence of alloc, free and refill of the variable-size allocator, live allocations are pairwise disjoint, disjoint from free space, inside the chunk, and the allocated-block counter equals the number of live blocks. A request gets all the blocks it asked for, in at most six pieces, or (only if it allows that) fewer, or it fails and leaves every block where it was; a contiguous one gets a single piece; a scattered one that may be answered in part and is cut short before its id is full finds no block left free. Blocks are given back one piece at a time, requests have a smallest piece between one and the request, and a refill session has a slot per slab.", "quantifier": "every sequence of operations and every scheduling of the background refill between them", "why_tests_cant": "depends on where the refill sweep stops in the bitmap and how it interleaves with frees.", "anchors": ["src/lib/blkalloc/varsize_blk_allocator.cpp: alloc, alloc_blks_direct, free, free_blks_direct, fill_cache, fill_cache_in_portion"]}
{"id": "C13", "title": "Chunks on a physical device never overlap", "statement": "After any sequence of chunk creations and removals on a physical device, the byte ranges of live chunks are pairwise disjoint and lie inside the data area, and creation fails only if no gap is large enough.", "quantifier": "every sequence of create/remove with every size, every device size", "why_tests_cant": "fragmentation histories are unbounded; an overlap corrupts another virtual device silently.", "anchors": ["src/lib/device/physical_dev.cpp: PhysicalDev::create_chunk, do_remove_chunk, find_next_chunk_area, populate_chunk_info", "src/lib/device/physical_dev.hpp: ChunkInterval"]}
{"id": "C14", "title": "On-disk superblock regions do not overlap", "statement": "For every device size and configuration, the first block, the vdev info area, the chunk bitmap, the chunk info area and the data area laid out on a device are consecutive, aligned and disjoint, and every chunk/vdev slot lies inside its own area.", "quantifier": "every device size, minimum chunk size, maximum chunk and vdev counts", "why_tests_cant": "depends on arithmetic rounding for all sizes.", "anchors": ["src/lib/device/hs_super_blk.h: hs_super_blk::vdev_sb_offset, chunk_sb_offset, chunk_info_bitmap_size, chunk_super_block_size, total_size", "src/lib/device/physical_dev.cpp: chunk_info_offset_nth"]}
{"id": "C15", "title": "Journal space: appended ranges are disjoint, increasing and never straddle a chunk", "statement": "Every range of log space handed out is disjoint from all earlier ones, starts at or after the end of the previous one, lies inside a single chunk and is addressable until truncated.", "quantifier": "every sequence of append sizes up to a chunk and every truncation point", "why_tests_cant": "the skip at the end of a chunk and the interplay with truncation depend on exact sizes.", "anchors": ["src/lib/device/journal_vdev.cpp: Descriptor::alloc_next_append_blk, append_chunk, tail_offset, offset_to_chunk"]}
{"id": "C16", "title": "Journal truncation releases only fully truncated chunks and keeps the rest readable", "statement": "Truncating journal space to the start or end of a range leaves every byte at or after that offset readable at the same logical offset with the same content, and releases only chunks that lie wholly below it.", "quantifier": "every reachable descriptor state and every truncation to the start or the end of a range handed out", "why_tests_cant": "the logical-to-chunk mapping is re-based on truncation; a wrong base shifts all later reads.", "anchors": ["src/lib/device/journal_vdev.cpp: Descriptor::truncate, offset_to_chunk, process_pread_offset, update_data_start_offset"]}
{"id": "C17", "title": "A flushed log group reads back record for record", "statement": "For every sequence of records (any sizes, any alignment, inline or out of band) put in one log group, the bytes written decode to the same records: same store, sequence number and payload, in order, with start index and count intact.", "quantifier": "every list of records up to the group limit, every payload and size mix, every buffer growth", "why_tests_cant": "inline/out-of-band placement, overflow buffers and rounding give many layouts.", "anchors": ["src/lib/logstore/log_group.cpp: LogGroup::add_record, finish, create_overflow_buf, compute_crc", "src/include/homestore/logstore/log_store_internal.hpp: serialized_log_record, log_group_header, log_group_footer"]}
{"id": "C18", "title": "A torn last log group is never delivered and never hides earlier groups", "statement": "If power fails while the last group is being written and only a prefix of whole write units reaches the device, recovery succeeds, delivers every earlier group completely, and delivers the last one if and only if all of it arrived, provided its footer lies within one write unit and the old bytes there are not a footer with the same first index. Whatever the device holds, only records of intact groups with consecutive indexes and chained checksums are delivered.", "quantifier": "every sequence of complete groups, every torn group and every prefix (or sector subset) written", "why_tests_cant": "needs power cuts at every sector boundary.", "anchors": ["src/lib/logstore/log_stream.cpp: log_stream_reader::next_group", "src/lib/logstore/log_dev.cpp: LogDev::do_load"]}
{"id": "C19", "title": "Acknowledged log entries survive a crash, in order and exactly once", "statement": "After any history of appends, flushes, truncations and rollbacks with a crash anywhere, restart hands each log store exactly its acknowledged entries that were not truncated or rolled back, in sequence order, each once, and the log index continues after the last one.", "quantifier": "every history over any number of log stores and every crash point", "why_tests_cant": "combines unbounded histories with crash points.", "anchors": ["src/lib/logstore/log_dev.cpp: LogDev::do_load, on_flush_completion, truncate, handle_unopened_log_stores", "src/lib/logstore/log_store.cpp: HomeLogStore::on_log_found, append_async, rollback, truncate"]}
{"id": "C20", "title": "Device truncation never drops an entry a store still needs", "statement": "The device-wide truncation point chosen after any history never removes a log entry that its store has not itself truncated, whatever other stores do, including stores that are idle, empty or ahead.", "quantifier": "every history of appends, flushes and per-store truncations over any number of stores", "why_tests_cant": "depends on how the entries of several stores share flush groups.", "anchors": ["src/lib/logstore/log_dev.cpp: LogDev::truncate", "src/lib/logstore/log_store.cpp: HomeLogStore::on_write_completion, truncate, truncate_info"]}
{"id": "C21", "title": "A rolled-back entry never comes back", "statement": "Once rollback of a store has returned, the removed entries are not handed to the store on any later restart, whatever truncations happened in between. Fails in the code: the rollback record is dropped by a device truncation that still keeps an entry in its range.", "quantifier": "every history of appends, flushes, rollbacks, truncations and restarts", "why_tests_cant": "needs a rollback, a truncation landing on the exact boundary, and a restart.", "anchors": ["src/lib/logstore/log_dev.cpp: LogDev::rollback, LogDevMetadata::remove_rollback_record_upto, is_rolled_back, LogDev::truncate"]}
{"id": "C22", "title": "A new log store never sees entries of a deleted one", "statement": "A newly created log store starts empty and stays free of entries written by an earlier, removed store, even after restart. Fails in the code when the removed store's id is recycled while its last entry is still in the retained log.", "quantifier": "every history of store creation, removal, appends, truncation and restart", "why_tests_cant": "id recycling and truncation boundaries must line up.", "anchors": ["src/lib/logstore/log_dev.cpp: LogDev::remove_log_store, truncate, LogDevMetadata::reserve_store, unreserve_store"]}
{"id": "C23", "title": "A log store reads back what was appended", "statement": "After any sequence of appends, writes, truncations and rollbacks, reading a sequence number between start and tail returns the bytes last written for it; numbers outside that range are refused; sequence numbers handed out are consecutive.", "quantifier": "every sequence of operations", "why_tests_cant": "state depends on unbounded history.", "anchors": ["src/lib/logstore/log_store.cpp: HomeLogStore::append_async, write_async, read_sync, truncate, rollback, foreach"]}
{"id": "C24", "title": "A crash during log truncation loses nothing that was retained", "statement": "If a crash happens in the middle of truncating the log device, restart sees either the old or the new start and every retained entry. Fails in the code: journal chunks are released before the new start is made durable.", "quantifier": "every state and every crash point inside truncation", "why_tests_cant": "the window is between two device writes.", "anchors": ["src/lib/logstore/log_dev.cpp: LogDev::truncate, LogDevMetadata::persist", "src/lib/device/journal_vdev.cpp: Descriptor::truncate"]}
{"id": "C25", "title": "A checkpoint is flushed only after all IO inside it has finished", "statement": "No consumer is asked to flush checkpoint n while an IO that entered under n has not exited, none enters n afterwards, and no thread touches a deleted checkpoint, in every interleaving of IO entry, IO exit, checkpoint triggers and completions in which no thread sits between dropping the last reference of n and looking at its status at the moment n becomes ready to flush.", "quantifier": "every number of threads and every interleaving of their steps", "why_tests_cant": "needs exact preemption between two instructions.", "anchors": ["src/lib/checkpoint/cp_mgr.cpp: CPManager::cp_io_enter, cp_io_exit, do_trigger_cp_flush, cp_start_flush", "src/lib/checkpoint/cp_internal.hpp"]}
{"id": "C26", "title": "Checkpoints run one at a time, in order, and none is lost", "statement": "At any time at most one checkpoint is being flushed; checkpoint numbers flushed are consecutive and persisted in order; who is told that a checkpoint is done triggered at or before it and it is persisted; a forced trigger, also during a flush, is never lost: from then on the threads inside can always go on by themselves until its caller is told about a checkpoint at least as new as the one that was current.", "quantifier": "every interleaving of triggers, forced triggers, flush completions", "why_tests_cant": "unbounded number of overlapping triggers.", "anchors": ["src/lib/checkpoint/cp_mgr.cpp: do_trigger_cp_flush, on_cp_flush_done, cp_start_flush"]}
{"id": "C27", "title": "Nested checkpoint sections on one thread stay in one checkpoint", "statement": "Code running inside a checkpoint section on a thread sees one checkpoint for all nested sections, even if the current checkpoint is switched meanwhile, and every section opened is released exactly once; references equal live section objects, so an old checkpoint can be retired exactly when no object refers to it. The discipline: sections are closed by the thread that opened them, innermost first, and a live object is not assigned to.", "quantifier": "every nesting and every switch point; every number of threads, copies and uses of copies on other threads", "why_tests_cant": "switch points and object lifetimes are unbounded; assignment over a live section leaks a reference and blocks all later checkpoints.", "anchors": ["src/lib/checkpoint/cp_mgr.cpp: CPGuard", "src/include/homestore/checkpoint/cp_mgr.hpp: CPGuard"]}
{"id": "C28", "title": "Meta block add, update and remove are atomic under a crash", "statement": "If a crash happens at any block write of adding, updating or removing a meta record, restart finds every other record unchanged and finds this record either as before or as after the operation.", "quantifier": "every meta state, every operation, every crash point between block writes", "why_tests_cant": "each operation performs a data-dependent number of linked writes.", "anchors": ["src/lib/meta/meta_blk_service.cpp: add_sub_sb, update_sub_sb, remove_sub_sb, write_ovf_blk_to_disk, write_meta_blk_to_disk, scan_meta_blks"]}
{"id": "C29", "title": "A meta record of any size reads back byte for byte", "statement": "For every record size, writing a meta record and reading it back returns the same bytes, and writing it touches only blocks given to it, as long as the number of data extents the allocator returned is not one more than a multiple of what one overflow index block can hold (see C65).", "quantifier": "every record length and content, every block size", "why_tests_cant": "records can have any length and any placement of their extents.", "anchors": ["src/lib/meta/meta_blk_service.cpp: write_meta_blk_ovf, write_ovf_blk_to_disk, read_sub_sb_internal", "src/lib/meta/meta_sb.hpp: meta_blk_ovf_hdr"]}
{"id": "C30", "title": "After restart every live meta record is recovered exactly once", "statement": "Scanning the on-disk list after any history of adds, updates and removes finds exactly the live records, each once, with their latest content, and a further restart finds the same. (The history never removes the only record: see C66.)", "quantifier": "every history of operations", "why_tests_cant": "the on-disk list is doubly linked and patched in place; unbounded histories.", "anchors": ["src/lib/meta/meta_blk_service.cpp: scan_meta_blks, load_ssb, recover_meta_sub_type, remove_sub_sb, add_sub_sb"]}
{"id": "C31", "title": "Start-up order respects declared dependencies", "statement": "The order computed for recovering subsystems contains every declared name once, places each after all names it depends on, and is refused exactly when the dependencies contain a cycle.", "quantifier": "every finite dependency graph, including repeated edges and self loops, and every hash iteration order", "why_tests_cant": "graphs are unbounded and the hash order is not controllable in tests.", "anchors": ["src/lib/common/homestore_utils.cpp: hs_utils::topological_sort", "src/lib/meta/meta_blk_service.cpp: recover"]}
{"id": "C32", "title": "Freeing waits for reads in flight", "statement": "Asking to free blocks completes only after every read of any of those blocks that was issued before has finished; if no read of the same aligned groups of eight blocks is in flight it completes at once; each free completes exactly once and none waits forever once the reads near it are over.", "quantifier": "every set of overlapping reads and frees of any extent and every order of start and finish", "why_tests_cant": "overlap patterns across tracker records are combinatorial.", "anchors": ["src/lib/blkdata_svc/blk_read_tracker.cpp: BlkReadTracker::insert, remove, wait_on, merge", "src/lib/blkdata_svc/blk_read_tracker.hpp"]}
{"id": "C33", "title": "Scattered data writes read back correctly", "statement": "Writing a buffer list to a scattered block id and reading the same id back returns the same bytes in order; each piece receives exactly its share and no other block changes.", "quantifier": "every buffer list, every scattering into pieces", "why_tests_cant": "boundaries of buffers and pieces align in unboundedly many ways.", "anchors": ["src/lib/blkdata_svc/blkdata_service.cpp: BlkDataService::async_write, async_read"]}
{"id": "C34", "title": "An allocation request gives as many blocks as asked or fails", "statement": "A data-service allocation that reports success gives exactly size/block-size blocks. Fails in the code for sizes of 65536 blocks or more, where the count is cut to 16 bits and success is still reported.", "quantifier": "every requested size", "why_tests_cant": "needs requests of 256 MB and more.", "anchors": ["src/lib/blkdata_svc/blkdata_service.cpp: BlkDataService::alloc_blks"]}
{"id": "C35", "title": "B-tree point operations behave like a sorted map", "statement": "For every sequence of put (insert, update, upsert), get and remove on a B-tree, each result (status, old value, found value) is the one a sorted map gives, whatever splits, merges and root changes happen inside.", "quantifier": "every sequence of operations, every key order, every node capacity of at least the required minimum", "why_tests_cant": "splits and merges depend on history; unbounded sequences.", "anchors": ["src/include/homestore/btree/btree.ipp: Btree::put, get, remove", "src/include/homestore/btree/detail/btree_mutate_impl.ipp: do_put, split_node, check_split_root", "src/include/homestore/btree/detail/btree_remove_impl.ipp: do_remove, merge_nodes, check_collapse_root", "src/include/homestore/btree/detail/btree_get_impl.ipp: do_get"]}
{"id": "C36", "title": "A range query returns exactly the keys in the range, in order", "statement": "A range query without a filter returns every entry in the range once in ascending order, and a paged query whose cursor is followed to the end returns the same; the two query strategies agree. The sweep query starts from a default-constructed key, which must not lie above the start of the range (else see C72).", "quantifier": "every tree content, every range with any inclusiveness, every page size", "why_tests_cant": "page boundaries and leaf boundaries interact; unbounded.", "anchors": ["src/include/homestore/btree/detail/btree_query_impl.ipp: do_sweep_query, do_traversal_query", "src/include/homestore/btree/btree_req.hpp: BtreeQueryRequest, BtreeTraversalState", "src/include/homestore/btree/detail/variant_node.hpp: multi_get"]}
{"id": "C37", "title": "A filtered range query returns every accepted key in the range", "statement": "A range query with a filter returns exactly the entries of the range that the filter accepts. Fails in the code with a page size: entries are counted against the page before filtering, and rejected ones cause accepted ones to be dropped while success is reported.", "quantifier": "every tree content, range, filter and page size", "why_tests_cant": "filter and page combinations are unbounded.", "anchors": ["src/include/homestore/btree/detail/variant_node.hpp: multi_get", "src/include/homestore/btree/detail/btree_query_impl.ipp: do_sweep_query"]}
{"id": "C38", "title": "Range update and range remove touch exactly the keys in the range", "statement": "A range update changes the value of exactly the existing keys in the range, and a range remove deletes exactly the keys in the range accepted by its filter. Range update fails in the code when a leaf in the middle of the range has no matching key, and when the filter asks for removal.", "quantifier": "every tree content, range and filter", "why_tests_cant": "depends on how keys are distributed over leaves.", "anchors": ["src/include/homestore/btree/detail/variant_node.hpp: multi_put, multi_remove", "src/include/homestore/btree/detail/btree_mutate_impl.ipp: do_put, mutate_extents_in_leaf", "src/include/homestore/btree/detail/btree_remove_impl.ipp: do_remove"]}
{"id": "C39", "title": "Get-any and remove-any find a key whenever the range contains one", "statement": "Asking for any key in a range returns a key of that range if one exists and not_found otherwise. Fails in the code for several range shapes, both inside one node and across leaves.", "quantifier": "every tree content and range", "why_tests_cant": "depends on inclusiveness and leaf boundaries.", "anchors": ["src/include/homestore/btree/detail/variant_node.hpp: get_any", "src/include/homestore/btree/detail/btree_get_impl.ipp: do_get", "src/include/homestore/btree/detail/btree_remove_impl.ipp: do_remove"]}
{"id": "C40", "title": "Node search returns the first entry not below the key", "statement": "Binary search in a node returns found exactly if the key is present, and an index such that all entries before it are below the key and all from it on are not.", "quantifier": "every sorted entry list and every key", "why_tests_cant": "all lengths and positions.", "anchors": ["src/include/homestore/btree/detail/btree_node.hpp: BtreeNode::bsearch_node, find, match_range"]}
{"id": "C41", "title": "A variable-size node keeps its entries apart", "statement": "In variable-size nodes whose data area is smaller than 16 KiB, after any sequence of inserts, updates, removals, compactions, moves to a right node and copies between nodes that fit, every entry reads back its own key and value, entry areas do not overlap each other or the index area, and the reported available space is exact. Insert stops in its release assert exactly when the entry does not fit; has_room_for_put answering yes is enough for the put to succeed.", "quantifier": "every sequence of operations on any number of nodes with every key and value size, all three layouts", "why_tests_cant": "arena fragmentation histories are unbounded.", "anchors": ["src/include/homestore/btree/detail/varlen_node.hpp: VariableNode::insert, update, remove, compact, available_size"]}
{"id": "C42", "title": "A prefix-compressed node keeps its entries apart", "statement": "Leaf nodes with shared prefixes hold, after any sequence of inserts, updates, removals, range puts, range removals, moves to a new node, copies and clears, exactly the entries their answers speak of: every entry reads back its own key and value, suffixes and prefixes never meet, and without single-entry updates every prefix slot in use has the exact number of users. The only other outcome is the assertion of an update for which no room is left. Callers: indices exist, range operations act on sorted nodes, a range put does not change the prefix of its value, range updates name existing keys, and copies fit in the available size.", "quantifier": "every sequence of operations over any number of nodes, all keys, values and filters, all node sizes with enough bits in the bitset", "why_tests_cant": "reference counts, slot reuse and compaction depend on the whole history.", "anchors": ["src/include/homestore/btree/detail/prefix_node.hpp: FixedPrefixNode::insert, update, remove, multi_put, multi_remove, move_out_to_right_internal, copy_internal, compact, alloc_prefix, deref_remove_prefix"]}
{"id": "C43", "title": "Index buffers are written children first and each exactly once", "statement": "When a checkpoint writes its dirty index buffers, a buffer is written only after every buffer that depends on being below it has been written, every dirty buffer is written exactly once and the flush ends, in every completion order.", "quantifier": "every sequence of index operations of a checkpoint, every order of the dirty list, one flush worker (the default) with any queue depth, every completion order, with the next checkpoint reusing clean buffers", "why_tests_cant": "completion orders are combinatorial.", "anchors": ["src/lib/index/wb_cache.cpp: async_cp_flush, do_flush_one_buf, process_write_completion, on_buf_flush_done_internal, get_next_bufs_internal"]}
{"id": "C44", "title": "Linking index buffers never creates a cycle or a stale wait count", "statement": "After any sequence of index transactions in a checkpoint, the waits-for relation between dirty buffers is acyclic and the wait count of each buffer is the number of buffers that will notify it.", "quantifier": "every sequence of splits, merges and root changes", "why_tests_cant": "re-linking rules have several conditions that depend on history.", "anchors": ["src/lib/index/wb_cache.cpp: link_buf, transact_bufs, free_buf"]}
{"id": "C45", "title": "The index transaction journal round-trips", "statement": "For every sequence of index transactions, the journal bytes decode to the same list: parent, child, new and freed nodes in order, as long as no transaction touches more than 255 nodes.", "quantifier": "every list of transactions with any numbers of new and freed nodes", "why_tests_cant": "record lengths vary per transaction; one wrong length shifts all later records.", "anchors": ["src/lib/index/index_cp.hpp: txn_record, txn_journal", "src/lib/index/index_cp.cpp: add_to_txn_journal, recover"]}
{"id": "C46", "title": "The raft log store answers from its latest entries", "statement": "After any sequence of append, overwrite-at-index and compaction, asking for the entry or the term at an index between start and next returns the entry last written there, whether it comes from the cache or the log; overwriting at an index drops all later entries. Preconditions: an overwrite inside the log comes when all entries are flushed, and a slice is asked only of flushed entries.", "quantifier": "every sequence of operations and every index", "why_tests_cant": "cache slots are shared by indices 100 apart; overwrites leave stale slots.", "anchors": ["src/lib/replication/log_store/home_raft_log_store.cpp: append, write_at, entry_at, term_at, log_entries, compact, next_slot"]}
{"id": "C47", "title": "Packing and applying raft log entries reproduces them", "statement": "Applying a pack taken from index i of one log to another log at index i makes the target hold the same entries at the same indices. Fails in the code when the target log ends before i: the gap is not filled and entries land at wrong indices.", "quantifier": "every source log, index, count and target log", "why_tests_cant": "needs every relation of target end to index.", "anchors": ["src/lib/replication/log_store/home_raft_log_store.cpp: pack, apply_pack"]}
{"id": "C48", "title": "A replicated write's journal entry recovers to what was written", "statement": "For every header, key and list of data block ids, the journal entry recovered after restart gives the same header, key and block ids: on a solo device when every id has one piece, on a raft replica when there is at most one id, with any number of pieces.", "quantifier": "every header, key and block id list", "why_tests_cant": "recovery is only reached after a crash; multi-piece ids need fragmentation.", "anchors": ["src/lib/replication/repl_dev/common.cpp: create_journal_entry", "src/lib/replication/repl_dev/solo_repl_dev.cpp: on_log_found"]}
{"id": "C49", "title": "Committed writes of a solo replica are applied again after a crash unless durable", "statement": "After a crash, every journaled write whose effects are not in the last durable checkpoint is replayed to the application. Fails in the code in three ways: the commit position is advanced before the write is applied and is saved by a checkpoint in between; it is read at the end of a checkpoint although later writes belong to the next one; and a new device's position already covers its first write.", "quantifier": "every interleaving of write completions with checkpoints and every crash point", "why_tests_cant": "needs a checkpoint between two statements and a crash.", "anchors": ["src/lib/replication/repl_dev/solo_repl_dev.cpp: write_journal, on_log_found, cp_flush, truncate"]}
{"id": "C50", "title": "Data of a replicated request is accepted once", "statement": "Whichever of push and fetch deliver data for a request, in any order and concurrently, exactly one of them is accepted, and waiters on the data are released exactly once.", "quantifier": "every number and interleaving of deliveries", "why_tests_cant": "races between two network channels.", "anchors": ["src/lib/replication/repl_dev/common.cpp: add_state_if_not_already, save_pushed_data, save_fetched_data"]}
{"id": "C51", "title": "The free-block cache is well defined for every request hint", "statement": "No allocation hint or refill state makes the free-block cache touch a slab queue or refill slot that does not exist. Fails in the code in two ways: a scattered request whose minimum piece size is larger than the request walks below the smallest slab, and a refill session opened while some slab is full looks up the slots of later slabs at the wrong index or outside the vector.", "quantifier": "every request (size, minimum piece, contiguous or not) and every fill state of the slabs", "why_tests_cant": "out-of-range reads usually return plausible values, so a test passes by luck.", "anchors": ["src/lib/blkalloc/blk_cache_queue.cpp: merge_down, create_cache_fill_session, try_fill_cache"]}
{"id": "C52", "title": "Frees reach the persisted allocation map at the next checkpoint, without conditions", "statement": "When a checkpoint completes, the stored bitmap marks exactly the blocks committed and not freed when it began, for every sequence of commits, frees and checkpoints and every id. False of the code: a checkpoint after only frees writes nothing; a block committed and freed while the bitmap is written is marked again; committing it once more in that window ends in a release assert; and only the first piece of a multi-piece id committed in the window is marked.", "quantifier": "every sequence of commit, free and checkpoint steps", "why_tests_cant": "the outcome depends on the interleaving of commits and frees with the checkpoint write; tests commit and checkpoint one after the other.", "anchors": ["src/lib/blkalloc/bitmap_blk_allocator.cpp: reserve_on_disk, free_on_disk, release_underlying_buffer, cp_flush"]}
{"id": "C53", "title": "Variable-size allocator: free, failure, recovery and reuse without preconditions", "statement": "Freeing a multi-piece id is always well defined; a failed allocation leaves the caller's id empty; re-reserving blocks during recovery counts each block once and keeps them from being handed out again; a contiguous extent that was freed can be allocated again; a contiguous request is answered with one piece. Each part is false of the code, with a concrete witness; C12 is the part that holds.", "quantifier": "every state of the allocator and every request", "why_tests_cant": "the failures need particular piece sizes, a refill sweep at a particular moment or a nearly full chunk.", "anchors": ["src/lib/blkalloc/varsize_blk_allocator.cpp: free, free_blks_slab, alloc, alloc_blks_direct, reserve_on_cache, fill_cache"]}
{"id": "C54", "title": "Failed chunk creation has no lasting effect; chunk ids stay unique", "statement": "A chunk creation that throws for lack of space leaves no trace that a later restart can see, a restart never fails an assertion, and after a restart no two chunks of known virtual devices carry the same chunk id, also when the machine stopped between the creation of a virtual device's chunks and the write of its description.", "quantifier": "every history of creations (also failing ones), removals, restarts and crashes", "why_tests_cant": "needs a failing creation, a later successful one and a restart; or a crash in a short window followed by a retry.", "anchors": ["src/lib/device/physical_dev.cpp: create_chunk, load_chunks", "src/lib/device/device_manager.cpp: create_vdev, load_vdevs, create_chunk"]}
{"id": "C55", "title": "Every registered subsystem is recovered", "statement": "Every subsystem registered with the meta service when recovery starts is recovered, whatever dependency lists were declared (also an empty one) and whatever other subsystems were deregistered before.", "quantifier": "every sequence of registrations and deregistrations", "why_tests_cant": "the lost subsystem is silent: its superblocks are simply never delivered.", "anchors": ["src/lib/meta/meta_blk_service.cpp: register_handler, deregister_handler, recover"]}
{"id": "C56", "title": "A restart finds the journal space as it was", "statement": "After a restart the journal finds its chunks in the same order, the same start and tail, and every range kept is readable at the same offset; a range reserved but not written before a crash is dropped.", "quantifier": "every history of appends, writes, truncations and restarts, every order in which chunks are found", "why_tests_cant": "chunk discovery depends on flags and links left behind in chunk superblocks by earlier uses of the chunks.", "anchors": ["src/lib/device/journal_vdev.cpp: init, Descriptor::append_chunk, release_chunk_to_pool, update_data_start_offset, update_tail_offset"]}
{"id": "C57", "title": "Journal truncation to any offset in the log", "statement": "Truncating journal space to any offset between start and tail leaves later ranges intact. Fails in the code for offsets inside the unused end of a chunk: the size is counted twice and the next range handed out overlaps a live one.", "quantifier": "every reachable descriptor state and every offset between the start and the tail", "why_tests_cant": "needs an offset inside the skipped end of a chunk; callers normally pass group starts.", "anchors": ["src/lib/device/journal_vdev.cpp: Descriptor::truncate"]}
{"id": "C58", "title": "A power cut while a log group is written never prevents restart", "statement": "After a power cut during the write of a log group, restart succeeds whatever part of the group reached the device. Fails in the code: if the footer's magic and index arrived but other bytes did not (a footer across two write units, or units written out of order), the checksum differs and recovery stops with a release assert on every restart.", "quantifier": "every group, every part of it that reached the device", "why_tests_cant": "needs a power cut that keeps the footer and loses another unit.", "anchors": ["src/lib/logstore/log_stream.cpp: log_stream_reader::next_group 116-148", "src/lib/logstore/log_group.cpp: LogGroup::finish, add_and_get_footer"]}
{"id": "C59", "title": "A flush that finds no record ready has no effect", "statement": "When a flush starts but the first reserved index has no record yet, nothing is read, written or changed. Fails in the code: the empty group is finished all the same and its checksum reads past the end of the log buffer once more than 407 records are pending.", "quantifier": "every number of pending records and every interleaving of appenders with the flush", "why_tests_cant": "needs an appender stopped between reserving its index and storing its record while hundreds of others go on.", "anchors": ["src/lib/logstore/log_dev.cpp: LogDev::prepare_flush, append_async", "src/lib/logstore/log_group.cpp: LogGroup::reset, finish, compute_crc"]}
{"id": "C60", "title": "Rollback removes writes that are still on their way", "statement": "After rollback to a sequence number returns true, no entry above it can be read or is recovered after a restart, including entries whose write had not completed when rollback was called. Fails in the code when rolling back to the last completed entry: the call returns at once and the outstanding entries are flushed later.", "quantifier": "every state of a store with writes on their way", "why_tests_cant": "needs a write outstanding at the moment of the call.", "anchors": ["src/lib/logstore/log_store.cpp: HomeLogStore::rollback"]}
{"id": "C61", "title": "Truncation is safe when writes complete out of order", "statement": "With sequence numbers chosen by the caller, or appends that race, truncating a store up to a number never removes an entry above it. Fails in the code: an entry that completes after a higher one takes the truncation key of the highest, which may lie behind the group of an entry in between.", "quantifier": "every order in which writes complete", "why_tests_cant": "orders of completion that cross group borders are rare.", "anchors": ["src/lib/logstore/log_store.cpp: HomeLogStore::on_write_completion, truncate", "src/lib/logstore/log_dev.cpp: LogDev::truncate"]}
{"id": "C62", "title": "Leaving a checkpoint section cannot start a flush under other IO", "statement": "C25 without its scheduling condition: in every interleaving of the two steps of leaving a section (drop the count; look at the status) with triggers and entries, no flush starts while an IO is inside and no deleted checkpoint is touched.", "quantifier": "every number of threads and every interleaving of their steps", "why_tests_cant": "the window is two instructions wide.", "anchors": ["src/lib/checkpoint/cp_mgr.cpp: CPManager::cp_io_exit"]}
{"id": "C63", "title": "A checkpoint section object can be assigned, moved between threads and destroyed in any order", "statement": "CPGuard is copyable, assignable and documented as movable between threads: whatever the order of construction, copy, assignment, use and destruction, references are released exactly once and no thread is left with a deleted checkpoint on its stack.", "quantifier": "every sequence of operations on section objects by any threads", "why_tests_cant": "the object lifetimes that break it do not occur in the repository's own code, only in a user's.", "anchors": ["src/lib/checkpoint/cp_mgr.cpp: CPGuard::operator=, ~CPGuard", "src/include/homestore/checkpoint/cp_mgr.hpp: CPGuard"]}
{"id": "C64", "title": "Reading a meta record gives the bytes that were written", "statement": "read_sub_sb delivers, for every live record, the bytes last written to it, as recovery does.", "quantifier": "every state and record, compressed or not", "why_tests_cant": "needs a record large and regular enough to be compressed, read without a restart; the tests read before compression is enabled.", "anchors": ["src/lib/meta/meta_blk_service.cpp: MetaBlkService::read_sub_sb"]}
{"id": "C65", "title": "A meta record of any number of extents stays inside its blocks", "statement": "C29 without its condition on the number of data extents.", "quantifier": "every number of extents returned by the allocator", "why_tests_cant": "the failing case needs 449 extents (or 449 + 448k) for one record, that is a badly fragmented meta device.", "anchors": ["src/lib/meta/meta_blk_service.cpp: write_meta_blk_ovf, write_ovf_blk_to_disk"]}
{"id": "C66", "title": "The meta service survives removing its only record, and a restart without records", "statement": "After the only record is removed, or before the first is added, the next add and the next restart work.", "quantifier": "every history", "why_tests_cant": "real systems always hold several records; the path is never taken.", "anchors": ["src/lib/meta/meta_blk_service.cpp: remove_sub_sb, init_meta_blk, load_ssb"]}
{"id": "C67", "title": "Writing one buffer list to many ids keeps them in step", "statement": "Writing a buffer list to a vector of scattered ids writes to each id the bytes at its place in the list. Fails in the code for an id of 65536 or more blocks in all, whose count is added up in sixteen bits.", "quantifier": "every vector of ids", "why_tests_cant": "needs ids of 256 MB and more.", "anchors": ["src/lib/blkdata_svc/blkdata_service.cpp: async_write(sg_list, vector<MultiBlkId>)", "src/lib/blkalloc/blk.cpp:137-144 MultiBlkId::blk_count"]}
{"id": "C68", "title": "A failed allocation into a vector loses nothing", "statement": "When allocation into a vector of ids fails, every block that was taken is in the vector, so the caller can give it back, and the call is defined. Fails in the code: the last piece taken is popped from the vector, and with an empty vector that is undefined.", "quantifier": "every sequence of allocator answers", "why_tests_cant": "failure half-way through a fragmented allocation is not set up by tests.", "anchors": ["src/lib/device/virtual_dev.cpp:284-316 VirtualDev::alloc_blks(vector)"]}
{"id": "C69", "title": "A B-tree removal ends", "statement": "Whatever puts and removes came before, a removal of one key returns after finitely many steps, for entries of which at least two go into a node.", "quantifier": "every configuration of node and entry sizes with the default fill percentages, every sequence of earlier operations, every key", "why_tests_cant": "Whether the copy loop of the merge makes progress depends on the relation of entry size, node size and fill percentages and on how the entries are spread over the three merged nodes; tests use a few sizes.", "anchors": ["src/include/homestore/btree/detail/btree_remove_impl.ipp:242-643", "src/include/homestore/btree/btree.ipp:176-235"]}
{"id": "C70", "title": "A B-tree put returns", "statement": "Whatever puts and removes came before, a put of an entry that fits into an empty node returns a status; it does not stop the process.", "quantifier": "every configuration of node and entry sizes, every sequence of earlier operations, every key and value", "why_tests_cant": "A put splits nodes on the way down; whether a split succeeds and whether the parent still has room after several splits depends on the sizes of all entries on the path.", "anchors": ["src/include/homestore/btree/detail/btree_mutate_impl.ipp:32-169", "src/include/homestore/btree/detail/btree_mutate_impl.ipp:254-318", "src/include/homestore/btree/detail/varlen_node.hpp:518-530"]}
{"id": "C71", "title": "A merge fits its parent", "statement": "A removal, with the merge it starts, never enters keys into a parent node that has no room for them.", "quantifier": "every sequence of puts and removes with keys of different sizes", "why_tests_cant": "The space check before the merge is an estimate whose error shows only for parents that are nearly full and children whose boundary keys change from short to long.", "anchors": ["src/include/homestore/btree/detail/btree_remove_impl.ipp:503-580", "src/include/homestore/btree/detail/varlen_node.hpp:121-160"]}
{"id": "C72", "title": "A sweep query finds the keys below the default key", "statement": "A sweep query returns every key of its range also when the range starts below the default-constructed key. Fails in the code: a leaf after the first is searched from the default key on, so smaller keys are skipped; the traversal query finds them.", "quantifier": "every tree content, every range, every value of the default key", "why_tests_cant": "the tests use unsigned keys, whose default is the smallest.", "anchors": ["src/include/homestore/btree/detail/btree_query_impl.ipp: do_sweep_query", "src/include/homestore/btree/btree_kv.hpp: BtreeTraversalState, next_key_incl"]}
{"id": "C73", "title": "A range remove deletes exactly the accepted keys of the range", "statement": "In every history of point and range operations, a range remove deletes exactly the keys of its range that its filter accepts, whatever leaves and interior nodes they lie in and whatever merges follow, and answers success if there was such a key and not_found if not. The range is start < end or a single included key.", "quantifier": "every history of puts, gets, removes, range removes and range updates; every range and filter", "why_tests_cant": "depends on how the range cuts through leaves and interior nodes; unbounded.", "anchors": ["src/include/homestore/btree/detail/btree_remove_impl.ipp: do_remove", "src/include/homestore/btree/btree_kv.hpp: BtreeTraversalState, trim_working_range, shift_working_range", "src/include/homestore/btree/detail/variant_node.hpp: multi_remove"]}
{"id": "C74", "title": "A range update that answers success has updated exactly the keys of the range", "statement": "A range update adds and removes no key and changes nothing outside its range; if it answers success, every existing key of the range has the new value, or what the filter decided (keep or replace), also when nodes were split on the way and the update resumed.", "quantifier": "every history before it, every range, value and filter that does not ask for removal", "why_tests_cant": "resuming after a split depends on sizes and positions; unbounded.", "anchors": ["src/include/homestore/btree/detail/btree_mutate_impl.ipp: do_put, mutate_extents_in_leaf, is_split_needed", "src/include/homestore/btree/detail/variant_node.hpp: multi_put"]}
{"id": "C75", "title": "A variable-size node of any configured size keeps its entries", "statement": "Whatever node size the store is formatted with, an entry put in a variable-size node that has room reads back. Fails in the code: places of entries have 14 bits, so in a node of 32 KiB the first entry already reads back as other bytes.", "quantifier": "every node size, key and value", "why_tests_cant": "tests use nodes of 4 KiB or less; the size of a node comes from the device.", "anchors": ["src/include/homestore/btree/detail/varlen_node.hpp: btree_obj_record, VariableNode::insert"]}
{"id": "C76", "title": "Moving entries to the right node answers how many were moved", "statement": "move_out_to_right_by_entries answers the number of entries it moved. Fails in the code when all entries are moved: it answers one less.", "quantifier": "every node, neighbour and number of entries asked for", "why_tests_cant": "the answer is right in every case but one.", "anchors": ["src/include/homestore/btree/detail/varlen_node.hpp: VariableNode::move_out_to_right_by_entries"]}
{"id": "C77", "title": "Removing an index range of a prefix node removes that range", "statement": "remove(idx_s, idx_e) of a prefix-compressed node removes the entries with these indices and no others. (False: it removes every second entry from idx_s on.)", "quantifier": "every node and index range", "why_tests_cant": "unit tests of prefix nodes never call the two-index removal.", "anchors": ["src/include/homestore/btree/detail/prefix_node.hpp: FixedPrefixNode::remove(uint32_t, uint32_t)"]}
{"id": "C78", "title": "Updating entries of a prefix node does not use up its space", "statement": "Updating an entry of a prefix-compressed node in place works however often it is done. (False: the prefix slot of the old value is never released, so updates of a single entry fill the node and end in an assertion.)", "quantifier": "every number of updates", "why_tests_cant": "takes as many updates as there are prefix slots; tests update each entry a few times.", "anchors": ["src/include/homestore/btree/detail/prefix_node.hpp: FixedPrefixNode::update, write_suffix"]}
{"id": "C79", "title": "A range update of a prefix node updates every existing key in the range", "statement": "multi_put of kind UPDATE gives every key of the range that is in the node its new value. (False: after a key that is not there the index moves on all the same, and keys that follow are passed over, with success returned.)", "quantifier": "every node and key range", "why_tests_cant": "tests use range updates over dense keys.", "anchors": ["src/include/homestore/btree/detail/prefix_node.hpp: FixedPrefixNode::multi_put"]}
{"id": "C80", "title": "Copying entries into a prefix node never overwrites what it has", "statement": "copy_by_entries into a prefix-compressed node that has room for that many entries keeps all entries of both intact. (False: the loop asks has_room(1) without counting the suffixes copied so far, and every new prefix adds to that, so suffixes run into prefixes.)", "quantifier": "all pairs of nodes", "why_tests_cant": "needs nodes that are nearly full with few shared prefixes.", "anchors": ["src/include/homestore/btree/detail/prefix_node.hpp: FixedPrefixNode::copy_by_entries, copy_internal"]}
{"id": "C81", "title": "The slot bitset of a prefix node has a bit for every prefix that fits", "statement": "For every node size and prefix size, an insert into a prefix-compressed node with room finds a free prefix slot. (False: reqd_bitset_size truncates the number of bytes before rounding up; for some sizes the last slots have no bit and the prefix is written behind the node.)", "quantifier": "all node, prefix and suffix sizes", "why_tests_cant": "tests use one size.", "anchors": ["src/include/homestore/btree/detail/prefix_node.hpp: FixedPrefixNode::reqd_bitset_size, alloc_prefix, get_prefix_entry"]}
{"id": "C82", "title": "A range put into a prefix node works for every value", "statement": "multi_put keeps suffixes and prefixes apart and leaves no prefix slot without users, whatever shifting does to the value. (False when the shift changes the prefix of the value: one key then takes two prefix slots, of which one never has users, after a check for one; the areas can meet.)", "quantifier": "all values and shifts", "why_tests_cant": "the value type of the tests never changes its prefix when shifted.", "anchors": ["src/include/homestore/btree/detail/prefix_node.hpp: FixedPrefixNode::multi_put"]}
{"id": "C83", "title": "An index superblock naming a new root is written after that root", "statement": "In every flush, the meta buffer that records a root change is written only after the new root node has been written. (False when the new root was already linked below another buffer in the same checkpoint: the merge that empties the root links the remaining child below the old root, and the root collapse that follows does not link it below the meta buffer.)", "quantifier": "every sequence of index operations of a checkpoint and every completion order", "why_tests_cant": "needs a root collapse in the same checkpoint as the merge that caused it, and a crash between two particular writes.", "anchors": ["src/lib/index/wb_cache.cpp: link_buf, transact_bufs", "src/include/homestore/btree/detail/btree_remove_impl.ipp: Btree::check_collapse_root", "src/include/homestore/index/index_table.hpp: on_root_changed"]}
{"id": "C84", "title": "The flush of a checkpoint ends whatever index operations failed in it", "statement": "After any sequence of successful and failed index operations the flush writes every dirty buffer and ends. (False: when a root split fails for lack of space after the root change has been announced, the meta buffer waits for two nodes that are never written, and the flush does not end.)", "quantifier": "every sequence of index operations, including those that run out of space", "why_tests_cant": "needs the allocation of the second of two nodes to fail during a root split.", "anchors": ["src/include/homestore/btree/detail/btree_mutate_impl.ipp: Btree::check_split_root", "src/lib/index/wb_cache.cpp: link_buf, get_next_bufs_internal"]}
{"id": "C85", "title": "Several flush fibers write each index buffer once", "statement": "With any number of flush fibers every dirty buffer is written exactly once and the end is reported after the last. (False: the buffer above a completed one is chosen under the mutex but marked as being flushed outside it, so a second fiber can choose it from the dirty list again; it is written twice and the end is reported before another buffer is written.)", "quantifier": "every number of flush fibers and every interleaving", "why_tests_cant": "needs two fibers between two particular instructions; the default is one fiber.", "anchors": ["src/lib/index/wb_cache.cpp: on_buf_flush_done, get_next_bufs_internal, do_flush_one_buf"]}
{"id": "C86", "title": "The index superblock on disk names a root that is on disk", "statement": "At every moment the root node named by the superblock of an index table on disk has been written. (False: at the end of a checkpoint's flush the superblock in memory is written, which may already name a root created by the next checkpoint.)", "quantifier": "every interleaving of root changes of the running checkpoint with the flush of the previous one", "why_tests_cant": "needs a root change during the flush of the previous checkpoint and a crash before the next one.", "anchors": ["src/lib/index/wb_cache.cpp: process_write_completion", "src/lib/index/index_service.cpp: IndexService::write_sb", "src/include/homestore/index/index_table.hpp: update_sb, on_root_changed"]}
{"id": "C87", "title": "A slice of the raft log is complete or an error", "statement": "log_entries(start, end) returns exactly the entries of [start, end) or reports failure. Fails in the code: when part of the range is compacted or not flushed the call returns a shorter vector that looks like success, with entries at shifted positions.", "quantifier": "every log and every range", "why_tests_cant": "callers use the slice by position; a short slice only shows up when compaction or flushing races with the call.", "anchors": ["src/lib/replication/log_store/home_raft_log_store.cpp: log_entries, log_entries_ext", "src/lib/logstore/log_store.cpp: foreach"]}
{"id": "C88", "title": "An entry inside the raft log can be overwritten at any time", "statement": "write_at(index) with start <= index < next replaces the entry and drops the later ones, whatever has been flushed. Fails in the code: while later entries are still unflushed the rollback fails a release assertion.", "quantifier": "every log, every index and every flushed position", "why_tests_cant": "tests flush before they overwrite.", "anchors": ["src/lib/replication/log_store/home_raft_log_store.cpp: write_at", "src/lib/logstore/log_store.cpp: rollback"]}
{"id": "C89", "title": "Compacted entries are gone", "statement": "After compact(i) no entry at or below i is returned, and last_entry of an emptied log is the dummy entry. Fails in the code: the entry cache still answers for compacted indices.", "quantifier": "every log and every compaction point", "why_tests_cant": "the cache hides the compaction until its slots are reused.", "anchors": ["src/lib/replication/log_store/home_raft_log_store.cpp: compact, entry_at, last_entry"]}
{"id": "C90", "title": "A follower's journal entry records its own blocks", "statement": "After a follower has replaced the leader's block id in a raft entry by its own, the entry recovers to the same write with the follower's blocks and server. Fails in the code when the two ids have different numbers of pieces: a longer id is written past the end of the buffer, a shorter one leaves pieces of the leader behind it.", "quantifier": "every write and every pair of ids", "why_tests_cant": "needs a follower more or less fragmented than the leader and a restart.", "anchors": ["src/lib/replication/repl_dev/raft_state_machine.cpp: localize_journal_entry_prepare, localize_journal_entry_finish", "src/lib/replication/repl_dev/raft_repl_dev.cpp: on_log_found"]}
{"id": "C91", "title": "A raft write with several block ids recovers all of them", "statement": "When the allocator gives the data of a raft write more than one block id, the journal entry recovers to all of them. Fails in the code: the value is decoded as one id, whose piece count is taken from the bytes of the second id.", "quantifier": "every list of two or more ids", "why_tests_cant": "allocation in several ids needs large writes on a fragmented device.", "anchors": ["src/lib/replication/repl_dev/common.cpp: alloc_local_blks, create_journal_entry", "src/lib/replication/repl_dev/raft_repl_dev.cpp: on_log_found", "src/lib/replication/repl_dev/raft_state_machine.cpp: localize_journal_entry_prepare"]}
{"id": "C92", "title": "A raft replica loses no committed write in a crash", "statement": "Whatever the interleaving of commits, checkpoints and saves of the commit position, and wherever it crashes, after the restart the effects of every write in the log are present or the write is still to be committed from the log, whatever truncation boundaries are proposed and however far raft asks for compaction (baseline resync aside).", "quantifier": "every interleaving of three threads and every sequence of crashes", "why_tests_cant": "needs a crash at every point of a checkpoint that overlaps commits.", "anchors": ["src/lib/replication/repl_dev/raft_repl_dev.cpp: handle_commit, cp_flush, get_cp_ctx, on_log_found, flush_durable_commit_lsn", "src/lib/replication/service/raft_repl_service.cpp: RaftReplServiceCPHandler", "src/lib/checkpoint/cp_mgr.cpp: do_trigger_cp_flush, cp_start_flush"]}
{"id": "C93", "title": "A restarted raft replica can commit from its saved position", "statement": "After a restart every write the replica is asked to commit has a request. Fails in the code: the commit position is read without the lock and can overwrite the newer one stored by a checkpoint; the replica then starts below its checkpoint, where entries are skipped on replay, and the commit follows a null request.", "quantifier": "every interleaving of commits, checkpoints and saves of the position", "why_tests_cant": "needs a checkpoint between two statements of another thread, and a restart.", "anchors": ["src/lib/replication/repl_dev/raft_repl_dev.cpp: flush_durable_commit_lsn, cp_flush, on_log_found", "src/lib/replication/repl_dev/raft_state_machine.cpp: commit_ext"]}
{"id": "C94", "title": "The raft log keeps entries until a checkpoint covers them", "statement": "An entry is removed from the raft log only when the checkpoint that holds its effects is durable, whatever boundary the leader proposes and whatever raft asks to compact; and whatever has been checkpointed can be compacted.", "quantifier": "every proposed boundary, every compaction request and every interleaving with commits, checkpoints and crashes", "why_tests_cant": "needs more commits than reserved entries between two checkpoints, a snapshot and a crash.", "anchors": ["src/lib/replication/log_store/repl_log_store.cpp: compact", "src/lib/replication/repl_dev/raft_repl_dev.cpp: update_truncation_boundary, on_compact, propose_truncate_boundary, cp_flush"]}
{"id": "C95", "title": "A solo device recovers the blocks of every write", "statement": "For every list of block ids handed to async_write_journal, recovery gives the listener the same ids. Fails in the code for ids with more than one piece: each 8 bytes of the value are taken for an id, and the read runs past the buffer when they do not divide.", "quantifier": "every list of ids", "why_tests_cant": "needs multi-piece ids and a restart.", "anchors": ["src/lib/replication/repl_dev/common.cpp: create_journal_entry", "src/lib/replication/repl_dev/solo_repl_dev.cpp: on_log_found, async_write_journal"]}
{"id": "C96", "title": "Data never lands on blocks that were given back", "statement": "A pushed or fetched buffer is written only to blocks its request still owns. Fails in the code: when the wait for data times out or a fetch fails the blocks are freed, but a delivery that already holds the request is still accepted and written, over whatever the blocks hold by then.", "quantifier": "every interleaving of deliveries with the error path", "why_tests_cant": "needs a late network reply and a reallocation of the same blocks.", "anchors": ["src/lib/replication/repl_dev/raft_repl_dev.cpp: handle_error, handle_fetch_data_response, on_push_data_received, raft_event", "src/lib/replication/repl_dev/common.cpp: save_pushed_data, save_fetched_data"]}
{"id": "C97", "title": "A request whose data is already committed takes no delivery", "statement": "When the listener reports that the data of a request is already committed, every delivery for it is rejected and waiters are released once. Fails in the code: the bit that lets a delivery proceed is set before the bit that makes it a duplicate, and the promise is then fulfilled twice, which throws.", "quantifier": "every interleaving of the allocating thread with deliveries", "why_tests_cant": "the window is between two adjacent atomic operations.", "anchors": ["src/lib/replication/repl_dev/common.cpp: alloc_local_blks, save_pushed_data, add_state_if_not_already", "src/lib/replication/repl_dev/raft_repl_dev.cpp: applier_create_req"]}
{"id": "C98", "title": "Dependency links found again after a crash", "statement": "For every sequence of node writes, splits, merges and root changes of a checkpoint, the recovery of the journal it left ends without following a null link, without an endless walk and without failing an assertion, whatever the order in which the buffers are visited. Each recovered wait count is the number of buffers recovered below. If no node that already waited for another one was made root in the checkpoint, every buffer that was not merged away is linked to the buffer it waited for at run time, merged-away nodes passed over; hence whenever the write of a buffer began before the crash, every buffer recovered below it was already written.", "quantifier": "every legal operation sequence of any length; every visiting order of the recovered map; every flush schedule and crash point", "why_tests_cant": "the links a record re-creates depend on all records before it; tests exercise a few hand-made sequences and the iteration order of one hash map.", "anchors": ["src/lib/index/index_cp.cpp: IndexCPContext::recover, process_txn_record", "src/lib/index/wb_cache.cpp: transact_bufs"]}
{"id": "C99", "title": "Dependency links after a root change", "statement": "After a crash every buffer that was not merged away is linked to the buffer it waited for at run time, also when a node that was already waiting became root.", "quantifier": "every legal operation sequence", "why_tests_cant": "needs a merge and the collapse of the root in one checkpoint, then a crash.", "anchors": ["src/lib/index/index_cp.cpp: process_txn_record", "src/include/homestore/index/index_table.hpp: on_root_changed", "src/lib/index/wb_cache.cpp: link_buf"]}
{"id": "C100", "title": "Repair of the last interior node of a level", "statement": "After a crash, repairing an interior node that has no live node to its right rebuilds it from the chain of its children: every child not deleted gets exactly one entry, in chain order and under its last key (or the key it had, if it is empty), the last one as edge; the entries are spread over as many nodes as their capacity asks for, linked in order; a new root is made if the root had to be split; links skip deleted children and no other node changes. If the node is a root above leaves with ascending keys, a search from the root then returns for every key exactly what the leaves hold.", "quantifier": "every chain of children of any length, any number of deleted ones among them, every capacity, every key", "why_tests_cant": "tests crash at a few split and merge points of one tree; they do not vary how far the children have got ahead of the parent.", "anchors": ["src/include/homestore/index/index_table.hpp: repair_links, update_root, true_sibling"]}
{"id": "C101", "title": "Repair of an interior node with a right sibling", "statement": "Repairing an interior node with a live right sibling takes the children up to the first child of the sibling, no more and no less; each gets one entry; the last entry reaches at least as far as the node did before; above the lowest interior level the last child is raised to reach as far; the chain of nodes ends at the sibling and no other node changes.", "quantifier": "every chain of children of any length, every number of deleted children and siblings between", "why_tests_cant": "needs crashes that separate the writes of neighbouring interior nodes.", "anchors": ["src/include/homestore/index/index_table.hpp: repair_links, true_sibling, get_last_key"]}
{"id": "C102", "title": "Repair without space", "statement": "If there is no block for the nodes a repair has to add, the repair fails and no key that could be found before becomes unreachable.", "quantifier": "every node repaired and every number of free blocks", "why_tests_cant": "needs a full device at the moment of recovery.", "anchors": ["src/include/homestore/index/index_table.hpp: repair_links, update_root"]}
{"id": "C103", "title": "Repair with deleted children at the end", "statement": "Repairing a node and then the node above it keeps every key reachable, also if the last children of a full node were deleted.", "quantifier": "every chain of children", "why_tests_cant": "needs a merge at the end of a full node, a split in it and a crash between.", "anchors": ["src/include/homestore/index/index_table.hpp: repair_links"]}
{"id": "C104", "title": "Nodes of a level after a crash while an index CP is flushed", "statement": "Whatever nodes of a level were changed, split and merged in a CP and wherever its flush is cut off, the nodes of that level on disk form one chain from the first to the end with every key at its place; every key has its value from the start or from the end of the CP, the same of the two for keys that share a node at the start or at the end; with the flush complete it is the end of the CP; the first recovery pass keeps the blocks of exactly the nodes in that chain.", "quantifier": "every level, every sequence of changes, splits and merges in a CP (with any changes on the other levels), every order and interleaving of the flush, every crash point and every set of in-flight writes that landed", "why_tests_cant": "Needs all orders of write completion and all crash points for all histories of splits and merges; a test crashes at a few flip points.", "anchors": ["src/lib/index/wb_cache.cpp: recover, was_node_committed, do_flush_one_buf", "src/lib/index/index_cp.cpp: recover", "src/include/homestore/btree/detail/btree_mutate_impl.ipp: split_node", "src/include/homestore/btree/detail/btree_remove_impl.ipp: merge_nodes"]}
{"id": "C105", "title": "The walk of the index recovery", "statement": "After a crash at any moment of the flush of any CP the recovery walk over the journaled links ends and follows no null link; it repairs exactly the nodes that are not on disk though a node below them, older than the CP and not merged away, is; it repairs each once and after the nodes below it; it repairs no node that is on disk; it frees blocks once and after all repairs; the blocks freed and kept are those of the nodes that the crash deleted and kept.", "quantifier": "every sequence of splits, merges, writes and new roots in a CP, every order and interleaving of the flush, every crash point, every set of in-flight writes that landed, every order in which the journal's buffers are visited", "why_tests_cant": "Needs all shapes of the dependency graph over several levels with all crash points; tests crash at a few flip points in small trees.", "anchors": ["src/lib/index/wb_cache.cpp: recover, recover_buf, prune_up_buffers, update_up_buffer_counters", "src/lib/index/index_cp.cpp: recover"]}
{"id": "C106", "title": "Blocks of an index after a crash", "statement": "After recovery from a crash at any moment of the flush, no block of a node the tree uses is free or allocated to anything else, and every block has one owner or is free once, if the stored bitmap has the blocks of the nodes made and freed in the crashed CP and of new roots, and no interior node that recovery takes back has a child whose merge is on disk.", "quantifier": "every CP, crash point and order of the flush, any number of blocks allocated by the repairs and until the end of the next flush", "why_tests_cant": "Needs all crash points together with the contents of the stored bitmap and later allocations.", "anchors": ["src/lib/index/wb_cache.cpp: recover", "src/lib/device/virtual_dev.cpp: commit_blk, free_blk", "src/lib/blkalloc/fixed_blk_allocator.cpp: free, reserve_on_cache"]}
{"id": "C107", "title": "Blocks of an index after a crash, whatever the stored bitmap has", "statement": "After recovery from a crash at any moment of the flush every block named in the journal is used by the tree and not free, or not used and free once, whatever bits of blocks allocated in the crashed CP were stored.", "quantifier": "every CP, crash point and order of the flush and every stored bitmap that has the nodes of the start of the CP", "why_tests_cant": "Needs a node made and freed in one CP, or a new root, and a crash between the writes.", "anchors": ["src/lib/index/wb_cache.cpp: recover", "src/lib/device/virtual_dev.cpp: commit_blk, free_blk", "src/lib/blkalloc/fixed_blk_allocator.cpp: free"]}
{"id": "C108", "title": "Recovery takes links to merged-away children out of a parent it takes back", "statement": "When index recovery takes back an interior node whose merge did not reach the disk, the links to children whose own merge did reach the disk are taken out of it. Afterwards a search in the node for any key goes to the nearest kept child to the left of the child it went to before (where merges move keys), or to the first kept child if there is none; all kept children stay, in order. A node that keeps no child is marked deleted. Exactly the deleted children, and the node itself when it keeps none, are given to the allocator.", "quantifier": "every interior node with ascending keys and every set of deleted children", "why_tests_cant": "Which children are deleted depends on where the flush was cut off; tests cover few combinations and check that the tree can be read, not where every key is routed.", "anchors": ["src/include/homestore/index/index_table.hpp: delete_stale_links, delete_stale_children", "src/lib/index/wb_cache.cpp: recover"]}
{"id": "C109", "title": "Recovery of an index frees a block at most once", "statement": "However the flush of a CP was cut off, the recovery of the index gives each block to the allocator at most once.", "quantifier": "every CP, crash point and tree", "why_tests_cant": "Needs the merge of interior nodes and the merge of a leaf below them in one CP, and a crash between the writes; a double free shows up only when the block is handed out twice.", "anchors": ["src/lib/index/wb_cache.cpp: recover, free_buf", "src/include/homestore/index/index_table.hpp: delete_stale_links"]}
{"id": "C110", "title": "After recovery every key has its value from the start or the end of the CP", "statement": "However the flush of a CP was cut off, after the recovery a search from the root, in memory or as named by the table's superblock, gives for every key the value it had at the start or at the end of the CP.", "quantifier": "every CP, crash point, tree and key", "why_tests_cant": "Root splits are rare and the writes between which the crash must come are few.", "anchors": ["src/include/homestore/index/index_table.hpp: repair_root_node, repair_node, update_root", "src/lib/index/wb_cache.cpp: recover, recover_buf"]}
{"id": "C111", "title": "Recovery of an index completes", "statement": "However the flush of a CP was cut off, the recovery at the next start ends without a failed assertion.", "quantifier": "every CP, crash point and tree", "why_tests_cant": "Root splits are rare and the writes between which the crash must come are few.", "anchors": ["src/include/homestore/index/index_table.hpp: repair_root_node, sanity_check", "src/include/homestore/btree/detail/btree_common.ipp: validate_node", "src/lib/index/wb_cache.cpp: recover"]}
{"id": "C112", "title": "A fixed-size node keeps its entries apart", "statement": "In nodes whose entries all have one size, after any sequence of inserts with room, updates, removals (also of the edge), clears, moves to a right node and copies between nodes, every entry reads back its own key and value, no byte outside the data area is read or written, moves and copies do as much as fits and return it, and the available size is exact. Insert itself has no check: without room it writes outside the node, so has_room_for_put, which is exact, must be asked first.", "quantifier": "every key and value size, every node size, every sequence of operations on any number of nodes", "why_tests_cant": "Overlapping memmoves with all indices and fill levels; a write past the end of a node corrupts other memory without any failure in the test.", "anchors": ["src/include/homestore/btree/detail/simple_node.hpp: SimpleNode::insert, update, remove, remove_all, move_out_to_right_by_entries, copy_by_entries, has_room_for_put"]}
{"id": "C113", "title": "A member replacement can be retried from any point and ends in the intended configuration", "statement": "Start from a raft group in which the old member votes, the new one is absent and no task is recorded, with a non-empty task id of at most 63 characters. After any sequence of start_replace_member calls for this task on any replicas, periodic replace-member checks on any replicas and log progress, with raft refusing, accepting or losing the answer of each proposal, the configuration is one of: the original; the original with the old member demoted to learner; that plus the new member with the old member's priority; the original without the old member plus the new one. No other server changes. COMPLETED is reported only in the last. From every reachable state, one start call that raft carries out and one check on a leader once the new member has caught up finish the replacement and clear the task. While a task is recorded a start with another id changes neither the configuration nor the task.", "quantifier": "All groups, ids, members, call sequences, leaderships and raft answers.", "why_tests_cant": "Tests retry a replacement after a few scripted failures; every place where an answer can be lost, in every order with leader changes, cannot be scripted.", "anchors": ["src/lib/replication/repl_dev/raft_repl_dev.cpp:205-559", "src/lib/replication/repl_dev/raft_repl_dev.cpp:610-662", "src/lib/replication/repl_dev/raft_repl_dev.cpp:1829-1863", "src/lib/replication/repl_dev/raft_repl_dev.cpp:2496-2565"]}
{"id": "C114", "title": "A replacement started with the quorum check leaves an up-to-date majority in every configuration", "statement": "If start_replace_member is called with commit_quorum 0 in a group with distinct members that has no learner besides the old member, and it changes the configuration, then the members that are known to keep up, without the old and the new one, are a majority of the voters before the call, after the old member is demoted and at the end. When the old member has been demoted by an earlier attempt and the new one is not in yet, the group is of odd size.", "quantifier": "All groups, log positions, thresholds and raft answers.", "why_tests_cant": "Whether a majority remains depends on sizes and lag of every member at once; tests use three replicas.", "anchors": ["src/lib/replication/repl_dev/raft_repl_dev.cpp:270-296", "src/lib/replication/repl_dev/raft_repl_dev.cpp:2099-2136"]}
{"id": "C115", "title": "The quorum check holds for every group", "statement": "As C114, for groups with further learners and for second attempts in groups of even size.", "quantifier": "All groups, log positions and raft answers.", "why_tests_cant": "Tests have neither extra learners nor even groups with a retried replacement.", "anchors": ["src/lib/replication/repl_dev/raft_repl_dev.cpp:270-296", "src/lib/replication/repl_dev/raft_repl_dev.cpp:2099-2136"]}
{"id": "C116", "title": "A custom quorum size does not outlive the call that asked for it", "statement": "A replica whose quorum is the majority still has the majority quorum after any start_replace_member, complete_replace_member, remove_member, flip_learner_flag or clean_replace_member_task call with a custom commit quorum.", "quantifier": "All groups, members, quorum sizes, leaderships and raft answers.", "why_tests_cant": "A quorum of one left behind shows only when the replica later leads without the others; tests end after the call.", "anchors": ["src/lib/replication/repl_dev/raft_repl_dev.cpp:205-453", "src/lib/replication/repl_dev/raft_repl_dev.cpp:561-685", "src/lib/replication/repl_dev/raft_repl_dev.cpp:735-840"]}
{"id": "C117", "title": "A verified learner flip succeeds exactly when the flag is as asked", "statement": "flip_learner_flag with wait_and_verify returns success when raft has set the member's learner flag to the target, and only then.", "quantifier": "All groups, members, targets and raft answers.", "why_tests_cant": "Tests flip a learner in one direction and do not look at both the answer and the configuration.", "anchors": ["src/lib/replication/repl_dev/raft_repl_dev.cpp:664-733"]}
{"id": "C118", "title": "The old member is removed only when the new one is up to date", "statement": "The periodic check removes the old member of a replacement only when the new member's log is within the laggy threshold of the group's commit.", "quantifier": "All groups and log positions.", "why_tests_cant": "Tests replace a live member; the case of a dead one with a group far ahead needs a long history.", "anchors": ["src/lib/replication/repl_dev/raft_repl_dev.cpp:2496-2565"]}
{"id": "C119", "title": "A replacement is known by the id it was started with", "statement": "After start_replace_member has recorded a task, get_replace_member_status, a second start and clean_replace_member_task with the same id are about that task.", "quantifier": "All non-empty ids, groups and raft answers.", "why_tests_cant": "Tests use short ids.", "anchors": ["src/lib/replication/repl_dev/raft_repl_dev.h:19-60", "src/lib/replication/repl_dev/raft_repl_dev.cpp:1829-1842", "src/lib/replication/repl_dev/raft_repl_dev.cpp:246-254"]}
{"id": "C120", "title": "Concurrent point operations on a B-tree are linearizable", "statement": "When any number of threads call put, get and remove on one B-tree at the same time, while nodes are split and merged and the root grows and shrinks, every call takes effect at one moment between its start and its return. Run one after the other in the order of these moments the calls give the same answers on a plain map, and the tree's content afterwards is that map's. The structure stays a valid B-tree throughout.", "quantifier": "All trees, numbers of threads, calls, schedules, and choices of when and how to split and merge.", "why_tests_cant": "Tests run a few threads with a few schedules; a lost update needs a split or merge between giving up a lock for an upgrade and getting it back.", "anchors": ["src/include/homestore/btree/btree.ipp:82-235", "src/include/homestore/btree/detail/btree_mutate_impl.ipp:33-290", "src/include/homestore/btree/detail/btree_remove_impl.ipp:21-644", "src/include/homestore/btree/detail/btree_node_mgr.ipp:52-210"]}
{"id": "C121", "title": "Concurrent point operations on a B-tree do not deadlock", "statement": "While put, get and remove calls of any number of threads are in progress on one B-tree, at least one thread in a call can take its next step: threads that split, merge, upgrade locks, lock siblings or wait for the tree's exclusive lock never wait for each other in a circle.", "quantifier": "All trees, numbers of threads, calls, schedules, and choices of when and how to split and merge.", "why_tests_cant": "A deadlock needs one particular interleaving of lock acquisitions.", "anchors": ["src/include/homestore/btree/btree.ipp:82-235", "src/include/homestore/btree/detail/btree_remove_impl.ipp:256-350", "src/include/homestore/btree/detail/btree_node_mgr.ipp:105-210"]}
{"id": "C122", "title": "B-tree nodes are changed under an exclusive lock only", "statement": "During concurrent put, get and remove calls two threads have the same node locked only if both only read it. A node is changed only by a thread that has it locked for writing, or by one that holds the lock of the whole tree exclusively while no other thread is in it.", "quantifier": "All trees, numbers of threads, calls and schedules.", "why_tests_cant": "A data race shows only when two threads hit the same node within nanoseconds.", "anchors": ["src/include/homestore/btree/btree.ipp:82-235", "src/include/homestore/btree/detail/btree_mutate_impl.ipp:33-290", "src/include/homestore/btree/detail/btree_remove_impl.ipp:21-644"]}
{"id": "C123", "title": "Data fetched from the originator lands where it belongs", "statement": "A follower that misses data asks the originator for it. The requests are put in batches, each with every request once and in order, each one request or smaller than the limit. Whatever is answered, pushed, given up or lost, in whatever order, a request that has got its data has exactly the originator's content on its own local blocks, every request that was answered or pushed has its data, and no other block changes.", "quantifier": "All requests, block layouts on both sides, batch limits, drive contents and orders of answers, pushes, failures and time-outs.", "why_tests_cant": "Tests fetch equal-sized blocks with few requests per batch; a wrong offset in a response needs mixed sizes with some requests already received.", "anchors": ["src/lib/replication/repl_dev/raft_repl_dev.cpp:1398-1514", "src/lib/replication/repl_dev/raft_repl_dev.cpp:1516-1668", "src/lib/replication/repl_dev/common.cpp:182-229"]}
{"id": "C124", "title": "A fetch is only for data that is still needed", "statement": "A follower asks the originator only for requests that have neither got their data nor been given up, and a request whose blocks were given back after an error gets no data written to these blocks.", "quantifier": "All request states and orders of events.", "why_tests_cant": "Needs a request that times out before its data arrives, with its blocks then used again.", "anchors": ["src/lib/replication/repl_dev/raft_repl_dev.cpp:1404-1415", "src/lib/replication/repl_dev/raft_repl_dev.cpp:1777-1825", "src/lib/replication/repl_dev/raft_repl_dev.cpp:1618-1655"]}
{"id": "C125", "title": "Allocation asks every chunk before it gives up", "statement": "A block allocation on a virtual device with several chunks asks the chunks in turn, starting behind the one asked last. The blocks it returns are all of one chunk, as many as asked for (or fewer, at least one, if the caller allows that), and were free there; chunks asked before refused and hold what they held, chunks not asked are unchanged. It fails only if every chunk refused, and then nothing is allocated. This holds for append chunks, and for variable size chunks if the request is contiguous or may be answered in part.", "quantifier": "All numbers of chunks, chunk contents, request sizes and positions of the selector.", "why_tests_cant": "Tests have chunks with plenty of room; the order matters when some are nearly full.", "anchors": ["src/lib/device/virtual_dev.cpp:239-341", "src/lib/device/round_robin_chunk_selector.cpp:20-33", "src/lib/blkalloc/varsize_blk_allocator.cpp:398-449", "src/lib/blkalloc/append_blk_allocator.cpp:70-95"]}
{"id": "C126", "title": "Allocation over several chunks is safe for every kind of request", "statement": "Whatever the hints, an allocation on a virtual device with several variable size chunks returns, and if it fails the allocated blocks of every chunk are what they were.", "quantifier": "All hints, chunk contents and request sizes.", "why_tests_cant": "Needs a chunk with some but not enough free blocks, followed by another.", "anchors": ["src/lib/device/virtual_dev.cpp:252-265", "src/lib/blkalloc/varsize_blk_allocator.cpp:434-437", "src/lib/blkalloc/blk.cpp:79-91"]}
{"id": "C127", "title": "An allocation into a vector returns what was asked for", "statement": "When the allocation call that fills a vector of block ids succeeds, the ids have together exactly as many blocks as asked for, all of them were free and are now allocated in their chunks, and nothing else is.", "quantifier": "All chunk contents, request sizes and selector positions, with allocators that may answer in part.", "why_tests_cant": "Tests allocate from chunks with enough contiguous room.", "anchors": ["src/lib/device/virtual_dev.cpp:216-316"]}
{"id": "C128", "title": "A new virtual device is made of equal chunks that fill it", "statement": "When a statically sized virtual device is created, its size is exactly the number of its chunks times their size, chunks are made of whole blocks and are no smaller than the smallest chunk allowed, there are at most 65536 of them, and the device is no larger than asked for and smaller only by less than one chunk or one block per chunk. Asking by a number of chunks succeeds if one smallest chunk fits; asking by a chunk size succeeds if at most 65536 are needed.", "quantifier": "All sizes up to 128 TiB, numbers and sizes of chunks, block sizes below 64 KiB, smallest chunks of 1 MiB to 2 GiB, numbers of streams.", "why_tests_cant": "Tests create a handful of devices; the rounding and the 32-bit fields matter at odd sizes.", "anchors": ["src/lib/device/device_manager.cpp:403-505"]}
{"id": "C129", "title": "Asking for a virtual device never divides by zero", "statement": "Creating a statically sized virtual device by a number of chunks ends with a device or with a refusal that names the reason.", "quantifier": "All sizes, block sizes that are powers of two, and numbers of chunks up to 65536.", "why_tests_cant": "Needs drives of many TB or requests smaller than a chunk.", "anchors": ["src/lib/device/device_manager.cpp:430-446"]}
{"id": "C130", "title": "Chunks are spread over the drives by size", "statement": "The chunks of a new virtual device that are created over all drives are no more than asked for, on no drive more than fit on it, and, if the whole fits on the drives, at most one per drive is missing; rounding of the single precision arithmetic included.", "quantifier": "All numbers and sizes of drives, up to 65536 chunks of any size.", "why_tests_cant": "The shares are computed in single precision; tests use drives of equal size.", "anchors": ["src/lib/device/device_manager.cpp:364-387", "src/lib/device/device_manager.cpp:507-553"]}
{"id": "C131", "title": "What a follower commits is what is in its log, and every block is settled once", "statement": "However pushed data, appended and overwritten log entries, flushes, commits, failures, garbage collection and the clearing of a chunk follow one another on a follower, no step aborts; the requests handed to the listener on commit are, in order, the application entries that are in the log at that index; the blocks allocated for a request are either given back once or committed once, never both; and blocks that are neither belong to a request that is still found by its key, in particular those of every uncommitted entry.", "quantifier": "All sequences of events, numbers of requests and allocation failures, given that an entry is not appended twice, only uncommitted entries are overwritten, only flushed ones committed, and garbage collection sees no request as expired whose entry is being appended.", "why_tests_cant": "The order of pushes, overwrites after an election and garbage collection is timing; tests cover a few.", "anchors": ["src/lib/replication/repl_dev/raft_repl_dev.cpp:1241-1295", "src/lib/replication/repl_dev/raft_repl_dev.cpp:1683-1825", "src/lib/replication/repl_dev/raft_repl_dev.cpp:2614-2696", "src/lib/replication/repl_dev/raft_state_machine.cpp:228-338", "src/lib/replication/log_store/repl_log_store.cpp:9-95"]}
{"id": "C132", "title": "Garbage collection of requests never frees blocks that are named by the log", "statement": "Whenever a request is found expired, collecting it frees only blocks that no entry of the log names.", "quantifier": "All sequences of events, with expiry at any time.", "why_tests_cant": "Needs a flush that takes as long as the expiry time.", "anchors": ["src/lib/replication/repl_dev/raft_repl_dev.cpp:2660-2696", "src/lib/replication/log_store/repl_log_store.cpp:26-95"]}
{"id": "C133", "title": "Destroying a B-tree frees every node once, children before parents, and the node counts are exact", "statement": "If every node can be read, destroy_btree answers success with the number of nodes of the tree; the nodes it frees are exactly those of the tree, each once, and each after all nodes below it. compute_node_count answers the exact numbers of interior nodes and leaves although it does not read the leaves.", "quantifier": "All trees of any height and fan-out whose node ids differ (for the count: whose leaves are at one depth).", "why_tests_cant": "Tests destroy a few trees, mostly of one shape, and compare only the count.", "anchors": ["src/include/homestore/btree/btree.ipp:61-80", "src/include/homestore/btree/detail/btree_common.ipp:23-77", "src/include/homestore/btree/detail/btree_common.ipp:88-148"]}
{"id": "C134", "title": "A destroy that reports success has freed every node, and a failed one can be repeated", "statement": "Whatever reads fail, destroy_btree answers success only if all nodes have been freed, never uses a root that could not be read, and a second attempt after a failure frees no node twice.", "quantifier": "All trees and all sets of unreadable nodes.", "why_tests_cant": "Needs read failures at a depth of at least two.", "anchors": ["src/include/homestore/btree/btree.ipp:61-80", "src/include/homestore/btree/detail/btree_common.ipp:23-77", "src/include/homestore/index/index_table.hpp:135-147"]}
{"id": "C135", "title": "A baseline resync survives crashes", "statement": "With baseline resyncs at any time and crashes at any point of them, after a restart the effects of every write in the log are present, or the write is still to be committed from the log, or it is within the snapshot that will be sent again; nothing leaves the log unless it is durable or within that snapshot; when the snapshot is no longer under way everything it brought is durable; and a restart commits again nothing that is within a snapshot received or under way.", "quantifier": "every interleaving of commits, checkpoints, compaction and the messages of snapshots, each no older than the one before, and every sequence of crashes", "why_tests_cant": "needs a crash between the last object of a snapshot, the checkpoint after it, the compaction and its application.", "anchors": ["src/lib/replication/repl_dev/raft_state_machine.cpp: save_logical_snp_obj, apply_snapshot, commit_ext", "src/lib/replication/repl_dev/raft_repl_dev.cpp: save_snp_resync_data, on_log_found, update_truncation_boundary"]}
{"id": "C136", "title": "The metadata of a log device survives any history", "statement": "After any history of creating, removing and truncating log stores, adding and dropping rollback records and destroying the rest, with crashes, reloading the metadata of a log device gives exactly the stores and rollback records of the last write, each store once under its id; an index is taken for rolled back just when a record says so; a new store gets the lowest free id; and no access leaves the superblock buffers while they grow and shrink.", "quantifier": "every history of the metadata calls and crashes, every header size, slot size and alignment", "why_tests_cant": "tests create a handful of stores; buffers change size only at particular numbers of stores and records, with particular ids freed before.", "anchors": ["src/lib/logstore/log_dev.cpp: LogDevMetadata::create, load, reserve_store, unreserve_store, update_store_superblk, add_rollback_record, remove_rollback_record_upto, remove_all_rollback_records, resize_logdev_sb_if_needed, resize_rollback_sb_if_needed", "src/lib/logstore/log_dev.hpp: logdev_superblk, rollback_superblk"]}
{"id": "C137", "title": "A log device can be loaded whatever moment a crash hit", "statement": "A crash at any moment, including during the creation or the destruction of a log device, leaves on disk either no log device or one that the next start can load.", "quantifier": "every crash point", "why_tests_cant": "needs a crash between the two superblock writes of create, or the two removals of destroy.", "anchors": ["src/lib/logstore/log_dev.cpp: LogDevMetadata::create, destroy, load", "src/lib/logstore/log_store_service.cpp: logdev_super_blk_found, rollback_super_blk_found"]}
{"id": "C138", "title": "Replica groups and their log devices survive any crash, and nothing leaks", "statement": "Whatever groups a server created, left, destroyed and saved raft state for, with crashes after any superblock write, also during starts: every start comes up with every group whose creation returned and that was not left, with its own log device and the raft state saved last, and with no group that was left and not asked for again; when nothing is under way, the log devices, group superblocks and raft config superblocks on disk are just those of the groups there; no log device id is ever given out twice; and no assertion about these records fails.", "quantifier": "every interleaving, write by write, of calls for any number of groups, every sequence of crashes and of starts cut short, every order in which a start finds the superblocks", "why_tests_cant": "tests crash at one or two places; creation, leaving, destruction and start write five kinds of records, and each of the gaps between them matters to what a later start does.", "anchors": ["src/lib/replication/service/raft_repl_service.cpp: start, create_state_mgr, load_repl_dev, raft_group_config_found, gc_repl_devs", "src/lib/replication/repl_dev/raft_repl_dev.cpp: RaftReplDev, leave, permanent_destroy, save_state", "src/lib/logstore/log_store_service.cpp: create_new_logdev, open_logdev, destroy_log_dev, delete_unopened_logdevs"]}
{"id": "C139", "title": "The application is told before a group disappears", "statement": "Before a group that was left disappears from the server, the listener's on_destroy is called for it, so that the application can drop what it keeps for the group.", "quantifier": "every history, with crashes", "why_tests_cant": "needs a crash in the minutes between leave() and the garbage collection of the group.", "anchors": ["src/lib/replication/service/raft_repl_service.cpp: load_repl_dev, gc_repl_devs", "src/lib/replication/repl_dev/raft_repl_dev.cpp: leave, permanent_destroy"]}
{"id": "C140", "title": "A server that comes up after a crash works", "statement": "After any crash the server starts without dying, every group it comes up with has its listener, and the raft state saved for it is there after the next restart.", "quantifier": "every history, with crashes at any moment", "why_tests_cant": "needs a crash between the group superblock and the raft config superblock, or a garbage collection between two lines of leave().", "anchors": ["src/lib/replication/service/raft_repl_service.cpp: create_state_mgr, raft_group_config_found, gc_repl_devs", "src/lib/replication/repl_dev/raft_repl_dev.cpp: leave, become_leader_cb, save_state"]}
{"id": "C141", "title": "A server comes up on its drives, and they keep what they have", "statement": "A server formatted on some drives and started again any number of times, with the same drives listed in the same order and new ones after them, always comes up: with every listed drive under its own id, with all virtual devices, and with exactly the chunks on the drives, no chunk id twice. A drive in use keeps its id and is never formatted again, and a chunk on it stays until it is removed, whatever prefix of the writes of a start, of the creation or of the removal of a chunk a crash lets through. If a drive is listed twice at the first start, the server refuses to start and no drive is taken into use.", "quantifier": "every set of drives of both types, every number of virtual devices and chunks, every history of starts that add drives, chunk creations and removals, and crashes after any write outside the commit of the first format", "why_tests_cant": "drives are added one after another over years, with crashes in between; the generation numbers, the highest drive id and the chunk ids then come from drives of different ages, and tests add one drive once.", "anchors": ["src/lib/device/device_manager.cpp: DeviceManager, format_devices, format_single_device, load_devices, load_vdevs, commit_formatting, create_vdev, add_pdev_to_vdev, create_chunk, remove_chunk, verify_unique_devs", "src/lib/homestore.cpp: start, format_and_start, do_start", "src/lib/device/hs_super_blk.h: first_block"]}
{"id": "C142", "title": "A crash during the first start is harmless", "statement": "Whenever a crash hits the first start, the next one either formats the drives anew or comes up with all virtual devices.", "quantifier": "every crash point, every set of drives", "why_tests_cant": "needs a crash between the commits of two drives.", "anchors": ["src/lib/device/device_manager.cpp: DeviceManager, commit_formatting, load_devices, load_vdevs", "src/lib/homestore.cpp: do_start"]}
{"id": "C143", "title": "Drives may be listed in any order, and some may be missing for a while", "statement": "The order in which drives are listed does not matter, and a drive may be missing at some starts and come back: the server comes up with all virtual devices, and ids of drives and chunks stay distinct.", "quantifier": "every order of drives, every history of starts with any of them", "why_tests_cant": "needs a drive to be added and the list to be reordered, or chunks or drives to be added while a drive is missing.", "anchors": ["src/lib/device/device_manager.cpp: load_devices, load_vdevs, read_vdev_infos, create_chunk, format_single_device"]}
{"id": "C144", "title": "Degraded mode is reported exactly when a drive is missing", "statement": "is_boot_in_degraded_mode says after a start whether a drive in use is missing from the list.", "quantifier": "every history of starts", "why_tests_cant": "needs a drive to be added or replaced before the start.", "anchors": ["src/lib/device/device_manager.cpp: load_devices, commit_formatting", "src/lib/device/device.h: is_boot_in_degraded_mode"]}
{"id": "C145", "title": "stop() of a service comes to its end", "statement": "In every interleaving of calls to the services (data, log store, log device, index, replication) with calls of stop(), the count of requests under way never drops below zero, is zero once no call is under way, and from every state in which a component is stopping the calls under way can run to their end, after which its stop() finds no request pending.", "quantifier": "For all finite sets of calls whose path gives back its count, all interleavings, all moments of stop().", "why_tests_cant": "Tests stop an idle system; which interleaving of counting, refusals of nested calls and callbacks occurs is up to the scheduler.", "anchors": ["src/lib/blkdata_svc/blkdata_service.cpp: stop", "src/lib/logstore/log_store_service.cpp: stop", "src/lib/logstore/log_dev.cpp: stop", "src/lib/logstore/log_store.cpp: stop", "src/lib/index/index_service.cpp: stop"]}
{"id": "C146", "title": "A call that fails does not keep stop() waiting", "statement": "Every path of a call that counts itself as under way gives the count back, also where the call ends in an error, so that stop() of the component comes to its end afterwards.", "quantifier": "For all error paths of the calls that count requests.", "why_tests_cant": "The error paths need a missing log device, a failing read, or buffers of the wrong size, followed by a shutdown; tests that provoke the errors do not stop the service through stop().", "anchors": ["src/lib/logstore/log_store_service.cpp: destroy_log_dev, remove_log_store", "src/lib/logstore/log_dev.cpp: read", "src/lib/logstore/log_store.cpp: write_and_flush", "src/lib/replication/repl_dev/solo_repl_dev.cpp: async_write"]}
{"id": "C147", "title": "Nothing runs in a component after its stop()", "statement": "Once stop() of a component has found no request pending, no call that was let in touches the component any more.", "quantifier": "For all calls, all interleavings with stop().", "why_tests_cant": "The window between the check of the flag and the count, or between the return of the count and the work, is a few instructions wide.", "anchors": ["include/homestore/blkdata_service.hpp: incr_pending_request_num", "src/lib/blkdata_svc/blkdata_service.cpp: async_read, async_write", "src/lib/logstore/log_dev.cpp: flush_if_necessary", "src/lib/replication/service/raft_repl_service.cpp: gc_repl_devs"]}
{"id": "C148", "title": "append_async returns a sequence number only for a record that was taken", "statement": "When append_async of a log store returns a sequence number, the record was handed to the log device, which will write it and call back.", "quantifier": "For all appends, all interleavings with stop() of the log store and of the log device.", "why_tests_cant": "The refusal has to fall between the check in append_async and the one in write_async or in the log device; the returned number looks like any other.", "anchors": ["src/lib/logstore/log_store.cpp: append_async, write_async", "src/lib/logstore/log_dev.cpp: append_async, stop"]}
{"id": "C149", "title": "The flush of a CP leaves index nodes as of the end of that CP", "statement": "When the flush of a CP completes, the block of every index node holds the contents given to it by the last operation of that CP or an earlier one, and nothing of operations of the next CP that ran meanwhile. At any other moment a block is as of the end of the previous CP or of the one before. A buffer being written is not changed, and the flush never gets stuck with buffers left. Preconditions: the evictor drops no node in use and none with an older version still unwritten; a changed node is written before it is unlocked.", "quantifier": "For all sequences of reads, locks, changes, writes, evictions, CP switches and flush steps; all node contents; every order of flushing.", "why_tests_cant": "Needs operations of two CPs on the same node interleaved with the flush of the first; what is wrong shows only in what the drives hold at a crash.", "anchors": ["src/lib/index/wb_cache.cpp: get_writable_buf, write_buf, async_cp_flush, process_write_completion", "src/include/homestore/index/index_table.hpp: write_node_impl, refresh_node", "src/lib/index/index_cp.cpp: add_to_dirty_list"]}
{"id": "C150", "title": "Readers of an index node see its latest contents, and writers come one at a time and in the order of CPs", "statement": "A node read through the cache, or from the drives after a miss, has the contents of the latest change; two operations never hold the same block for writing; once an operation of a CP has changed a block, no operation of an older CP does. Same preconditions as C149.", "quantifier": "For all sequences of reads, locks, changes, writes, evictions, CP switches and flush steps; all nodes.", "why_tests_cant": "A stale node appears only when an eviction falls between the copy of a buffer and the flush of the original.", "anchors": ["src/lib/index/wb_cache.cpp: read_buf, get_writable_buf", "src/include/homestore/btree/detail/btree_node_mgr.ipp: read_and_lock_node, _lock_node"]}
{"id": "C151", "title": "Eviction of index nodes is invisible", "statement": "C149 and C150 hold with the eviction callback of the write-back cache as it is: it allows any node whose own buffer is clean to be dropped.", "quantifier": "For all sequences as in C149, with no rule for the evictor beyond the callback.", "why_tests_cant": "The cache has to be under pressure at the moment a copied buffer is clean and its original is still dirty, or while a thread holds a pointer to the node.", "anchors": ["src/lib/index/wb_cache.cpp: IndexWBCache (eviction callback), get_writable_buf"]}
{"id": "C152", "title": "Lookups of index tables find exactly the registered tables, also after a restart", "statement": "get_index_table by uuid or by ordinal finds exactly the registered table that has it; num_tables is their number; existing tables have distinct ordinals and uuids; after a restart the registered tables are those that exist, in whatever order superblocks are found; no call reads a null pointer. Preconditions: uuids are fresh, a given ordinal is free, a table is removed before it is destroyed, no table is created between the two.", "quantifier": "For all sequences of create, add, remove, destroy and restart.", "why_tests_cant": "Tests have one table and one order of superblocks; a clash of ordinals needs several tables and a crash.", "anchors": ["src/lib/index/index_service.cpp: add_index_table, remove_index_table, get_index_table, start, reserve_ordinal", "src/include/homestore/index/index_table.hpp: IndexTable, destroy"]}
{"id": "C153", "title": "The registry of index tables is safe for any order of calls", "statement": "C152 holds without its preconditions on callers: a table can be created with any ordinal, tables can be created while others are being dropped, and a table can be destroyed before it is removed.", "quantifier": "For all sequences of create, add, remove, destroy and restart.", "why_tests_cant": "The ordinal has to be handed out again between remove and destroy, and the process has to stop in that window; a wrong ordinal is only logged.", "anchors": ["src/lib/index/index_service.cpp: remove_index_table, unreserve_ordinal, used_size", "src/include/homestore/index/index_table.hpp: IndexTable, destroy", "src/include/homestore/superblk_handler.hpp: destroy"]}
{"id": "C154", "title": "used_size of the index service is the sum of the sizes of its tables", "statement": "used_size() returns the sum of used_size() of the registered tables.", "quantifier": "For all sequences of create, add, remove, destroy and restart; all sizes.", "why_tests_cant": "Needs index tables of 2 GiB and more.", "anchors": ["src/lib/index/index_service.cpp: used_size", "src/include/homestore/index/index_table.hpp: used_size"]}
{"id": "C155", "title": "A replica never forgets its term and its vote", "statement": "After any crash a raft replica comes up with the last term and vote whose save took place; so, over all crashes, it votes for one candidate in a term, and its term does not fall below one it voted in. A state saved in the older format is read, and replaced by the next save. Preconditions: what nuraft serialized it can read back; nuraft saves before it answers and keeps its own rules between crashes.", "quantifier": "For all sequences of saves of state and configuration, loads, crashes (also in the middle of a save) and restarts.", "why_tests_cant": "A lost vote shows only as two leaders in one term, after a crash in a short window during an election.", "anchors": ["src/lib/replication/repl_dev/raft_repl_dev.cpp: save_state, read_state", "src/include/homestore/superblk_handler.hpp: json_superblk"]}
{"id": "C156", "title": "A replica never forgets the membership of its group", "statement": "load_config returns the last configuration whose save took place, with all its fields and servers in order, also after crashes and whatever states were saved in between; before the first it returns this server alone.", "quantifier": "For all configurations; all sequences of saves of state and configuration, loads, crashes and restarts.", "why_tests_cant": "State and configuration share a superblock; a lost update or field needs saves of both around a crash.", "anchors": ["src/lib/replication/repl_dev/raft_repl_dev.cpp: save_config, load_config, serialize_cluster_config, deserialize_cluster_config"]}
{"id": "C157", "title": "A saved state that cannot be read does not let a replica vote twice", "statement": "A replica whose saved term and vote cannot be read does not take part in elections as if it had none, and comes up in any case.", "quantifier": "For all contents of the superblock.", "why_tests_cant": "Needs a damaged superblock, or one written by another version.", "anchors": ["src/lib/replication/repl_dev/raft_repl_dev.cpp: read_state"]}
{"id": "C158", "title": "A quiesced replica makes no requests", "statement": "From the return of quiesce_reqs until resume_accepting_reqs no request is made on the replica, so no blocks are allocated; every request begun before the return is over; after resume_accepting_reqs requests are taken again; and quiesce_reqs can always return. Preconditions: one caller at a time; a store is seen by other threads before the next load of its thread.", "quantifier": "For all interleavings of any number of requests, on the raft and the data channel, with the caller, step by step of each access to the flag and the count.", "why_tests_cant": "The window is a few instructions between the count and the flag.", "anchors": ["src/lib/replication/repl_dev/raft_repl_dev.cpp: quiesce_reqs, resume_accepting_reqs, init_req_ctx", "src/lib/replication/repl_dev/common.h: init_req_counter"]}
{"id": "C159", "title": "Quiescing needs no more than the memory orders the code asks for", "statement": "C158 holds with the release store and the acquire load that the code uses, and for several callers at a time.", "quantifier": "For all executions that C++ (or x86) allows; any number of callers.", "why_tests_cant": "The reordering is by the processor's store buffer.", "anchors": ["src/lib/replication/repl_dev/raft_repl_dev.cpp: quiesce_reqs", "src/lib/replication/repl_dev/raft_repl_dev.h: get_pending_init_req_num"]}
{"id": "C160", "title": "A leader that says it is ready has committed what it found in its log", "statement": "After the replica was told that it is leader, and until it is told that it is a follower, is_ready_for_traffic answers yes only if every entry that was in its log then is committed, though it loads its two numbers one after the other; the answer becomes yes when these are committed; and the release assertion on the gate does not fail, however leadership changes and logs are cut.", "quantifier": "For all interleavings of elections, call backs, appends, cuts of a follower's log, commits and any number of clients.", "why_tests_cant": "Needs elections between two loads, and logs that get shorter between two terms of leadership.", "anchors": ["src/lib/replication/repl_dev/raft_repl_dev.cpp: become_leader_cb, is_ready_for_traffic", "src/lib/replication/repl_dev/raft_repl_dev.h: become_follower_cb"]}
{"id": "C161", "title": "A replica that says it is leader and ready has committed what it found in its log", "statement": "As C160, from the election on; and a replica that is not leader is not ready.", "quantifier": "As C160.", "why_tests_cant": "The window is between the election and the call back.", "anchors": ["src/lib/replication/repl_dev/raft_repl_dev.cpp: is_ready_for_traffic, is_leader"]}
{"id": "C162", "title": "A follower that runs out of space does not abort", "statement": "However batches of leaders, pushed data, commits, refusals of the allocator and the listener's handling of a lack of space follow one another, an accepted log entry finds its request when it is written (or is committed already), so the release assertions hold; and after resume_accepting_reqs a batch that fits is accepted. Preconditions: no entry is rolled back and become_leader not called between on_no_space_left and resume_accepting_reqs; the listener quiesces when told, waits for the entries before to be committed, clears, and resumes.", "quantifier": "For all sequences of events, changes of leader, keys and allocation failures.", "why_tests_cant": "Needs two changes of leader around a full chunk; the code tells of the scenario in a comment.", "anchors": ["src/lib/replication/repl_dev/raft_repl_dev.cpp: raft_event, applier_create_req, clear_chunk_req, resume_accepting_reqs", "src/lib/replication/repl_dev/raft_state_machine.cpp: localize_journal_entry_finish"]}
{"id": "C163", "title": "A follower that runs out of space does not abort, also when its log is rolled back meanwhile", "statement": "As C162, without the precondition on rollback and become_leader.", "quantifier": "As C162.", "why_tests_cant": "As C162, with one more change of leader.", "anchors": ["src/lib/replication/repl_dev/raft_repl_dev.cpp: handle_rollback, become_leader, reset_latch_lsn"]}
{"id": "C164", "title": "The count of dirty index memory is right, and a flush takes away what was dirty", "statement": "The count of dirty memory of the index is never negative and never more than the memory that is dirtied and not flushed; it is exactly that when no thread is in the middle of write_buf, and zero when all is flushed. A write that takes the count over the limit leaves a checkpoint flush in progress. At the end of a flush only what was dirtied after it was asked for is left, and nothing if no thread entered a checkpoint meanwhile.", "quantifier": "For all numbers of threads, interleavings of writes, counts, switches, flushes and requests for them, sizes of nodes and limits.", "why_tests_cant": "A buffer is put on the list and counted in two steps; the error needs a flush between the two. A drift of the count shows after long runs only.", "anchors": ["src/lib/index/wb_cache.cpp: write_buf, process_write_completion", "src/lib/common/resource_mgr.cpp: inc_dirty_buf_size, dec_dirty_buf_size", "src/lib/checkpoint/cp_mgr.cpp: do_trigger_cp_flush, on_cp_flush_done"]}
{"id": "C165", "title": "Dirty index memory is bounded by twice the limit", "statement": "The count of dirty memory is at most twice dirty_buf_percent of the memory (as the configuration says), and when it is over the limit a flush is in progress.", "quantifier": "As C164.", "why_tests_cant": "Needs a flush that takes long while writes go on; tests do not reach the limit.", "anchors": ["src/lib/common/homestore_config.fbs: ResourceLimits", "src/lib/common/resource_mgr.cpp: inc_dirty_buf_size", "src/lib/checkpoint/cp_mgr.cpp: do_trigger_cp_flush"]}
