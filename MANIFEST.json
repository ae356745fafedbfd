{
 "claims": [
  {
   "property": "C01",
   "status": "proved",
   "theorems": [
    "c01_integer_roundtrip",
    "c01_id_roundtrip",
    "c01_integer_injective",
    "c01_wide_block_number_refuted"
   ],
   "note": "Holds for block numbers below 2^31; wider block numbers (allowed by blk_num_t and max_blks_per_chunk) are silently truncated, shown by the refuted theorem."
  },
  {
   "property": "C02",
   "status": "proved",
   "theorems": [
    "c02_serialize_roundtrip",
    "c02_pieces_survive"
   ],
   "note": ""
  },
  {
   "property": "C03",
   "status": "proved",
   "theorems": [
    "c03_iterate_exact",
    "c03_blk_count",
    "c03_seventh_refused",
    "c03_blk_count_wraps_refuted"
   ],
   "note": "The sum is exact below 65536, as stated; the wrap beyond it is shown too."
  },
  {
   "property": "C04",
   "status": "proved",
   "theorems": [
    "c04_compare_eq",
    "c04_compare_antisym",
    "c04_compare_trans"
   ],
   "note": "BlkId::compare; the MultiBlkId overload (interval sets) is not modelled."
  },
  {
   "property": "C05",
   "status": "proved",
   "theorems": [
    "c05_free_covers_exactly",
    "c05_too_large_refuted"
   ],
   "note": "The bound 'below twice the largest slab' is sharp: at the bound the code indexes outside the vector."
  },
  {
   "property": "C06",
   "status": "proved",
   "theorems": [
    "c06_blocks_conserved",
    "c06_never_handed_out_twice",
    "c06_allocation_result",
    "c06_refill_exact"
   ],
   "note": "Each cache call is one atomic step; up to 16 slabs."
  },
  {
   "property": "C51",
   "status": "partial",
   "theorems": [
    "c06_min_piece_refuted",
    "c06_fill_session_refuted"
   ],
   "note": "False of the code; both theorems give concrete witnesses of undefined behaviour. C06 covers the well-defined requests."
  },
  {
   "property": "C07",
   "status": "proved",
   "theorems": [
    "c07_sequential",
    "c07_refused_iff_full",
    "c07_concurrent_disjoint",
    "c07_concurrent_capacity_refuted",
    "c07_unbounded_after_race_refuted"
   ],
   "note": "The sequential claim and the disjointness of concurrent results are proved; the race the statement describes is exhibited."
  },
  {
   "property": "C08",
   "status": "proved",
   "theorems": [
    "c08_replay_order_irrelevant",
    "c08_append_point",
    "c08_no_overlap_after_replay",
    "c08_history_disjoint"
   ],
   "note": "Superblock writes are atomic; the checkpoint flush does not interleave with allocator calls."
  },
  {
   "property": "C09",
   "status": "proved",
   "theorems": [
    "c09_single_owner",
    "c09_conservation",
    "c09_full_means_full",
    "c09_double_free_refuted",
    "c09_replay_then_free_refuted"
   ],
   "note": "Each allocator call is one atomic step. The two refuted theorems show that the preconditions in the statement are needed."
  },
  {
   "property": "C10",
   "status": "proved",
   "theorems": [
    "c10_stored_bitmap",
    "c10_stored_bitmap_new_chunk"
   ],
   "note": "Commits and frees interleave with the two halves of the flush; the superblock write is atomic."
  },
  {
   "property": "C52",
   "status": "partial",
   "theorems": [
    "c10_free_not_persisted_refuted",
    "c10_free_in_window_refuted",
    "c10_recommit_in_window_refuted",
    "c10_pieces_in_window_refuted"
   ],
   "note": "False of the code; four concrete witnesses. C10 is the part that holds."
  },
  {
   "property": "C11",
   "status": "proved",
   "theorems": [
    "c11_no_early_reuse",
    "c11_released_after_write",
    "c11_single_owner"
   ],
   "note": "Frees with free_now set, and frees on append vdevs, take effect at once by design; they are not frees under a checkpoint."
  },
  {
   "property": "C12",
   "status": "proved",
   "theorems": [
    "c12_history",
    "c12_no_double_allocation",
    "c12_alloc_result",
    "c12_short_means_full",
    "c12_free"
   ],
   "note": "The sisl bit scan is a parameter with a stated contract, met by an executable first-fit scan. An allocation is atomic except that sweeps may run between its attempts."
  },
  {
   "property": "C53",
   "status": "partial",
   "theorems": [
    "c53_free_two_pieces_refuted",
    "c53_failed_alloc_leaves_pieces_refuted",
    "c53_reserve_counts_twice_refuted",
    "c53_reserve_after_sweep_refuted",
    "c53_realloc_after_free_refuted",
    "c53_contiguous_partial_refuted"
   ],
   "note": "False of the code; one witness for each part. C12 is the part that holds."
  },
  {
   "property": "C13",
   "status": "proved",
   "theorems": [
    "c13_history",
    "c13_defined",
    "c13_create_chunks",
    "c13_create_chunk",
    "c13_crash_atomic"
   ],
   "note": "Crashes between superblock writes included; one write is atomic. A single create_chunk is assumed to be called only when a free range exists (C54 shows why)."
  },
  {
   "property": "C14",
   "status": "proved",
   "theorems": [
    "c14_items_disjoint",
    "c14_below_data",
    "c14_writes_outside_data",
    "c14_enough_slots",
    "c14_mirror_precondition_needed"
   ],
   "note": "Serialized bitmap header assumed to be at most one page (asserted by format_chunks)."
  },
  {
   "property": "C54",
   "status": "partial",
   "theorems": [
    "c54_failed_create_overlap_refuted",
    "c54_failed_create_unreadable_refuted",
    "c54_chunk_id_reused_refuted"
   ],
   "note": "False of the code; one witness for each part. C13 is the part that holds."
  },
  {
   "property": "C31",
   "status": "proved",
   "theorems": [
    "c31_topological_sort",
    "c31_recover_order"
   ],
   "note": "Names are numbers; hash iteration orders are parameters. The recovery theorem excludes empty dependency lists and deregistration (C55)."
  },
  {
   "property": "C55",
   "status": "partial",
   "theorems": [
    "c55_empty_dependency_list_refuted",
    "c55_deregistered_dependency_refuted"
   ],
   "note": "False of the code; one witness for each part. C31 is the part that holds."
  },
  {
   "property": "C15",
   "status": "proved",
   "theorems": [
    "c15_defined",
    "c15_ranges",
    "c15_append",
    "c15_addressable",
    "c15_distinct"
   ],
   "note": "Over histories of appends, writes, truncations, other users of free chunks and restarts. The pool never hands out chunk id 0."
  },
  {
   "property": "C16",
   "status": "proved",
   "theorems": [
    "c16_read",
    "c16_truncate"
   ],
   "note": "Truncation points are starts or ends of ranges handed out (C57 shows other offsets fail)."
  },
  {
   "property": "C56",
   "status": "proved",
   "theorems": [
    "c56_restart",
    "c16_read"
   ],
   "note": "Restart with the start offset the descriptor had; at most the last range unwritten."
  },
  {
   "property": "C57",
   "status": "partial",
   "theorems": [
    "c57_truncate_in_hole_refuted"
   ],
   "note": "False of the code; witness. C16 is the part that holds."
  },
  {
   "property": "C17",
   "status": "proved",
   "theorems": [
    "c17_round_trip",
    "c17_read"
   ],
   "note": "bytes of a group, any buffer content and growth; sizes under 2 GB; also LogDev::read by index"
  },
  {
   "property": "C18",
   "status": "proved",
   "theorems": [
    "c18_complete",
    "c18_intact",
    "c18_torn"
   ],
   "note": "prefix of write units; footer within one unit; CRC is any byte-wise function; assert_next_pages not modelled"
  },
  {
   "property": "C58",
   "status": "partial",
   "theorems": [
    "c58_prefix_tear_asserts_refuted",
    "c58_missing_middle_asserts_refuted"
   ],
   "note": "refuted: two witnesses with the real CRC; the tears that are harmless are C18"
  },
  {
   "property": "C59",
   "status": "partial",
   "theorems": [
    "c59_empty_flush_overread_refuted"
   ],
   "note": "refuted: heap over-read in compute_crc; with at least one record C17 proves every access in bounds"
  },
  {
   "property": "C19",
   "status": "proved",
   "theorems": [
    "c19_never_stuck",
    "c19_recovery",
    "c19_append_goes_on",
    "c19_flushed_is_durable"
   ],
   "note": "Histories of appends, group flushes, truncations, rollbacks, creation and removal of stores and crashes; an operation that cuts the log at a dead record is excluded (see C21, C22), as is C60. A crash inside truncation is C24; torn groups are C17, C18."
  },
  {
   "property": "C20",
   "status": "proved",
   "theorems": [
    "c20_truncation_safe"
   ],
   "note": "For entries appended in order; writes completing out of order are C61."
  },
  {
   "property": "C21",
   "status": "partial",
   "theorems": [
    "c21_rollback_holds_partial",
    "c21_rolled_back_returns_refuted"
   ],
   "note": "Holds until a truncation cuts the log exactly at a rolled back entry; false of the code then, with a witness."
  },
  {
   "property": "C22",
   "status": "partial",
   "theorems": [
    "c22_new_store_empty_partial",
    "c22_ghost_entry_refuted"
   ],
   "note": "Holds until a truncation cuts the log exactly at an entry of a removed store; false of the code then, with a witness."
  },
  {
   "property": "C23",
   "status": "proved",
   "theorems": [
    "c23_read"
   ],
   "note": "For stores used with append_async; lsns chosen by the caller are modelled (write_at) but not covered by this theorem."
  },
  {
   "property": "C24",
   "status": "partial",
   "theorems": [
    "c24_crash_before_start_saved_refuted",
    "c24_crash_in_truncate_refuted"
   ],
   "note": "False of the code; witnesses for the journal descriptor and for the log device."
  },
  {
   "property": "C60",
   "status": "partial",
   "theorems": [
    "c60_rollback_keeps_outstanding_refuted"
   ],
   "note": "False of the code, with a witness."
  },
  {
   "property": "C61",
   "status": "partial",
   "theorems": [
    "c61_out_of_order_truncation_refuted"
   ],
   "note": "False of the code, with a witness."
  },
  {
   "property": "C25",
   "status": "proved",
   "theorems": [
    "c25_nobody_inside",
    "c25_start_after_exit",
    "c25_no_crash"
   ],
   "note": "Small-step model of cp_mgr.cpp with any number of threads; sequentially consistent atomics; `calm` is the scheduling condition."
  },
  {
   "property": "C26",
   "status": "proved",
   "theorems": [
    "c26_one_at_a_time",
    "c26_told_is_true",
    "c26_forced_is_served"
   ],
   "note": "Same model; liveness is stated as: internal steps always lead to the notification."
  },
  {
   "property": "C27",
   "status": "proved",
   "theorems": [
    "c27_no_crash",
    "c27_nested_same",
    "c27_one_checkpoint",
    "c27_stays",
    "c27_references",
    "c27_retired_when_free"
   ],
   "note": "Model of the section object with any number of threads."
  },
  {
   "property": "C62",
   "status": "partial",
   "theorems": [
    "c25_flush_with_io_inside_refuted",
    "c25_use_after_delete_refuted"
   ],
   "note": "False of the code, with witnesses; C25 is what holds."
  },
  {
   "property": "C63",
   "status": "partial",
   "theorems": [
    "c27_assignment_leaks_refuted",
    "c27_other_thread_refuted",
    "c27_out_of_order_refuted"
   ],
   "note": "False of the code, with witnesses; C27 is what holds."
  },
  {
   "property": "C28",
   "status": "proved",
   "theorems": [
    "c28_atomic",
    "c28_restart"
   ],
   "note": "Every call, cut after any number of block writes (and restarts cut short in turn): restart succeeds, finds the records from before or from after the call, and holds exactly the blocks of that state. For a service that held at least one record."
  },
  {
   "property": "C29",
   "status": "proved",
   "theorems": [
    "c29_any_size",
    "c29_any_size_update",
    "c29_own_blocks",
    "c29_own_blocks_update"
   ],
   "note": "Condition [fits] on the number of extents; C65 is the statement without it."
  },
  {
   "property": "C30",
   "status": "proved",
   "theorems": [
    "c30_live",
    "c30_restart",
    "c30_no_crash"
   ],
   "note": "Over every history of calls, crashes, restarts and crashes during restart; removing the only record is excluded (C66)."
  },
  {
   "property": "C64",
   "status": "partial",
   "theorems": [
    "c64_read_compressed_refuted",
    "c64_read_plain"
   ],
   "note": "False of the code for compressed records: read_sub_sb hands out the compressed bytes (recover_meta_sub_type decompresses, read_sub_sb does not). Holds where compression changes nothing."
  },
  {
   "property": "C65",
   "status": "partial",
   "theorems": [
    "c29_one_id_too_many_refuted",
    "c29_own_blocks"
   ],
   "note": "False of the code: with one extent more than the headers hold, the data is written behind the last extent the header lists; the example overwrites another record."
  },
  {
   "property": "C66",
   "status": "partial",
   "theorems": [
    "c30_remove_only_refuted",
    "c30_empty_restart_refuted",
    "c30_no_crash"
   ],
   "note": "False of the code: after removing the only record m_last_mblk_id is the super block, the next add dereferences a null pointer, a restart fails the assertion at meta_blk_service.cpp:161."
  },
  {
   "property": "C32",
   "status": "proved",
   "theorems": [
    "c32_waits",
    "c32_once",
    "c32_waiting_for",
    "c32_all_done",
    "c32_at_once",
    "c32_no_underflow"
   ],
   "note": "Steps are single calls on one hash-map key (each locks its bucket); reads and frees interleave freely. The granularity is a record of eight blocks, so a free also waits for reads of neighbours in the same group (neighbour_waits). A read issued after the free was asked for is not waited for (late_read)."
  },
  {
   "property": "C33",
   "status": "proved",
   "theorems": [
    "c33_write",
    "c33_write_else",
    "c33_read",
    "c33_round_trip",
    "c33_reports"
   ],
   "note": "Drives are maps from offsets to bytes; the requests of any number of calls finish in any order. Pieces lie in chunks that are there, no block twice, and the buffers are as long as the id. sisl::sg_iterator is modelled from its contract (not in the repository)."
  },
  {
   "property": "C34",
   "status": "partial",
   "theorems": [
    "c34_exact",
    "c34_refuted",
    "c34_overwrites_refuted"
   ],
   "note": "Exact below 65536 blocks; refuted above: 65537 blocks asked, one given with success, and async_alloc_write writes all bytes over the blocks behind it."
  },
  {
   "property": "C67",
   "status": "partial",
   "theorems": [
    "c67_vector_wrap_refuted",
    "c33_write"
   ],
   "note": "Holds when every id has fewer than 65536 blocks (c33_write with CVec); refuted beyond."
  },
  {
   "property": "C40",
   "status": "proved",
   "theorems": [
    "c40_search",
    "c40_match_range",
    "c40_leaf_find",
    "c40_leaf_remove",
    "c40_leaf_put",
    "c40_leaf_multi_get",
    "c40_leaf_multi_remove",
    "c40_leaf_multi_put"
   ],
   "note": "Search, range matching and the operations on the entries of one leaf, for every sorted entry list."
  },
  {
   "property": "C35",
   "status": "proved",
   "theorems": [
    "c35_map",
    "c35_map_fixed",
    "c35_merge_ends"
   ],
   "note": "Put, get and remove of one key with all splits, merges and root changes, single thread, no read failures. c35_map: entries of any sizes, whenever the operations end (c69-c71 show when they do not). c35_map_fixed: entries of fixed sizes always end and answer like the map; c35_merge_ends: its size condition holds with the default percentages and four entries to a node."
  },
  {
   "property": "C69",
   "status": "partial",
   "theorems": [
    "c69_remove_ends_partial",
    "c69_remove_ends_refuted"
   ],
   "note": "Holds for fixed sizes with four or more entries to a node. Does not hold for three: with 3950 bytes of data and entries of 1000 the copy loop of merge_nodes goes on for ever."
  },
  {
   "property": "C70",
   "status": "partial",
   "theorems": [
    "c70_put_returns_partial",
    "c70_put_returns_refuted"
   ],
   "note": "Holds for fixed sizes. With variable sizes a put may stop in the release assert of insert (parent asked for room once, two splits) or of split_node (entries of more than half a node)."
  },
  {
   "property": "C71",
   "status": "partial",
   "theorems": [
    "c71_remove_room_refuted",
    "c69_remove_ends_partial"
   ],
   "note": "Holds for fixed sizes (the removal returns). With variable-size keys the check asks for (n-1) keys of room where n are entered and the release assert of insert fails."
  },
  {
   "property": "C36",
   "status": "proved",
   "theorems": [
    "c36_query"
   ],
   "note": "Sweep and traversal, one page or the cursor followed to the end, on every tree a history of operations can build; single thread."
  },
  {
   "property": "C37",
   "status": "partial",
   "theorems": [
    "c37_leaf_unlimited_partial",
    "c37_leaf_page_refuted",
    "c37_query_filter_partial",
    "c37_query_page_refuted"
   ],
   "note": "Exact without a page limit, in one leaf and on trees; with one, accepted entries are left out (refuted for both)."
  },
  {
   "property": "C38",
   "status": "partial",
   "theorems": [
    "c40_leaf_multi_remove",
    "c40_leaf_multi_put",
    "c38_leaf_filter_refuted",
    "c38_leaf_filter_outside_refuted",
    "c38_update_refuted",
    "c38_update_status_refuted"
   ],
   "note": "Range removal holds (C73) and so does a range update that answers success (C74). Refuted: a leaf of the range without a key in it ends the update with not_found, the rest left as it was; a filter that asks for removal skips keys."
  },
  {
   "property": "C39",
   "status": "partial",
   "theorems": [
    "c39_leaf_any_partial",
    "c39_leaf_any_refuted",
    "c39_leaf_right_refuted",
    "c39_leaf_mid_refuted",
    "c39_get_any_refuted",
    "c39_remove_any_refuted",
    "c39_get_any_start_partial"
   ],
   "note": "In one leaf: right for the options any and left most when the range does not end just before a key; on a tree get_any finds the start key if it is there. Refuted otherwise: get_any looks at one leaf only, remove_any follows child (end - start) / 2."
  },
  {
   "property": "C72",
   "status": "partial",
   "theorems": [
    "c72_default_key_refuted",
    "c72_traversal_partial"
   ],
   "note": "Refuted for the sweep query; holds for the traversal query."
  },
  {
   "property": "C73",
   "status": "proved",
   "theorems": [
    "c73_range_remove",
    "c73_range_remove_last"
   ],
   "note": "Whenever the operations end (sizes as in C69 to C71); single thread, no read failures."
  },
  {
   "property": "C74",
   "status": "proved",
   "theorems": [
    "c74_range_update"
   ],
   "note": "Whenever the operations end; single thread, no read failures. C38 has the cases that answer not_found."
  },
  {
   "property": "C41",
   "status": "proved",
   "theorems": [
    "c41_entries",
    "c41_insert_room",
    "c41_has_room"
   ],
   "note": "Data area smaller than 16384 bytes (C75 has the other case). Operations that the release assert of insert would stop are outside; c41_insert_room says exactly when that is."
  },
  {
   "property": "C75",
   "status": "partial",
   "theorems": [
    "c75_large_node_refuted"
   ],
   "note": "Refuted for a node of 32 KiB; c41_entries is the case of data areas smaller than 16 KiB."
  },
  {
   "property": "C76",
   "status": "partial",
   "theorems": [
    "c76_moved_refuted",
    "c76_moved_partial"
   ],
   "note": "Refuted when everything is moved; holds when something stays."
  },
  {
   "property": "C42",
   "status": "proved",
   "theorems": [
    "c42_prefix_node_holds_entries",
    "c42_prefix_counts"
   ],
   "note": "Leaf nodes; keys and values are cut by given functions that can be undone; searching is the position among sorted keys (C40); the two areas are lists with an explicit outcome for meeting. Move is into a new node, as the B-tree does it."
  },
  {
   "property": "C77",
   "status": "partial",
   "theorems": [
    "c77_remove_range_refuted"
   ],
   "note": "False of the code: refuted."
  },
  {
   "property": "C78",
   "status": "partial",
   "theorems": [
    "c78_update_refuted"
   ],
   "note": "False of the code: refuted. C42 proves that this assertion is the only way an update fails."
  },
  {
   "property": "C79",
   "status": "partial",
   "theorems": [
    "c79_update_gap_refuted"
   ],
   "note": "False of the code: refuted; C42 proves the case where all keys of the range exist."
  },
  {
   "property": "C80",
   "status": "partial",
   "theorems": [
    "c80_copy_refuted"
   ],
   "note": "False of the code: refuted; C42 proves it when entries times prefix and suffix size fit in the available size."
  },
  {
   "property": "C81",
   "status": "partial",
   "theorems": [
    "c81_bitset_refuted"
   ],
   "note": "False of the code: refuted; C42 has enough bits as a condition on the sizes, shown to hold for the sizes of the tests."
  },
  {
   "property": "C82",
   "status": "partial",
   "theorems": [
    "c82_carry_refuted"
   ],
   "note": "False of the code: refuted; C42 proves the case where shifting keeps the prefix of the value."
  },
  {
   "property": "C43",
   "status": "proved",
   "theorems": [
    "c43_children_first_each_once",
    "c43_transaction_order"
   ],
   "note": "For every legal sequence of node writes, splits, merges and root changes of a checkpoint, every order of the dirty list and every completion order with one flush fiber: a buffer's write begins only after every buffer linked below it is done, no buffer is issued twice, and when nothing is left to do every dirty buffer has been written and the end was reported exactly once (never before). The next checkpoint may reuse clean buffers meanwhile. c43_transaction_order states what the links mean for the tree: new siblings before the left node, the left node before its parent. Requires that a root named to the meta buffer is also written (C84 is the case where it is not) and one flush fiber (C85)."
  },
  {
   "property": "C44",
   "status": "proved",
   "theorems": [
    "c44_links_acyclic"
   ],
   "note": "After every legal sequence: no dereference of a null up buffer, climbing from any buffer ends, and the wait count of each buffer is the number of buffers linked to it."
  },
  {
   "property": "C83",
   "status": "partial",
   "theorems": [
    "c83_root_before_meta_partial",
    "c83_root_before_meta_refuted"
   ],
   "note": "False in general: a merge and the root collapse it causes in one checkpoint leave the new root linked below the old root, so the superblock can be written first; shown by a concrete flush. Proved when no earlier operation of the checkpoint placed the new root and it is not merged away later."
  },
  {
   "property": "C84",
   "status": "partial",
   "theorems": [
    "c84_flush_ends_refuted"
   ],
   "note": "False: a root split that fails for lack of space leaves the meta buffer waiting for nodes that are never dirtied; the flush is stuck with its end not reported."
  },
  {
   "property": "C85",
   "status": "partial",
   "theorems": [
    "c85_several_fibers_refuted"
   ],
   "note": "False for two flush fibers: a buffer is issued twice and the end of the flush is reported while a dirty buffer is not written."
  },
  {
   "property": "C86",
   "status": "partial",
   "theorems": [
    "c86_superblock_root_on_disk_partial",
    "c86_superblock_root_on_disk_refuted"
   ],
   "note": "False: the superblock written at the end of a flush names the root of the next checkpoint when that checkpoint changed the root meanwhile. Proved when no root change happens during a flush."
  },
  {
   "property": "C45",
   "status": "proved",
   "theorems": [
    "c45_journal_roundtrip"
   ],
   "note": "Txn*.v: the journal of one checkpoint as bytes, any list of transactions with at most 255 nodes each; the 8-bit counters limit is shown by c45_limit."
  },
  {
   "property": "C46",
   "status": "proved",
   "theorems": [
    "c46_raft_log"
   ],
   "note": "RaftLog*.v: refinement of a list for every legal sequence of calls including restarts; nuraft's buffers are abstract entries with a term."
  },
  {
   "property": "C47",
   "status": "partial",
   "theorems": [
    "c47_pack_partial",
    "c47_gap_refuted",
    "c47_overlap_refuted"
   ],
   "note": "Proved when the target ends exactly before the index; false when it ends earlier or later."
  },
  {
   "property": "C87",
   "status": "partial",
   "theorems": [
    "c87_slice_refuted"
   ],
   "note": "False in the model: a partly unavailable range gives a shorter result without error."
  },
  {
   "property": "C88",
   "status": "partial",
   "theorems": [
    "c88_overwrite_refuted"
   ],
   "note": "False in the model: rollback over unflushed entries fails its release assertion. The flushed case is part of c46_raft_log."
  },
  {
   "property": "C89",
   "status": "partial",
   "theorems": [
    "c89_compacted_refuted"
   ],
   "note": "False in the model: the cache answers for compacted indices."
  },
  {
   "property": "C48",
   "status": "proved",
   "theorems": [
    "c48_solo_entry",
    "c48_solo_inlined",
    "c48_raft_entry",
    "c48_raft_no_data"
   ],
   "note": "ReplEntry*.v: the entry as bytes, both decoders. The cases outside the stated conditions are C91 and C95."
  },
  {
   "property": "C49",
   "status": "partial",
   "theorems": [
    "c49_replay_partial",
    "c49_first_refuted",
    "c49_window_refuted",
    "c49_order_refuted"
   ],
   "note": "Replay*.v. Proved for all writes but the first when no commit overlaps a checkpoint; each of the three conditions is shown necessary."
  },
  {
   "property": "C50",
   "status": "proved",
   "theorems": [
    "c50_accepted_once"
   ],
   "note": "ReplData*.v: any number of deliveries and error handlers, every interleaving of their atomic steps including weak exchange failures. The committed-data path is C97."
  },
  {
   "property": "C90",
   "status": "partial",
   "theorems": [
    "c90_localize_partial",
    "c90_longer_refuted",
    "c90_shorter_refuted"
   ],
   "note": "Proved when both ids have the same number of pieces; false otherwise."
  },
  {
   "property": "C91",
   "status": "partial",
   "theorems": [
    "c91_overrun_refuted",
    "c91_wrong_refuted"
   ],
   "note": "False in the model: the second id is read as piece count and pieces of the first."
  },
  {
   "property": "C92",
   "status": "proved",
   "theorems": [
    "c92_raft_replay"
   ],
   "note": "Replay*.v: all interleavings and any number of crashes. Effects of a checkpoint become durable together."
  },
  {
   "property": "C93",
   "status": "partial",
   "theorems": [
    "c93_position_partial",
    "c93_position_refuted"
   ],
   "note": "False when a checkpoint is sealed between the load and the store of the position; proved otherwise."
  },
  {
   "property": "C94",
   "status": "proved",
   "theorems": [
    "c94_compaction",
    "c94_compaction_progress"
   ],
   "note": ""
  },
  {
   "property": "C95",
   "status": "partial",
   "theorems": [
    "c95_pieces_refuted",
    "c95_overrun_refuted"
   ],
   "note": "False in the model for two and three pieces; c48_solo_entry is the one-piece case."
  },
  {
   "property": "C96",
   "status": "partial",
   "theorems": [
    "c96_late_refuted"
   ],
   "note": "False in the model: the error path frees the blocks of a request that can still accept data."
  },
  {
   "property": "C97",
   "status": "partial",
   "theorems": [
    "c97_committed_partial",
    "c97_committed_refuted"
   ],
   "note": "False in the code's order of steps; proved when deliveries wait for the allocating thread."
  },
  {
   "property": "C98",
   "status": "proved",
   "theorems": [
    "c98_links_rebuilt",
    "c98_below_on_disk"
   ],
   "note": "Journal recovery of one index table; the journal's byte format is C45."
  },
  {
   "property": "C99",
   "status": "partial",
   "theorems": [
    "c99_links_after_root_change_refuted"
   ],
   "note": "False in the model: after a merge that leaves one child and the collapse of the root the child is recovered below the meta buffer, which never waited for it. c98_links_rebuilt is the case without such a root change."
  },
  {
   "property": "C100",
   "status": "proved",
   "theorems": [
    "c100_repair",
    "c100_search"
   ],
   "note": "Nodes of at most a fixed number of entries; reads of existing nodes do not fail; enough free blocks (C102)."
  },
  {
   "property": "C101",
   "status": "proved",
   "theorems": [
    "c101_repair"
   ],
   "note": "The last child is live and not empty (C103 otherwise); enough free blocks (C102)."
  },
  {
   "property": "C102",
   "status": "partial",
   "theorems": [
    "c102_no_space_refuted",
    "c102_no_space_partial"
   ],
   "note": "False in the model above level 1 and for the root: reading the last child overwrites the failure and the node is written without its remaining children. c102_no_space_partial: at level 1, below the root, a repair without space leaves all nodes as they were."
  },
  {
   "property": "C103",
   "status": "partial",
   "theorems": [
    "c103_trailing_deleted_refuted"
   ],
   "note": "False in the model: the node added before the deleted child stays empty, and the repair above stops at it. c100_repair and c101_repair cover chains that end with a live child."
  },
  {
   "property": "C104",
   "status": "proved",
   "theorems": [
    "c104_leaves_after_crash"
   ],
   "note": "Any one level; the links from the level above are repaired as in C100 and C101. A node write is atomic, one flush fiber, no root change that turns a new node of the level into the root."
  },
  {
   "property": "C105",
   "status": "proved",
   "theorems": [
    "c105_recovery_walk"
   ],
   "note": "The nodes repaired are events here; what a repair does is C100 to C103. Excludes a CP in which the tree loses its root and gets a new one on the same level. For nodes right below the superblock (new roots) the blocks freed and kept are not stated: see C107."
  },
  {
   "property": "C107",
   "status": "partial",
   "theorems": [
    "c107_double_free_refuted",
    "c107_root_free_refuted",
    "c107_leak_refuted"
   ],
   "note": "False: a node made and freed in one CP whose bit was not stored is freed twice and handed out twice; a new root named by the stored superblock is free after recovery; a dropped node whose bit was stored is never freed. What holds is C106."
  },
  {
   "property": "C106",
   "status": "proved",
   "theorems": [
    "c106_blocks_after_crash",
    "c106_whole_recovery"
   ],
   "note": "Conditions on the stored bitmap as in the statement; C107 shows that they are needed. The blocks freed are those of the second pass of the recovery; those freed while links are taken out of an interior node that is taken back are C109 (c109_frees_partial: there are none unless such a node has a deleted child)."
  },
  {
   "property": "C108",
   "status": "proved",
   "theorems": [
    "c108_stale_links"
   ],
   "note": "One node; the order in which nodes are treated is in the model of the whole recovery (recover)."
  },
  {
   "property": "C109",
   "status": "partial",
   "theorems": [
    "c109_double_free_refuted",
    "c109_frees_partial"
   ],
   "note": "False: a leaf merged away below an interior node that is itself merged away in the same CP is freed twice when its merge is on disk and the other is not. Holds if no interior node that is taken back has a deleted child."
  },
  {
   "property": "C110",
   "status": "partial",
   "theorems": [
    "c110_leaf_root_refuted",
    "c110_superblock_refuted"
   ],
   "note": "False: after the split of a root that is a leaf, with both halves on disk and the superblock not, the keys of the right half are gone; and a repair that has to split the root enters the old root in the superblock, so that keys are gone after the next start. C104, C100 and C101 are what holds for the leaves and for single interior nodes."
  },
  {
   "property": "C111",
   "status": "partial",
   "theorems": [
    "c111_root_split_refuted"
   ],
   "note": "False: after the split of an interior root, with both halves on disk and the superblock not, the recovery fails its own sanity check and aborts; and fails an assertion at every start after that."
  },
  {
   "property": "C112",
   "status": "proved",
   "theorems": [
    "c112_entries",
    "c112_insert_room"
   ],
   "note": "Byte level: every memmove and memcpy on the data area. Arguments that point into the node itself and the test-only key limits are not modelled."
  },
  {
   "property": "C113",
   "status": "proved",
   "theorems": [
    "c113_stages",
    "c113_completes",
    "c113_other_refused"
   ],
   "note": "The completing start uses a custom quorum of at least one, so that the safety check of C114 does not apply; what raft does with a proposal is an oracle."
  },
  {
   "property": "C114",
   "status": "proved",
   "theorems": [
    "c114_majority"
   ],
   "note": "Members keep up as get_active_peers defines it."
  },
  {
   "property": "C115",
   "status": "partial",
   "theorems": [
    "c115_learner_counted_refuted",
    "c115_retry_refuted"
   ],
   "note": "False: learners that keep up count as active members while the quorum counts voters only; and on a second attempt in a group of even size the old member no longer votes, so the count does not provide for the new voter. C114 is the part that holds."
  },
  {
   "property": "C116",
   "status": "partial",
   "theorems": [
    "c116_restored_partial",
    "c116_done_refuted",
    "c116_flip_refuted",
    "c116_follower_refuted"
   ],
   "note": "Holds for complete, remove, clean, the periodic check, and start on a leader that still has the old member. False for a start that finds the exchange already done, for a flip that succeeds, and (on purpose, as a comment says) for a start on a follower."
  },
  {
   "property": "C117",
   "status": "partial",
   "theorems": [
    "c117_flip_partial",
    "c117_clear_refuted"
   ],
   "note": "Holds when the flag is set or verification is off. False for clearing: the verification waits for the flag to be set whatever the target, so it always reports RETRY_REQUEST."
  },
  {
   "property": "C118",
   "status": "partial",
   "theorems": [
    "c118_removal_partial",
    "c118_up_to_date_refuted"
   ],
   "note": "The check compares with the old member only: with a dead old member the new one may have nothing."
  },
  {
   "property": "C119",
   "status": "partial",
   "theorems": [
    "c119_id_partial",
    "c119_long_refuted"
   ],
   "note": "Holds for ids of at most 63 characters; longer ones are cut when recorded, so the same id is then a mismatch."
  },
  {
   "property": "C120",
   "status": "proved",
   "theorems": [
    "c120_linearizable"
   ],
   "note": "Point operations; not range operations and queries, failing reads and writes, or cp mismatch retries."
  },
  {
   "property": "C121",
   "status": "proved",
   "theorems": [
    "c121_no_deadlock"
   ],
   "note": "Some thread can always go on; that a particular one gets through (no livelock) is not claimed."
  },
  {
   "property": "C122",
   "status": "proved",
   "theorems": [
    "c122_exclusive"
   ],
   "note": ""
  },
  {
   "property": "C123",
   "status": "proved",
   "theorems": [
    "c123_data_arrives",
    "c123_batches",
    "c123_answer",
    "c123_fetch"
   ],
   "note": ""
  },
  {
   "property": "C124",
   "status": "partial",
   "theorems": [
    "c124_allocated_always_asked",
    "c124_only_needed_refuted",
    "c124_given_up_untouched_refuted"
   ],
   "note": "false: the state is compared as a whole with ERRORED and DATA_RECEIVED, so a request that has blocks is never skipped, and late data is written to blocks that were given back"
  },
  {
   "property": "C125",
   "status": "proved",
   "theorems": [
    "c125_alloc",
    "c125_fails_only_if_all_refuse",
    "c125_append",
    "c125_varsize"
   ],
   "note": ""
  },
  {
   "property": "C126",
   "status": "partial",
   "theorems": [
    "c126_contiguous_or_partial_safe",
    "c126_scattered_aborts_refuted",
    "c126_scattered_frees_others_refuted"
   ],
   "note": "false for scattered requests that must be answered in full, the default: a chunk that fails leaves pieces in the id, so the next chunk either trips a release assert or frees the same block numbers of its own"
  },
  {
   "property": "C127",
   "status": "proved",
   "theorems": [
    "c127_vector"
   ],
   "note": ""
  },
  {
   "property": "C68",
   "status": "partial",
   "theorems": [
    "c68_success",
    "c68_failure_leaves_one_out",
    "c68_empty_refuted",
    "c68_lost_refuted",
    "c68_chunks_refuted",
    "c68_chunks_empty_refuted"
   ],
   "note": "On success everything taken is in the vector, also over several chunks with any allocator that keeps its contract; refuted on failure, where what is missing from the vector is bounded."
  },
  {
   "property": "C128",
   "status": "proved",
   "theorems": [
    "c128_sized",
    "c128_by_number",
    "c128_by_chunk_size"
   ],
   "note": ""
  },
  {
   "property": "C129",
   "status": "partial",
   "theorems": [
    "c129_crash_refuted",
    "c129_small_refuted",
    "c129_large_refuted"
   ],
   "note": "Refuted: the 32-bit product of chunks and block size wraps to 0, a request smaller than a chunk gives 0 chunks, and a chunk size of 4 GiB or more is cut to 32 bits. C128 gives conditions under which it holds."
  },
  {
   "property": "C130",
   "status": "proved",
   "theorems": [
    "c130_no_more",
    "c130_no_less"
   ],
   "note": ""
  },
  {
   "property": "C131",
   "status": "proved",
   "theorems": [
    "c131_requests",
    "c131_nothing_left"
   ],
   "note": ""
  },
  {
   "property": "C132",
   "status": "partial",
   "theorems": [
    "c132_gc_refuted"
   ],
   "note": "Refuted: the guard is LOG_FLUSHED, but a request is in the log before it is flushed. C131 holds if such a request is not seen as expired."
  },
  {
   "property": "C133",
   "status": "proved",
   "theorems": [
    "c133_destroy",
    "c133_children_first",
    "c133_count",
    "c133_count_reached"
   ],
   "note": ""
  },
  {
   "property": "C134",
   "status": "partial",
   "theorems": [
    "c134_leak_refuted",
    "c134_retry_refuted",
    "c134_root_refuted"
   ],
   "note": "Refuted: the result of the traversal of a child is overwritten; the result of reading the root is dropped; nodes freed before a failure are still linked. C133 is the case without failures."
  },
  {
   "property": "C135",
   "status": "proved",
   "theorems": [
    "c135_resync_replay",
    "c135_resync_compaction",
    "c135_resync_done",
    "c135_resync_once"
   ],
   "note": "Assumed of the raft library: it asks again for a snapshot under way after a crash, commits nothing beyond it meanwhile and pauses commits while it compacts; a snapshot is no older than one received before."
  },
  {
   "property": "C136",
   "status": "proved",
   "theorems": [
    "c136_metadata",
    "c136_new_id"
   ],
   "note": "Assumed: a superblock write is atomic, sisl's IDReserver hands out the lowest free id."
  },
  {
   "property": "C137",
   "status": "partial",
   "theorems": [
    "c137_create_refuted",
    "c137_destroy_refuted",
    "c137_whole_partial"
   ],
   "note": "Refuted: a crash between the writes of the two superblocks of create, or between the removals of destroy, leaves the device's superblock without the one of the rollback records, and every later start dereferences null. Proved if both writes are done or neither."
  },
  {
   "property": "C138",
   "status": "proved",
   "theorems": [
    "c138_starts",
    "c138_no_leak",
    "c138_ids",
    "c138_no_crash"
   ],
   "note": "The two superblocks of a log device count as one write here (C137); calls for the same group do not overlap; a group is not collected before its leave() returned (C140)."
  },
  {
   "property": "C139",
   "status": "partial",
   "theorems": [
    "c139_told_partial",
    "c139_told_refuted"
   ],
   "note": "Refuted: after a crash between leave() and the garbage collection the next start drops the group without calling on_destroy. Proved without crashes."
  },
  {
   "property": "C140",
   "status": "partial",
   "theorems": [
    "c140_whole_partial",
    "c140_torn_refuted",
    "c140_early_refuted"
   ],
   "note": "Refuted: a crash between the two superblock writes of a creation leaves a group without listener, whose raft state is saved under a name nobody reads; a collection between the stage change and the time stamp of leave() can lose the log device while the group is still marked as living. Proved if neither happens."
  },
  {
   "property": "C141",
   "status": "proved",
   "theorems": [
    "c141_comes_up",
    "c141_memory",
    "c141_keeps",
    "c141_twice"
   ],
   "note": "Over histories in which all drives in use are listed, those of the first start first, and in which no crash falls between the commits of the first start (C142, C143 cover the rest). Superblock writes are atomic; sizes and limits of counts are left out."
  },
  {
   "property": "C142",
   "status": "partial",
   "theorems": [
    "c142_first_partial",
    "c142_torn_refuted"
   ],
   "note": "Proved for crashes before the first drive is committed and after the last one is. Refuted in between: the drives not yet committed are formatted again, so the virtual device of a fast drive is gone, and the next start comes up without it."
  },
  {
   "property": "C143",
   "status": "partial",
   "theorems": [
    "c143_listed_partial",
    "c143_order_refuted",
    "c143_missing_refuted",
    "c143_ids_refuted"
   ],
   "note": "Proved when all drives in use are listed, those of the first start first. Refuted otherwise: virtual devices are read from the first drive of each type only, and dynamic ones are not written on drives added later; a chunk made while a drive is missing takes an id that the drive holds; drives added while others are missing get the same id, and a start with both uses a destroyed PhysicalDev."
  },
  {
   "property": "C144",
   "status": "partial",
   "theorems": [
    "c144_count_partial",
    "c144_false_alarm_refuted",
    "c144_no_alarm_refuted"
   ],
   "note": "What holds is that the flag compares the number of listed drives with that of the first start. Since num_pdevs is never updated, it is set for ever once a drive was added, and not set when a drive is replaced by a new one."
  },
  {
   "property": "C145",
   "status": "proved",
   "theorems": [
    "c145_counts",
    "c145_stop_ends"
   ],
   "note": "For the paths listed in StopSpec.tidy, nested and one after the other. Locks are not modelled: that calls under way run on is assumed."
  },
  {
   "property": "C146",
   "status": "partial",
   "theorems": [
    "c146_leak_refuted"
   ],
   "note": "Refuted for five paths: destroy_log_dev and remove_log_store of an unknown log device, LogDev::read when the device read fails, write_and_flush with fault containment on a thread that may not block, SoloReplDev::async_write with buffers of another size. After any of them no continuation lets stop() of that component end. The other paths are C145."
  },
  {
   "property": "C147",
   "status": "partial",
   "theorems": [
    "c147_count_first_partial",
    "c147_calm_partial",
    "c147_race_refuted",
    "c147_early_refuted",
    "c147_late_refuted"
   ],
   "note": "Proved for calls that count before they look at the flag (gc_repl_devs), and for calls that look first when none stands between look and count as stop() sets the flag. Refuted: the window between look and count; single-piece reads and writes and flush_if_necessary give the count back before the work; callbacks of reads come after it."
  },
  {
   "property": "C148",
   "status": "partial",
   "theorems": [
    "c148_returned_partial",
    "c148_store_refuted",
    "c148_device_refuted"
   ],
   "note": "Proved as long as nothing is being stopped. Refuted when stop() of the store falls between the two checks, and whenever the log device is stopping while its store is not: append_async does not look at what write_async returns."
  },
  {
   "property": "C149",
   "status": "proved",
   "theorems": [
    "c149_flush_is_end_of_cp",
    "c149_disk_between_cps",
    "c149_in_flight_stable",
    "c149_flush_goes_on"
   ],
   "note": "The evictor (sisl) is not in the repository; the two rules it has to keep are explicit guards of the runs. The order in which buffers of a CP are flushed is free here; see C43 for it."
  },
  {
   "property": "C150",
   "status": "proved",
   "theorems": [
    "c150_read_latest",
    "c150_read_after_miss",
    "c150_one_writer",
    "c150_cp_order"
   ],
   "note": "Same preconditions as C149."
  },
  {
   "property": "C151",
   "status": "partial",
   "theorems": [
    "c151_stale_read_refuted",
    "c151_two_writers_refuted"
   ],
   "note": "False of the model: the callback looks only at the node's own buffer, which is clean right after get_writable_buf has copied a dirty one, so a node can be dropped and read back stale before the original is flushed; and it does not know whether a thread holds the node. Each refutation breaks one of the two rules of C149 and keeps the other. Whether the evictor in sisl protects nodes in use cannot be seen from the repository."
  },
  {
   "property": "C152",
   "status": "proved",
   "theorems": [
    "c152_lookup",
    "c152_distinct",
    "c152_restart",
    "c152_no_fault"
   ],
   "note": "For callers that keep the stated order; sisl::IDReserver is a set that gives a free number."
  },
  {
   "property": "C153",
   "status": "partial",
   "theorems": [
    "c153_given_ordinal_refuted",
    "c153_reuse_refuted",
    "c153_destroy_first_refuted"
   ],
   "note": "False of the model in three ways: a given ordinal in use is only logged, after which removing the new table makes the old one unreachable by ordinal; remove gives the ordinal back before destroy drops the superblock, so that a crash in between leaves two superblocks with one ordinal; destroy first makes remove and used_size read through a null superblock pointer. C152 is the part that holds."
  },
  {
   "property": "C154",
   "status": "partial",
   "theorems": [
    "c154_used_size_small",
    "c154_used_size_refuted"
   ],
   "note": "Proved below 2^31 bytes. Refuted from there on, since the sum is kept in an int. In the code as it is the size of each table is a field of the superblock that nothing updates, so the sum is 0; the model takes any sizes."
  },
  {
   "property": "C155",
   "status": "proved",
   "theorems": [
    "c155_state_survives",
    "c155_one_vote",
    "c155_term_kept",
    "c155_upgrade"
   ],
   "note": "The bytes of a state are a codec with dec (enc s) = Some s and enc s not empty, given by nuraft; an instance is in the Examples."
  },
  {
   "property": "C156",
   "status": "proved",
   "theorems": [
    "c156_config_survives",
    "c156_config_after_boot"
   ],
   "note": "Null pointers in the list of servers are left out, as in the code. Fields of nuraft's types that the code does not save are not in the model."
  },
  {
   "property": "C157",
   "status": "partial",
   "theorems": [
    "c157_unreadable_refuted",
    "c157_legacy_refuted",
    "c157_rollback_refuted"
   ],
   "note": "False of the model: bytes that nuraft cannot read are logged and the default state (term 0, no vote) is used, so a vote can be given twice in a term; a field missing in the older format raises an exception that the handler (std::out_of_range) does not catch, and the replica does not come up; a state saved by a release with the older format after a rollback is ignored in favour of the stale one on upgrade. C155 is the part that holds."
  },
  {
   "property": "C158",
   "status": "proved",
   "theorems": [
    "c158_quiet",
    "c158_complete",
    "c158_accepts",
    "c158_returns"
   ],
   "note": "Proved for sequential consistency, and for store buffers with a fence between the store and the load; see C159 for the code as it is."
  },
  {
   "property": "C159",
   "status": "partial",
   "theorems": [
    "c159_release_refuted",
    "c159_two_refuted"
   ],
   "note": "False of the model: with store buffers (x86, release store and acquire load) the count is looked at before others see the flag, and quiesce_reqs returns while a request allocates; the flag has no count, so the resume of one caller ends the quiet of another. C158 is the part that holds."
  },
  {
   "property": "C160",
   "status": "proved",
   "theorems": [
    "c160_ready",
    "c160_no_abort",
    "c160_opens"
   ],
   "note": "Assumed of NuRaft: it does nothing else while it calls back; a leader's log only grows; committed entries are not cut."
  },
  {
   "property": "C161",
   "status": "partial",
   "theorems": [
    "c161_window_refuted",
    "c161_follower_refuted"
   ],
   "note": "False of the model: the gate of a follower is 0, so between the election and the call back a replica says it is leader and ready; NuRaft (not in the repository) is taken to set its role before it calls back."
  },
  {
   "property": "C162",
   "status": "proved",
   "theorems": [
    "c162_no_abort",
    "c162_resumes"
   ],
   "note": "The listener is not in the repository; what it does is taken from the comment at raft_repl_dev.cpp:2374-2390. Requests that expire or time out are in C131, C132."
  },
  {
   "property": "C163",
   "status": "partial",
   "theorems": [
    "c163_rollback_refuted",
    "c163_lead_refuted"
   ],
   "note": "False of the model: handle_rollback and become_leader lift the latch while the listener is not done; the entry that was to be kept out is accepted, its request cleared, and the process aborts when the entry is written. C162 is the part that holds."
  },
  {
   "property": "C164",
   "status": "proved",
   "theorems": [
    "c164_count",
    "c164_zero",
    "c164_triggers",
    "c164_flushes",
    "c164_whole"
   ],
   "note": "Only flushes of the index; recovery and shutdown are left out; a switch of checkpoints is one step."
  },
  {
   "property": "C165",
   "status": "partial",
   "theorems": [
    "c165_bound_refuted",
    "c165_forgotten_refuted"
   ],
   "note": "False of the model: a write over the limit during a flush asks for a flush without force, is refused and goes on, so there is no bound; and the flush ends with the count over the limit and none in progress until the next write or the timer. C164 is the part that holds."
  }
 ]
}