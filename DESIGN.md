# HomeStore formal model: design

The subject is the C++ source of HomeStore in `/repo` (read as text, never built or changed).
The model is written in Rocq/Coq 8.16.1 under `rocq/theories`.
Each subsystem has up to four files:

- `*Model.v`: executable definitions, each with a comment citing the C++ file and lines it models and naming every simplification.
- `*Proofs.v`: lemmas.
- `*Properties.v`: the property theorems only.  The specification each theorem uses is a small definition written independently of the model, in `*Spec.v` or at the top of the properties file.  Every theorem is followed by `Print Assumptions`, with an `Example` showing a concrete case that meets its hypotheses.

Names: `cNN_*` are theorems for property CNN.  `*_partial` means that part of the English claim is missing (the note in `MANIFEST.json` says which part).  `*_refuted` means that the model of the code violates the claim and gives a concrete witness.

## Trusted base

- Coq's kernel (including `vm_compute`), `coqc` 8.16.1.
- The assumptions listed by `Print Assumptions` under each theorem: "Closed under the global context" for every one of them.  The kernel checker also lists seven axioms `Coq.ssr.ssrunder.Under_rel.*`; they belong to a module of Coq's own standard library that `Require`s of the library load, and no theorem here depends on them.
- The hand translation from C++ to Gallina.  There is no mechanised link to the C++ text; each definition cites its lines so that it can be compared by eye.
- Integers are unbounded `N`/`Z`/`nat` except where a property is about a width; there the model truncates explicitly.
- Memory, allocation, iomgr, folly, sisl containers, NuRaft, nuraft_mesg and the kernel's block layer are not modelled.  Where their behaviour matters (for example "a block write is atomic") the assumption is stated with the property.
- Concurrency is modelled as interleaving of atomic steps (sequential consistency; `Quiesce*` also has store buffers).  Each model says which stretches of code are one step.
- Library code that is not in the repository is taken at its documented behaviour: `sisl::sg_iterator` hands out the bytes of a buffer list in order; `sisl::CompactBitSet` and `sisl::Bitset` are sets of bits; `sisl::StreamTracker` gives the last lsn of the unbroken run of active or completed entries; `sisl::SimpleHashMap` locks one bucket per call; `folly::MPMCQueue` is a bounded FIFO; fulfilling a `folly::Promise` twice throws; RCU waits for readers of the old pointer.
- Checksums and compression are parameters (arbitrary functions); where a property needs more (a torn image fails its checksum; decompression inverts compression) it is a hypothesis of the theorem.

Undefined behaviour and failed release assertions are explicit outcomes of the model, never silently totalised.

## What is modelled

Paths are below `/repo/src`.  "One step" means that other threads see the call as atomic.

| files | source | left out or simplified |
|-------|--------|------------------------|
| `BlkId*` (C01-C04) | `include/homestore/blk.h`, `lib/blkalloc/blk.cpp` | hashing, formatting |
| `Slab*` (C05, C06, C51) | `lib/blkalloc/blk_cache*.{h,cpp}` | metrics; one cache call is one step |
| `Append*` (C07, C08) | `lib/blkalloc/append_blk_allocator.*` | the superblock write is atomic |
| `Fixed*` (C09) | `lib/blkalloc/fixed_blk_allocator.*` | one call is one step |
| `Bitmap*` (C10, C52) | `lib/blkalloc/bitmap_blk_allocator.*` | portion locks; the checkpoint write is two steps |
| `VdevFree*` (C11) | `lib/device/virtual_dev.cpp` free_blk, cp_flush | the chunks are one set of blocks |
| `VdevAlloc*` (C125-C127, C68) | `lib/device/virtual_dev.cpp` 216-341, `round_robin_chunk_selector.cpp`, `blk.cpp` 79-91, over any allocator that keeps a stated contract, with the append and the variable-size allocator as instances | one call at a time; custom chunk selectors, chunk hint, metrics |
| `VdevSize*` (C128-C130) | `lib/device/device_manager.cpp` 341-553 (compose_vparam, calculate_vdev_chunk_num_on_new_pdevs, the loop of create_vdev), 32-bit fields and single precision included | the records on the drives; adding a drive to a device that exists; sisl's rounding is taken to be on 64 bits |
| `BtDestroy*` (C133, C134) | `include/homestore/btree/btree.ipp` 61-80, `detail/btree_common.ipp` 23-77, 88-148, `index_table.hpp` 135-147 | locks; what freeing a node does to the cache |
| `Varsize*` (C12, C53) | `lib/blkalloc/varsize_blk_allocator.*` | session counters of the sweep, segments |
| `Pdev*` (C13, C54), `Layout*` (C14) | `lib/device/physical_dev.cpp`, `device_manager.cpp`, `hs_super_blk.h` | footer mirror, private data; one superblock write is atomic |
| `DevMgr*` (C141-C144) | `lib/device/device_manager.cpp` 67-334, 341-401, 505-718, 776-814, `hs_super_blk.h` 77-163, `homestore.cpp` 114-202, 204-274, 303-310 | superblock writes atomic; chunk counts per drive are an argument; sizes, limits, versions, read failures, mirror superblock left out |
| `Stop*` (C145-C148) | the checks of the stop flag and the counts of pending requests in `blkdata_service.cpp`, `log_store_service.cpp`, `log_dev.cpp`, `log_store.cpp`, `index_service.cpp`, `index_table.hpp`, `solo_repl_dev.cpp`, `raft_repl_service.cpp` (lines in `StopModel.v`) | a call is the list of what it does to flags and counts, its other work one mark; locks, sleeps and exceptions left out |
| `NodeBuf*` (C149-C151) | buffers of index nodes across CPs, node cache, eviction: `wb_cache.cpp` 46-66, 127-198, 829-1055; `index_table.hpp` 296-322, 363-367; `btree_node_mgr.ipp` 57-70, 213-226; `index_cp.cpp` 67-71 | contents are numbers; allocation and freeing of nodes and the order of flushing within a CP are in `Wb*`; the evictor (sisl, not in the repository) is taken to drop any record for which the callback says yes; callers write a changed node before they unlock it |
| `IdxSvc*` (C152-C154) | registry of index tables: `index_service.cpp` 71-108, 126-133, 156-203, 235-242; `index_table.hpp` 63-93, 135-151; `superblk_handler.hpp` 98-105 | a table is its superblock (uuid, ordinal, size) and an identity; calls are atomic; `sisl::IDReserver` is a set that gives a free number; `index_size`, which nothing in the code updates, takes any value |
| `RaftState*` (C155-C157) | raft configuration superblock: `raft_repl_dev.cpp` 2149-2293; `superblk_handler.hpp` 156-201; `raft_repl_service.cpp` 359-363 | json is a datatype and msgpack the identity; a write of the superblock is atomic (C28); the bytes of `srv_state` are a codec given by nuraft; nuraft is taken to save a state before it answers, never to lower the term and never to change a vote within a term; fields of nuraft's types that the code does not save are not in the model |
| `Quiesce*` (C158, C159) | `lib/replication/repl_dev/raft_repl_dev.cpp` 2874-2897, 2935-2951, `raft_repl_dev.h` 522-524, `common.h` 107-131 | a step is one access to the flag or the count; memory order is a parameter: sequentially consistent, store buffers, store buffers with a fence; the requests' counts are atomic read-modify-writes |
| `Gate*` (C160, C161) | `raft_repl_dev.cpp` 2456-2469, 2953-2978, `raft_repl_dev.h` 369-373 | raft's role, log and commits are events; NuRaft is taken to set its role, then call back, and do nothing else meanwhile; the stop flag is in `Stop*` |
| `Latch*` (C162, C163) | `raft_repl_dev.cpp` 1240-1291, 1683-1701, 1997, 2362-2455, 2891-2933, `raft_state_machine.cpp` 56-192, `repl_log_store.cpp` 9-39 | one chunk; all entries have data; a key belongs to one log index; quiescing is immediate (`Quiesce*`); the listener (not in the repository) does what the comment in the code says; requests do not expire (`ReqLife*`) |
| `Dirty*` (C164, C165) | `lib/index/wb_cache.cpp` 127-143, 944-978, `lib/common/resource_mgr.cpp` 97-113, `lib/checkpoint/cp_mgr.cpp` 42-45, 154-186, 197-333 | buffers are counted, not named; every flush is one of the index; a switch of checkpoints is one step; recovery, shutdown and nested guards; the count does not wrap |
| `Topo*` (C31, C55) | `lib/common/homestore_utils.cpp`, `lib/meta/meta_blk_service.cpp` 359-398, 1118-1139 | the walk order of a hash map is a parameter |
| `Journal*` (C15, C16, C56, C57) | `lib/device/journal_vdev.cpp`, chunk pool of `device_manager.cpp` | seek cursor, async append |
| `LogGroup*` (C17, C18, C58, C59) | `lib/logstore/log_group.cpp`, `log_stream.cpp`, formats of `log_dev.hpp` | crc is any byte-wise function |
| `LogDev*` (C19-C24, C60, C61) | `lib/logstore/log_dev.cpp`, `log_store.cpp` | groups are whole (LogGroup); calls under the flush guard are one step |
| `LogMeta*` (C136, C137) | `lib/logstore/log_dev.cpp` 868-1122, `log_dev.hpp` 396-535, `superblk_handler.hpp` 67-130 | sisl::IDReserver hands out the lowest free id; the multimap is a list; a superblock write is atomic |
| `CP*` (C25, C26, C62), `CPGuard*` (C27, C63) | `lib/checkpoint/cp_mgr.cpp`, `cp.hpp` | watchdog, timers, end of shutdown |
| `Meta*` (C28-C30, C64-C66) | `lib/meta/meta_blk_service.cpp`, `meta_sb.hpp` | header encoding; block allocation is an argument; a block write is atomic |
| `ReadTrack*` (C32) | `lib/blkdata_svc/blk_read_tracker.*`, read and free of `blkdata_service.cpp` | hash map buckets |
| `DataSvc*` (C33, C34, C67, C68) | `lib/blkdata_svc/blkdata_service.cpp`, `lib/device/virtual_dev.cpp` | stopping, pending counts |
| `BtNode*` (C40; leaf part of C37-C39) | `include/homestore/btree/detail/btree_node.hpp`, `variant_node.hpp`, `btree_kv.hpp`, `btree_req.hpp` | bytes of a node (VarNode), locks, generations |
| `Btree*` (C35, C69-C71), `BtreeQuery*` (C36, C37, C72), `BtreeRange*` (C38, C39, C73, C74) | `include/homestore/btree/btree.ipp`, `detail/btree_{mutate,remove,get,query}_impl.ipp` | one operation at a time: lock coupling and retries; failing reads and writes |
| `ConcBt*` (C120-C122) | locking of point operations: `btree.ipp` 82-235, `detail/btree_get_impl.ipp` 19-63, `detail/btree_mutate_impl.ipp` 33-290, `detail/btree_remove_impl.ipp` 21-644, `detail/btree_node_mgr.ipp` 52-210 | a step is the code between two lock operations; when and how to split or merge is left open; not: range operations and queries, failing reads and writes, cp mismatch, sibling links, livelock |
| `VarNode*` (C41, C75, C76) | `detail/varlen_node.hpp` | records are a list, writes outside their area are an outcome |
| `FixNode*` (C112) | `detail/simple_node.hpp` | arguments pointing into the node, test-only key limits |
| `PfxNode*` (C42, C77-C82) | `detail/prefix_node.hpp` | leaf nodes only; the two areas are lists |
| `Wb*` (C43, C44, C83-C86) | `lib/index/wb_cache.cpp`, `index_cp.*`, buffer counters of `index_service.cpp`, `index_table.hpp` 296-405 | node contents; one checkpoint is followed |
| `Dag*` (C98, C99) | `lib/index/index_cp.cpp` 232-398, `wb_cache.cpp` 281-316 | the map's iteration order is arbitrary; one index table |
| `Repair*` (C100-C103) | `include/homestore/index/index_table.hpp` 514-1009 | nodes of at most `cap` entries; link versions, locks and read failures left out |
| `LeafCrash*` (C104) | the nodes of one level in `split_node`, `merge_nodes` in `detail/btree_{mutate,remove}_impl.ipp`; first recovery pass of `lib/index/wb_cache.cpp` 552-675, 813-826 | entries as lists; node writes atomic; reads do not fail; one level at a time |
| `Recov*` (C105) | second half of `recover` in `lib/index/wb_cache.cpp` 532-550, 613-675, 714-731, 772-826: counters, `recover_buf`, `prune_up_buffers` | repairs are events here (see `Recover*`); not: a tree that loses its root and gets a new one on the same level in one CP; one table; reads do not fail |
| `RecovBlk*` (C106, C107) | what that does to the allocator: `commit_blk`, `free_blk` in `lib/device/virtual_dev.cpp` over `Fixed*` | one chunk; node = block number |
| `Recover*` (C108-C111) | all of `recover` in `lib/index/wb_cache.cpp` 552-762 with what it does to the nodes: `delete_stale_links`, `repair_node`, `repair_root_node`, `sanity_check` in `include/homestore/index/index_table.hpp`, `validate_node` in `btree_common.ipp` 251-413 | the walk is `Recov*`, the repair of one node `Repair*`; one table; reads do not fail; no fault containment service; link versions, locks and node counts left out |
| `Txn*` (C45) | `lib/index/index_cp.hpp` 34-134, `index_cp.cpp` 28-65, 232-254, 326-398 | compiler layout on x86-64 |
| `RaftLog*` (C46, C47, C87-C89) | `lib/replication/log_store/home_raft_log_store.*` over `log_store.cpp` | records are read back unchanged (LogDev); one caller at a time |
| `Replay*` (C49, C92-C94, C135) | commit, checkpoint, truncation, baseline resync and replay paths of `raft_repl_dev.cpp`, `solo_repl_dev.cpp`, `raft_state_machine.cpp`, `cp_mgr.cpp`, `repl_log_store.cpp` | effects of one checkpoint become durable together; a snapshot is its lsn; assumed of the raft library: it asks again for a snapshot under way after a crash, commits nothing beyond it meanwhile, and pauses commits while it compacts |
| `ReqLife*` (C131, C132) | `lib/replication/repl_dev/raft_repl_dev.cpp` applier_create_req, handle_rollback, handle_commit, handle_error, gc_repl_reqs, clear_chunk_req; `raft_state_machine.cpp` 55-338; `repl_log_store.cpp` 9-95 | each step atomic; proposer's requests, inline data, snapshots, restarts; NuRaft is assumed to roll back before overwriting and to commit flushed entries in order |
| `ReplEntry*` (C48, C90, C91, C95) | `lib/replication/repl_dev/common.cpp`, `common.h`, on_log_found and localize_journal_entry | framing of the raft library |
| `ReplData*` (C50, C96, C97) | `lib/replication/repl_dev/common.cpp`, delivery and error paths of `raft_repl_dev.cpp` | one request; the request map, rpc replies |
| `Fetch*` (C123, C124) | `lib/replication/repl_dev/raft_repl_dev.cpp` 1398-1668, 1178-1215, `common.cpp` 182-229 | rpc, metrics, write errors; a write is done when issued; sizes in blocks |
| `Member*` (C113-C119) | replace-member calls of `lib/replication/repl_dev/raft_repl_dev.cpp` 205-842, 1829-1919, 2019-2136, 2496-2565 | raft itself (its answers are an oracle), listener, stage checks |
| `GrpLife*` (C138-C140) | `lib/replication/service/raft_repl_service.cpp` 70-209, 307-380, 456-497, 603-613, 697-740, `repl_dev/raft_repl_dev.cpp` 31-97, 2210-2247, 2316-2357, `home_raft_log_store.cpp` 87-120, `log_store_service.cpp` 40-66, 107-265 | superblock writes atomic (the two of a log device count as one); one call at a time per group; calls begin after start(); maps are std++ gmaps |

Not modelled: start-up and configuration of services, superblock formats other than those above, drive interface, copy-on-write index buffers on disk, raft consensus itself, the contents of snapshots, garbage collection of replicated devices, metrics, http and logging.

## Plan per property

| id | model | proof method |
|----|-------|--------------|
| C01 | `BlkId` as record over N with explicit `mod 2^k` truncation, shifts and masks | arithmetic, injectivity |
| C02 | `MultiBlkId` as base plus list of chain pieces, byte-list serializer and parser | round trip by induction on pieces |
| C03 | same; `add`, iterator, `blk_count` mod 2^16 | induction over add sequence; counterexample for wrap |
| C04 | `BlkId::compare` | order axioms |
| C05 | `try_free_blks` loop with the round-down table as floor(log2) | induction on remainder |
| C06 | slab queues as lists; alloc, break-up, merge-down, free | multiset-of-blocks invariant over operation lists |
| C07 | append allocator, sequential and as two-step interleaving | invariant; witness for the race |
| C08 | reserve as max-update | permutation/idempotence |
| C09 | fixed allocator queue | permutation invariant; witness for double free |
| C10 | bitmap allocator with dirty flag and CP buffer/list | invariants, refutation witnesses, partial theorem for the remaining cases |
| C11 | vdev free list per CP | invariant over op lists |
| C12 | varsize allocator: bitmap + cache of C06 + refill | refinement to set of live blocks |
| C13 | interval set, first-fit area search, create/remove | invariant over op lists |
| C14 | layout arithmetic | lia |
| C15, C16 | journal descriptor as list of chunks + offsets, content as map | invariants, mapping stability |
| C17 | log group builder: main buffer, overflow buffer, iovecs, footer; decoder | round trip |
| C18 | device as byte list; next_group parser with abstract crc | prefix-tearing theorem; refutation for arbitrary tearing |
| C19–C24 | log device state machine: stores, groups, metadata, truncation, rollback, crash, load | refinement to per-store map; refutations with witnesses |
| C25 | CP interleaving machine | inductive invariant for atomic exit; refutation for two-step exit |
| C26 | CP trigger/flush machine | inductive invariant |
| C27 | guard stack | invariant, refutation for assignment |
| C28–C30 | meta service: disk map from block to record, linked list, operations as write lists | crash-prefix theorem; round trip |
| C31 | Kahn's algorithm on edge list with arbitrary iteration order | soundness, completeness |
| C32 | read tracker records with waiter reference counts | invariant over op lists |
| C33 | sg list split over pieces | list induction |
| C34 | count truncation mod 2^16 | arithmetic, refutation |
| C35–C39 | inductive tree with SimpleNode capacity; do_put/do_get/do_remove/query | refinement to sorted association list |
| C40 | bsearch loop | invariant |
| C41 | byte arena with records and tail offset | invariant over op lists |
| C42 | prefix slots with reference counts | invariant; refutation |
| C43 | forest flush machine with nondeterministic completion | invariant + progress |
| C44 | link_buf/transact_bufs on buffer graph | invariant |
| C45 | byte encoder/decoder of txn records | round trip |
| C46, C47 | raft log store over abstract log store of C23 with 100-slot cache | refinement; refutation |
| C48 | journal entry encoder/decoder | round trip; refutation |
| C49 | completion/CP interleaving machine | refutation + partial for atomic completion |
| C50 | atomic state word machine | invariant |
| C51-C165 | same models | false variants of the above (refuted with a witness) and properties found while modelling; see `properties.jsonl` |

The statement of every property is in `properties.jsonl`; the status of each is in `MANIFEST.json`.


## Mutation log

`seeded/LOG.jsonl` has one line per edit of the model.  What it shows is limited:

- A build stops at the first proof that does not go through.  `theorems_failed` names the lemmas or theorems seen to fail (`errors_seen` has the messages); `claim_theorems_not_reached` names theorems of the claim that come later and were not checked for that edit.
- A proof script that fails does not show that the statement is false: some errors ("No such goal", "Found no subterm") only say that the script no longer fits.  For most lines that the claim is false of the edited model is a judgement made when the edit was chosen.  It was checked with concrete traces for the edits of `Quiesce*`, `Gate*`, `Latch*` and `Dirty*` (bounded searches, which are tests; `note` says what they found).
- `build` is that of the first run; `later_runs` has runs after a theorem was tightened.
- Up to commit c568b1e the file listed all theorems of the claim under `theorems_failed` whenever the build failed.  It was rebuilt from the raw results of the runs.
