(** * Model of what the index recovery does to the block allocator.
    Sources, below [/repo/src/lib]: [index/wb_cache.cpp] 613-675 (commit_blk of the blocks kept),
    728-731 (free_blk), 761 (recovery_completed); [device/virtual_dev.cpp] 167-187 (commit_blk: while
    the store is starting, reserve_on_cache), 343-368 and 759-768 (free_blk only collects the block;
    it reaches the allocator at the end of the next flush); [index/index_service.cpp] 59 (the
    allocator is the fixed-size one).
    The allocator is that of FixedModel.v, loaded from the stored bitmap.  A node is its block number;
    one chunk. *)
From Coq Require Import ZArith NArith List.
From Verif Require Import WbModel DagModel RecovModel.
From Verif Require FixedModel FixedSpec.
Import ListNotations.

Definition blk (b : nat) : N := N.of_nat b.
(** [n]: blocks allocated by the repairs; [m]: blocks allocated later, until the end of the flush. *)
Definition recovery_ops (q : rst) (n m : nat) : list FixedSpec.uop :=
  map (fun b => FixedSpec.Replay (blk b)) (q_kept q) ++ repeat FixedSpec.Alloc n ++
  FixedSpec.Recovered :: repeat FixedSpec.Alloc m ++ map (fun b => FixedSpec.Free (blk b)) (q_del q).
