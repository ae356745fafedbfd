(** * Model of the nodes of one level of an index across a crash.
    "Leaf" below is a node of the level looked at; in an interior node the values are children.
    Sources, below [/repo/src]: [include/homestore/btree/detail/btree_mutate_impl.ipp] 255-290
    (split_node), [btree_remove_impl.ipp] 525-563 (the commit part of merge_nodes),
    [lib/index/wb_cache.cpp] 888-942 (which buffers are written), 552-675 (first pass of the
    recovery), 813-826 (was_node_committed).
    Entries are kept as lists (their layout in a node is C25-C34); the dependency links are those of
    WbModel.v, the links found again after the crash those of DagModel.v.  The write of one node is
    atomic.  Reads do not fail. *)
From Coq Require Import ZArith List Bool Arith.
From Verif Require Import WbModel DagModel.
Import ListNotations.

(** A leaf: its entries and [next_bnode]. *)
Record lnode := Ln { n_ents : list (Z * nat); n_next : option nat }.
Definition mem_t := nat -> lnode.
Definition mset (m : mem_t) (i : nat) (n : lnode) : mem_t := fun j => if Nat.eqb j i then n else m j.

(** What happens in a CP.  [LPut]: a leaf is changed in place.  [LTx p c es news freeds]: below [p],
    leaf [c] and the leaves [freeds] to its right become [c], now with the entries [es], and the new
    leaves [news]; a split has no [freeds] and one new leaf.  [LOther]: anything above the leaves. *)
Inductive lop :=
| LPut (c : nat) (es : list (Z * nat))
| LTx (p c : nat) (es : list (Z * nat)) (news : list (nat * list (Z * nat))) (freeds : list nat)
| LOther (o : wop).

(** btree_remove_impl.ipp 547-557: the new nodes are linked from right to left; [nx]: the next node
    of the last one.  The result also has the id the node before them must point to. *)
Fixpoint link_news (m : mem_t) (news : list (nat * list (Z * nat))) (nx : option nat) : mem_t * option nat :=
  match news with
  | [] => (m, nx)
  | (i, es) :: r => let '(m1, t) := link_news m r nx in (mset m1 i (Ln es t), Some i)
  end.

(** btree_remove_impl.ipp 527-562; btree_mutate_impl.ipp 265-266 is the case of one new node and no
    node freed. *)
Definition lexec (m : mem_t) (o : lop) : mem_t :=
  match o with
  | LPut c es => mset m c (Ln es (n_next (m c)))
  | LTx _ c es news freeds =>
      let nx := n_next (m (last freeds c)) in
      let '(m1, t) := link_news m news nx in
      mset m1 c (Ln es t)
  | LOther _ => m
  end.
Definition lrun (m : mem_t) (l : list lop) : mem_t := fold_left lexec l m.

(** What the write-back cache sees: WbModel.wop. *)
Definition wop_of (o : lop) : wop :=
  match o with
  | LPut c _ => OWrite c
  | LTx p c _ news freeds => OTransact p c (map fst news) freeds
  | LOther o => o
  end.

(** wb_cache.cpp 888-942: the leaves on disk after the crash.  [landed b]: the write of [b] reached
    the disk.  A freed buffer is not written (923-926). *)
Definition disk_after (m0 m1 : mem_t) (freed landed : nat -> bool) : mem_t :=
  fun b => if landed b && negb (freed b) then m1 b else m0 b.

(** wb_cache.cpp 813-826 [was_node_committed].  A node on disk has the id of the crashed CP iff its
    write landed.  [fuel]: links followed. *)
Fixpoint committed (fuel : nat) (d : dag) (landed : nat -> bool) (b : option nat) : bool :=
  match b with
  | None => false
  | Some x => if rb_freed (d_buf d x)
              then match fuel with O => false | S f => committed f d landed (rb_up (d_buf d x)) end
              else landed x
  end.

(** What the first pass (wb_cache.cpp 613-675) decides about a buffer of the map.
    [Deleted]: marked deleted and its block freed.  [Dropped]: its block stays unallocated, or is
    freed (a node created and freed in the CP).  [Restored]: a freed node is taken back and its block
    committed.  [Committed]: the block of a new node is committed.  [Untouched]: an old node. *)
Inductive fate := Deleted | Dropped | Restored | Committed | Untouched.
Definition decide (d : dag) (landed : nat -> bool) (b : nat) : fate :=
  let n := S (length (d_ids d)) in
  let x := d_buf d b in
  if rb_freed x then
    if committed n d landed (Some b) then Deleted
    else if rb_new x then Dropped else Restored
  else if rb_new x then
    if committed n d landed (Some b) && committed n d landed (rb_up x) then Committed else Dropped
  else Untouched.
