(** Versions of index node buffers, copy on write across CPs, the node cache
    and its eviction.  Model of

    - IndexBuffer (include/homestore/index/index_internal.hpp:108-150),
    - IndexWBCache: eviction callback, write_buf, read_buf, get_writable_buf
      (lib/index/wb_cache.cpp:46-66, 127-198), async_cp_flush, do_flush_one_buf,
      process_write_completion, on_buf_flush_done_internal,
      get_next_bufs_internal (lib/index/wb_cache.cpp:829-1055),
    - IndexTable::write_node_impl, refresh_node
      (include/homestore/index/index_table.hpp:296-322, 363-367),
    - Btree::_lock_node, read_and_lock_node
      (include/homestore/btree/detail/btree_node_mgr.ipp:57-70, 213-226),
    - IndexCPContext::add_to_dirty_list (lib/index/index_cp.cpp:68-72).

    Simplifications.  Contents of a node are opaque numbers.  Ids of CPs are
    shifted by one, so that the code's -1 is 0.  Allocation and freeing of nodes
    and the order in which buffers of one CP are flushed are not here (see
    WbModel.v); [EPick] takes any eligible buffer of the list, so every order is
    covered.  Readers' locks are not tracked: a node is read at any moment at
    which no writer holds it.  The evictor (sisl, not in the repository) is
    taken to remove any record for which the callback says yes. *)
From Coq Require Import List Arith Lia Bool.
Import ListNotations.

(** index_buf_state_t (index_internal.hpp:104-108). *)
Inductive bstate := CLEAN | DIRTY | FLUSHING.

(** IndexBuffer (index_internal.hpp:115-120): block, bytes, m_state,
    m_dirtied_cp_id. *)
Record buf := Buf { bblk : nat; bval : nat; bst : bstate; bdirt : nat }.

(** IndexBtreeNode: the block it stands for, its m_idx_buf, the CP of the
    operation that holds its WRITE lock, and whether that operation has changed
    the contents since its last write_node (ghost, used for the callers' rule
    that a changed node is written before it is unlocked). *)
Record node := Node { nblk : nat; nbuf : nat; nlock : option nat; npend : bool }.

(** Where the CP before the current one stands: finished, waiting for its
    operations to leave, or being flushed (CPManager; see CpModel.v). *)
Inductive phase := Idle | Draining | Flushing.

Record state := St {
  nodes : nat -> node; nn : nat;          (* node objects ever made *)
  bufs : nat -> buf; nb : nat;            (* buffers ever made *)
  cache : nat -> option nat;              (* m_cache: block -> node *)
  disk : nat -> nat;                      (* what the vdev holds *)
  cur : nat;                              (* id of the current CP *)
  ph : phase;
  dlc : list nat; cntc : nat;             (* m_dirty_buf_list/count, current CP *)
  dlp : list nat; cntp : nat }.           (* the same, previous CP *)

Definition upd {A} (f : nat -> A) (k : nat) (x : A) : nat -> A :=
  fun y => if Nat.eqb y k then x else f y.

Inductive ev :=
| EGet (b : nat)                (* read_buf *)
| ELock (n c : nat)             (* lock_node(WRITE) by an operation of CP c *)
| EMod (n b c v : nat)          (* the holder changes the contents to v *)
| EWrite (n c : nat)            (* write_node_impl *)
| EUnlock (n c : nat)
| ESwitch                       (* a new CP becomes the current one *)
| EStart                        (* flush of the previous CP starts *)
| EPick (i : nat)               (* do_flush_one_buf *)
| EDone (i : nat)               (* process_write_completion *)
| EFinish                       (* cp_ctx->complete *)
| EEvict (b : nat).             (* evictor drops the record of b *)

(** is_clean (index_internal.hpp:146). *)
Definition clean (x : buf) : bool := match bst x with CLEAN => true | _ => false end.

(** CPs whose operations may still run: the current one, and the previous one
    until its flush starts (CPGuard, checkpoint/cp_mgr.cpp). *)
Definition open (s : state) (c : nat) : bool :=
  (c =? cur s) || ((S c =? cur s) && match ph s with Draining => true | _ => false end).

(** read_buf (wb_cache.cpp:145-167): a cached node is returned as it is,
    otherwise the block is read into a new buffer (m_dirtied_cp_id = -1, CLEAN)
    and the new node is inserted. *)
Definition get (s : state) (b : nat) : state :=
  match cache s b with
  | Some _ => s
  | None =>
      St (upd (nodes s) (nn s) (Node b (nb s) None false)) (S (nn s))
         (upd (bufs s) (nb s) (Buf b (disk s b) CLEAN 0)) (S (nb s))
         (upd (cache s) b (Some (nn s)))
         (disk s) (cur s) (ph s) (dlc s) (cntc s) (dlp s) (cntp s)
  end.

Definition set_nodes (s : state) f : state :=
  St f (nn s) (bufs s) (nb s) (cache s) (disk s) (cur s) (ph s) (dlc s) (cntc s) (dlp s) (cntp s).
Definition set_bufs (s : state) f : state :=
  St (nodes s) (nn s) f (nb s) (cache s) (disk s) (cur s) (ph s) (dlc s) (cntc s) (dlp s) (cntp s).

(** _lock_node + refresh_node + get_writable_buf (btree_node_mgr.ipp:213-226,
    index_table.hpp:363-367, wb_cache.cpp:169-198).  On a mismatch of CPs the
    lock is given back and nothing changes. *)
Definition lock (s : state) (n c : nat) : state :=
  let x := nodes s n in
  let i := nbuf x in
  let d := bdirt (bufs s i) in
  let held j := upd (nodes s) n (Node (nblk x) j (Some c) false) in
  if d =? c then set_nodes s (held i)
  else if c <? d then s
  else if clean (bufs s i) then
    set_bufs (set_nodes s (held i))
      (upd (bufs s) i (Buf (bblk (bufs s i)) (bval (bufs s i)) (bst (bufs s i)) c))
  else
    St (held (nb s)) (nn s)
       (upd (bufs s) (nb s) (Buf (bblk (bufs s i)) (bval (bufs s i)) CLEAN c)) (S (nb s))
       (cache s) (disk s) (cur s) (ph s) (dlc s) (cntc s) (dlp s) (cntp s).

(** write_node_impl + write_buf + add_to_dirty_list (index_table.hpp:296-322,
    wb_cache.cpp:127-143, index_cp.cpp:68-72). *)
Definition write (s : state) (n c : nat) : state :=
  let x := nodes s n in
  let i := nbuf x in
  let y := bufs s i in
  let nf := upd (nodes s) n (Node (nblk x) i (nlock x) false) in
  let bf := upd (bufs s) i (Buf (bblk y) (bval y) DIRTY (bdirt y)) in
  if clean y then
    if c =? cur s then
      St nf (nn s) bf (nb s) (upd (cache s) (nblk x) (Some n)) (disk s) (cur s) (ph s)
         (dlc s ++ [i]) (S (cntc s)) (dlp s) (cntp s)
    else
      St nf (nn s) bf (nb s) (upd (cache s) (nblk x) (Some n)) (disk s) (cur s) (ph s)
         (dlc s) (cntc s) (dlp s ++ [i]) (S (cntp s))
  else set_bufs (set_nodes s nf) bf.

Definition holds (s : state) (n c : nat) : bool :=
  (n <? nn s) && match nlock (nodes s n) with Some c' => c' =? c | None => false end.

Definition step (s : state) (e : ev) : option state :=
  match e with
  | EGet b => Some (get s b)
  | ELock n c =>
      if (n <? nn s) && open s c
         && match nlock (nodes s n) with None => true | _ => false end
      then Some (lock s n c) else None
  | EMod n b c v =>
      if holds s n c && (nblk (nodes s n) =? b) then
        let x := nodes s n in
        let y := bufs s (nbuf x) in
        Some (set_bufs (set_nodes s (upd (nodes s) n (Node (nblk x) (nbuf x) (nlock x) true)))
                (upd (bufs s) (nbuf x) (Buf (bblk y) v (bst y) (bdirt y))))
      else None
  | EWrite n c => if holds s n c then Some (write s n c) else None
  | EUnlock n c =>
      (* callers write a node they changed before they unlock it
         (btree_mutate_impl.ipp:192, btree_remove_impl.ipp:48, transact_nodes) *)
      if holds s n c && negb (npend (nodes s n)) then
        let x := nodes s n in
        Some (set_nodes s (upd (nodes s) n (Node (nblk x) (nbuf x) None false)))
      else None
  | ESwitch =>
      match ph s with
      | Idle => Some (St (nodes s) (nn s) (bufs s) (nb s) (cache s) (disk s) (S (cur s)) Draining
                         [] 0 (dlc s) (cntc s))
      | _ => None
      end
  | EStart =>
      (* all operations of that CP have left *)
      match ph s with
      | Draining =>
          if forallb (fun n => match nlock (nodes s n) with Some c => negb (S c =? cur s) | None => true end)
               (seq 0 (nn s))
          then Some (St (nodes s) (nn s) (bufs s) (nb s) (cache s) (disk s) (cur s) Flushing
                        (dlc s) (cntc s) (dlp s) (cntp s))
          else None
      | _ => None
      end
  | EPick i =>
      (* get_next_bufs_internal (wb_cache.cpp:1032-1048) and do_flush_one_buf:905 *)
      let y := bufs s i in
      match ph s with
      | Flushing =>
          if existsb (Nat.eqb i) (dlp s) && match bst y with DIRTY => true | _ => false end
             && (S (bdirt y) =? cur s)
          then Some (set_bufs s (upd (bufs s) i (Buf (bblk y) (bval y) FLUSHING (bdirt y))))
          else None
      | _ => None
      end
  | EDone i =>
      (* the write of the buffer's bytes has completed; on_buf_flush_done_internal
         (wb_cache.cpp:989-1007) *)
      let y := bufs s i in
      match bst y with
      | FLUSHING =>
          if i <? nb s then
            Some (St (nodes s) (nn s) (upd (bufs s) i (Buf (bblk y) (bval y) CLEAN (bdirt y))) (nb s)
                     (cache s) (upd (disk s) (bblk y) (bval y)) (cur s) (ph s)
                     (dlc s) (cntc s) (dlp s) (cntp s - 1))
          else None
      | _ => None
      end
  | EFinish =>
      match ph s, cntp s with
      | Flushing, 0 => Some (St (nodes s) (nn s) (bufs s) (nb s) (cache s) (disk s) (cur s) Idle
                                (dlc s) (cntc s) (dlp s) (cntp s))
      | _, _ => None
      end
  | EEvict b =>
      (* callback of the cache (wb_cache.cpp:52-55): only the node's own buffer
         is looked at *)
      match cache s b with
      | Some n =>
          if clean (bufs s (nbuf (nodes s n))) then
            Some (St (nodes s) (nn s) (bufs s) (nb s) (upd (cache s) b None) (disk s) (cur s) (ph s)
                     (dlc s) (cntc s) (dlp s) (cntp s))
          else None
      | None => None
      end
  end.

(** The state after boot: nothing cached, [d] on the drives. *)
Definition init (d : nat -> nat) : state :=
  St (fun _ => Node 0 0 None false) 0 (fun _ => Buf 0 0 CLEAN 0) 0 (fun _ => None) d 1 Idle [] 0 [] 0.

(** Runs whose every event meets [g] in the state it finds. *)
Fixpoint run (g : state -> ev -> bool) (s : state) (l : list ev) : option state :=
  match l with
  | [] => Some s
  | e :: l => if g s e then match step s e with Some s' => run g s' l | None => None end else None
  end.

(** What the code checks: nothing beyond [step]. *)
Definition anyg (s : state) (e : ev) : bool := true.

(** All versions of block [b] are clean. *)
Definition all_clean (s : state) (b : nat) : bool :=
  forallb (fun j => negb (bblk (bufs s j) =? b) || clean (bufs s j)) (seq 0 (nb s)).

Definition is_cached (s : state) (n : nat) : bool :=
  match cache s (nblk (nodes s n)) with Some m => m =? n | None => false end.

(** First rule of a careful evictor: a node in use is not dropped; so a node
    that is dropped is not locked, and one that is locked is still in the
    cache. *)
Definition rule_use (s : state) (e : ev) : bool :=
  match e with
  | EEvict b =>
      match cache s b with
      | Some n => match nlock (nodes s n) with None => true | _ => false end
      | None => true
      end
  | ELock n _ => is_cached s n
  | _ => true
  end.

(** Second rule: a node is not dropped while an older version of its block is
    still to be written. *)
Definition rule_old (s : state) (e : ev) : bool :=
  match e with EEvict b => all_clean s b | _ => true end.

Definition careful (s : state) (e : ev) : bool := rule_use s e && rule_old s e.

(** What a reader of node [n] sees (the lock keeps writers out). *)
Definition read (s : state) (n : nat) : option nat :=
  if n <? nn s then
    match nlock (nodes s n) with
    | None => Some (bval (bufs s (nbuf (nodes s n))))
    | Some _ => None
    end
  else None.
