(** * Model of the index write-back cache: dependency links and the flush.

    Sources, all below [/repo/src]:
    - [lib/index/wb_cache.cpp] (IndexWBCache),
    - [lib/index/index_cp.cpp], [index_cp.hpp] (IndexCPContext: dirty list),
    - [lib/index/index_service.cpp] 306-331 (IndexBuffer down-buffer counters),
    - [include/homestore/index/index_table.hpp] 296-405 (IndexTable:
      write_node_impl, transact_nodes, free_node_impl, on_root_changed, update_sb).

    A buffer is a number.  Only the fields used by linking and flushing are kept;
    the content of a node is not.  One checkpoint (CP) is followed: [b_new] is
    [m_created_cp_id == cp id] and [b_cp] is [m_dirtied_cp_id == cp id].
    Everything is the release build: [HS_DBG_ASSERT] is skipped. *)
From Coq Require Import ZArith List Bool Arith.
Import ListNotations.

(** index_internal.hpp 104-108, [index_buf_state_t]. *)
Inductive bstate := Clean | Dirty | Flushing.

(** index_internal.hpp 115-160, [IndexBuffer]: [m_created_cp_id], [m_state],
    [m_dirtied_cp_id], [m_up_buffer], [m_wait_for_down_buffers], [m_node_freed]. *)
Record buf := mkBuf {
  b_new : bool;
  b_st : bstate;
  b_cp : bool;
  b_up : option nat;
  b_wait : Z;
  b_freed : bool }.

Definition set_st (s : bstate) (b : buf) : buf :=
  mkBuf (b_new b) s (b_cp b) (b_up b) (b_wait b) (b_freed b).
Definition set_up (u : option nat) (b : buf) : buf :=
  mkBuf (b_new b) (b_st b) (b_cp b) u (b_wait b) (b_freed b).
Definition add_wait (d : Z) (b : buf) : buf :=
  mkBuf (b_new b) (b_st b) (b_cp b) (b_up b) (b_wait b + d) (b_freed b).
Definition set_freed (b : buf) : buf :=
  mkBuf (b_new b) (b_st b) (b_cp b) (b_up b) (b_wait b) true.
Definition dirty_it (b : buf) : buf :=
  mkBuf (b_new b) Dirty true (b_up b) (b_wait b) (b_freed b).

Definition bufs := nat -> buf.
Definition upd (m : bufs) (i : nat) (f : buf -> buf) : bufs :=
  fun j => if Nat.eqb j i then f (m j) else m j.

(** The state during a CP before its flush: the buffers and [IndexCPContext]'s
    [m_dirty_buf_list], [m_dirty_buf_count] (index_cp.hpp 140-141). *)
Record wb := mkWb { w_buf : bufs; w_list : list nat; w_count : Z }.

(** Start of a CP.  A buffer taken by [get_writable_buf] (wb_cache.cpp 169-198)
    is a flushed buffer, whose link was reset when it was flushed, or a fresh
    copy: no link and no wait.  [isnew b] tells which buffers [alloc_buf]
    (95-124) makes during this CP. *)
Definition wb_init (isnew : nat -> bool) : wb :=
  mkWb (fun b => mkBuf (isnew b) Clean false None 0%Z false) [] 0%Z.

(** index_table.hpp 296-322 [write_node_impl], wb_cache.cpp 127-143 [write_buf],
    index_cp.cpp 67-71 [add_to_dirty_list]: only a clean buffer is put on the list. *)
Definition write_node (w : wb) (b : nat) : wb :=
  match b_st (w_buf w b) with
  | Clean => mkWb (upd (w_buf w) b dirty_it) (w_list w ++ [b]) (w_count w + 1)
  | _ => mkWb (upd (w_buf w) b (set_st Dirty)) (w_list w) (w_count w)
  end.

(** wb_cache.cpp 445-456 [free_buf]; the block itself is freed by the vdev. *)
Definition free_buf (w : wb) (b : nat) : wb :=
  mkWb (upd (w_buf w) b set_freed) (w_list w) (w_count w).

(** wb_cache.cpp 363-443 [link_buf]: a link to an up buffer made in this CP goes
    to that buffer's own up buffer; an existing link is only replaced by a
    sibling link.  [None]: the null [real_up_buf] is dereferenced. *)
Definition link_buf (w : wb) (up down : nat) (sibling : bool) : option wb :=
  let real_up := if b_new (w_buf w up) then b_up (w_buf w up) else Some up in
  let add m := match real_up with
               | Some r => Some (mkWb (upd (upd m down (set_up (Some r))) r (add_wait 1))
                                      (w_list w) (w_count w))
               | None => None
               end in
  match b_up (w_buf w down) with
  | Some u =>
      if negb sibling || match real_up with Some r => Nat.eqb u r | None => false end
      then Some w
      else add (upd (w_buf w) u (add_wait (-1)))
  | None => add (w_buf w)
  end.

Fixpoint link_all (w : wb) (c : nat) (l : list nat) : option wb :=
  match l with
  | [] => Some w
  | n :: l' => match link_buf w c n true with
               | Some w' => link_all w' c l'
               | None => None
               end
  end.

(** The loop over the freed nodes, wb_cache.cpp 295-304: only those that others
    wait to be written through are linked. *)
Fixpoint link_freed (w : wb) (c : nat) (l : list nat) : option wb :=
  match l with
  | [] => Some w
  | f :: l' =>
      if Z.eqb (b_wait (w_buf w f)) 0 then link_freed w c l'
      else match link_buf w c f true with
           | Some w' => link_freed w' c l'
           | None => None
           end
  end.

(** wb_cache.cpp 281-316 [transact_bufs]; the journal record is the subject of
    TxnJournalModel.v. *)
Definition transact_bufs (w : wb) (p c : nat) (news freeds : list nat) : option wb :=
  match link_buf w p c false with
  | Some w1 => match link_all w1 c news with
               | Some w2 => link_freed w2 c freeds
               | None => None
               end
  | None => None
  end.

(** What the B-tree asks of the cache during a CP.  [OTransact] is
    [IndexTable::transact_nodes] (index_table.hpp 324-348; its parent is absent
    only during recovery, not modelled), [ORoot] is [on_root_changed] (375-394)
    with [refresh_meta_buf] (wb_cache.cpp 200-220: the meta buffer of this CP is
    put on the dirty list the first time). *)
Inductive wop :=
| OWrite (b : nat)
| OTransact (p c : nat) (news freeds : list nat)
| ORoot (m r : nat)
| OFree (b : nat).

Definition wexec (w : wb) (o : wop) : option wb :=
  match o with
  | OWrite b => Some (write_node w b)
  | OTransact p c news freeds =>
      let w1 := fold_left write_node news w in
      let w2 := write_node (write_node w1 c) p in
      let w3 := fold_left free_buf freeds w2 in
      transact_bufs w3 p c news freeds
  | ORoot m r => transact_bufs (write_node w m) m r [] []
  | OFree b => Some (free_buf w b)
  end.

Fixpoint wrun (w : wb) (l : list wop) : option wb :=
  match l with
  | [] => Some w
  | o :: l' => match wexec w o with Some w' => wrun w' l' | None => None end
  end.

(** ** The flush *)

(** What is observable of a flush: a buffer's write is issued, or is done.  (A
    freed buffer and an invalid meta buffer are only passed through, without
    I/O, wb_cache.cpp 907-925; their two events then follow each other.) *)
Inductive fev := Issue (b : nat) | Done (b : nat).

(** [f_rest]: what [m_dirty_buf_it] has still to visit.  [f_batch]: buffers that
    [get_next_bufs] returned and whose [do_flush_one_buf] has not begun.
    [f_fly]: issued and not completed.  [f_fin]: how often the end of the flush
    was reported.  [f_log]: newest first. *)
Record fstate := mkF {
  f_w : bufs;
  f_rest : list nat;
  f_count : Z;
  f_batch : list nat;
  f_fly : list nat;
  f_started : bool;
  f_fin : nat;
  f_log : list fev }.

(** wb_cache.cpp 1047-1048: the test on a buffer of the dirty list. *)
Definition pickable (b : buf) : bool :=
  match b_st b with Dirty => b_cp b && Z.eqb (b_wait b) 0 | _ => false end.

(** wb_cache.cpp 1040-1056, the loop over [next_dirty] (index_cp.cpp 77-82). *)
Fixpoint take_dirty (m : bufs) (rest : list nat) (n : nat) : list nat * list nat :=
  match rest with
  | [] => ([], [])
  | b :: r =>
      match n with
      | O => ([], rest)
      | S n' => if pickable (m b)
                then let '(p, r') := take_dirty m r n' in (b :: p, r')
                else take_dirty m r n
      end
  end.

(** wb_cache.cpp 1022-1037: the buffer above the one just flushed. *)
Definition notify_up (m : bufs) (b : nat) : bufs * list nat :=
  match b_up (m b) with
  | Some u =>
      let m1 := upd m u (add_wait (-1)) in
      (upd m1 b (set_up None), if Z.eqb (b_wait (m u)) 1 then [u] else [])
  | None => (upd m b (set_up None), [])
  end.

(** wb_cache.cpp 989-1007 [on_buf_flush_done_internal] with
    [get_next_bufs_internal(1, buf)]: new buffers, rest, next buffer, and whether
    more is to come. *)
Definition on_done (m : bufs) (rest : list nat) (count : Z) (b : nat)
  : bufs * list nat * option nat * bool :=
  if Z.eqb count 1 then (upd m b (set_st Clean), rest, None, false)
  else
    let '(m1, ups) := notify_up m b in
    match ups with
    | u :: _ => (upd m1 b (set_st Clean), rest, Some u, true)
    | [] => let '(p, rest') := take_dirty m1 rest 1 in
            (upd m1 b (set_st Clean), rest', hd_error p, true)
    end.

Fixpoint remove1 (b : nat) (l : list nat) : list nat :=
  match l with
  | [] => []
  | x :: r => if Nat.eqb x b then r else x :: remove1 b r
  end.

Definition mem (b : nat) (l : list nat) : bool := existsb (Nat.eqb b) l.

(** [EStart qd]: a flush fiber begins (wb_cache.cpp 873-884).
    [EIssue b]: [do_flush_one_buf] of a buffer of the batch (888-942).
    [EDone b]: the write of [b] completes ([process_write_completion], 944-978).
    [EReuse b up wait]: the following CP takes a buffer that is clean (or that
    it has already taken), dirties it and links it as it likes
    ([get_writable_buf], [link_buf] of the next CP). *)
Inductive ev :=
| EStart (qd : nat)
| EIssue (b : nat)
| EDone (b : nat)
| EReuse (b : nat) (up : option nat) (wait : Z).

(** [one] is true for one flush fiber (the default of [cache_flush_threads]):
    then nothing runs between choosing the buffer that follows a completed one
    and setting it to FLUSHING.  With several fibers the choice is made under
    [m_flush_mtx] but the state is set later, outside it. *)
Definition fstep (one : bool) (s : fstate) (e : ev) : option fstate :=
  match e with
  | EStart qd =>
      let '(p, rest') := take_dirty (f_w s) (f_rest s) qd in
      Some (mkF (f_w s) rest' (f_count s) (f_batch s ++ p) (f_fly s) true (f_fin s) (f_log s))
  | EIssue b =>
      if mem b (f_batch s)
      then Some (mkF (upd (f_w s) b (set_st Flushing)) (f_rest s) (f_count s)
                     (remove1 b (f_batch s)) (b :: f_fly s) (f_started s) (f_fin s)
                     (Issue b :: f_log s))
      else None
  | EDone b =>
      if mem b (f_fly s)
      then
        let '(m', rest', nxt, more) := on_done (f_w s) (f_rest s) (f_count s) b in
        let fly' := remove1 b (f_fly s) in
        let fin' := if more then f_fin s else S (f_fin s) in
        let log' := Done b :: f_log s in
        Some (match nxt with
              | Some u =>
                  if one
                  then mkF (upd m' u (set_st Flushing)) rest' (f_count s - 1) (f_batch s)
                           (u :: fly') (f_started s) fin' (Issue u :: log')
                  else mkF m' rest' (f_count s - 1) (f_batch s ++ [u]) fly' (f_started s) fin' log'
              | None => mkF m' rest' (f_count s - 1) (f_batch s) fly' (f_started s) fin' log'
              end)
      else None
  | EReuse b up wait =>
      let x := f_w s b in
      let free := match b_st x with Clean => true | _ => negb (b_cp x) end in
      if free
      then Some (mkF (upd (f_w s) b (fun _ => mkBuf false Dirty false up wait (b_freed x)))
                     (f_rest s) (f_count s) (f_batch s) (f_fly s) (f_started s) (f_fin s) (f_log s))
      else None
  end.

Fixpoint frun (one : bool) (s : fstate) (l : list ev) : option fstate :=
  match l with
  | [] => Some s
  | e :: l' => match fstep one s e with Some s' => frun one s' l' | None => None end
  end.

(** wb_cache.cpp 872-873: the flush begins.  [order] is the order in which
    [ConcurrentInsertVector] yields the dirty list: its per-thread parts one
    after the other, so any permutation. *)
Definition flush_init (w : wb) (order : list nat) : fstate :=
  mkF (w_buf w) order (w_count w) [] [] false 0 [].

(** ** The superblock of an index table

    [sb_mem] is the root in the table's superblock in memory
    ([m_sb->root_node]); [sb_copy] the root in the meta buffer of the running CP
    ([MetaIndexBuffer::copy_sb_to_buf], index_service.cpp 364), [sb_flush] the
    one in the meta buffer of the CP being flushed; [sb_disk] the root in the
    superblock on disk.  Nodes: [sb_dirty] dirtied by the running CP, [sb_todo]
    dirtied by the CP being flushed and not yet written, [sb_nodes] on disk. *)
Record sbst := mkSb {
  sb_mem : nat; sb_copy : option nat; sb_flush : option nat; sb_disk : nat;
  sb_dirty : list nat; sb_todo : list nat; sb_nodes : list nat; sb_busy : bool }.

(** [SWrite]: a node is dirtied.  [SRoot r]: [on_root_changed] (index_table.hpp
    375-394) for a root dirtied by the same operation.  [SSwitch]: the running
    CP begins to flush and the next one to run.  [SNode], [SMeta]: a node and
    the meta buffer of the flushing CP reach the disk, the latter after the root
    it names.  [SEnd]: the last buffer is done, wb_cache.cpp 962-966: [write_sb]
    of the table (index_table.hpp 396-405 [update_sb]). *)
Inductive sbev := SWrite (b : nat) | SRoot (r : nat) | SSwitch | SNode (b : nat) | SMeta | SEnd.

Definition sbstep (s : sbst) (e : sbev) : option sbst :=
  let '(mkSb me co fl di dirty todo nodes busy) := s in
  match e with
  | SWrite b => Some (mkSb me co fl di (b :: dirty) todo nodes busy)
  | SRoot r => Some (mkSb r (Some r) fl di (r :: dirty) todo nodes busy)
  | SSwitch => if busy then None else Some (mkSb me None co di [] dirty nodes true)
  | SNode b => if busy && mem b todo
               then Some (mkSb me co fl di dirty (filter (fun x => negb (Nat.eqb x b)) todo)
                               (b :: nodes) busy)
               else None
  | SMeta => match fl with
             | Some r => if busy && negb (mem r todo)
                         then Some (mkSb me co None r dirty todo nodes busy)
                         else None
             | None => None
             end
  | SEnd => match busy, todo, fl with
            | true, [], None => Some (mkSb me co None me dirty [] nodes false)
            | _, _, _ => None
            end
  end.

Fixpoint sbrun (s : sbst) (l : list sbev) : option sbst :=
  match l with
  | [] => Some s
  | e :: l' => match sbstep s e with Some s' => sbrun s' l' | None => None end
  end.

(** A table whose root is on disk, between two CPs. *)
Definition sb_start (r : nat) : sbst := mkSb r None None r [] [] [r] false.
