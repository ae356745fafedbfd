(** The count of dirty memory of the index and the checkpoints that it asks for
    (lib/index/wb_cache.cpp:127-143 write_buf, 944-978 process_write_completion;
    lib/common/resource_mgr.cpp:97-113 inc_dirty_buf_size, dec_dirty_buf_size;
    lib/checkpoint/cp_mgr.cpp:42-45 the callback, 154-186 cp_io_enter and cp_io_exit,
    197-270 do_trigger_cp_flush, 272-333 flush and its end).

    Threads work inside a checkpoint.  A buffer is put on the list of the checkpoint of
    the thread and counted afterwards, in two steps, between which anything may happen.
    Simplified: buffers of a list are counted, not named; every flush is one of the
    index, which has done all its buffers when it ends; a switch of checkpoints is one
    step (the mutex and the RCU grace period); numbers do not wrap at 2^63.  Left out:
    recovery (write_buf then writes at once and counts nothing), shutdown, nested guards. *)
From Coq Require Import List ZArith Lia Bool.
Import ListNotations.
Open Scope Z_scope.

(** A thread is outside, or inside a checkpoint (cp_mgr.cpp:154-168): [old] if that is
    the one that was switched away from; [pend] between add_to_dirty_list and
    inc_dirty_buf_size (wb_cache.cpp:140-141). *)
Inductive tst := Out | In (old pend : bool).

(** [cnt]: m_hs_dirty_buf_cnt; [cur], [old]: buffers on the lists of the current
    checkpoint and of the one switched away from, not yet flushed; [infl]:
    m_in_flush_phase; [started]: cp_start_flush was called; [again]:
    m_pending_trigger_cp; [bad]: the error of resource_mgr.cpp:111 was logged. *)
Record st := St { cnt : Z; cur : nat; old : nat; infl : bool; started : bool; again : bool;
                  bad : bool; thr : list tst }.

Definition init (n : nat) : st := St 0 0 0 false false false false (repeat Out n).

Definition to_old (t : tst) : tst := match t with In _ p => In true p | Out => Out end.

Definition is_old (t : tst) : bool := match t with In o _ => o | Out => false end.

(** The switch in do_trigger_cp_flush (cp_mgr.cpp:220-263): all threads that are inside
    are inside the checkpoint that is to be flushed. *)
Definition switch (s : st) : st :=
  St (cnt s) 0 (cur s) true false false (bad s) (map to_old (thr s)).

(** do_trigger_cp_flush (cp_mgr.cpp:201-220). *)
Definition trigger (force : bool) (s : st) : st :=
  if infl s
  then if force then St (cnt s) (cur s) (old s) true (started s) true (bad s) (thr s) else s
  else switch s.

Fixpoint set (l : list tst) (i : nat) (t : tst) : list tst :=
  match l, i with
  | [], _ => []
  | _ :: r, O => t :: r
  | x :: r, S j => x :: set r j t
  end.

Definition with_thr (s : st) (l : list tst) : st :=
  St (cnt s) (cur s) (old s) (infl s) (started s) (again s) (bad s) l.

Inductive ev :=
| Enter (i : nat)   (* cp_guard(), cp_mgr.cpp:154-168 *)
| Push (i : nat)    (* add_to_dirty_list, index_cp.cpp:67-71 *)
| Count (i : nat)   (* inc_dirty_buf_size, resource_mgr.cpp:97-105 *)
| Exit (i : nat)    (* ~CPGuard, cp_mgr.cpp:179-186 *)
| Ask (force : bool) (* trigger_cp_flush by the timer (cp_mgr.cpp:101) or a user *)
| Start             (* the last one leaves the old checkpoint: cp_start_flush *)
| Done              (* process_write_completion of one buffer, wb_cache.cpp:944-956 *)
| Finish.           (* on_cp_flush_done, cp_mgr.cpp:296-333 *)

(** [size]: m_node_size; [limit]: get_dirty_buf_limit.  [None]: cannot happen now. *)
Definition step (size limit : Z) (s : st) (e : ev) : option st :=
  match e with
  | Enter i =>
      match nth_error (thr s) i with
      | Some Out => Some (with_thr s (set (thr s) i (In false false)))
      | _ => None
      end
  | Push i =>
      match nth_error (thr s) i with
      | Some (In o false) =>
          Some (St (cnt s) (if o then cur s else S (cur s)) (if o then S (old s) else old s)
                   (infl s) (started s) (again s) (bad s) (set (thr s) i (In o true)))
      | _ => None
      end
  | Count i =>
      match nth_error (thr s) i with
      | Some (In o true) =>
          let s1 := St (cnt s + size) (cur s) (old s) (infl s) (started s) (again s) (bad s)
                       (set (thr s) i (In o false)) in
          Some (if limit <? cnt s + size then trigger false s1 else s1)
      | _ => None
      end
  | Exit i =>
      match nth_error (thr s) i with
      | Some (In _ false) => Some (with_thr s (set (thr s) i Out))
      | _ => None
      end
  | Ask f => Some (trigger f s)
  | Start =>
      if infl s && negb (started s) && negb (existsb is_old (thr s))
      then Some (St (cnt s) (cur s) (old s) true true (again s) (bad s) (thr s))
      else None
  | Done =>
      match old s with
      | S o => if started s
               then Some (St (cnt s - size) (cur s) o (infl s) true (again s)
                             (bad s || (cnt s <? size)) (thr s))
               else None
      | O => None
      end
  | Finish =>
      match old s with
      | O => if started s
             then let s1 := St (cnt s) (cur s) 0 false false (again s) (bad s) (thr s) in
                  Some (if again s then trigger false s1 else s1)
             else None
      | S _ => None
      end
  end.

Fixpoint run (size limit : Z) (s : st) (l : list ev) : option st :=
  match l with
  | [] => Some s
  | e :: r => match step size limit s e with Some s1 => run size limit s1 r | None => None end
  end.
