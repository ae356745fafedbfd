(** * Model of the raft log store.
    Source: src/lib/replication/log_store/home_raft_log_store.cpp and .h, over
    src/lib/logstore/log_store.cpp in append mode.
    One caller at a time (the raft server holds its lock around the calls); the records kept
    by the log device are taken as read back unchanged (LogDevProperties, C19 - C23), so a
    record is the entry itself: serialization keeps term, type and data of a log entry.
    m_records (sisl::StreamTracker) holds the lsns from start to next - 1, all active, those
    up to tail completed; active_upto(h) and completed_upto(h) give the last of the unbroken
    run starting at the larger of h and start.  Stopping and metrics are left out. *)
From Coq Require Import NArith ZArith List Bool.
Import ListNotations.
Open Scope Z_scope.

(** nuraft::log_entry: term and contents. *)
Record entry := Entry { e_term : N; e_data : N }.

(** log_store.hpp: HomeLogStore, m_start_lsn, m_tail_lsn, m_next_lsn, m_records. *)
Record hls := Hls { h_start : Z; h_tail : Z; h_next : Z; h_rec : Z -> option entry }.
(** log_store.cpp:36-46 *)
Definition hls_new : hls := Hls 0 (-1) 0 (fun _ => None).
(** log_store.cpp:85-93 append_async; the lsn is the next one. *)
Definition hls_append (h : hls) (e : entry) : hls :=
  Hls (h_start h) (h_tail h) (h_next h + 1) (fun l => if l =? h_next h then Some e else h_rec h l).
(** log_store.cpp:350-356 flush: everything issued is completed, on_write_completion :148-186. *)
Definition hls_flush (h : hls) : hls := Hls (h_start h) (h_next h - 1) (h_next h) (h_rec h).
(** log_store.cpp:116-146 read_sync; [None] is the exception. *)
Definition hls_read (h : hls) (lsn : Z) : hls * option entry :=
  if (lsn <? h_start h) || (h_next h <=? lsn) then (h, None)
  else let h' := if h_tail h <? lsn then hls_flush h else h in (h', h_rec h' lsn).
(** log_store.cpp:208-259 truncate.  Beyond the tail, the tail and the next lsn move and the
    skipped lsns hold nothing. *)
Definition hls_truncate (h : hls) (upto : Z) : hls :=
  if upto <? h_start h then h
  else let h' := hls_flush h in
       if h_tail h' <? upto then Hls (upto + 1) upto (upto + 1) (fun _ => None)
       else Hls (upto + 1) (h_tail h') (h_next h') (h_rec h').
(** log_store.cpp:358-411 rollback.  HS_LOG_ASSERT only logs in a release build. *)
Definition hls_rollback (h : hls) (to : Z) : hls :=
  if to =? h_tail h then h
  else if (h_tail h <? to) || (to <? h_start h - 1) then h
  else let h' := if h_tail h + 1 <? h_next h then hls_flush h else h in
       Hls (h_start h') to (to + 1) (fun l => if l <=? to then h_rec h' l else None).
(** log_store.cpp:342-348 *)
Definition hls_issued (h : hls) (from : Z) : Z :=
  let s := Z.max (from + 1) (h_start h) in if s <? h_next h then h_next h - 1 else s - 1.
Definition hls_completed (h : hls) (from : Z) : Z :=
  let s := Z.max (from + 1) (h_start h) in if s <=? h_tail h then h_tail h else s - 1.
(** log_store.cpp:331-340 foreach: the completed records from [from] on, with their lsns. *)
Fixpoint lsns (from : Z) (n : nat) : list Z := match n with O => [] | S m => from :: lsns (from + 1) m end.
Definition hls_list (h : hls) (from : Z) : list (Z * entry) :=
  let s := Z.max from (h_start h) in
  flat_map (fun l => match h_rec h l with Some e => [(l, e)] | None => [] end)
           (lsns s (Z.to_nat (h_tail h + 1 - s))).

(** home_raft_log_store.h: m_log_store, m_log_entry_cache, m_last_durable_lsn.  A cache slot
    is an index and a pointer. *)
Definition cache_size : Z := 100.
Record rls := Rls { r_store : hls; r_cache : Z -> Z * option entry; r_durable : Z }.
(** home_raft_log_store.cpp:87-114 *)
Definition rls_new : rls := Rls hls_new (fun _ => (0, None)) (-1).
(** home_raft_log_store.h: to_repl_lsn, to_store_lsn *)
Definition to_repl (l : Z) : Z := l + 1.
Definition to_store (i : Z) : Z := i - 1.
Definition pos_of (i : Z) : Z := i mod cache_size.
Definition cache_put (c : Z -> Z * option entry) (i : Z) (e : entry) : Z -> Z * option entry :=
  fun p => if p =? pos_of i then (i, Some e) else c p.

(** home_raft_log_store.cpp:122-136 *)
Definition next_slot (r : rls) : Z := to_repl (hls_issued (r_store r) (r_durable r)) + 1.
Definition last_index (r : rls) : Z := to_repl (hls_completed (r_store r) (r_durable r)).
Definition start_index (r : rls) : Z := Z.max 1 (to_repl (h_start (r_store r) - 1) + 1).

(** Outcome of a call that reads an entry: the entry, the dummy entry, a null pointer, or an
    exception. *)
Inductive answer := Found (e : entry) | Dummy | Null | Thrown.
(** home_raft_log_store.cpp:138-162 last_entry *)
Definition last_entry (r : rls) : rls * answer :=
  let m := hls_issued (r_store r) (r_durable r) in
  if m <? 0 then (r, Dummy)
  else let i := to_repl m in
       let s := r_cache r (pos_of i) in
       if fst s =? i then (r, match snd s with Some e => Found e | None => Null end)
       else let '(h, x) := hls_read (r_store r) m in
            (Rls h (r_cache r) (r_durable r), match x with Some e => Found e | None => Dummy end).
(** home_raft_log_store.cpp:257-274 entry_at *)
Definition entry_at (r : rls) (i : Z) : rls * answer :=
  let s := r_cache r (pos_of i) in
  if fst s =? i then (r, match snd s with Some e => Found e | None => Null end)
  else let '(h, x) := hls_read (r_store r) (to_store i) in
       (Rls h (r_cache r) (r_durable r), match x with Some e => Found e | None => Thrown end).
(** home_raft_log_store.cpp:276-293 term_at; a null pointer in the cache is followed. *)
Inductive term_answer := Term (t : N) | TThrown | TCrash.
Definition term_at (r : rls) (i : Z) : rls * term_answer :=
  let s := r_cache r (pos_of i) in
  if fst s =? i then (r, match snd s with Some e => Term (e_term e) | None => TCrash end)
  else let '(h, x) := hls_read (r_store r) (to_store i) in
       (Rls h (r_cache r) (r_durable r), match x with Some e => Term (e_term e) | None => TThrown end).

(** home_raft_log_store.cpp:164-179 append *)
Definition append (r : rls) (e : entry) : rls * Z :=
  let i := to_repl (h_next (r_store r)) in
  (Rls (hls_append (r_store r) e) (cache_put (r_cache r) i e) (r_durable r), i).
(** home_raft_log_store.cpp:211-216 end_of_append_batch *)
Definition end_batch (r : rls) (start cnt : Z) : rls :=
  Rls (hls_flush (r_store r)) (r_cache r) (to_store (start + cnt - 1)).
(** home_raft_log_store.cpp:181-209 write_at; [None] is the release assert. *)
Definition write_at (r : rls) (i : Z) (e : entry) : option rls :=
  let h := hls_rollback (r_store r) (to_store i - 1) in
  if to_repl (h_next h) =? i then
    let c := cache_put (r_cache r) i e in
    let c' := fun p => if i <? fst (c p) then (0, None) else c p in
    Some (end_batch (Rls (hls_append h e) c' (-1)) i 1)
  else None.
(** home_raft_log_store.cpp:361-374 compact, :376-379 flush, :381-384 last_durable_index,
    :386-391 purge_all_logs *)
Definition compact (r : rls) (i : Z) : rls :=
  Rls (hls_truncate (r_store r) (to_store i)) (r_cache r) (r_durable r).
Definition rflush (r : rls) : rls := Rls (hls_flush (r_store r)) (r_cache r) (r_durable r).
Definition last_durable (r : rls) : rls * Z :=
  let d := hls_completed (r_store r) (r_durable r) in (Rls (r_store r) (r_cache r) d, to_repl d).
Definition purge_all (r : rls) : rls :=
  Rls (hls_truncate (r_store r) (hls_issued (r_store r) (r_durable r))) (r_cache r) (r_durable r).

(** home_raft_log_store.cpp:218-230 log_entries: the callback goes on while the lsn is below
    [end - 1] and keeps the lsns below [end]. *)
Fixpoint take_below (lim : Z) (l : list (Z * entry)) : list entry :=
  match l with
  | [] => []
  | (c, e) :: t => (if c <? lim then [e] else []) ++ (if c <? lim - 1 then take_below lim t else [])
  end.
Definition log_entries (r : rls) (a b : Z) : list entry :=
  take_below (to_store b) (hls_list (r_store r) (to_store a)).
(** home_raft_log_store.cpp:233-255 log_entries_ext; the sums stay far below 2^64. *)
Definition log_entries_ext (r : rls) (a b hint : Z) : list entry :=
  log_entries r a (if hint <? 0 then a else if 0 <? hint then Z.min (a + hint) b else b).

(** home_raft_log_store.cpp:295-327 pack: the count asked for, then what was found. *)
Definition pack (r : rls) (i : Z) (cnt : nat) : nat * list entry :=
  (cnt, firstn cnt (map snd (hls_list (r_store r) (to_store i)))).
(** home_raft_log_store.cpp:349-357; [None]: reading past the end of the buffer throws. *)
Fixpoint append_n (r : rls) (n : nat) (l : list entry) : option rls :=
  match n, l with
  | O, _ => Some r
  | S m, e :: t => append_n (fst (append r e)) m t
  | S _, [] => None
  end.
(** home_raft_log_store.cpp:329-359 apply_pack.  For an index above the next slot the loop
    [while (index++ < slot)] ends at once. *)
Fixpoint fill_dummies (fuel : nat) (r : rls) (index slot : Z) (dummy : entry) : rls :=
  match fuel with
  | O => r
  | S f => if index <? slot then fill_dummies f (fst (append r dummy)) (index + 1) slot dummy else r
  end.
Definition dummy_entry : entry := Entry 0 0.
Definition apply_pack (r : rls) (i : Z) (p : nat * list entry) : option rls :=
  let slot := next_slot r in
  let r1 := if i <? slot then Rls (hls_rollback (r_store r) (to_store i - 1)) (r_cache r) (r_durable r)
            else if slot <? i then fill_dummies (Z.to_nat (i - slot)) r i slot dummy_entry
            else r in
  match append_n r1 (fst p) (snd p) with
  | None => None
  | Some r2 => Some (end_batch r2 slot (Z.of_nat (fst p)))
  end.

(** A restart: home_raft_log_store.cpp:87-114 with an existing log store, whose records up to
    store lsn [upto] are found again (log_store.cpp:188-206 on_log_found). *)
Definition restart (r : rls) (upto : Z) : rls :=
  let h := r_store r in
  Rls (Hls (h_start h) upto (upto + 1) (fun l => if l <=? upto then h_rec h l else None)) (fun _ => (0, None)) (-1).
