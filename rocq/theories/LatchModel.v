(** A follower that runs out of space: the latch on log entries
    (lib/replication/repl_dev/raft_repl_dev.cpp:1240-1291 applier_create_req,
    1683-1701 handle_rollback, 1997 become_leader, 2362-2455 append handler,
    2891-2933; raft_state_machine.cpp:56-192; log_store/repl_log_store.cpp:9-39).

    The scenario is the one told in the comment at raft_repl_dev.cpp:2374-2390.
    Requests are known by their key (server, term, sequence number); a key belongs
    to one log index, [pos].  All requests have their blocks on the chunk that runs
    out of space.  The raft thread takes a batch of entries in two steps: the append
    handler (prepare) and the writing to the log (finish); the data channel, the
    commit thread and the listener go on in between.  The listener does what the
    comment says: it quiesces when told, waits for the entries before to be
    committed, clears the requests of the chunk, and resumes.  A batch is
    rejected as a whole.  Left out: requests that fail or expire (see ReqLife), data
    that does not come. *)
From Coq Require Import List Arith Lia Bool.
Import ListNotations.

Definition key := nat.

Inductive listener := Rest | Wait (n : nat) | Cleared (n : nat).

(** [reqs]: keys of m_repl_key_req_map that have blocks; [latch]: m_latch_lsn,
    [None] is the largest number; [quiet]: m_in_quience; [batch]: a batch between
    the two steps, with the index of its first entry. *)
Record st := St { reqs : list key; log : list key; com : nat; latch : option nat; quiet : bool;
                  batch : option (nat * list key); lis : listener }.

Inductive pres := Accepted | Rejected | NoSpace (n : nat).

Definition mem (k : key) (l : list key) : bool := existsb (Nat.eqb k) l.

(** The loop of the append handler (raft_repl_dev.cpp:2411-2443) over
    applier_create_req (:1240-1291); [oks]: what the allocator says. *)
Fixpoint prepare (q : bool) (c lsn : nat) (ks : list key) (oks : list bool) (r : list key) : list key * pres :=
  match ks with
  | [] => (r, Accepted)
  | k :: ks =>
      if lsn <=? c then prepare q c (S lsn) ks oks r
      else if mem k r then prepare q c (S lsn) ks oks r
      else if q then (r, Rejected)
      else match oks with
           | true :: oks => prepare q c (S lsn) ks oks (k :: r)
           | _ => (r, NoSpace lsn)
           end
  end.

(** The check of the latch (:2392). *)
Definition latched (l : option nat) (last : nat) : bool := match l with Some n => n <=? last | None => false end.

(** What raft does with a batch, given the log from its first index: entries that
    are there are passed over; from the first that differs the log is rolled back.
    Result: number passed over, entries rolled back, entries to write. *)
Fixpoint differ (lg ks : list key) : nat * list key * list key :=
  match lg, ks with
  | k' :: lg', k :: ks' =>
      if k' =? k then let '(m, a, b) := differ lg' ks' in (S m, a, b) else (0, lg, ks)
  | _, [] => (0, [], [])
  | [], _ => (0, [], ks)
  end.

(** localize_journal_entry_finish for the entries to write (raft_state_machine.cpp:161-181):
    a request that is not there is made; [None]: RELEASE_ASSERT. *)
Fixpoint finish (q ok : bool) (ks : list key) (r : list key) : option (list key) :=
  match ks with
  | [] => Some r
  | k :: ks => if mem k r then finish q ok ks r else if negb q && ok then finish q ok ks (k :: r) else None
  end.

Inductive ev :=
| Push (k : key) (ok : bool)                                      (* data channel *)
| Batch (start : nat) (ks : list key) (oks : list bool) (res : pres) (* append handler *)
| Append (rolled : bool) (ok : bool)                               (* the batch is written *)
| Commit
| Clear | Resume                                                   (* the listener *)
| Lead.                                                            (* become_leader() is called *)

Inductive out := Ok (s : st) | Abort | Stuck.

Definition pres_eqb (a b : pres) : bool :=
  match a, b with
  | Accepted, Accepted | Rejected, Rejected => true
  | NoSpace n, NoSpace n' => n =? n'
  | _, _ => false
  end.

Fixpoint placed (pos : key -> nat) (lsn : nat) (ks : list key) : bool :=
  match ks with [] => true | k :: ks => (pos k =? lsn) && placed pos (S lsn) ks end.

Definition step (pos : key -> nat) (s : st) (e : ev) : out :=
  match e with
  | Push k ok =>
      if mem k (reqs s) || quiet s || negb ok then Ok s
      else Ok (St (k :: reqs s) (log s) (com s) (latch s) (quiet s) (batch s) (lis s))
  | Batch start ks oks res =>
      match batch s with
      | Some _ => Stuck
      | None =>
          (* raft: the entry before is there *)
          if (1 <=? start) && (start <=? S (length (log s))) && placed pos start ks then
            if latched (latch s) (start + length ks - 1) then if pres_eqb res Rejected then Ok s else Stuck
            else
              let '(r, p) := prepare (quiet s) (com s) start ks oks (reqs s) in
              if pres_eqb res p then
                match p with
                | Accepted => Ok (St r (log s) (com s) (latch s) (quiet s) (Some (start, ks)) (lis s))
                | Rejected => Ok (St r (log s) (com s) (latch s) (quiet s) None (lis s))
                | NoSpace n => Ok (St r (log s) (com s) (Some n) true None (Wait n))
                end
              else Stuck
          else Stuck
      end
  | Append rolled ok =>
      match batch s with
      | None => Stuck
      | Some (start, ks) =>
          let '(m, old, new) := differ (skipn (start - 1) (log s)) ks in
          if negb (eqb rolled (match old with [] => false | _ => true end)) then Stuck
          (* raft: committed entries are not rolled back; entries after one that differs differ *)
          else if rolled && ((start + m <=? com s) || existsb (fun k => mem k old) new) then Stuck
          else
            let r := filter (fun k => negb (mem k old)) (reqs s) in
            let lt := if rolled then None else latch s in
            match finish (quiet s) ok new r with
            | None => Abort
            | Some r' =>
                let lg := match new with [] => log s | _ => firstn (start - 1 + m) (log s) ++ new end in
                Ok (St r' lg (com s) lt (quiet s) None (lis s))
            end
      end
  | Commit =>
      match nth_error (log s) (com s) with
      | Some k => Ok (St (filter (fun x => negb (x =? k)) (reqs s)) (log s) (S (com s)) (latch s) (quiet s) (batch s) (lis s))
      | None => Stuck
      end
  | Clear =>
      match lis s with
      | Wait n => if n - 1 <=? com s then Ok (St [] (log s) (com s) (latch s) (quiet s) (batch s) (Cleared n)) else Stuck
      | _ => Stuck
      end
  | Resume =>
      match lis s with
      | Cleared _ => Ok (St (reqs s) (log s) (com s) None false (batch s) Rest)
      | _ => Stuck
      end
  | Lead => Ok (St (reqs s) (log s) (com s) None (quiet s) (batch s) (lis s))
  end.

Fixpoint run (pos : key -> nat) (s : st) (l : list ev) : out :=
  match l with
  | [] => Ok s
  | e :: l => match step pos s e with Ok s' => run pos s' l | o => o end
  end.

Definition init : st := St [] [] 0 None false None Rest.
